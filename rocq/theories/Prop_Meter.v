(** Theorems about progress meters: C49. *)
From Coq Require Import ZArith QArith List Bool Arith Lia Lqa.
From Verif Require Import Model_Result Model_Loop Spec_Loop Model_Meter Spec_Meter Proof_Meter Proof_MeterLoop Ex_Meter.
Import ListNotations.
Open Scope Q_scope.

(** C49: however the callbacks of several solves are interleaved, each solve prints what it would
    print alone, holds the bar it would hold alone, and raises an exception if it would do so
    alone. *)
  Theorem C49_isolated :
    forall (kind_of : nat -> kind) (tr : list (nat * call)) (c : nat),
    let alone := map (pair c) (calls_of c tr) in
  printed c (serve_all kind_of tr) = printed c (serve_all kind_of alone) /\
  bar_of c (serve_all kind_of tr) = bar_of c (serve_all kind_of alone) /\
  (In c (w_raised (serve_all kind_of tr)) <-> In c (w_raised (serve_all kind_of alone))).
  Proof. exact pf_C49_isolated. Qed.
Example C49_isolated_instance :
  let w := serve_all ex_kinds ex_trace in
  printed 1 w = [0; 1 # 4; 1 # 2; 9 # 10; 1] /\ printed 2 w = [0; 1 # 10; 9 # 10; 1] /\ printed 3 w = [0; 1 # 3] /\
  w_raised w = [4%nat].
Proof. vm_compute. repeat split; reflexivity. Qed.

(** C49: a text meter first prints 0, last prints 1, and prints at most ceil(1/minimum_increase) + 2
    lines, whatever the number of steps, the size of the batch and the other solves; callbacks made
    after closing are ignored. *)
  Theorem C49_lines :
    forall (kind_of : nat -> kind) (tr : list (nat * call)) (c : nat) (m : Q) (k n : nat) (rows : list row) (more : list Q),
    kind_of c = Text -> calls_of c tr = text_program m n rows ++ map CStep more ->
  0 < m -> is_ceiling (1 / m) k -> batch_solve n rows ->
  let ls := printed c (serve_all kind_of tr) in
  hd_error ls = Some 0 /\ last ls 0 == 1 /\ (length ls <= k + 2)%nat /\ ~ In c (w_raised (serve_all kind_of tr)).
  Proof. exact pf_C49_lines. Qed.
Example C49_lines_instance :
  calls_of 1 ex_trace = text_program (1 # 5) 2 ex_rows ++ map CStep [1 # 3] /\
  is_ceiling (1 / (1 # 5)) 5 /\ batch_solve 2 ex_rows /\ all_reach_end ex_rows.
Proof. exact (conj eq_refl (conj ex_ceiling (conj ex_rows_batch ex_rows_end))). Qed.

(** C49: if all elements of the batch run up to their end, the lines strictly increase, by more than
    [minimum_increase] except for the last one, and there is one line fewer. *)
  Theorem C49_increasing :
    forall (kind_of : nat -> kind) (tr : list (nat * call)) (c : nat) (m : Q) (k n : nat) (rows : list row) (more : list Q),
    kind_of c = Text -> calls_of c tr = text_program m n rows ++ map CStep more ->
  0 < m -> is_ceiling (1 / m) k -> batch_solve n rows -> all_reach_end rows ->
  let ls := printed c (serve_all kind_of tr) in spaced m ls /\ (length ls <= k + 1)%nat.
  Proof. exact pf_C49_increasing. Qed.

(** C49: without that hypothesis, a batch in which some element stops early (because of an event or
    a failure) can print the same line again and again. *)
  Theorem C49_early_stop_refuted :
    exists (n : nat) (rows : list row), batch_solve n rows /\
    printed 0 (serve_all (fun _ => Text) (map (pair 0%nat) (text_program (1 # 50) n rows))) =
    [0; 1 # 2; 6 # 10; 6 # 10; 6 # 10; 1].
  Proof. exact pf_C49_early_stop_refuted. Qed.

(** C49: a solve, as modelled by the loop, with a text meter. *)
  Theorem C49_solve :
    forall (Y SS CS DI E V : Type) (c : config Y SS CS DI E V (list Q * list call)) (i : initial Y SS CS (list Q * list call)) (h : list (attempt Y)) (o : outcome Y SS CS DI V (list Q * list call)) (m : Q) (k : nat) (rescale : Z -> Q) (kind_of : nat -> kind) (tr : list (nat * call)) (who : nat),
    solve_run c i h o -> stepto_len c = None ->
  meter_step c = text_meter m rescale -> in_meter i = text_meter_init ->
  (forall t, (t <= cfg_t1 c)%Z -> rescale t <= 1) -> (forall t, (t < cfg_t1 c)%Z -> rescale t < 1) ->
  0 < m -> is_ceiling (1 / m) k ->
  kind_of who = Text -> calls_of who tr = snd (st_meter (out_state o)) ++ [CClose] ->
  let ls := printed who (serve_all kind_of tr) in
  hd_error ls = Some 0 /\ last ls 0 == 1 /\ spaced m ls /\ (length ls <= k + 1)%nat.
  Proof. exact pf_C49_solve. Qed.
Example C49_solve_instance :
  exists h o, solve_run ex_meter_cfg ex_meter_init h o /\ stepto_len ex_meter_cfg = None /\
    meter_step ex_meter_cfg = text_meter (1 # 5) ex_rescale /\ in_meter ex_meter_init = text_meter_init /\
    map at_end h = [250; 250; 400; 700; 1000]%Z /\
    printed 0 (serve_all (fun _ => Text) (map (pair 0%nat) (snd (st_meter (out_state o)) ++ [CClose]))) =
    [0; 250 # 1000; 700 # 1000; 1000 # 1000].
Proof. exact ex_meter_run. Qed.
Example C49_solve_rescale : (forall t, (t <= cfg_t1 ex_meter_cfg)%Z -> ex_rescale t <= 1) /\
  (forall t, (t < cfg_t1 ex_meter_cfg)%Z -> ex_rescale t < 1).
Proof. exact (conj ex_rescale_le ex_rescale_lt). Qed.

(** C49: a tqdm bar is refreshed once every [refresh_steps] steps, and ends at 100%. *)
  Theorem C49_tqdm :
    forall (kind_of : nat -> kind) (tr : list (nat * call)) (c : nat) (refresh_steps n : nat) (rows : list row) (more : list Q),
    kind_of c = Tqdm -> calls_of c tr = tqdm_program refresh_steps n rows ++ map CStep more ->
  (0 < refresh_steps)%nat -> batch_solve n rows ->
  let ls := printed c (serve_all kind_of tr) in
  hd_error ls = Some 0 /\ last ls 0 == 1 /\
  (length ls = 2 + (length rows + refresh_steps - 1) / refresh_steps)%nat.
  Proof. exact pf_C49_tqdm. Qed.
Example C49_tqdm_instance : calls_of 2 ex_trace = tqdm_program 3 2 ex_rows ++ map CStep [].
Proof. reflexivity. Qed.

Print Assumptions C49_isolated.
Print Assumptions C49_lines.
Print Assumptions C49_increasing.
Print Assumptions C49_early_stop_refuted.
Print Assumptions C49_solve.
Print Assumptions C49_tqdm.
