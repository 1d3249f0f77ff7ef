(** Theorems about the integration loop: C01, C02, C03, C08, C12, C48, C55. *)
From Coq Require Import ZArith List Bool Arith Lia.
From Verif Require Import Model_Result Model_Loop Spec_Loop Proof_Result Proof_PropLoop
  Proof_PropLoop2 Proof_LoopResume Ex_Loop.
Import ListNotations.
Open Scope Z_scope.

Section Theorems.
  Context {Y SS CS DI E V MS : Type}.
  Notation config := (config Y SS CS DI E V MS).
  Notation initial := (initial Y SS CS MS).
  Notation outcome := (outcome Y SS CS DI V MS).
  Notation state := (state Y SS CS DI V MS).
  Notation attempt := (attempt Y).

  (** C01: the reported statistics are the numbers of attempted, accepted and rejected steps, and
      the number of attempts is at most [max_steps]. *)
  Theorem C01_step_accounting :
    forall (c : config) (i : initial) (h : list attempt) (o : outcome),
    solve_run c i h o ->
    st_num_steps (out_state o) = length h /\
    st_num_accepted (out_state o) = length (filter at_keep h) /\
    st_num_rejected (out_state o) = length (filter (fun a => negb (at_keep a)) h) /\
    st_num_steps (out_state o)
      = (st_num_accepted (out_state o) + st_num_rejected (out_state o))%nat /\
    (forall m, cfg_max_steps c = Some m -> (st_num_steps (out_state o) <= m)%nat).
  Proof. exact pf_C01_step_accounting. Qed.
  (** C01: [max_steps_reached] is reported exactly when all of [max_steps] attempts were used, the
      end was not reached, and there was neither an error nor an event. *)
  Theorem C01_max_steps_iff :
    forall (c : config) (i : initial) (h : list attempt) (o : outcome),
    results_ok c -> rf_results_ok c -> solve_run c i h o ->
    (out_result o = max_steps_reached <->
     cfg_max_steps c = Some (length h) /\ unfinished c (out_state o) /\
     st_result (out_state o) = successful).
  Proof. exact pf_C01_max_steps_iff. Qed.
  (** C02: every attempted step lies in [[t0, t1]], and consecutive attempts move forward, for every
      controller that keeps the documented contract. *)
  Theorem C02_times_in_interval :
    forall (c : config) (i : initial) (h : list attempt) (o : outcome) (Inv : Z -> Z -> CS -> Prop),
    solve_run c i h o ->
    controller_contract c Inv -> midpoint_ok c ->
    cfg_t0 c <= cfg_t1 c -> cfg_t0 c <= in_tnext i ->
    Inv (cfg_t0 c) (Z.min (in_tnext i) (cfg_t1 c)) (in_controller_state i) ->
    (forall a, In a h -> cfg_t0 c <= at_from a /\ at_from a <= at_to a /\ at_to a <= cfg_t1 c) /\
    (forall h1 a b h2, h = h1 ++ a :: b :: h2 ->
       at_from a <= at_from b /\
       (at_keep a = true -> at_to a <= at_from b) /\
       (at_keep a = false -> at_from b = at_from a)) /\
    rejects_in_place h.
  Proof. exact pf_C02_times_in_interval. Qed.
  (** C03: a successful solve ended at [t1], with the value of the last accepted step. *)
  Theorem C03_success_reaches_t1 :
    forall (c : config) (i : initial) (h : list attempt) (o : outcome),
    solve_run c i h o -> stepto_len c = None -> cfg_t0 c <= cfg_t1 c ->
    results_ok c -> rf_results_ok c ->
    out_result o = successful ->
    out_tfinal o = cfg_t1 c /\
    (rejects_in_place h ->
     (out_tfinal o, out_yfinal o) = current (cfg_t0 c) (in_y i) (accepted h)).
  Proof. exact pf_C03_success_reaches_t1. Qed.
  (** C08: a rejected step changes nothing that is observable later. *)
  Theorem C08_rejected_step :
    forall (c : config) (s : state) (Inv : Z -> Z -> CS -> Prop),
    controller_contract c Inv -> Inv (st_tprev s) (st_tnext s) (st_controller_state s) ->
    st_tprev s <= st_tnext s -> st_tnext s <= cfg_t1 c -> cond_fun c s = true ->
    length (st_save s) = length (cfg_subs c) ->
    at_keep (attempt_of c s) = false ->
    let s' := body_fun c s in
    st_y s' = st_y s /\ st_tprev s' = st_tprev s /\ st_solver_state s' = st_solver_state s /\
    st_made_jump s' = st_made_jump s /\ st_save s' = st_save s /\
    st_dense_ts s' = st_dense_ts s /\ st_dense_infos s' = st_dense_infos s /\
    st_dense_index s' = st_dense_index s /\ st_num_accepted s' = st_num_accepted s /\
    st_num_steps s' = S (st_num_steps s) /\ st_num_rejected s' = S (st_num_rejected s).
  Proof. exact pf_C08_rejected_step. Qed.
  (** C08: the accepted steps alone form a run of the solver, as if the rejected ones had not
      happened. *)
  Theorem C08_accepted_steps_run :
    forall (c : config) (i : initial) (h : list attempt) (o : outcome),
    solve_run c i h o -> rejects_in_place h ->
    solver_run c (cfg_t0 c) (in_y i) (in_solver_state i) (in_made_jump i) (accepted h).
  Proof. exact pf_C08_accepted_steps_run. Qed.
  (** C12: without events, all steps before the last one had no error, and an error of the last one
      is what is reported. *)
  Theorem C12_first_failure_wins :
    forall (c : config) (i : initial) (h : list attempt) (a : attempt) (o : outcome),
    solve_run c i (h ++ [a]) o -> cfg_event c = None ->
    Forall (fun b => attempt_result b = successful) h /\
    (attempt_result a <> successful -> out_result o = attempt_result a) /\
    (attempt_result a = successful ->
     out_result o = successful \/ out_result o = max_steps_reached).
  Proof. exact pf_C12_first_failure_wins. Qed.
  (** C55: a solve cut off by [max_steps] and continued from its final state makes the same steps
      and has the same outcome as a single solve. *)
  Theorem C55_stop_and_resume :
    forall (c1 c2 c : config) (i1 i2 i : initial) (h1 h2 h : list attempt) (o1 o2 o : outcome) (n1 n2 : nat),
    same_numerics c c1 -> same_numerics c1 c2 ->
    cfg_max_steps c1 = Some n1 -> cfg_max_steps c2 = Some n2 -> cfg_max_steps c = Some (n1 + n2)%nat ->
    stepto_len c = None -> midpoint_ok c1 -> cfg_t0 c <= cfg_t1 c -> results_ok c1 ->
    rf_results_ok c1 -> rf_extensional c1 -> rf_extensional c2 ->
    cfg_t0 c = cfg_t0 c1 -> same_start i i1 ->
    solve_run c1 i1 h1 o1 -> out_result o1 = max_steps_reached ->
    let s := out_state o1 in
    cfg_t0 c2 = st_tprev s -> in_y i2 = st_y s -> in_tnext i2 = st_tnext s ->
    in_made_jump i2 = st_made_jump s -> in_solver_state i2 = st_solver_state s ->
    in_controller_state i2 = st_controller_state s ->
    solve_run c2 i2 h2 o2 -> solve_run c i h o ->
    Forall2 attempt_eq h (h1 ++ h2) /\
    out_tfinal o = out_tfinal o2 /\ out_yfinal o = out_yfinal o2 /\ out_result o = out_result o2 /\
    st_num_steps (out_state o) = (st_num_steps (out_state o1) + st_num_steps (out_state o2))%nat /\
    st_solver_state (out_state o) = st_solver_state (out_state o2) /\
    st_controller_state (out_state o) = st_controller_state (out_state o2).
  Proof. exact pf_C55_stop_and_resume. Qed.
End Theorems.

(** C48: the documented table of [update_result]. *)
  Theorem C48_table :
    forall (old new : RESULTS),
    (old = successful -> update_result old new = new) /\
  (old = event_occurred -> new = successful \/ new = event_occurred ->
   update_result old new = event_occurred) /\
  (old = event_occurred -> is_error new -> update_result old new = new) /\
  (is_error old -> update_result old new = old).
  Proof. exact pf_C48_table. Qed.
(** C48: a monoid. *)
  Theorem C48_associative :
    forall (a b c : RESULTS),
    update_result (update_result a b) c = update_result a (update_result b c) /\
  update_result successful a = a /\ update_result a successful = a.
  Proof. exact pf_C48_associative. Qed.
(** C48: what a sequence of updates amounts to: the first error, otherwise an event if there was
    one. *)
  Theorem C48_history :
    forall (rs : list RESULTS),
    fold_left update_result rs successful =
  match find errorb rs with
  | Some e => e
  | None => if existsb is_event rs then event_occurred else successful
  end.
  Proof. exact pf_C48_history. Qed.

(** Non-vacuity. *)
Definition c_plain : config Z nat nat (Z * Z) unit Z nat :=
  ex_cfg 1000 9 [sub_of true true (Some [3; 400; 400; 1000]) 2] None.

(** A run with five attempts, of which the second is rejected. *)
Example C01_C03_C08_instance :
  results_ok c_plain /\ rf_results_ok c_plain /\
  exists h o, solve_run c_plain ex_init h o /\
    (rejects_in_place h /\ map at_keep h = [true; false; true; true; true] /\ out_result o = successful /\
     out_tfinal o = 1000 /\ out_yfinal o = 1010 /\
     map at_from h = [0; 250; 250; 400; 700]).
Proof.
  split; [apply ex_results_ok|]. split; [apply ex_rf_ok|].
  apply runs. vm_compute. split; [repeat constructor; discriminate|]. auto 8.
Qed.

Example C02_instance :
  controller_contract c_plain (fun _ _ _ => True) /\ midpoint_ok c_plain /\
  cfg_t0 c_plain <= in_tnext ex_init.
Proof. split; [apply ex_contract|]. split; [apply ex_midpoint|]. cbn. lia. Qed.

(** Cut off after three attempts. *)
Example C01_cut_off_instance :
  exists h o, solve_run (ex_cfg 1000 3 [] None) ex_init h o /\
    (out_result o = max_steps_reached /\ length h = 3%nat /\ st_tprev (out_state o) = 400 /\
     st_tprev (out_state o) < 1000).
Proof. apply runs. vm_compute. auto. Qed.

(** The premise of [C08_rejected_step] is met in the second state of that run. *)
Example C08_rejected_instance :
  exists s, cond_fun c_plain s = true /\ at_keep (attempt_of c_plain s) = false /\
    length (st_save s) = length (cfg_subs c_plain) /\ controller_contract c_plain (fun _ _ _ => True) /\
    st_tprev s <= st_tnext s /\ st_tnext s <= cfg_t1 c_plain /\
    st_y s = 260.
Proof.
  destruct (init_state c_plain ex_init) as [s0|] eqn:Hi; [|discriminate Hi].
  exists (body_fun c_plain s0). vm_compute in Hi. injection Hi as <-.
  do 3 (split; [reflexivity|]). split; [apply ex_contract|]. vm_compute. repeat split; discriminate.
Qed.

(** An error of the solver on the step that passes 600 ends the solve; the error of a rejected step
    (attempt two would be over [250, 550]) does not. *)
Example C12_instance :
  exists h o, solve_run (ex_cfg_fail 1000 600 9 [] None) ex_init h o /\
    (out_result o = other_error 7 /\ map attempt_result h
       = [successful; successful; successful; other_error 7]).
Proof. apply runs. vm_compute. auto. Qed.
Example C12_rejected_instance :
  exists h o, solve_run (ex_cfg_fail 1000 450 3 [] None) ex_init h o /\
    (out_result o = max_steps_reached /\ map at_solver_result h
       = [successful; other_error 7; successful]).
Proof. apply runs. vm_compute. auto. Qed.

(** Stop after three attempts (one of them rejected), resume with two more. *)
Example C55_instance :
  let c1 := ex_cfg 1000 3 [] None in
  exists h1 o1, solve_run c1 ex_init h1 o1 /\
    (out_result o1 = max_steps_reached /\
     let s := out_state o1 in
     let i2 := Initial (st_y s) (st_tnext s) (st_made_jump s) (st_solver_state s)
                       (st_controller_state s) 0%nat PInf in
     let c2 : config Z nat nat (Z * Z) unit Z nat := Config (ex_step 5000) (fun e => e) ex_interp ex_adapt None
                      (fun a b => a + (b - a) / 2) (fun n _ => S n) [] true None (st_tprev s) 1000
                      (Some 2%nat) in
     same_numerics c1 c2 /\
     match run c2 i2 with
     | Some (h2, o2) => map at_from (h1 ++ h2) = [0; 250; 250; 400; 700] /\
                        out_result o2 = successful /\ out_tfinal o2 = 1000
     | None => False
     end).
Proof.
  cbv zeta. apply runs.
  destruct (run (ex_cfg 1000 3 [] None) ex_init) as [[h o]|] eqn:Hr; vm_compute in Hr; [|discriminate].
  injection Hr as <- <-. cbn [fst snd].
  split; [reflexivity|]. split; [constructor; reflexivity|]. vm_compute. auto.
Qed.

Example C48_instance :
  fold_left update_result [successful; event_occurred; dt_min_reached; other_error 3] successful
  = dt_min_reached.
Proof. reflexivity. Qed.

(** C12 with events is false: an event on the same step hides the error. *)
Theorem C12_event_hides_error_refuted :
  exists (c : config Z nat nat (Z * Z) unit Z nat) i h a o,
    solve_run c i (h ++ [a]) o /\ attempt_result a = other_error 7 /\
    at_keep a = true /\ out_result o = event_occurred.
Proof.
  destruct (runs (ex_cfg_fail 1000 600 9 [] (Some (Event [ex_bool_event 600] None))) ex_init
    (fun h o => exists h' a, h = h' ++ [a] /\ attempt_result a = other_error 7 /\
                             at_keep a = true /\ out_result o = event_occurred)) as (h & o & H1 & h' & a & H2).
  { vm_compute. eexists [_; _; _], _. split; [reflexivity|]. auto. }
  destruct H2 as (-> & H2). do 5 eexists. eauto.
Qed.

Print Assumptions C01_step_accounting.
Print Assumptions C01_max_steps_iff.
Print Assumptions C02_times_in_interval.
Print Assumptions C03_success_reaches_t1.
Print Assumptions C08_rejected_step.
Print Assumptions C08_accepted_steps_run.
Print Assumptions C12_first_failure_wins.
Print Assumptions C55_stop_and_resume.
Print Assumptions C48_table.
Print Assumptions C48_associative.
Print Assumptions C48_history.
Print Assumptions C12_event_hides_error_refuted.
