From Coq Require Import ZArith QArith List Bool Arith Lia Lqa.
From Verif Require Import Model_Result Model_Loop Spec_Loop Model_Meter Spec_Meter Proof_Meter.
Import ListNotations.
Open Scope Q_scope.

Section MeterLoop.
  Context {Y SS CS DI E V : Type}.
  Notation MS := (list Q * list call)%type.
  Notation config := (config Y SS CS DI E V MS).
  Notation state := (state Y SS CS DI V MS).

  Definition rows_of (rescale : Z -> Q) (h : list (attempt Y)) : list row :=
    map (fun a => [(true, rescale (at_end a))]) h.

  Lemma meter_body (c : config) (s : state) :
    st_meter (body_fun c s) = meter_step c (st_meter s) (at_end (attempt_of c s)).
  Proof.
    unfold body_fun, attempt_of, do_adapt, do_step. cbn [at_end].
    destruct (cfg_event c); [|reflexivity]. destruct (first_true _ _). reflexivity.
  Qed.
  Lemma tprev_body (c : config) (s : state) : st_tprev (body_fun c s) = at_end (attempt_of c s).
  Proof.
    unfold body_fun, attempt_of, do_adapt, do_step. cbn [at_end].
    destruct (cfg_event c); [|reflexivity]. destruct (first_true _ _). reflexivity.
  Qed.

  Lemma meter_run (m : Q) (rescale : Z -> Q) (c : config) n : meter_step c = text_meter m rescale ->
    forall s, snd (st_meter (while_loop c n s)) = snd (st_meter s) ++ text_steps m (fst (st_meter s)) (rows_of rescale (history c n s)).
  Proof.
    intros M. induction n as [|n IH]; intros s; cbn [while_loop history].
    - cbn. now rewrite app_nil_r.
    - destruct (cond_fun c s); [|cbn; now rewrite app_nil_r].
      rewrite IH, meter_body, M. unfold text_meter. cbn [rows_of map text_steps].
      destruct (text_step m (fst (st_meter s)) _) as [st' cs]. cbn [fst snd]. now rewrite <- app_assoc.
  Qed.

  Lemma history_rows (rescale : Z -> Q) (c : config) n : stepto_len c = None ->
    (forall t, (t <= cfg_t1 c)%Z -> rescale t <= 1) -> (forall t, (t < cfg_t1 c)%Z -> rescale t < 1) ->
    forall s, batch_solve 1 (rows_of rescale (history c n s)).
  Proof.
    intros ST LE LT. induction n as [|n IH]; intros s; cbn [history]; [exact Logic.I|].
    destruct (cond_fun c s) eqn:C; [|exact Logic.I]. cbn [rows_of map batch_solve].
    split; [reflexivity|]. split; [eexists; now left|]. split.
    { intros a p [[= _ <-]|[]]. apply LE. unfold attempt_of. cbn [at_end]. lia. }
    split; [|apply IH].
    fold (rows_of rescale (history c n (body_fun c s))).
    destruct n as [|n]; [exact Logic.I|]. cbn [history]. destruct (cond_fun c (body_fun c s)) eqn:C2; [|exact Logic.I].
    cbn [rows_of map]. constructor; [|constructor]. intros _. cbn [fst snd]. split; [reflexivity|].
    apply LT. unfold cond_fun in C2. rewrite ST in C2. apply andb_true_iff in C2. rewrite Z.ltb_lt, tprev_body in C2. tauto.
  Qed.

  Lemma rows_reach_end (rescale : Z -> Q) (h : list (attempt Y)) : all_reach_end (rows_of rescale h).
  Proof.
    intros r p Hr. unfold rows_of in Hr. apply in_map_iff in Hr. destruct Hr as [a [<- _]]. intros [H|[]]. discriminate.
  Qed.
End MeterLoop.

Lemma pf_C49_solve (Y SS CS DI E V : Type) (c : config Y SS CS DI E V (list Q * list call))
    (i : initial Y SS CS (list Q * list call)) (h : list (attempt Y)) (o : outcome Y SS CS DI V (list Q * list call))
    (m : Q) (k : nat) (rescale : Z -> Q) (kind_of : nat -> kind) (tr : list (nat * call)) (who : nat) :
  solve_run c i h o -> stepto_len c = None ->
  meter_step c = text_meter m rescale -> in_meter i = text_meter_init ->
  (forall t, (t <= cfg_t1 c)%Z -> rescale t <= 1) -> (forall t, (t < cfg_t1 c)%Z -> rescale t < 1) ->
  0 < m -> is_ceiling (1 / m) k ->
  kind_of who = Text -> calls_of who tr = snd (st_meter (out_state o)) ++ [CClose] ->
  let ls := printed who (serve_all kind_of tr) in
  hd_error ls = Some 0 /\ last ls 0 == 1 /\ spaced m ls /\ (length ls <= k + 1)%nat.
Proof.
  intros [s0 [n [I0 [_ [Hh F]]]]] ST M IM LE LT M0 KC K C. cbn zeta.
  assert (O : out_state o = while_loop c n s0).
  { unfold finish, finish_batched in F. destruct (final_time c _ (while_loop c n s0)) as [[tf yf] r].
    destruct (if (cfg_t0 c =? cfg_t1 c)%Z then _ else _) as [sv|]; [|discriminate]. cbn [obind] in F.
    destruct (omap2 _ _ sv); [|discriminate]. cbn [obind] in F. injection F as <-. reflexivity. }
  assert (S0 : st_meter s0 = text_meter_init).
  { rewrite <- IM. unfold init_state in I0. destruct (omap _ _); [|discriminate]. cbn [obind] in I0.
    destruct (omap2 _ _ _); [|discriminate]. cbn [obind] in I0.
    destruct (if cfg_dense c then _ else _); [|discriminate]. cbn [obind] in I0.
    destruct (first_true _ _). injection I0 as <-. reflexivity. }
  rewrite O, (meter_run m rescale c n M s0), S0 in C. cbn [text_meter_init fst snd app] in C.
  set (rows := rows_of rescale (history c n s0)) in *.
  assert (C' : calls_of who tr = text_program m 1 rows ++ map CStep []) by (cbn [map]; rewrite app_nil_r; exact C).
  pose proof (history_rows rescale c n ST LE LT s0) as B. fold rows in B.
  destruct (pf_C49_lines kind_of tr who m k 1 rows [] K C' M0 KC B) as [H1 [H2 _]].
  destruct (pf_C49_increasing kind_of tr who m k 1 rows [] K C' M0 KC B (rows_reach_end _ _)) as [H3 H4].
  auto.
Qed.
