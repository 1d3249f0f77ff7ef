(** Backward solves with [adjoint_rms_seminorm]: C80. *)
From Coq Require Import QArith Qround ZArith List Bool Arith Lia.
From Verif Require Import Model_Result Model_Loop Spec_Loop Model_Float Model_PID Model_Seminorm Spec_PID Spec_Related Spec_Seminorm Proof_PropLoop Proof_Seminorm
  Ex_Loop Ex_PID Ex_Units Ex_Seminorm.
Import ListNotations.
Open Scope Q_scope.

(** C80: with the seminorm, a decision and the next step depend on the solution and its gradient only, not on the gradients of
    arguments and terms, their errors or their number. *)
  Theorem C80_decisions :
    forall (rms_norm : tree -> xq) (n m k k' : nat) (p : pid_controller) (t0 t1 : xq) (y0 y0' y1 y1' e e' : tree) (s : pid_state),
    same_leading (n + m) y0 y0' -> same_leading (n + m) y1 y1' -> same_leading (n + m) e e' ->
  pid_adapt (seminorm_controller rms_norm n m k p) t0 t1 y0 y1 e s = pid_adapt (seminorm_controller rms_norm n m k' p) t0 t1 y0' y1' e' s.
  Proof. exact pf_C80_decisions. Qed.
(** C80: with a norm of everything they do depend on them. *)
  Theorem C80_other_norms :
    exists (nm : tree -> xq) (p : pid_controller) (y0 y1 y0' y1' e e' : tree), norm p = nm /\
    same_leading 2 y0 y0' /\ same_leading 2 y1 y1' /\ same_leading 2 e e' /\
    po_keep (pid_adapt p (QFin 0) (QFin 1) y0 y1 e (PidState (QFin 1) (QFin 1) false)) <>
    po_keep (pid_adapt p (QFin 0) (QFin 1) y0' y1' e' (PidState (QFin 1) (QFin 1) false)).
  Proof. exact pf_C80_other_norms. Qed.

Section Solve.
  Context {SS DI V MS SS' DI' V' MS' : Type}.
  Notation config := (config tree SS pid_state DI tree V MS).
  Notation config' := (Model_Loop.config tree SS' pid_state DI' tree V' MS').
  (** C80: whole solves: if the equations for the solution and its gradient do not involve the other gradients, then which other
      gradients are computed does not change the steps, the statistics, and the gradient with respect to the solution. *)
  Theorem C80_solve :
    forall (rms_norm : tree -> xq) (n m k k' : nat) (val : Z -> Q) (rnd : Q -> Z) (p : pid_controller) (RS : SS -> SS' -> Prop) (RD : DI -> DI' -> Prop) (RV : V -> V' -> Prop) (g : config) (g' : config') (i : initial tree SS pid_state MS) (i' : initial tree SS' pid_state MS') (o : outcome tree SS pid_state DI V MS),
    (forall a b y0 y1 err s, adapt g a b y0 y1 err s = pid_loop_adapt val rnd (seminorm_controller rms_norm n m k p) a b y0 y1 err s) ->
    (forall a b y0 y1 err s, adapt g' a b y0 y1 err s = pid_loop_adapt val rnd (seminorm_controller rms_norm n m k' p) a b y0 y1 err s) ->
    steps_related (same_leading (n + m)) RS RD (same_leading (n + m)) g g' -> interpolations_related (same_leading (n + m)) RD g g' ->
    stepto_len g = stepto_len g' -> (forall a b, midpoint g a b = midpoint g' a b) ->
    Forall2 (sub_related (same_leading (n + m)) RV) (cfg_subs g) (cfg_subs g') -> cfg_dense g = cfg_dense g' ->
    opt_related (event_related (same_leading (n + m))) (cfg_event g) (cfg_event g') ->
    cfg_t0 g = cfg_t0 g' -> cfg_t1 g = cfg_t1 g' -> cfg_max_steps g = cfg_max_steps g' ->
    initials_related (same_leading (n + m)) RS eq i i' -> solves g i o ->
    exists o', solves g' i' o' /\ outcomes_related (same_leading (n + m)) RS eq RD RV o o'.
  Proof. exact pf_C80_solve. Qed.
End Solve.

(** C80: the gradient with respect to the initial value, alone and together with that of a parameter. *)
Example C80_instance : exists o o',
  solves (adj_cfg 0) (adj_initial [[QFin 100]; [QFin 1]]) o /\ solves (adj_cfg 1) (adj_initial [[QFin 100]; [QFin 1]; [QFin 0]]) o' /\
  out_result o = successful /\ (st_num_rejected (out_state o) = 3)%nat /\
  st_num_steps (out_state o') = st_num_steps (out_state o) /\ firstn 2 (out_yfinal o) = firstn 2 (out_yfinal o').
Proof.
  assert (R : exists h o, solve_run (adj_cfg 0) (adj_initial [[QFin 100]; [QFin 1]]) h o /\ (out_result o, st_num_rejected (out_state o)) = (successful, 3%nat)).
  { apply runs. vm_compute. reflexivity. }
  destruct R as (h & o & R & E). injection E as E1 E2.
  assert (S : solves (adj_cfg 0) (adj_initial [[QFin 100]; [QFin 1]]) o) by (apply run_solves; exists h; exact R).
  destruct (C80_solve max_norm 1 1 0 1 (tick 1) (round_tick 1) (unit_pid 1 1) eq (same_leading 2) eq
              (adj_cfg 0) (adj_cfg 1) (adj_initial [[QFin 100]; [QFin 1]]) (adj_initial [[QFin 100]; [QFin 1]; [QFin 0]]) o) as (o' & S' & O); try reflexivity; try assumption.
  - apply adj_related.
  - intros a b d d' t H. exact H.
  - constructor; [|constructor]. repeat split. intros t y y' H. exact H.
  - repeat split.
  - exists o, o'. destruct O as (_ & O1 & _ & _ & O2 & _). auto 10.
Qed.

Print Assumptions C80_decisions.
Print Assumptions C80_other_norms.
Print Assumptions C80_solve.
