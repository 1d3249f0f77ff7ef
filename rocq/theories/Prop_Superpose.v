(** Theorems about linear equations, and about solves having one outcome: C81. *)
From Coq Require Import ZArith Reals QArith Qreals List Bool Arith Lia Lra FunctionalExtensionality.
From Verif Require Import Model_Result Model_Loop Model_RK Model_Tableaus Model_Terms Model_Interp Model_DenseOutput Spec_Loop Spec_RK Spec_RKLoop
  Spec_Convergence Spec_RelatedRK Spec_Superpose Proof_PropLoop Proof_RelatedRK Proof_Superpose Ex_Loop Ex_RK Ex_Frame Ex_Related.
Import ListNotations.
Open Scope R_scope.

(** C81: a solve has at most one outcome, also if the number of steps is not limited. *)
  Theorem C81_unique :
    forall (Y SS CS DI E V MS : Type) (c : config Y SS CS DI E V MS) (i : initial Y SS CS MS) (o o' : outcome Y SS CS DI V MS),
    solves c i o -> solves c i o' -> o = o'.
  Proof. exact pf_C81_unique. Qed.

Section Superposition.
  Context {I J C CS V MS : Type}.
  Notation Y := (I -> R).
  Notation DI := (Y * Y * list (list Y))%type.
  Notation config := (config Y (solver_state J) CS DI (option Y) V MS).
  Notation initial := (initial Y (solver_state J) CS MS).
  Notation outcome := (outcome Y (solver_state J) CS DI V MS).
  (** C81: a linear equation, solved by an explicit Runge--Kutta method with steps that do not depend on the values, from
      a mixture [a y + b z] of initial values: final value, saved values and dense output are the mixtures of those from [y]
      and from [z], with the same times, steps and result. *)
  Theorem C81_superposition :
    forall (a b : R) (c : config) (i1 i2 i3 : initial) (sv : solver I J C) (s : nat) (interp : interpolation) (time : Z -> R) (RV : V -> V -> V -> Prop) (o1 : outcome),
    explicit_solve c i1 sv s interp time -> explicit_solve c i2 sv s interp time -> explicit_solve c i3 sv s interp time ->
    affine_interpolation (length (sv_parts sv)) s interp ->
    superposes a b (sv_parts sv) -> value_free c -> cfg_event c = None ->
    (forall sub t y z, In sub (cfg_subs c) -> RV (sub_fn sub t y) (sub_fn sub t z) (sub_fn sub t (mix a b y z))) ->
    in_y i3 = mix a b (in_y i1) (in_y i2) ->
    (forall i, In i [i1; i2] -> in_tnext i = in_tnext i3 /\ in_made_jump i = in_made_jump i3 /\ in_controller_state i = in_controller_state i3 /\ in_pad i = in_pad i3) ->
    solves c i1 o1 ->
    exists o2 o3, solves c i2 o2 /\ solves c i3 o3 /\ outcomes_mix a b RV c o1 o2 o3.
  Proof. exact pf_C81_superposition. Qed.
End Superposition.

(** C81: exchange between two places, by Dopri5 with rejected steps: the solves from one unit at either place determine
    the one from 3 at the first and -2 at the second. An inhomogeneous equation allows for weights that add up to one. *)
Example C81_instance :
  let sv := frame_solver dopri5_tableau exchange in
  let c := pair_cfg sv true in
  let i (u v : R) := pair_initial sv (fun b => if b then u else v) in
  superposes 3 (-2) (sv_parts sv) /\ value_free c /\
  (exists o1 o2 o3, solves c (i 1 0) o1 /\ solves c (i 0 1) o2 /\ solves c (i 3 (-2)) o3 /\ out_result o3 = successful /\
    st_num_rejected (out_state o1) = 1%nat /\ (forall b, out_yfinal o3 b = 3 * out_yfinal o1 b - 2 * out_yfinal o2 b) /\
    forall o, solves c (i 3 (-2)) o -> o = o3) /\
  let forced := sv_parts (frame_solver dopri5_tableau (fun t (y : unit -> R) x => t - y x)) in
  forall a b, superposes a b forced <-> a + b = 1.
Proof.
  cbv zeta. set (sv := frame_solver dopri5_tableau exchange).
  assert (H0 : superposes 3 (-2) (sv_parts sv)).
  { intros tab trm [E|[]] t y z c. injection E as <- <-. extensionality x. unfold mix. cbn. unfold exchange. ring. }
  assert (H1 : value_free (pair_cfg sv true)) by (intros t0 t1 y y' y1 y1' e e' s; reflexivity).
  split; [exact H0|]. split; [exact H1|]. split.
  - set (i := fun u v : R => pair_initial sv (fun b => if b then u else v)).
    destruct (runs (pair_cfg sv true) (i 1 0) (fun _ o => out_result o = successful /\ st_num_rejected (out_state o) = 1%nat)) as (h & o1 & RUN & OK & RJ);
      [vm_compute; auto|].
    assert (SO : solves (pair_cfg sv true) (i 1 0) o1) by (apply run_solves; exists h; exact RUN).
    destruct (C81_superposition 3 (-2) (pair_cfg sv true) (i 1 0) (i 0 1) (i 3 (-2)) sv 7 dopri5_interpolation time_of
                (fun v1 v2 v3 => v3 tt = 3 * v1 tt - 2 * v2 tt) o1) as (o2 & o3 & S2 & S3 & YF & _ & _ & SAME).
    + apply (pair_solve exchange true).
    + apply (pair_solve exchange true).
    + apply (pair_solve exchange true).
    + apply pf_C76_interpolations. cbn. lia.
    + exact H0.
    + exact H1.
    + reflexivity.
    + intros sub t y z [<-|[]]. cbn [sub_fn]. unfold mix. ring.
    + extensionality b. unfold i, pair_initial, mix. cbn [in_y]. destruct b; ring.
    + intros j [<-|[<-|[]]]; repeat split; reflexivity.
    + exact SO.
    + exists o1, o2, o3. split; [exact SO|]. split; [exact S2|]. split; [exact S3|].
      split; [rewrite <- OK; symmetry; apply (SAME o1 (or_introl eq_refl))|]. split; [exact RJ|]. split.
      * intros b. rewrite YF. unfold mix. ring.
      * intros o SO'. exact (C81_unique _ _ _ _ _ _ _ _ _ _ _ SO' S3).
  - intros a b. split.
    + intros H. specialize (H _ _ (or_introl eq_refl) 1 (fun _ => 0) (fun _ => 0) 1). apply (f_equal (fun f => f tt)) in H. unfold mix in H. cbn in H. lra.
    + intros H tab trm [E|[]] t y z c. injection E as <- <-. extensionality x. unfold mix. cbn. replace t with ((a + b) * t) at 1 by (rewrite H; ring). ring.
Qed.

Print Assumptions C81_unique.
Print Assumptions C81_superposition.
