(** Instances for the theorems about two solves side by side. *)
From Coq Require Import ZArith Reals QArith Qreals List Bool Arith Lia Lra FunctionalExtensionality.
From Verif Require Import Model_Result Model_Loop Model_RK Model_Tableaus Model_Terms Model_Interp Model_DenseOutput Spec_Loop Spec_RK Spec_RKLoop
  Spec_Convergence Spec_Frame Spec_Related Spec_RelatedRK Spec_Invariant Ex_RK Ex_Frame.
Import ListNotations.
Open Scope R_scope.

(** A solve from 0 to 1000 time units in steps of 300, every third one rejected at first; saves one component. *)
Section Solve.
  Context {I : Type}.
  Definition pair_adapt (a b : Z) (y y1 : I -> R) (e : option (I -> R)) (n : nat) : adapt_out nat :=
    if (n mod 3 =? 2)%nat then AdaptOut false a (a + 150) false (S n) successful
    else AdaptOut true b (b + 300) false (S n) successful.
  Definition pair_cfg (sv : solver I I R) (x : I) : config (I -> R) (solver_state I) nat ((I -> R) * (I -> R) * list (list (I -> R))) (option (I -> R)) (unit -> R) unit :=
    Config (rk_solver_step sv time_of (fun _ _ _ _ _ => false)) (fun e => e)
      (rk_interpolate dopri5_interpolation time_of) pair_adapt None (fun a b => (a + b) / 2)%Z (fun m _ => m)
      [SubSaveAt false true (Some [100; 500]%Z) 1 (fun _ y _ => y x)] true None 0 1000 (Some 20%nat).
  Definition pair_initial (sv : solver I I R) (y : I -> R) : initial (I -> R) (solver_state I) nat unit :=
    Initial y 300%Z false (rk_init sv) 0%nat tt PInf.

  Lemma pair_solve f x y : let sv := frame_solver dopri5_tableau f in
    explicit_solve (pair_cfg sv x) (pair_initial sv y) sv 7 dopri5_interpolation time_of.
  Proof.
    cbv zeta. set (sv := frame_solver dopri5_tableau f).
    split; [eexists; reflexivity|]. split; [reflexivity|]. split; [reflexivity|].
    split; [apply (frame_valid dopri5_tableau f); reflexivity|].
    split; [intros ? ? [E|[]]; injection E as <- <-; reflexivity|].
    split; [intros ? ? [E|[]] _; injection E as <- <-; split; reflexivity|].
    split; [discriminate|]. split.
    { exists (fun _ _ _ => True). split; [|exact Logic.I]. intros a b u u1 e cs _ H1 H2 _. cbn [pair_cfg adapt]. unfold pair_adapt.
      destruct (cs mod 3 =? 2)%nat; cbn [ao_keep ao_tprev ao_tnext]; repeat split; try discriminate; lia. }
    split.
    { intros a b u u1 e cs. cbn [pair_cfg adapt]. unfold pair_adapt. destruct (cs mod 3 =? 2)%nat; cbn [ao_keep ao_tprev ao_tnext ao_jump]; [discriminate|reflexivity]. }
    split.
    { intros a b H. cbn. split; [apply Z.div_le_lower_bound; lia|].
      assert ((a + b) / 2 < b + 1)%Z by (apply Z.div_lt_upper_bound; lia). lia. }
    split; [cbn; lia|]. split; [cbn; lia|]. split; [reflexivity|left; reflexivity].
  Qed.
End Solve.

(** Two equations without coupling, [y' = -y] and [z' = t z], solved jointly; and the first one alone. *)
Definition joint_f (t : R) (y : bool -> R) (b : bool) : R := if b then - y true else t * y false.
Definition alone_f (t : R) (y : unit -> R) (_ : unit) : R := - y tt.
Definition first_only : frame bool unit := Frame (fun _ => [(true, 1)]) (fun _ => 0) (fun _ => 0) 0.
Notation joint_sv := (frame_solver dopri5_tableau joint_f).
Notation alone_sv := (frame_solver dopri5_tableau alone_f).
Lemma first_only_point t y : point first_only t y = fun _ => y true.
Proof. extensionality x. unfold point. cbn. ring. Qed.
Lemma joint_alone : parts_follow first_only (sv_parts joint_sv) (sv_parts alone_sv).
Proof.
  split; [reflexivity|]. intros [|[|m]] tab trm E; try discriminate. injection E as <- <-. eexists. split; [reflexivity|]. split.
  - intros t0 t1. cbn. ring.
  - intros t0 t1 t y p. rewrite first_only_point. cbn. unfold alone_f. ring.
Qed.

(** An exchange between two places conserves the sum of the amounts. *)
Definition exchange (t : R) (y : bool -> R) (b : bool) : R := t * (y (negb b) - y b).
Definition both : list (bool * R) := [(true, 1); (false, 1)].
Lemma exchange_conserves tab : conserves both (sv_parts (frame_solver tab exchange)).
Proof. intros tab' trm [E|[]] t y t0 t1. injection E as <- <-. cbn. unfold exchange. cbn [negb]. ring. Qed.
(** Also if one direction of the exchange is treated implicitly. *)
Definition exchange_half (d : bool) (t : R) (y : bool -> R) (b : bool) : R := if Bool.eqb b d then - y d else y d.
Lemma exchange_half_conserves tab tab' : conserves both [(tab, ode_term (exchange_half true)); (tab', ode_term (exchange_half false))].
Proof. intros tab0 trm [E|[E|[]]] t y t0 t1; injection E as <- <-; cbn; unfold exchange_half; cbn [Bool.eqb]; ring. Qed.
