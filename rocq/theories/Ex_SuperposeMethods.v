(** Instances for superposition with solvers other than Runge--Kutta methods. *)
From Coq Require Import ZArith Reals List Bool Arith Lia Lra FunctionalExtensionality.
From Verif Require Import Model_Result Model_Loop Model_RK Model_Terms Model_Solvers Model_SRK Spec_RK Spec_SRK Spec_Conserve Spec_Superpose Spec_SuperposeMethods
  Ex_RK Ex_Related Ex_Conserve.
Import ListNotations.
Open Scope R_scope.

(** Linear noise: it moves some of what is at the first place to the other. *)
Definition drain (t : R) (y : bool -> R) (p : bool * unit) : R := (if fst p then -1 else 1) * (t * y true).
Notation drain_term := (control_term [tt] drain traffic_path).
Lemma exchange_superposing a b : superposing a b exchange_term.
Proof. split; [intros t y c x; reflexivity|]. intros t y z c. extensionality x. unfold mix. cbn. unfold exchange. ring. Qed.
Lemma drain_superposing a b : superposing a b drain_term.
Proof. split; [intros t y c x; reflexivity|]. intros t y z c. extensionality x. unfold mix. cbn. unfold drain. cbn [fst]. ring. Qed.
Lemma traffic_not_superposing : ~ superposing 2 0 traffic_term.
Proof.
  intros (_ & H). specialize (H 0 (fun _ => 1) (fun _ => 1) (fun _ => 1)). apply (f_equal (fun f => f true)) in H. unfold mix in H. cbn in H.
  unfold traffic in H. cbn in H. lra.
Qed.
Lemma drain_linear : linear_term drain_term.
Proof. intros a b f g c x. cbn. ring. Qed.
(** It can be differentiated. *)
Lemma drain_directional t y v : directional (drain t) y v (drain t v).
Proof.
  intros c Ec Hc [x k]. unfold drain. cbn [fst]. apply (derivable_pt_lim_scal (fun s => t * c s true)), (derivable_pt_lim_scal (fun s => c s true)), Hc.
Qed.
Definition drain_initial {SS : Type} (me : method (bool -> R) SS ((bool -> R) * (bool -> R))) (u v : R) : initial (bool -> R) SS nat unit :=
  let y := fun b : bool => if b then u else v in
  Initial y 300%Z false (me_init me (time_of 0) (time_of 300) y) 0%nat tt PInf.
Lemma drain_solve {SS : Type} (me : method (bool -> R) SS ((bool -> R) * (bool -> R))) u v : method_solve (traffic_cfg me) (drain_initial me u v) me time_of.
Proof. repeat split. Qed.
