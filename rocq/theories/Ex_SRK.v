(** Instances for the theorems about stochastic Runge--Kutta methods. *)
From Coq Require Import Reals List Bool Arith Lia Lra Psatz FunctionalExtensionality ClassicalEpsilon.
From Coquelicot Require Import Coquelicot.
From Verif Require Import Model_Result Model_RK Model_Terms Model_SRK Spec_SRK.
Import ListNotations.
Open Scope R_scope.

(** Correct forward-mode differentiation exists: derivatives along a direction are unique. *)
Lemma directional_unique {I J : Type} (f : (I -> R) -> J -> R) y v d d' : directional f y v d -> directional f y v d' -> d = d'.
Proof.
  intros H H'. extensionality j.
  set (c := fun s i => y i + s * v i).
  assert (C0 : c 0 = y) by (extensionality i; unfold c; ring).
  assert (Cd : forall i, derivable_pt_lim (fun s => c s i) 0 (v i)).
  { intros i. apply is_derive_Reals. unfold c. auto_derive; [auto|ring]. }
  apply (uniqueness_limite (fun s => f (c s) j) 0); [apply H|apply H']; assumption.
Qed.
Definition ex_jvp {I J : Type} (f : (I -> R) -> J -> R) (y v : I -> R) : J -> R :=
  epsilon (inhabits (fun _ => 0)) (directional f y v).
Lemma ex_jvp_correct (I J : Type) : correct_jvp (@ex_jvp I J).
Proof.
  intros f y v d H. apply (directional_unique f y v); [|exact H]. unfold ex_jvp. apply epsilon_spec. exists d. exact H.
Qed.

(** The equation [dy = y/4 dt + 1/4 dX] along the path [X t = t], from [y 0 = 1]. *)
Definition ex_ou (t : R) : R := 2 * exp (t / 4) - 1.
Lemma ex_ou_continuous u : continuous ex_ou u.
Proof. apply (ex_derive_continuous (K := R_AbsRing) (V := R_NormedModule)). unfold ex_ou. auto_derive. auto. Qed.
Lemma ex_ou_solves t : ex_ou t = ex_ou 0 + 1 / 4 * RInt ex_ou 0 t + 1 / 4 * (t - 0).
Proof.
  assert (E : is_RInt ex_ou 0 t (minus (8 * exp (t / 4) - t) (8 * exp (0 / 4) - 0))).
  { apply (is_RInt_derive (V := R_CompleteNormedModule) (fun t => 8 * exp (t / 4) - t)).
    - intros u _. unfold ex_ou. auto_derive; [auto|]. unfold Rdiv. field.
    - intros u _. apply ex_ou_continuous. }
  rewrite (is_RInt_unique _ _ _ _ E). unfold ex_ou, minus, plus, opp. cbn. replace (0 / 4) with 0 by field. rewrite exp_0. field.
Qed.

(** A vector field in two dimensions driven by two noises: [g y = [[y1, 0], [y0 y1, 1]]], and its derivative. *)
Definition ex_g (_ : R) (y : bool -> R) (p : bool * bool) : R :=
  match p with (true, true) => y false | (true, false) => 0 | (false, true) => y true * y false | (false, false) => 1 end.
Definition ex_Dg (_ : R) (y v : bool -> R) (p : bool * bool) : R :=
  match p with (true, true) => v false | (true, false) => 0 | (false, true) => v true * y false + y true * v false | (false, false) => 0 end.
Lemma ex_Dg_directional t y v : directional (ex_g t) y v (ex_Dg t y v).
Proof.
  intros c Ec Hc [[|] [|]]; cbn [ex_g ex_Dg].
  - apply Hc.
  - apply derivable_pt_lim_const.
  - rewrite <- Ec. apply (derivable_pt_lim_mult (fun s => c s true) (fun s => c s false)); apply Hc.
  - apply derivable_pt_lim_const.
Qed.
