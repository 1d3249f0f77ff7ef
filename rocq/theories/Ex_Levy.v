(** The relations of [Spec_Brownian] are those of the integrals that the Levy areas are of a path, and samples as assumed
    there exist. *)
From Coq Require Import Reals List Bool Lra Lia Psatz.
From Coquelicot Require Import Coquelicot.
From Verif Require Import Model_Brownian Spec_Brownian.
Import ListNotations.
Open Scope R_scope.

(** The increment of a path [X] over [[s, t]], with its space-time and space-time-time Levy area
    ([tree.py:43-45]; [K] is the usual one, which the code does not define) *)
Definition levy_of (X : R -> R) (s t : R) : increment R :=
  let h := t - s in
  let bridge u := X u - X s - (u - s) / h * (X t - X s) in
  Increment h (X t - X s) (/ h * RInt bridge s t) (/ h ^ 2 * RInt (fun u => bridge u * (h / 2 - (u - s))) s t).

Section Levy.
  Context (X : R -> R).
  Hypothesis C : forall u, continuous X u.
  Lemma int_X (s t : R) : is_RInt X s t (RInt X s t).
  Proof. apply (RInt_correct (V := R_CompleteNormedModule)), (ex_RInt_continuous (V := R_CompleteNormedModule)). auto. Qed.
  Lemma int_uX (s t : R) : is_RInt (fun u => u * X u) s t (RInt (fun u => u * X u) s t).
  Proof.
    apply (RInt_correct (V := R_CompleteNormedModule)), (ex_RInt_continuous (V := R_CompleteNormedModule)). intros u _.
    apply (continuous_mult (K := R_AbsRing) (fun u => u) X); [apply continuous_id|auto].
  Qed.
  (** Polynomials *)
  Lemma int_poly (a b c d s t : R) :
    is_RInt (fun u => a + b * u + c * u ^ 2 + d * u ^ 3) s t
      ((a * t + b * t ^ 2 / 2 + c * t ^ 3 / 3 + d * t ^ 4 / 4) - (a * s + b * s ^ 2 / 2 + c * s ^ 3 / 3 + d * s ^ 4 / 4)).
  Proof.
    apply (is_RInt_derive (V := R_CompleteNormedModule) (fun u => a * u + b * u ^ 2 / 2 + c * u ^ 3 / 3 + d * u ^ 4 / 4)).
    - intros u _. auto_derive; [auto|]. field.
    - intros u _. apply (ex_derive_continuous (K := R_AbsRing) (V := R_NormedModule)). auto_derive. auto.
  Qed.
  Lemma int_comb (p q a b c d s t : R) (f : R -> R) : (forall u, f u = p * X u + q * (u * X u) + (a + b * u + c * u ^ 2 + d * u ^ 3)) ->
    RInt f s t = p * RInt X s t + q * RInt (fun u => u * X u) s t +
      ((a * t + b * t ^ 2 / 2 + c * t ^ 3 / 3 + d * t ^ 4 / 4) - (a * s + b * s ^ 2 / 2 + c * s ^ 3 / 3 + d * s ^ 4 / 4)).
  Proof.
    intros E. apply is_RInt_unique.
    apply (is_RInt_ext (fun u => plus (plus (scal p (X u)) (scal q (u * X u))) (a + b * u + c * u ^ 2 + d * u ^ 3))).
    { intros u _. rewrite E. reflexivity. }
    apply (is_RInt_plus (V := R_NormedModule)); [|apply int_poly].
    apply (is_RInt_plus (V := R_NormedModule)); apply (is_RInt_scal (V := R_NormedModule)); [apply int_X|apply int_uX].
  Qed.

  Lemma chasles (s t u : R) : RInt X s u = RInt X s t + RInt X t u.
  Proof. symmetry. apply (RInt_Chasles (V := R_CompleteNormedModule) X); eexists; apply int_X. Qed.
  Lemma chasles' (s t u : R) : RInt (fun u => u * X u) s u = RInt (fun u => u * X u) s t + RInt (fun u => u * X u) t u.
  Proof. symmetry. apply (RInt_Chasles (V := R_CompleteNormedModule) (fun u => u * X u)); eexists; apply int_uX. Qed.

  Lemma levy_H (s t : R) : s < t -> (t - s) * inc_H (levy_of X s t) = RInt X s t - (t - s) * (X s + X t) / 2.
  Proof.
    intros L. unfold levy_of. cbn [inc_H].
    rewrite (int_comb 1 0 (- X s + s / (t - s) * (X t - X s)) (- / (t - s) * (X t - X s)) 0 0) by (intros; field; lra).
    field. lra.
  Qed.
  Lemma levy_K (s t : R) : s < t ->
    (t - s) ^ 2 * inc_K (levy_of X s t) = (t + s) / 2 * RInt X s t - RInt (fun u => u * X u) s t + (X t - X s) * (t - s) ^ 2 / 12.
  Proof.
    intros L. unfold levy_of. cbn [inc_K].
    set (D := (X t - X s) / (t - s)).
    rewrite (int_comb ((t + s) / 2) (- 1) ((- X s + s * D) * ((t + s) / 2)) (- D * ((t + s) / 2) - (- X s + s * D)) D 0)
      by (intros; unfold D; field; lra).
    unfold D. field. lra.
  Qed.

  (** The integrals satisfy Chen's relations. *)
  Example integrals_chen (s t u : R) : s < t -> t < u ->
    chen_H (t - s) (u - t) (levy_of X s t) (levy_of X t u) (levy_of X s u) /\
    chen_K (t - s) (u - t) (levy_of X s t) (levy_of X t u) (levy_of X s u).
  Proof.
    intros A B.
    pose proof (levy_H s t A) as H1. pose proof (levy_H t u B) as H2. pose proof (levy_H s u ltac:(lra)) as H3.
    pose proof (levy_K s t A) as K1. pose proof (levy_K t u B) as K2. pose proof (levy_K s u ltac:(lra)) as K3.
    rewrite (chasles s t u) in H3, K3. rewrite (chasles' s t u) in K3.
    unfold chen_H, chen_K. replace (t - s + (u - t)) with (u - s) by ring.
    assert (W1 : inc_W (levy_of X s t) = X t - X s) by reflexivity.
    assert (W2 : inc_W (levy_of X t u) = X u - X t) by reflexivity.
    rewrite W1, W2. split; [rewrite H1, H2, H3; field|].
    replace ((t - s) * (u - t) / 2 * (inc_H (levy_of X s t) - inc_H (levy_of X t u)))
      with ((u - t) / 2 * ((t - s) * inc_H (levy_of X s t)) - (t - s) / 2 * ((u - t) * inc_H (levy_of X t u))) by field.
    rewrite H1, H2, K1, K2, K3. field.
  Qed.
End Levy.

Lemma continuous_paths_chen (X : R -> R) : continuity X -> forall s t u, s < t -> t < u ->
  chen_H (t - s) (u - t) (levy_of X s t) (levy_of X t u) (levy_of X s u) /\
  chen_K (t - s) (u - t) (levy_of X s t) (levy_of X t u) (levy_of X s u).
Proof. intros C. apply integrals_chen. intros u. apply continuity_pt_filterlim, C. Qed.
