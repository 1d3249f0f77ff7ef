(** A steady state: [dy/dt = p^2 - y] at [p = 3]. *)
From Coq Require Import Reals List Lra Lia Psatz.
From Coquelicot Require Import Coquelicot.
From Verif Require Import Model_Implicit Spec_Implicit Proof_Implicit.
Import ListNotations.
Open Scope R_scope.

Definition ex_f : vfield R_NormedModule R_NormedModule := fun p t y => p * p - y.
Definition ex_g (p : R) : R := p * p.
Definition ex_L (q : R * R) : R := 6 * fst q - snd q.

Lemma ex_L_linear : @is_linear R_AbsRing (prod_NormedModule R_AbsRing R_NormedModule R_NormedModule) R_NormedModule ex_L.
Proof.
  split.
  - intros [a b] [c d]. unfold ex_L, plus; cbn. unfold plus; cbn. ring.
  - intros k [a b]. unfold ex_L, scal; cbn. unfold mult, scal; cbn. unfold mult; cbn. ring.
  - exists 7. split; [lra|]. intros [a b]. change (Rabs (6 * a - b) <= 7 * sqrt (Rabs a ^ 2 + Rabs b ^ 2)).
    assert (Ha : Rabs a <= sqrt (Rabs a ^ 2 + Rabs b ^ 2)).
    { rewrite <- (sqrt_pow2 (Rabs a)) at 1 by apply Rabs_pos. apply sqrt_le_1_alt. pose proof (pow2_ge_0 (Rabs b)). lra. }
    assert (Hb : Rabs b <= sqrt (Rabs a ^ 2 + Rabs b ^ 2)).
    { rewrite <- (sqrt_pow2 (Rabs b)) at 1 by apply Rabs_pos. apply sqrt_le_1_alt. pose proof (pow2_ge_0 (Rabs a)). lra. }
    eapply Rle_trans; [apply Rabs_triang|]. rewrite Rabs_Ropp, Rabs_mult, (Rabs_right 6) by lra. lra.
Qed.

Lemma ex_derivative t : @derivative_at R_NormedModule R_NormedModule (fun p y => ex_f p t y) 3 9 ex_L.
Proof.
  split; [exact ex_L_linear|]. intros x Hx.
  apply (@is_filter_lim_locally_unique R_AbsRing (prod_NormedModule R_AbsRing R_NormedModule R_NormedModule)) in Hx. subst x.
  intros eps. exists eps. intros [a b] [B1 _].
  change (Rabs ((a * a - b - (3 * 3 - 9)) - (6 * (a - 3) - (b - 9))) <= eps * sqrt (Rabs (a - 3) ^ 2 + Rabs (b - 9) ^ 2)).
  change (Rabs (a - 3) < eps) in B1.
  assert (Ha : Rabs (a - 3) <= sqrt (Rabs (a - 3) ^ 2 + Rabs (b - 9) ^ 2)).
  { rewrite <- (sqrt_pow2 (Rabs (a - 3))) at 1 by apply Rabs_pos. apply sqrt_le_1_alt. pose proof (pow2_ge_0 (Rabs (b - 9))). lra. }
  replace (a * a - b - (3 * 3 - 9) - (6 * (a - 3) - (b - 9))) with ((a - 3) * (a - 3)) by ring.
  rewrite Rabs_mult. pose proof (Rabs_pos (a - 3)). apply Rmult_le_compat; lra.
Qed.

Lemma ex_invertible : @invertible R_NormedModule (fun dy => ex_L (zero, dy)).
Proof.
  exists opp. split; [apply is_linear_opp|]. split; intros y; unfold ex_L, opp, zero; cbn; ring.
Qed.

Lemma ex_continuous : filterlim ex_g (locally (3 : R_NormedModule)) (locally (ex_g 3 : R_NormedModule)).
Proof. apply (continuous_mult (fun p : R => p) (fun p : R => p)); apply continuous_id. Qed.
