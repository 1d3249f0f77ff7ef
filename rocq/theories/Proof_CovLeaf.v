(** Proofs about the Brownian tree: the distribution within the final interval. *)
From Coq Require Import Reals List Bool Lra Lia Psatz.
From Verif Require Import Model_Brownian Spec_Brownian Proof_Brownian Proof_Covariance.
Import ListNotations.
Open Scope R_scope.

(** The matrix of [tree.py:480-504] is a covariance matrix: that of what remains of the first part of a Brownian motion when
    the whole is known. *)
Definition leaf_matrix (su sr ru : R) : matrix3 :=
  let sr_by_su := sr / su in
  let ru_by_su := ru / su in
  Matrix3 ((sr_by_su * ru_by_su * ((sr - ru) ^ 4 + 4 * (sr ^ 2 * ru ^ 2))) / su ^ 3)
          (- (sr_by_su ^ 3 * ru_by_su * (sr ^ 2 - 3 * sr * ru + 6 * ru ^ 2)) / (2 * su))
          (sr_by_su ^ 4 * ru_by_su * (sr - ru) / 12)
          ((sr / 12) * (1 - sr_by_su ^ 3 * (sr ^ 2 + 2 * sr * ru + 16 * ru ^ 2) / su ^ 2))
          (- (ru / 24) * sr_by_su ^ 5)
          ((sr / 720) * (1 - sr_by_su ^ 5)).

Lemma leaf_matrix_zero (su : R) : 0 < su -> leaf_matrix su 0 su = Matrix3 0 0 0 0 0 0 /\ leaf_matrix su su 0 = Matrix3 0 0 0 0 0 0.
Proof. intros. unfold leaf_matrix. split; f_equal; field; lra. Qed.

Lemma leaf_matrix_psd (a b : R) : 0 <= a -> 0 <= b -> 0 < a + b -> psd (leaf_matrix (a + b) a b).
Proof.
  intros A B P. destruct (Req_dec a 0) as [->|Na].
  { replace (0 + b) with b by ring. rewrite (proj1 (leaf_matrix_zero b ltac:(lra))). intros x y z. cbn. lra. }
  assert (Pa : 0 < a) by lra. intros x y z.
  set (p := a + b) in *.
  set (mW := fun w h k => a / p * w + 6 * a * b / p ^ 3 * h + 120 * a * b * (b - a) / 2 / p ^ 5 * k).
  set (mH := fun h k => a ^ 3 / p ^ 3 * (h + 30 * b / p ^ 2 * k)).
  set (mK := fun k => a ^ 5 / p ^ 5 * k).
  set (f := fun w h k => x * (- mW w h k) + y / a * (- mH h k) + z / a ^ 2 * (- mK k)).
  set (q1 := x + f 1 (b / 2) ((b - a) / 12 * b)).
  set (q2 := y / a + f 0 1 (b / 2)).
  set (q3 := z / a ^ 2 + f 0 0 1).
  set (q4 := f 1 (- a / 2) (- (b - a) / 12 * a)).
  set (q5 := f 0 1 (- a / 2)).
  set (q6 := f 0 0 1).
  replace (x * x * m_ww (leaf_matrix p a b) + y * y * m_hh (leaf_matrix p a b) + z * z * m_kk (leaf_matrix p a b)
           + 2 * (x * y * m_wh (leaf_matrix p a b) + x * z * m_wk (leaf_matrix p a b) + y * z * m_hk (leaf_matrix p a b)))
    with (q1 ^ 2 * a + q2 ^ 2 * (a ^ 3 / 12) + q3 ^ 2 * (a ^ 5 / 720) + q4 ^ 2 * b + q5 ^ 2 * (b ^ 3 / 12) + q6 ^ 2 * (b ^ 5 / 720)).
  - assert (Q : forall q v, 0 <= v -> 0 <= q ^ 2 * v) by (intros q v V; apply Rmult_le_pos; [apply pow2_ge_0|auto]).
    assert (V : forall c n, 0 <= c -> 0 <= c ^ n) by (intros; now apply pow_le).
    repeat apply Rplus_le_le_0_compat; apply Q; try lra;
      try (pose proof (V a 3%nat ltac:(lra)); pose proof (V a 5%nat ltac:(lra)); pose proof (V b 3%nat ltac:(lra)); pose proof (V b 5%nat ltac:(lra)); lra).
  - unfold q1, q2, q3, q4, q5, q6, f, mW, mH, mK, leaf_matrix, p. cbn [m_ww m_wh m_wk m_hh m_hk m_kk].
    field. split; lra.
Qed.
