(** What is expected of a Brownian path. *)
From Coq Require Import Reals List Bool.
From Verif Require Import Model_Brownian.
Import ListNotations.
Open Scope R_scope.

(** Sampling from the zero covariance matrix gives the mean. *)
Definition degenerate_is_mean {V : Type} (o : ops V) (smp : sampler V) : Prop :=
  forall k, multivariate_normal smp k (Matrix3 0 0 0 0 0 0) = (op_zero o, op_zero o, op_zero o).

(** The tree is over a proper interval and has a tolerance that can be reached. *)
Definition proper (vt : tree) : Prop := vt_t0 vt < vt_t1 vt /\ 0 < vt_tol vt.
Definition within (vt : tree) (t : R) : Prop := vt_t0 vt <= t <= vt_t1 vt.
Definition length (vt : tree) : R := vt_t1 vt - vt_t0 vt.

(** [t] divides the interval of the tree as [k] of [2 ^ n] pieces *)
Definition dyadic (vt : tree) (n k : nat) (t : R) : Prop :=
  (INR k <= 2 ^ n)%R /\ t = vt_t0 vt + INR k * (length vt / 2 ^ n).
(** Pieces of the [2 ^ n] division are no finer than the tolerance. *)
Definition resolves (vt : tree) (n : nat) : Prop := vt_tol vt <= length vt / 2 ^ n.

(** The same tree with another tolerance *)
Definition with_tol (vt : tree) (tol : R) : tree := Tree (vt_t0 vt) (vt_t1 vt) tol (vt_key vt).

(** A grid point of the tree lies between the two times: a multiple of [length / 2 ^ n] for some division that the
    tolerance asks for. *)
Definition grid_between (vt : tree) (s t : R) : Prop :=
  exists n k, let m := vt_t0 vt + INR k * (length vt / 2 ^ n) in
  s <= m <= t /\ (n = O \/ vt_tol vt < 2 * (length vt / 2 ^ n)).

(** Covariance of centred random variables: a symmetric bilinear form. *)
Record is_covariance {V : Type} (o : ops V) (cov : V -> V -> R) : Prop := {
  cov_sym : forall x y, cov x y = cov y x;
  cov_zero : forall x, cov x (op_zero o) = 0;
  cov_plus : forall x y z, cov x (op_plus o y z) = cov x y + cov x z;
  cov_minus : forall x y z, cov x (op_minus o y z) = cov x y - cov x z;
  cov_scale : forall a x y, cov x (op_scale o a y) = a * cov x y
}.

Definition psd (m : matrix3) : Prop :=
  forall x y z, 0 <= x * x * m_ww m + y * y * m_hh m + z * z * m_kk m
                     + 2 * (x * y * m_wh m + x * z * m_wk m + y * z * m_hk m).

(** Samples from distinct keys are independent and have the variances asked for. *)
Record independent_samples {V : Type} (smp : sampler V) (cov : V -> V -> R) : Prop := {
  normal_var : forall k, cov (normal smp k) (normal smp k) = 1;
  normal_indep : forall k k', k <> k' -> cov (normal smp k) (normal smp k') = 0;
  mvn_cov : forall k m, psd m -> let '(w, h, kk) := multivariate_normal smp k m in
    cov w w = m_ww m /\ cov w h = m_wh m /\ cov w kk = m_wk m /\ cov h h = m_hh m /\ cov h kk = m_hk m /\ cov kk kk = m_kk m;
  mvn_indep : forall k m k', k <> k' -> let '(w, h, kk) := multivariate_normal smp k m in
    cov w (normal smp k') = 0 /\ cov h (normal smp k') = 0 /\ cov kk (normal smp k') = 0;
  mvn_mvn_indep : forall k m k' m', k <> k' ->
    let '(w, h, kk) := multivariate_normal smp k m in
    let '(w', h', kk') := multivariate_normal smp k' m' in
    forall x y, In x [w; h; kk] -> In y [w'; h'; kk'] -> cov x y = 0
}.

(** Chen's relation for the space-time Levy area [H] and the space-time-time Levy area [K]: [x] over an interval of length
    [a], [y] over the next, of length [b], and [z] over both.  (That the integrals these stand for satisfy it is shown
    in [Ex_Levy].) *)
Definition chen_H (a b : R) (x y z : increment R) : Prop :=
  (a + b) * inc_H z = a * inc_H x + b * inc_H y + 1 / 2 * (b * inc_W x - a * inc_W y).
Definition chen_K (a b : R) (x y z : increment R) : Prop :=
  (a + b) ^ 2 * inc_K z = a ^ 2 * inc_K x + b ^ 2 * inc_K y + a * b / 2 * (inc_H x - inc_H y)
                          + (b - a) / 12 * (b * inc_W x - a * inc_W y).
(** The times are at least [eps] of the interval apart; and more, when [K] is wanted. *)
Definition apart (eps : R) (vt : tree) (s t : R) : Prop := s < t /\ eps * length vt <= t - s.
Definition apart2 (eps : R) (vt : tree) (s t : R) : Prop := s < t /\ eps * length vt ^ 2 <= (t - s) ^ 2.

(** The tolerance tells the two times apart, or they are the same. *)
Definition told_apart (vt : tree) (s t : R) : Prop := s <= t /\ (s = t \/ grid_between vt s t).
