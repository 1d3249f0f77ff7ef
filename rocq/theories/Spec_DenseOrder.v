(** Specification vocabulary: the accuracy of values inside a step. *)
From Coq Require Import Reals List.
From Verif Require Import Model_RK Model_DenseOutput Spec_RK Spec_Order.
Import ListNotations.
Open Scope R_scope.

(** The weight of stage [i] at the fraction [th] of the step: a polynomial with coefficients [W j i]. *)
Definition poly_weight (W : nat -> nat -> R) (d : nat) (th : R) (i : nat) : R := sum_n d (fun j => th ^ j * W j i).

(** The order conditions for values inside the step, up to rounding of the coefficients: with weights [w] the
    stages combine to the terms of the Taylor series at the fraction [th]. *)
Definition dense_conditions (tabs : list tableau) (s : nat) (w : tableau -> R -> nat -> R) (eps : R) (q : nat) : Prop :=
  forall t th, is_node t -> of_parts (length tabs) t -> (size t <= q)%nat -> 0 <= th <= 1 ->
    Rabs (sum_n s (fun i => w (part_tableau tabs (root t)) th i * weight tabs s i t) - th ^ size t * / INR (density t)) <= eps.

(** The interpolation yields the combination of the stages with weights [w], if [y1] is the result of the step. *)
Definition interpolates (interp : interpolation) (tabs : list tableau) (s : nat) (w : tableau -> R -> nat -> R) : Prop :=
  forall t0 h th y0 (k : nat -> nat -> R), 0 < h ->
    interp t0 (t0 + h) y0
      (y0 + sum_n (length tabs) (fun c => sum_n s (fun i => coef_b (part_tableau tabs c) i * k c i)))
      (map (fun c => map (k c) (seq 0 s)) (seq 0 (length tabs))) (t0 + th * h)
    = y0 + sum_n (length tabs) (fun c => sum_n s (fun i => w (part_tableau tabs c) th i * k c i)).

(** The interpolation is a combination of the stages with polynomial weights that meet the conditions up to
    order [q]. *)
Definition dense_order (interp : interpolation) (tabs : list tableau) (s : nat) (eps : R) (q : nat) : Prop :=
  exists (W : tableau -> nat -> nat -> R) (deg : nat),
    interpolates interp tabs s (fun tab => poly_weight (W tab) deg) /\
    dense_conditions tabs s (fun tab => poly_weight (W tab) deg) eps q.
