(** Specification vocabulary: the accuracy of the slope inside a step. *)
From Coq Require Import Reals List.
From Verif Require Import Model_RK Model_DenseOutput Spec_RK Spec_Order Spec_DenseOrder.
Import ListNotations.
Open Scope R_scope.

(** The derivative of [poly_weight] in the fraction [th] of the step. *)
Definition poly_slope (W : nat -> nat -> R) (d : nat) (th : R) (i : nat) : R := sum_n d (fun j => INR j * th ^ (j - 1) * W j i).

(** The order conditions for slopes inside the step, up to rounding of the coefficients: with weights [w] the
    stages combine to the terms of the derivative of the Taylor series at the fraction [th]. *)
Definition slope_conditions (tabs : list tableau) (s : nat) (w : tableau -> R -> nat -> R) (eps : R) (q : nat) : Prop :=
  forall t th, is_node t -> of_parts (length tabs) t -> (size t <= q)%nat -> 0 <= th <= 1 ->
    Rabs (sum_n s (fun i => w (part_tableau tabs (root t)) th i * weight tabs s i t)
          - INR (size t) * th ^ (size t - 1) * / INR (density t)) <= eps.

(** The interpolation is a combination of the stages with polynomial weights whose derivatives meet the
    conditions up to order [q]. *)
Definition slope_order (interp : interpolation) (tabs : list tableau) (s : nat) (eps : R) (q : nat) : Prop :=
  exists (W : tableau -> nat -> nat -> R) (deg : nat),
    interpolates interp tabs s (fun tab => poly_weight (W tab) deg) /\
    slope_conditions tabs s (fun tab => poly_slope (W tab) deg) eps q.
