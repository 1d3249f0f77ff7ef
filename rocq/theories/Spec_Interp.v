(** Specification vocabulary for interpolation. *)
From Coq Require Import Reals List Bool Arith Sorting.Sorted.
Import ListNotations.
Open Scope R_scope.

(** [ts[j]], and whether it is the last knot but one, etc. are plain list positions. *)
Definition at_ (ts : list R) (j : nat) : R := nth j ts 0.

(** Knots [j], [j+1] bracket [t]; [left] says which interval an inner knot belongs to.  The first
    interval extends to minus infinity, the last to plus infinity. *)
Definition brackets (ts : list R) (left : bool) (t : R) (j : nat) : Prop :=
  (S j < length ts)%nat /\
  (j = 0%nat \/ if left then at_ ts j < t else at_ ts j <= t) /\
  (S (S j) = length ts \/ if left then t <= at_ ts (S j) else t < at_ ts (S j)).

(** [ys[i]] is the number [v]; [ys[i]] is NaN. *)
Definition observed (ys : list (option R)) (i : nat) (v : R) : Prop := nth_error ys i = Some (Some v).
Definition missing (ys : list (option R)) (i : nat) : Prop := nth_error ys i = Some None.
(** All entries from [i] (included) to [j] (excluded) are NaN. *)
Definition all_missing (ys : list (option R)) (i j : nat) : Prop :=
  forall k, (i <= k < j)%nat -> missing ys k.

(** The straight line from [(t0, y0)] to [(t1, y1)]. *)
Definition line (t0 y0 t1 y1 t : R) : R := y0 + (y1 - y0) * ((t - t0) / (t1 - t0)).
Definition slope (t0 y0 t1 y1 : R) : R := (y1 - y0) / (t1 - t0).

(** A polynomial function of degree at most [n]. *)
Fixpoint poly (l : list R) (x : R) : R := match l with [] => 0 | c :: l' => c + x * poly l' x end.
Definition degree_le (n : nat) (p : R -> R) : Prop :=
  exists l, (length l <= S n)%nat /\ forall x, p x = poly l x.
