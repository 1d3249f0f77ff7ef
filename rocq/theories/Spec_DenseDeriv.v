(** Specification vocabulary for the derivative of dense output. *)
From Coq Require Import Reals List Sorting.Sorted.
From Verif Require Import Model_DenseDeriv.
Import ListNotations.
Open Scope R_scope.

(** A dense output with knots [ks], in the direction of the solve, and infos [dis], padded. *)
Definition real_knots {DI} (d : dense_real DI) (ks : list R) (dis : list DI) : Prop :=
  (exists p, dr_ts d = map XFin ks ++ repeat XInf p /\ dr_infos d = map Some dis ++ repeat None p) /\
  dr_ts_size d = length ks /\ length ks = S (length dis) /\ StronglySorted Rlt ks /\
  (dr_direction d = 1 \/ dr_direction d = -1).
(** [dr_slope] is the derivative of [dr_cls]. *)
Definition slope_is_derivative {DI} (d : dense_real DI) : Prop :=
  forall a b info t, a < b -> derivable_pt_lim (dr_cls d a b info) t (dr_slope d a b info t).

(** [path] has the derivative [l] at [t]: around [t] it is a function, with this derivative. *)
Definition path_derivative (path : R -> option R) (t l : R) : Prop :=
  exists delta g, 0 < delta /\ (forall u, Rabs (u - t) < delta -> path u = Some (g u)) /\ derivable_pt_lim g t l.
(** The same for the derivative from one side. *)
Definition left_derivative (path : R -> option R) (t l : R) : Prop :=
  exists delta g, 0 < delta /\ (forall u, t - delta < u <= t -> path u = Some (g u)) /\ derivable_pt_lim g t l.
Definition right_derivative (path : R -> option R) (t l : R) : Prop :=
  exists delta g, 0 < delta /\ (forall u, t <= u < t + delta -> path u = Some (g u)) /\ derivable_pt_lim g t l.
(** The pieces of adjacent steps meet. *)
Definition continuous_at_knots {DI} (d : dense_real DI) (ks : list R) (dis : list DI) : Prop :=
  forall j a b c i i', nth_error ks j = Some a -> nth_error ks (S j) = Some b -> nth_error ks (S (S j)) = Some c ->
    nth_error dis j = Some i -> nth_error dis (S j) = Some i' -> dr_cls d a b i b = dr_cls d b c i' b.
Definition value_or_zero (o : option R) : R := match o with Some v => v | None => 0 end.
