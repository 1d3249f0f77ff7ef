(** Theorems about interpolation: C38, C39, C40, C41, C42. *)
From Coq Require Import Reals List Bool Arith ZArith Lia Lra Sorting.Sorted.
From Verif Require Import Model_Interp Spec_Interp Proof_Interp Proof_InterpGlobal Proof_InterpFill
  Proof_InterpHermite Proof_InterpEx.
Import ListNotations.
Open Scope R_scope.

Section Interp.
  (** C38: [LocalLinearInterpolation] at the ends; increments. *)
  Theorem C38_linear_ends :
    forall (t0 t1 y0 y1 : R),
    local_linear t0 t1 y0 y1 t0 = y0 /\ (t0 <> t1 -> local_linear t0 t1 y0 y1 t1 = y1).
  Proof. exact pf_C38_linear_ends. Qed.
  Theorem C38_linear_increment :
    forall (t0 t1 y0 y1 a b : R),
    t0 <> t1 ->
  local_linear_incr t0 t1 y0 y1 a b = local_linear t0 t1 y0 y1 b - local_linear t0 t1 y0 y1 a.
  Proof. exact pf_C38_linear_increment. Qed.
  (** C38: the cubic Hermite interpolant: end values and end slopes. *)
  Theorem C38_third_order_ends :
    forall (t0 t1 y0 y1 k0 k1 : R),
    third_order t0 t1 y0 y1 k0 k1 t0 = y0 /\
  (t0 <> t1 -> third_order t0 t1 y0 y1 k0 k1 t1 = y1).
  Proof. exact pf_C38_third_order_ends. Qed.
  Theorem C38_third_order_slopes :
    forall (t0 t1 y0 y1 k0 k1 : R),
    t0 <> t1 ->
  derivable_pt_lim (third_order t0 t1 y0 y1 k0 k1) t0 (k0 / (t1 - t0)) /\
  derivable_pt_lim (third_order t0 t1 y0 y1 k0 k1) t1 (k1 / (t1 - t0)).
  Proof. exact pf_C38_third_order_slopes. Qed.
  (** C38: it recovers every polynomial of degree 3. *)
  Theorem C38_third_order_exact :
    forall (p : R -> R) (t0 t1 d0 d1 : R),
    t0 <> t1 -> degree_le 3 p -> derivable_pt_lim p t0 d0 -> derivable_pt_lim p t1 d1 ->
  forall t, third_order t0 t1 (p t0) (p t1) ((t1 - t0) * d0) ((t1 - t0) * d1) t = p t.
  Proof. exact pf_C38_third_order_exact. Qed.
  (** C38: the quartic: end values, midpoint, end slopes. *)
  Theorem C38_fourth_order_ends :
    forall (c_mid : list R) (t0 t1 y0 y1 : R) (k : list R),
    fourth_order c_mid t0 t1 y0 y1 k t0 = y0 /\
  (t0 <> t1 ->
   fourth_order c_mid t0 t1 y0 y1 k t1 = y1 /\
   fourth_order c_mid t0 t1 y0 y1 k ((t0 + t1) / 2) = y0 + tensordot c_mid k).
  Proof. exact pf_C38_fourth_order_ends. Qed.
  Theorem C38_fourth_order_slopes :
    forall (c_mid : list R) (t0 t1 y0 y1 : R) (k : list R) (k_first k_last : R) (inner : list R),
    t0 <> t1 -> k = k_first :: inner ++ [k_last] ->
  derivable_pt_lim (fourth_order c_mid t0 t1 y0 y1 k) t0 (k_first / (t1 - t0)) /\
  derivable_pt_lim (fourth_order c_mid t0 t1 y0 y1 k) t1 (k_last / (t1 - t0)).
  Proof. exact pf_C38_fourth_order_slopes. Qed.
  (** C38: it recovers every polynomial of degree 4. *)
  Theorem C38_fourth_order_exact :
    forall (p : R -> R) (c_mid : list R) (t0 t1 d0 d1 : R) (k inner : list R),
    t0 <> t1 -> degree_le 4 p -> derivable_pt_lim p t0 d0 -> derivable_pt_lim p t1 d1 ->
  k = (t1 - t0) * d0 :: inner ++ [(t1 - t0) * d1] ->
  p t0 + tensordot c_mid k = p ((t0 + t1) / 2) ->
  forall t, fourth_order c_mid t0 t1 (p t0) (p t1) k t = p t.
  Proof. exact pf_C38_fourth_order_exact. Qed.
  (** C38: increments add up and lead from value to value. *)
  Theorem C38_increment_additive :
    forall (coeffs : list R) (t0 t1 a b c : R),
    poly_interp_incr coeffs t0 t1 a b + poly_interp_incr coeffs t0 t1 b c
  = poly_interp_incr coeffs t0 t1 a c /\
  poly_interp coeffs t0 t1 a + poly_interp_incr coeffs t0 t1 a b = poly_interp coeffs t0 t1 b.
  Proof. exact pf_C38_increment_additive. Qed.
  (** C38: on an interval of length zero the value is the start value. *)
  Theorem C38_zero_length :
    forall (t y0 y1 : R) (coeffs : list R) (c : R),
    local_linear t t y0 y1 t = y0 /\ poly_interp (coeffs ++ [c]) t t t = c.
  Proof. exact pf_C38_zero_length. Qed.
  Example C38_instance : degree_le 3 (fun x => x * x * x) /\
    derivable_pt_lim (fun x => x * x * x) 1 3 /\ derivable_pt_lim (fun x => x * x * x) 3 27 /\
    third_order 1 3 1 27 ((3 - 1) * 3) ((3 - 1) * 27) 2 = 8.
  Proof. exact ex_C38. Qed.

  (** C39: every time is bracketed by exactly one pair of knots. *)
  Theorem C39_brackets :
    forall (ts : list R) (left : bool) (t : R),
    StronglySorted Rlt ts -> (2 <= length ts)%nat ->
  exists j, brackets ts left t j /\ forall j', brackets ts left t j' -> j' = j.
  Proof. exact pf_C39_brackets. Qed.
  (** C39: there the value is that of the line through the two data points, and [derivative] its
      slope.  Repeated knots are allowed. *)
  Theorem C39_interval :
    forall (ts : list R) (ys : list num) (left : bool) (t a b : R) (j : nat),
    StronglySorted Rle ts -> length ys = length ts -> brackets ts left t j ->
  observed ys j a -> observed ys (S j) b ->
  linear_evaluate ts ys t left = Some (line (at_ ts j) a (at_ ts (S j)) b t) /\
  linear_derivative ts ys t left = Some (slope (at_ ts j) a (at_ ts (S j)) b).
  Proof. exact pf_C39_interval. Qed.
  (** C39: NaN if one of the two data points is NaN. *)
  Theorem C39_missing :
    forall (ts : list R) (ys : list num) (left : bool) (t : R) (j : nat),
    StronglySorted Rle ts -> length ys = length ts -> brackets ts left t j ->
  missing ys j \/ missing ys (S j) -> linear_evaluate ts ys t left = None.
  Proof. exact pf_C39_missing. Qed.
  (** C39: without NaN, the data at the knots, whatever [left] is, *)
  Theorem C39_knots :
    forall (ts vs : list R) (left : bool) (i : nat) (t v : R),
    StronglySorted Rlt ts -> (2 <= length ts)%nat -> length vs = length ts ->
  nth_error ts i = Some t -> nth_error vs i = Some v ->
  linear_evaluate ts (map Some vs) t left = Some v.
  Proof. exact pf_C39_knots. Qed.
  (** a convex combination in between, *)
  Theorem C39_convex :
    forall (ts vs : list R) (left : bool) (t : R),
    StronglySorted Rlt ts -> (2 <= length ts)%nat -> length vs = length ts ->
  at_ ts 0 <= t <= at_ ts (length ts - 1) ->
  exists j lam, (S j < length ts)%nat /\ 0 <= lam <= 1 /\
    t = (1 - lam) * at_ ts j + lam * at_ ts (S j) /\
    linear_evaluate ts (map Some vs) t left = Some ((1 - lam) * at_ vs j + lam * at_ vs (S j)).
  Proof. exact pf_C39_convex. Qed.
  (** a continuous function, with the reported derivative, *)
  Theorem C39_continuous :
    forall (ts vs : list R) (left : bool),
    StronglySorted Rlt ts -> (2 <= length ts)%nat -> length vs = length ts ->
  exists f, (forall t, linear_evaluate ts (map Some vs) t left = Some (f t)) /\ continuity f /\
    forall t d, (forall i, (i < length ts)%nat -> t <> at_ ts i) ->
      linear_derivative ts (map Some vs) t left = Some d -> derivable_pt_lim f t d.
  Proof. exact pf_C39_continuous. Qed.
  (** and increments that add up. *)
  Theorem C39_increments :
    forall (ts vs : list R) (left : bool) (a b c : R),
    StronglySorted Rlt ts -> (2 <= length ts)%nat -> length vs = length ts ->
  exists ab bc, linear_increment ts (map Some vs) a b left = Some ab /\
    linear_increment ts (map Some vs) b c left = Some bc /\
    linear_increment ts (map Some vs) a c left = Some (ab + bc).
  Proof. exact pf_C39_increments. Qed.
  (** C39 fails for data in a tuple, list or dict: increments raise an exception. *)
  Theorem C39_increment_pytree_refuted :
    exists ts ys a b v w, StronglySorted Rlt ts /\
    linear_evaluate_tree ts ys a true = Node [Leaf (Some v)] /\
    linear_evaluate_tree ts ys b true = Node [Leaf (Some w)] /\
    linear_increment_tree ts ys a b true = None.
  Proof. exact pf_C39_increment_pytree_refuted. Qed.
  Example C39_instance : StronglySorted Rlt [0; 1; 2; 3] /\ brackets [0; 1; 2; 3] true 2 1 /\
    brackets [0; 1; 2; 3] false 2 2 /\ brackets [0; 1; 2; 3] true (5 / 2) 2 /\
    linear_evaluate [0; 1; 2; 3] [Some 0; None; Some 4; Some 8] (5 / 2) true = Some 6 /\
    linear_evaluate [0; 1; 2; 3] [Some 0; None; Some 4; Some 8] 2 true = None /\
    linear_evaluate [0; 1; 2; 3] [Some 0; None; Some 4; Some 8] 2 false = Some 4.
  Proof. exact ex_C39. Qed.

  (** C40: without NaN the interpolation is a continuously differentiable function through the data,
      whose derivative at a knot is the slope of the data before it. *)
  Theorem C40_smooth :
    forall (ff : bool) (ts vs : list R) (deriv0 : option R) (left : bool),
    StronglySorted Rlt ts -> (2 <= length ts)%nat -> length vs = length ts ->
  let qs := backward_hermite_coefficients ff ts (map Some vs) (option_map Some deriv0) None in
  exists f f',
    (forall t, cubic_evaluate ts qs t left = Some (f t)) /\
    (forall t, cubic_derivative ts qs t left = Some (f' t)) /\
    (forall t, derivable_pt_lim f t (f' t)) /\ continuity f' /\
    (forall i, (i < length ts)%nat -> f (at_ ts i) = at_ vs i) /\
    (forall i, (S i < length ts)%nat -> f' (at_ ts (S i)) = slope (at_ ts i) (at_ vs i) (at_ ts (S i)) (at_ vs (S i))) /\
    f' (at_ ts 0) = match deriv0 with
                    | Some d => d | None => slope (at_ ts 0) (at_ vs 0) (at_ ts 1) (at_ vs 1) end.
  Proof. exact pf_C40_smooth. Qed.
  (** C40: each piece depends on the data up to the end of its interval. *)
  Theorem C40_causal :
    forall (ff : bool) (ts vs vs' : list R) (deriv0 : option R) (i : nat),
    StronglySorted Rlt ts -> (2 <= length ts)%nat -> length vs = length ts -> length vs' = length ts ->
  (forall k, (k <= S i)%nat -> nth_error vs k = nth_error vs' k) ->
  nth_error (backward_hermite_coefficients ff ts (map Some vs) (option_map Some deriv0) None) i =
  nth_error (backward_hermite_coefficients ff ts (map Some vs') (option_map Some deriv0) None) i.
  Proof. exact pf_C40_causal. Qed.
  (** C40: with NaN, both one-sided values at an observation still equal it. *)
  Theorem C40_observations :
    forall (ff : bool) (ts : list R) (ys : list num) (deriv0 : option num) (i : nat) (t v : R) (left : bool),
    StronglySorted Rlt ts -> (2 <= length ts)%nat -> length ys = length ts -> deriv0 <> Some None ->
  nth_error ts i = Some t -> observed ys i v ->
  (if left then (exists j w, (j < i)%nat /\ observed ys j w) \/ (i = 0%nat /\ exists j w, (0 < j)%nat /\ observed ys j w)
   else exists j w, (i < j)%nat /\ observed ys j w) ->
  cubic_evaluate ts (backward_hermite_coefficients ff ts ys deriv0 None) t left = Some v.
  Proof. exact pf_C40_observations. Qed.
  (** C40 fails with two NaN in a row (value jumps) and with one (derivative jumps). *)
  Theorem C40_gap_discontinuous_refuted :
    exists ts ys d0 t a b, StronglySorted Rlt ts /\ length ys = length ts /\
    cubic_evaluate ts (backward_hermite_coefficients false ts ys (Some (Some d0)) None) t true = Some a /\
    cubic_evaluate ts (backward_hermite_coefficients false ts ys (Some (Some d0)) None) t false = Some b /\
    a <> b.
  Proof. exact pf_C40_gap_discontinuous_refuted. Qed.
  Theorem C40_gap_derivative_refuted :
    exists ts ys d0 t a b, StronglySorted Rlt ts /\ length ys = length ts /\
    (exists i v, nth_error ts i = Some t /\ observed ys i v) /\
    cubic_derivative ts (backward_hermite_coefficients false ts ys (Some (Some d0)) None) t true = Some a /\
    cubic_derivative ts (backward_hermite_coefficients false ts ys (Some (Some d0)) None) t false = Some b /\
    a <> b.
  Proof. exact pf_C40_gap_derivative_refuted. Qed.
  (** C40: with [replace_nans_at_start] the start value is the replacement, even if the first value is
      not NaN. *)
  Theorem C40_replacement :
    forall (ff : bool) (ts : list R) (ys : list num) (r : R) (j : nat) (w : R) (left : bool),
    StronglySorted Rlt ts -> (2 <= length ts)%nat -> length ys = length ts ->
  (0 < j)%nat -> observed ys j w ->
  cubic_evaluate ts (backward_hermite_coefficients ff ts ys None (Some (Some r))) (at_ ts 0) left = Some r.
  Proof. exact pf_C40_replacement. Qed.
  Theorem C40_replacement_refuted :
    exists ts ys r v, StronglySorted Rlt ts /\ length ys = length ts /\
    (forall i, (i < length ts)%nat -> exists x, observed ys i x) /\ observed ys 0 v /\
    cubic_evaluate ts (backward_hermite_coefficients false ts ys None (Some (Some r))) (at_ ts 0) true <> Some v.
  Proof. exact pf_C40_replacement_refuted. Qed.
  (** C40: with [fill_forward_nans_at_end] the result is not the spline of the filled data; NaN remain
      if only the first value is known. *)
  Theorem C40_fill_end_refuted :
    (exists ts ys t a b, StronglySorted Rlt ts /\ length ys = length ts /\
    cubic_evaluate ts (backward_hermite_coefficients true ts ys None None) t true = Some a /\
    cubic_evaluate ts (backward_hermite_coefficients true ts (fill_forward ys None) None None) t true = Some b /\
    a <> b) /\
  (exists ts ys t v, StronglySorted Rlt ts /\ length ys = length ts /\ observed ys 0 v /\
    cubic_evaluate ts (backward_hermite_coefficients true ts ys None None) t true = None).
  Proof. exact pf_C40_fill_end_refuted. Qed.
  Example C40_instance : exists f f', (forall t, cubic_evaluate [0; 1; 2; 3]
     (backward_hermite_coefficients false [0; 1; 2; 3] (map Some [0; 1; 4; 9]) None None) t true = Some (f t)) /\
   (forall t, derivable_pt_lim f t (f' t)) /\ f 2 = 4 /\ f' 2 = 3 /\ f' 0 = 1.
  Proof. exact ex_C40. Qed.

  (** C41: [fill_forward] carries the last observation. *)
  Theorem C41_fill_forward :
    forall (ys : list num) (rep : option num) (i : nat),
    (forall p v, (p <= i)%nat -> observed ys p v -> all_missing ys (S p) (S i) ->
     nth_error (fill_forward ys rep) i = Some (Some v)) /\
  (all_missing ys 0 (S i) ->
     nth_error (fill_forward ys rep) i = Some (match rep with Some r => r | None => None end)) /\
  length (fill_forward ys rep) = length ys.
  Proof. exact pf_C41_fill_forward. Qed.
  (** C41: [linear_interpolation] keeps observations, *)
  Theorem C41_observed :
    forall (ff : bool) (ts : list R) (ys : list num) (rep : option num) (i : nat) (v : R),
    StronglySorted Rlt ts -> (2 <= length ts)%nat -> length ys = length ts ->
  observed ys i v ->
  nth_error (linear_interpolation ff ts ys rep) i = Some (Some v).
  Proof. exact pf_C41_observed. Qed.
  (** puts NaN between two observations on the line through them, *)
  Theorem C41_interior :
    forall (ff : bool) (ts : list R) (ys : list num) (rep : option num) (p i n : nat) (a b : R),
    StronglySorted Rlt ts -> (2 <= length ts)%nat -> length ys = length ts ->
  (p < i < n)%nat -> observed ys p a -> observed ys n b -> all_missing ys (S p) n ->
  nth_error (linear_interpolation ff ts ys rep) i
  = Some (Some (line (at_ ts p) a (at_ ts n) b (at_ ts i))).
  Proof. exact pf_C41_interior. Qed.
  (** fills leading NaN from the replacement only (on a line from it to the first observation), *)
  Theorem C41_leading :
    forall (ff : bool) (ts : list R) (ys : list num) (rep : option num) (i n : nat) (b : R),
    StronglySorted Rlt ts -> (2 <= length ts)%nat -> length ys = length ts ->
  (i < n)%nat -> observed ys n b -> all_missing ys 0 n ->
  nth_error (linear_interpolation ff ts ys rep) i
  = Some (match rep with
          | Some (Some r) => Some (line (at_ ts 0) r (at_ ts n) b (at_ ts i))
          | _ => None
          end).
  Proof. exact pf_C41_leading. Qed.
  (** and trailing NaN only if asked to. *)
  Theorem C41_trailing :
    forall (ff : bool) (ts : list R) (ys : list num) (rep : option num) (p i : nat) (a : R),
    StronglySorted Rlt ts -> (2 <= length ts)%nat -> length ys = length ts ->
  (p < i < length ts)%nat -> observed ys p a -> all_missing ys (S p) (length ts) ->
  nth_error (linear_interpolation ff ts ys rep) i = Some (if ff then Some a else None).
  Proof. exact pf_C41_trailing. Qed.
  (** C41: with nothing observed everything stays NaN, even if a replacement is given. *)
  Theorem C41_nothing_observed :
    forall (ff : bool) (ts : list R) (ys : list num) (rep : option num) (i : nat),
    StronglySorted Rlt ts -> (2 <= length ts)%nat -> length ys = length ts ->
  (i < length ts)%nat -> all_missing ys 0 (length ts) ->
  nth_error (linear_interpolation ff ts ys rep) i = Some None.
  Proof. exact pf_C41_nothing_observed. Qed.
  Theorem C41_replacement_refuted :
    exists ts ys r, StronglySorted Rlt ts /\ length ys = length ts /\ missing ys 0 /\
    nth_error (linear_interpolation true ts ys (Some (Some r))) 0 <> Some (Some r).
  Proof. exact pf_C41_replacement_refuted. Qed.
  Example C41_instance : linear_interpolation true [0; 1; 2; 3] [Some 0; None; Some 4; None] None
    = [Some 0; Some 2; Some 4; Some 4].
  Proof. exact ex_C41. Qed.

  (** C42: the shape of [rectilinear_interpolation]: the [i]-th time at entries [2i-1], [2i], the
      [i]-th (filled) value at entries [2i], [2i+1]. *)
  Theorem C42_shape :
    forall (ts : list R) (ys : list num) (rep : option num) (new_ts : list R) (new_ys : list num),
    (2 <= length ts)%nat -> length ys = length ts ->
  rectilinear_interpolation ts ys rep = (new_ts, new_ys) ->
  length new_ts = (2 * length ts - 1)%nat /\ length new_ys = (2 * length ts - 1)%nat /\
  (forall i t, nth_error ts i = Some t ->
     nth_error new_ts (2 * i) = Some t /\ (forall k, i = S k -> nth_error new_ts (2 * k + 1) = Some t)) /\
  (forall i y, nth_error (fill_forward ys rep) i = Some y ->
     nth_error new_ys (2 * i) = Some y /\
     ((S i < length ts)%nat -> nth_error new_ys (2 * i + 1) = Some y)).
  Proof. exact pf_C42_shape. Qed.
  (** C42: causality. *)
  Theorem C42_causal :
    forall (ts : list R) (ys ys' : list num) (rep : option num) (i : nat),
    length ys = length ts -> length ys' = length ts ->
  (forall k, (k <= i)%nat -> nth_error ys k = nth_error ys' k) ->
  fst (rectilinear_interpolation ts ys rep) = fst (rectilinear_interpolation ts ys' rep) /\
  forall k, (k <= 2 * i + 1)%nat ->
    nth_error (snd (rectilinear_interpolation ts ys rep)) k =
    nth_error (snd (rectilinear_interpolation ts ys' rep)) k.
  Proof. exact pf_C42_causal. Qed.
  Example C42_instance : rectilinear_interpolation [0; 1; 2] [Some 5; None; Some 7] None
    = ([0; 1; 1; 2; 2], [Some 5; Some 5; Some 5; Some 5; Some 7]).
  Proof. exact ex_C42. Qed.
End Interp.

Print Assumptions C38_linear_ends.
Print Assumptions C38_linear_increment.
Print Assumptions C38_third_order_ends.
Print Assumptions C38_third_order_slopes.
Print Assumptions C38_third_order_exact.
Print Assumptions C38_fourth_order_ends.
Print Assumptions C38_fourth_order_slopes.
Print Assumptions C38_fourth_order_exact.
Print Assumptions C38_increment_additive.
Print Assumptions C38_zero_length.
Print Assumptions C39_brackets.
Print Assumptions C39_interval.
Print Assumptions C39_missing.
Print Assumptions C39_knots.
Print Assumptions C39_convex.
Print Assumptions C39_continuous.
Print Assumptions C39_increments.
Print Assumptions C39_increment_pytree_refuted.
Print Assumptions C40_smooth.
Print Assumptions C40_causal.
Print Assumptions C40_observations.
Print Assumptions C40_gap_discontinuous_refuted.
Print Assumptions C40_gap_derivative_refuted.
Print Assumptions C40_replacement.
Print Assumptions C40_replacement_refuted.
Print Assumptions C40_fill_end_refuted.
Print Assumptions C41_fill_forward.
Print Assumptions C41_observed.
Print Assumptions C41_interior.
Print Assumptions C41_leading.
Print Assumptions C41_trailing.
Print Assumptions C41_nothing_observed.
Print Assumptions C41_replacement_refuted.
Print Assumptions C42_shape.
Print Assumptions C42_causal.
