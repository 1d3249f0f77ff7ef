(** Interpolation.  Models [/repo/diffrax/_local_interpolation.py],
    [/repo/diffrax/_global_interpolation.py] (all but [DenseInterpolation], see [Model_Dense]) and
    [_misc.py] [linear_rescale], [fill_forward].
    All operations act componentwise on arrays and PyTrees; one component is modelled.  Numbers are
    exact reals instead of floats; where data may be missing, [None] is NaN. *)
From Coq Require Import Reals List Bool Arith ZArith.
From Verif Require Import Model_Loop Model_Dense.
Import ListNotations.
Open Scope R_scope.

Definition Rltb (a b : R) : bool := if Rlt_dec a b then true else false.

(** Arithmetic that propagates NaN. *)
Definition num := option R.
Definition lift2 (f : R -> R -> R) (a b : num) : num :=
  match a, b with Some x, Some y => Some (f x y) | _, _ => None end.
Definition isnan (a : num) : bool := match a with None => true | Some _ => false end.

(** [_misc.py:71-82] *)
Definition linear_rescale (t0 t t1 : R) : R :=
  let cond := if Req_EM_T t0 t1 then true else false in
  (if cond then 0 else t - t0) / (if cond then 1 else t1 - t0).

(** [jnp.polyval]: Horner's rule, highest power first. *)
Definition polyval (coeffs : list R) (t : R) : R := fold_left (fun acc c => acc * t + c) coeffs 0.

(** [_local_interpolation.py:30-48] [LocalLinearInterpolation.evaluate(t)] and [evaluate(a, b)]. *)
Definition local_linear (t0 t1 y0 y1 t : R) : R := y0 + linear_rescale t0 t t1 * (y1 - y0).
Definition local_linear_incr (t0 t1 y0 y1 a b : R) : R := (b - a) / (t1 - t0) * (y1 - y0).

(** [_local_interpolation.py:59-67]: the coefficients of [ThirdOrderHermitePolynomialInterpolation]. *)
Definition third_order_coeffs (y0 y1 k0 k1 : R) : list R :=
  [k0 + k1 + 2 * y0 - 2 * y1; - 2 * k0 - k1 - 3 * y0 + 3 * y1; k0; y0].
(** [_local_interpolation.py:82-96] *)
Definition poly_interp (coeffs : list R) (t0 t1 t : R) : R := polyval coeffs (linear_rescale t0 t t1).
Definition third_order (t0 t1 y0 y1 k0 k1 t : R) : R :=
  poly_interp (third_order_coeffs y0 y1 k0 k1) t0 t1 t.
(** [evaluate(a, b)] of the two polynomial interpolations, lines 86-87 and 139-140. *)
Definition poly_interp_incr (coeffs : list R) (t0 t1 a b : R) : R :=
  poly_interp coeffs t0 t1 b - poly_interp coeffs t0 t1 a.

(** [jnp.tensordot(c, k, axes=1)] *)
Fixpoint tensordot (c k : list R) : R :=
  match c, k with x :: c, y :: k => x * y + tensordot c k | _, _ => 0 end.

(** [_local_interpolation.py:99-131]: the coefficients of [FourthOrderPolynomialInterpolation]; [k] is
    the list of stages, not empty. *)
Definition fourth_order_coeffs (c_mid : list R) (y0 y1 : R) (k : list R) : list R :=
  let ymid := y0 + tensordot c_mid k in
  let f0 := hd 0 k in
  let f1 := last k 0 in
  [2 * (f1 - f0) - 8 * (y1 + y0) + 16 * ymid;
   5 * f0 - 3 * f1 + 18 * y0 + 14 * y1 - 32 * ymid;
   f1 - 4 * f0 - 11 * y0 - 5 * y1 + 16 * ymid;
   f0; y0].
Definition fourth_order (c_mid : list R) (t0 t1 y0 y1 : R) (k : list R) (t : R) : R :=
  poly_interp (fourth_order_coeffs c_mid y0 y1 k) t0 t1 t.

(** [x[i]] for an array without missing entries. *)
Definition getR (l : list R) (i : Z) : R := match get_wrap l i with Some x => x | None => 0 end.
Definition getN (l : list num) (i : Z) : num := match get_wrap l i with Some x => x | None => None end.

(** [_global_interpolation.py:38-46] *)
Definition index_of (ts : list R) (t : R) (left : bool) : Z := interpret_t Rltb ts (length ts) t left.

(** [_global_interpolation.py:97-149] [LinearInterpolation.evaluate(t)]; [evaluate(a, b)] (lines 133-134) for
    array data. *)
Definition linear_evaluate (ts : list R) (ys : list num) (t : R) (left : bool) : num :=
  let index := index_of ts t left in
  let prev_y := getN ys index in
  let next_y := getN ys (index + 1) in
  let frac := t - getR ts index in
  let diff_t := getR ts (index + 1) - getR ts index in
  lift2 Rplus prev_y (option_map (fun d => d * (frac / diff_t)) (lift2 Rminus next_y prev_y)).
Definition linear_increment (ts : list R) (ys : list num) (a b : R) (left : bool) : num :=
  lift2 Rminus (linear_evaluate ts ys b left) (linear_evaluate ts ys a left).
(** [_global_interpolation.py:152-175] [derivative]. *)
Definition linear_derivative (ts : list R) (ys : list num) (t : R) (left : bool) : num :=
  let index := index_of ts t left in
  option_map (fun d => d / (getR ts (index + 1) - getR ts index))
             (lift2 Rminus (getN ys (index + 1)) (getN ys index)).

(** PyTrees, and Python's [-]: defined on arrays, a [TypeError] ([None]) on tuples, lists and dicts. *)
Inductive pytree (A : Type) := Leaf (x : A) | Node (children : list (pytree A)).
Arguments Leaf {A}. Arguments Node {A}.
Fixpoint tree_map {A B} (f : A -> B) (t : pytree A) : pytree B :=
  match t with Leaf x => Leaf (f x) | Node l => Node (map (tree_map f) l) end.
Definition py_minus (x y : pytree num) : option (pytree num) :=
  match x, y with Leaf a, Leaf b => Some (Leaf (lift2 Rminus a b)) | _, _ => None end.
(** [evaluate(t)] and [evaluate(a, b)] for PyTrees: line 134 (and 256, 347 in the other classes)
    subtracts with [-]. *)
Definition linear_evaluate_tree (ts : list R) (ys : pytree (list num)) (t : R) (left : bool) : pytree num :=
  tree_map (fun l => linear_evaluate ts l t left) ys.
Definition linear_increment_tree (ts : list R) (ys : pytree (list num)) (a b : R) (left : bool)
  : option (pytree num) :=
  py_minus (linear_evaluate_tree ts ys b left) (linear_evaluate_tree ts ys a left).

(** Cubic coefficients of one interval: [d, c, b, a]. *)
Definition cubic : Type := num * num * num * num.
(** [a + x * (b + x * (c + x * d))] and its derivative, lines 261-265 and 291-292. *)
Definition cubic_at (q : cubic) (x : R) : num :=
  let '(d, c, b, a) := q in
  lift2 Rplus a (lift2 Rmult (Some x) (lift2 Rplus b (lift2 Rmult (Some x)
    (lift2 Rplus c (lift2 Rmult (Some x) d))))).
Definition cubic_deriv_at (q : cubic) (x : R) : num :=
  let '(d, c, b, a) := q in
  lift2 Rplus b (lift2 Rmult (Some x) (lift2 Rplus (lift2 Rmult (Some 2) c)
    (lift2 Rmult (Some (x * 3)) d))).
Definition getQ (l : list cubic) (i : Z) : cubic :=
  match get_wrap l i with Some x => x | None => (None, None, None, None) end.
(** [_global_interpolation.py:223-265, 268-292] [CubicInterpolation.evaluate(t)], [derivative(t)]. *)
Definition cubic_evaluate (ts : list R) (qs : list cubic) (t : R) (left : bool) : num :=
  let index := index_of ts t left in cubic_at (getQ qs index) (t - getR ts index).
Definition cubic_derivative (ts : list R) (qs : list cubic) (t : R) (left : bool) : num :=
  let index := index_of ts t left in cubic_deriv_at (getQ qs index) (t - getR ts index).

(** [_misc.py:28-34, 63-68] [fill_forward]: a scan from [y0 = ys[0]] or the replacement. *)
Fixpoint fill_forward_scan (carry : num) (ys : list num) : list num :=
  match ys with
  | [] => []
  | y :: ys' => let y' := if isnan y then carry else y in y' :: fill_forward_scan y' ys'
  end.
Definition start_value (ys : list num) (replace_nans_at_start : option num) : num :=
  match replace_nans_at_start with None => hd None ys | Some r => r end.
Definition fill_forward (ys : list num) (replace_nans_at_start : option num) : list num :=
  fill_forward_scan (start_value ys replace_nans_at_start) ys.

(** [_global_interpolation.py:413-425], scanned with [reverse=True]. *)
Fixpoint reverse_scan (carry : R * num) (l : list (R * num)) : list (R * num) :=
  match l with
  | [] => []
  | (t, y) :: l' =>
      let rest := reverse_scan carry l' in
      let next := hd carry rest in
      (if isnan y then next else (t, y)) :: rest
  end.

(** [_global_interpolation.py:428-449], scanned.  The list entries are [ti, yi, next_ti, next_yi]. *)
Fixpoint linear_forward_scan (carry : R * num) (l : list (R * num * (R * num))) : list num :=
  match l with
  | [] => []
  | ((ti, yi), (next_ti, next_yi)) :: l' =>
      let cond := isnan yi in
      let carry_ti := if cond then fst carry else ti in
      let carry_yi := if cond then snd carry else yi in
      let div := if cond then next_ti - carry_ti else 1 in
      let y := lift2 Rplus carry_yi
                 (option_map (fun d => d * (ti - carry_ti) / div) (lift2 Rminus next_yi carry_yi)) in
      y :: linear_forward_scan (carry_ti, carry_yi) l'
  end.

(** [_global_interpolation.py:452-473] [_linear_interpolation]; [ts] strictly increasing, at least two
    of them, by [_check_ts] (lines 401-410). *)
Definition linear_interpolation (fill_forward_nans_at_end : bool) (ts : list R) (ys : list num)
           (replace_nans_at_start : option num) : list num :=
  let y0 := start_value ys replace_nans_at_start in
  let next := reverse_scan (last ts 0, last ys None) (combine ts ys) in
  let next_ys := map snd next in
  let next_ys := if fill_forward_nans_at_end then fill_forward next_ys None else next_ys in
  linear_forward_scan (hd 0 ts, y0) (combine (combine ts ys) (combine (map fst next) next_ys)).

(** [jnp.repeat(x, 2)] *)
Fixpoint repeat2 {A} (l : list A) : list A :=
  match l with [] => [] | x :: l' => x :: x :: repeat2 l' end.
(** [_global_interpolation.py:507-515, 590-602] [rectilinear_interpolation]. *)
Definition rectilinear_interpolation (ts : list R) (ys : list num)
           (replace_nans_at_start : option num) : list R * list num :=
  (tl (repeat2 ts), removelast (repeat2 (fill_forward ys replace_nans_at_start))).

Definition ndiv (a b : num) : num := lift2 Rdiv a b.
(** [_global_interpolation.py:605-640] [_hermite_forward], scanned; carries and outputs are
    [prev_ti, prev_yi, prev_deriv_i]. *)
Fixpoint hermite_forward_scan (carry : R * num * num) (l : list (R * num * (R * num)))
  : list (R * num * num) :=
  match l with
  | [] => []
  | ((ti, yi), (next_ti, next_yi)) :: l' =>
      let '(prev_ti, prev_yi, prev_deriv) := carry in
      let first_deriv := ndiv (lift2 Rminus next_yi yi) (Some (next_ti - ti)) in
      let later_deriv := ndiv (lift2 Rminus yi prev_yi) (Some (ti - prev_ti)) in
      let deriv := if isnan prev_yi then first_deriv else later_deriv in
      let carry' := if isnan yi then carry else (ti, yi, deriv) in
      carry' :: hermite_forward_scan carry' l'
  end.

(** [_global_interpolation.py:643-655] *)
Definition hermite_coeffs (t0 : R) (y0 deriv0 : num) (t1 : R) (y1 : num) : cubic :=
  let t_diff := t1 - t0 in
  let deriv1 := ndiv (lift2 Rminus y1 y0) (Some t_diff) in
  let d_deriv := lift2 Rminus deriv1 deriv0 in
  (ndiv (option_map Ropp d_deriv) (Some (t_diff ^ 2)),
   ndiv (lift2 Rmult (Some 2) d_deriv) (Some t_diff), deriv0, y0).

(** [_global_interpolation.py:658-666]; the two-knot [CubicInterpolation] has one interval. *)
Definition hermite_impl (prev : R * num * num) (ti : R) (next : R * num) : cubic :=
  let '(prev_ti, prev_yi, prev_deriv) := prev in
  let q := hermite_coeffs prev_ti prev_yi prev_deriv (fst next) (snd next) in
  let ts := [prev_ti; fst next] in
  hermite_coeffs ti (cubic_evaluate ts [q] ti true) (cubic_derivative ts [q] ti true)
                 (fst next) (snd next).

Fixpoint map3 {A B C D} (f : A -> B -> C -> D) (l : list A) (l' : list B) (l'' : list C) : list D :=
  match l, l', l'' with
  | a :: l, b :: l', c :: l'' => f a b c :: map3 f l l' l''
  | _, _, _ => []
  end.

(** [_global_interpolation.py:669-714] [_backward_hermite_coefficients]. *)
Definition backward_hermite_coefficients (fill_forward_nans_at_end : bool) (ts : list R)
           (ys : list num) (deriv0 replace_nans_at_start : option num) : list cubic :=
  let next := reverse_scan (last ts 0, last ys None) (combine (tl ts) (tl ys)) in
  let next_ts := map fst next in
  let next_ys := map snd next in
  let next_ys := if fill_forward_nans_at_end then fill_forward next_ys None else next_ys in
  let next := combine next_ts next_ys in
  let t0 := hd 0 ts in
  let y0 := start_value ys replace_nans_at_start in
  let d0 := match deriv0 with
            | None => ndiv (lift2 Rminus (hd None next_ys) y0) (Some (hd 0 next_ts - t0))
            | Some d => d
            end in
  let ts' := removelast ts in
  let ys' := removelast ys in
  let prev := (t0, y0, d0)
              :: hermite_forward_scan (t0, y0, d0)
                   (combine (combine (tl ts') (tl ys')) (tl next)) in
  map3 hermite_impl prev ts' next.
