(** Theorems about the derivative of dense output: C68. *)
From Coq Require Import ZArith Reals QArith Qreals List Bool Arith Lia Lra Sorting.Sorted.
From Coquelicot Require Import Coquelicot.
From Verif Require Import Model_Result Model_RK Model_Tableaus Model_Terms Model_Orders Model_Interp Model_DenseOutput Model_DenseDeriv.
From Verif Require Import Spec_RK Spec_Order Spec_DenseOrder Spec_Slope Spec_DenseDeriv Proof_Slope Proof_DenseDeriv Proof_DenseIntegral
  Ex_RK Ex_Order Ex_DenseOutput.
Import ListNotations.
Open Scope R_scope.

Section DenseDeriv.
  Context {DI : Type}.
  Notation dense := (dense_real DI).

  (** C68: strictly inside a step, [sol.derivative] is the derivative of [sol.evaluate], forwards and backwards. *)
  Theorem C68_inside :
    forall (d : dense) (ks : list R) (dis : list DI) (left : bool) (t : R) (j : nat) (prev next : R),
    real_knots d ks dis -> slope_is_derivative d ->
    nth_error ks j = Some prev -> nth_error ks (S j) = Some next -> prev < t * dr_direction d < next ->
    exists l, dr_derivative d t left = Some l /\ path_derivative (fun u => dr_evaluate d u left) t l.
  Proof. exact pf_C68_inside. Qed.
  (** C68: with [left=True], also at the ends of steps, it is the derivative from the side of the earlier steps... *)
  Theorem C68_left :
    forall (d : dense) (ks : list R) (dis : list DI) (t k0 k1 : R),
    real_knots d ks dis -> slope_is_derivative d -> (2 <= length ks)%nat ->
    nth_error ks 0 = Some k0 -> nth_error ks (length ks - 1) = Some k1 -> k0 < t * dr_direction d <= k1 ->
    exists l, dr_derivative d t true = Some l /\
      (dr_direction d = 1 -> left_derivative (fun u => dr_evaluate d u true) t l) /\
      (dr_direction d = -1 -> right_derivative (fun u => dr_evaluate d u true) t l).
  Proof. exact pf_C68_left. Qed.
  (** ... and with [left=False] from the side of the later steps. *)
  Theorem C68_right :
    forall (d : dense) (ks : list R) (dis : list DI) (t k0 k1 : R),
    real_knots d ks dis -> slope_is_derivative d -> (2 <= length ks)%nat ->
    nth_error ks 0 = Some k0 -> nth_error ks (length ks - 1) = Some k1 -> k0 <= t * dr_direction d < k1 ->
    exists l, dr_derivative d t false = Some l /\
      (dr_direction d = 1 -> right_derivative (fun u => dr_evaluate d u false) t l) /\
      (dr_direction d = -1 -> left_derivative (fun u => dr_evaluate d u false) t l).
  Proof. exact pf_C68_right. Qed.
  (** C68: at the ends of the solve it is the derivative from the inside, whatever [left] is. *)
  Theorem C68_ends :
    forall (d : dense) (ks : list R) (dis : list DI) (left : bool) (t k0 k1 : R),
    real_knots d ks dis -> slope_is_derivative d -> (2 <= length ks)%nat ->
    nth_error ks 0 = Some k0 -> nth_error ks (length ks - 1) = Some k1 ->
    (t * dr_direction d = k0 -> exists l, dr_derivative d t left = Some l /\
       (dr_direction d = 1 -> right_derivative (fun u => dr_evaluate d u left) t l) /\
       (dr_direction d = -1 -> left_derivative (fun u => dr_evaluate d u left) t l)) /\
    (t * dr_direction d = k1 -> exists l, dr_derivative d t left = Some l /\
       (dr_direction d = 1 -> left_derivative (fun u => dr_evaluate d u left) t l) /\
       (dr_direction d = -1 -> right_derivative (fun u => dr_evaluate d u left) t l)).
  Proof. exact pf_C68_ends. Qed.
  (** C68: outside of the solve the derivative is NaN, as the value is. *)
  Theorem C68_outside :
    forall (d : dense) (ks : list R) (dis : list DI) (left : bool) (t k0 k1 : R),
    real_knots d ks dis -> (2 <= length ks)%nat ->
    nth_error ks 0 = Some k0 -> nth_error ks (length ks - 1) = Some k1 -> (t * dr_direction d < k0 \/ k1 < t * dr_direction d) ->
    dr_derivative d t left = None /\ dr_evaluate d t left = None.
  Proof. exact pf_C68_outside. Qed.
  (** C68: without dense output there is an error; increments are differences of values. *)
  Theorem C68_solution :
    forall (interpolation : option dense) (t0 t1 : R) (left : bool),
    (interpolation = None -> sol_evaluate interpolation t0 (Some t1) left = inl tt /\ sol_evaluate interpolation t0 None left = inl tt /\
       sol_derivative interpolation t0 left = inl tt) /\
    (forall y0 y1, sol_evaluate interpolation t0 None left = inr (Some y0) -> sol_evaluate interpolation t1 None left = inr (Some y1) ->
       sol_evaluate interpolation t0 (Some t1) left = inr (Some (y1 - y0))).
  Proof. exact pf_C68_solution. Qed.
  (** C68: if no step was made, the value at [t0] is [y0], but the derivative is NaN. *)
  Theorem C68_trivial_refuted :
    exists (d : dense_real DI) (t : R) (y : R),
    real_knots d [0] [] /\ dr_evaluate d t true = Some y /\ dr_derivative d t true = None.
  Proof. exact pf_C68_trivial_refuted. Qed.
  (** C68: if the pieces of adjacent steps meet, then increments are the integrals of the derivative. *)
  Theorem C68_integral :
    forall (d : dense_real DI) (ks : list R) (dis : list DI) (left : bool) (a b k0 k1 : R),
    real_knots d ks dis -> slope_is_derivative d -> continuous_at_knots d ks dis ->
  (forall a b info t, a < b -> continuity_pt (dr_slope d a b info) t) ->
  (2 <= length ks)%nat -> nth_error ks 0 = Some k0 -> nth_error ks (length ks - 1) = Some k1 ->
  k0 <= a * dr_direction d <= k1 -> k0 <= b * dr_direction d <= k1 ->
  exists increment, dr_increment d a b left = Some increment /\
    is_RInt (fun u => value_or_zero (dr_derivative d u left)) a b increment.
  Proof. exact pf_C68_integral. Qed.
End DenseDeriv.

(** C68: the documentation says that [left] chooses between the limits from the left and from the right. In a
    backward solve it is reversed: [left=True] is not the limit from the left. *)
  Theorem C68_sides_refuted :
    exists (d : dense_real (R * R)) (ks : list R) (dis : list (R * R)) (t l l' : R),
  real_knots d ks dis /\ slope_is_derivative d /\
  dr_derivative d t true = Some l /\ left_derivative (fun u => dr_evaluate d u true) t l' /\ l <> l'.
  Proof. exact pf_C68_sides_refuted. Qed.

Section Slope.
  Context {I : Type}.
  Notation Y := (I -> R).

  (** C68: for every explicit method whose interpolation has slopes of order [q] up to a rounding [eps] of the coefficients,
      the derivative of the dense output everywhere within a step of size [h] is within [O(h^q)] of the vector field
      along the exact solution, plus a multiple [K] of the rounding, where [K] depends on the equation only. *)
  Theorem C68_step :
    forall (fs : list (R -> Y -> Y)) (q : nat) (t0 : R) (y0 : Y) (T : R) (y : R -> Y),
    (0 < q)%nat -> 0 < T -> (forall f, In f fs -> smooth q f t0 y0) -> exact_solution fs t0 y0 T y ->
    exists K, forall (sv : solver I I R) (tabs : list tableau) (s : nat) (interp : interpolation) (eps : R),
      length tabs = length fs -> sv_parts sv = ode_parts (combine tabs fs) ->
      valid_parts s (sv_parts sv) -> explicit_parts (sv_parts sv) -> fsal_at_ends (sv_parts sv) ->
      0 <= eps -> slope_order interp tabs s eps q ->
      exists C h0, 0 < h0 /\ forall h theta others state made_jump, 0 < h <= h0 -> 0 <= theta <= 1 ->
        coherent (sv_parts sv) t0 y0 made_jump state ->
        let out := rk_step sv t0 (t0 + h) y0 others state made_jump in
        forall x, exists l, derivable_pt_lim (fun t => dense_value interp t0 (t0 + h) y0 out t x) (t0 + theta * h) l /\
          Rabs (l - sum_n (length fs) (fun m => nth m fs (fun _ _ _ => 0) (t0 + theta * h) (y (t0 + theta * h)) x)) <= K * eps + C * h ^ q.
  Proof. exact pf_C68_step. Qed.
  (** C68: the same for implicit and mixed methods, if the roots found tend to the initial value. *)
  Theorem C68_implicit_step :
    forall (fs : list (R -> Y -> Y)) (q : nat) (t0 : R) (y0 : Y) (T : R) (y : R -> Y),
    (0 < q)%nat -> 0 < T -> (forall f, In f fs -> smooth q f t0 y0) -> exact_solution fs t0 y0 T y ->
    exists K, forall (sv : solver I I R) (tabs : list tableau) (s : nat) (interp : interpolation) (eps : R)
        (others : R -> bool) (state : R -> solver_state I) (made_jump : R -> bool),
      length tabs = length fs -> sv_parts sv = ode_parts (combine tabs fs) ->
      valid_parts s (sv_parts sv) -> exact_root_finder (sv_root_finder sv) -> fsal_at_ends (sv_parts sv) ->
      0 <= eps -> slope_order interp tabs s eps q ->
      let out h := rk_step sv t0 (t0 + h) y0 (others h) (state h) (made_jump h) in
      (forall h, 0 < h <= T -> coherent (sv_parts sv) t0 y0 (made_jump h) (state h) /\ is_okay (ro_result (out h)) = true) ->
      (forall delta, 0 < delta -> exists h1, 0 < h1 /\ forall h i, 0 < h <= h1 -> (i < s)%nat ->
         bounded (fun x => stage_value s (sv_parts sv) y0 (stages_of (out h)) i x - y0 x) delta) ->
      exists C h0, 0 < h0 /\ forall h theta, 0 < h <= h0 -> 0 <= theta <= 1 ->
        forall x, exists l, derivable_pt_lim (fun t => dense_value interp t0 (t0 + h) y0 (out h) t x) (t0 + theta * h) l /\
          Rabs (l - sum_n (length fs) (fun m => nth m fs (fun _ _ _ => 0) (t0 + theta * h) (y (t0 + theta * h)) x)) <= K * eps + C * h ^ q.
  Proof. exact pf_C68_implicit_step. Qed.
  (** C68: the shipped explicit solvers *)
  Theorem C68_solvers :
    forall (d : dense_method) (q : nat) (eps : R) (tab : tableau) (f : R -> Y -> Y) (t0 : R) (y0 : Y) (T : R) (y : R -> Y),
    In (d, q, eps) [(heun_dense, 2%nat, 0); (midpoint_dense, 1%nat, 0); (ralston_dense, 1%nat, 0); (bosh3_dense, 3%nat, 0);
                    (dopri5_dense, 4%nat, 0); (tsit5_dense, 4%nat, / IZR (10 ^ 15)); (dopri8_dense, 5%nat, / IZR (10 ^ 13))] ->
    m_tableaus (dm_method d) = [tab] ->
    0 < T -> smooth q f t0 y0 -> exact_solution [f] t0 y0 T y ->
    exists K, forall sv : solver I I R, sv_parts sv = [(tab, ode_term f)] ->
    exists C h0, 0 < h0 /\ forall h theta others state made_jump, 0 < h <= h0 -> 0 <= theta <= 1 ->
      coherent (sv_parts sv) t0 y0 made_jump state ->
      let out := rk_step sv t0 (t0 + h) y0 others state made_jump in
        forall x, exists l, derivable_pt_lim (fun t => dense_value (dm_interpolation d) t0 (t0 + h) y0 out t x) (t0 + theta * h) l /\
          Rabs (l - f (t0 + theta * h) (y (t0 + theta * h)) x) <= K * eps + C * h ^ q.
  Proof. exact pf_C68_solvers. Qed.
  (** C68: the shipped implicit and mixed solvers *)
  Theorem C68_implicit_solvers :
    forall (d : dense_method) (q : nat) (eps : R) (fs : list (R -> Y -> Y)) (t0 : R) (y0 : Y) (T : R) (y : R -> Y),
    In (d, q, eps) [(kvaerno3_dense, 3%nat, 0); (kvaerno4_dense, 3%nat, 0); (kvaerno5_dense, 3%nat, / IZR (10 ^ 15)); (sil3_dense, 2%nat, 0);
                    (kencarp3_dense, 2%nat, / IZR (10 ^ 23)); (kencarp4_dense, 3%nat, / IZR (10 ^ 23)); (kencarp5_dense, 3%nat, / IZR (10 ^ 9))] ->
    let tabs := m_tableaus (dm_method d) in
    let s := m_stages (dm_method d) in
    length tabs = length fs ->
    0 < T -> (forall f, In f fs -> smooth q f t0 y0) -> exact_solution fs t0 y0 T y ->
    exists K, forall (sv : solver I I R) (others : R -> bool) (state : R -> solver_state I) (made_jump : R -> bool),
      sv_parts sv = ode_parts (combine tabs fs) -> exact_root_finder (sv_root_finder sv) ->
      let out h := rk_step sv t0 (t0 + h) y0 (others h) (state h) (made_jump h) in
      (forall h, 0 < h <= T -> coherent (sv_parts sv) t0 y0 (made_jump h) (state h) /\ is_okay (ro_result (out h)) = true) ->
      (forall delta, 0 < delta -> exists h1, 0 < h1 /\ forall h i, 0 < h <= h1 -> (i < s)%nat ->
         bounded (fun x => stage_value s (sv_parts sv) y0 (stages_of (out h)) i x - y0 x) delta) ->
      exists C h0, 0 < h0 /\ forall h theta, 0 < h <= h0 -> 0 <= theta <= 1 ->
        forall x, exists l, derivable_pt_lim (fun t => dense_value (dm_interpolation d) t0 (t0 + h) y0 (out h) t x) (t0 + theta * h) l /\
          Rabs (l - sum_n (length fs) (fun m => nth m fs (fun _ _ _ => 0) (t0 + theta * h) (y (t0 + theta * h)) x)) <= K * eps + C * h ^ q.
  Proof. exact pf_C68_implicit_solvers. Qed.
End Slope.

(** C68: a backward solve with two steps, with a kink between them. *)
Example C68_instance :
  real_knots kink [0; 1; 2] [(0, 1); (1, 0)] /\ slope_is_derivative kink /\ continuous_at_knots kink [0; 1; 2] [(0, 1); (1, 0)] /\
  (forall a b info t, a < b -> continuity_pt (dr_slope kink a b info) t) /\
  dr_direction kink = -1 /\ nth_error [0; 1; 2] 1 = Some 1 /\ 0 < (-1/2) * -1 < 1.
Proof.
  split; [exact kink_knots|]. split; [exact kink_slope|]. split.
  - intros [|[|[|j]]] a b c i i' Ha Hb Hc Hi Hi'; cbn in *; try discriminate; try (destruct j; discriminate).
    injection Ha as <-. injection Hb as <-. injection Hc as <-. injection Hi as <-. injection Hi' as <-. cbn. ring.
  - split; [|split; [reflexivity|split; [reflexivity|lra]]]. intros a b (y & k) t _. apply derivable_continuous_pt. exists 0. apply derivable_pt_lim_const.
Qed.

(** C68: all explicit solvers on [y' = y^2]. *)
Example C68_solvers_instance :
  (forall d, In d [heun_dense; midpoint_dense; ralston_dense; bosh3_dense; dopri5_dense; tsit5_dense; dopri8_dense] ->
     exists tab, m_tableaus (dm_method d) = [tab]) /\
  (forall q, smooth q square 0 (fun _ => 1)) /\
  exact_solution [square] 0 (fun _ => 1) (1 / 2) square_solution /\
  (forall tab, sv_parts (square_solver tab) = [(tab, ode_term square)]) /\
  coherent (sv_parts (square_solver dopri8_tableau)) 0 (fun _ => 1) false (rk_init (square_solver dopri8_tableau)).
Proof.
  split; [intros m H; repeat (destruct H as [<-|H]; [eexists; reflexivity|]); destruct H|].
  split; [intros p; exists square_D; apply square_taylor|]. split; [exact square_exact|]. split; [reflexivity|].
  split; [reflexivity|left; reflexivity].
Qed.

(** C68: the slopes of Heun's method have order 2. *)
Example C68_step_instance :
  slope_order (dm_interpolation heun_dense) (m_tableaus heun) 2 (10 * 0) 2 /\ explicit_parts (sv_parts (square_solver heun_tableau)).
Proof.
  split; [exact (good_slope heun_dense 2 0 Proof_DenseSolvers.good_heun (Rle_refl 0))|].
  intros tab m [E|[]]; injection E as <- <-; reflexivity.
Qed.

Print Assumptions C68_inside.
Print Assumptions C68_left.
Print Assumptions C68_right.
Print Assumptions C68_ends.
Print Assumptions C68_outside.
Print Assumptions C68_solution.
Print Assumptions C68_trivial_refuted.
Print Assumptions C68_integral.
Print Assumptions C68_sides_refuted.
Print Assumptions C68_step.
Print Assumptions C68_implicit_step.
Print Assumptions C68_solvers.
Print Assumptions C68_implicit_solvers.
