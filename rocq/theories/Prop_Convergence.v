(** Theorems about the error of a whole solve: C59. *)
From Coq Require Import ZArith Reals QArith Qreals List Bool Arith Lia Lra.
From Verif Require Import Model_Result Model_Loop Model_RK Model_Tableaus Model_Terms Model_Orders Model_Interp Model_DenseOutput.
From Verif Require Import Spec_Loop Spec_RK Spec_RKLoop Spec_Order Spec_DenseOrder Spec_Lipschitz Spec_Convergence
  Proof_ConvergeShipped Ex_RK Ex_Order Ex_DenseOutput Ex_Convergence.
Import ListNotations.
Open Scope R_scope.

Section Convergence.
  Context {I CS V MS : Type}.
  Notation Y := (I -> R).
  Notation DI := (Y * Y * list (list Y))%type.
  Notation config := (config Y (solver_state I) CS DI (option Y) V MS).
  Notation initial := (initial Y (solver_state I) CS MS).
  Notation outcome := (outcome Y (solver_state I) CS DI V MS).

  (** C59: for every Runge--Kutta method of order [p] (up to a rounding [e1] of its coefficients) with dense output of
      order [q], every step size controller that fulfils the contract and every choice of accepted and rejected steps,
      of size at most [H]: the value after each accepted step, the dense output everywhere inside of the accepted steps
      and the final value are within [O(H^p)] (and [O(H^(q+1))]) of the exact solution, plus a multiple [K] of the rounding.
      [K] depends on the equation only. *)
  Theorem C59_solve :
    forall (FI : finite_type I) (L : R) (fs : list (R -> Y -> Y)) (p q : nat) (t0 b T : R) (y0 : Y) (y : R -> Y),
    0 <= L -> (forall f, In f fs -> lipschitz L f) -> (1 <= p)%nat -> (q <= p)%nat -> t0 <= b -> b < t0 + T ->
    (forall f, In f fs -> uniformly_smooth p f t0 (t0 + T) y) -> exact_solution fs t0 y0 T y ->
    exists K, 0 <= K /\ forall (tabs : list tableau) (s : nat) (interp : interpolation) (e1 e2 B : R),
    length tabs = length fs -> valid_parts s (ode_parts (combine tabs fs)) -> fsal_at_ends (ode_parts (combine tabs fs)) ->
    0 <= e1 -> 0 <= e2 -> has_order_up_to tabs s e1 p -> dense_order interp tabs s e2 q -> weights_bounded tabs s B ->
    exists C h0, 0 <= C /\ 0 < h0 /\
    forall (c : config) (i : initial) (h : list (attempt Y)) (o : outcome) (sv : solver I I R) (time : Z -> R) (H : R),
    rk_run c i h o sv time t0 y0 -> sv_parts sv = ode_parts (combine tabs fs) -> 0 < H <= h0 -> steps_within time H b h ->
    (forall a, In a (accepted h) ->
       bounded (fun x => at_y a x - y (time (at_to a)) x) ((K * e1 + C * H ^ p) * growth (length fs) s B L (time (at_to a) - t0))) /\
    (interpolate c = rk_interpolate interp time -> forall a t, In a (accepted h) -> time (at_from a) <= time t <= time (at_to a) ->
       bounded (fun x => at_interp a t x - y (time t) x)
               (2 * (K * e1 + C * H ^ p) * growth (length fs) s B L (time t - t0) + K * e2 * H + C * H ^ (q + 1))) /\
    (stepto_len c = None -> results_ok c -> rf_results_ok c -> out_result o = successful ->
       out_tfinal o = cfg_t1 c /\
       bounded (fun x => out_yfinal o x - y (time (cfg_t1 c)) x) ((K * e1 + C * H ^ p) * growth (length fs) s B L (time (cfg_t1 c) - t0))).
  Proof. exact pf_C59_solve. Qed.
  (** C59: all shipped solvers are such methods. *)
  Theorem C59_conditions :
    forall (d : dense_method) (q : nat) (e1 e2 : R) (fs : list (R -> Y -> Y)),
    In (d, q, e1, e2)
       [(heun_dense, 2%nat, 0, 0); (midpoint_dense, 1%nat, 0, 0); (ralston_dense, 1%nat, 0, 0); (bosh3_dense, 3%nat, 0, 0);
        (dopri5_dense, 4%nat, 0, 0); (tsit5_dense, 4%nat, / IZR (10 ^ 30), / IZR (10 ^ 15));
        (dopri8_dense, 5%nat, / IZR (10 ^ 16), / IZR (10 ^ 13)); (kvaerno3_dense, 3%nat, 0, 0); (kvaerno4_dense, 3%nat, 0, 0);
        (kvaerno5_dense, 3%nat, / IZR (10 ^ 16), / IZR (10 ^ 15)); (sil3_dense, 2%nat, 0, 0);
        (kencarp3_dense, 2%nat, / IZR (10 ^ 24), / IZR (10 ^ 23)); (kencarp4_dense, 3%nat, / IZR (10 ^ 24), / IZR (10 ^ 23));
        (kencarp5_dense, 3%nat, / IZR (10 ^ 11), / IZR (10 ^ 9))] ->
    let tabs := m_tableaus (dm_method d) in
    let s := m_stages (dm_method d) in
    let p := m_order (dm_method d) in
    length tabs = length fs ->
    valid_parts s (ode_parts (combine tabs fs)) /\ fsal_at_ends (ode_parts (combine tabs fs)) /\
    (1 <= p)%nat /\ (q <= p)%nat /\ 0 <= e1 /\ 0 <= e2 /\
    has_order_up_to tabs s e1 p /\ dense_order (dm_interpolation d) tabs s e2 q /\ exists B, weights_bounded tabs s B.
  Proof. exact pf_C59_conditions. Qed.
  (** C59: the solvers with exact coefficients whose dense output does not lower the order. *)
  Theorem C59_exact_solvers :
    forall (d : dense_method) (q : nat) (FI : finite_type I) (L : R) (fs : list (R -> Y -> Y)) (t0 b T : R) (y0 : Y) (y : R -> Y),
    In (d, q)
       [(heun_dense, 2%nat); (midpoint_dense, 1%nat); (ralston_dense, 1%nat); (bosh3_dense, 3%nat); (dopri5_dense, 4%nat);
        (kvaerno3_dense, 3%nat); (kvaerno4_dense, 3%nat); (sil3_dense, 2%nat)] ->
    let tabs := m_tableaus (dm_method d) in
    let p := m_order (dm_method d) in
    length tabs = length fs ->
    0 <= L -> (forall f, In f fs -> lipschitz L f) -> t0 <= b -> b < t0 + T ->
    (forall f, In f fs -> uniformly_smooth p f t0 (t0 + T) y) -> exact_solution fs t0 y0 T y ->
    exists C h0, 0 <= C /\ 0 < h0 /\
    forall (c : config) (i : initial) (h : list (attempt Y)) (o : outcome) (sv : solver I I R) (time : Z -> R) (H : R),
    rk_run c i h o sv time t0 y0 -> sv_parts sv = ode_parts (combine tabs fs) -> 0 < H <= h0 -> steps_within time H b h ->
    (forall a, In a (accepted h) -> bounded (fun x => at_y a x - y (time (at_to a)) x) (C * H ^ p)) /\
    (interpolate c = rk_interpolate (dm_interpolation d) time -> forall a t, In a (accepted h) -> time (at_from a) <= time t <= time (at_to a) ->
       bounded (fun x => at_interp a t x - y (time t) x) (C * H ^ p)) /\
    (stepto_len c = None -> results_ok c -> rf_results_ok c -> out_result o = successful ->
       out_tfinal o = cfg_t1 c /\ bounded (fun x => out_yfinal o x - y (time (cfg_t1 c)) x) (C * H ^ p)).
  Proof. exact pf_C59_exact_solvers. Qed.
End Convergence.

(** C59: Dopri5 on [y' = - y] up to [t = 9/10], with steps of any size [H] up to a quarter, of which the third is rejected. *)
Example C59_solve_instance :
  finite_type unit /\ lipschitz 1 decay_f /\ uniformly_smooth 5 decay_f 0 (0 + 1) decay_solution /\
  exact_solution [decay_f] 0 (fun _ => 1) 1 decay_solution /\
  In (dopri5_dense, 4%nat)
     [(heun_dense, 2%nat); (midpoint_dense, 1%nat); (ralston_dense, 1%nat); (bosh3_dense, 3%nat); (dopri5_dense, 4%nat);
      (kvaerno3_dense, 3%nat); (kvaerno4_dense, 3%nat); (sil3_dense, 2%nat)] /\
  m_order (dm_method dopri5_dense) = 5%nat /\
  sv_parts conv_solver = ode_parts (combine (m_tableaus (dm_method dopri5_dense)) [decay_f]) /\
  forall H, 0 < H <= 1 / 4 ->
    let c := conv_cfg dopri5_dense conv_solver H in
    interpolate c = rk_interpolate (dm_interpolation dopri5_dense) (scaled H) /\
    stepto_len c = None /\ results_ok c /\ rf_results_ok c /\
    exists h o, rk_run c (rk_initial conv_solver) h o conv_solver (scaled H) 0 (fun _ => 1) /\
      steps_within (scaled H) H (9 / 10) h /\ length (accepted h) = 4%nat /\ out_result o = successful.
Proof.
  split; [exact unit_finite|]. split; [exact decay_lipschitz|]. split; [apply decay_uniformly_smooth; lia|].
  split; [exact decay_exact|]. split; [do 4 right; left; reflexivity|]. split; [reflexivity|]. split; [reflexivity|].
  intros H HH. cbv zeta. split; [reflexivity|]. split; [reflexivity|]. split; [apply conv_results|]. split; [apply conv_results|].
  apply conv_run, HH.
Qed.

(** C59: KenCarp5, with two vector fields. *)
Example C59_conditions_instance :
  length (m_tableaus (dm_method kencarp5_dense)) = length [decay_f; decay_f] /\ m_order (dm_method kencarp5_dense) = 5%nat /\
  m_stages (dm_method kencarp5_dense) = 8%nat.
Proof. repeat split. Qed.

Print Assumptions C59_solve.
Print Assumptions C59_conditions.
Print Assumptions C59_exact_solvers.
