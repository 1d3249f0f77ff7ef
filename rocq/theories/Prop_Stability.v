(** Theorems about the stability of the implicit solvers: C60. *)
From Coq Require Import ZArith Reals QArith Qreals List Bool Arith Lia Lra.
From Verif Require Import Model_Result Model_Loop Model_RK Model_Tableaus Model_Terms Model_Orders Model_Solvers.
From Verif Require Import Spec_Loop Spec_RK Spec_RKLoop Spec_Order Spec_Solvers Spec_Convergence Spec_Stability
  Proof_StabilityShipped Ex_RK Ex_Stability.
Import ListNotations.
Open Scope R_scope.

Section Step.
  Context {K : Type}.
  Notation Y := (K * bool -> R).

  (** C60: one step of any of these solvers, of any size, does not increase a component that does not grow, but for
      the rounding [ea] of the coefficients.  The equation is the implicit term, any explicit term is zero. *)
  Theorem C60_a_stable :
    forall (m : rk_method) (ea el : R) (re im : K -> R) (sv : solver (K * bool) (K * bool) R)
      (t0 t1 : R) (y0 : Y) (others : bool) (state : solver_state (K * bool)) (made_jump : bool) (k : K),
    In (m, ea, el) [(kvaerno3, 0, / IZR (10 ^ 10)); (kvaerno4, 0, / IZR (10 ^ 10)); (kvaerno5, 0, / IZR (10 ^ 15));
                    (kencarp3, / IZR (10 ^ 25), / IZR (10 ^ 26)); (kencarp4, 0, 0); (kencarp5, / IZR (10 ^ 15), / IZR (10 ^ 10))] ->
    sv_parts sv = ode_parts (combine (m_tableaus m) (last_field (length (m_tableaus m)) (modes re im))) ->
    exact_root_finder (sv_root_finder sv) -> coherent (sv_parts sv) t0 y0 made_jump state ->
    re k <= 0 -> t0 <= t1 ->
    let out := rk_step sv t0 t1 y0 others state made_jump in
    is_okay (ro_result out) = true -> amplitude (ro_y out) k <= (1 + ea) * amplitude y0 k.
  Proof. exact pf_C60_a_stable. Qed.
  (** C60: a step that is long compared to the time scale of a component removes the component, but for the rounding [el]
      of the coefficients. *)
  Theorem C60_l_stable :
    forall (m : rk_method) (ea el : R),
    In (m, ea, el) [(kvaerno3, 0, / IZR (10 ^ 10)); (kvaerno4, 0, / IZR (10 ^ 10)); (kvaerno5, 0, / IZR (10 ^ 15));
                    (kencarp3, / IZR (10 ^ 25), / IZR (10 ^ 26)); (kencarp4, 0, 0); (kencarp5, / IZR (10 ^ 15), / IZR (10 ^ 10))] ->
    exists M, forall (re im : K -> R) (sv : solver (K * bool) (K * bool) R)
      (t0 t1 : R) (y0 : Y) (others : bool) (state : solver_state (K * bool)) (made_jump : bool) (k : K),
    sv_parts sv = ode_parts (combine (m_tableaus m) (last_field (length (m_tableaus m)) (modes re im))) ->
    exact_root_finder (sv_root_finder sv) -> coherent (sv_parts sv) t0 y0 made_jump state ->
    re k <= 0 -> t0 <= t1 -> 1 <= (t1 - t0) * rate re im k ->
    let out := rk_step sv t0 t1 y0 others state made_jump in
    is_okay (ro_result out) = true -> amplitude (ro_y out) k <= (el + M / ((t1 - t0) * rate re im k)) * amplitude y0 k.
  Proof. exact pf_C60_l_stable. Qed.
  (** C60: the implicit Euler method. *)
  Theorem C60_implicit_euler :
    forall (root_find : (Y -> Y) -> Y -> Y * RESULTS) (re im : K -> R) (t0 t1 : R) (y0 : Y) (made_jump : bool) (k : K),
    finds_roots root_find -> re k <= 0 -> t0 <= t1 ->
    let out := me_step (implicit_euler root_find (ode_term (modes re im))) t0 t1 y0 tt made_jump in
    is_okay (so_result out) = true ->
    amplitude (so_y out) k <= amplitude y0 k /\
    (t1 - t0) * rate re im k * amplitude (so_y out) k <= amplitude y0 k.
  Proof. exact pf_C60_implicit_euler. Qed.
End Step.

Section Solve.
  Context {K CS V MS : Type}.
  Notation Y := (K * bool -> R).
  Notation DI := (Y * Y * list (list Y))%type.
  Notation config := (config Y (solver_state (K * bool)) CS DI (option Y) V MS).
  Notation initial := (initial Y (solver_state (K * bool)) CS MS).
  Notation outcome := (outcome Y (solver_state (K * bool)) CS DI V MS).

  (** C60: a whole solve, with any step size controller and any sequence of step sizes. *)
  Theorem C60_solve :
    forall (m : rk_method) (ea el : R) (re im : K -> R) (sv : solver (K * bool) (K * bool) R)
      (c : config) (i : initial) (h : list (attempt Y)) (o : outcome) (time : Z -> R) (t0 : R) (y0 : Y) (k : K),
    In (m, ea, el) [(kvaerno3, 0, / IZR (10 ^ 10)); (kvaerno4, 0, / IZR (10 ^ 10)); (kvaerno5, 0, / IZR (10 ^ 15));
                    (kencarp3, / IZR (10 ^ 25), / IZR (10 ^ 26)); (kencarp4, 0, 0); (kencarp5, / IZR (10 ^ 15), / IZR (10 ^ 10))] ->
    sv_parts sv = ode_parts (combine (m_tableaus m) (last_field (length (m_tableaus m)) (modes re im))) ->
    rk_run c i h o sv time t0 y0 ->
    (forall a, In a h -> at_keep a = true -> is_okay (at_solver_result a) = true /\ time (at_from a) <= time (at_to a)) ->
    re k <= 0 ->
    (forall n a, nth_error (accepted h) n = Some a -> amplitude (at_y a) k <= (1 + ea) ^ S n * amplitude y0 k) /\
    (stepto_len c = None -> results_ok c -> rf_results_ok c -> out_result o = successful ->
       amplitude (out_yfinal o) k <= (1 + ea) ^ length (accepted h) * amplitude y0 k).
  Proof. exact pf_C60_solve. Qed.
End Solve.

(** C60: steps of any size of Kvaerno5 and KenCarp4 on [y' = (-1000 + i) y]. *)
Example C60_step_instance : forall t0 t1 y0,
  sv_parts (stiff_solver kvaerno5) = ode_parts (combine (m_tableaus kvaerno5) (last_field (length (m_tableaus kvaerno5)) (modes stiff_re stiff_im))) /\
  sv_parts (stiff_solver kencarp4) = ode_parts (combine (m_tableaus kencarp4) (last_field (length (m_tableaus kencarp4)) (modes stiff_re stiff_im))) /\
  length (m_tableaus kencarp4) = 2%nat /\
  exact_root_finder (sv_root_finder (stiff_solver kvaerno5)) /\ exact_root_finder (sv_root_finder (stiff_solver kencarp4)) /\
  coherent (sv_parts (stiff_solver kvaerno5)) t0 y0 false (rk_init (stiff_solver kvaerno5)) /\
  coherent (sv_parts (stiff_solver kencarp4)) t0 y0 false (rk_init (stiff_solver kencarp4)) /\
  is_okay (ro_result (rk_step (stiff_solver kvaerno5) t0 t1 y0 false (rk_init (stiff_solver kvaerno5)) false)) = true /\
  is_okay (ro_result (rk_step (stiff_solver kencarp4) t0 t1 y0 false (rk_init (stiff_solver kencarp4)) false)) = true /\
  stiff_re tt <= 0 /\ (t0 + 1 <= t1 -> 1 <= (t1 - t0) * rate stiff_re stiff_im tt) /\
  amplitude (plane 3 4) tt = 5.
Proof.
  intros t0 t1 y0. split; [reflexivity|]. split; [reflexivity|]. split; [reflexivity|]. split; [exact plane_rf_exact|]. split; [exact plane_rf_exact|].
  split; [first [exact Logic.I|split; [reflexivity|left; reflexivity]]|]. split; [first [exact Logic.I|split; [reflexivity|left; reflexivity]]|].
  split; [rewrite kvaerno5_result; reflexivity|]. split; [rewrite kencarp4_result; reflexivity|]. split; [unfold stiff_re; lra|]. split.
  - intros H. assert (1 <= rate stiff_re stiff_im tt).
    { unfold rate, stiff_re, stiff_im. rewrite <- sqrt_1 at 1. apply sqrt_le_1; lra. }
    rewrite <- (Rmult_1_l 1) at 1. apply Rmult_le_compat; lra.
  - unfold amplitude, plane. cbn [snd]. replace (3 ^ 2 + 4 ^ 2) with (5 ^ 2) by ring. apply sqrt_pow2. lra.
Qed.

(** C60: a solve with KenCarp4 with steps of size up to 300, that is 300000 times the time scale of the equation. *)
Example C60_solve_instance :
  sv_parts (stiff_solver kencarp4) = ode_parts (combine (m_tableaus kencarp4) (last_field (length (m_tableaus kencarp4)) (modes stiff_re stiff_im))) /\
  let c := stable_cfg stable_step in
  stepto_len c = None /\ results_ok c /\ rf_results_ok c /\
  exists h o, rk_run c stable_initial h o (stiff_solver kencarp4) IZR 0 (plane 1 1) /\
  (forall a, In a h -> at_keep a = true -> is_okay (at_solver_result a) = true /\ IZR (at_from a) <= IZR (at_to a)) /\
  length (accepted h) = 4%nat /\ out_result o = successful.
Proof.
  split; [reflexivity|]. cbv zeta. split; [reflexivity|]. split; [apply stable_results|]. split; [apply stable_results|]. exact stable_run.
Qed.

(** C60: implicit Euler on the same equation. *)
Example C60_implicit_euler_instance : finds_roots plane_find /\ forall t0 t1 y0,
  is_okay (so_result (me_step (implicit_euler plane_find (ode_term (modes stiff_re stiff_im))) t0 t1 y0 tt false)) = true.
Proof. split; [exact plane_find_roots|]. intros. apply plane_euler. Qed.

Print Assumptions C60_a_stable.
Print Assumptions C60_l_stable.
Print Assumptions C60_implicit_euler.
Print Assumptions C60_solve.
