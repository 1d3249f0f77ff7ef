(** Theorems about the other solvers: C32, C33, C34, C35, C36. *)
From Coq Require Import ZArith Reals List Bool Arith Lia Lra.
From Verif Require Import Model_Result Model_Loop Spec_Loop Model_Clip Spec_Clip Ex_Loop.
From Verif Require Import Model_RK Model_Tableaus Model_Terms Model_Solvers Spec_RK Spec_RKLoop Spec_Terms Spec_Solvers.
From Verif Require Import Proof_Solvers Proof_SolverLoop Ex_RK Ex_Solvers.
Import ListNotations.
Open Scope R_scope.

Section Half.
  Context {I SS DI : Type}.
  Notation Y := (I -> R).
  (** C32: any number of steps of the half solver are the steps of the wrapped solver with every interval halved. *)
  Theorem C32_two_half_steps :
    forall (solver : method Y SS DI) (t0 : R) (ts : list R) (y0 : Y) (s : SS),
    steps (half_solver solver) t0 ts y0 s = steps solver t0 (halved t0 ts) y0 s.
  Proof. exact pf_C32_two_half_steps. Qed.
  (** C32: result, state, dense information, outcome and error estimate of one step. *)
  Theorem C32_step :
    forall (solver : method Y SS DI) (t0 t1 : R) (y0 : Y) (s : SS) (made_jump : bool),
    let out := me_step (half_solver solver) t0 t1 y0 s made_jump in
    let half1 := me_step solver t0 ((t0 + t1) / 2) y0 s made_jump in
    let half2 := me_step solver ((t0 + t1) / 2) t1 (so_y half1) (so_state half1) false in
    let full := me_step solver t0 t1 y0 s made_jump in
    so_y out = so_y half2 /\ so_state out = so_state half2 /\ so_dense out = so_dense full /\
    so_result out = first_error [so_result half1; so_result half2; so_result full] /\
    exists err, so_error out = Some err /\ forall x, err x = Rabs (so_y half2 x - so_y full x).
  Proof. exact pf_C32_step. Qed.
  (** C32: around a solver with local errors [C h^(p+1)] near a flow that is Lipschitz (both on a set [U]), the
      local error and the error estimate of the half solver are of order [p+1] too. *)
  Theorem C32_local_error :
    forall (solver : method Y SS DI) (phi : R -> R -> Y -> Y) (U : Y -> Prop) (p : nat) (C L h : R),
    (forall t t' t'' y, phi t t'' y = phi t' t'' (phi t t' y)) ->
    (forall t t' y z b, U y -> U z -> t <= t' <= t + h -> (forall x, Rabs (y x - z x) <= b) ->
       forall x, Rabs (phi t t' y x - phi t t' z x) <= L * b) ->
    (forall t t' y s made_jump x, U y -> t <= t' <= t + h ->
       Rabs (so_y (me_step solver t t' y s made_jump) x - phi t t' y x) <= C * (t' - t) ^ (p + 1)) ->
    forall t0 t1 y0 s made_jump, t0 <= t1 <= t0 + h ->
    U y0 -> U (phi t0 ((t0 + t1) / 2) y0) -> U (so_y (me_step solver t0 ((t0 + t1) / 2) y0 s made_jump)) ->
    let out := me_step (half_solver solver) t0 t1 y0 s made_jump in
    let bound := (L + 1) * C * ((t1 - t0) / 2) ^ (p + 1) in
    (forall x, Rabs (so_y out x - phi t0 t1 y0 x) <= bound) /\
    (forall err, so_error out = Some err -> forall x, Rabs (err x) <= bound + C * (t1 - t0) ^ (p + 1)).
  Proof. exact pf_C32_local_error. Qed.
End Half.

Section Reversible.
  Context {I J C : Type}.
  Notation Y := (I -> R).
  (** C33: stepping back along the same times recovers the state at the start. *)
  Theorem C33_reversible :
    forall (trm : term I J C) (t0 : R) (ts : list R) (y0 yhat0 : Y),
    linear_term trm -> additive_term trm ->
    let start := (y0, (yhat0, t_vf trm t0 yhat0)) in
    let '(y, s) := steps (reversible_heun trm) t0 ts y0 (snd start) in
    steps (reversible_heun trm) (last ts t0) (back t0 ts) y s = start.
  Proof. exact pf_C33_reversible. Qed.
  Theorem C33_reversible_solve :
    forall (trm : term I J C) (t0 t1 : R) (ts : list R) (y0 : Y),
    linear_term trm -> additive_term trm ->
    let m := reversible_heun trm in
    let '(y, s) := steps m t0 ts y0 (me_init m t0 t1 y0) in
    steps m (last ts t0) (back t0 ts) y s = (y0, me_init m t0 t1 y0).
  Proof. exact pf_C33_reversible_solve. Qed.
  (** C33: the error estimate is the difference to an Euler step. *)
  Theorem C33_embedded :
    forall (trm : term I J C) (t0 t1 : R) (y0 yhat0 : Y) (vf0 : J -> R) (made_jump : bool),
    linear_term trm ->
    let out := me_step (reversible_heun trm) t0 t1 y0 (yhat0, vf0) made_jump in
    exists err, so_error out = Some err /\
    forall x, so_y out x - err x = y0 x + t_prod trm (if made_jump then t_vf trm t0 y0 else vf0) (t_contr trm t0 t1) x.
  Proof. exact pf_C33_embedded. Qed.
  (** C35: stepping back from the last two values recovers the first two. *)
  Theorem C35_symmetric :
    forall (trm : term I J C) (tm1 t0 : R) (ts : list R) (ym1 y0 : Y),
    consistent_term trm -> additive_term trm ->
    let m := leapfrog_midpoint trm in
    let '(y, (tprev, yprev)) := steps m t0 ts y0 (tm1, ym1) in
    steps m tprev (tl (back tm1 (t0 :: ts))) yprev (last ts t0, y) = (ym1, (t0, y0)).
  Proof. exact pf_C35_symmetric. Qed.
  (** C35: the first step is an Euler step. *)
  Theorem C35_first_step :
    forall (trm : term I J C) (t0 t1 t2 : R) (y0 : Y) (made_jump : bool),
    let m := leapfrog_midpoint trm in
    so_y (me_step m t0 t1 y0 (me_init m t0 t2 y0) made_jump) = so_y (me_step (euler trm) t0 t1 y0 tt made_jump).
  Proof. exact pf_C35_first_step. Qed.
End Reversible.

Section Symplectic.
  Context {I1 I2 C1 C2 : Type}.
  (** C34: any number of steps is an invertible map. *)
  Theorem C34_invertible :
    forall (term_1 : half_term (I2 -> R) (I1 -> R) C1) (term_2 : half_term (I1 -> R) (I2 -> R) C2)
    (t0 : R) (ts : list R) (z : (I1 -> R) * (I2 -> R)),
    exists! y0, fst (steps (semi_implicit_euler term_1 term_2) t0 ts y0 tt) = z.
  Proof. exact pf_C34_invertible. Qed.
End Symplectic.
Section Symplectic2.
  Context {I C1 C2 : Type}.
  Notation Y := (I -> R).
  (** C34: if both vector fields are gradients, any number of steps is a symplectic map: it preserves the
      symplectic form of velocities of curves.  (For one position this is the determinant.) *)
  Theorem C34_symplectic :
    forall (term_1 : half_term Y Y C1) (term_2 : half_term Y Y C2) (is : list I)
    (D1 : R -> C1 -> Y -> Y -> Y) (D2 : R -> C2 -> Y -> Y -> Y),
    (forall t c, derivative_of (fun y => ht_vf_prod term_1 t y c) (D1 t c)) -> (forall t c, symmetric is (D1 t c)) ->
    (forall t c, derivative_of (fun y => ht_vf_prod term_2 t y c) (D2 t c)) -> (forall t c, symmetric is (D2 t c)) ->
    forall (t0 : R) (ts : list R) (a b : R -> Y * Y) (u v : Y * Y),
    a 0 = b 0 ->
    tangent (fun s => fst (a s)) (fst u) -> tangent (fun s => snd (a s)) (snd u) ->
    tangent (fun s => fst (b s)) (fst v) -> tangent (fun s => snd (b s)) (snd v) ->
    let map := fun y0 => fst (steps (semi_implicit_euler term_1 term_2) t0 ts y0 tt) in
    exists u' v' : Y * Y,
    tangent (fun s => fst (map (a s))) (fst u') /\ tangent (fun s => snd (map (a s))) (snd u') /\
    tangent (fun s => fst (map (b s))) (fst v') /\ tangent (fun s => snd (map (b s))) (snd v') /\
    symplectic is u' v' = symplectic is u v.
  Proof. exact pf_C34_symplectic. Qed.
End Symplectic2.

Section Implicit.
  Context {I J C : Type}.
  Notation Y := (I -> R).
  (** C36: an implicit Euler step satisfies its equation; the error estimate is the difference to the
      trapezoidal rule. *)
  Theorem C36_implicit_euler :
    forall (root_find : (Y -> Y) -> Y -> Y * RESULTS) (trm : term I J C) (t0 t1 : R) (y0 : Y) (made_jump : bool),
    finds_roots root_find ->
    let out := me_step (implicit_euler root_find trm) t0 t1 y0 tt made_jump in
    is_okay (so_result out) = true ->
    (forall x, so_y out x = y0 x + t_vf_prod trm t1 (so_y out) (t_contr trm t0 t1) x) /\
    exists err, so_error out = Some err /\
    forall x, so_y out x - err x = y0 x + (t_vf_prod trm t0 y0 (t_contr trm t0 t1) x + t_vf_prod trm t1 (so_y out) (t_contr trm t0 t1) x) / 2.
  Proof. exact pf_C36_implicit_euler. Qed.
End Implicit.
Section Dissipative.
  Context {I : Type}.
  Notation Y := (I -> R).
  (** C36: for any step sizes and any dissipative vector field, solutions do not move apart. *)
  Theorem C36_implicit_euler_b_stable :
    forall (root_find : (Y -> Y) -> Y -> Y * RESULTS) (f : R -> Y -> Y) (is : list I)
    (t0 : R) (ts : list R) (y0 z0 y1 z1 : Y),
    finds_roots root_find -> dissipative is f -> forwards t0 ts ->
    good_steps (implicit_euler root_find (ode_term f)) t0 ts y0 tt y1 tt ->
    good_steps (implicit_euler root_find (ode_term f)) t0 ts z0 tt z1 tt ->
    inner is (fun i => y1 i - z1 i) (fun i => y1 i - z1 i) <= inner is (fun i => y0 i - z0 i) (fun i => y0 i - z0 i).
  Proof. exact pf_C36_implicit_euler_b_stable. Qed.
  (** C36: the exact result on the linear test equation: decay for any step size, to 0 as it increases. *)
  Theorem C36_implicit_euler_stiff :
    forall (root_find : (Y -> Y) -> Y -> Y * RESULTS) (lambda : R) (t0 t1 : R) (y0 : Y) (made_jump : bool),
    finds_roots root_find -> lambda <= 0 -> t0 <= t1 ->
    let out := me_step (implicit_euler root_find (ode_term (fun _ y i => lambda * y i))) t0 t1 y0 tt made_jump in
    is_okay (so_result out) = true ->
    forall x, so_y out x = y0 x / (1 - (t1 - t0) * lambda).
  Proof. exact pf_C36_implicit_euler_stiff. Qed.
End Dissipative.

Section Loop.
  Context {I J C CS V MS : Type}.
  Notation Y := (I -> R).
  Notation DI := (Y * Y * list (list Y))%type.
  Notation config := (config Y (solver_state J) CS DI (option Y) V MS).
  Notation initial := (initial Y (solver_state J) CS MS).
  Notation outcome := (outcome Y (solver_state J) CS DI V MS).
  Open Scope Z_scope.
  (** C36: with a controller that rejects steps without error estimate, every accepted step of an implicit
      Runge--Kutta solver satisfies its equations, *)
  Theorem C36_solve :
    forall (c : config) (i : initial) (h : list (attempt Y)) (o : outcome) (sv : solver I J C) s time others (Inv : Z -> Z -> CS -> Prop),
    solve_run c i h o ->
    solver_step c = rk_solver_step sv time others -> rejects_missing_error c ->
    valid_parts s (sv_parts sv) -> fsal_at_ends (sv_parts sv) ->
    exact_root_finder (sv_root_finder sv) ->
    controller_contract c Inv -> announces_jumps c -> midpoint_ok c ->
    cfg_t0 c <= cfg_t1 c -> cfg_t0 c <= in_tnext i ->
    Inv (cfg_t0 c) (Z.min (in_tnext i) (cfg_t1 c)) (in_controller_state i) ->
    coherent (sv_parts sv) (time (cfg_t0 c)) (in_y i) (in_made_jump i) (in_solver_state i) ->
    forall a, In a h -> at_keep a = true ->
    exists k, rk_equations s (sv_parts sv) (time (at_from a)) (time (at_to a)) (at_yprev a) k /\
      forall x, at_y a x = rk_solution s (sv_parts sv) (at_yprev a) k x.
  Proof. exact pf_C36_solve. Qed.
  (** and no failure of the root finder ends the solve. *)
  Theorem C36_failures_retried :
    forall (c : config) (i : initial) (h : list (attempt Y)) (a : attempt Y) (o : outcome) (sv : solver I J C) time others,
    solve_run c i (h ++ [a]) o -> cfg_event c = None ->
    solver_step c = rk_solver_step sv time others -> rejects_missing_error c ->
    (forall tprev tnext y y1 err cs, ao_result (adapt c tprev tnext y y1 err cs) = successful) ->
    out_result o = successful \/ out_result o = max_steps_reached.
  Proof. exact pf_C36_failures_retried. Qed.
End Loop.

(** C33 without the hypothesis that there is no jump is false: different starts have the same end. *)
Theorem C33_jump_refuted :
  exists (trm : term unit unit R) (t0 t1 : R) (y0 y0' yhat0 : unit -> R) (vf0 : unit -> R),
  linear_term trm /\ additive_term trm /\ y0 tt <> y0' tt /\
  let out := me_step (reversible_heun trm) t0 t1 y0 (yhat0, vf0) true in
  let out' := me_step (reversible_heun trm) t0 t1 y0' (yhat0, vf0) true in
  (forall x, so_y out x = so_y out' x) /\ (forall x, fst (so_state out) x = fst (so_state out') x) /\
  (forall x, snd (so_state out) x = snd (so_state out') x).
Proof.
  exists (ode_term (fun _ y i => -2 * y i)), 0, 1, (fun _ => 0), (fun _ => 1), (fun _ => 1), (fun _ => 0).
  split; [intros a b f g c x; cbn; unfold vscale; ring|]. split; [intros f a b c x; cbn; unfold vscale; ring|]. split; [lra|].
  cbn. unfold vadd, vsub, vscale. repeat split; intros x; lra.
Qed.

(** C36 does not extend to implicit Euler: its documentation says that a step whose root find fails is
    "unconditionally rejected" and tried again, but the error estimate stays finite. *)
Theorem C36_implicit_euler_failure_refuted :
  exists h o, let c := wary_cfg (loop_step (implicit_euler failing_find decay) time_of) in
  rejects_missing_error c /\ (forall tprev tnext y y1 err cs, ao_result (adapt c tprev tnext y y1 err cs) = successful) /\
  solve_run c (wary_initial tt) h o /\
  map (fun a => (at_from a, at_to a, at_keep a, at_solver_result a)) h = [(0, 300, true, other_error 7)]%Z /\
  out_result o = other_error 7.
Proof.
  destruct (runs (wary_cfg (loop_step (implicit_euler failing_find decay) time_of)) (wary_initial tt)
    (fun h o => map (fun a => (at_from a, at_to a, at_keep a, at_solver_result a)) h = [(0, 300, true, other_error 7)]%Z /\
       out_result o = other_error 7)) as (h & o & H1 & H2).
  { vm_compute. auto. }
  exists h, o. split; [apply wary_rejects|]. split; [intros a b y y1 [e|] cs; reflexivity|]. split; [exact H1|exact H2].
Qed.
(** Nor to the half solver: it drops the infinite error estimate of the solver it wraps. *)
Theorem C36_half_solver_failure_refuted :
  exists h o, let c := wary_cfg (loop_step (half_solver (rk_method
    (Solver [(kvaerno3_tableau, decay)] false second_stage failing_rf))) time_of) in
  rejects_missing_error c /\ (forall tprev tnext y y1 err cs, ao_result (adapt c tprev tnext y y1 err cs) = successful) /\
  solve_run c (wary_initial (rk_init (Solver [(kvaerno3_tableau, decay)] false second_stage failing_rf))) h o /\
  map (fun a => (at_from a, at_to a, at_keep a, at_solver_result a)) h = [(0, 300, true, other_error 7)]%Z /\
  out_result o = other_error 7.
Proof.
  destruct (runs (wary_cfg (loop_step (half_solver (rk_method
    (Solver [(kvaerno3_tableau, decay)] false second_stage failing_rf))) time_of))
    (wary_initial (rk_init (Solver [(kvaerno3_tableau, decay)] false second_stage failing_rf)))
    (fun h o => map (fun a => (at_from a, at_to a, at_keep a, at_solver_result a)) h = [(0, 300, true, other_error 7)]%Z /\
       out_result o = other_error 7)) as (h & o & H1 & H2).
  { vm_compute. auto. }
  exists h, o. split; [apply wary_rejects|]. split; [intros a b y y1 [e|] cs; reflexivity|]. split; [exact H1|exact H2].
Qed.

(** C32: halving Euler steps of [y' = -y]. *)
Example C32_instance :
  fst (steps (half_solver (euler decay)) 0 [1; 3] (fun _ => 1) tt) tt = 0 /\
  fst (steps (euler decay) 0 [1 / 2; 1; 3 / 2; 5 / 2] (fun _ => 1) tt) tt = 0 /\
  fst (steps (half_solver (euler decay)) 0 [1] (fun _ => 1) tt) tt = 1 / 4 /\
  halved 0 [1; 3] = [(0 + 1) / 2; 1; (1 + 3) / 2; 3].
Proof. cbn. unfold vadd, vscale. repeat split; lra. Qed.
(** C32: Euler steps of [y' = t]. *)
Example C32_local_error_instance :
  (forall t t' t'' y, ramp_flow t t'' y = ramp_flow t' t'' (ramp_flow t t' y)) /\
  (forall t t' y z b, True -> True -> t <= t' <= t + 1 -> (forall x, Rabs (y x - z x) <= b) ->
     forall x, Rabs (ramp_flow t t' y x - ramp_flow t t' z x) <= 1 * b) /\
  (forall t t' y s made_jump x, True -> t <= t' <= t + 1 ->
     Rabs (so_y (me_step (euler ramp) t t' y s made_jump) x - ramp_flow t t' y x) <= 1 / 2 * (t' - t) ^ (1 + 1)).
Proof.
  split; [intros; apply FunctionalExtensionality.functional_extensionality; intros x; unfold ramp_flow; lra|]. split.
  - intros t t' y z b _ _ _ H x. unfold ramp_flow. specialize (H x).
    match goal with |- Rabs ?a <= _ => replace a with (y x - z x) by ring end. lra.
  - intros t t' y s mj x _ H. cbn. unfold vadd, vscale, ramp_flow.
    match goal with |- Rabs ?a <= _ => replace a with (- (1 / 2 * ((t' - t) * (t' - t)))) by field end.
    rewrite Rabs_Ropp, Rabs_pos_eq; [lra|]. pose proof (Rle_0_sqr (t' - t)). unfold Rsqr in *. lra.
Qed.
(** C33, C35: [y' = -y] over steps of different sizes. *)
Example C33_C35_instance :
  linear_term decay /\ additive_term decay /\ consistent_term decay /\
  fst (steps (reversible_heun decay) 0 [1; 3] (fun _ => 1) (fun _ => 1, fun _ => -1)) tt = - (1 / 2) /\
  fst (steps (leapfrog_midpoint decay) 1 [2; 4] (fun _ => 1) (0, fun _ => 2)) tt = 1 /\
  back 0 [1; 3] = [1; 0].
Proof.
  split; [apply decay_linear|]. split; [apply decay_additive|]. split; [apply decay_consistent|].
  cbn. unfold vadd, vsub, vscale. repeat split; lra.
Qed.
(** C34: two coupled pendulums. *)
Example C34_instance :
  (forall t c, derivative_of (fun y => ht_vf_prod pull t y c) (pull_derivative t c)) /\
  (forall t c, symmetric [true; false] (pull_derivative t c)) /\
  (forall t c, derivative_of (fun y => ht_vf_prod glide t y c) (glide_derivative t c)) /\
  (forall t c, symmetric [true; false] (glide_derivative t c)).
Proof.
  split; [apply pull_derives|]. split; [apply pull_symmetric|]. split; [apply glide_derives|apply glide_symmetric].
Qed.
(** C36: [y' = -y] with steps of 1 and 100. *)
Example C36_implicit_euler_instance :
  finds_roots affine_find /\ dissipative [tt] (fun _ y i => - y i) /\ forwards 0 [1; 101] /\
  (exists y1, good_steps (implicit_euler affine_find decay) 0 [1; 101] (fun _ => 1) tt y1 tt) /\
  so_y (me_step (implicit_euler affine_find decay) 0 1 (fun _ => 1) tt false) tt = 1 / 2.
Proof.
  assert (F : forwards 0 [1; 101]) by (cbn; lra).
  split; [apply affine_finds|]. split; [apply decay_dissipative|]. split; [exact F|].
  split; [exact (affine_steps [1; 101] 0 (fun _ => 1) F)|].
  cbn. unfold affine_root, implicit_relation. cbn. unfold vadd, vsub, vscale. field.
Qed.
(** C36: a solve in which all root finds fail. *)
Example C36_solve_instance :
  let sv := Solver [(kvaerno3_tableau, decay)] false second_stage failing_rf in
  let c := wary_cfg (rk_solver_step sv time_of (fun _ _ _ _ _ => false)) in
  rejects_missing_error c /\ valid_parts 4 (sv_parts sv) /\ fsal_at_ends (sv_parts sv) /\ exact_root_finder (sv_root_finder sv) /\
  controller_contract c (fun _ _ _ => True) /\ announces_jumps c /\ midpoint_ok c /\
  exists h o, solve_run c (wary_initial (rk_init sv)) h o /\
    (map at_keep h = repeat false 20 /\ out_result o = max_steps_reached).
Proof.
  cbn zeta. split; [apply wary_rejects|].
  split; [exact (solver_of_valid kvaerno3_tableau eq_refl)|].
  split; [apply (solver_of_ends kvaerno3_tableau); split; reflexivity|].
  split; [split; cbn; unfold failing_find; intros j stage g guess v r H; injection H as <- <-; discriminate|].
  split; [apply wary_contract|]. split; [apply wary_announces|]. split; [apply (rk_midpoint (solver_of kvaerno3_tableau) (fun _ _ _ _ _ => false))|].
  apply runs. vm_compute. auto.
Qed.

Print Assumptions C32_two_half_steps.
Print Assumptions C32_step.
Print Assumptions C32_local_error.
Print Assumptions C33_reversible.
Print Assumptions C33_reversible_solve.
Print Assumptions C33_embedded.
Print Assumptions C35_symmetric.
Print Assumptions C35_first_step.
Print Assumptions C34_invertible.
Print Assumptions C34_symplectic.
Print Assumptions C36_implicit_euler.
Print Assumptions C36_implicit_euler_b_stable.
Print Assumptions C36_implicit_euler_stiff.
Print Assumptions C36_solve.
Print Assumptions C36_failures_retried.
Print Assumptions C33_jump_refuted.
Print Assumptions C36_implicit_euler_failure_refuted.
Print Assumptions C36_half_solver_failure_refuted.
