(** Theorems about whole solves with a constant step size by solvers that are not Runge--Kutta methods: C82. *)
From Coq Require Import ZArith Reals List Bool Arith Lia Lra.
From Verif Require Import Model_Result Model_Loop Model_Fixed Model_RK Model_Terms Model_Interp Model_Solvers Spec_Loop Spec_Fixed Spec_Solvers Spec_Order Spec_Lipschitz
  Spec_MethodOrder Proof_MethodSolve Proof_MethodDense Ex_Loop Ex_Fixed Ex_MethodOrder Ex_MethodSolve Prop_MethodOrder.
Import ListNotations.
Open Scope R_scope.

Section Constant.
  Context {Y SS DI V MS : Type}.
  Notation config := (config Y SS (const_state Z) DI (option Y) V MS).
  Notation initial := (initial Y SS (const_state Z) MS).
  Notation outcome := (outcome Y SS (const_state Z) DI V MS).

  (** C82: in a solve with [ConstantStepSize] the values after the steps are those of the sequences of steps of which the error bounds
      above speak, and so is the final value if the solve succeeds; all steps were then successful. *)
  Theorem C82_constant :
    forall (m : method Y SS DI) (p : time_ops Z) (dt0 : Z) (c : config) (i : initial) (h : list (attempt Y)) (o : outcome) (time : Z -> R) (t0 H : R),
    const_solve p dt0 c i -> (0 <= intended_steps p (cfg_t0 c) (cfg_t1 c) dt0)%Z -> solve_run c i h o -> results_ok c -> rf_results_ok c ->
    (forall a b y s j, solver_step c a b y s j = me_step m (time a) (time b) y s j) -> in_made_jump i = false ->
    (forall k, (k <= length h)%nat -> time (const_point p (cfg_t0 c) (cfg_t1 c) dt0 k) = t0 + INR k * H) ->
    (forall k a, nth_error h k = Some a ->
       time (at_to a) = t0 + INR (S k) * H /\ at_y a = fst (steps m t0 (grid t0 H (S k)) (in_y i) (in_solver_state i))) /\
    (cfg_event c = None -> out_result o = successful ->
       time (cfg_t1 c) = t0 + INR (length h) * H /\ 
       exists s, steps m t0 (grid t0 H (length h)) (in_y i) (in_solver_state i) = (out_yfinal o, s) /\
         good_steps m t0 (grid t0 H (length h)) (in_y i) (in_solver_state i) (out_yfinal o) s).
  Proof. exact pf_C82_constant. Qed.
End Constant.

Section Dense.
  Context {I SS V MS : Type}.
  Notation Y := (I -> R).
  Notation DI := (Y * Y)%type.
  Notation config := (config Y SS (const_state Z) DI (option Y) V MS).
  Notation initial := (initial Y SS (const_state Z) MS).
  Notation outcome := (outcome Y SS (const_state Z) DI V MS).

  (** C82: between the steps the linear interpolation of these solvers adds a multiple of the square of the step size to the
      error [B] of the steps. *)
  Theorem C82_dense :
    forall (m : method Y SS DI) (p : time_ops Z) (dt0 : Z) (c : config) (i : initial) (h : list (attempt Y)) (o : outcome) (time : Z -> R) (t0 T H M2 B : R) (y y' : R -> Y),
    const_solve p dt0 c i -> (0 <= intended_steps p (cfg_t0 c) (cfg_t1 c) dt0)%Z -> solve_run c i h o -> results_ok c -> rf_results_ok c ->
    (forall a b y s j, solver_step c a b y s j = me_step m (time a) (time b) y s j) -> in_made_jump i = false ->
    (forall k, (k <= length h)%nat -> time (const_point p (cfg_t0 c) (cfg_t1 c) dt0 k) = t0 + INR k * H) ->
    (forall a b y s j, so_dense (me_step m a b y s j) = (y, so_y (me_step m a b y s j))) ->
    interpolate c = (fun a b d t x => local_linear (time a) (time b) (fst d x) (snd d x) (time t)) ->
    0 < H -> INR (length h) * H <= T -> smooth2 t0 T M2 y y' ->
    (forall k, (k <= length h)%nat -> bounded (fun x => fst (steps m t0 (grid t0 H k) (in_y i) (in_solver_state i)) x - y (t0 + INR k * H) x) B) ->
    forall a t, In a h -> time (at_from a) <= time t <= time (at_to a) -> bounded (fun x => at_interp a t x - y (time t) x) (B + M2 * H^2).
  Proof. exact pf_C82_dense. Qed.
End Dense.

(** Exponential decay in four steps: the error bounds hold of the final value of the solve. *)
Example C82_quarters :
  (exists h o, solve_run (quarter_cfg (leapfrog_midpoint (ode_term decay_vf))) (quarter_initial (leapfrog_midpoint (ode_term decay_vf))) h o /\
     out_result o = successful /\ length h = 4%nat /\ Rabs (out_yfinal o tt - exp (-1)) <= 3 * exp 2 * (1 / 4)^2) /\
  (exists h o, solve_run (quarter_cfg (reversible_heun (ode_term decay_vf))) (quarter_initial (reversible_heun (ode_term decay_vf))) h o /\
     out_result o = successful /\ length h = 4%nat /\ Rabs (out_yfinal o tt - exp (-1)) <= (7 * exp 2 + 1 / 8) * (1 / 4)^2).
Proof.
  assert (E4 : / INR 4 = 1 / 4) by (cbn; lra).
  pose proof (C82_decay 4 ltac:(lia)) as D. cbv zeta in D. rewrite E4 in D. destruct D as (_ & D1 & D2).
  split.
  - set (m := leapfrog_midpoint (ode_term decay_vf)) in *.
    destruct (runs (quarter_cfg m) (quarter_initial m) (fun h o => out_result o = successful /\ length h = 4%nat)) as (h & o & RUN & OK & LN); [vm_compute; auto|].
    exists h, o. do 3 (split; [assumption|]). destruct (quarter_results m) as (RO & RFO); [intros a b y s j; destruct s, j; reflexivity|].
    destruct (C82_constant m fix_ops 250 (quarter_cfg m) (quarter_initial m) h o thousandths 0 (1 / 4) (quarter_solve m) ltac:(vm_compute; discriminate) RUN RO RFO
                ltac:(reflexivity) eq_refl ltac:(intros k Hk; apply quarter_times; lia)) as (_ & F).
    destruct (F eq_refl OK) as (_ & s & E & _). rewrite LN in E. cbn [quarter_initial in_y in_solver_state] in E. rewrite E in D1. exact D1.
  - set (m := reversible_heun (ode_term decay_vf)) in *.
    destruct (runs (quarter_cfg m) (quarter_initial m) (fun h o => out_result o = successful /\ length h = 4%nat)) as (h & o & RUN & OK & LN); [vm_compute; auto|].
    exists h, o. do 3 (split; [assumption|]). destruct (quarter_results m) as (RO & RFO); [intros a b y s j; destruct s, j; reflexivity|].
    destruct (C82_constant m fix_ops 250 (quarter_cfg m) (quarter_initial m) h o thousandths 0 (1 / 4) (quarter_solve m) ltac:(vm_compute; discriminate) RUN RO RFO
                ltac:(reflexivity) eq_refl ltac:(intros k Hk; apply quarter_times; lia)) as (_ & F).
    destruct (F eq_refl OK) as (_ & s & E & _). rewrite LN in E. cbn [quarter_initial in_y in_solver_state] in E. rewrite E in D2. exact D2.
Qed.
Example C82_quarters_between :
  let m := leapfrog_midpoint (ode_term decay_vf) in
  exists h o, solve_run (quarter_cfg m) (quarter_initial m) h o /\ length h = 4%nat /\
    forall a t, In a h -> thousandths (at_from a) <= thousandths t <= thousandths (at_to a) ->
      Rabs (at_interp a t tt - exp (- thousandths t)) <= 3 * exp 2 * (1 / 4)^2 + 1 * (1 / 4)^2.
Proof.
  cbv zeta. set (m := leapfrog_midpoint (ode_term decay_vf)).
  destruct (runs (quarter_cfg m) (quarter_initial m) (fun h o => out_result o = successful /\ length h = 4%nat)) as (h & o & RUN & OK & LN); [vm_compute; auto|].
  exists h, o. do 2 (split; [assumption|]). destruct (quarter_results m) as (RO & RFO); [intros a b y s j; destruct s, j; reflexivity|]. intros a t Ha Ht.
  refine (C82_dense m fix_ops 250 (quarter_cfg m) (quarter_initial m) h o thousandths 0 1 (1 / 4) 1 (3 * exp 2 * (1 / 4)^2) decayed _ (quarter_solve m)
            ltac:(vm_compute; discriminate) RUN RO RFO ltac:(reflexivity) eq_refl ltac:(intros k Hk; apply quarter_times; lia) _ eq_refl ltac:(lra) _ decay_smooth2 _ a t Ha Ht tt).
  - intros a' b' y s j. destruct s. reflexivity.
  - rewrite LN. cbn. lra.
  - intros k Hk. rewrite LN in Hk. assert (INR k <= INR 4) as K4 by (apply le_INR; exact Hk).
    pose proof (C82_leapfrog decay_vf 1 1 1 0 1 (1 / 4) decayed k ltac:(lra) ltac:(lra) ltac:(lra) decay_lipschitz decay_smooth3 ltac:(lra) ltac:(cbn in K4; lra)) as E.
    cbv zeta in E. rewrite decayed_0 in E. fold m in E. replace (3 * exp 2 * (1 / 4)^2) with ((1 + 2 * 1 * 1) * exp (2 * 1 * 1) * (1 / 4)^2); [exact E|].
    replace (2 * 1 * 1) with 2 by ring. ring.
Qed.

Print Assumptions C82_constant.
Print Assumptions C82_dense.
