(** Theorems about the checks made by [diffeqsolve] and what follows from them: C61, C62, C63. *)
From Coq Require Import ZArith List Bool Arith Reals QArith Sorting.Sorted Lia Lra.
From Flocq Require Import Core.Core.
From Verif Require Import Model_Result Model_Loop Model_Fixed Model_Dense Model_Direction Model_Front Model_FrontFloat.
From Verif Require Import Spec_Loop Spec_Fixed Spec_Front.
From Verif Require Import Proof_Front Proof_FrontRun Proof_FrontFloat Proof_FrontRefuted Ex_Loop Ex_Front.
Import ListNotations.
Open Scope Z_scope.

Section Calls.
  Context {Y SS CS DI E V MS VF C : Type} (cneg : C -> C) (o : time_ops Z).
  Notation call := (call Y SS CS DI E V MS VF C).
  Implicit Types a : call.

  (** C61: [diffeqsolve] accepts exactly the acceptable calls. *)
  Theorem C61_accepts_iff :
    forall a,
    signs_ok o -> ((exists s, check_call o a = Ok s) <-> acceptable a).
  Proof. exact (pf_C61_accepts_iff o). Qed.
  (** C61: an acceptable call returns a solution. *)
  Theorem C61_returns :
    forall a (save_y : Z -> Y -> V) (m : nat),
    signs_ok o -> acceptable a ->
    ca_max_steps a = Some m ->
    Forall (constructed save_y) (sub_leaves (sv_subs (ca_saveat a))) ->
    (forall sub, In sub (call_subs a) -> (sub_steps sub <= m)%nat) ->
    exists sol, diffeqsolve_call cneg o a (Ok sol).
  Proof. exact (pf_C61_returns cneg o). Qed.
  (** C61: any other call raises an exception and does nothing else. *)
  Theorem C61_refused :
    forall a,
    signs_ok o -> ~ acceptable a ->
    exists e, forall r, diffeqsolve_call cneg o a r <-> r = Raise e.
  Proof. exact (pf_C61_refused cneg o). Qed.
  (** C61: what the loop relies on. *)
  Theorem C61_normalised :
    forall a s,
    check_call o a = Ok s ->
    exists c i, normalise cneg (call_problem a s) = Some (c, i) /\
      cfg_t0 c <= cfg_t1 c /\ in_tnext i <= cfg_t1 c /\
      (forall sub ts, In sub (cfg_subs c) -> sub_ts sub = Some ts ->
         StronglySorted Z.le ts /\ Forall (fun t => cfg_t0 c <= t <= cfg_t1 c) ts).
  Proof. exact (pf_C61_normalised cneg o). Qed.

  (** C62: an adaptive controller is never used with [UnsafeBrownianPath], nor, for a stochastic equation, with
      [Euler] or [HalfSolver(Euler())]. *)
  Theorem C62_adaptive_noise :
    forall a s,
    check_call o a = Ok s -> adaptive (ca_controller a) ->
    ~ occurs an_unsafe_path (ca_terms a) /\
    (forall i, occurs a_brownian_path (ca_terms a) -> ca_solver a = Base i \/ ca_solver a = Half (Base i) ->
       ~ has_class CEuler i).
  Proof. exact (pf_C62_adaptive_noise o). Qed.
  (** C62: the order assumed of the error estimate. *)
  Theorem C62_error_order :
    forall a s p,
    check_call o a = Ok s -> pid_inside p (ca_controller a) ->
    exists x, controller_error_order (ca_controller a) (error_order s (wrap_pytree (ca_terms a))) = Some x /\
      error_order_used p (brownian_somewhere a) (ca_solver a) x.
  Proof. exact (pf_C62_error_order o). Qed.
  (** C62: [HalfSolver] of a Runge-Kutta method is refused by [DirectAdjoint] and [ForwardMode]. *)
  Theorem C62_half_scan_kind :
    forall a i,
    ca_solver a = Half (Base i) -> has_class CRungeKuttaOrSRK i ->
    ca_adjoint a = DirectAdjoint \/ ca_adjoint a = ForwardMode ->
    forall s, check_call o a <> Ok s.
  Proof. exact (pf_C62_half_scan_kind o). Qed.
  (** C63: the tolerances of an implicit solver: its own where given, otherwise those of the controller. *)
  Theorem C63_tolerances :
    forall a s i r,
    check_call o a = Ok s ->
    ca_solver a = Base i -> has_class CImplicit i -> si_root i = Some r ->
    exists rtol atol norm,
      has_tols s rtol atol norm /\ same_but_root (ca_solver a) s /\
      chosen (rf_rtol r) tol_rtol (ca_controller a) rtol /\
      chosen (rf_atol r) tol_atol (ca_controller a) atol /\
      chosen (rf_norm r) tol_norm (ca_controller a) norm.
  Proof. exact (pf_C63_tolerances o). Qed.
  Theorem C63_not_implicit :
    forall a s,
    check_call o a = Ok s -> ~ direct_class CImplicit (ca_solver a) -> s = ca_solver a.
  Proof. exact (pf_C63_not_implicit o). Qed.
  (** C63: [HalfSolver] of an implicit solver is always refused. *)
  Theorem C63_half_implicit :
    forall a i,
    ca_solver a = Half (Base i) -> has_class CImplicit i ->
    forall s, check_call o a <> Ok s.
  Proof. exact (pf_C63_half_implicit o). Qed.
End Calls.

Section StepTo.
  Context {Y SS DI E V MS VF C : Type} (cneg : C -> C) (o : time_ops Z).
  Notation call := (call Y SS nat DI E V MS VF C).
  (** C61: an accepted call with [StepTo] meets the hypotheses of the theorems about [StepTo] (C27). *)
  Theorem C61_stepto :
    forall (a : call) s ts,
    check_call o a = Ok s -> ca_controller a = CStepTo ts ->
    ca_controller_state a = false ->
    (forall ts', pb_adapt (ca_problem a s) (CStepTo ts') = stepto_adapt ts') ->
    (forall ts' T t0 t1 y dt0, (2 <= length ts')%nat ->
       Some (pb_controller_init (ca_problem a s) (CStepTo ts') T t0 t1 y dt0) = stepto_init ts') ->
    exists c i, normalise cneg (call_problem a s) = Some (c, i) /\
      stepto_solve (map (fun t => t * direction_of (call_problem a s)) ts) c i.
  Proof. exact (pf_C61_stepto cneg o). Qed.
End StepTo.

Section SaveAt.
  Context {Y V : Type} (save_y : Z -> Y -> V).
  (** C61: [SubSaveAt] refuses exactly to save nothing, and keeps what it is given. *)
  Theorem C61_make_sub :
    forall (a : sub_args Y V),
    ((exists s, make_sub save_y a = Ok s) <-> asks_for_output a) /\
    (forall s, make_sub save_y a = Ok s ->
       sub_t0 (so_sub s) = sa_t0 a /\ sub_t1 (so_sub s) = sa_t1 a /\
       sub_ts_list (so_sub s) = match sa_ts a with Some ts => ts | None => [] end /\
       sub_steps (so_sub s) = match sa_steps a with inl true => 1%nat | inl false => 0%nat | inr n => n end /\
       (forall f, sa_fn a = Some f -> sub_fn (so_sub s) = f) /\ (sa_fn a = None -> sub_fn (so_sub s) = save_y)).
  Proof. exact (pf_C61_make_sub save_y). Qed.
  (** C61: so does [SaveAt], except that it may be left empty. *)
  Theorem C61_make_saveat :
    forall (a : sub_args Y V) (subs : option (subs_tree Y V)) (dense ss cs mj : bool),
    ((exists v, make_saveat save_y a subs dense ss cs mj = Ok v) <->
     nothing_given a \/ (subs = None /\ asks_for_output a)) /\
    (forall v, make_saveat save_y a subs dense ss cs mj = Ok v ->
       sv_dense v = dense /\ sv_solver_state v = ss /\ sv_controller_state v = cs /\ sv_made_jump v = mj /\
       (forall t, subs = Some t -> sv_subs v = t) /\
       (subs = None -> nothing_given a -> sub_leaves (sv_subs v) = []) /\
       (subs = None -> ~ nothing_given a -> exists s, make_sub save_y a = Ok s /\ sv_subs v = SubLeaf s)).
  Proof. exact (pf_C61_make_saveat save_y). Qed.
End SaveAt.

(** C61: the sign of [dt0] in floating point arithmetic: never rejected wrongly, and rejected whenever the product does
    not underflow. *)
Local Open Scope R_scope.
  Theorem C61_dt0_float :
    forall (emin prec : Z) (t0 t1 dt0 : R),
    (1 < prec)%Z ->
  is_float emin prec t0 -> is_float emin prec t1 -> is_float emin prec dt0 ->
  let away := (t0 < t1 /\ dt0 < 0) \/ (t1 < t0 /\ 0 < dt0) in
  (wrong_sign_float emin prec t0 t1 dt0 = true -> away) /\
  (away -> bpow radix2 emin <= Rabs (t1 - t0) * Rabs dt0 -> wrong_sign_float emin prec t0 t1 dt0 = true).
  Proof. exact pf_C61_dt0_float. Qed.
(** C61: if it does, a step in the wrong direction is not detected ([float32] and [float64]). *)
  Theorem C61_dt0_underflow_refuted :
    (exists t0 t1 dt0, is_float (-149) 24 t0 /\ is_float (-149) 24 t1 /\ is_float (-149) 24 dt0 /\
     t0 < t1 /\ dt0 < 0 /\ wrong_sign_float (-149) 24 t0 t1 dt0 = false) /\
  (exists t0 t1 dt0, is_float (-1074) 53 t0 /\ is_float (-1074) 53 t1 /\ is_float (-1074) 53 dt0 /\
     t0 < t1 /\ dt0 < 0 /\ wrong_sign_float (-1074) 53 t0 t1 dt0 = false).
  Proof. exact pf_C61_dt0_underflow_refuted. Qed.
Local Close Scope R_scope.
Local Open Scope Z_scope.

(** C62: what counts as stochastic, unsafe and controlled: any node of the terms, at any depth. *)
  Theorem C62_is_sde :
    forall (terms : pytree),
    is_sde terms = true <-> occurs a_brownian_path terms.
  Proof. exact pf_C62_is_sde. Qed.
  Theorem C62_is_unsafe_sde :
    forall (terms : pytree),
    is_unsafe_sde terms = true <-> occurs an_unsafe_path terms.
  Proof. exact pf_C62_is_unsafe_sde. Qed.
  Theorem C62_is_cde :
    forall (terms : pytree),
    is_cde terms = true <-> occurs_outside a_path (fun x => a_path x /\ ~ a_brownian_path x) terms.
  Proof. exact pf_C62_is_cde. Qed.
  Theorem C62_wrapped :
    forall (terms : pytree),
    is_sde (wrap_pytree terms) = is_sde terms /\ is_unsafe_sde (wrap_pytree terms) = is_unsafe_sde terms.
  Proof. exact pf_C62_wrapped. Qed.
Section Instance.
  Context {Y : Type}.
  (** C62: [isinstance] looks through one [HalfSolver]. *)
  Theorem C62_isinstance :
    forall (c : solver_class) (i : solver_info Y),
    (isinstance c (Base i) = true <-> has_class c i) /\
    (isinstance c (Half (Base i)) = true <->
     has_class c i \/ c = CAdaptive \/ c = CWrapped \/ c = CHalf).
  Proof. exact pf_C62_isinstance. Qed.
End Instance.
(** C62: but not through two, against the documentation. *)
  Theorem C62_isinstance_refuted :
    exists (c : solver_class) (s : solver Z), isinstance c s = true /\ isinstance c (Half s) = false.
  Proof. exact pf_C62_isinstance_refuted. Qed.
(** C62: so [HalfSolver(HalfSolver(Euler()))] is accepted for a stochastic equation with adaptive steps. *)
  Theorem C62_nested_euler_refuted :
    exists (a : call Z nat nat (Z * Z) unit Z nat Z Z) s,
    brownian_somewhere a /\ adaptive (ca_controller a) /\ has_class CEuler (innermost (ca_solver a)) /\
    check_call z_ops a = Ok s.
  Proof. exact pf_C62_nested_euler_refuted. Qed.
  Theorem C62_half_scan_kind_refuted :
    exists i (call_with : solver Z -> call Z nat nat (Z * Z) unit Z nat Z Z),
    (forall s, ca_solver (call_with s) = s /\ ca_adjoint (call_with s) = DirectAdjoint) /\
    (exists s, check_call z_ops (call_with (Base i)) = Ok s) /\
    check_call z_ops (call_with (Half (Base i))) = Raise AttributeMissing.
  Proof. exact pf_C62_half_scan_kind_refuted. Qed.
(** C63: [HalfSolver(Kvaerno5())] is refused although [Kvaerno5()] is accepted; [HalfSolver(HalfSolver(Kvaerno5()))] is accepted,
    but its root finder is left without tolerances. *)
  Theorem C63_half_implicit_refuted :
    exists i (call_with : solver Z -> call Z nat nat (Z * Z) unit Z nat Z Z),
    (forall s, ca_solver (call_with s) = s) /\
    (exists s, check_call z_ops (call_with (Base i)) = Ok s) /\
    check_call z_ops (call_with (Half (Base i))) = Raise AttributeMissing.
  Proof. exact pf_C63_half_implicit_refuted. Qed.
  Theorem C63_nested_tolerances_refuted :
    exists (a : call Z nat nat (Z * Z) unit Z nat Z Z) s,
    adaptive (ca_controller a) /\ has_class CImplicit (innermost (ca_solver a)) /\ check_call z_ops a = Ok s /\
    si_root (innermost s) = Some (RootTols None None None).
  Proof. exact pf_C63_nested_tolerances_refuted. Qed.

Section Steady.
  Context {Y VF : Type}.
  (** C63: [steady_state_event] can take its tolerances from adaptive controllers only. *)
  Theorem C63_steady_defined :
    forall (vnorm : (Y -> R) -> VF -> R) (rtol atol : option R) (norm : option (Y -> R)) (k : controller (pid_params Y)) (func : Z -> Y -> VF),
    valid_controller k ->
    ((exists f, steady_state_event vnorm rtol atol norm k func = Ok f) <->
     adaptive k \/ (rtol <> None /\ atol <> None /\ norm <> None)).
  Proof. exact pf_C63_steady_defined. Qed.
End Steady.
Section SteadyRun.
  Context {Y SS CS DI E V MS VF : Type}.
  Notation config := (config Y SS CS DI E V MS).
  Notation initial := (initial Y SS CS MS).
  Notation outcome := (outcome Y SS CS DI V MS).
  Notation attempt := (attempt Y).
  (** C63: a solve with [steady_state_event] stops at the first end of a step that is a steady state. *)
  Theorem C63_steady_state :
    forall (c : config) (i : initial) (h : list attempt) (out : outcome) (vnorm : (Y -> R) -> VF -> R) (rtol atol : option R) (norm : option (Y -> R)) (k : controller (pid_params Y)) (func : Z -> Y -> VF) (f : Z -> Y -> bool) (r a : R) (n : Y -> R),
    solve_run c i h out -> cfg_event c = Some (Event [BoolCond f] None) -> results_ok c -> rejects_in_place h ->
    steady_state_event vnorm rtol atol norm k func = Ok f ->
    chosen rtol tol_rtol k r -> chosen atol tol_atol k a -> chosen norm tol_norm k n ->
    let settled t y := (vnorm n (func t y) < a + r * n y)%R in
    (out_result out = event_occurred <-> settled (out_tfinal out) (out_yfinal out)) /\
    (h <> [] -> ~ settled (cfg_t0 c) (in_y i)) /\
    (forall h1 b h2, accepted h = h1 ++ b :: h2 -> h2 <> [] -> ~ settled (at_end b) (at_y b)).
  Proof. exact pf_C63_steady_state. Qed.
End SteadyRun.

(** C61: an acceptable call: backwards in time, [ClipStepSizeController] twice around [PIDController], a tree of
    [SubSaveAt]s, dense output. *)
Definition call1 := f_call ode_tree (Base tsit5_i) 1000 0 (Some (-100)) (save_tree [990; 300; 300; 0]) f_clip
                           RecursiveCheckpointAdjoint.
Example C61_instance :
  signs_ok z_ops /\ acceptable call1 /\ check_call z_ops call1 = Ok (Base tsit5_i) /\
  ca_max_steps call1 = Some 20%nat /\
  Forall (constructed z_save) (sub_leaves (sv_subs (ca_saveat call1))) /\
  (forall sub, In sub (call_subs call1) -> (sub_steps sub <= 20)%nat).
Proof.
  split; [exact z_signs|].
  assert (H : check_call z_ops call1 = Ok (Base tsit5_i)) by reflexivity.
  split; [apply (C61_accepts_iff z_ops call1 z_signs); eauto|]. split; [exact H|]. split; [reflexivity|].
  split; [apply save_tree_made|]. intros sub [<-|[<-|[]]]; cbn; lia.
Qed.
(** C61: each kind of exception is raised by some call that is acceptable but for one argument. *)
Example C61_refused_instance :
  let bad terms s t0 t1 dt0 v k adj := check_call z_ops (f_call terms s t0 t1 dt0 v k adj) in
  bad ode_tree (Base tsit5_i) 0 1000 (Some (-100)) save_t1 f_pid RecursiveCheckpointAdjoint = Raise WrongSignOfDt0 /\
  bad ode_tree (Base tsit5_i) 0 1000 None save_t1 CConstant RecursiveCheckpointAdjoint = Raise ConstantWithoutDt0 /\
  bad ode_tree (Base tsit5_i) 0 1000 None (save_tree [300; 200]) f_pid RecursiveCheckpointAdjoint = Raise TsNotMonotone /\
  bad ode_tree (Base tsit5_i) 0 1000 None (save_tree [300; 2000]) f_pid RecursiveCheckpointAdjoint = Raise TsOutside /\
  bad ode_tree (Base tsit5_i) 0 1000 None save_t1 (CStepTo [0; 400; 900]) RecursiveCheckpointAdjoint = Raise StepToWrongEnds /\
  bad ode_tree (Base tsit5_i) 0 1000 None save_t1 (CStepTo [0; 900; 400; 1000]) RecursiveCheckpointAdjoint = Raise StepToNotMonotone /\
  bad ode_tree (Base tsit5_i) 0 1000 None save_t1 (CClip CConstant None None None) RecursiveCheckpointAdjoint = Raise ClipNotAdaptive /\
  bad ode_tree (Base euler_i) 0 1000 None save_t1 f_pid RecursiveCheckpointAdjoint = Raise NoErrorEstimate /\
  bad ode_tree (Base kvaerno5_i) 0 1000 (Some 10) save_t1 CConstant RecursiveCheckpointAdjoint = Raise MissingTolerances /\
  bad sde_tree (Half (Base euler_i)) 0 1000 (Some 10) save_t1 f_pid RecursiveCheckpointAdjoint = Raise EulerWithAdaptive /\
  bad unsafe_tree (Base tsit5_i) 0 1000 (Some 10) save_t1 f_pid RecursiveCheckpointAdjoint = Raise UnsafeWithAdaptive /\
  bad unsafe_tree (Base tsit5_i) 0 1000 (Some 10) save_t1 CConstant BacksolveAdjoint = Raise AdjointRefused /\
  bad sde_tree (Base tsit5_i) 0 1000 (Some 10) save_t1 f_pid RecursiveCheckpointAdjoint = Raise NoErrorOrder /\
  bad ode_tree (Base tsit5_i) 0 1000 (Some 10) (save_tree [3]) f_pid ImplicitAdjoint = Raise AdjointRefused.
Proof. repeat split; reflexivity. Qed.
Example C61_saveat_instance :
  asks_for_output (SubArgs false false (Some [3; 5]) (inl false) (None (A := Z -> Z -> Z))) /\
  ~ asks_for_output (SubArgs false false (Some []) (inr 0%nat) (None (A := Z -> Z -> Z))) /\
  make_saveat z_save (SubArgs true false None (inl false) None) (Some (SubNode [])) false false false false = Raise SubsAndTimes /\
  make_saveat z_save (SubArgs false false (Some []) (inl false) None) None true false false false = Raise EmptySaveAt /\
  nothing_given (SubArgs false false None (inl false) (None (A := Z -> Z -> Z))).
Proof.
  split; [right; right; left; exists 3, [5]; reflexivity|]. refine (conj _ _).
  - intros [H|[H|[(t & l & H)|[H|(n & H)]]]]; discriminate H.
  - split; [reflexivity|]. split; [reflexivity|]. split; [reflexivity|]. split; [reflexivity|].
    split; [reflexivity|]. left. reflexivity.
Qed.
Definition call2 := f_call ode_tree (Base euler_i) 1000 0 None save_t1 (CStepTo [1000; 600; 500; 0]) DirectAdjoint.
Example C61_stepto_instance :
  check_call z_ops call2 = Ok (Base euler_i) /\ ca_controller_state call2 = false /\
  (forall ts', pb_adapt (ca_problem call2 (Base euler_i)) (CStepTo ts') = stepto_adapt ts') /\
  (forall ts' T t0 t1 y dt0, (2 <= length ts')%nat ->
     Some (pb_controller_init (ca_problem call2 (Base euler_i)) (CStepTo ts') T t0 t1 y dt0) = stepto_init ts').
Proof.
  split; [reflexivity|]. split; [reflexivity|]. split; [reflexivity|].
  intros ts' T t0 t1 y dt0 H. destruct ts' as [|x [|z l]]; cbn in H; try lia. reflexivity.
Qed.
(** C61: [t0 = 1], [t1 = 3], [dt0 = -2] in [float32]. *)
Example C61_dt0_float_instance :
  is_float (-149) 24 1 /\ is_float (-149) 24 3 /\ is_float (-149) 24 (-2) /\
  ((1 < 3)%R /\ (-2 < 0)%R) /\ (bpow radix2 (-149) <= Rabs (3 - 1) * Rabs (-2))%R.
Proof.
  assert (F : forall n, (Z.abs n < 2 ^ 24)%Z -> is_float (-149) 24 (IZR n)).
  { intros n Hn. unfold is_float. apply generic_format_FLT. exists (Float radix2 n 0); [unfold F2R; cbn; lra|exact Hn|cbn; lia]. }
  split; [apply F; cbn; lia|]. split; [apply F; cbn; lia|]. split; [apply F; cbn; lia|]. split; [lra|].
  replace (3 - 1)%R with 2%R by lra. rewrite Rabs_pos_eq, Rabs_left by lra.
  apply Rle_trans with (bpow radix2 0); [apply bpow_le; lia|cbn; lra].
Qed.

(** C62: [MultiTerm]s with the kinds of path; [HalfSolver(Tsit5())]. *)
Definition call3 := f_call sde_tree (Half (Base tsit5_i)) 0 1000 (Some 100) save_t1
  (CPID (PidParams f_tols (Some (3 # 2)))) RecursiveCheckpointAdjoint.
Definition euler_heun_i : solver_info Z :=
  SolverInfo [CStratonovich] None false false (Some 1%Q) (Some (1 # 2)) (Some 1%Q) true.
Definition call4 := f_call sde_tree (Half (Base euler_heun_i)) 0 1000 (Some 100) save_t1 f_clip RecursiveCheckpointAdjoint.
Example C62_instance :
  is_sde sde_tree = true /\ is_sde cde_tree = false /\ is_unsafe_sde sde_tree = false /\ is_unsafe_sde unsafe_tree = true /\
  is_cde cde_tree = true /\ is_cde sde_tree = false /\
  check_call z_ops call3 = Ok (Half (Base tsit5_i)) /\ check_call z_ops call4 = Ok (Half (Base euler_heun_i)) /\
  adaptive (ca_controller call4) /\ pid_inside (PidParams f_tols None) (ca_controller call4) /\
  controller_error_order (ca_controller call4) (error_order (Half (Base euler_heun_i)) (wrap_pytree sde_tree))
  = Some ((1 # 2) + (1 # 2))%Q.
Proof. repeat split; try reflexivity; repeat constructor. Qed.

(** C63: [Kvaerno5] with default tolerances, and with [rtol] given. *)
Definition call5 i := f_call ode_tree (Base i) 0 1000 (Some 100) save_t1 f_clip RecursiveCheckpointAdjoint.
Example C63_instance :
  (exists s, check_call z_ops (call5 kvaerno5_i) = Ok s /\ has_tols s 3 2 z_norm) /\
  (exists s, check_call z_ops (call5 kvaerno5_rtol_i) = Ok s /\ has_tols s (/ 2) 2 z_norm) /\
  has_class CImplicit kvaerno5_i /\ ~ direct_class CImplicit (Base tsit5_i).
Proof.
  split; [eexists; split; [reflexivity|eexists; split; reflexivity]|].
  split; [eexists; split; [reflexivity|eexists; split; reflexivity]|].
  split; [right; right; left; reflexivity|].
  intros (i & [= <-] & H). destruct H as [H|[H|[]]]; discriminate H.
Qed.
(** C63: [y' = 4000 - y] until [|4000 - y| < 2 + 3 |y|]: four steps are accepted, one is rejected, and the event occurs. *)
Definition s_cfg : config Z nat nat (Z * Z) unit Z nat :=
  ex_cfg 5000 30 [] (Some (Event [BoolCond s_event] None)).
Example C63_steady_instance :
  (exists h out, solve_run s_cfg (Initial 10 250 false 0%nat 0%nat 0%nat PInf) h out /\
     (rejects_in_place h /\ out_result out = event_occurred /\ length h = 5%nat /\ length (accepted h) = 4%nat)) /\
  results_ok s_cfg /\ cfg_event s_cfg = Some (Event [BoolCond s_event] None) /\
  steady_state_event (fun n v => n v) None (Some 2%R) None f_clip s_func = Ok s_event /\
  chosen None tol_rtol f_clip 3%R /\ chosen (Some 2%R) tol_atol f_clip 2%R /\ chosen None tol_norm f_clip z_norm /\
  valid_controller f_clip /\ adaptive f_clip.
Proof.
  split.
  { apply runs. vm_compute. split; [|repeat split; reflexivity].
    repeat (constructor; [intros; try discriminate; reflexivity|]). constructor. }
  split.
  { split; cbn; intros.
    - unfold ex_step. cbn. destruct (_ <=? _); split; discriminate.
    - unfold ex_adapt. destruct (_ =? _)%nat; split; discriminate. }
  split; [reflexivity|]. split; [exact s_event_made|].
  assert (Hp : pid_inside (PidParams f_tols None) f_clip) by (repeat constructor).
  split; [right; split; [reflexivity|eexists; split; [exact Hp|reflexivity]]|].
  split; [left; reflexivity|]. split; [right; split; [reflexivity|eexists; split; [exact Hp|reflexivity]]|].
  split; [repeat constructor; discriminate|constructor].
Qed.

Print Assumptions C61_accepts_iff.
Print Assumptions C61_returns.
Print Assumptions C61_refused.
Print Assumptions C61_normalised.
Print Assumptions C62_adaptive_noise.
Print Assumptions C62_error_order.
Print Assumptions C62_half_scan_kind.
Print Assumptions C63_tolerances.
Print Assumptions C63_not_implicit.
Print Assumptions C63_half_implicit.
Print Assumptions C61_stepto.
Print Assumptions C61_make_sub.
Print Assumptions C61_make_saveat.
Print Assumptions C61_dt0_float.
Print Assumptions C61_dt0_underflow_refuted.
Print Assumptions C62_is_sde.
Print Assumptions C62_is_unsafe_sde.
Print Assumptions C62_is_cde.
Print Assumptions C62_wrapped.
Print Assumptions C62_isinstance.
Print Assumptions C62_isinstance_refuted.
Print Assumptions C62_nested_euler_refuted.
Print Assumptions C62_half_scan_kind_refuted.
Print Assumptions C63_half_implicit_refuted.
Print Assumptions C63_nested_tolerances_refuted.
Print Assumptions C63_steady_defined.
Print Assumptions C63_steady_state.
