(** Theorems about changes of coordinates: C75. *)
From Coq Require Import Reals QArith Qreals List Bool Arith Lia Lra.
From Verif Require Import Model_Result Model_Loop Model_RK Model_Tableaus Model_Terms Model_Solvers Model_SRK Spec_RK Spec_SRK Spec_Frame
  Proof_Frame Proof_FrameTime Ex_SRK Ex_Frame.
Import ListNotations.
Open Scope R_scope.

Section RKFrame.
  Context {I I' J J' C : Type}.
  Variable fr : frame I I'.

  (** C75: in new coordinates, also moving ones, the stage equations of a Runge--Kutta method (explicit, implicit
      or mixed) have the old stages in new coordinates as a solution, so the step is the old step. *)
  Theorem C75_stages :
    forall (s : nat) (ps : list (tableau * term I J C)) (ps' : list (tableau * term I' J' C)) (t0 t1 : R) (y0 : I -> R) (k : nat -> nat -> I -> R),
    ps <> [] -> parts_follow fr ps ps' ->
    (forall tab trm, In (tab, trm) ps -> consistent_term trm) -> (forall tab trm, In (tab, trm) ps' -> consistent_term trm) ->
    at_rest fr \/ times_are_row_sums s ps ->
    rk_equations s ps t0 t1 y0 k ->
    exists k', rk_equations s ps' (t0 + fr_shift fr) (t1 + fr_shift fr) (point fr t0 y0) k' /\
      rk_solution s ps' (point fr t0 y0) k' = point fr t1 (rk_solution s ps y0 k) /\
      rk_error s ps' k' = vector fr (rk_error s ps k) /\
      forall m i p, k' m i p = vector fr (k m i) p + (if (m =? 0)%nat then t1 - t0 else 0) * fr_velocity fr p.
  Proof. exact (pf_C75_stages fr). Qed.
  (** C75: a step of an explicit method is the old step in the new coordinates; the error estimate turns like a
      difference of points, so it does not see the origin and the motion of the frame. *)
  Theorem C75_explicit_step :
    forall (sv : solver I J C) (sv' : solver I' J' C) (s : nat) (t0 t1 : R) (y0 : I -> R) (others others' : bool) (state : solver_state J) (state' : solver_state J') (made_jump made_jump' : bool),
    valid_parts s (sv_parts sv) -> explicit_parts (sv_parts sv) -> fsal_at_ends (sv_parts sv) ->
    valid_parts s (sv_parts sv') -> explicit_parts (sv_parts sv') -> fsal_at_ends (sv_parts sv') ->
    parts_follow fr (sv_parts sv) (sv_parts sv') ->
    at_rest fr \/ times_are_row_sums s (sv_parts sv) ->
    coherent (sv_parts sv) t0 y0 made_jump state ->
    coherent (sv_parts sv') (t0 + fr_shift fr) (point fr t0 y0) made_jump' state' ->
    let out := rk_step sv t0 t1 y0 others state made_jump in
    let out' := rk_step sv' (t0 + fr_shift fr) (t1 + fr_shift fr) (point fr t0 y0) others' state' made_jump' in
    ro_y out' = point fr t1 (ro_y out) /\ ro_error out' = option_map (vector fr) (ro_error out).
  Proof. exact (pf_C75_explicit_step fr). Qed.
End RKFrame.

Section SRKFrame.
  Context {I I' J J' J2 J2' K : Type}.
  Variable fr : frame I I'.

  (** C75: the same for stochastic Runge--Kutta methods, for general and for additive noise. *)
  Theorem C75_srk_general :
    forall (tab : stableau) (drift : term I J R) (drift' : term I' J' R) (diffusion : term I J2 (K -> R)) (diffusion' : term I' J2' (K -> R)) (levy levy' : R -> R -> bm_inc K) (t0 t1 : R) (y0 : I -> R) (jump jump' : bool),
    spost_init_ok tab = true -> ignored_unused tab -> is_additive_noise tab = false ->
    at_rest fr \/ sde_row_sums tab ->
    (forall h, increments_follow fr drift drift' h h) -> (forall w, increments_follow fr diffusion diffusion' w 0) ->
    levy' (t0 + fr_shift fr) (t1 + fr_shift fr) = levy t0 t1 ->
    let out := me_step (srk tab drift diffusion levy) t0 t1 y0 tt jump in
    let out' := me_step (srk tab drift' diffusion' levy') (t0 + fr_shift fr) (t1 + fr_shift fr) (point fr t0 y0) tt jump' in
    so_y out' = point fr t1 (so_y out) /\ so_error out' = option_map (vector fr) (so_error out).
  Proof. exact (pf_C75_srk_general fr). Qed.
  Theorem C75_srk_additive :
    forall (tab : stableau) (drift : term I J R) (drift' : term I' J' R) (diffusion : term I J2 (K -> R)) (diffusion' : term I' J2' (K -> R)) (levy levy' : R -> R -> bm_inc K) (t0 t1 : R) (y0 : I -> R) (jump jump' : bool),
    spost_init_ok tab = true -> ignored_unused tab -> is_additive_noise tab = true ->
    at_rest fr \/ sde_row_sums tab ->
    (forall h, increments_follow fr drift drift' h h) -> (forall w, increments_follow fr diffusion diffusion' w 0) ->
    consistent_term diffusion -> consistent_term diffusion' -> linear_term diffusion -> linear_term diffusion' ->
    (forall t y z, t_vf diffusion' t y = t_vf diffusion' t z) ->
    levy' (t0 + fr_shift fr) (t1 + fr_shift fr) = levy t0 t1 ->
    let out := me_step (srk tab drift diffusion levy) t0 t1 y0 tt jump in
    let out' := me_step (srk tab drift' diffusion' levy') (t0 + fr_shift fr) (t1 + fr_shift fr) (point fr t0 y0) tt jump' in
    so_y out' = point fr t1 (so_y out) /\ so_error out' = option_map (vector fr) (so_error out).
  Proof. exact (pf_C75_srk_additive fr). Qed.
End SRKFrame.

Section OtherFrames.
  Context {I I' : Type}.
  Variable fr : frame I I'.

  (** C75: the same for the other solvers. *)
  Theorem C75_euler :
    forall (J J' C : Type) (m : term I J C) (m' : term I' J' C) (t0 t1 : R) (y0 : I -> R) (jump jump' : bool),
    drift_follows fr m m' ->
    so_y (me_step (euler m') (t0 + fr_shift fr) (t1 + fr_shift fr) (point fr t0 y0) tt jump')
    = point fr t1 (so_y (me_step (euler m) t0 t1 y0 tt jump)).
  Proof. exact (pf_C75_euler fr). Qed.
  Theorem C75_euler_heun :
    forall (J J' C L L' D : Type) (drift : term I J C) (drift' : term I' J' C) (diffusion : term I L D) (diffusion' : term I' L' D) (t0 t1 : R) (y0 : I -> R) (jump jump' : bool),
    drift_follows fr drift drift' -> noise_follows fr diffusion diffusion' ->
    so_y (me_step (euler_heun drift' diffusion') (t0 + fr_shift fr) (t1 + fr_shift fr) (point fr t0 y0) tt jump')
    = point fr t1 (so_y (me_step (euler_heun drift diffusion) t0 t1 y0 tt jump)).
  Proof. exact (pf_C75_euler_heun fr). Qed.
  Theorem C75_leapfrog :
    forall (J J' C : Type) (m : term I J C) (m' : term I' J' C) (tm1 t0 t1 : R) (ym1 y0 : I -> R) (jump jump' : bool),
    drift_follows fr m m' ->
    let out := me_step (leapfrog_midpoint m) t0 t1 y0 (tm1, ym1) jump in
    let out' := me_step (leapfrog_midpoint m') (t0 + fr_shift fr) (t1 + fr_shift fr) (point fr t0 y0)
                        (tm1 + fr_shift fr, point fr tm1 ym1) jump' in
    so_y out' = point fr t1 (so_y out) /\
    so_state out' = (fst (so_state out) + fr_shift fr, point fr (fst (so_state out)) (snd (so_state out))).
  Proof. exact (pf_C75_leapfrog fr). Qed.
  Theorem C75_reversible_heun :
    forall (J J' C : Type) (m : term I J C) (m' : term I' J' C) (t0 t1 : R) (yhat y0 : I -> R) (jump : bool),
    drift_follows fr m m' -> consistent_term m -> consistent_term m' -> linear_term m -> linear_term m' ->
    let state s yh := (yh, t_vf m s yh) in
    let state' s yh := (yh, t_vf m' s yh) in
    let out := me_step (reversible_heun m) t0 t1 y0 (state t0 yhat) jump in
    let out' := me_step (reversible_heun m') (t0 + fr_shift fr) (t1 + fr_shift fr) (point fr t0 y0)
                        (state' (t0 + fr_shift fr) (point fr t0 yhat)) jump in
    so_y out' = point fr t1 (so_y out) /\ so_error out' = option_map (vector fr) (so_error out) /\
    exists yhat1, so_state out = state t1 yhat1 /\ so_state out' = state' (t1 + fr_shift fr) (point fr t1 yhat1).
  Proof. exact (pf_C75_reversible_heun fr). Qed.
  Theorem C75_stratonovich_milstein :
    forall (J J' C L L' D : Type) (drift : term I J C) (drift' : term I' J' C) (diffusion : term I L D) (diffusion' : term I' L' D) (jvp : ((I -> R) -> I -> R) -> (I -> R) -> (I -> R) -> I -> R) (jvp' : ((I' -> R) -> I' -> R) -> (I' -> R) -> (I' -> R) -> I' -> R) (t0 t1 : R) (y0 : I -> R) (jump jump' : bool),
    correct_jvp jvp -> correct_jvp jvp' ->
    (forall w y v, exists d, directional (fun z => t_vf_prod diffusion t0 z w) y v d) ->
    (forall w y v, exists d, directional (fun z => t_vf_prod diffusion' (t0 + fr_shift fr) z w) y v d) ->
    drift_follows fr drift drift' -> noise_follows fr diffusion diffusion' ->
    so_y (me_step (stratonovich_milstein jvp' drift' diffusion') (t0 + fr_shift fr) (t1 + fr_shift fr) (point fr t0 y0) tt jump')
    = point fr t1 (so_y (me_step (stratonovich_milstein jvp drift diffusion) t0 t1 y0 tt jump)).
  Proof. exact (pf_C75_stratonovich_milstein fr). Qed.
  Theorem C75_ito_milstein :
    forall (K : Type) (eqb : K -> K -> bool) (ks : list K) (f : R -> (I -> R) -> I -> R) (f' : R -> (I' -> R) -> I' -> R) (g : R -> (I -> R) -> I * K -> R) (g' : R -> (I' -> R) -> I' * K -> R) (Dg : R -> (I -> R) -> (I -> R) -> I * K -> R) (Dg' : R -> (I' -> R) -> (I' -> R) -> I' * K -> R) (path path' : R -> R -> K -> R) (jvp : ((I -> R) -> I * K -> R) -> (I -> R) -> (I -> R) -> I * K -> R) (jvp' : ((I' -> R) -> I' * K -> R) -> (I' -> R) -> (I' -> R) -> I' * K -> R) (t0 t1 : R) (y0 : I -> R) (jump jump' : bool),
    (forall t y v, directional (g t) y v (Dg t y v)) -> (forall t y v, directional (g' t) y v (Dg' t y v)) ->
    correct_jvp jvp -> correct_jvp jvp' ->
    (forall t y p, f' (t + fr_shift fr) (point fr t y) p = vector fr (f t y) p + fr_velocity fr p) ->
    (forall t y p k, g' (t + fr_shift fr) (point fr t y) (p, k) = vector fr (fun x => g t y (x, k)) p) ->
    path' (t0 + fr_shift fr) (t1 + fr_shift fr) = path t0 t1 ->
    so_y (me_step (ito_milstein eqb ks jvp' (ode_term f') (control_term ks g' path')) (t0 + fr_shift fr) (t1 + fr_shift fr) (point fr t0 y0) tt jump')
    = point fr t1 (so_y (me_step (ito_milstein eqb ks jvp (ode_term f) (control_term ks g path)) t0 t1 y0 tt jump)).
  Proof. exact (pf_C75_ito_milstein fr). Qed.
End OtherFrames.

Section TimeAsState.
  Context {I : Type}.

  (** C75: making time a component of the state changes nothing: the new component ends at the end of the step, and
      the others are the same. *)
  Theorem C75_autonomous_rk :
    forall (tab : tableau) (f : R -> (I -> R) -> I -> R) (sv : solver I I R) (sv' : solver (option I) (option I) R) (t0 t1 : R) (y0 : I -> R) (others others' : bool) (state : solver_state I) (state' : solver_state (option I)) (jump jump' : bool),
    post_init_ok tab = true -> implicit tab = false -> (fsal tab = true -> ends_at_ends tab) -> exact_row_sums tab ->
    sv_parts sv = [(tab, ode_term f)] -> sv_parts sv' = [(tab, ode_term (autonomous f))] ->
    coherent (sv_parts sv) t0 y0 jump state -> coherent (sv_parts sv') t0 (with_time t0 y0) jump' state' ->
    ro_y (rk_step sv' t0 t1 (with_time t0 y0) others' state' jump') = with_time t1 (ro_y (rk_step sv t0 t1 y0 others state jump)).
  Proof. exact pf_C75_autonomous_rk. Qed.
  Theorem C75_autonomous_euler_heun :
    forall (K : Type) (ks : list K) (f : R -> (I -> R) -> I -> R) (g : R -> (I -> R) -> I * K -> R) (path : R -> R -> K -> R) (t0 t1 : R) (y0 : I -> R) (jump : bool),
    so_y (me_step (euler_heun (ode_term (autonomous f)) (control_term ks (autonomous_noise g) path)) t0 t1 (with_time t0 y0) tt jump)
    = with_time t1 (so_y (me_step (euler_heun (ode_term f) (control_term ks g path)) t0 t1 y0 tt jump)).
  Proof. exact pf_C75_autonomous_euler_heun. Qed.
  Theorem C75_autonomous_srk :
    forall (K : Type) (tab : stableau) (ks : list K) (f : R -> (I -> R) -> I -> R) (g : R -> (I -> R) -> I * K -> R) (path : R -> R -> K -> R) (levy : R -> R -> bm_inc K) (t0 t1 : R) (y0 : I -> R) (jump : bool),
    spost_init_ok tab = true -> ignored_unused tab -> is_additive_noise tab = false -> sde_row_sums tab ->
    so_y (me_step (srk tab (ode_term (autonomous f)) (control_term ks (autonomous_noise g) path) levy) t0 t1 (with_time t0 y0) tt jump)
    = with_time t1 (so_y (me_step (srk tab (ode_term f) (control_term ks g path) levy) t0 t1 y0 tt jump)).
  Proof. exact pf_C75_autonomous_srk. Qed.
  Theorem C75_autonomous_milstein :
    forall (K : Type) (ks : list K) (eqb : K -> K -> bool) (f : R -> (I -> R) -> I -> R) (g : R -> (I -> R) -> I * K -> R) (jvp : ((I -> R) -> I * K -> R) -> (I -> R) -> (I -> R) -> I * K -> R) (jvp' : ((option I -> R) -> option I * K -> R) -> (option I -> R) -> (option I -> R) -> option I * K -> R) (Dg : R -> (I -> R) -> (I -> R) -> I * K -> R) (Dg' : R -> (option I -> R) -> (option I -> R) -> option I * K -> R) (path : R -> R -> K -> R) (t0 t1 : R) (y0 : I -> R) (jump : bool),
    (forall t y v, directional (g t) y v (Dg t y v)) -> (forall t z v, directional (autonomous_noise g t) z v (Dg' t z v)) ->
    correct_jvp jvp -> correct_jvp jvp' ->
    so_y (me_step (ito_milstein eqb ks jvp' (ode_term (autonomous f)) (control_term ks (autonomous_noise g) path)) t0 t1 (with_time t0 y0) tt jump)
    = with_time t1 (so_y (me_step (ito_milstein eqb ks jvp (ode_term f) (control_term ks g path)) t0 t1 y0 tt jump)).
  Proof. exact pf_C75_autonomous_milstein. Qed.
End TimeAsState.

(** C75: the tableaus that meet the condition on moving frames exactly; the other ones (dopri8, tsit5, kencarp3,
    kencarp5, kvaerno5) are rounded decimals. *)
  Theorem C75_shipped :
    forall (tab : tableau),
    In tab [bosh3_tableau; dopri5_tableau; heun_tableau; midpoint_tableau; ralston_tableau; kvaerno3_tableau; kvaerno4_tableau;
          kencarp4_implicit_tableau; sil3_explicit_tableau; sil3_implicit_tableau] -> exact_row_sums tab.
  Proof. exact pf_C75_shipped. Qed.
  Theorem C75_shipped_sde :
    forall (tab : stableau),
    In tab [sra1; shark; sea; spark; general_shark; slowrk] -> sde_row_sums tab.
  Proof. exact pf_C75_shipped_sde. Qed.

Section Instances.
  (** The equation [dy = (t y + 1) dt + t y dw] in a frame that moves with speed three and halves the unit. *)
  Example C75_moving :
    fr_velocity ex_frame tt <> 0 /\ ex_drift_parts heun_tableau /\ exact_row_sums heun_tableau /\
    drift_follows ex_frame (ode_term ex_f) (ode_term ex_f') /\
    noise_follows ex_frame (control_term [tt] ex_noise ex_path) (control_term [tt] ex_noise' ex_path').
  Proof.
    split; [cbn; lra|]. split; [apply ex_drift_parts_ok; vm_compute; reflexivity|]. split; [apply C75_shipped; cbn; tauto|].
    split; [exact ex_drift_follows|exact ex_noise_follows].
  Qed.

  (** A step of Euler--Heun, from zero to one, on the same equation: the state goes from one to two, in the moving
      frame from three to eight. *)
  Example C75_moving_step :
    let step := so_y (me_step (euler_heun (ode_term ex_f) (control_term [tt] ex_noise ex_path)) 0 1 (fun _ => 1) tt false) in
    let step' := so_y (me_step (euler_heun (ode_term ex_f') (control_term [tt] ex_noise' ex_path')) 5 6 (fun _ => 3) tt false) in
    step' = point ex_frame 1 step.
  Proof.
    pose proof (C75_euler_heun ex_frame _ _ _ _ _ _ _ _ _ _ 0 1 (fun _ => 1) false false ex_drift_follows ex_noise_follows) as H.
    cbv zeta. rewrite <- H. change (fr_shift ex_frame) with 5.
    replace (0 + 5) with 5 by ring. replace (1 + 5) with 6 by ring.
    replace (point ex_frame 0 (fun _ => 1)) with (fun _ : unit => 3); [reflexivity|].
    apply FunctionalExtensionality.functional_extensionality. intros []. unfold point. cbn. ring.
  Qed.

  (** Dopri5 and Heun on a time-dependent equation, with time as a state. *)
  Example C75_time tab (t0 t1 : R) (y0 : unit -> R) :
    In tab [dopri5_tableau; bosh3_tableau; heun_tableau; midpoint_tableau; ralston_tableau] ->
    ro_y (rk_step (frame_solver tab (autonomous ex_f)) t0 t1 (with_time t0 y0) false (rk_init (frame_solver tab (autonomous ex_f))) false)
    = with_time t1 (ro_y (rk_step (frame_solver tab ex_f) t0 t1 y0 false (rk_init (frame_solver tab ex_f)) false)).
  Proof.
    intros H. assert (S : exact_row_sums tab) by (apply C75_shipped; cbn in *; tauto).
    assert (P : post_init_ok tab = true /\ implicit tab = false /\ (fsal tab = true -> ends_at_ends tab))
      by (repeat (destruct H as [<-|H]; [split; [vm_compute; reflexivity|split; [reflexivity|first [discriminate|intros _; split; reflexivity]]]|]); destruct H).
    destruct P as (OK & IM & FE).
    apply (C75_autonomous_rk tab ex_f); try assumption; try reflexivity.
    - unfold rk_init. destruct (use_fsal _); [|exact Logic.I]. split; [reflexivity|left; reflexivity].
    - unfold rk_init. destruct (use_fsal _); [|exact Logic.I]. split; [reflexivity|left; reflexivity].
  Qed.
  Example C75_time_milstein (t0 t1 : R) (y0 : unit -> R) (jump : bool) :
    so_y (me_step (ito_milstein (fun _ _ => true) [tt] ex_jvp (ode_term (autonomous ex_f)) (control_term [tt] (autonomous_noise ex_noise) ex_path))
                  t0 t1 (with_time t0 y0) tt jump)
    = with_time t1 (so_y (me_step (ito_milstein (fun _ _ => true) [tt] ex_jvp (ode_term ex_f) (control_term [tt] ex_noise ex_path)) t0 t1 y0 tt jump)).
  Proof.
    exact (C75_autonomous_milstein unit [tt] _ ex_f ex_noise ex_jvp ex_jvp ex_D ex_D_time ex_path t0 t1 y0 jump ex_D_ok ex_D_time_ok
             (ex_jvp_correct _ _) (ex_jvp_correct _ _)).
  Qed.
End Instances.

Print Assumptions C75_stages.
Print Assumptions C75_explicit_step.
Print Assumptions C75_srk_general.
Print Assumptions C75_srk_additive.
Print Assumptions C75_euler.
Print Assumptions C75_euler_heun.
Print Assumptions C75_leapfrog.
Print Assumptions C75_reversible_heun.
Print Assumptions C75_stratonovich_milstein.
Print Assumptions C75_ito_milstein.
Print Assumptions C75_autonomous_rk.
Print Assumptions C75_autonomous_euler_heun.
Print Assumptions C75_autonomous_srk.
Print Assumptions C75_autonomous_milstein.
Print Assumptions C75_shipped.
Print Assumptions C75_shipped_sde.
