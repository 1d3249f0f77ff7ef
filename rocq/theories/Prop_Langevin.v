(** Theorems about the solvers for underdamped Langevin diffusion: C53. *)
From Coq Require Import Reals List Bool Arith Lia Lra.
From Coquelicot Require Import Coquelicot.
From Verif Require Import Model_Langevin Spec_Langevin.
From Verif Require Import Proof_LangevinFresh Proof_LangevinHist Proof_LangevinExact Proof_LangevinOrder Ex_Langevin.
Import ListNotations.
Open Scope R_scope.

(** C53: the coefficients in use agree with the direct formulas up to the stated bounds, on either side of the threshold, for
    ALIGN, ShOULD and QUICSORT. *)
  Theorem C53_align_coefficients :
    forall (D : Type) (th h : R) (gamma : D -> R) (dims : list D) (d : D),
    In d dims -> th <= 1 -> h * gamma d <> 0 -> (0 < h * gamma d \/ Rabs (h * gamma d) <= 1) ->
  let k := recompute_coeffs (ALIGN th) dims h gamma (fun d => align_tay (gamma d)) d in
  let c := gamma d in
  let e := exp (- (c * h)) in
  let z := Rabs (c * h) in
  Rabs (al_beta k - e) <= z ^ 6 / 240 /\
  Rabs (al_a1 k - (1 - e) / c) <= Rabs h * z ^ 5 / 240 /\
  Rabs (al_b1 k - (e + c * h - 1) / (c * (c * h))) <= Rabs h * z ^ 5 / 1680 /\
  Rabs (al_aa k - (1 - e) / (c * h)) <= z ^ 6 / 1680 /\
  Rabs (al_chh k - 6 * (e * (c * h + 2) + c * h - 2) / ((c * h) ^ 2 * c)) <= Rabs h * z ^ 5 / 390.
  Proof. exact pf_C53_align_coefficients. Qed.
  Theorem C53_should_coefficients :
    forall (D : Type) (th h : R) (gamma : D -> R) (dims : list D) (d : D),
    In d dims -> th <= 1 -> h * gamma d <> 0 -> (0 < h * gamma d \/ Rabs (h * gamma d) <= 1) ->
  let k := recompute_coeffs (ShOULD th) dims h gamma (fun d => should_tay (gamma d)) d in
  let c := gamma d in
  let e := exp (- (c * h)) in
  let e2 := exp (- (1 / 2 * (c * h))) in
  let z := Rabs (c * h) in
  Rabs (sh_beta_half k - e2) <= z ^ 6 / 240 /\
  Rabs (sh_a_half k - (1 - e2) / c) <= Rabs h * z ^ 5 / 240 /\
  Rabs (sh_b_half k - (e2 + 1 / 2 * (c * h) - 1) / (c * (c * h))) <= Rabs h * z ^ 5 / 1680 /\
  Rabs (sh_beta1 k - e) <= z ^ 6 / 240 /\
  Rabs (sh_a1 k - (1 - e) / c) <= Rabs h * z ^ 5 / 240 /\
  Rabs (sh_b1 k - (e + c * h - 1) / (c * (c * h))) <= Rabs h * z ^ 5 / 1680 /\
  Rabs (sh_aa k - (1 - e) / (c * h)) <= z ^ 6 / 1680 /\
  Rabs (sh_chh k - 6 * (e * (c * h + 2) + c * h - 2) / ((c * h) ^ 2 * c)) <= Rabs h * z ^ 5 / 390 /\
  Rabs (sh_ckk k - 60 * (e * (c * h * (c * h + 6) + 12) - c * h * (c * h - 6) - 12) / ((c * h) ^ 2 * (c * h) * c))
    <= Rabs h * z ^ 5 / 72.
  Proof. exact pf_C53_should_coefficients. Qed.
  Theorem C53_quicsort_coefficients :
    forall (D : Type) (th h : R) (gamma : D -> R) (dims : list D) (d : D),
    In d dims -> th <= 1 -> h * gamma d <> 0 -> (0 < h * gamma d \/ Rabs (h * gamma d) <= 1) ->
  let k := recompute_coeffs (QUICSORT th) dims h gamma (fun d => quicsort_tay (gamma d)) d in
  let c := gamma d in
  let e w := exp (- (w * (c * h))) in
  let z := Rabs (c * h) in
  let l := 1 / 2 - sqrt 3 / 6 in
  let r := 1 / 2 + sqrt 3 / 6 in
  (forall (at_ : lr1 R -> R) (w : R), In (at_, w) [(at_l, l); (at_r, r); (at_1, 1)] ->
     Rabs (at_ (qs_beta_lr1 k) - e w) <= z ^ 6 / 240 /\
     Rabs (at_ (qs_a_lr1 k) - (1 - e w) / c) <= Rabs h * z ^ 5 / 240 /\
     Rabs (at_ (qs_b_lr1 k) - (e w + w * (c * h) - 1) / (c * (c * h))) <= Rabs h * z ^ 5 / 1680) /\
  Rabs (qs_a_third k - (1 - e (1 / 3)) / c) <= Rabs h * z ^ 5 / 240 /\
  Rabs (qs_a_div_h k - (1 - e 1) / (c * h)) <= z ^ 6 / 1680.
  Proof. exact pf_C53_quicsort_coefficients. Qed.
Example C53_coefficients_instance :
  In tt [tt] /\ 1 / 10 <= 1 /\ (1 / 100) * 1 <> 0 /\ (0 < (1 / 100) * 1 \/ Rabs ((1 / 100) * 1) <= 1) /\
  (1 / 100) * 1 < 1 / 10 /\ ~ (5 * 1 < 1 / 10).
Proof. split; [left; reflexivity|]. repeat split; lra. Qed.

(** C53: without friction the coefficients are the limits. *)
  Theorem C53_zero_friction :
    forall (D : Type) (th h : R) (gamma : D -> R) (dims : list D) (d : D),
    In d dims -> 0 < th -> gamma d = 0 ->
  recompute_coeffs (ALIGN th) dims h gamma (fun d => align_tay (gamma d)) d = ALIGNCoeffs 1 h (h / 2) 1 h /\
  recompute_coeffs (ShOULD th) dims h gamma (fun d => should_tay (gamma d)) d
    = ShOULDCoeffs 1 (h / 2) (h / 8) 1 h (h / 2) 1 h 0 /\
  recompute_coeffs (QUICSORT th) dims h gamma (fun d => quicsort_tay (gamma d)) d
    = QUICSORTCoeffs (LR1 1 1 1) (lr1_map (fun z => z * h) l_r_1) (lr1_map (fun z => z ^ 2 * h / 2) l_r_1) (h / 3) 1.
  Proof. exact pf_C53_zero_friction. Qed.

(** C53: backwards in time the Taylor coefficients are used for all step sizes; they are then wrong. *)
  Theorem C53_backward_refuted :
    exists (y y' : (unit -> R) * (unit -> R)) (st st' : langevin_state unit align_coeffs)
    (e : option ((unit -> R) * (unit -> R))),
    history (ALIGN (1 / 10)) [tt] (free_terms 1) [- (10)] y st /\
    langevin_step (ALIGN (1 / 10)) [tt] (free_terms 1) true (- (10)) no_noise y st StaticFalse = Some (y', e, st') /\
    snd y tt = 1 /\ 0 < snd y' tt < exp (- 1 * - (10)) / 2 /\
    al_beta (align_direct (- (10)) 1) = exp (- 1 * - (10)).
  Proof. exact pf_C53_backward_refuted. Qed.

(** C53: the coefficients used by a step are those of a step size since which the step sizes were always taken to be equal. *)
  Theorem C53_coefficients_age :
    forall (D : Type) (C : Type -> Type) (S : foster_langevin D C) (dims : list D) (T : langevin_terms D) (hs : list R) (y : (D -> R) * (D -> R)) (st : langevin_state D C) (others_close : bool) (h : R) (lv : levy D) (j : jump_flag) (y' : (D -> R) * (D -> R)) (e : option ((D -> R) * (D -> R))) (st' : langevin_state D C),
    history S dims T hs y st ->
  langevin_step S dims T others_close h lv y st j = Some (y', e, st') ->
  exists (k : D -> C R) (pf f : option (D -> R)) (hm : R) (newer older : list R),
    fl_compute_step S h lv (fst y) (snd y) (lt_gamma_drift T) (lt_u_drift T) (lt_grad_f T) k
      (fun d => sqrt (2 * lt_gamma_drift T d * lt_u_drift T d)) pf = (fst y', snd y', f, e) /\
    (forall d, In d dims -> k d = fresh S (lt_gamma_drift T) hm d) /\
    h :: hs = newer ++ hm :: older /\ all_taken_equal (newer ++ [hm]) /\ Rabs (h - hm) <= slack newer.
  Proof. exact pf_C53_coefficients_age. Qed.

(** C53: they are those of the current step if the step sizes do not drift. *)
  Theorem C53_current_partial :
    forall (D : Type) (C : Type -> Type) (S : foster_langevin D C) (dims : list D) (T : langevin_terms D) (hs : list R) (y : (D -> R) * (D -> R)) (st : langevin_state D C) (others_close : bool) (h : R) (lv : levy D) (j : jump_flag) (y' : (D -> R) * (D -> R)) (e : option ((D -> R) * (D -> R))) (st' : langevin_state D C),
    history S dims T hs y st ->
  langevin_step S dims T others_close h lv y st j = Some (y', e, st') ->
  none_drifts (h :: hs) ->
  exists (k : D -> C R) (pf f : option (D -> R)),
    fl_compute_step S h lv (fst y) (snd y) (lt_gamma_drift T) (lt_u_drift T) (lt_grad_f T) k
      (fun d => sqrt (2 * lt_gamma_drift T d * lt_u_drift T d)) pf = (fst y', snd y', f, e) /\
    (forall d, In d dims -> k d = fresh S (lt_gamma_drift T) h d).
  Proof. exact pf_C53_current_partial. Qed.
Example C53_current_instance : none_drifts [1 / 2; 1 / 2; 1] /\
  exists y st, history (ALIGN (1 / 10)) [tt] (free_terms 1) [1 / 2; 1 / 2; 1] y st.
Proof. exact (conj ex_none_drifts ex_history). Qed.

(** C53: in general they are not: step sizes may drift arbitrarily far; steps below [10^-12] are all the same; and the
    coefficients depend on the other elements of a batch. *)
  Theorem C53_drift_refuted :
    forall B : R, exists (hs : list R) (y y' : (unit -> R) * (unit -> R)) (st st' : langevin_state unit align_coeffs)
    (h : R) (e : option ((unit -> R) * (unit -> R))),
    history (ALIGN (1 / 10)) [tt] (free_terms 0) hs y st /\ all_taken_equal (h :: hs) /\
    langevin_step (ALIGN (1 / 10)) [tt] (free_terms 0) true h no_noise y st StaticFalse = Some (y', e, st') /\
    B < h /\ snd y tt = 1 /\ fst y' tt = fst y tt + 1.
  Proof. exact pf_C53_drift_refuted. Qed.
  Theorem C53_tiny_steps_refuted :
    exists (h0 h : R) (y y' : (unit -> R) * (unit -> R)) (st st' : langevin_state unit align_coeffs)
    (e : option ((unit -> R) * (unit -> R))),
    history (ALIGN (1 / 10)) [tt] (free_terms 0) [h0] y st /\
    langevin_step (ALIGN (1 / 10)) [tt] (free_terms 0) true h no_noise y st StaticFalse = Some (y', e, st') /\
    0 < h /\ h0 = 1000 * h /\ snd y tt = 1 /\ fst y' tt = fst y tt + 1000 * h.
  Proof. exact pf_C53_tiny_steps_refuted. Qed.
  Theorem C53_batch_refuted :
    exists (h : R) (y y' y'' : (unit -> R) * (unit -> R)) (st st' st'' : langevin_state unit align_coeffs)
    (e e' : option ((unit -> R) * (unit -> R))),
    history (ALIGN (1 / 10)) [tt] (free_terms 0) [1] y st /\
    langevin_step (ALIGN (1 / 10)) [tt] (free_terms 0) true h no_noise y st StaticFalse = Some (y', e, st') /\
    langevin_step (ALIGN (1 / 10)) [tt] (free_terms 0) false h no_noise y st StaticFalse = Some (y'', e', st'') /\
    fst y' tt <> fst y'' tt.
  Proof. exact pf_C53_batch_refuted. Qed.

(** C53: the gradient kept between steps is that of the current position. *)
  Theorem C53_gradient_reused :
    forall (D : Type) (th : R) (dims : list D) (T : langevin_terms D) (hs : list R) (y : (D -> R) * (D -> R)),
    (forall st, history (ALIGN th) dims T hs y st -> ls_prev_f st = Some (lt_grad_f T (fst y))) /\
  (forall st, history (ShOULD th) dims T hs y st -> ls_prev_f st = Some (lt_grad_f T (fst y))) /\
  (forall st, history (QUICSORT th) dims T hs y st -> ls_prev_f st = None).
  Proof. exact pf_C53_gradient_reused. Qed.

(** C53: if a jump is reported, the step takes the gradient of the force as it is after the jump. *)
  Theorem C53_jump :
    forall (D : Type) (th : R) (dims : list D) (T : langevin_terms D) (grad' : (D -> R) -> D -> R) (hs : list R) (y : (D -> R) * (D -> R)) (others_close : bool) (h : R) (lv : levy D),
    let T' := LTerms (lt_gamma_drift T) (lt_u_drift T) (lt_gamma_diffusion T) (lt_u_diffusion T) grad' in
  (forall st, history (ALIGN th) dims T hs y st ->
     langevin_step (ALIGN th) dims T' others_close h lv y st (Traced true) =
     langevin_step (ALIGN th) dims T' others_close h lv y
       (LState (ls_gamma st) (ls_u st) (ls_h st) (ls_taylor_coeffs st) (ls_coeffs st) (ls_rho st) (Some (grad' (fst y)))) StaticFalse) /\
  (forall st, history (ShOULD th) dims T hs y st ->
     langevin_step (ShOULD th) dims T' others_close h lv y st (Traced true) =
     langevin_step (ShOULD th) dims T' others_close h lv y
       (LState (ls_gamma st) (ls_u st) (ls_h st) (ls_taylor_coeffs st) (ls_coeffs st) (ls_rho st) (Some (grad' (fst y)))) StaticFalse).
  Proof. exact pf_C53_jump. Qed.
(** A history as in the hypothesis *)
Example C53_jump_instance : exists y st, history (ALIGN (1 / 10)) [tt] (free_terms 1) [1 / 2; 1 / 2; 1] y st.
Proof. exact ex_history. Qed.

(** C53: when [init] and [step] raise. *)
  Theorem C53_raises :
    forall (D : Type) (th : R) (dims : list D) (T : langevin_terms D),
    (forall (C : Type -> Type) (S : foster_langevin D C) (h : R) (x0 : D -> R),
     langevin_init S dims T h x0 <> None <->
     (forall d, In d dims -> lt_gamma_drift T d = lt_gamma_diffusion T d /\ lt_u_drift T d = lt_u_diffusion T d)) /\
  (forall (hs : list R) (y : (D -> R) * (D -> R)) (oc : bool) (h : R) (lv : levy D) (j : jump_flag),
     (forall st, history (ALIGN th) dims T hs y st -> langevin_step (ALIGN th) dims T oc h lv y st j <> None) /\
     (forall st, history (ShOULD th) dims T hs y st -> langevin_step (ShOULD th) dims T oc h lv y st j <> None) /\
     (forall st, history (QUICSORT th) dims T hs y st ->
        (langevin_step (QUICSORT th) dims T oc h lv y st j = None <-> j <> StaticFalse))).
  Proof. exact pf_C53_raises. Qed.

(** C53: the direct coefficients give the exact solution: for ALIGN with the force frozen, along quadratic paths; for ShOULD with
    constant force, along cubic paths; for QUICSORT without force. *)
  Theorem C53_align_exact :
    forall (D : Type) (h : R) (x0 v0 gamma u rho f0 p0 p1 p2 : D -> R) (f : (D -> R) -> D -> R) (d : D) (X V : R -> R),
    h <> 0 -> gamma d <> 0 ->
  langevin_equation (gamma d) (u d) (rho d) (fun _ => f0 d) (fun s => p1 d + 2 * p2 d * s) X V ->
  X 0 = x0 d -> V 0 = v0 d ->
  let lv := path_levy (fun d => cubic (p0 d) (p1 d) (p2 d) 0) h in
  exists (x1 v1 ex ev f1 : D -> R),
    align_compute_step h lv x0 v0 gamma u f (fun d => align_direct h (gamma d)) rho (Some f0)
      = (x1, v1, Some f1, Some (ex, ev)) /\
    x1 d = X h /\ ex d = 0 /\ v1 d = V h + ev d /\ f1 = f x1 /\ (f x1 d = f0 d -> ev d = 0).
  Proof. exact pf_C53_align_exact. Qed.
  Theorem C53_should_exact :
    forall (D : Type) (h : R) (x0 v0 gamma u rho g p0 p1 p2 p3 : D -> R) (d : D) (X V : R -> R),
    h <> 0 -> gamma d <> 0 ->
  langevin_equation (gamma d) (u d) (rho d) (fun _ => g d) (fun s => p1 d + 2 * p2 d * s + 3 * p3 d * s ^ 2) X V ->
  X 0 = x0 d -> V 0 = v0 d ->
  let lv := path_levy (fun d => cubic (p0 d) (p1 d) (p2 d) (p3 d)) h in
  exists (x1 v1 : D -> R),
    should_compute_step h lv x0 v0 gamma u (fun _ => g) (fun d => should_direct h (gamma d)) rho (Some g)
      = (x1, v1, Some g, None) /\
    x1 d = X h /\ (g d = 0 -> v1 d = V h) /\
    (Rabs (gamma d * h) <= 1 -> Rabs (v1 d - V h) <= Rabs (u d * g d) * Rabs h * Rabs (gamma d * h) ^ 4 / 100).
  Proof. exact pf_C53_should_exact. Qed.
  Theorem C53_quicsort_exact :
    forall (D : Type) (h : R) (x0 v0 gamma u rho : D -> R) (lv : levy D) (prev_f : option (D -> R)) (d : D) (X V : R -> R),
    h <> 0 -> gamma d <> 0 ->
  langevin_equation (gamma d) (u d) (rho d) (fun _ => 0) (fun _ => (lv_w lv d - 12 * lv_k lv d) / h) X V ->
  X 0 = x0 d -> V 0 = v0 d + rho d * (lv_h lv d + 6 * lv_k lv d) ->
  exists (x1 v1 : D -> R),
    quicsort_compute_step h lv x0 v0 gamma u (fun _ _ => 0) (fun d => quicsort_direct h (gamma d)) rho prev_f
      = (x1, v1, None, None) /\
    x1 d = X h /\ v1 d = V h - rho d * (lv_h lv d - 6 * lv_k lv d).
  Proof. exact pf_C53_quicsort_exact. Qed.
Example C53_exact_instance :
  let c := 1 in let u := 2 in let rho := 3 in let g := 4 in
  langevin_equation c u rho (fun _ => g) (fun s => 5 + 2 * 6 * s + 3 * 7 * s ^ 2)
    (Xsol c u rho g 5 6 7 8 9) (Vsol c u rho g 5 6 7 9) /\
  Xsol c u rho g 5 6 7 8 9 0 = 8 /\ Vsol c u rho g 5 6 7 9 0 = 9.
Proof.
  intros c u rho g. split; [apply closed_solves; unfold c; lra|]. unfold Xsol, Vsol. rewrite Rmult_0_r, Ropp_0, exp_0.
  split; unfold c; field.
Qed.

(** C53: without friction ALIGN is reversible. *)
  Theorem C53_align_reversible :
    forall (D : Type) (h : R) (lv lv' : levy D) (x0 v0 u f0 : D -> R) (f : (D -> R) -> D -> R),
    f0 = f x0 ->
  let k := fun _ : D => ALIGNCoeffs 1 h (h / 2) 1 h in
  exists x1 v1 f1 e x2 v2 e',
    align_compute_step h lv x0 v0 (fun _ => 0) u f k (fun d => sqrt (2 * 0 * u d)) (Some f0) = (x1, v1, Some f1, e) /\
    align_compute_step h lv' x1 (fun d => - v1 d) (fun _ => 0) u f k (fun d => sqrt (2 * 0 * u d)) (Some f1)
      = (x2, v2, Some f0, e') /\
    x2 = x0 /\ v2 = (fun d => - v0 d).
  Proof. exact pf_C53_align_reversible. Qed.

(** C53: local errors, for every smooth force. *)
  Theorem C53_local_error :
    forall (th gamma u rho p0 p1 p2 p3 x0 v0 : R) (f X V : R -> R),
    0 < th -> four_times_differentiable f ->
  langevin_equation gamma u rho (fun s => f (X s)) (fun s => p1 + 2 * p2 * s + 3 * p3 * s ^ 2) X V ->
  X 0 = x0 -> V 0 = v0 ->
  local_error (ALIGN th) 3 gamma u rho f (cubic p0 p1 p2 p3) x0 v0 X V /\
  local_error (ShOULD th) 4 gamma u rho f (cubic p0 p1 p2 p3) x0 v0 X V /\
  local_error (QUICSORT th) 4 gamma u rho f (cubic p0 p1 p2 p3) x0 v0 X V.
  Proof. exact pf_C53_local_error. Qed.
Example C53_local_error_instance :
  0 < 1 / 10 /\ four_times_differentiable ex_grad /\
  langevin_equation 1 1 1 (fun s => ex_grad (ex_X s)) (fun s => 1 + 2 * 0 * s + 3 * 0 * s ^ 2) ex_X ex_V /\
  ex_X 0 = 0 /\ ex_V 0 = 1.
Proof. split; [lra|]. split; [exact ex_smooth|]. split; [exact ex_solves|]. exact ex_X0. Qed.

Print Assumptions C53_align_coefficients.
Print Assumptions C53_should_coefficients.
Print Assumptions C53_quicsort_coefficients.
Print Assumptions C53_zero_friction.
Print Assumptions C53_backward_refuted.
Print Assumptions C53_coefficients_age.
Print Assumptions C53_current_partial.
Print Assumptions C53_drift_refuted.
Print Assumptions C53_tiny_steps_refuted.
Print Assumptions C53_batch_refuted.
Print Assumptions C53_gradient_reused.
Print Assumptions C53_jump.
Print Assumptions C53_raises.
Print Assumptions C53_align_exact.
Print Assumptions C53_should_exact.
Print Assumptions C53_quicsort_exact.
Print Assumptions C53_align_reversible.
Print Assumptions C53_local_error.
