(** Solvers for underdamped Langevin diffusion.  Models [/repo/diffrax/_solver/foster_langevin_srk.py]
    ([AbstractFosterLangevinSRK]) and its three subclasses [ALIGN] ([align.py]), [ShOULD] ([should.py]) and [QUICSORT]
    ([quicsort.py]).  Positions and velocities are functions from coordinates [D] to reals, [dims] being the list of all
    coordinates; [args] is fixed.  Arithmetic is on real numbers.  Not modelled: dtypes, rounding, the broadcasting of
    [gamma] and [u] to the shape of the position and the checks of shapes. *)
From Coq Require Import Reals List Bool.
Import ListNotations.
Open Scope R_scope.

Definition Rltb (a b : R) : bool := if Rlt_dec a b then true else false.
Definition Rleb (a b : R) : bool := if Rle_dec a b then true else false.
Definition Reqb (a b : R) : bool := if Req_EM_T a b then true else false.

(** [jnp.polyval], highest power first; used in [foster_langevin_srk.py:174-180]. *)
Definition polyval (p : list R) (h : R) : R := fold_left (fun acc c => acc * h + c) p 0.

(** [jnp.isclose], used in [foster_langevin_srk.py:389] *)
Definition isclose (a b rtol atol : R) : bool := Rleb (Rabs (a - b)) (atol + rtol * Rabs b).

(** The Brownian increment and its space-time and space-time-time Levy areas; [ALIGN] does not use the last. *)
Record levy (D : Type) := Levy { lv_w : D -> R; lv_h : D -> R; lv_k : D -> R }.
Arguments Levy {D}. Arguments lv_w {D}. Arguments lv_h {D}. Arguments lv_k {D}.

(** [align.py:27-42] [_ALIGNCoeffs]; [A] is the type of the leaves. *)
Record align_coeffs (A : Type) := ALIGNCoeffs { al_beta : A; al_a1 : A; al_b1 : A; al_aa : A; al_chh : A }.
Arguments ALIGNCoeffs {A}. Arguments al_beta {A}. Arguments al_a1 {A}. Arguments al_b1 {A}. Arguments al_aa {A}.
Arguments al_chh {A}.
Definition align_map {A B : Type} (f : A -> B) (k : align_coeffs A) : align_coeffs B :=
  ALIGNCoeffs (f (al_beta k)) (f (al_a1 k)) (f (al_b1 k)) (f (al_aa k)) (f (al_chh k)).

(** [should.py:22-57] [_ShOULDCoeffs] *)
Record should_coeffs (A : Type) := ShOULDCoeffs {
  sh_beta_half : A; sh_a_half : A; sh_b_half : A; sh_beta1 : A; sh_a1 : A; sh_b1 : A; sh_aa : A; sh_chh : A; sh_ckk : A }.
Arguments ShOULDCoeffs {A}. Arguments sh_beta_half {A}. Arguments sh_a_half {A}. Arguments sh_b_half {A}.
Arguments sh_beta1 {A}. Arguments sh_a1 {A}. Arguments sh_b1 {A}. Arguments sh_aa {A}. Arguments sh_chh {A}.
Arguments sh_ckk {A}.
Definition should_map {A B : Type} (f : A -> B) (k : should_coeffs A) : should_coeffs B :=
  ShOULDCoeffs (f (sh_beta_half k)) (f (sh_a_half k)) (f (sh_b_half k)) (f (sh_beta1 k)) (f (sh_a1 k)) (f (sh_b1 k))
    (f (sh_aa k)) (f (sh_chh k)) (f (sh_ckk k)).

(** [quicsort.py:27-45] [_QUICSORTCoeffs]; [lr1] is the axis of length three. *)
Record lr1 (A : Type) := LR1 { at_l : A; at_r : A; at_1 : A }.
Arguments LR1 {A}. Arguments at_l {A}. Arguments at_r {A}. Arguments at_1 {A}.
Definition lr1_map {A B : Type} (f : A -> B) (k : lr1 A) : lr1 B := LR1 (f (at_l k)) (f (at_r k)) (f (at_1 k)).
Record quicsort_coeffs (A : Type) := QUICSORTCoeffs {
  qs_beta_lr1 : lr1 A; qs_a_lr1 : lr1 A; qs_b_lr1 : lr1 A; qs_a_third : A; qs_a_div_h : A }.
Arguments QUICSORTCoeffs {A}. Arguments qs_beta_lr1 {A}. Arguments qs_a_lr1 {A}. Arguments qs_b_lr1 {A}.
Arguments qs_a_third {A}. Arguments qs_a_div_h {A}.
Definition quicsort_map {A B : Type} (f : A -> B) (k : quicsort_coeffs A) : quicsort_coeffs B :=
  QUICSORTCoeffs (lr1_map f (qs_beta_lr1 k)) (lr1_map f (qs_a_lr1 k)) (lr1_map f (qs_b_lr1 k)) (f (qs_a_third k))
    (f (qs_a_div_h k)).

(** [align.py:99-120] [_directly_compute_coeffs_leaf] *)
Definition align_direct (h c : R) : align_coeffs R :=
  let al := c * h in
  let beta := exp (- al) in
  let a1 := (1 - beta) / c in
  let b1 := (beta + al - 1) / (c * al) in
  let aa := a1 / h in
  let al2 := al ^ 2 in
  let chh := 6 * (beta * (al + 2) + al - 2) / (al2 * c) in
  ALIGNCoeffs beta a1 b1 aa chh.

(** [align.py:122-151] [_tay_coeffs_single] *)
Definition align_tay (c : R) : align_coeffs (list R) :=
  let zero := 0 in
  let one := 1 in
  let c2 := c * c in
  let c3 := c2 * c in
  let c4 := c3 * c in
  let c5 := c4 * c in
  let beta := [- c5 / 120; c4 / 24; - c3 / 6; c2 / 2; - c; one] in
  let a1 := [c4 / 120; - c3 / 24; c2 / 6; - c / 2; one; zero] in
  let b1 := [c4 / 720; - c3 / 120; c2 / 24; - c / 6; one / 2; zero] in
  let aa := [- c5 / 720; c4 / 120; - c3 / 24; c2 / 6; - c / 2; one] in
  let chh := [c4 / 168; - c3 / 30; 3 * c2 / 20; - c / 2; one; zero] in
  ALIGNCoeffs beta a1 b1 aa chh.

(** [should.py:106-136] [_directly_compute_coeffs_leaf] *)
Definition should_direct (h c : R) : should_coeffs R :=
  let al := c * h in
  let beta_half := exp (- al / 2) in
  let beta1 := exp (- al) in
  let a_half := (1 - beta_half) / c in
  let a1 := (1 - beta1) / c in
  let b_half := (beta_half + al / 2 - 1) / (al * c) in
  let b1 := (beta1 + al - 1) / (al * c) in
  let aa := a1 / h in
  let al2 := al ^ 2 in
  let al3 := al2 * al in
  let chh := 6 * (beta1 * (al + 2) + al - 2) / (al2 * c) in
  let ckk := 60 * (beta1 * (al * (al + 6) + 12) - al * (al - 6) - 12) / (al3 * c) in
  ShOULDCoeffs beta_half a_half b_half beta1 a1 b1 aa chh ckk.

(** [should.py:138-190] [_tay_coeffs_single] *)
Definition should_tay (c : R) : should_coeffs (list R) :=
  let zero := 0 in
  let one := 1 in
  let c2 := c * c in
  let c3 := c2 * c in
  let c4 := c3 * c in
  let c5 := c4 * c in
  let beta_half := [- c5 / 3840; c4 / 384; - c3 / 48; c2 / 8; - c / 2; one] in
  let beta1 := [- c5 / 120; c4 / 24; - c3 / 6; c2 / 2; - c; one] in
  let a_half := [c4 / 3840; - c3 / 384; c2 / 48; - c / 8; one / 2; zero] in
  let a1 := [c4 / 120; - c3 / 24; c2 / 6; - c / 2; one; zero] in
  let aa := [- c5 / 720; c4 / 120; - c3 / 24; c2 / 6; - c / 2; one] in
  let b_half := [c4 / 46080; - c3 / 3840; c2 / 384; - c / 48; one / 8; zero] in
  let b1 := [c4 / 720; - c3 / 120; c2 / 24; - c / 6; one / 2; zero] in
  let chh := [c4 / 168; - c3 / 30; 3 * c2 / 20; - c / 2; one; zero] in
  let ckk := [5 * c4 / 168; - c3 / 7; c2 / 2; - c; zero; zero] in
  ShOULDCoeffs beta_half a_half b_half beta1 a1 b1 aa chh ckk.

(** [quicsort.py:116-119], [155-157] *)
Definition l_r_1 : lr1 R := LR1 (1 / 2 - sqrt 3 / 6) (1 / 2 + sqrt 3 / 6) 1.

(** [quicsort.py:109-137] [_directly_compute_coeffs_leaf] *)
Definition quicsort_direct (h c : R) : quicsort_coeffs R :=
  let alpha := c * h in
  let alpha_lr1 := lr1_map (fun z => alpha * z) l_r_1 in
  let beta_lr1 := lr1_map (fun a => exp (- a)) alpha_lr1 in
  let a_lr1 := lr1_map (fun b => (1 - b) / c) beta_lr1 in
  let b_lr1 := lr1_map (fun a => (exp (- a) + a - 1) / (c ^ 2 * h)) alpha_lr1 in
  let a_third := (1 - exp (- alpha / 3)) / c in
  let a_div_h := (1 - exp (- alpha)) / (c * h) in
  QUICSORTCoeffs beta_lr1 a_lr1 b_lr1 a_third a_div_h.

(** [quicsort.py:158-160] [lr1_pows]: the powers 5 to 0 of [z]. *)
Definition z_pows (z : R) : list R := [z ^ 5; z ^ 4; z ^ 3; z ^ 2; z ^ 1; z ^ 0].
Definition times (p q : list R) : list R := map (fun ab => fst ab * snd ab) (combine p q).

(** [quicsort.py:139-190] [_tay_coeffs_single] *)
Definition quicsort_tay (c : R) : quicsort_coeffs (list R) :=
  let zero := 0 in
  let one := 1 in
  let c2 := c * c in
  let c3 := c2 * c in
  let c4 := c3 * c in
  let c5 := c4 * c in
  let beta := [- c5 / 120; c4 / 24; - c3 / 6; c2 / 2; - c; one] in
  let a := [c4 / 120; - c3 / 24; c2 / 6; - c / 2; one; zero] in
  let b := [c4 / 720; - c3 / 120; c2 / 24; - c / 6; one / 2; zero] in
  let beta_lr1 := lr1_map (fun z => times (z_pows z) beta) l_r_1 in
  let a_lr1 := lr1_map (fun z => times (z_pows z) a) l_r_1 in
  let b_lr1 := lr1_map (fun z => times (map (fun p => p * z) (z_pows z)) b) l_r_1 in
  let a_third := [c4 / 29160; - c3 / 1944; c2 / 162; - c / 18; one / 3; zero] in
  let a_div_h := [- c5 / 720; c4 / 120; - c3 / 24; c2 / 6; - c / 2; one] in
  QUICSORTCoeffs beta_lr1 a_lr1 b_lr1 a_third a_div_h.

Section Coordinates.
Context {D : Type}.
Notation X := (D -> R).

(** [align.py:153-196] [_compute_step]: position, velocity, gradient and error estimate. *)
Definition align_compute_step (h : R) (lv : levy D) (x0 v0 gamma u : X) (f : X -> X) (k : D -> align_coeffs R) (rho : X)
    (prev_f : option X) : X * X * option X * option (X * X) :=
  let w := lv_w lv in
  let hh := lv_h lv in
  let uh := fun d => u d * h in
  let f0 := match prev_f with Some f0 => f0 | None => f x0 end in
  let x1 := fun d => x0 d + al_a1 (k d) * v0 d - al_b1 (k d) * uh d * f0 d
                     + rho d * (al_b1 (k d) * w d + al_chh (k d) * hh d) in
  let f1 := f x1 in
  let v1 := fun d => al_beta (k d) * v0 d - u d * ((al_a1 (k d) - al_b1 (k d)) * f0 d + al_b1 (k d) * f1 d)
                     + rho d * (al_aa (k d) * w d - gamma d * al_chh (k d) * hh d) in
  let error := (fun _ : D => 0, fun d => - u d * al_b1 (k d) * (f1 d - f0 d)) in
  (x1, v1, Some f1, Some error).

(** [should.py:192-256] [_compute_step]; [scan_trick] evaluates [f] first at [x1], then at the position returned. *)
Definition should_compute_step (h : R) (lv : levy D) (x0 v0 gamma u : X) (f : X -> X) (k : D -> should_coeffs R) (rho : X)
    (prev_f : option X) : X * X * option X * option (X * X) :=
  let w := lv_w lv in
  let hh := lv_h lv in
  let kk := lv_k lv in
  let chh_hh_plus_ckk_kk := fun d => sh_chh (k d) * hh d + sh_ckk (k d) * kk d in
  let rho_w_k := fun d => rho d * (w d - 12 * kk d) in
  let uh := fun d => u d * h in
  let f0 := match prev_f with Some f0 => f0 | None => f x0 end in
  let v1 := fun d => v0 d + rho d * (hh d + 6 * kk d) in
  let x1 := fun d => x0 d + sh_a_half (k d) * v1 d + sh_b_half (k d) * (- uh d * f0 d + rho_w_k d) in
  let f1 := f x1 in
  let x_out := fun d => x0 d + sh_a1 (k d) * v0 d - uh d * sh_b1 (k d) * (1 / 3 * f0 d + 2 / 3 * f1 d)
                        + rho d * (sh_b1 (k d) * w d + chh_hh_plus_ckk_kk d) in
  let f_out := f x_out in
  let v_out := fun d => sh_beta1 (k d) * v0 d
                        - uh d * (sh_beta1 (k d) / 6 * f0 d + 2 / 3 * sh_beta_half (k d) * f1 d + 1 / 6 * f_out d)
                        + rho d * (sh_aa (k d) * w d - gamma d * chh_hh_plus_ckk_kk d) in
  (x_out, v_out, Some f_out, None).

(** [quicsort.py:192-266] [_compute_step] *)
Definition quicsort_compute_step (h : R) (lv : levy D) (x0 v0 gamma u : X) (f : X -> X) (k : D -> quicsort_coeffs R) (rho : X)
    (prev_f : option X) : X * X * option X * option (X * X) :=
  let w := lv_w lv in
  let hh := lv_h lv in
  let kk := lv_k lv in
  let beta_l := fun d => at_l (qs_beta_lr1 (k d)) in
  let beta_r := fun d => at_r (qs_beta_lr1 (k d)) in
  let beta_1 := fun d => at_1 (qs_beta_lr1 (k d)) in
  let a_l := fun d => at_l (qs_a_lr1 (k d)) in
  let a_r := fun d => at_r (qs_a_lr1 (k d)) in
  let a_1 := fun d => at_1 (qs_a_lr1 (k d)) in
  let b_l := fun d => at_l (qs_b_lr1 (k d)) in
  let b_r := fun d => at_r (qs_b_lr1 (k d)) in
  let b_1 := fun d => at_1 (qs_b_lr1 (k d)) in
  let a_third := fun d => qs_a_third (k d) in
  let a_div_h := fun d => qs_a_div_h (k d) in
  let rho_w_k := fun d => rho d * (w d - 12 * kk d) in
  let uh := fun d => u d * h in
  let v_tilde := fun d => v0 d + rho d * (hh d + 6 * kk d) in
  let x1 := fun d => x0 d + a_l d * v_tilde d + b_l d * rho_w_k d in
  let f1uh := fun d => f x1 d * uh d in
  let x2 := fun d => x0 d + a_r d * v_tilde d + b_r d * rho_w_k d - a_third d * f1uh d in
  let f2uh := fun d => f x2 d * uh d in
  let x_out := fun d => x0 d + a_1 d * v_tilde d + b_1 d * rho_w_k d - 1 / 2 * (a_r d * f1uh d + a_l d * f2uh d) in
  let v_out_tilde := fun d => beta_1 d * v_tilde d - 1 / 2 * (beta_r d * f1uh d + beta_l d * f2uh d) + a_div_h d * rho_w_k d in
  let v_out := fun d => v_out_tilde d - rho d * (hh d - 6 * kk d) in
  (x_out, v_out, None, None).

(** [foster_langevin_srk.py:100-131] What a subclass provides: [C R] are coefficients and [C (list R)] their Taylor
    coefficients. *)
Record foster_langevin (C : Type -> Type) := Foster {
  fl_map : forall A B : Type, (A -> B) -> C A -> C B;
  fl_taylor_threshold : R;
  fl_is_fsal : bool;
  fl_direct : R -> R -> C R;
  fl_tay : R -> C (list R);
  fl_compute_step : R -> levy D -> X -> X -> X -> X -> (X -> X) -> (D -> C R) -> X -> option X ->
                    X * X * option X * option (X * X)
}.
Arguments Foster {C}. Arguments fl_map {C} _ {A B}. Arguments fl_taylor_threshold {C}. Arguments fl_is_fsal {C}.
Arguments fl_direct {C}. Arguments fl_tay {C}. Arguments fl_compute_step {C}.

(** [align.py:76-89], [should.py:85-98], [quicsort.py:86-99] *)
Definition ALIGN (taylor_threshold : R) : foster_langevin align_coeffs :=
  Foster (@align_map) taylor_threshold true align_direct align_tay align_compute_step.
Definition ShOULD (taylor_threshold : R) : foster_langevin should_coeffs :=
  Foster (@should_map) taylor_threshold true should_direct should_tay should_compute_step.
Definition QUICSORT (taylor_threshold : R) : foster_langevin quicsort_coeffs :=
  Foster (@quicsort_map) taylor_threshold false quicsort_direct quicsort_tay quicsort_compute_step.

(** [foster_langevin_srk.py:88-96] [SolverState] *)
Record langevin_state (C : Type -> Type) := LState {
  ls_gamma : X; ls_u : X; ls_h : R; ls_taylor_coeffs : D -> C (list R); ls_coeffs : D -> C R; ls_rho : X; ls_prev_f : option X }.
Arguments LState {C}. Arguments ls_gamma {C}. Arguments ls_u {C}. Arguments ls_h {C}. Arguments ls_taylor_coeffs {C}.
Arguments ls_coeffs {C}. Arguments ls_rho {C}. Arguments ls_prev_f {C}.

(** [foster_langevin_srk.py:45-68] The drift and diffusion terms; [contr] is the increment of the control of the drift
    between two times, with its sign (see [WrapTerm]). *)
Record langevin_terms := LTerms {
  lt_gamma_drift : X; lt_u_drift : X; lt_gamma_diffusion : X; lt_u_diffusion : X; lt_grad_f : X -> X }.

(** [foster_langevin_srk.py:168-182] [_eval_taylor] *)
Definition eval_taylor {C : Type -> Type} (S : foster_langevin C) (h : R) (tay : C (list R)) : C R :=
  fl_map S (fun p => polyval p h) tay.

(** [foster_langevin_srk.py:184-244] [_recompute_coeffs].  The [lax.cond] on whether all entries are below the threshold
    does not change the values; [dims] are the entries it looks at. *)
Definition recompute_coeffs {C : Type -> Type} (S : foster_langevin C) (dims : list D) (h : R) (gamma : X)
    (tay : D -> C (list R)) : D -> C R :=
  let cond := fun d => Rltb (h * gamma d) (fl_taylor_threshold S) in
  let tay_out := fun d => eval_taylor S h (tay d) in
  if forallb cond dims then tay_out
  else fun d => if cond d then tay_out d else fl_direct S h (gamma d).

(** [foster_langevin_srk.py:246-331] [init].  [None]: it raises, as drift and diffusion have different arguments. *)
Definition langevin_init {C : Type -> Type} (S : foster_langevin C) (dims : list D) (T : langevin_terms) (h : R) (x0 : X)
    : option (langevin_state C) :=
  if forallb (fun d => Reqb (lt_gamma_drift T d) (lt_gamma_diffusion T d) && Reqb (lt_u_drift T d) (lt_u_diffusion T d)) dims
  then
    let gamma := lt_gamma_drift T in
    let u := lt_u_drift T in
    let tay_coeffs := fun d => fl_tay S (gamma d) in
    let coeffs := recompute_coeffs S dims h gamma tay_coeffs in
    let rho := fun d => sqrt (2 * gamma d * u d) in
    let prev_f := if fl_is_fsal S then Some (lt_grad_f T x0) else None in
    Some (LState gamma u h tay_coeffs coeffs rho prev_f)
  else None.

(** [made_jump] as seen when tracing: the constant [False], or a traced value. *)
Inductive jump_flag := StaticFalse | Traced (b : bool).

(** [foster_langevin_srk.py:365-443] [step].  [others_close]: whether the step sizes of all other batch elements are close
    to their previous ones ([unvmap_all], line 391); [b] in [Traced b]: whether any batch element jumped ([unvmap_any],
    line 408).  [None]: it raises, as the branches of the [lax.cond] in lines 407-409 have different structures. *)
Definition langevin_step {C : Type -> Type} (S : foster_langevin C) (dims : list D) (T : langevin_terms) (others_close : bool)
    (h : R) (lv : levy D) (y0 : X * X) (st : langevin_state C) (made_jump : jump_flag)
    : option ((X * X) * option (X * X) * langevin_state C) :=
  let h_prev := ls_h st in
  let tay := ls_taylor_coeffs st in
  let old_coeffs := ls_coeffs st in
  let gamma := ls_gamma st in
  let cond := isclose h_prev h (1 / 10 ^ 10) (1 / 10 ^ 12) in
  let coeffs := if cond && others_close then old_coeffs else recompute_coeffs S dims h gamma tay in
  let prev_f :=
    match made_jump, ls_prev_f st with
    | StaticFalse, prev_f => Some prev_f
    | Traced any_jump, Some prev_f => Some (Some (if any_jump then lt_grad_f T (fst y0) else prev_f))
    | Traced _, None => None
    end in
  match prev_f with
  | None => None
  | Some prev_f =>
      let '(x_out, v_out, f_fsal, error) :=
        fl_compute_step S h lv (fst y0) (snd y0) gamma (ls_u st) (lt_grad_f T) coeffs (ls_rho st) prev_f in
      Some ((x_out, v_out), error, LState gamma (ls_u st) h tay coeffs (ls_rho st) f_fsal)
  end.
End Coordinates.
Arguments Foster {D C}. Arguments fl_map {D C} _ {A B}. Arguments fl_taylor_threshold {D C}. Arguments fl_is_fsal {D C}.
Arguments fl_direct {D C}. Arguments fl_tay {D C}. Arguments fl_compute_step {D C}.
Arguments LState {D C}. Arguments ls_gamma {D C}. Arguments ls_u {D C}. Arguments ls_h {D C}. Arguments ls_taylor_coeffs {D C}.
Arguments ls_coeffs {D C}. Arguments ls_rho {D C}. Arguments ls_prev_f {D C}.
Arguments LTerms {D}. Arguments lt_gamma_drift {D}. Arguments lt_u_drift {D}. Arguments lt_gamma_diffusion {D}.
Arguments lt_u_diffusion {D}. Arguments lt_grad_f {D}.
Arguments foster_langevin : clear implicits. Arguments langevin_terms : clear implicits.
Arguments langevin_state : clear implicits.
