(** Examples for forward-mode differentiation: Heun's method for [dy/dt = p - y]. *)
From Coq Require Import Reals List Bool Lra Lia Sorted.
From Coquelicot Require Import Coquelicot.
From Verif Require Import Model_Tangent Spec_Tangent Proof_Tangent Proof_TangentProps.
Import ListNotations.
Open Scope R_scope.

Section Rules.
  Context {X : NormedModule R_AbsRing}.
  Lemma fd_mult (f g lf lg : X -> R) x :
    @filterdiff _ X R_NormedModule f (locally x) lf -> @filterdiff _ X R_NormedModule g (locally x) lg ->
    @filterdiff _ X R_NormedModule (fun t => f t * g t) (locally x) (fun d => lf d * g x + f x * lg d).
  Proof. intros Hf Hg. exact (@filterdiff_mult_fct R_AbsRing X f g x lf lg Rmult_comm Hf Hg). Qed.
  Lemma fd_plus (f g lf lg : X -> R) x :
    @filterdiff _ X R_NormedModule f (locally x) lf -> @filterdiff _ X R_NormedModule g (locally x) lg ->
    @filterdiff _ X R_NormedModule (fun t => f t + g t) (locally x) (fun d => lf d + lg d).
  Proof. intros Hf Hg. exact (@filterdiff_plus_fct R_AbsRing X R_NormedModule (locally x) _ f g lf lg Hf Hg). Qed.
  Lemma fd_const (a : R) x : @filterdiff _ X R_NormedModule (fun _ => a) (locally x) (fun _ => 0).
  Proof. exact (@filterdiff_const R_AbsRing X R_NormedModule (locally x) _ a). Qed.
  Lemma fd_ext (f g lf lg : X -> R) x : (forall t, f t = g t) -> (forall d, lf d = lg d) ->
    @filterdiff _ X R_NormedModule f (locally x) lf -> @filterdiff _ X R_NormedModule g (locally x) lg.
  Proof. intros A B H. eapply filterdiff_ext_lin; [eapply filterdiff_ext; [exact A|exact H]|exact B]. Qed.
End Rules.

(** The step, its error estimate and the saved value, as functions of [p], a step size and [y]. *)
Definition heun (p h w : R) : R := w * (1 - h + h * h / 2) + p * (h - h * h / 2).
Definition d_heun (p h w dp dh dw : R) : R :=
  dw * (1 - h + h * h / 2) + w * ((h - 1) * dh) + dp * (h - h * h / 2) + p * ((1 - h) * dh).

Definition R4 : NormedModule R_AbsRing :=
  prod_NormedModule R_AbsRing R_NormedModule (prod_NormedModule R_AbsRing R_NormedModule (prod_NormedModule R_AbsRing R_NormedModule R_NormedModule)).

Lemma heun_derivative (h dh : R4 -> R) (x : R4) : @filterdiff _ R4 R_NormedModule h (locally x) dh ->
  @filterdiff _ R4 R_NormedModule (fun q => heun (fst q) (h q) (snd (snd (snd q)))) (locally x)
    (fun d => d_heun (fst x) (h x) (snd (snd (snd x))) (fst d) (dh d) (snd (snd (snd d)))).
Proof.
  intros Hh.
  assert (Hp : @filterdiff _ R4 R_NormedModule (fun q : R4 => fst q) (locally x) (fun d : R4 => fst d)) by (apply filterdiff_linear, is_linear_fst).
  assert (Hw : @filterdiff _ R4 R_NormedModule (fun q : R4 => snd (snd (snd q))) (locally x) (fun d : R4 => snd (snd (snd d)))).
  { assert (L : @is_linear _ R4 R_NormedModule (fun q : R4 => snd (snd (snd q)))).
    { refine (@is_linear_comp R_AbsRing R4 (prod_NormedModule R_AbsRing R_NormedModule (prod_NormedModule R_AbsRing R_NormedModule R_NormedModule))
               R_NormedModule snd (fun q => snd (snd q)) _ _); [apply is_linear_snd|].
      refine (@is_linear_comp R_AbsRing _ (prod_NormedModule R_AbsRing R_NormedModule R_NormedModule) R_NormedModule snd snd _ _); apply is_linear_snd. }
    apply filterdiff_linear. exact L. }
  assert (Hq := fd_plus _ _ _ _ x (fd_plus _ _ _ _ x (fd_const 1 x) (fd_mult _ _ _ _ x (fd_const (-1) x) Hh))
                  (fd_mult _ _ _ _ x (fd_const (1 / 2) x) (fd_mult _ _ _ _ x Hh Hh))).
  assert (Hr := fd_plus _ _ _ _ x (fd_const 1 x) (fd_mult _ _ _ _ x (fd_const (-1) x) Hq)).
  assert (H := fd_plus _ _ _ _ x (fd_mult _ _ _ _ x Hw Hq) (fd_mult _ _ _ _ x Hp Hr)).
  refine (fd_ext _ _ _ _ x _ _ H).
  - intros t. unfold heun. cbv beta. field.
  - intros d. unfold d_heun. cbv beta. field.
Qed.

Definition ex_sv : @solver R_NormedModule R_NormedModule R_NormedModule R_NormedModule :=
  @Solver R_NormedModule R_NormedModule R_NormedModule R_NormedModule
    (fun p a b w => heun p (b - a) w)
    (fun p a b w => (b - a) * (b - a) / 2 * (w - p))
    (fun t p a b w => heun p (t - a) w)
    (fun p a b w dp da db dw => d_heun p (b - a) w dp (db - da) dw)
    (fun p a b w dp da db dw => (b - a) * (db - da) * (w - p) + (b - a) * (b - a) / 2 * (dw - dp))
    (fun t p a b w dp da db dw => d_heun p (t - a) w dp (- da) dw).

Lemma R4_a (x : R4) : @filterdiff _ R4 R_NormedModule (fun q : R4 => fst (snd q)) (locally x) (fun d : R4 => fst (snd d)).
Proof.
  assert (L : @is_linear _ R4 R_NormedModule (fun q : R4 => fst (snd q))).
  { refine (@is_linear_comp R_AbsRing R4 (prod_NormedModule R_AbsRing R_NormedModule (prod_NormedModule R_AbsRing R_NormedModule R_NormedModule))
               R_NormedModule snd fst _ _); [apply is_linear_snd|apply is_linear_fst]. }
  apply filterdiff_linear. exact L.
Qed.
Lemma R4_b (x : R4) : @filterdiff _ R4 R_NormedModule (fun q : R4 => fst (snd (snd q))) (locally x) (fun d : R4 => fst (snd (snd d))).
Proof.
  assert (L : @is_linear _ R4 R_NormedModule (fun q : R4 => fst (snd (snd q)))).
  { refine (@is_linear_comp R_AbsRing R4 (prod_NormedModule R_AbsRing R_NormedModule (prod_NormedModule R_AbsRing R_NormedModule R_NormedModule))
               R_NormedModule snd (fun q => fst (snd q)) _ _); [apply is_linear_snd|].
    refine (@is_linear_comp R_AbsRing _ (prod_NormedModule R_AbsRing R_NormedModule R_NormedModule) R_NormedModule snd fst _ _);
      [apply is_linear_snd|apply is_linear_fst]. }
  apply filterdiff_linear. exact L.
Qed.

Lemma ex_step_rule (p a b w : R) : step_derivative (step ex_sv) p a b w (jvp_step ex_sv p a b w).
Proof.
  unfold step_derivative.
  assert (Hh := fd_plus _ _ _ _ ((p, (a, (b, w))) : R4) (R4_b _) (fd_mult _ _ _ _ _ (fd_const (-1) _) (R4_a _))).
  assert (H := heun_derivative _ _ _ Hh).
  refine (fd_ext _ _ _ _ _ _ _ H).
  - intros [q1 [q2 [q3 q4]]]. cbn. unfold heun. match goal with |- ?a = ?b => change (@eq R a b) end. field.
  - intros [q1 [q2 [q3 q4]]]. cbn. unfold d_heun. match goal with |- ?a = ?b => change (@eq R a b) end. field.
Qed.

Lemma ex_out_rule (t p a b w : R) : step_derivative (out ex_sv t) p a b w (jvp_out ex_sv t p a b w).
Proof.
  unfold step_derivative.
  assert (Hh := fd_plus _ _ _ _ ((p, (a, (b, w))) : R4) (fd_const t _) (fd_mult _ _ _ _ _ (fd_const (-1) _) (R4_a _))).
  assert (H := heun_derivative _ _ _ Hh).
  refine (fd_ext _ _ _ _ _ _ _ H).
  - intros [q1 [q2 [q3 q4]]]. cbn. unfold heun. match goal with |- ?a = ?b => change (@eq R a b) end. field.
  - intros [q1 [q2 [q3 q4]]]. cbn. unfold d_heun. match goal with |- ?a = ?b => change (@eq R a b) end. field.
Qed.

(** [PIDController(rtol=0, atol=1/18)] with the default coefficients; the error of Heun's method has order two. *)
Definition ex_pid : @pid R_NormedModule R_NormedModule :=
  @PID R_NormedModule R_NormedModule (fun _ _ e => Rabs e * 18) (fun _ _ e _ _ de => sign e * de * 18)
    Rinv (fun x => - / (x * x)) Rpower (fun x c => c * Rpower x (c - 1)) (fun x => eqb x 0)
    0 1 0 None None (1 / 5) 10 (9 / 10) 2.

(** From 0 to 3/4, the first step being 1/4. *)
Definition ex_solve (p w : dual R) (t0 t1 : dual R) : @lstate R_NormedModule R_NormedModule :=
  @solve R_NormedModule R_NormedModule R_NormedModule R_NormedModule 10 ex_sv (CPid ex_pid) 0 [1 / 8; 3 / 4] (3 / 4 - 1 / 1000)
    p w t0 t1 (const (1 / 4)).

Definition q2 (h : R) : R := 1 - h + h * h / 2.
(** The second step size, as a function of the initial value. *)
Definition h2 (w : R) : R := 3 / 10 / sqrt w.

Lemma Rpower_0' x : Rpower x 0 = 1.
Proof. unfold Rpower. rewrite Rmult_0_l. apply exp_0. Qed.

Lemma ltb_true x y : x < y -> ltb x y = true.
Proof. unfold ltb. destruct (Rlt_dec x y); tauto. Qed.
Lemma ltb_false x y : ~ x < y -> ltb x y = false.
Proof. unfold ltb. destruct (Rlt_dec x y); tauto. Qed.

Lemma dmin_fst x y : fst (dmin x y) = Rmin (fst x) (fst y).
Proof.
  unfold dmin, Rmin. destruct (Rlt_dec (fst x) (fst y)), (Rle_dec (fst x) (fst y)); try lra; try reflexivity;
    destruct (Rlt_dec (fst y) (fst x)); cbn; lra.
Qed.
Lemma dmax_fst x y : fst (dmax x y) = Rmax (fst x) (fst y).
Proof.
  unfold dmax, Rmax. destruct (Rlt_dec (fst x) (fst y)), (Rle_dec (fst x) (fst y)); try lra; try reflexivity;
    destruct (Rlt_dec (fst y) (fst x)); cbn; lra.
Qed.

(** One iteration in which the step is kept and the times are known. *)
Lemma ex_body (p : dual R) (t1 : dual R) floor (s : @lstate R_NormedModule R_NormedModule) ps :
  cst s = SPid ps -> Rabs (error ex_sv (fst p) (fst (tprev s)) (fst (tnext s)) (fst (st s))) * 18 < 1 ->
  exists f ps', 1 <= fst f /\
    (fst f = Rmin (Rmax (9 / 10 * Rpower (/ (Rabs (error ex_sv (fst p) (fst (tprev s)) (fst (tnext s)) (fst (st s))) * 18)) (1 / 2)) 1) 10) /\
    snd f = 0 /\
    let s' := body ex_sv (CPid ex_pid) p t1 floor s in
    let tn := dadd (tnext s) (dmul (dsub (tnext s) (tprev s)) f) in
    tprev s' = dmin (tnext s) t1 /\ tnext s' = clip_to_end (dmin (tnext s) t1) tn t1 floor true /\
    st s' = dapp (step ex_sv) (jvp_step ex_sv) p (tprev s) (tnext s) (st s) /\ cst s' = SPid ps' /\
    trace s' = trace s ++ [(tprev s, tnext s, fst tn, true)].
Proof.
  intros Hc He. unfold body. rewrite Hc. cbn [adapt]. unfold pid_adapt. cbn [dtmin dtmax ex_pid at_dtmin].
  set (w1 := dapp (step ex_sv) _ _ _ _ _). set (er := dapp (error ex_sv) _ _ _ _ _).
  assert (Hk : ltb (fst (scaled_error ex_pid (fst (st s)) (fst w1) (fst er),
                  jvp_scaled ex_pid (fst (st s)) (fst w1) (fst er) (snd (st s)) (snd w1) (snd er))) 1 = true).
  { apply ltb_true. exact He. }
  rewrite Hk. set (f := pid_factor ex_pid true _ _ _).
  destruct (save _ _ _) as (new, pend).
  exists (stop f). eexists. cbn [stop fst snd].
  assert (Hf : fst f = Rmin (Rmax (9 / 10 * Rpower (/ (Rabs (error ex_sv (fst p) (fst (tprev s)) (fst (tnext s)) (fst (st s))) * 18)) (1 / 2)) 1) 10).
  { unfold f, pid_factor. cbn [icoeff pcoeff dcoeff error_order power safety factormin factormax ex_pid].
    replace ((1 + 0 + 0) / 2) with (1 / 2) by field. replace (- (0 + 2 * 0) / 2) with 0 by field. replace (0 / 2) with 0 by field.
    rewrite dmin_fst, dmax_fst. cbn [dmul dlift const stop fst snd inverse scaled_error ex_pid]. rewrite !Rpower_0', !Rmult_1_r. reflexivity. }
  split; [|split; [exact Hf|split; [reflexivity|]]].
  - rewrite Hf. apply Rmin_glb; [apply Rmax_r|lra].
  - repeat split.
Qed.

Lemma sqrt_bounds w : 9 / 10 < w < 11 / 10 -> 9 / 10 < sqrt w < 11 / 10.
Proof.
  intros (A & B). split.
  - rewrite <- (sqrt_square (9 / 10)) by lra. apply sqrt_lt_1; lra.
  - rewrite <- (sqrt_square (11 / 10)) by lra. apply sqrt_lt_1; lra.
Qed.

Lemma h2_bounds w : 9 / 10 < w < 11 / 10 -> 27 / 100 < h2 w < 34 / 100 /\ h2 w * h2 w = 9 / 100 / w.
Proof.
  intros Hw. assert (Hs := sqrt_bounds w Hw). assert (Hq := sqrt_sqrt w ltac:(lra)). unfold h2. split; [split|].
  - apply Rmult_lt_reg_r with (sqrt w); [lra|]. unfold Rdiv at 2. rewrite Rmult_assoc, Rinv_l by lra. lra.
  - apply Rmult_lt_reg_r with (sqrt w); [lra|]. unfold Rdiv at 1. rewrite Rmult_assoc, Rinv_l by lra. lra.
  - rewrite <- Hq at 3. field. lra.
Qed.

Lemma ex_factor1 w : 9 / 10 < w < 11 / 10 ->
  Rmin (Rmax (9 / 10 * Rpower (/ (Rabs ((1 / 4 - 0) * (1 / 4 - 0) / 2 * (w - 0)) * 18)) (1 / 2)) 1) 10 = 6 / 5 / sqrt w.
Proof.
  intros Hw. assert (Hs := sqrt_bounds w Hw). rewrite Rabs_pos_eq by lra.
  replace (1 / 2) with (/ 2) by lra. rewrite Rpower_sqrt by (apply Rinv_0_lt_compat; lra).
  replace (/ ((1 / 4 - 0) * (1 / 4 - 0) / 2 * (w - 0) * 18)) with ((4 / 3) * (4 / 3) / w) by (field; lra).
  rewrite sqrt_div_alt by lra. rewrite sqrt_square by lra.
  assert (H1 : 1 <= 6 / 5 / sqrt w).
  { apply Rmult_le_reg_r with (sqrt w); [lra|]. unfold Rdiv at 1. rewrite Rmult_assoc, Rinv_l by lra. lra. }
  assert (H2 : 6 / 5 / sqrt w <= 10).
  { apply Rmult_le_reg_r with (sqrt w); [lra|]. unfold Rdiv at 1. rewrite Rmult_assoc, Rinv_l by lra. lra. }
  replace (9 / 10 * (4 / 3 / sqrt w)) with (6 / 5 / sqrt w) by (field; lra).
  rewrite Rmax_left by exact H1. rewrite Rmin_left by exact H2. reflexivity.
Qed.

(** The whole solve, for initial values near one. *)
Lemma ex_run (dp w dw : R) : 9 / 10 < w < 11 / 10 ->
  let s := ex_solve (0, dp) (w, dw) (const 0) (const (3 / 4)) in
  exists q3 q4, 3 / 4 < q3 /\
  map (fun x => (fst (fst (fst (fst x))), fst (snd (fst (fst x))), snd (fst x), snd x)) (trace s) =
    [(0, 1 / 4, 1 / 4 + h2 w, true); (1 / 4, 1 / 4 + h2 w, q3, true); (1 / 4 + h2 w, 3 / 4, q4, true)] /\
  fst (st s) = w * q2 (1 / 4) * q2 (h2 w) * q2 (1 / 2 - h2 w) /\ fst (tprev s) = 3 / 4.
Proof.
  intros Hw. destruct (h2_bounds w Hw) as (Hh & Hh2). assert (Hs := sqrt_bounds w Hw).
  unfold ex_solve, solve. cbn [init dtmin dtmax ex_pid].
  set (floor := 3 / 4 - 1 / 1000). set (t1 := const (3 / 4)). set (p := (0, dp) : dual R).
  set (s0 := LState _ _ _ _ _ _ _).
  assert (E0 : tprev s0 = const 0 /\ tnext s0 = (1 / 4, 0) /\ st s0 = (w, dw) /\ cst s0 = SPid (PidState (const 1) (const 1) false) /\ trace s0 = []).
  { unfold s0. cbn [tprev tnext st cst trace]. repeat split. rewrite dmin_lt by (cbn; lra). unfold dadd, const. cbn [fst snd].
    f_equal; ring. }
  destruct E0 as (A0 & B0 & C0 & D0 & F0). clearbody s0.
  assert (Hstop : forall n s, fst (tprev s) = 3 / 4 -> run n ex_sv (CPid ex_pid) p t1 floor s = s).
  { intros [|n] s H; [reflexivity|]. cbn [run]. rewrite H, ltb_false; [reflexivity|]. cbn. lra. }
  (* first step *)
  change (run 10 ex_sv (CPid ex_pid) p t1 floor s0) with
    (if ltb (fst (tprev s0)) (fst t1) then run 9 ex_sv (CPid ex_pid) p t1 floor (body ex_sv (CPid ex_pid) p t1 floor s0) else s0).
  rewrite ltb_true by (rewrite A0; cbn; lra).
  destruct (ex_body p t1 floor s0 _ D0) as (f1 & ps1 & G1 & V1 & Z1 & A1 & B1 & C1 & D1 & F1).
  { rewrite A0, B0, C0. cbn [error ex_sv fst snd p const]. rewrite Rabs_pos_eq by lra. lra. }
  rewrite A0, B0, C0 in V1. cbn [error ex_sv fst snd p const] in V1. rewrite (ex_factor1 w Hw) in V1.
  set (s1 := body ex_sv (CPid ex_pid) p t1 floor s0) in *.
  assert (Em : dmin (tnext s0) t1 = tnext s0) by (apply dmin_lt; rewrite B0; cbn; lra).
  unfold clip_to_end in B1.
  set (tn1 := dadd (tnext s0) (dmul (dsub (tnext s0) (tprev s0)) f1)) in *.
  assert (Hf1 : fst tn1 = 1 / 4 + h2 w) by (unfold tn1; rewrite A0, B0; cbn; rewrite V1; unfold h2; field; lra).
  rewrite Em in A1. rewrite Hf1, ltb_false in B1 by (unfold floor; lra). rewrite Hf1 in F1. clearbody s1 tn1.
  rewrite B0 in A1. rewrite A0, B0, C0 in C1. rewrite A0, B0, F0 in F1.
  (* second step *)
  change (run 9 ex_sv (CPid ex_pid) p t1 floor s1) with
    (if ltb (fst (tprev s1)) (fst t1) then run 8 ex_sv (CPid ex_pid) p t1 floor (body ex_sv (CPid ex_pid) p t1 floor s1) else s1).
  rewrite ltb_true by (rewrite A1; cbn; lra).
  assert (W1 : fst (st s1) = w * q2 (1 / 4)) by (rewrite C1; cbn; unfold heun, q2; change (@eq R (w * (1 - (1 / 4 - 0) + (1 / 4 - 0) * (1 / 4 - 0) / 2) + 0 * (1 / 4 - 0 - (1 / 4 - 0) * (1 / 4 - 0) / 2)) (w * (1 - 1 / 4 + 1 / 4 * (1 / 4) / 2))); field).
  assert (T1 : fst (tnext s1) = 1 / 4 + h2 w) by (rewrite B1; exact Hf1).
  destruct (ex_body p t1 floor s1 _ D1) as (f2 & ps2 & G2 & _ & _ & A2 & B2 & C2 & D2 & F2).
  { rewrite A1, T1, W1. cbn [error ex_sv fst snd p const].
    replace ((1 / 4 + h2 w - 1 / 4) * (1 / 4 + h2 w - 1 / 4)) with (h2 w * h2 w) by ring. rewrite Hh2.
    replace (9 / 100 / w / 2 * (w * q2 (1 / 4) - 0)) with (9 / 200 * (25 / 32)) by (unfold q2; field; lra). rewrite Rabs_pos_eq by lra. lra. }
  set (s2 := body ex_sv (CPid ex_pid) p t1 floor s1) in *.
  assert (Hq3 : 3 / 4 < fst (dadd (tnext s1) (dmul (dsub (tnext s1) (tprev s1)) f2))).
  { cbn. rewrite T1, A1. cbn. replace (1 / 4 + h2 w - 1 / 4) with (h2 w) by ring.
    assert (h2 w * 1 <= h2 w * fst f2) by (apply Rmult_le_compat_l; lra). lra. }
  assert (Em2 : dmin (tnext s1) t1 = tnext s1) by (apply dmin_lt; rewrite T1; cbn; lra). rewrite Em2 in A2.
  unfold clip_to_end in B2. rewrite ltb_true in B2 by (unfold floor; lra).
  assert (W2 : fst (st s2) = w * q2 (1 / 4) * q2 (h2 w)).
  { rewrite C2. unfold dapp. cbn [fst snd step ex_sv p]. rewrite W1, A1, T1. unfold heun. cbn [fst const].
    replace (1 / 4 + h2 w - 1 / 4) with (h2 w) by ring. fold (q2 (h2 w)). match goal with |- ?a = ?b => change (@eq R a b) end. ring. }
  assert (F2' := F2). clear C2. clearbody s2.
  (* third step *)
  change (run 8 ex_sv (CPid ex_pid) p t1 floor s2) with
    (if ltb (fst (tprev s2)) (fst t1) then run 7 ex_sv (CPid ex_pid) p t1 floor (body ex_sv (CPid ex_pid) p t1 floor s2) else s2).
  rewrite ltb_true by (rewrite A2, T1; cbn; lra).
  destruct (ex_body p t1 floor s2 _ D2) as (f3 & ps3 & G3 & _ & _ & A3 & B3 & C3 & D3 & F3).
  { rewrite A2, B2, T1, W2. cbn [error ex_sv fst snd p const t1].
    replace (3 / 4 - (1 / 4 + h2 w)) with (1 / 2 - h2 w) by field.
    assert (Hq : 0 < q2 (h2 w) < 1) by (unfold q2; nra).
    assert (Hx : 0 <= w * q2 (1 / 4) * q2 (h2 w) <= 1).
    { assert (0 <= w * q2 (1 / 4) <= 1) by (unfold q2; lra). nra. }
    assert (Hy : 0 <= (1 / 2 - h2 w) * (1 / 2 - h2 w) / 2 <= 27 / 1000) by nra.
    rewrite Rminus_0_r. rewrite Rabs_pos_eq by nra. nra. }
  set (s3 := body ex_sv (CPid ex_pid) p t1 floor s2) in *.
  assert (H3 : fst (tprev s3) = 3 / 4).
  { rewrite A3, B2, dmin_fst. exact (Rmin_left _ _ (Rle_refl _)). }
  rewrite (Hstop 7%nat s3 H3). eexists. eexists. split; [exact Hq3|]. split; [|split; [|exact H3]].
  - rewrite F3, F2', F1. cbn [map app fst snd]. rewrite A1, T1, A2, B2, T1. reflexivity.
  - rewrite C3. unfold dapp. cbn [fst snd step ex_sv p]. rewrite W2, A2, B2, T1. cbn [fst const t1]. unfold heun.
    replace (3 / 4 - (1 / 4 + h2 w)) with (1 / 2 - h2 w) by field. fold (q2 (1 / 2 - h2 w)). match goal with |- ?a = ?b => change (@eq R a b) end. ring.
Qed.
