(** The Langevin solvers give the exact solution for a constant force and a polynomial path. *)
From Coq Require Import Reals List Bool Lia Lra Psatz.
From Coquelicot Require Import Coquelicot.
From Verif Require Import Model_Langevin Spec_Langevin Proof_LangevinCoeffs.
Import ListNotations.
Open Scope R_scope.

Lemma derive_zero_const (f : R -> R) : (forall t, is_derive f t 0) -> forall a b, f a = f b.
Proof.
  intros H a b. destruct (Rtotal_order a b) as [L|[->|L]]; [|reflexivity|]; [|symmetry];
    apply (eq_is_derive (V := R_NormedModule) f); auto.
Qed.

Lemma linear_zero (c : R) (f : R -> R) : (forall t, is_derive f t (- c * f t)) -> f 0 = 0 -> forall t, f t = 0.
Proof.
  intros H H0 t.
  assert (E : forall s, is_derive (fun s => f s * exp (c * s)) s 0).
  { intros s. evar_last.
    - apply (is_derive_mult f (fun s => exp (c * s)) s (- c * f s) (c * exp (c * s))); [apply H| |intros; apply Rmult_comm].
      auto_derive; [trivial|ring].
    - unfold plus, mult; cbn. ring. }
  pose proof (derive_zero_const _ E t 0) as Ht. cbv beta in Ht. rewrite H0, Rmult_0_l in Ht.
  apply Rmult_integral in Ht. destruct Ht as [Ht|Ht]; [exact Ht|]. pose proof (exp_pos (c * t)). lra.
Qed.

Lemma langevin_unique (c u rho : R) (g p x v x' v' : R -> R) :
  langevin_equation c u rho g p x v -> langevin_equation c u rho g p x' v' -> x 0 = x' 0 -> v 0 = v' 0 ->
  forall s, x s = x' s /\ v s = v' s.
Proof.
  intros H H' Ex Ev.
  assert (Hv : forall s, v s = v' s).
  { intros s. cut (v s - v' s = 0); [lra|]. revert s. apply (linear_zero c (fun s => v s - v' s)); [|lra].
    intros s. evar_last; [apply (is_derive_minus v v' s); [apply H|apply H']|]. unfold minus, plus, opp; cbn. ring. }
  intros s. split; [|apply Hv].
  pose proof (derive_zero_const (fun s => x s - x' s)) as Hc. cut (x s - x' s = x 0 - x' 0); [lra|]. apply Hc.
  intros t. evar_last; [apply (is_derive_minus x x' t); [apply H|apply H']|]. rewrite Hv. unfold minus, plus, opp; cbn. ring.
Qed.

Section Closed.
  Context (c u rho g p1 p2 p3 x0 v0 : R) (Hc : c <> 0).
  Let Cc := 3 * rho * p3 / c.
  Let Bc := (2 * rho * p2 - 2 * Cc) / c.
  Let Ac := (rho * p1 - u * g - Bc) / c.
  Definition Vsol (s : R) : R := exp (- (c * s)) * (v0 - Ac) + Ac + Bc * s + Cc * s ^ 2.
  Definition Xsol (s : R) : R := x0 + (1 - exp (- (c * s))) / c * (v0 - Ac) + Ac * s + Bc * s ^ 2 / 2 + Cc * s ^ 3 / 3.
  Lemma closed_solves : langevin_equation c u rho (fun _ => g) (fun s => p1 + 2 * p2 * s + 3 * p3 * s ^ 2) Xsol Vsol.
  Proof.
    intros s. split.
    - unfold Xsol, Vsol. auto_derive; [trivial|]. field. exact Hc.
    - unfold Vsol. auto_derive; [trivial|].
      assert (E1 : c * Cc = 3 * rho * p3) by (unfold Cc; field; exact Hc).
      assert (E2 : c * Bc = 2 * rho * p2 - 2 * Cc) by (unfold Bc; field; exact Hc).
      assert (E3 : c * Ac = rho * p1 - u * g - Bc) by (unfold Ac; field; exact Hc).
      clearbody Ac Bc Cc. set (e := exp _). clearbody e.
      replace (rho * (p1 + 2 * p2 * s + 3 * p3 * s ^ 2)) with (c * Ac + u * g + Bc + (c * Bc + 2 * Cc) * s + c * Cc * s ^ 2).
      2:{ rewrite E1, E2, E3. ring. }
      ring.
  Qed.
  Lemma closed_unique x v :
    langevin_equation c u rho (fun _ => g) (fun s => p1 + 2 * p2 * s + 3 * p3 * s ^ 2) x v -> x 0 = x0 -> v 0 = v0 ->
    forall s, x s = Xsol s /\ v s = Vsol s.
  Proof.
    intros H Ex Ev. apply (langevin_unique _ _ _ _ _ _ _ _ _ H closed_solves).
    - rewrite Ex. unfold Xsol. rewrite Rmult_0_r, Ropp_0, exp_0. field. exact Hc.
    - rewrite Ev. unfold Vsol. rewrite Rmult_0_r, Ropp_0, exp_0. ring.
  Qed.
End Closed.

(** The Levy areas of a cubic path *)
Lemma cubic_W p0 p1 p2 p3 h : path_W (cubic p0 p1 p2 p3) h = p1 * h + p2 * h ^ 2 + p3 * h ^ 3.
Proof. unfold path_W, cubic. ring. Qed.
Lemma RInt_antiderivative (f F : R -> R) (a b : R) : (forall s, is_derive F s (f s)) -> (forall s, continuous f s) ->
  @eq R (RInt f a b) (F b - F a).
Proof.
  intros H Hc. apply is_RInt_unique. change (F b - F a) with (minus (F b) (F a)).
  apply (is_RInt_derive F f a b); intros; [apply H|apply Hc].
Qed.
Lemma cubic_H p0 p1 p2 p3 h : h <> 0 -> path_H (cubic p0 p1 p2 p3) h = - p2 * h ^ 2 / 6 - p3 * h ^ 3 / 4.
Proof.
  intros Hh. unfold path_H. rewrite cubic_W. set (W := p1 * h + p2 * h ^ 2 + p3 * h ^ 3).
  rewrite (RInt_antiderivative _ (fun s => p1 * s ^ 2 / 2 + p2 * s ^ 3 / 3 + p3 * s ^ 4 / 4 - s ^ 2 / (2 * h) * W)).
  - unfold W. field. exact Hh.
  - intros s. unfold cubic. auto_derive; [trivial|]. field. exact Hh.
  - intros s. apply (ex_derive_continuous (V := R_NormedModule)). unfold cubic. auto_derive. trivial.
Qed.
Lemma cubic_K p0 p1 p2 p3 h : h <> 0 -> path_K (cubic p0 p1 p2 p3) h = p3 * h ^ 3 / 120.
Proof.
  intros Hh. unfold path_K. rewrite cubic_W. set (W := p1 * h + p2 * h ^ 2 + p3 * h ^ 3).
  rewrite (RInt_antiderivative _ (fun s => h / 2 * (p1 * s ^ 2 / 2 + p2 * s ^ 3 / 3 + p3 * s ^ 4 / 4 - s ^ 2 / (2 * h) * W)
     - (p1 * s ^ 3 / 3 + p2 * s ^ 4 / 4 + p3 * s ^ 5 / 5 - s ^ 3 / (3 * h) * W))).
  - unfold W. field. exact Hh.
  - intros s. unfold cubic. auto_derive; [trivial|]. field. exact Hh.
  - intros s. apply (ex_derive_continuous (V := R_NormedModule)). unfold cubic. auto_derive. trivial.
Qed.

(** ALIGN, for any force: the position is that of a particle under the force at the start of the step, and the error estimate
    is the difference of the velocity to that of this particle. *)
Lemma pf_C53_align_exact (D : Type) (h : R) (x0 v0 gamma u rho f0 p0 p1 p2 : D -> R) (f : (D -> R) -> D -> R) (d : D)
    (X V : R -> R) :
  h <> 0 -> gamma d <> 0 ->
  langevin_equation (gamma d) (u d) (rho d) (fun _ => f0 d) (fun s => p1 d + 2 * p2 d * s) X V ->
  X 0 = x0 d -> V 0 = v0 d ->
  let lv := path_levy (fun d => cubic (p0 d) (p1 d) (p2 d) 0) h in
  exists (x1 v1 ex ev f1 : D -> R),
    align_compute_step h lv x0 v0 gamma u f (fun d => align_direct h (gamma d)) rho (Some f0)
      = (x1, v1, Some f1, Some (ex, ev)) /\
    x1 d = X h /\ ex d = 0 /\ v1 d = V h + ev d /\ f1 = f x1 /\ (f x1 d = f0 d -> ev d = 0).
Proof.
  intros Hh Hc HL HX HV lv. unfold align_compute_step. do 5 eexists. split; [reflexivity|].
  assert (HL' : langevin_equation (gamma d) (u d) (rho d) (fun _ => f0 d) (fun s => p1 d + 2 * p2 d * s + 3 * 0 * s ^ 2) X V).
  { intros s. destruct (HL s) as [Ha Hb]. split; [exact Ha|]. evar_last; [exact Hb|]. ring. }
  destruct (closed_unique _ _ _ _ _ _ _ _ _ Hc X V HL' HX HV h) as [EX EV].
  unfold lv, path_levy. cbn [lv_w lv_h]. cbv beta.
  rewrite !(cubic_H _ _ _ _ _ Hh), !cubic_W.
  set (F1 := f _).
  split; [|split; [reflexivity|split; [|split; [reflexivity|]]]].
  - rewrite EX. unfold Xsol, align_direct. cbn [al_a1 al_b1 al_chh]. set (e := exp _). clearbody e. field. auto.
  - rewrite EV. unfold Vsol, align_direct. cbn [al_a1 al_b1 al_chh al_beta al_aa]. set (e := exp _). clearbody e. clearbody F1. field. auto.
  - intros E. rewrite E. ring.
Qed.

(** ShOULD, constant force and cubic path: the position is exact, and so is the velocity up to the quadrature of the force by
    Simpson's rule. *)
Lemma simpson_exp (al : R) : Rabs al <= 1 ->
  Rabs (al * (exp (- al) / 6 + 2 / 3 * exp (- al / 2) + 1 / 6) - (1 - exp (- al))) <= Rabs al ^ 5 / 100.
Proof.
  intros Hal.
  assert (H1 : Rabs (- al) <= 1) by (rewrite Rabs_Ropp; exact Hal).
  assert (H2 : Rabs (- al / 2) <= 1).
  { replace (- al / 2) with (- (al * / 2)) by field. rewrite Rabs_Ropp, Rabs_mult, (Rabs_pos_eq (/ 2)) by lra. lra. }
  pose proof (exp_rem6 _ H1) as R1. pose proof (exp_rem6 _ H2) as R2.
  assert (E2 : Rabs (- al / 2) = Rabs al / 2).
  { replace (- al / 2) with (- (al * / 2)) by field. rewrite Rabs_Ropp, Rabs_mult, (Rabs_pos_eq (/ 2)) by lra. reflexivity. }
  rewrite Rabs_Ropp in R1. rewrite E2 in R2. clear E2 H1 H2.
  set (r1 := exp (- al) - _) in R1. set (r2 := exp (- al / 2) - _) in R2.
  assert (E : al * (exp (- al) / 6 + 2 / 3 * exp (- al / 2) + 1 / 6) - (1 - exp (- al)) =
    al ^ 5 / 2880 + - (al ^ 6 / 640) + ((al / 6 + 1) * r1 + 2 * al / 3 * r2)) by (unfold r1, r2; field).
  rewrite E. clear E. clearbody r1 r2.
  set (z := Rabs al) in *. assert (Hz : 0 <= z) by apply Rabs_pos.
  assert (P5 : 0 <= z ^ 5) by (apply pow_le; exact Hz).
  assert (P6 : z ^ 6 <= z ^ 5) by (change (z ^ 6) with (z * z ^ 5); nra).
  assert (P60 : 0 <= z ^ 6) by (apply pow_le; exact Hz).
  assert (B1 : Rabs (al ^ 5 / 2880) <= z ^ 5 / 2880).
  { unfold Rdiv. rewrite Rabs_mult, <- RPow_abs, (Rabs_pos_eq (/ 2880)) by lra. fold z. lra. }
  assert (B2 : Rabs (- (al ^ 6 / 640)) <= z ^ 5 / 640).
  { unfold Rdiv. rewrite Rabs_Ropp, Rabs_mult, <- RPow_abs, (Rabs_pos_eq (/ 640)) by lra. fold z. lra. }
  assert (B3 : Rabs ((al / 6 + 1) * r1) <= 7 / 6 * (z ^ 5 / 240)).
  { rewrite Rabs_mult. apply Rmult_le_compat; try apply Rabs_pos; [|lra].
    eapply Rle_trans; [apply Rabs_triang|]. unfold Rdiv at 1. rewrite Rabs_mult, (Rabs_pos_eq (/ 6)), Rabs_R1 by lra. fold z. lra. }
  assert (B4 : Rabs (2 * al / 3 * r2) <= 2 / 3 * (z ^ 5 / 240)).
  { rewrite Rabs_mult. apply Rmult_le_compat; try apply Rabs_pos.
    - replace (2 * al / 3) with (al * (2 / 3)) by field. rewrite Rabs_mult, (Rabs_pos_eq (2 / 3)) by lra. fold z. lra.
    - eapply Rle_trans; [exact R2|]. replace ((z / 2) ^ 6) with (z ^ 6 / 64) by field. lra. }
  pose proof (Rabs_triang (al ^ 5 / 2880 + - (al ^ 6 / 640)) ((al / 6 + 1) * r1 + 2 * al / 3 * r2)).
  pose proof (Rabs_triang (al ^ 5 / 2880) (- (al ^ 6 / 640))).
  pose proof (Rabs_triang ((al / 6 + 1) * r1) (2 * al / 3 * r2)). lra.
Qed.
Lemma pf_C53_should_exact (D : Type) (h : R) (x0 v0 gamma u rho g p0 p1 p2 p3 : D -> R) (d : D) (X V : R -> R) :
  h <> 0 -> gamma d <> 0 ->
  langevin_equation (gamma d) (u d) (rho d) (fun _ => g d) (fun s => p1 d + 2 * p2 d * s + 3 * p3 d * s ^ 2) X V ->
  X 0 = x0 d -> V 0 = v0 d ->
  let lv := path_levy (fun d => cubic (p0 d) (p1 d) (p2 d) (p3 d)) h in
  exists (x1 v1 : D -> R),
    should_compute_step h lv x0 v0 gamma u (fun _ => g) (fun d => should_direct h (gamma d)) rho (Some g)
      = (x1, v1, Some g, None) /\
    x1 d = X h /\ (g d = 0 -> v1 d = V h) /\
    (Rabs (gamma d * h) <= 1 -> Rabs (v1 d - V h) <= Rabs (u d * g d) * Rabs h * Rabs (gamma d * h) ^ 4 / 100).
Proof.
  intros Hh Hc HL HX HV lv. unfold should_compute_step. do 2 eexists. split; [reflexivity|].
  destruct (closed_unique _ _ _ _ _ _ _ _ _ Hc X V HL HX HV h) as [EX EV].
  unfold lv, path_levy. cbn [lv_w lv_h lv_k]. cbv beta.
  rewrite !(cubic_H _ _ _ _ _ Hh), !(cubic_K _ _ _ _ _ Hh), !cubic_W.
  assert (Hd : forall v1, v1 = sh_beta1 (should_direct h (gamma d)) * v0 d -
    u d * h * (sh_beta1 (should_direct h (gamma d)) / 6 * g d + 2 / 3 * sh_beta_half (should_direct h (gamma d)) * g d + 1 / 6 * g d) +
    rho d * (sh_aa (should_direct h (gamma d)) * (p1 d * h + p2 d * h ^ 2 + p3 d * h ^ 3) -
     gamma d * (sh_chh (should_direct h (gamma d)) * (- p2 d * h ^ 2 / 6 - p3 d * h ^ 3 / 4) +
      sh_ckk (should_direct h (gamma d)) * (p3 d * h ^ 3 / 120))) ->
    v1 - V h = - (u d * g d) / gamma d * ((gamma d * h) * (exp (- (gamma d * h)) / 6 + 2 / 3 * exp (- (gamma d * h) / 2) + 1 / 6) - (1 - exp (- (gamma d * h))))).
  { intros v1 ->. rewrite EV. unfold Vsol, should_direct. cbn [sh_beta_half sh_beta1 sh_aa sh_chh sh_ckk].
    set (e2 := exp (- (gamma d * h) / 2)). clearbody e2. set (e := exp _). clearbody e. field. auto. }
  specialize (Hd _ eq_refl).
  split; [|split].
  - rewrite EX. unfold Xsol, should_direct. cbn [sh_a1 sh_b1 sh_chh sh_ckk]. set (e := exp _). clearbody e. field. auto.
  - intros Hg. match goal with |- ?v = _ => cut (v - V h = 0); [lra|] end. rewrite Hd, Hg. field. exact Hc.
  - intros Hal. rewrite Hd. pose proof (simpson_exp _ Hal) as Hs.
    set (al := gamma d * h) in *. rewrite Rabs_mult.
    replace (Rabs (- (u d * g d) / gamma d)) with (Rabs (u d * g d) * / Rabs (gamma d)).
    2:{ unfold Rdiv. rewrite (Rabs_mult (- _)), Rabs_Ropp, Rabs_inv. reflexivity. }
    assert (Ha : Rabs al = Rabs (gamma d) * Rabs h) by apply Rabs_mult.
    assert (Hg : 0 < Rabs (gamma d)) by (apply Rabs_pos_lt; exact Hc).
    replace (Rabs (u d * g d) * Rabs h * Rabs al ^ 4 / 100) with (Rabs (u d * g d) * / Rabs (gamma d) * (Rabs al ^ 5 / 100)).
    2:{ change (Rabs al ^ 5) with (Rabs al * Rabs al ^ 4). rewrite Ha at 1. field. lra. }
    apply Rmult_le_compat_l; [|exact Hs]. apply Rmult_le_pos; [apply Rabs_pos|]. left. apply Rinv_0_lt_compat. exact Hg.
Qed.

(** QUICSORT, no force: the solution of the shifted equation, driven by a straight path. *)
Lemma pf_C53_quicsort_exact (D : Type) (h : R) (x0 v0 gamma u rho : D -> R) (lv : levy D) (prev_f : option (D -> R)) (d : D)
    (X V : R -> R) :
  h <> 0 -> gamma d <> 0 ->
  langevin_equation (gamma d) (u d) (rho d) (fun _ => 0) (fun _ => (lv_w lv d - 12 * lv_k lv d) / h) X V ->
  X 0 = x0 d -> V 0 = v0 d + rho d * (lv_h lv d + 6 * lv_k lv d) ->
  exists (x1 v1 : D -> R),
    quicsort_compute_step h lv x0 v0 gamma u (fun _ _ => 0) (fun d => quicsort_direct h (gamma d)) rho prev_f
      = (x1, v1, None, None) /\
    x1 d = X h /\ v1 d = V h - rho d * (lv_h lv d - 6 * lv_k lv d).
Proof.
  intros Hh Hc HL HX HV. unfold quicsort_compute_step. do 2 eexists. split; [reflexivity|].
  assert (HL' : langevin_equation (gamma d) (u d) (rho d) (fun _ => 0)
    (fun s => (lv_w lv d - 12 * lv_k lv d) / h + 2 * 0 * s + 3 * 0 * s ^ 2) X V).
  { intros s. destruct (HL s) as [Ha Hb]. split; [exact Ha|]. evar_last; [exact Hb|]. ring. }
  destruct (closed_unique _ _ _ _ _ _ _ _ _ Hc X V HL' HX HV h) as [EX EV].
  rewrite EX, EV. unfold Xsol, Vsol, quicsort_direct, l_r_1, lr1_map.
  cbn [qs_beta_lr1 qs_a_lr1 qs_b_lr1 qs_a_third qs_a_div_h at_l at_r at_1].
  rewrite !Rmult_1_r. set (e := exp (- (gamma d * h))). clearbody e.
  set (W := lv_w lv d). set (H := lv_h lv d). set (K := lv_k lv d). clearbody W H K.
  split; field; auto.
Qed.
