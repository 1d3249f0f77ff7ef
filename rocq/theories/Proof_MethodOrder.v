(** Convergence of the solvers other than Runge--Kutta methods on ordinary differential equations. *)
From Coq Require Import Reals List Bool Arith Lia Lra Psatz FunctionalExtensionality.
From Verif Require Import Model_Result Model_Loop Model_RK Model_Terms Model_Solvers Spec_RK Spec_Solvers Spec_Order Spec_Lipschitz Spec_MethodOrder.
Import ListNotations.
Open Scope R_scope.

Lemma sq_abs M d : M * Rabs d * Rabs d = M * d^2.
Proof. rewrite Rmult_assoc, <- Rabs_mult, Rabs_pos_eq; [ring|]. apply Rle_0_sqr. Qed.

Lemma scaled_id c r : derivable_pt_lim (fun r => r * c) r c.
Proof.
  replace (derivable_pt_lim (fun r => r * c) r c) with (derivable_pt_lim (fun r => r * c) r (1 * c + r * 0)) by (f_equal; ring).
  apply (derivable_pt_lim_mult (fun r => r) (fun _ => c)); [apply derivable_pt_lim_id|apply derivable_pt_lim_const].
Qed.

(** Expansions of smooth functions. *)
Section Taylor.
  Variables (a b M2 M3 : R) (p p1 p2 : R -> R).
  Hypothesis D1 : forall t, a <= t <= b -> derivable_pt_lim p t (p1 t).
  Hypothesis D2 : forall t, a <= t <= b -> derivable_pt_lim p1 t (p2 t).
  Lemma mean (g g1 : R -> R) s t B : a <= s <= b -> a <= t <= b -> (forall r, a <= r <= b -> derivable_pt_lim g r (g1 r)) ->
    (forall r, Rmin s t <= r <= Rmax s t -> Rabs (g1 r) <= B) -> Rabs (g s - g t) <= B * Rabs (s - t).
  Proof.
    intros Hs Ht HD HB. destruct (Rtotal_order s t) as [H|[<-|H]].
    - destruct (MVT_cor2 g g1 s t H) as (c & E & Hc); [intros r Hr; apply HD; lra|].
      rewrite Rabs_minus_sym, E, Rabs_mult, (Rabs_minus_sym s t). apply Rmult_le_compat_r; [apply Rabs_pos|]. apply HB. rewrite Rmin_left, Rmax_right by lra. lra.
    - rewrite !Rminus_diag_eq, Rabs_R0 by reflexivity. lra.
    - destruct (MVT_cor2 g g1 t s H) as (c & E & Hc); [intros r Hr; apply HD; lra|].
      rewrite E, Rabs_mult. apply Rmult_le_compat_r; [apply Rabs_pos|]. apply HB. rewrite Rmin_right, Rmax_left by lra. lra.
  Qed.
  Lemma near s t r : Rmin s t <= r <= Rmax s t -> Rabs (r - t) <= Rabs (s - t).
  Proof. intros H. unfold Rmin, Rmax in H. destruct (Rle_dec s t); unfold Rabs; repeat destruct (Rcase_abs _); lra. Qed.
  Lemma taylor1 s t : (forall r, a <= r <= b -> Rabs (p2 r) <= M2) -> a <= s <= b -> a <= t <= b ->
    Rabs (p s - p t - (s - t) * p1 t) <= M2 * (s - t)^2.
  Proof.
    intros HM Hs Ht.
    assert (M0 : 0 <= M2) by (eapply Rle_trans; [apply Rabs_pos|apply (HM s Hs)]).
    replace (p s - p t - (s - t) * p1 t) with ((p s - s * p1 t) - (p t - t * p1 t)) by ring.
    rewrite <- sq_abs.
    apply (mean (fun r => p r - r * p1 t) (fun r => p1 r - p1 t)); try assumption.
    - intros r Hr. apply derivable_pt_lim_minus; [apply D1, Hr|].
      apply scaled_id.
    - intros r Hr. eapply Rle_trans.
      + apply (mean p1 p2 r t M2); try assumption.
        * unfold Rmin, Rmax in Hr. destruct (Rle_dec s t); lra.
        * intros q Hq. apply HM. unfold Rmin, Rmax in *. destruct (Rle_dec s t), (Rle_dec r t); lra.
      + apply Rmult_le_compat_l; [exact M0|]. apply near, Hr.
  Qed.
  Hypothesis L3 : forall s t, a <= s <= b -> a <= t <= b -> Rabs (p2 s - p2 t) <= M3 * Rabs (s - t).
  Hypothesis M3_pos : 0 <= M3.
  Lemma taylor2' s t : a <= s <= b -> a <= t <= b -> Rabs (p1 s - p1 t - (s - t) * p2 t) <= M3 * (s - t)^2.
  Proof.
    intros Hs Ht.
    replace (p1 s - p1 t - (s - t) * p2 t) with ((p1 s - s * p2 t) - (p1 t - t * p2 t)) by ring.
    rewrite <- sq_abs.
    apply (mean (fun r => p1 r - r * p2 t) (fun r => p2 r - p2 t)); try assumption.
    - intros r Hr. apply derivable_pt_lim_minus; [apply D2, Hr|].
      apply scaled_id.
    - intros r Hr. eapply Rle_trans; [apply L3; [|exact Ht]|apply Rmult_le_compat_l; [exact M3_pos|apply near, Hr]].
      unfold Rmin, Rmax in Hr. destruct (Rle_dec s t); lra.
  Qed.
  Lemma taylor2 s t : a <= s <= b -> a <= t <= b ->
    Rabs (p s - p t - (s - t) * p1 t - (s - t)^2 / 2 * p2 t) <= M3 * (s - t)^2 * Rabs (s - t).
  Proof.
    intros Hs Ht.
    replace (p s - p t - (s - t) * p1 t - (s - t)^2 / 2 * p2 t)
      with ((p s - (s * p1 t + (s - t)^2 / 2 * p2 t)) - (p t - (t * p1 t + (t - t)^2 / 2 * p2 t))) by field.
    apply (mean (fun r => p r - (r * p1 t + (r - t)^2 / 2 * p2 t)) (fun r => p1 r - p1 t - (r - t) * p2 t)); try assumption.
    - intros r Hr. replace (p1 r - p1 t - (r - t) * p2 t) with (p1 r - (p1 t + (r - t) * p2 t)) by ring.
      apply derivable_pt_lim_minus; [apply D1, Hr|]. apply derivable_pt_lim_plus.
      + apply scaled_id.
      + replace (fun r => (r - t)^2 / 2 * p2 t) with (fun r => (r - t) * ((r - t) * (p2 t / 2))) by (apply functional_extensionality; intros q; field).
        assert (DI : forall r, derivable_pt_lim (fun r => r - t) r 1).
        { intros q. replace 1 with (1 - 0) by ring. apply (derivable_pt_lim_minus (fun r => r) (fun _ => t)); [apply derivable_pt_lim_id|apply derivable_pt_lim_const]. }
        replace ((r - t) * p2 t) with (1 * ((r - t) * (p2 t / 2)) + (r - t) * (1 * (p2 t / 2) + (r - t) * 0)) by field.
        apply (derivable_pt_lim_mult (fun r => r - t) (fun r => (r - t) * (p2 t / 2))); [apply DI|].
        apply (derivable_pt_lim_mult (fun r => r - t) (fun _ => p2 t / 2)); [apply DI|apply derivable_pt_lim_const].
    - intros r Hr. eapply Rle_trans; [apply taylor2'; [|exact Ht]|].
      + unfold Rmin, Rmax in Hr. destruct (Rle_dec s t); lra.
      + apply Rmult_le_compat_l; [exact M3_pos|]. pose proof (near s t r Hr) as N. rewrite <- (pow2_abs (r - t)), <- (pow2_abs (s - t)). apply pow_incr. split; [apply Rabs_pos|exact N].
  Qed.
End Taylor.

(** What accumulates over the steps of a grid. *)
Section Accumulate.
  Context {Y SS DI : Type}.
  Variables (m : method Y SS DI) (Inv : R -> Y -> SS -> R -> Prop) (h b q r : R).
  Hypothesis Mono : forall t y s B B', Inv t y s B -> B <= B' -> Inv t y s B'.
  Hypothesis HP : 0 <= h.
  Hypothesis QP : 0 <= q.
  Hypothesis RP : 0 <= r.
  Lemma pow_ge1 n : 1 <= (1 + q)^n.
  Proof. apply pow_R1_Rle. lra. Qed.
  Lemma growing n B : 0 <= B -> (1 + q)^n * ((1 + q) * B + r + INR n * r) <= (1 + q)^(S n) * (B + INR (S n) * r).
  Proof.
    intros HB. rewrite S_INR. cbn [pow]. pose proof (pow_ge1 n). pose proof (pos_INR n).
    replace ((1 + q) * (1 + q)^n * (B + (INR n + 1) * r)) with ((1 + q)^n * ((1 + q) * (B + (INR n + 1) * r))) by ring.
    apply Rmult_le_compat_l; [lra|]. assert (0 <= q * ((INR n + 1) * r)) by (repeat apply Rmult_le_pos; lra). lra.
  Qed.
  Lemma steps_accumulate : (forall t y s B, 0 <= B -> Inv t y s B -> t + h <= b ->
      Inv (t + h) (so_y (me_step m t (t + h) y s false)) (so_state (me_step m t (t + h) y s false)) ((1 + q) * B + r)) ->
    forall n t y s B, 0 <= B -> Inv t y s B -> t + INR n * h <= b ->
    Inv (t + INR n * h) (fst (steps m t (grid t h n) y s)) (snd (steps m t (grid t h n) y s)) ((1 + q)^n * (B + INR n * r)).
  Proof.
    intros ST. induction n as [|n IH]; intros t y s B HB HI Hb.
    - cbn. rewrite Rmult_0_l, Rplus_0_r. apply (Mono _ _ _ B); [exact HI|lra].
    - rewrite S_INR in Hb. pose proof (pos_INR n). assert (0 <= INR n * h) by (apply Rmult_le_pos; lra).
      assert (0 <= (1 + q) * B) by (apply Rmult_le_pos; lra).
      cbn [grid steps]. replace (t + INR (S n) * h) with (t + h + INR n * h) by (rewrite S_INR; ring).
      apply (Mono _ _ _ ((1 + q)^n * ((1 + q) * B + r + INR n * r))); [|apply growing, HB].
      apply IH; [lra|apply ST; [exact HB|exact HI|lra]|lra].
  Qed.
  Lemma good_accumulate : (forall t y s B, 0 <= B -> Inv t y s B -> t + h <= b -> is_okay (so_result (me_step m t (t + h) y s false)) = true ->
      Inv (t + h) (so_y (me_step m t (t + h) y s false)) (so_state (me_step m t (t + h) y s false)) ((1 + q) * B + r)) ->
    forall n t y s B y' s', 0 <= B -> Inv t y s B -> t + INR n * h <= b -> good_steps m t (grid t h n) y s y' s' ->
    Inv (t + INR n * h) y' s' ((1 + q)^n * (B + INR n * r)).
  Proof.
    intros ST. induction n as [|n IH]; intros t y s B y' s' HB HI Hb HG.
    - inversion HG; subst. cbn. rewrite Rmult_0_l, Rplus_0_r. apply (Mono _ _ _ B); [exact HI|lra].
    - rewrite S_INR in Hb. pose proof (pos_INR n). assert (0 <= INR n * h) by (apply Rmult_le_pos; lra).
      assert (0 <= (1 + q) * B) by (apply Rmult_le_pos; lra).
      cbn [grid] in HG. inversion HG; subst. replace (t + INR (S n) * h) with (t + h + INR n * h) by (rewrite S_INR; ring).
      apply (Mono _ _ _ ((1 + q)^n * ((1 + q) * B + r + INR n * r))); [|apply growing, HB].
      eapply IH; [|apply ST; [exact HB|exact HI|lra|eassumption]|lra|eassumption]. lra.
  Qed.
  Lemma pow_exp n : (1 + q)^n <= exp (INR n * q).
  Proof.
    induction n as [|n IH]; [cbn; rewrite Rmult_0_l, exp_0; lra|]. rewrite S_INR. cbn [pow].
    replace ((INR n + 1) * q) with (q + INR n * q) by ring. rewrite exp_plus. apply Rmult_le_compat; [lra|apply pow_le; lra|apply exp_ineq1_le|exact IH].
  Qed.
End Accumulate.

Lemma exp_mono x y : x <= y -> exp x <= exp y.
Proof. intros [H| ->]; [left; apply exp_increasing, H|right; reflexivity]. Qed.

Lemma bounded_more {K : Type} (v : K -> R) B B' : bounded v B -> B <= B' -> bounded v B'.
Proof. intros H L x. eapply Rle_trans; [apply H|exact L]. Qed.
Lemma bounded_opp {K : Type} (u v : K -> R) B : bounded (fun x => u x - v x) B -> bounded (fun x => v x - u x) B.
Proof. intros H x. rewrite Rabs_minus_sym. apply H. Qed.

Section Orders.
  Context {I : Type}.
  Notation Y := (I -> R).

  (** Euler's method has order one. *)
  Lemma pf_C82_euler (f : R -> Y -> Y) (L M2 t0 T h : R) (y : R -> Y) (n : nat) :
    0 <= L -> 0 <= M2 -> lipschitz L f -> smooth2 t0 T M2 y (fun t => f t (y t)) -> 0 < h -> INR n * h <= T ->
    let m := euler (ode_term f) in
    bounded (fun x => fst (steps m t0 (grid t0 h n) (y t0) (me_init m t0 (t0 + h) (y t0))) x - y (t0 + INR n * h) x) (M2 * T * exp (L * T) * h).
  Proof.
    intros HL HM LF (y2 & SM) Hh HT. cbv zeta. set (m := euler (ode_term f)).
    assert (ST : bounded (fun x => fst (steps m t0 (grid t0 h n) (y t0) tt) x - y (t0 + INR n * h) x) ((1 + h * L)^n * (0 + INR n * (M2 * h^2)))).
    { pose proof (steps_accumulate m (fun t u _ B => t0 <= t /\ bounded (fun x => u x - y t x) B) h (t0 + T) (h * L) (M2 * h^2)) as A.
      cbv beta in A. refine (proj2 (A _ _ _ _ _ n t0 (y t0) tt 0 _ _ _)); clear A; try lra; try nra.
      - intros t u s B B' (A & A') HB. split; [exact A|]. exact (bounded_more _ _ _ A' HB).
      - intros t u s B HB (Ht & A) Hb. split; [lra|]. intros x. cbn [m euler me_step so_y ode_term with_default_vf_prod t_contr t_vf_prod t_prod t_vf]. unfold vadd.
        pose proof (LF t u (y t) B A x) as E1. pose proof (A x) as E2.
        pose proof (taylor1 t0 (t0 + T) M2 (fun t => y t x) (fun t => f t (y t) x) (fun t => y2 t x) (fun t Hr => proj1 (SM t x Hr)) (fun t Hr => proj1 (proj2 (SM t x Hr)))
                      (t + h) t (fun t Hr => proj2 (proj2 (SM t x Hr))) ltac:(lra) ltac:(lra)) as E3. cbv beta in *.
        replace (t + h - t) with h in * by ring.
        replace (u x + h * f t u x - y (t + h) x) with ((u x - y t x) + h * (f t u x - f t (y t) x) - (y (t + h) x - y t x - h * f t (y t) x)) by ring.
        assert (Rabs (h * (f t u x - f t (y t) x)) <= h * (L * B)) by (rewrite Rabs_mult, (Rabs_pos_eq h) by lra; apply Rmult_le_compat_l; lra).
        revert H E2 E3. generalize (h * (f t u x - f t (y t) x)) (u x - y t x) (y (t + h) x - y t x - h * f t (y t) x). intros A1 A2 A3 X1 X2 X3.
        replace ((1 + h * L) * B + M2 * h^2) with (B + h * (L * B) + M2 * h^2) by ring.
        unfold Rabs in *; repeat destruct (Rcase_abs _); lra.
      - split; [lra|]. intros x. rewrite Rminus_diag_eq, Rabs_R0 by reflexivity. lra. }
    eapply bounded_more; [exact ST|]. rewrite Rplus_0_l.
    pose proof (pow_exp (h * L) ltac:(nra) n) as PE. pose proof (pos_INR n).
    assert (exp (INR n * (h * L)) <= exp (L * T)) by (apply exp_mono; nra). pose proof (exp_pos (L * T)).
    replace (M2 * T * exp (L * T) * h) with (exp (L * T) * (T * (M2 * h))) by ring. replace (INR n * (M2 * h^2)) with (INR n * h * (M2 * h)) by ring.
    apply Rmult_le_compat; [apply pow_le; nra|repeat apply Rmult_le_pos; lra|lra|]. apply Rmult_le_compat_r; [nra|exact HT].
  Qed.

  Lemma abs_iff a b : Rabs a <= b <-> - b <= a <= b.
  Proof. split; [|apply Rabs_le]. intros H. unfold Rabs in H. destruct (Rcase_abs a); lra. Qed.
  Lemma abs_scaled h a b : 0 <= h -> Rabs a <= b -> - (h * b) <= h * a <= h * b.
  Proof. intros H A. apply abs_iff. rewrite Rabs_mult, (Rabs_pos_eq h) by exact H. apply Rmult_le_compat_l; assumption. Qed.
  Lemma growth_bound q n L T h : 0 <= q -> 0 <= L -> 0 < h -> q = 2 * (h * L) -> INR n * h <= T -> (1 + q)^n <= exp (2 * L * T).
  Proof.
    intros Q0 HL Hh -> HT. eapply Rle_trans; [apply pow_exp, Q0|]. apply exp_mono. replace (INR n * (2 * (h * L))) with (2 * L * (INR n * h)) by ring.
    apply Rmult_le_compat_l; lra.
  Qed.

  (** The leapfrog midpoint method has order two at a constant step size. *)
  Lemma pf_C82_leapfrog (f : R -> Y -> Y) (L M2 M3 t0 T h : R) (y : R -> Y) (n : nat) :
    0 <= L -> 0 <= M2 -> 0 <= M3 -> lipschitz L f -> smooth3 t0 T M2 M3 y (fun t => f t (y t)) -> 0 < h -> INR n * h <= T ->
    let m := leapfrog_midpoint (ode_term f) in
    bounded (fun x => fst (steps m t0 (grid t0 h n) (y t0) (me_init m t0 (t0 + h) (y t0))) x - y (t0 + INR n * h) x) ((M2 + 2 * M3 * T) * exp (2 * L * T) * h^2).
  Proof.
    intros HL HM2 HM3 LF (y2 & SM) Hh HT. cbv zeta. set (m := leapfrog_midpoint (ode_term f)).
    pose proof (exp_pos (2 * L * T)) as EP.
    assert (T0 : 0 <= T) by (pose proof (Rmult_le_pos _ _ (pos_INR n) (Rlt_le _ _ Hh)); lra).
    assert (HC : 0 <= (M2 + 2 * M3 * T) * exp (2 * L * T) * h^2).
    { apply Rmult_le_pos; [|apply pow_le; lra]. apply Rmult_le_pos; [|lra]. pose proof (Rmult_le_pos _ _ HM3 T0). lra. }
    destruct n as [|n].
    { intros x. cbn [grid steps fst INR]. rewrite Rmult_0_l, Rplus_0_r, Rminus_diag_eq, Rabs_R0 by reflexivity. exact HC. }
    rewrite S_INR in *. pose proof (pos_INR n) as N0.
    assert (HnT : INR n * h <= T) by lra.
    assert (HhT : h <= T) by (pose proof (Rmult_le_pos _ _ N0 (Rlt_le _ _ Hh)); lra).
    assert (P2 : 0 <= h^2) by (apply pow_le; lra).
    cbn [grid steps]. cbn [m leapfrog_midpoint me_init]. change (leapfrog_midpoint (ode_term f)) with m.
    set (o := me_step m t0 (t0 + h) (y t0) (t0, y t0) false).
    assert (ST : bounded (fun x => fst (steps m (t0 + h) (grid (t0 + h) h n) (so_y o) (so_state o)) x - y (t0 + h + INR n * h) x) ((1 + 2 * (h * L))^n * (M2 * h^2 + INR n * (2 * M3 * h^3)))).
    { pose proof (steps_accumulate m (fun t u s B => t0 <= fst s /\ fst s = t - h /\ bounded (fun x => snd s x - y (t - h) x) B /\ bounded (fun x => u x - y t x) B)
                    h (t0 + T) (2 * (h * L)) (2 * M3 * h^3)) as A.
      cbv beta in A. refine (proj2 (proj2 (proj2 (A _ _ _ _ _ n (t0 + h) (so_y o) (so_state o) (M2 * h^2) _ _ _)))); clear A; try lra.
      - intros t u s B B' (A1 & A2 & A3 & A4) HB. repeat (split; [assumption|]). split; eapply bounded_more; eassumption.
      - assert (0 <= h * L) by (apply Rmult_le_pos; lra). lra.
      - apply Rmult_le_pos; [lra|]. apply pow_le. lra.
      - intros t u (tm, v) B HB (Ht & E & A1 & A2) Hb. cbn [fst snd] in *. subst tm.
        cbn [m leapfrog_midpoint me_step so_y so_state fst snd]. replace (t + h - h) with t by ring.
        assert (HP : 0 <= h * L * B) by (repeat apply Rmult_le_pos; lra). assert (HQ : 0 <= M3 * h^3) by (apply Rmult_le_pos; [lra|apply pow_le; lra]).
        split; [lra|]. split; [reflexivity|]. split; [eapply bounded_more; [exact A2|lra]|]. intros x.
        cbn [ode_term with_default_vf_prod t_contr t_vf_prod t_prod t_vf]. unfold vadd.
        pose proof (LF t u (y t) B A2 x) as E1. pose proof (A1 x) as E2.
        pose proof (taylor2 t0 (t0 + T) M3 (fun t => y t x) (fun t => f t (y t) x) (fun t => y2 t x) (fun t Hr => proj1 (SM t x Hr)) (fun t Hr => proj1 (proj2 (SM t x Hr)))
                      (fun s t Hs Hr => proj2 (proj2 (proj2 (SM t x Hr))) s Hs) HM3) as TY.
        pose proof (TY (t + h) t ltac:(lra) ltac:(lra)) as E3. pose proof (TY (t - h) t ltac:(lra) ltac:(lra)) as E4. clear TY. cbv beta in *.
        replace (t + h - t) with h in E3 by ring. replace (t - h - t) with (- h) in E4 by ring. rewrite Rabs_Ropp in E4. rewrite (Rabs_pos_eq h) in E3, E4 by lra.
        apply (abs_scaled (2 * h)) in E1; [|lra]. apply abs_iff in E2, E3, E4. apply abs_iff.
        replace (t + h - (t - h)) with (2 * h) by ring. cbn [pow] in *. lra.
      - apply Rmult_le_pos; lra.
      - cbn [o m leapfrog_midpoint me_step so_y so_state fst snd]. replace (t0 + h - h) with t0 by ring. split; [lra|]. split; [reflexivity|].
        split; [intros x; rewrite Rminus_diag_eq, Rabs_R0 by reflexivity; apply Rmult_le_pos; lra|]. intros x.
        cbn [ode_term with_default_vf_prod t_contr t_vf_prod t_prod t_vf]. unfold vadd.
        pose proof (taylor1 t0 (t0 + T) M2 (fun t => y t x) (fun t => f t (y t) x) (fun t => y2 t x) (fun t Hr => proj1 (SM t x Hr)) (fun t Hr => proj1 (proj2 (SM t x Hr)))
                      (t0 + h) t0 (fun t Hr => proj1 (proj2 (proj2 (SM t x Hr)))) ltac:(lra) ltac:(lra)) as E3. cbv beta in *.
        replace (t0 + h - t0) with h in * by ring. rewrite Rabs_minus_sym. replace (y (t0 + h) x - (y t0 x + h * f t0 (y t0) x)) with (y (t0 + h) x - y t0 x - h * f t0 (y t0) x) by ring. exact E3. }
    replace (t0 + (INR n + 1) * h) with (t0 + h + INR n * h) by ring.
    eapply bounded_more; [exact ST|].
    assert (HL2 : 0 <= h * L) by (apply Rmult_le_pos; lra).
    pose proof (growth_bound (2 * (h * L)) n L T h ltac:(lra) HL Hh eq_refl HnT) as GB.
    replace ((M2 + 2 * M3 * T) * exp (2 * L * T) * h^2) with (exp (2 * L * T) * (M2 * h^2 + T * (2 * M3 * h^2))) by ring.
    assert (0 <= M2 * h^2) by (apply Rmult_le_pos; lra). assert (0 <= 2 * M3 * h^2) by (apply Rmult_le_pos; lra).
    replace (INR n * (2 * M3 * h^3)) with (INR n * h * (2 * M3 * h^2)) by ring.
    assert (0 <= INR n * h * (2 * M3 * h^2)) by (apply Rmult_le_pos; [apply Rmult_le_pos; lra|assumption]).
    assert (INR n * h * (2 * M3 * h^2) <= T * (2 * M3 * h^2)) by (apply Rmult_le_compat_r; assumption).
    apply Rmult_le_compat; [apply pow_le; lra|lra|exact GB|lra].
  Qed.

  (** The reversible Heun method has order two at a constant step size. *)
  Lemma pf_C82_reversible_heun (f : R -> Y -> Y) (L M2 M3 t0 T h : R) (y : R -> Y) (n : nat) :
    0 <= L -> 0 <= M2 -> 0 <= M3 -> lipschitz L f -> smooth3 t0 T M2 M3 y (fun t => f t (y t)) -> 0 < h <= T -> INR n * h <= T ->
    let m := reversible_heun (ode_term f) in
    let K := (M2 / 4 + T * (L * M2 / 4 + 3 * M3)) * exp (2 * L * T) in
    bounded (fun x => fst (steps m t0 (grid t0 h n) (y t0) (me_init m t0 (t0 + h) (y t0))) x - y (t0 + INR n * h) x) ((K + L * T * (K + M2 / 8)) * h^2).
  Proof.
    intros HL HM2 HM3 LF (y2 & SM) (Hh & HhT) HT. cbv zeta. set (m := reversible_heun (ode_term f)).
    pose proof (exp_pos (2 * L * T)) as EP. pose proof (pos_INR n) as N0.
    assert (HL2 : 0 <= h * L) by (apply Rmult_le_pos; lra). assert (P2 : 0 <= h^2) by (apply pow_le; lra). assert (P3 : 0 <= h^3) by (apply pow_le; lra).
    set (om := fun t (u v : Y) x => y t x - u x - h / 2 * (f t (y t) x - f t v x)).
    set (rho := fun t (u v : Y) x => y t x - v x - om t u v x - h^2 / 4 * y2 t x).
    set (Inv := fun t (u : Y) (s : Y * Y) B => t0 <= t <= t0 + T /\ snd s = f t (fst s) /\ bounded (om t u (fst s)) B /\ bounded (rho t u (fst s)) B).
    assert (DE : forall t u s B, Inv t u s B -> bounded (fun x => y t x - fst s x) (2 * B + h^2 / 4 * M2)).
    { intros t u s B (Ht & _ & A1 & A2) x. specialize (A1 x). specialize (A2 x). destruct (SM t x Ht) as (_ & _ & A3 & _).
      apply (abs_scaled (h^2 / 4)) in A3; [|lra]. apply abs_iff in A1, A2. apply abs_iff. unfold rho in A2. lra. }
    assert (R0' : 0 <= (L * M2 / 4 + 3 * M3) * h^3).
    { apply Rmult_le_pos; [|exact P3]. assert (0 <= L * M2) by (apply Rmult_le_pos; lra). lra. }
    assert (ST : let out := steps m t0 (grid t0 h n) (y t0) (y t0, f t0 (y t0)) in
      Inv (t0 + INR n * h) (fst out) (snd out) ((1 + 2 * (h * L))^n * (M2 / 4 * h^2 + INR n * ((L * M2 / 4 + 3 * M3) * h^3)))).
    { cbv zeta. apply (steps_accumulate m Inv h (t0 + T)); try lra.
      - intros t u s B B' (A1 & A2 & A3 & A4) HB. split; [exact A1|]. split; [exact A2|]. split; eapply bounded_more; eassumption.
      - intros t u (v, g) B HB HI Hb. pose proof (DE _ _ _ _ HI) as DB. destruct HI as (Ht & E & A1 & A2). cbn [fst snd] in *. subst g.
        apply (LF t (y t) v) in DB.
        split; [lra|]. cbn [m reversible_heun me_step so_y so_state fst snd].
        cbn [ode_term with_default_vf_prod t_contr t_vf_prod t_prod t_vf].
        set (v1 := vadd (vsub (vscale 2 u) v) (fun i => (t + h - t) * f t v i)).
        set (u1 := vadd u (vscale (1 / 2) (fun i => (t + h - t) * vadd (f t v) (f (t + h) v1) i))).
        split; [reflexivity|].
        assert (KEY : forall x, exists ka ta, Rabs ka <= 3 / 2 * (M3 * h^3) /\ Rabs ta <= 5 / 4 * (M3 * h^3) /\
          om (t + h) u1 v1 x = om t u v x + ka + h * (f t (y t) x - f t v x) /\
          rho (t + h) u1 v1 x = - rho t u v x + h * (f t (y t) x - f t v x) - ka + ta).
        { intros x.
          pose proof (taylor2 t0 (t0 + T) M3 (fun t => y t x) (fun t => f t (y t) x) (fun t => y2 t x) (fun t Hr => proj1 (SM t x Hr)) (fun t Hr => proj1 (proj2 (SM t x Hr)))
                      (fun s t Hs Hr => proj2 (proj2 (proj2 (SM t x Hr))) s Hs) HM3 (t + h) t ltac:(lra) ltac:(lra)) as E3.
          pose proof (taylor2' t0 (t0 + T) M3 (fun t => f t (y t) x) (fun t => y2 t x) (fun t Hr => proj1 (proj2 (SM t x Hr)))
                      (fun s t Hs Hr => proj2 (proj2 (proj2 (SM t x Hr))) s Hs) HM3 (t + h) t ltac:(lra) ltac:(lra)) as E4.
          pose proof (proj2 (proj2 (proj2 (SM t x ltac:(lra)))) (t + h) ltac:(lra)) as E5. cbv beta in *.
          replace (t + h - t) with h in E3, E4, E5 by ring. rewrite (Rabs_pos_eq h) in E3, E5 by lra.
          apply (abs_scaled (h / 2)) in E4; [|lra]. apply (abs_scaled (h^2 / 4)) in E5; [|lra]. apply abs_iff in E3.
          exists (y (t + h) x - y t x - h / 2 * (f t (y t) x + f (t + h) (y (t + h)) x)).
          exists (y (t + h) x - y t x - h * f t (y t) x - h^2 / 2 * y2 t x + h^2 / 4 * (y2 t x - y2 (t + h) x)).
          split; [apply abs_iff; cbn [pow] in *; lra|]. split; [apply abs_iff; cbn [pow] in *; lra|].
          assert (OM : om (t + h) u1 v1 x = om t u v x + (y (t + h) x - y t x - h / 2 * (f t (y t) x + f (t + h) (y (t + h)) x)) + h * (f t (y t) x - f t v x)).
          { unfold om. unfold u1, vadd, vscale. replace (t + h - t) with h by ring. field. }
          split; [exact OM|]. unfold rho. rewrite OM. unfold om. unfold v1 at 1. unfold vadd, vsub, vscale. replace (t + h - t) with h by ring. field. }
        assert (BB : B + h * (L * (2 * B + h^2 / 4 * M2)) + 11 / 4 * (M3 * h^3) <= (1 + 2 * (h * L)) * B + (L * M2 / 4 + 3 * M3) * h^3).
        { assert (0 <= M3 * h^3) by (apply Rmult_le_pos; lra). cbn [pow] in *. lra. }
        assert (HQ : 0 <= M3 * h^3) by (apply Rmult_le_pos; lra).
        split; intros x; destruct (KEY x) as (ka & ta & K1 & K2 & K3 & K4); pose proof (abs_scaled h _ _ (Rlt_le _ _ Hh) (DB x)) as E1; specialize (A1 x); specialize (A2 x);
          apply abs_iff in K1, K2, A1, A2; apply abs_iff; rewrite ?K3, ?K4; lra.
      - apply Rmult_le_pos; lra.
      - split; [lra|]. split; [reflexivity|]. cbn [fst snd].
        assert (Z : forall x, om t0 (y t0) (y t0) x = 0) by (intros x; unfold om; ring).
        split; intros x; [rewrite Z, Rabs_R0; apply Rmult_le_pos; lra|]. unfold rho. rewrite Z. destruct (SM t0 x ltac:(lra)) as (_ & _ & A3 & _).
        apply (abs_scaled (h^2 / 4)) in A3; [|lra]. apply abs_iff. lra. }
    cbv zeta in ST. set (out := steps m t0 (grid t0 h n) (y t0) (y t0, f t0 (y t0))) in *.
    change (steps m t0 (grid t0 h n) (y t0) (me_init m t0 (t0 + h) (y t0))) with out.
    set (B := (1 + 2 * (h * L))^n * (M2 / 4 * h^2 + INR n * ((L * M2 / 4 + 3 * M3) * h^3))) in *.
    set (K := (M2 / 4 + T * (L * M2 / 4 + 3 * M3)) * exp (2 * L * T)).
    assert (BK : B <= K * h^2).
    { pose proof (growth_bound (2 * (h * L)) n L T h ltac:(lra) HL Hh eq_refl HT) as GB. unfold B, K.
      replace ((M2 / 4 + T * (L * M2 / 4 + 3 * M3)) * exp (2 * L * T) * h^2) with (exp (2 * L * T) * (M2 / 4 * h^2 + T * ((L * M2 / 4 + 3 * M3) * h^2))) by ring.
      replace (INR n * ((L * M2 / 4 + 3 * M3) * h^3)) with (INR n * h * ((L * M2 / 4 + 3 * M3) * h^2)) by ring.
      assert (0 <= M2 / 4 * h^2) by (apply Rmult_le_pos; lra).
      assert (0 <= (L * M2 / 4 + 3 * M3) * h^2) by (apply Rmult_le_pos; [assert (0 <= L * M2) by (apply Rmult_le_pos; lra); lra|exact P2]).
      assert (0 <= INR n * h * ((L * M2 / 4 + 3 * M3) * h^2)) by (apply Rmult_le_pos; [apply Rmult_le_pos; lra|assumption]).
      assert (INR n * h * ((L * M2 / 4 + 3 * M3) * h^2) <= T * ((L * M2 / 4 + 3 * M3) * h^2)) by (apply Rmult_le_compat_r; assumption).
      apply Rmult_le_compat; [apply pow_le; lra|lra|exact GB|lra]. }
    pose proof (DE _ _ _ _ ST) as DB. destruct ST as (Ht & _ & A1 & _). apply (LF (t0 + INR n * h) (y (t0 + INR n * h)) (fst (snd out))) in DB.
    intros x. specialize (A1 x). pose proof (abs_scaled (h / 2) _ _ ltac:(lra) (DB x)) as E1. unfold om in A1. apply abs_iff in A1. apply abs_iff.
    assert (LB : h / 2 * (L * (2 * B + h^2 / 4 * M2)) <= L * T * (K + M2 / 8) * h^2).
    { replace (h / 2 * (L * (2 * B + h^2 / 4 * M2))) with (h * (L * (B + h^2 * (M2 / 8)))) by field.
      replace (L * T * (K + M2 / 8) * h^2) with (T * (L * (K * h^2 + h^2 * (M2 / 8)))) by ring.
      assert (0 <= K * h^2). { apply Rmult_le_pos; [|exact P2]. unfold K. apply Rmult_le_pos; [|lra]. assert (0 <= L * M2) by (apply Rmult_le_pos; lra).
        assert (0 <= T * (L * M2 / 4 + 3 * M3)) by (apply Rmult_le_pos; lra). lra. }
      assert (0 <= h^2 * (M2 / 8)) by (apply Rmult_le_pos; lra).
      apply Rle_trans with (h * (L * (K * h^2 + h^2 * (M2 / 8)))).
      - apply Rmult_le_compat_l; [lra|]. apply Rmult_le_compat_l; lra.
      - apply Rmult_le_compat_r; [apply Rmult_le_pos; lra|lra]. }
    rewrite Rmult_plus_distr_r. lra.
  Qed.

  (** Implicit Euler has order one. *)
  Lemma attained (l : list I) (v : Y) : exists X, 0 <= X /\ (forall x, In x l -> Rabs (v x) <= X) /\ (X = 0 \/ exists x, X = Rabs (v x)).
  Proof.
    induction l as [|x l (X & H0 & H1 & H2)]; [exists 0; split; [lra|]; split; [intros x []|left; reflexivity]|].
    destruct (Rle_dec (Rabs (v x)) X) as [H|H].
    - exists X. split; [exact H0|]. split; [intros z [<-|Hz]; auto|exact H2].
    - exists (Rabs (v x)). split; [apply Rabs_pos|]. split; [|right; exists x; reflexivity]. intros z [<-|Hz]; [lra|]. specialize (H1 z Hz). lra.
  Qed.
  Lemma pf_C82_implicit_euler (f : R -> Y -> Y) (root_find : (Y -> Y) -> Y -> Y * RESULTS) (L M2 t0 T h : R) (y : R -> Y) (n : nat) (yn : Y) :
    finite_type I -> (forall g z, is_okay (snd (root_find g z)) = true -> forall x, g (fst (root_find g z)) x = 0) ->
    0 <= L -> 0 <= M2 -> lipschitz L f -> smooth2 t0 T M2 y (fun t => f t (y t)) -> 0 < h -> h * L <= 1 / 2 -> INR n * h <= T ->
    let m := implicit_euler root_find (ode_term f) in
    good_steps m t0 (grid t0 h n) (y t0) (me_init m t0 (t0 + h) (y t0)) yn tt ->
    bounded (fun x => yn x - y (t0 + INR n * h) x) (2 * M2 * T * exp (2 * L * T) * h).
  Proof.
    intros (l & Hl) HR HL HM LF (y2 & SM) Hh HhL HT. cbv zeta. set (m := implicit_euler root_find (ode_term f)). intros GS.
    assert (HL2 : 0 <= h * L) by (apply Rmult_le_pos; lra). assert (P2 : 0 <= h^2) by (apply pow_le; lra).
    assert (P3 : 0 <= M2 * h^2) by (apply Rmult_le_pos; lra). pose proof (pos_INR n) as N0.
    assert (ST : bounded (fun x => yn x - y (t0 + INR n * h) x) ((1 + 2 * (h * L))^n * (0 + INR n * (2 * (M2 * h^2))))).
    { pose proof (good_accumulate m (fun t u _ B => t0 <= t /\ bounded (fun x => u x - y t x) B) h (t0 + T) (2 * (h * L)) (2 * (M2 * h^2))) as A.
      cbv beta in A. refine (proj2 (A _ _ _ _ _ n t0 (y t0) tt 0 yn tt _ _ _ GS)); clear A; try lra.
      - intros t u s B B' (A & A') HB. split; [exact A|]. exact (bounded_more _ _ _ A' HB).
      - intros t u s B HB (Ht & A) Hb. cbn [m implicit_euler me_step].
        specialize (HR (implicit_relation (t_vf_prod (ode_term f)) (t + h) u (t_contr (ode_term f) t (t + h))) (t_vf_prod (ode_term f) t u (t_contr (ode_term f) t (t + h)))).
        destruct (root_find _ _) as (k & r). cbn [fst snd so_result so_y] in *. intros OK. specialize (HR OK). split; [lra|].
        set (u1 := vadd u k).
        assert (EQ : forall x, u1 x = u x + h * f (t + h) u1 x).
        { intros x. specialize (HR x). unfold implicit_relation, vsub in HR. fold u1 in HR. cbn [ode_term with_default_vf_prod t_contr t_vf_prod t_prod t_vf] in HR.
          replace (t + h - t) with h in HR by ring. unfold u1 at 1, vadd. lra. }
        destruct (attained l (fun x => u1 x - y (t + h) x)) as (X & X0 & X1 & X2).
        assert (XB : bounded (fun x => u1 x - y (t + h) x) X) by (intros x; apply X1, Hl).
        assert (IM : forall x, Rabs (u1 x - y (t + h) x) <= B + h * (L * X) + M2 * h^2).
        { intros x. pose proof (abs_scaled h _ _ (Rlt_le _ _ Hh) (LF (t + h) u1 (y (t + h)) X XB x)) as E1. pose proof (A x) as E2.
          pose proof (taylor1 t0 (t0 + T) M2 (fun t => y t x) (fun t => f t (y t) x) (fun t => y2 t x) (fun t Hr => proj1 (SM t x Hr)) (fun t Hr => proj1 (proj2 (SM t x Hr)))
                      t (t + h) (fun t Hr => proj2 (proj2 (SM t x Hr))) ltac:(lra) ltac:(lra)) as E3. cbv beta in *.
          replace (t - (t + h)) with (- h) in E3 by ring. replace ((- h)^2) with (h^2) in E3 by ring. apply abs_iff in E2, E3. apply abs_iff. rewrite (EQ x). lra. }
        eapply bounded_more; [exact XB|]. assert (XX : X <= B + h * (L * X) + M2 * h^2).
        { destruct X2 as [->|(x & ->)]; [|apply IM]. rewrite !Rmult_0_r. lra. }
        assert (X4 : X <= 2 * (B + M2 * h^2)).
        { assert (h * (L * X) <= 1 / 2 * X) by (rewrite <- Rmult_assoc; apply Rmult_le_compat_r; lra). lra. }
        assert (h * (L * X) <= h * L * (2 * (B + M2 * h^2))) by (rewrite <- Rmult_assoc; apply Rmult_le_compat_l; lra).
        assert (h * L * (2 * (M2 * h^2)) <= 1 / 2 * (2 * (M2 * h^2))) by (apply Rmult_le_compat_r; lra). lra.
      - split; [lra|]. intros x. rewrite Rminus_diag_eq, Rabs_R0 by reflexivity. lra. }
    eapply bounded_more; [exact ST|]. rewrite Rplus_0_l.
    pose proof (growth_bound (2 * (h * L)) n L T h ltac:(lra) HL Hh eq_refl HT) as GB. pose proof (exp_pos (2 * L * T)).
    replace (2 * M2 * T * exp (2 * L * T) * h) with (exp (2 * L * T) * (T * (2 * (M2 * h)))) by ring. replace (INR n * (2 * (M2 * h^2))) with (INR n * h * (2 * (M2 * h))) by ring.
    assert (0 <= M2 * h) by (apply Rmult_le_pos; lra).
    apply Rmult_le_compat; [apply pow_le; lra|apply Rmult_le_pos; [apply Rmult_le_pos; lra|lra]|exact GB|]. apply Rmult_le_compat_r; [lra|exact HT].
  Qed.
End Orders.

(** The symplectic Euler method has order one. *)
Lemma pf_C82_semi_implicit_euler (I1 I2 : Type) (f : R -> (I2 -> R) -> (I1 -> R)) (g : R -> (I1 -> R) -> (I2 -> R)) (L M1 M2 t0 T h : R)
      (q : R -> I1 -> R) (p : R -> I2 -> R) (n : nat) :
  0 <= L -> 0 <= M1 -> 0 <= M2 -> half_lipschitz L f -> half_lipschitz L g ->
  smooth2 t0 T M2 q (fun t => f t (p t)) -> smooth2 t0 T M2 p (fun t => g t (q t)) ->
  (forall t, t0 <= t <= t0 + T -> bounded (f t (p t)) M1) -> 0 < h -> h * L <= 1 -> INR n * h <= T ->
  let m := semi_implicit_euler (half_ode f) (half_ode g) in
  let yn := fst (steps m t0 (grid t0 h n) (q t0, p t0) (me_init m t0 (t0 + h) (q t0, p t0))) in
  bounded (fun x => fst yn x - q (t0 + INR n * h) x) ((2 * M2 + L * M1) * T * exp (2 * L * T) * h) /\
  bounded (fun x => snd yn x - p (t0 + INR n * h) x) ((2 * M2 + L * M1) * T * exp (2 * L * T) * h).
Proof.
  intros HL HM1 HM LF LG (q2 & SQ) (p2 & SP) BF Hh HhL HT. cbv zeta. set (m := semi_implicit_euler (half_ode f) (half_ode g)).
  assert (HL2 : 0 <= h * L) by (apply Rmult_le_pos; lra). assert (P2 : 0 <= h^2) by (apply pow_le; lra).
  assert (P3 : 0 <= M2 * h^2) by (apply Rmult_le_pos; lra). assert (P4 : 0 <= L * M1) by (apply Rmult_le_pos; lra). pose proof (pos_INR n) as N0.
  set (r := (2 * M2 + L * M1) * h^2). assert (Hr : 0 <= r) by (apply Rmult_le_pos; lra).
  assert (LE : (1 + 2 * (h * L))^n * (0 + INR n * r) <= (2 * M2 + L * M1) * T * exp (2 * L * T) * h).
  { rewrite Rplus_0_l. pose proof (growth_bound (2 * (h * L)) n L T h ltac:(lra) HL Hh eq_refl HT) as GB. pose proof (exp_pos (2 * L * T)).
    replace ((2 * M2 + L * M1) * T * exp (2 * L * T) * h) with (exp (2 * L * T) * (T * ((2 * M2 + L * M1) * h))) by ring.
    unfold r. replace (INR n * ((2 * M2 + L * M1) * h^2)) with (INR n * h * ((2 * M2 + L * M1) * h)) by ring.
    assert (0 <= (2 * M2 + L * M1) * h) by (apply Rmult_le_pos; lra).
    apply Rmult_le_compat; [apply pow_le; lra|apply Rmult_le_pos; [apply Rmult_le_pos; lra|lra]|exact GB|]. apply Rmult_le_compat_r; [lra|exact HT]. }
  set (Inv := fun t (u : (I1 -> R) * (I2 -> R)) (_ : unit) B => t0 <= t /\ bounded (fun x => fst u x - q t x) B /\ bounded (fun x => snd u x - p t x) B).
  assert (ST : let out := steps m t0 (grid t0 h n) (q t0, p t0) tt in Inv (t0 + INR n * h) (fst out) (snd out) ((1 + 2 * (h * L))^n * (0 + INR n * r))).
  { cbv zeta. apply (steps_accumulate m Inv h (t0 + T)); try lra.
    - intros t u s B B' (A1 & A2 & A3) HB. split; [exact A1|]. split; eapply bounded_more; eassumption.
    - intros t (u & v) s B HB (Ht & A1 & A2) Hb. cbn [fst snd] in *. cbn [m semi_implicit_euler me_step so_y so_state half_ode ht_contr ht_vf_prod].
      replace (t + h - t) with h by ring. set (u1 := vadd u (fun i => h * f t v i)).
      assert (U1 : bounded (fun x => u1 x - q (t + h) x) (B + h * (L * B) + M2 * h^2)).
      { intros x. pose proof (abs_scaled h _ _ (Rlt_le _ _ Hh) (LF t v (p t) B A2 x)) as E1. pose proof (A1 x) as E2.
        pose proof (taylor1 t0 (t0 + T) M2 (fun t => q t x) (fun t => f t (p t) x) (fun t => q2 t x) (fun t Hr => proj1 (SQ t x Hr)) (fun t Hr => proj1 (proj2 (SQ t x Hr)))
                    (t + h) t (fun t Hr => proj2 (proj2 (SQ t x Hr))) ltac:(lra) ltac:(lra)) as E3. cbv beta in *.
        replace (t + h - t) with h in E3 by ring. apply abs_iff in E2, E3. apply abs_iff. unfold u1, vadd. lra. }
      assert (U2 : bounded (fun x => u1 x - q t x) (B + h * (L * B) + M2 * h^2 + M1 * h)).
      { intros x. pose proof (U1 x) as E1.
        pose proof (mean t0 (t0 + T) (fun t => q t x) (fun t => f t (p t) x) (t + h) t M1 ltac:(lra) ltac:(lra) (fun t Hr => proj1 (SQ t x Hr))) as E3. cbv beta in E3.
        replace (t + h - t) with h in E3 by ring. rewrite (Rabs_pos_eq h) in E3 by lra.
        assert (E4 : Rabs (q (t + h) x - q t x) <= M1 * h). { apply E3. intros c Hc. apply BF. rewrite Rmin_right, Rmax_left in Hc by lra. lra. }
        apply abs_iff in E1, E4. apply abs_iff. lra. }
      assert (HB2 : 0 <= h * L * B) by (apply Rmult_le_pos; lra). assert (HB4 : h * L * (h * L * B) <= 1 * (h * L * B)) by (apply Rmult_le_compat_r; lra).
      assert (HB5 : h * L * (M2 * h^2) <= 1 * (M2 * h^2)) by (apply Rmult_le_compat_r; lra). assert (HB6 : 0 <= L * M1 * h^2) by (apply Rmult_le_pos; lra).
      split; [lra|]. cbn [fst snd]. split; [eapply bounded_more; [exact U1|unfold r; lra]|].
      intros x. pose proof (abs_scaled h _ _ (Rlt_le _ _ Hh) (LG t u1 (q t) _ U2 x)) as E1. pose proof (A2 x) as E2.
      pose proof (taylor1 t0 (t0 + T) M2 (fun t => p t x) (fun t => g t (q t) x) (fun t => p2 t x) (fun t Hr => proj1 (SP t x Hr)) (fun t Hr => proj1 (proj2 (SP t x Hr)))
                  (t + h) t (fun t Hr => proj2 (proj2 (SP t x Hr))) ltac:(lra) ltac:(lra)) as E3. cbv beta in *.
      replace (t + h - t) with h in E3 by ring. apply abs_iff in E2, E3. apply abs_iff. unfold vadd, r. cbn [pow] in *. lra.
    - split; [lra|]. cbn [fst snd]. split; intros x; rewrite Rminus_diag_eq, Rabs_R0 by reflexivity; lra. }
  cbv zeta in ST. change (me_init m t0 (t0 + h) (q t0, p t0)) with tt. destruct ST as (_ & A1 & A2). split; eapply bounded_more; eassumption.
Qed.
