(** The theorems on the strong convergence of [Euler]. *)
From Coq Require Import ZArith Reals List Lra Lia.
From Verif Require Import Model_Result Model_Loop Model_RK Model_Terms Model_Solvers Spec_Loop Spec_Solvers Spec_Strong Spec_StrongEuler
  Proof_PropLoop Proof_Strong Proof_StrongEuler.
Import ListNotations.
Open Scope R_scope.

Lemma exp_monotone a b : a <= b -> exp a <= exp b.
Proof. intros [H|H]; [left; now apply exp_increasing|right; now rewrite H]. Qed.

Lemma grid_bound ts : forall t H u, grid t ts H -> In u (t :: ts) -> t <= u <= last ts t.
Proof.
  induction ts as [|v ts IH]; intros t H u Hg Hu.
  - destruct Hu as [<-|[]]. cbn. lra.
  - destruct Hg as [Hg1 Hg2]. rewrite last_cons'. pose proof (grid_last _ _ _ Hg2). destruct Hu as [<-|Hu]; [lra|].
    pose proof (IH v H u Hg2 Hu). lra.
Qed.

Lemma pf_C71_ito (I K : Type) (is : list I) (ks : list K) (f : R -> (I -> R) -> (I -> R)) (g : R -> (I -> R) -> (I * K -> R)) (t0 t1 L M : R) :
  NoDup ks -> t0 <= t1 -> 0 <= L -> 0 <= M -> ito_lipschitz is ks t0 t1 L f g ->
  exists C, 0 <= C /\
  forall (Omega : Type) (P : space Omega) (times : R -> Prop) (W : Omega -> R -> K -> R) (x : R -> Omega -> I -> R) (y0 : Omega -> I -> R)
         (ts : list R) (H : R),
  probability P -> brownian P ks times W -> ito_solution P is ks times f g W x M -> known_vector P is t0 y0 ->
  0 <= H -> grid t0 ts H -> last ts t0 <= t1 -> (forall t, In t (t0 :: ts) -> times t) ->
  mean_square P is (fun w i => euler_value ks f g W t0 ts y0 w i - x (last ts t0) w i)
  <= C * (mean_square P is (fun w i => y0 w i - x t0 w i) + H).
Proof.
  intros Hd Ht HL HM Hfg. set (D := t1 - t0). set (Cs := 1 + (1 + D) * L).
  assert (HD : 0 <= D) by (unfold D; lra).
  assert (HCs : 0 <= Cs) by (unfold Cs; assert (0 <= (1 + D) * L) by (apply Rmult_le_pos; lra); lra).
  exists (exp ((1 + 2 * Cs) * D) * (1 + 3 * M * D)).
  assert (HMD : 0 <= M * D) by (apply Rmult_le_pos; lra).
  split; [apply Rmult_le_pos; [left; apply exp_pos|lra]|].
  intros Omega P times W x y0 ts H HP HW [Hx Hloc] Hy HH Hg Hlast HT.
  set (here := fun u => times u /\ t0 <= u <= t1).
  rewrite (euler_iterate ks W f g ts t0 y0).
  pose proof (global P HP is here (estep ks W f g) x Cs M 1 ts t0 y0 H HCs HM HH Hg) as G.
  rewrite (ms_ext P is _ (fun w i => -1 * minus (x (last ts t0)) (iterate (estep ks W f g) t0 ts y0) w i))
    by (intros; unfold minus, comb; ring).
  rewrite (ms_ext P is (fun w i => y0 w i - x t0 w i) (fun w i => -1 * minus (x t0) y0 w i)) by (intros; unfold minus, comb; ring).
  rewrite !ms_neg. eapply Rle_trans; [apply G; auto|].
  - intros u Hu. split; [auto|]. pose proof (grid_bound ts t0 H u Hg Hu). lra.
  - intros s u [Ts Hs] [Tu Hu] Hsu _. split.
    + apply (estep_stable P HP is ks times W HW Hd f g t0 t1 L Hfg); auto; lra.
    + destruct (Hloc s u Ts Tu Hsu) as [H1 H2]. unfold local_error.
      assert (Er : minus (x u) (estep ks W f g s u (x s)) = ito_rest ks f g W x s u).
      { unfold minus, comb, estep, ito_rest. apply FunctionalExtensionality.functional_extensionality. intros w.
        apply FunctionalExtensionality.functional_extensionality. intros i. ring. }
      rewrite Er. split; auto.
  - intros u [Tu _]. auto.
  - rewrite pow_1. set (E := mean_square P is (minus (x t0) y0)).
    assert (HE : 0 <= E).
    { unfold E. rewrite ms_ip. apply (ip_nonneg P HP is t0). apply kv_comb; auto. apply Hx. apply HT. now left. }
    pose proof (grid_last _ _ _ Hg) as Hl. set (d := last ts t0 - t0). assert (Hd' : 0 <= d <= D) by (unfold d, D; lra).
    rewrite (Rmult_assoc _ (1 + 3 * M * D)). apply Rmult_le_compat; [left; apply exp_pos| | |].
    + assert (0 <= M * H * d) by (repeat apply Rmult_le_pos; lra). lra.
    + apply exp_monotone. apply Rmult_le_compat_l; lra.
    + assert (A1 : M * H * d <= M * H * D) by (apply Rmult_le_compat_l; [apply Rmult_le_pos|]; lra).
      assert (0 <= M * D * E) by (apply Rmult_le_pos; lra). lra.
Qed.

Lemma pf_C71_refinement (I K : Type) (is : list I) (ks : list K) (f : R -> (I -> R) -> (I -> R)) (g : R -> (I -> R) -> (I * K -> R)) (t0 t1 L B : R) :
  NoDup ks -> t0 <= t1 -> 0 <= L -> ito_lipschitz is ks t0 t1 L f g ->
  exists C, 0 <= C /\
  forall (Omega : Type) (P : space Omega) (times : R -> Prop) (W : Omega -> R -> K -> R) (y0 : Omega -> I -> R) (coarse fine : list R) (H : R),
  probability P -> brownian P ks times W -> known_vector P is t0 y0 -> mean_square P is y0 <= B ->
  0 <= H -> grid t0 coarse H -> grid t0 fine H -> refines coarse fine -> last fine t0 <= t1 -> (forall t, In t (t0 :: coarse ++ fine) -> times t) ->
  mean_square P is (fun w i => euler_value ks f g W t0 coarse y0 w i - euler_value ks f g W t0 fine y0 w i) <= C * H.
Proof.
  intros Hd Ht HL Hfg. set (D := t1 - t0). assert (HD : 0 <= D) by (unfold D; lra).
  set (A := (1 + Rabs B) * exp (moment_rate is ks f g t0 t1 L * D)).
  assert (HA : 0 <= A) by (unfold A; apply Rmult_le_pos; [pose proof (Rabs_pos B); lra|left; apply exp_pos]).
  pose proof (err_source_nonneg is ks f g t0 t1 L HL A Ht HA) as Hsrc. set (Q := err_source is ks f g t0 t1 L A) in *.
  set (c := err_rate t0 t1 L). assert (Hc : 0 <= c) by (unfold c, err_rate; assert (0 <= (1 + (t1 - t0)) * L) by (apply Rmult_le_pos; lra); lra).
  exists (exp (c * D) * (Q * D)). split; [apply Rmult_le_pos; [left; apply exp_pos|apply Rmult_le_pos; lra]|].
  intros Omega P times W y0 coarse fine H HP HW Hy HB HH Hgc Hgf Hr Hlast HT.
  rewrite !(euler_iterate ks W f g). pose proof (grid_last _ _ _ Hgf) as Hl.
  assert (HX : (1 + mean_square P is y0) * exp (moment_rate is ks f g t0 t1 L * (t1 - t0)) <= A).
  { unfold A. apply Rmult_le_compat_r; [left; apply exp_pos|]. pose proof (Rle_abs B). lra. }
  assert (HTt : forall u, In u (t0 :: t0 :: coarse ++ fine) -> times u).
  { intros u [Hu|Hu]; [apply HT; now left|now apply HT]. }
  pose proof (refine P HP is ks times W HW Hd f g t0 t1 L HL Hfg coarse fine Hr t0 t0 y0 y0 H A HH (Rle_refl t0) (fun _ => eq_refl) Hgc Hgf
    HTt (Rle_refl t0) Hlast Hy Hy HX) as G.
  rewrite (ms_ext P is (fun w i => _ - _) (minus (iterate (estep ks W f g) t0 coarse y0) (iterate (estep ks W f g) t0 fine y0)))
    by (intros; unfold minus, comb; ring).
  eapply Rle_trans; [exact G|].
  rewrite estep_same. rewrite (ms_ext P is (minus y0 y0) (fun w i => 0 * y0 w i)) by (intros; unfold minus, comb; ring).
  replace (mean_square P is (fun w i => 0 * y0 w i)) with 0.
  - fold c. fold Q. set (d := last fine t0 - t0). assert (Hd' : 0 <= d <= D) by (unfold d, D; lra).
    assert (HQ : 0 <= H * Q) by (apply Rmult_le_pos; lra).
    apply Rle_trans with (exp (c * D) * (H * Q * D)); [|right; ring]. apply Rmult_le_compat; [left; apply exp_pos| | |].
    + assert (0 <= H * Q * d) by (apply Rmult_le_pos; lra). lra.
    + apply exp_monotone. apply Rmult_le_compat_l; lra.
    + assert (H * Q * d <= H * Q * D) by (apply Rmult_le_compat_l; lra). lra.
  - symmetry. apply total_zero. intros i _. rewrite (mean_ext P _ (fun _ => 0)) by (intros; ring). now apply mean_const.
Qed.

(** The Ito solution is determined by where it starts: the definition does not leave room for another limit. *)
Lemma ito_unique (Omega I K : Type) (P : space Omega) (is : list I) (ks : list K) (times : R -> Prop) (f : R -> (I -> R) -> (I -> R))
  (g : R -> (I -> R) -> (I * K -> R)) (W : Omega -> R -> K -> R) (x z : R -> Omega -> I -> R) (t0 t1 L M : R) :
  NoDup ks -> t0 <= t1 -> 0 <= L -> 0 <= M -> ito_lipschitz is ks t0 t1 L f g -> probability P -> brownian P ks times W ->
  ito_solution P is ks times f g W x M -> ito_solution P is ks times f g W z M -> (forall w i, x t0 w i = z t0 w i) ->
  (forall H, 0 < H -> exists ts, grid t0 ts H /\ last ts t0 = t1 /\ forall t, In t (t0 :: ts) -> times t) ->
  mean_square P is (fun w i => x t1 w i - z t1 w i) = 0.
Proof.
  intros Hd Ht HL HM Hfg HP HW Hx Hz H0 Hgrid.
  destruct (pf_C71_ito I K is ks f g t0 t1 L M Hd Ht HL HM Hfg) as (C & HC & HE).
  assert (T1 : times t0 /\ times t1).
  { destruct (Hgrid 1 ltac:(lra)) as (ts & _ & Hl & HT). split; [apply HT; now left|]. apply HT. rewrite <- Hl.
    clear. revert t0. induction ts as [|u ts IH]; intros t; [now left|]. rewrite last_cons'. right. apply IH. }
  destruct T1 as [T0 T1]. pose proof (proj1 Hx) as Kx. pose proof (proj1 Hz) as Kz.
  assert (Kd : known_vector P is t1 (minus (x t1) (z t1))) by (apply kv_comb; auto).
  rewrite (ms_ext P is _ (minus (x t1) (z t1))) by (intros; unfold minus, comb; ring).
  assert (Hpos : 0 <= mean_square P is (minus (x t1) (z t1))) by (rewrite ms_ip; now apply (ip_nonneg P HP is t1)).
  apply Rle_antisym; [|auto]. apply Rnot_lt_le. intros Hlt. set (d := mean_square P is (minus (x t1) (z t1))) in *.
  set (H := d / (4 * C + 1)). assert (HH : 0 < H) by (unfold H; apply Rdiv_lt_0_compat; lra).
  destruct (Hgrid H HH) as (ts & Hg & Hl & HT).
  pose proof (HE Omega P times W x (x t0) ts H HP HW Hx (Kx _ T0) (Rlt_le _ _ HH) Hg ltac:(lra) HT) as E1.
  pose proof (HE Omega P times W z (x t0) ts H HP HW Hz (Kx _ T0) (Rlt_le _ _ HH) Hg ltac:(lra) HT) as E2.
  assert (Z1 : mean_square P is (fun w i => x t0 w i - x t0 w i) = 0).
  { apply total_zero. intros i _. rewrite (mean_ext P _ (fun _ => 0)) by (intros; ring). now apply mean_const. }
  assert (Z2 : mean_square P is (fun w i => x t0 w i - z t0 w i) = 0).
  { apply total_zero. intros i _. rewrite (mean_ext P _ (fun _ => 0)) by (intros; rewrite H0; ring). now apply mean_const. }
  rewrite Z1 in E1. rewrite Z2 in E2. rewrite Hl in *.
  set (X := euler_value ks f g W t0 ts (x t0)) in *.
  assert (KX : known_vector P is t1 X).
  { unfold X. rewrite euler_iterate. rewrite <- Hl.
    apply (known_iterate P HP is ks times W HW f g t0 t1 L Hfg ts t0 (x t0) H); auto; lra. }
  assert (K1 : known_vector P is t1 (minus X (x t1))) by (apply kv_comb; auto).
  assert (K2 : known_vector P is t1 (minus X (z t1))) by (apply kv_comb; auto).
  rewrite (ms_ext P is (fun w i => _) (minus X (x t1))) in E1 by (intros; unfold minus, comb; ring).
  rewrite (ms_ext P is (fun w i => _) (minus X (z t1))) in E2 by (intros; unfold minus, comb; ring).
  assert (Hd2 : d <= 2 * mean_square P is (minus X (x t1)) + 2 * mean_square P is (minus X (z t1))).
  { unfold d. rewrite (ms_ext P is _ (comb (-1) (minus X (x t1)) 1 (minus X (z t1)))) by (intros; unfold minus, comb; ring).
    rewrite ms_ip, (ip_square P HP is t1) by auto.
    pose proof (ip_nonneg P HP is t1 _ (kv_comb P HP is t1 1 _ 1 _ K1 K2)) as Hn. rewrite (ip_square P HP is t1) in Hn by auto. rewrite !ms_ip. lra. }
  assert (HHd : H * (4 * C + 1) = d) by (unfold H; field; lra). lra.
Qed.

Section Solve.
  Context {I K : Type}.
  Notation Y := (I -> R).

  Lemma run_value {CS V MS : Type} (c : config Y unit CS (Y * Y) (option Y) V MS) (m : method Y unit (Y * Y)) (time : Z -> R) accs :
    solver_step c = (fun tprev tnext => me_step m (time tprev) (time tnext)) ->
    (forall t u y s j, me_step m t u y s j = me_step m t u y tt false) ->
    forall t y ss j, solver_run c t y ss j accs -> no_time_jumps accs ->
    snd (current t y accs) = fst (steps m (time t) (map (fun a => time (at_to a)) accs) y tt).
  Proof.
    intros ST MJ. induction accs as [|a accs IH]; intros t y ss j RUN NJ; [reflexivity|].
    inversion RUN as [|? ? ? ? ? j' ? E1 E2 E3 E4 E5 E6 RUN']; subst. inversion NJ as [|? ? NJ1 NJ2]; subst.
    specialize (IH _ _ _ _ RUN' NJ2). specialize (NJ1 E4). rewrite NJ1 in IH.
    cbn [map steps]. unfold current in *. cbn [map]. rewrite last_cons'.
    assert (EY : at_y a = so_y (me_step m (time (at_from a)) (time (at_to a)) (at_yprev a) tt false))
      by (rewrite E5, ST; cbv beta; now rewrite MJ).
    rewrite NJ1, IH, EY. now destruct (so_state (me_step m (time (at_from a)) (time (at_to a)) (at_yprev a) tt false)).
  Qed.
  Lemma run_end (time : Z -> R) (accs : list (attempt Y)) : forall t y, no_time_jumps accs -> (forall a, In a accs -> at_keep a = true) ->
    time (fst (current t y accs)) = last (map (fun a => time (at_to a)) accs) (time t).
  Proof.
    induction accs as [|a accs IH]; intros t y NJ KP; [reflexivity|]. inversion NJ as [|? ? NJ1 NJ2]; subst.
    unfold current in *. cbn [map]. rewrite !last_cons'. rewrite (IH (at_end a) (at_y a) NJ2) by (intros; apply KP; now right).
    rewrite NJ1 by (apply KP; now left). reflexivity.
  Qed.

  Lemma euler_run_final {CS V MS : Type} (c : config Y unit CS (Y * Y) (option Y) V MS) i h o ks (f : R -> Y -> Y) (g : R -> Y -> (I * K -> R)) W time t0 ts y0 :
    euler_run c i h o ks f g W time t0 ts y0 ->
    out_yfinal o = fst (steps (euler (sde_term ks f g W)) t0 ts y0 tt) /\ last ts t0 = time (cfg_t1 c).
  Proof.
    intros (RUN & OK & ST & RIP & NJ & SL & T01 & RO & RF & T0 & Y0 & TS).
    destruct (pf_C03_success_reaches_t1 c i h o RUN SL T01 RO RF OK) as [TF CUR]. specialize (CUR RIP).
    pose proof (pf_C08_accepted_steps_run c i h o RUN RIP) as SR.
    assert (NJ' : no_time_jumps (accepted h)).
    { apply Forall_forall. intros a Ha. apply filter_In in Ha. apply (proj1 (Forall_forall _ _) NJ). apply Ha. }
    pose proof (run_value c (euler (sde_term ks f g W)) time (accepted h) ST ltac:(reflexivity) _ _ _ _ SR NJ') as V1.
    rewrite <- CUR, Y0, T0, TS in V1. split; [exact V1|].
    rewrite <- TF. apply (f_equal fst) in CUR. cbn [fst] in CUR. rewrite CUR, <- TS, <- T0.
    symmetry. apply run_end; auto. intros a Ha. apply filter_In in Ha. apply Ha.
  Qed.
End Solve.

Lemma pf_C71_solve (I K : Type) (is : list I) (ks : list K) (f : R -> (I -> R) -> (I -> R)) (g : R -> (I -> R) -> (I * K -> R)) (t0 t1 L M : R) :
  NoDup ks -> t0 <= t1 -> 0 <= L -> 0 <= M -> ito_lipschitz is ks t0 t1 L f g ->
  exists C, 0 <= C /\
  forall (Omega CS V MS : Type) (P : space Omega) (times : R -> Prop) (W : Omega -> R -> K -> R) (x : R -> Omega -> I -> R)
         (c : Omega -> config (I -> R) unit CS ((I -> R) * (I -> R)) (option (I -> R)) V MS) (i : Omega -> initial (I -> R) unit CS MS)
         (h : Omega -> list (attempt (I -> R))) (o : Omega -> outcome (I -> R) unit CS ((I -> R) * (I -> R)) V MS)
         (time : Z -> R) (ts : list R) (H : R),
  probability P -> brownian P ks times W -> ito_solution P is ks times f g W x M ->
  (forall w, euler_run (c w) (i w) (h w) (o w) ks f g (W w) time t0 ts (x t0 w)) -> (forall w, time (cfg_t1 (c w)) = t1) ->
  0 <= H -> grid t0 ts H -> (forall t, In t (t0 :: ts) -> times t) ->
  mean_square P is (fun w k => out_yfinal (o w) k - x t1 w k) <= C * H.
Proof.
  intros Hd Ht HL HM Hfg. destruct (pf_C71_ito I K is ks f g t0 t1 L M Hd Ht HL HM Hfg) as (C & HC & HE).
  exists C. split; [exact HC|]. intros Omega CS V MS P times W x c i h o time ts H HP HW Hx RUN T1 HH Hg HT.
  assert (E1 : forall w, out_yfinal (o w) = euler_value ks f g W t0 ts (x t0) w /\ last ts t0 = t1).
  { intros w. destruct (euler_run_final _ _ _ _ _ _ _ _ _ _ _ _ (RUN w)) as [A B]. rewrite T1 in B. split; auto. }
  rewrite (ms_ext P is _ (fun w k => euler_value ks f g W t0 ts (x t0) w k - x t1 w k)) by (intros w k _; now rewrite (proj1 (E1 w))).
  assert (Z1 : mean_square P is (fun w k => x t0 w k - x t0 w k) = 0).
  { apply total_zero. intros k _. rewrite (mean_ext P _ (fun _ => 0)) by (intros; ring). now apply mean_const. }
  assert (K0 : known_vector P is t0 (x t0)) by (apply Hx, HT; now left).
  assert (INH : (exists w : Omega, True) \/ ~ (exists w : Omega, True)) by apply Classical_Prop.classic.
  destruct INH as [[w _]|NO].
  - pose proof (proj2 (E1 w)) as EL.
    pose proof (HE Omega P times W x (x t0) ts H HP HW Hx K0 HH Hg ltac:(lra) HT) as G. rewrite Z1, EL, Rplus_0_l in G. exact G.
  - exfalso. pose proof (mean_one P HP) as M1. rewrite (mean_ext P _ (fun _ => 0)) in M1 by (intros w; exfalso; apply NO; eauto).
    rewrite mean_const in M1 by auto. lra.
Qed.
