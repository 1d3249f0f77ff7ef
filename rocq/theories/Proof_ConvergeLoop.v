(** Accumulated errors of a whole solve: C59. *)
From Coq Require Import ZArith Reals QArith Qreals List Bool Arith Lia Lra.
From Verif Require Import Model_Result Model_Loop Model_RK Model_Terms Spec_Loop Spec_RK Spec_RKLoop Spec_Order Spec_Lipschitz Spec_Convergence Spec_Clip
  Proof_LoopBasic Proof_PropLoop Proof_RKStep Proof_RKProp Proof_RKLoop Proof_StageExist Proof_Product Proof_Convergence.
Import ListNotations.
Open Scope R_scope.

Section Chain.
  Context {I : Type}.
  Notation Y := (I -> R).
  Context {SS CS DI E V MS : Type}.
  Variable FI : finite_type I.
  Variables (L : R) (fs : list (R -> Y -> Y)) (tabs : list tableau) (s : nat) (y : R -> Y) (t0 b A h0 Bb W H : R) (time : Z -> R).
  Notation ps := (combine tabs fs).
  Hypothesis L0 : 0 <= L.
  Hypothesis LIP : forall f, In f fs -> lipschitz L f.
  Hypothesis SMALL : small_steps L s ps A h0.
  Hypothesis WB : weights_bounded tabs s Bb.
  Hypothesis W0 : 0 <= W.
  Hypothesis Hh : H <= h0.
  Hypothesis LOCAL : forall t h k, t0 <= t <= b -> 0 < h <= H -> rk_equations s (ode_parts ps) t (t + h) (y t) k ->
    bounded (fun x => rk_solution s (ode_parts ps) (y t) k x - y (t + h) x) (W * h).
  Notation Lam := (2 * INR (length ps) * INR s * Bb * L).
  Notation err t := (W * (t - t0) * exp (Lam * (t - t0))).

  Lemma lam_pos : 0 <= Lam.
  Proof. destruct WB as (B0 & _). pose proof (pos_INR (length ps)). pose proof (pos_INR s). repeat apply Rmult_le_pos; lra. Qed.

  Lemma one_step t h u k : t0 <= t <= b -> 0 < h <= H -> bounded (fun x => u x - y t x) (err t) ->
    rk_equations s (ode_parts ps) t (t + h) u k ->
    bounded (fun x => rk_solution s (ode_parts ps) u k x - y (t + h) x) (err (t + h)).
  Proof.
    intros Ht Hp HE K. destruct SMALL as (A0 & H0 & HC & HF). specialize (HF h ltac:(lra)).
    assert (LIPP : forall tab f, In (tab, f) ps -> lipschitz L f) by (intros tab f Hin; apply LIP; eapply in_combine_r; exact Hin).
    destruct (stages_exist FI s ps L LIPP A A0 HC h (proj1 Hp) HF t (y t)) as (k' & K').
    assert (E0 : 0 <= err t).
    { repeat apply Rmult_le_pos; try lra. left. apply exp_pos. }
    assert (HB : forall m tab f i, nth_error ps m = Some (tab, f) -> (i < s)%nat -> Rabs (coef_b tab i) <= Bb).
    { intros m tab f i Hm Hi. apply (proj2 WB); [|exact Hi]. apply nth_error_In in Hm. eapply in_combine_l. exact Hm. }
    pose proof (step_stable FI s ps L LIPP L0 A A0 HC h (proj1 Hp) HF t u (y t) k k' (err t) Bb E0 HE (proj1 WB) HB K K') as ST.
    pose proof (LOCAL t h k' Ht Hp K') as LO.
    intros x. specialize (ST x). specialize (LO x). cbv beta in ST, LO |- *.
    match goal with |- Rabs ?w <= _ => replace w with ((rk_solution s (ode_parts ps) u k x - rk_solution s (ode_parts ps) (y t) k' x) + (rk_solution s (ode_parts ps) (y t) k' x - y (t + h) x)) by ring end.
    eapply Rle_trans; [apply Rabs_triang|]. eapply Rle_trans; [apply Rplus_le_compat; [exact ST|exact LO]|].
    apply growth_step; try lra. apply lam_pos.
  Qed.

  Lemma chain (c : config Y SS CS DI E V MS) accs : forall t u ss j, solver_run c t u ss j accs ->
    t0 <= time t -> bounded (fun x => u x - y (time t) x) (err (time t)) ->
    steps_within time H b accs ->
    (forall a, In a accs -> exists k, rk_equations s (ode_parts ps) (time (at_from a)) (time (at_to a)) (at_yprev a) k /\
      forall x, at_y a x = rk_solution s (ode_parts ps) (at_yprev a) k x) ->
    forall a, In a accs -> t0 <= time (at_from a) /\ bounded (fun x => at_yprev a x - y (time (at_from a)) x) (err (time (at_from a))) /\
      bounded (fun x => at_y a x - y (time (at_to a)) x) (err (time (at_to a))).
  Proof.
    induction accs as [|a accs IH]; intros t u ss j RUN Ht HE SW EQ; [intros a []|].
    inversion RUN; subst. destruct (SW a (or_introl eq_refl) ltac:(assumption)) as (_ & END & ST & LE).
    assert (ONE : bounded (fun x => at_y a x - y (time (at_to a)) x) (err (time (at_to a)))).
    { assert (FB : time (at_from a) <= b) by lra. destruct (EQ a (or_introl eq_refl)) as (k & K & SOL). set (h := time (at_to a) - time (at_from a)) in *.
      replace (time (at_to a)) with (time (at_from a) + h) in K |- * by (unfold h; ring).
      pose proof (one_step (time (at_from a)) h (at_yprev a) k ltac:(lra) ltac:(lra) HE K) as O.
      intros x. rewrite SOL. apply O. }
    intros a' [<-|Hin]; [split; [lra|split; [exact HE|exact ONE]]|].
    match goal with R : solver_run c (at_end a) _ _ _ accs |- _ => refine (IH _ _ _ _ R _ _ _ _ a' Hin) end.
    - rewrite END. lra.
    - rewrite END. exact ONE.
    - intros a'' Hin'. apply SW. right. exact Hin'.
    - intros a'' Hin'. apply EQ. right. exact Hin'.
  Qed.
End Chain.

(** Each accepted attempt as a call of [rk_step]. *)
Section Outs.
  Context {I J C CS V MS : Type}.
  Notation Y := (I -> R).
  Notation DI := (Y * Y * list (list Y))%type.
  Notation config := (config Y (solver_state J) CS DI (option Y) V MS).
  Variables (c : config) (sv : solver I J C) (s : nat) (time : Z -> R)
            (others : Z -> Z -> Y -> solver_state J -> bool -> bool).
  Hypothesis STEP : solver_step c = rk_solver_step sv time others.
  Hypothesis VP : valid_parts s (sv_parts sv).
  Hypothesis FE : fsal_at_ends (sv_parts sv).
  Hypothesis EX : exact_root_finder (sv_root_finder sv) \/ implicit_index sv = None.
  Variable Inv : Z -> Z -> CS -> Prop.
  Hypothesis CC : controller_contract c Inv.
  Hypothesis AJ : announces_jumps c.
  Hypothesis MID : midpoint_ok c.

  Lemma history_outs n : forall st, cache_inv c Inv sv time st -> forall a, In a (history c n st) ->
    is_okay (at_solver_result a) = true -> at_keep a = true ->
    exists oth ss mj, let out := rk_step sv (time (at_from a)) (time (at_to a)) (at_yprev a) oth ss mj in
      coherent (sv_parts sv) (time (at_from a)) (at_yprev a) mj ss /\ is_okay (ro_result out) = true /\
      at_y a = ro_y out /\ at_interp a = interpolate c (at_from a) (at_to a) (at_yprev a, ro_y out, ro_k out).
  Proof.
    induction n as [|n IH]; intros st H a Ha OK K; [contradiction|]. cbn in Ha.
    destruct (cond_fun c st) eqn:Hc; [|contradiction]. destruct Ha as [<-|Ha].
    - assert (SU : is_successful (st_result st) = true).
      { unfold cond_fun in Hc. apply andb_prop in Hc as (_ & Hc). exact Hc. }
      destruct H as (_ & [H|H]); [|congruence].
      rewrite attempt_of_eq in OK, K |- *. cbn [at_solver_result at_keep at_from at_to at_yprev at_y at_interp] in *.
      rewrite K. rewrite (step_unfold c sv time others STEP) in OK |- *. unfold rk_solver_step in OK |- *. cbn [so_result so_y so_dense] in OK |- *.
      do 3 eexists. split; [exact H|]. split; [exact OK|]. split; reflexivity.
    - apply (IH (body_fun c st)); auto. apply (cache_inv_body c sv s time others STEP VP FE EX Inv CC AJ MID); assumption.
  Qed.
End Outs.

Section Global.
  Context {I CS V MS : Type}.
  Notation Y := (I -> R).
  Notation DI := (Y * Y * list (list Y))%type.
  Notation config := (config Y (solver_state I) CS DI (option Y) V MS).
  Notation initial := (initial Y (solver_state I) CS MS).
  Notation outcome := (outcome Y (solver_state I) CS DI V MS).

  Lemma chain_times (c : config) time H b accs : forall t u ss j, solver_run c t u ss j accs ->
    steps_within time H b accs -> forall a, In a accs -> time t <= time (at_from a).
  Proof.
    induction accs as [|a accs IH]; intros t u ss j RUN SW; [intros a []|].
    inversion RUN; subst. destruct (SW a (or_introl eq_refl) ltac:(assumption)) as (_ & END & ST & _).
    intros a' [<-|Hin]; [lra|].
    assert (X : time (at_end a) <= time (at_from a')).
    { match goal with R : solver_run c (at_end a) _ _ _ accs |- _ => refine (IH _ _ _ _ R _ a' Hin) end. intros a'' Hin'. apply SW. right. exact Hin'. }
    rewrite END in X. lra.
  Qed.

  (** The times of a solve *)
  Lemma run_times (c : config) (i : initial) h (o : outcome) (sv : solver I I R) time t0 y0 H b : rk_run c i h o sv time t0 y0 ->
    steps_within time H b h -> t0 <= b ->
    (forall a, In a (accepted h) -> t0 <= time (at_from a) /\ time (at_from a) <= time (at_to a) <= b) /\
    (stepto_len c = None -> results_ok c -> rf_results_ok c -> out_result o = successful -> t0 <= time (cfg_t1 c) <= b).
  Proof.
    intros (RUN & STEP & RF & (Inv & CC & HI) & AJ & MID & Ht & Ht' & CO & TI & YI) SW AB.
    destruct (pf_C02_times_in_interval c i h o Inv RUN CC MID Ht Ht' HI) as (_ & _ & RIP).
    pose proof (pf_C08_accepted_steps_run c i h o RUN RIP) as SR.
    assert (INA : forall a, In a (accepted h) -> In a h /\ at_keep a = true) by (intros a' Ha'; apply filter_In in Ha'; exact Ha').
    assert (F : forall a, In a (accepted h) -> t0 <= time (at_from a) /\ time (at_from a) <= time (at_to a) <= b).
    { intros a Ha. destruct (INA a Ha) as (H1 & H2). destruct (SW a H1 H2) as (_ & _ & ST & LE). rewrite <- TI.
      split; [|lra]. refine (chain_times c time H b (accepted h) _ _ _ _ SR _ a Ha). intros a' Ha'. apply SW, INA, Ha'. }
    split; [exact F|]. intros ST RO RFO OK.
    destruct (pf_C03_success_reaches_t1 c i h o RUN ST Ht RO RFO OK) as (TF & CUR). specialize (CUR RIP). rewrite <- TF. unfold current in CUR.
    destruct (accepted h) as [|a0 accs0] eqn:EH.
    - cbn in CUR. injection CUR as CT _. rewrite CT, TI. lra.
    - destruct (@exists_last _ (a0 :: accs0)) as (accs & a & EA); [discriminate|]. rewrite EA, map_app in CUR. cbn [map] in CUR. rewrite last_last in CUR. injection CUR as CT _.
      assert (Ha : In a (a0 :: accs0)) by (rewrite EA; apply in_or_app; right; left; reflexivity).
      destruct (INA a Ha) as (H1 & H2). destruct (SW a H1 H2) as (_ & END & _). rewrite CT, END. pose proof (F a Ha). lra.
  Qed.

  Lemma run_outs (c : config) (i : initial) h (o : outcome) (sv : solver I I R) time t0 y0 s : rk_run c i h o sv time t0 y0 ->
    valid_parts s (sv_parts sv) -> fsal_at_ends (sv_parts sv) ->
    forall a, In a (accepted h) -> is_okay (at_solver_result a) = true ->
    exists oth ss mj, let out := rk_step sv (time (at_from a)) (time (at_to a)) (at_yprev a) oth ss mj in
      coherent (sv_parts sv) (time (at_from a)) (at_yprev a) mj ss /\ is_okay (ro_result out) = true /\
      at_y a = ro_y out /\ at_interp a = interpolate c (at_from a) (at_to a) (at_yprev a, ro_y out, ro_k out).
  Proof.
    intros (RUN & (others & STEP) & RF & (Inv & CC & HI) & AJ & MID & Ht & Ht' & CO & TI & YI) VP FE a Ha OK.
    apply filter_In in Ha as (Ha & K). destruct RUN as (s0 & n & Hi & _ & -> & _).
    assert (EX' : exact_root_finder (sv_root_finder sv) \/ implicit_index sv = None).
    { destruct RF as [EX|EX]; [left; exact EX|right; apply explicit_none, EX]. }
    apply (history_outs c sv s time others STEP VP FE EX' Inv CC AJ MID n s0); auto.
    eapply cache_inv_init; eauto.
  Qed.

  Lemma run_bound (FI : finite_type I) (L : R) (fs : list (R -> Y -> Y)) (p : nat) (t0 b T : R) (y0 : Y) (y : R -> Y) :
    0 <= L -> (forall f, In f fs -> lipschitz L f) -> (1 <= p)%nat -> t0 <= b -> b < t0 + T ->
    (forall f, In f fs -> uniformly_smooth p f t0 (t0 + T) y) -> exact_solution fs t0 y0 T y ->
    exists K, 0 <= K /\ forall (tabs : list tableau) (s : nat) (eps B : R),
      length tabs = length fs -> 0 <= eps -> has_order_up_to tabs s eps p -> weights_bounded tabs s B ->
      exists C A h0, 0 <= C /\ small_steps L s (combine tabs fs) A h0 /\
      forall (c : config) (i : initial) (h : list (attempt Y)) (o : outcome) (sv : solver I I R) (time : Z -> R) (H : R),
      rk_run c i h o sv time t0 y0 ->
      sv_parts sv = ode_parts (combine tabs fs) -> valid_parts s (sv_parts sv) -> fsal_at_ends (sv_parts sv) ->
      H <= h0 -> steps_within time H b h ->
      let err t := (K * eps + C * H ^ p) * (t - t0) * exp (2 * INR (length fs) * INR s * B * L * (t - t0)) in
      forall a, In a (accepted h) ->
        t0 <= time (at_from a) /\
        bounded (fun x => at_yprev a x - y (time (at_from a)) x) (err (time (at_from a))) /\
        bounded (fun x => at_y a x - y (time (at_to a)) x) (err (time (at_to a))).
  Proof.
    intros L0 LIP P1 AB BT SM EX.
    destruct (uniform_local FI L fs p t0 b T y0 y L0 LIP P1 AB BT SM EX) as (K & HK & UL).
    exists K. split; [exact HK|]. intros tabs s eps B LE He HO WB.
    destruct (UL tabs s eps LE He HO) as (C & A & h0 & HC & SMALL & LOCAL).
    exists C, A, h0. split; [exact HC|]. split; [exact SMALL|].
    intros c i h o sv time H RR PARTS VP FE HH SW.
    destruct RR as (RUN & (others & STEP) & RF & (Inv & CC & HI) & AJ & MID & Ht & Ht' & CO & TI & YI). cbv zeta. intros a Ha.
    destruct (pf_C02_times_in_interval c i h o Inv RUN CC MID Ht Ht' HI) as (_ & _ & RIP).
    pose proof (pf_C08_accepted_steps_run c i h o RUN RIP) as SR.
    pose proof (pf_C28_solve c i h o sv s time others Inv RUN STEP VP FE RF CC AJ MID Ht Ht' HI CO) as EQS.
    rewrite PARTS in EQS.
    assert (LC : length (combine tabs fs) = length fs) by (rewrite combine_length; lia).
    assert (INA : forall a, In a (accepted h) -> In a h /\ at_keep a = true) by (intros a' Ha'; apply filter_In in Ha'; exact Ha').
    assert (H0 : 0 < H). { destruct (INA a Ha) as (Ha1 & Ha2). destruct (SW a Ha1 Ha2) as (_ & _ & ST & _). lra. }
    assert (W0 : 0 <= K * eps + C * H ^ p).
    { apply Rplus_le_le_0_compat; [apply Rmult_le_pos; assumption|apply Rmult_le_pos; [assumption|apply pow_le; lra]]. }
    rewrite <- LC.
    refine (chain FI L fs tabs s y t0 b A h0 B (K * eps + C * H ^ p) H time L0 LIP SMALL WB W0 HH _ c (accepted h) (cfg_t0 c) (in_y i) _ _ SR _ _ _ _ a Ha).
    - intros t k' k Htb Hk' EQ. intros x. eapply Rle_trans; [apply (LOCAL t k' k Htb); [lra|exact EQ]|].
      cbn [pow]. replace (K * eps * k' + C * (k' * k' ^ p)) with ((K * eps + C * k' ^ p) * k') by ring.
      apply Rmult_le_compat_r; [lra|]. apply Rplus_le_compat_l, Rmult_le_compat_l; [exact HC|]. apply pow_incr. lra.
    - rewrite TI. lra.
    - rewrite TI, YI. intros x. destruct EX as (EX0 & _). rewrite EX0. unfold Rminus at 1. rewrite Rplus_opp_r, Rabs_R0, Rminus_eq_0. lra.
    - intros a' Ha'. apply SW. apply (INA a' Ha').
    - intros a' Ha'. destruct (INA a' Ha') as (I1 & I2). apply EQS; [exact I1|exact I2|]. apply (SW a' I1 I2).
  Qed.

End Global.
