(** Non-interference: the numerics do not depend on what is observed. *)
From Coq Require Import ZArith List Bool Arith Lia.
From Verif Require Import Model_Result Model_Loop Spec_Loop Proof_LoopBasic Proof_LoopSave
  Proof_LoopFinish.
Import ListNotations.
Open Scope Z_scope.

Section Core.
  Context {Y SS CS DI E V1 MS1 V2 MS2 : Type}.
  Notation config1 := (config Y SS CS DI E V1 MS1).
  Notation state1 := (state Y SS CS DI V1 MS1).
  Notation config2 := (config Y SS CS DI E V2 MS2).
  Notation state2 := (state Y SS CS DI V2 MS2).

  Record core_eq (s1 : state1) (s2 : state2) : Prop := {
    ce_y : st_y s1 = st_y s2;
    ce_tprev : st_tprev s1 = st_tprev s2;
    ce_tnext : st_tnext s1 = st_tnext s2;
    ce_jump : st_made_jump s1 = st_made_jump s2;
    ce_ss : st_solver_state s1 = st_solver_state s2;
    ce_cs : st_controller_state s1 = st_controller_state s2;
    ce_result : st_result s1 = st_result s2;
    ce_num : st_num_steps s1 = st_num_steps s2;
    ce_acc : st_num_accepted s1 = st_num_accepted s2;
    ce_rej : st_num_rejected s1 = st_num_rejected s2;
    ce_etp : st_event_tprev s1 = st_event_tprev s2;
    ce_etn : st_event_tnext s1 = st_event_tnext s2;
    ce_edi : st_event_dense s1 = st_event_dense s2;
    ce_eval : st_event_values s1 = st_event_values s2;
    ce_mask : st_event_mask s1 = st_event_mask s2
  }.

  Lemma core_cond (c1 : config1) (c2 : config2) s1 s2 :
    same_numerics c1 c2 -> core_eq s1 s2 -> cond_fun c1 s1 = cond_fun c2 s2.
  Proof.
    intros [] []. unfold cond_fun. rewrite sn_stepto, sn_t1, ce_result0, ce_tprev0, ce_num0.
    reflexivity.
  Qed.

  Lemma core_step (c1 : config1) (c2 : config2) s1 s2 :
    same_numerics c1 c2 -> core_eq s1 s2 -> do_step c1 s1 = do_step c2 s2.
  Proof.
    intros [] []. unfold do_step. rewrite sn_step. congruence.
  Qed.

  Lemma core_adapt (c1 : config1) (c2 : config2) s1 s2 :
    same_numerics c1 c2 -> core_eq s1 s2 -> do_adapt c1 s1 = do_adapt c2 s2.
  Proof.
    intros H1 H2. unfold do_adapt. rewrite (core_step _ _ _ _ H1 H2).
    destruct H1, H2. rewrite sn_adapt, sn_nan. congruence.
  Qed.

  Lemma core_attempt (c1 : config1) (c2 : config2) s1 s2 :
    same_numerics c1 c2 -> core_eq s1 s2 -> attempt_eq (attempt_of c1 s1) (attempt_of c2 s2).
  Proof.
    intros H1 H2. pose proof (core_step _ _ _ _ H1 H2) as Hs.
    pose proof (core_adapt _ _ _ _ H1 H2) as Ha. destruct H1, H2.
    rewrite !attempt_of_eq. rewrite Hs, Ha.
    constructor; cbn; rewrite ?ce_y0, ?ce_tprev0, ?ce_tnext0, ?ce_jump0, ?sn_t1; try reflexivity.
    intros t. apply sn_interp.
  Qed.

  Lemma core_body (c1 : config1) (c2 : config2) s1 s2 :
    same_numerics c1 c2 -> core_eq s1 s2 -> core_eq (body_fun c1 s1) (body_fun c2 s2).
  Proof.
    intros H1 H2.
    pose proof (core_step _ _ _ _ H1 H2) as Hs.
    pose proof (core_adapt _ _ _ _ H1 H2) as Ha.
    pose proof (core_attempt _ _ _ _ H1 H2) as Hat.
    destruct Hat. 
    assert (Hpre : pre_result c1 s1 = pre_result c2 s2).
    { unfold pre_result. rewrite Hs, Ha, ae_keep. destruct H2. rewrite ce_result0. reflexivity. }
    assert (Hm1 : forall e, raw_mask c1 e s1 = raw_mask c2 e s2).
    { intros e. unfold raw_mask. rewrite ae_end, ae_y. destruct H2. rewrite ce_eval0. reflexivity. }
    destruct (cfg_event c1) as [e|] eqn:He1.
    - assert (He2 : cfg_event c2 = Some e) by (destruct H1; congruence).
      destruct (body_event_times c1 s1 e He1) as (T1 & T2 & T3).
      destruct (body_event_times c2 s2 e He2) as (T1' & T2' & T3').
      destruct H1, H2.
      constructor; rewrite ?body_y, ?body_tprev, ?body_tnext, ?body_made_jump, ?body_solver_state,
        ?body_controller_state, ?body_num_steps, ?body_num_accepted, ?body_num_rejected,
        ?(body_result_event _ _ _ He1), ?(body_result_event _ _ _ He2),
        ?(body_mask_event _ _ _ He1), ?(body_mask_event _ _ _ He2),
        ?(body_values_event _ _ _ He1), ?(body_values_event _ _ _ He2); try congruence.
      all: rewrite ?ae_keep, ?ae_end, ?ae_y, ?ce_jump0, ?ce_ss0, ?ce_acc0, ?ce_rej0, ?Hs, ?Ha, ?sn_t1;
        try reflexivity.
      unfold clip_to_end. rewrite sn_mid. reflexivity.
    - assert (He2 : cfg_event c2 = None) by (destruct H1; congruence).
      destruct H1, H2.
      constructor; rewrite ?body_y, ?body_tprev, ?body_tnext, ?body_made_jump, ?body_solver_state,
        ?body_controller_state, ?body_num_steps, ?body_num_accepted, ?body_num_rejected,
        ?(body_result_no_event _ _ He1), ?(body_result_no_event _ _ He2); try congruence;
        try (unfold body_fun; rewrite He1, He2; cbn; congruence).
      all: rewrite ?ae_keep, ?ae_end, ?ae_y, ?ce_jump0, ?ce_ss0, ?ce_acc0, ?ce_rej0, ?Hs, ?Ha, ?sn_t1;
        try reflexivity.
      unfold clip_to_end. rewrite sn_mid. reflexivity.
  Qed.

  Lemma core_while (c1 : config1) (c2 : config2) n : forall s1 s2,
    same_numerics c1 c2 -> core_eq s1 s2 ->
    core_eq (while_loop c1 n s1) (while_loop c2 n s2) /\
    Forall2 attempt_eq (history c1 n s1) (history c2 n s2).
  Proof.
    induction n as [|n IH]; intros s1 s2 H1 H2; cbn [while_loop history]; [auto|].
    rewrite (core_cond _ _ _ _ H1 H2). destruct (cond_fun c2 s2); [|auto].
    destruct (IH _ _ H1 (core_body _ _ _ _ H1 H2)) as [I1 I2].
    split; [exact I1|]. constructor; [apply core_attempt; assumption|exact I2].
  Qed.

  Lemma core_final_time (c1 : config1) (c2 : config2) s1 s2 b :
    same_numerics c1 c2 -> core_eq s1 s2 ->
    (forall rf e f g lo hi st, cfg_event c2 = Some e -> ev_root_finder e = Some rf ->
       (forall t, f t = g t) -> rf f lo hi st = rf g lo hi st) ->
    final_time c1 b s1 = final_time c2 b s2.
  Proof.
    intros H1 H2 Hext. unfold final_time.
    replace (cfg_event c1) with (cfg_event c2) by (destruct H1; congruence).
    destruct (cfg_event c2) as [e|] eqn:He; [|destruct H2; congruence].
    destruct (ev_root_finder e) as [rf|] eqn:Hr; [|destruct H2; congruence].
    destruct b; [|destruct H2; congruence].
    assert (Hint : forall t, event_interp c1 s1 t = event_interp c2 s2 t).
    { intros t. unfold event_interp. destruct H1, H2. rewrite ce_edi0.
      destruct (st_event_dense s2); [|exact ce_y0]. rewrite sn_interp. congruence. }
    unfold root_find_event.
    assert (Hh : event_happened s1 = event_happened s2)
      by (unfold event_happened; destruct H2; congruence).
    assert (Htr : forall t, to_root_find c1 e s1 (event_happened s1) t
                            = to_root_find c2 e s2 (event_happened s2) t).
    { intros t. rewrite Hh. unfold to_root_find. rewrite Hint. destruct H2. rewrite ce_etn0, ce_mask0.
      reflexivity. }
    rewrite (Hext rf e _ _ (st_event_tprev s1) (st_event_tnext s1) (st_event_tnext s1) eq_refl Hr Htr).
    replace (st_event_tprev s1) with (st_event_tprev s2) by (destruct H2; congruence).
    replace (st_event_tnext s1) with (st_event_tnext s2) by (destruct H2; congruence).
    destruct (rf _ _ _ _) as [tf err]. rewrite Hint. destruct H2.
    rewrite ce_num0, ce_y0, ce_result0. reflexivity.
  Qed.

  (** Initial states. *)
  Lemma core_init (c1 : config1) (c2 : config2) i1 i2 s1 s2 :
    same_numerics c1 c2 -> cfg_t0 c1 = cfg_t0 c2 ->
    in_y i1 = in_y i2 -> in_tnext i1 = in_tnext i2 -> in_made_jump i1 = in_made_jump i2 ->
    in_solver_state i1 = in_solver_state i2 -> in_controller_state i1 = in_controller_state i2 ->
    init_state c1 i1 = Some s1 -> init_state c2 i2 = Some s2 -> core_eq s1 s2.
  Proof.
    intros H1 Ht0 Hy Htn Hj Hss Hcs Hi1 Hi2.
    unfold init_state, obind in Hi1, Hi2.
    destruct (omap _ (cfg_subs c1)); [|discriminate].
    destruct (omap2 _ (cfg_subs c1) _); [|discriminate].
    destruct (if cfg_dense c1 then _ else _); [|discriminate].
    destruct (omap _ (cfg_subs c2)); [|discriminate].
    destruct (omap2 _ (cfg_subs c2) _); [|discriminate].
    destruct (if cfg_dense c2 then _ else _); [|discriminate].
    replace (cfg_event c1) with (cfg_event c2) in Hi1 by (destruct H1; congruence).
    rewrite Ht0, Hy in Hi1.
    destruct (first_true false _) as [mask had].
    injection Hi1 as <-. injection Hi2 as <-. destruct H1.
    constructor; cbn; congruence.
  Qed.
End Core.

Section Subs.
  Context {Y SS CS DI E V MS1 MS2 : Type}.
  Notation config1 := (config Y SS CS DI E V MS1).
  Notation state1 := (state Y SS CS DI V MS1).
  Notation config2 := (config Y SS CS DI E V MS2).
  Notation state2 := (state Y SS CS DI V MS2).

  Lemma nth_error_map2 {A B C} (f : A -> B -> C) l l' j a :
    nth_error l j = Some a ->
    nth_error (map2 f l l') j = option_map (f a) (nth_error l' j).
  Proof.
    revert l' j. induction l as [|x l IH]; intros l' j H; [destruct j; discriminate|].
    destruct l' as [|b l']; destruct j as [|j]; cbn in *; try reflexivity.
    - injection H as ->. reflexivity.
    - apply IH. exact H.
  Qed.

  Lemma nth_error_omap {A B} (f : A -> option B) l r j a :
    omap f l = Some r -> nth_error l j = Some a -> nth_error r j = f a.
  Proof.
    intros H. apply omap_spec in H. revert j.
    induction H as [|x b l r Hx HF IH]; intros j Hj; [destruct j; discriminate|].
    destruct j as [|j]; cbn in *; [injection Hj as ->; congruence|auto].
  Qed.
  Lemma nth_error_omap2 {A B C} (f : A -> B -> option C) l l' r j a b :
    omap2 f l l' = Some r -> nth_error l j = Some a -> nth_error l' j = Some b ->
    nth_error r j = f a b.
  Proof.
    revert l' r j. induction l as [|x l IH]; intros l' r j H Ha Hb; [destruct j; discriminate|].
    destruct l' as [|y l']; [destruct j; discriminate|]. cbn in H. unfold obind in H.
    destruct (f x y) eqn:Hf; [|discriminate].
    destruct (omap2 f l l') eqn:Hl; [|discriminate]. injection H as <-.
    destruct j as [|j]; cbn in *; [injection Ha as ->; injection Hb as ->; congruence|eauto].
  Qed.

  (** The buffer at position [j1] in one solve evolves as that at position [j2] in the other. *)
  Variables (c1 : config1) (c2 : config2) (j1 j2 : nat) (sub : subsaveat Y V).
  Hypothesis Hnum : same_numerics c1 c2.
  Hypothesis Hj1 : nth_error (cfg_subs c1) j1 = Some sub.
  Hypothesis Hj2 : nth_error (cfg_subs c2) j2 = Some sub.

  Definition save_rel (s1 : state1) (s2 : state2) : Prop :=
    exists sv, nth_error (st_save s1) j1 = Some sv /\ nth_error (st_save s2) j2 = Some sv.

  Lemma save_ts_loop_ext fuel keep tnext (ev1 ev2 : Z -> Y) fn ts (sv : save_state V) :
    (forall t, ev1 t = ev2 t) ->
    save_ts_loop fuel keep tnext ev1 fn ts sv = save_ts_loop fuel keep tnext ev2 fn ts sv.
  Proof.
    intros H. revert sv. induction fuel as [|fuel IH]; intros sv; cbn; [reflexivity|].
    destruct (get_clamp ts _) as [t|]; [|reflexivity].
    rewrite H. destruct (keep && _ && _); auto.
  Qed.

  Lemma save_rel_body s1 s2 :
    core_eq s1 s2 -> save_rel s1 s2 -> save_rel (body_fun c1 s1) (body_fun c2 s2).
  Proof.
    intros Hc (sv & H1 & H2).
    pose proof (core_attempt c1 c2 s1 s2 Hnum Hc) as Ha. destruct Ha.
    unfold save_rel. rewrite !body_save.
    eexists. rewrite !(nth_error_map2 _ _ _ _ _ Hj1), !(nth_error_map2 _ _ _ _ _ Hj2), H1, H2.
    cbn [option_map]. split; [reflexivity|].
    rewrite ae_keep, ae_end, ae_y, ae_to. f_equal. destruct Hc. rewrite ce_acc0. f_equal.
    unfold save_ts. destruct (sub_ts sub); [|reflexivity].
    symmetry. apply save_ts_loop_ext. exact ae_interp.
  Qed.

  Lemma save_rel_while n : forall s1 s2,
    core_eq s1 s2 -> save_rel s1 s2 -> save_rel (while_loop c1 n s1) (while_loop c2 n s2).
  Proof.
    induction n as [|n IH]; intros s1 s2 Hc Hr; cbn [while_loop]; [exact Hr|].
    rewrite (core_cond c1 c2 _ _ Hnum Hc). destruct (cond_fun c2 s2); [|exact Hr].
    apply IH; [apply core_body|apply save_rel_body]; assumption.
  Qed.

  Lemma save_rel_init i1 i2 s1 s2 :
    cfg_t0 c1 = cfg_t0 c2 -> cfg_max_steps c1 = cfg_max_steps c2 ->
    in_y i1 = in_y i2 -> in_pad i1 = in_pad i2 ->
    init_state c1 i1 = Some s1 -> init_state c2 i2 = Some s2 -> save_rel s1 s2.
  Proof.
    intros Ht0 Hm Hy Hp Hi1 Hi2. unfold init_state, obind in Hi1, Hi2.
    destruct (omap _ (cfg_subs c1)) as [a1|] eqn:A1; [|discriminate].
    destruct (omap2 _ (cfg_subs c1) a1) as [b1|] eqn:B1; [|discriminate].
    destruct (if cfg_dense c1 then _ else _); [|discriminate].
    destruct (omap _ (cfg_subs c2)) as [a2|] eqn:A2; [|discriminate].
    destruct (omap2 _ (cfg_subs c2) a2) as [b2|] eqn:B2; [|discriminate].
    destruct (if cfg_dense c2 then _ else _); [|discriminate].
    destruct (first_true false _) as [mask1 had1].
    destruct (first_true false _) as [mask2 had2].
    injection Hi1 as <-. injection Hi2 as <-.
    unfold save_rel; cbn [st_save].
    assert (Hlen : forall A B (f : A -> option B) l r j a, omap f l = Some r ->
              nth_error l j = Some a -> exists b, nth_error r j = Some b).
    { intros A B f l r j a H. apply omap_spec in H. revert j.
      induction H as [|x b l r Hx HF IH]; intros j Hj; [destruct j; discriminate|].
      destruct j; cbn in *; eauto. }
    destruct (Hlen _ _ _ _ _ _ _ A1 Hj1) as [sv1 E1].
    destruct (Hlen _ _ _ _ _ _ _ A2 Hj2) as [sv2 E2].
    pose proof (nth_error_omap _ _ _ _ _ A1 Hj1) as F1.
    pose proof (nth_error_omap _ _ _ _ _ A2 Hj2) as F2.
    assert (sv1 = sv2) by congruence. subst sv2.
    pose proof (nth_error_omap2 _ _ _ _ _ _ _ B1 Hj1 E1) as G1.
    pose proof (nth_error_omap2 _ _ _ _ _ _ _ B2 Hj2 E2) as G2.
    assert (save_t0 c1 (in_y i1) sub sv1 = save_t0 c2 (in_y i2) sub sv1)
      by (unfold save_t0; rewrite Ht0, Hy; reflexivity).
    assert (Hlt : exists b, nth_error b1 j1 = Some b).
    { clear - B1 Hj1 E1. revert a1 b1 j1 B1 Hj1 E1. generalize (cfg_subs c1). intros l.
      induction l as [|x l IH]; intros a1 b1 j1 B1 Hj1 E1; [destruct j1; discriminate|].
      destruct a1 as [|y a1]; [destruct j1; discriminate|]. cbn in B1. unfold obind in B1.
      destruct (save_t0 c1 (in_y i1) x y); [|discriminate].
      destruct (omap2 _ l a1) eqn:Hl; [|discriminate]. injection B1 as <-.
      destruct j1; cbn in *; eauto. }
    destruct Hlt as [b Hb]. exists b. split; congruence.
  Qed.

  Lemma save_rel_finish s1 s2 o1 o2 :
    core_eq s1 s2 -> save_rel s1 s2 -> cfg_t0 c1 = cfg_t0 c2 ->
    (forall rf e f g lo hi st, cfg_event c2 = Some e -> ev_root_finder e = Some rf ->
       (forall t, f t = g t) -> rf f lo hi st = rf g lo hi st) ->
    finish c1 s1 = Some o1 -> finish c2 s2 = Some o2 ->
    nth_error (out_save o1) j1 = nth_error (out_save o2) j2 /\
    out_tfinal o1 = out_tfinal o2 /\ out_yfinal o1 = out_yfinal o2 /\
    out_result o1 = out_result o2.
  Proof.
    intros Hc (sv & E1 & E2) Ht0 Hext H1 H2.
    unfold finish, finish_batched, obind in *.
    assert (Hh : event_happened s1 = event_happened s2)
      by (unfold event_happened; destruct Hc; congruence).
    rewrite Hh in H1. rewrite (core_final_time c1 c2 s1 s2 _ Hnum Hc Hext) in H1.
    assert (Hrf : has_root_finder c1 = has_root_finder c2).
    { unfold has_root_finder. destruct Hnum. rewrite sn_event. reflexivity. }
    assert (Ht1 : cfg_t1 c1 = cfg_t1 c2) by (destruct Hnum; assumption).
    rewrite Hrf, Ht0, Ht1 in H1.
    rewrite (core_cond c1 c2 _ _ Hnum Hc) in H1.
    destruct (final_time c2 (event_happened s2) s2) as [[tf yf] r].
    set (v1 := if has_root_finder c2 then map (unsave tf) (st_save s1) else st_save s1) in *.
    set (v2 := if has_root_finder c2 then map (unsave tf) (st_save s2) else st_save s2) in *.
    assert (Hv : exists sv, nth_error v1 j1 = Some sv /\ nth_error v2 j2 = Some sv).
    { subst v1 v2. destruct (has_root_finder c2); [|eauto].
      exists (unsave tf sv). rewrite !nth_error_map, E1, E2. auto. }
    clearbody v1 v2. clear E1 E2 sv. destruct Hv as (sv & E1 & E2).
    destruct (if cfg_t0 c2 =? cfg_t1 c2 then omap2 _ (cfg_subs c1) v1 else _) as [w1|] eqn:W1;
      [|discriminate].
    destruct (if cfg_t0 c2 =? cfg_t1 c2 then omap2 _ (cfg_subs c2) v2 else _) as [w2|] eqn:W2;
      [|discriminate].
    assert (Hw : exists sv, nth_error w1 j1 = Some sv /\ nth_error w2 j2 = Some sv).
    { destruct (cfg_t0 c2 =? cfg_t1 c2).
      - pose proof (nth_error_omap2 _ _ _ _ _ _ _ W1 Hj1 E1) as G1.
        pose proof (nth_error_omap2 _ _ _ _ _ _ _ W2 Hj2 E2) as G2.
        assert (Hlt : exists b, nth_error w1 j1 = Some b).
        { clear - W1 Hj1 E1. revert v1 w1 j1 W1 Hj1 E1. generalize (cfg_subs c1). intros l.
          induction l as [|x l IH]; intros a1 b1 j1 B1 Hj1 E1; [destruct j1; discriminate|].
          destruct a1 as [|y a1]; [destruct j1; discriminate|]. cbn in B1. unfold obind in B1.
          destruct (save_if_t0_equals_t1 c1 yf x y); [|discriminate].
          destruct (omap2 _ l a1) eqn:Hl; [|discriminate]. injection B1 as <-.
          destruct j1; cbn in *; eauto. }
        destruct Hlt as [b Hb]. exists b. split; [exact Hb|].
        rewrite G2, <- Hb, G1. unfold save_if_t0_equals_t1. rewrite Ht0. reflexivity.
      - injection W1 as <-. injection W2 as <-. eauto. }
    clear E1 E2 sv. destruct Hw as (sv & E1 & E2).
    destruct (omap2 _ (cfg_subs c1) w1) as [x1|] eqn:X1; [|discriminate].
    destruct (omap2 _ (cfg_subs c2) w2) as [x2|] eqn:X2; [|discriminate].
    injection H1 as <-. injection H2 as <-. cbn.
    repeat split.
    rewrite (nth_error_omap2 _ _ _ _ _ _ _ X1 Hj1 E1), (nth_error_omap2 _ _ _ _ _ _ _ X2 Hj2 E2).
    destruct Hc. congruence.
  Qed.
End Subs.
