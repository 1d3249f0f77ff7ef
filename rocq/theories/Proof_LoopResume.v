(** Stopping and resuming. *)
From Coq Require Import ZArith List Bool Arith Lia.
From Verif Require Import Model_Result Model_Loop Spec_Loop Proof_LoopBasic Proof_LoopSave
  Proof_LoopFinish Proof_LoopTs Proof_LoopEvent Proof_LoopRoot Proof_LoopCore Proof_PropLoop
  Proof_PropLoop2.
Import ListNotations.
Open Scope Z_scope.

Section Resume.
  Context {Y SS CS DI E V MS : Type}.
  Notation config := (config Y SS CS DI E V MS).
  Notation initial := (initial Y SS CS MS).
  Notation outcome := (outcome Y SS CS DI V MS).
  Notation state := (state Y SS CS DI V MS).
  Notation attempt := (attempt Y).

  (** Equal in everything that determines the further steps. *)
  Record res_eq (s1 s2 : state) : Prop := {
    re_y : st_y s1 = st_y s2;
    re_tprev : st_tprev s1 = st_tprev s2;
    re_tnext : st_tnext s1 = st_tnext s2;
    re_jump : st_made_jump s1 = st_made_jump s2;
    re_ss : st_solver_state s1 = st_solver_state s2;
    re_cs : st_controller_state s1 = st_controller_state s2;
    re_result : st_result s1 = st_result s2;
    re_eval : st_event_values s1 = st_event_values s2;
    re_mask : st_event_mask s1 = st_event_mask s2
  }.
  (** Equal event bookkeeping; meant for after at least one step. *)
  Definition ev_eq (s1 s2 : state) : Prop :=
    st_event_tprev s1 = st_event_tprev s2 /\ st_event_tnext s1 = st_event_tnext s2 /\
    st_event_dense s1 = st_event_dense s2.

  Section Two.
  Variables c1 c2 : config.
  Hypothesis Hn : same_numerics c1 c2.
  Hypothesis Hst : stepto_len c1 = None.

  Lemma res_cond s1 s2 : res_eq s1 s2 -> cond_fun c1 s1 = cond_fun c2 s2.
  Proof.
    intros []. destruct Hn. unfold cond_fun. rewrite <- sn_stepto, Hst, sn_t1, re_result0, re_tprev0.
    reflexivity.
  Qed.
  Lemma res_step s1 s2 : res_eq s1 s2 -> do_step c1 s1 = do_step c2 s2.
  Proof. intros []. destruct Hn. unfold do_step. rewrite sn_step. congruence. Qed.
  Lemma res_adapt s1 s2 : res_eq s1 s2 -> do_adapt c1 s1 = do_adapt c2 s2.
  Proof.
    intros H2. unfold do_adapt. rewrite (res_step _ _ H2).
    destruct Hn, H2. rewrite sn_adapt, sn_nan. congruence.
  Qed.
  Lemma res_attempt s1 s2 : res_eq s1 s2 -> attempt_eq (attempt_of c1 s1) (attempt_of c2 s2).
  Proof.
    intros H2. pose proof (res_step _ _ H2) as Hs. pose proof (res_adapt _ _ H2) as Ha.
    rewrite !attempt_of_eq. rewrite Hs, Ha. destruct Hn, H2.
    constructor; cbn; rewrite ?re_y0, ?re_tprev0, ?re_tnext0, ?re_jump0, ?sn_t1; try reflexivity.
    intros t. apply sn_interp.
  Qed.
  Lemma res_body s1 s2 : res_eq s1 s2 ->
    res_eq (body_fun c1 s1) (body_fun c2 s2) /\
    (cfg_event c1 <> None -> ev_eq (body_fun c1 s1) (body_fun c2 s2)).
  Proof.
    intros H2.
    pose proof (res_step _ _ H2) as Hs.
    pose proof (res_adapt _ _ H2) as Ha.
    pose proof (res_attempt _ _ H2) as Hat.
    destruct Hat.
    assert (Hpre : pre_result c1 s1 = pre_result c2 s2).
    { unfold pre_result. rewrite Hs, Ha, ae_keep. destruct H2. rewrite re_result0. reflexivity. }
    assert (Hm1 : forall e, raw_mask c1 e s1 = raw_mask c2 e s2).
    { intros e. unfold raw_mask. rewrite ae_end, ae_y. destruct H2. rewrite re_eval0. reflexivity. }
    destruct (cfg_event c1) as [e|] eqn:He1.
    - assert (He2 : cfg_event c2 = Some e) by (destruct Hn; congruence).
      destruct (body_event_times c1 s1 e He1) as (T1 & T2 & T3).
      destruct (body_event_times c2 s2 e He2) as (T1' & T2' & T3').
      destruct Hn, H2. split; [|intros _; unfold ev_eq; split; [congruence|split; congruence]].
      constructor; rewrite ?body_y, ?body_tprev, ?body_tnext, ?body_made_jump, ?body_solver_state,
        ?body_controller_state,
        ?(body_result_event _ _ _ He1), ?(body_result_event _ _ _ He2),
        ?(body_mask_event _ _ _ He1), ?(body_mask_event _ _ _ He2),
        ?(body_values_event _ _ _ He1), ?(body_values_event _ _ _ He2); try congruence.
      all: rewrite ?ae_keep, ?ae_end, ?ae_y, ?re_jump0, ?re_ss0, ?Hs, ?Ha, ?sn_t1;
        try reflexivity.
      unfold clip_to_end. rewrite sn_mid. reflexivity.
    - assert (He2 : cfg_event c2 = None) by (destruct Hn; congruence).
      destruct Hn, H2. split; [|congruence].
      constructor; rewrite ?body_y, ?body_tprev, ?body_tnext, ?body_made_jump, ?body_solver_state,
        ?body_controller_state,
        ?(body_result_no_event _ _ He1), ?(body_result_no_event _ _ He2); try congruence;
        try (unfold body_fun; rewrite He1, He2; cbn; congruence).
      all: rewrite ?ae_keep, ?ae_end, ?ae_y, ?re_jump0, ?re_ss0, ?Hs, ?Ha, ?sn_t1;
        try reflexivity.
      unfold clip_to_end. rewrite sn_mid. reflexivity.
  Qed.

  Lemma res_while n : forall s1 s2,
    res_eq s1 s2 ->
    res_eq (while_loop c1 n s1) (while_loop c2 n s2) /\
    Forall2 attempt_eq (history c1 n s1) (history c2 n s2) /\
    (history c2 n s2 <> [] -> cfg_event c1 <> None -> ev_eq (while_loop c1 n s1) (while_loop c2 n s2)).
  Proof.
    induction n as [|n IH]; intros s1 s2 H2; cbn [while_loop history];
      [split; [exact H2|]; split; [constructor|]; congruence|].
    rewrite (res_cond _ _ H2). destruct (cond_fun c2 s2) eqn:Hc;
      [|split; [exact H2|]; split; [constructor|]; congruence].
    destruct (res_body _ _ H2) as [B1 B2].
    destruct (IH _ _ B1) as (I1 & I2 & I3).
    split; [exact I1|]. split; [constructor; [apply res_attempt; assumption|exact I2]|].
    intros _ Hev. specialize (B2 Hev).
    destruct (history c2 n (body_fun c2 s2)) as [|b l] eqn:Hh.
    - assert (W2 : while_loop c2 n (body_fun c2 s2) = body_fun c2 s2).
      { destruct n; [reflexivity|]. cbn [history while_loop] in *.
        destruct (cond_fun c2 (body_fun c2 s2)); [discriminate|reflexivity]. }
      assert (W1 : while_loop c1 n (body_fun c1 s1) = body_fun c1 s1).
      { destruct n; [reflexivity|]. cbn [history while_loop] in *. rewrite (res_cond _ _ B1).
        destruct (cond_fun c2 (body_fun c2 s2)); [discriminate|reflexivity]. }
      rewrite W1, W2. exact B2.
    - apply I3; [congruence|exact Hev].
  Qed.

  Lemma res_final_time s1 s2 b :
    res_eq s1 s2 -> rf_extensional c2 ->
    (b = true -> cfg_event c1 <> None -> ev_eq s1 s2 /\ (st_num_steps s1 =? 0)%nat = (st_num_steps s2 =? 0)%nat) ->
    final_time c1 b s1 = final_time c2 b s2.
  Proof.
    intros H2 Hext Hev. unfold final_time.
    assert (Hee : cfg_event c1 = cfg_event c2) by (destruct Hn; congruence).
    rewrite Hee in *.
    destruct (cfg_event c2) as [e|] eqn:He; [|destruct H2; congruence].
    destruct (ev_root_finder e) as [rf|] eqn:Hr; [|destruct H2; congruence].
    destruct b; [|destruct H2; congruence].
    destruct Hev as [(E1 & E2 & E3) E4]; [reflexivity|congruence|].
    assert (Hint : forall t, event_interp c1 s1 t = event_interp c2 s2 t).
    { intros t. unfold event_interp. destruct Hn, H2. rewrite E3.
      destruct (st_event_dense s2); [|exact re_y0]. rewrite sn_interp. congruence. }
    unfold root_find_event.
    assert (Hh : event_happened s1 = event_happened s2)
      by (unfold event_happened; destruct H2; congruence).
    assert (Htr : forall t, to_root_find c1 e s1 (event_happened s1) t
                            = to_root_find c2 e s2 (event_happened s2) t).
    { intros t. rewrite Hh. unfold to_root_find. rewrite Hint. destruct H2. rewrite E2, re_mask0.
      reflexivity. }
    rewrite (Hext rf e _ _ (st_event_tprev s1) (st_event_tnext s1) (st_event_tnext s1) He Hr Htr).
    rewrite E1, E2.
    destruct (rf _ _ _ _) as [tf err]. rewrite Hint. destruct H2.
    rewrite E4, re_y0, re_result0. reflexivity.
  Qed.
  End Two.

  Lemma tnext_le_t1 (c : config) i s0 n :
    midpoint_ok c -> cfg_t0 c <= cfg_t1 c -> init_state c i = Some s0 ->
    st_tnext (while_loop c n s0) <= cfg_t1 c.
  Proof.
    intros Hm Ht Hi. destruct (init_time _ _ _ Hi) as (I1 & _ & I3 & _).
    apply (while_ind c (fun s => st_tnext s <= cfg_t1 c)); [|rewrite I3; lia].
    intros s _ _. rewrite body_tnext. unfold clip_to_end. rewrite floor_lt.
    destruct (Z.ltb_spec (cfg_t1 c - 100) (ao_tnext (do_adapt c s))); [|lia].
    destruct (at_keep _); [lia|].
    assert (He : at_end (attempt_of c s) <= cfg_t1 c) by (rewrite attempt_of_eq; cbn; lia).
    pose proof (Hm _ _ He). lia.
  Qed.

  (** The initial state of the resumed solve agrees with the state at which the first stopped. *)
  Lemma resume_init (c1 c2 : config) i1 i2 s0 s2 n :
    same_numerics c1 c2 -> midpoint_ok c1 -> cfg_t0 c1 <= cfg_t1 c1 -> results_ok c1 ->
    init_state c1 i1 = Some s0 ->
    let s := while_loop c1 n s0 in
    cond_fun c1 s = true ->
    cfg_t0 c2 = st_tprev s -> in_y i2 = st_y s -> in_tnext i2 = st_tnext s ->
    in_made_jump i2 = st_made_jump s -> in_solver_state i2 = st_solver_state s ->
    in_controller_state i2 = st_controller_state s ->
    init_state c2 i2 = Some s2 ->
    res_eq s s2.
  Proof.
    intros Hn Hm Ht Hok Hi s Hc T0 R1 R2 R3 R4 R5 Hi2.
    pose proof (tnext_le_t1 c1 i1 s0 n Hm Ht Hi) as Htn. fold s in Htn.
    destruct (init_time _ _ _ Hi2) as (J1 & J2 & J3 & _ & _ & _ & J4 & J5 & J6 & _).
    assert (Hs : st_result s = successful) by (apply cond_unfinished in Hc; tauto).
    pose proof (run_mask_inv c1 i1 s0 n Hok Hi) as Hmask. fold s in Hmask.
    unfold mask_inv in Hmask. rewrite Hs in Hmask. cbn in Hmask.
    assert (Ht1 : cfg_t1 c1 = cfg_t1 c2) by (destruct Hn; assumption).
    assert (Hev : st_event_values s2 = st_event_values s /\ st_event_mask s2 = st_event_mask s /\
                  st_result s2 = st_result s).
    { assert (Hee : cfg_event c1 = cfg_event c2) by (destruct Hn; congruence).
      unfold init_state, obind in Hi2. rewrite <- Hee in Hi2.
      destruct (omap _ (cfg_subs c2)); [|discriminate]. destruct (omap2 _ _ _); [|discriminate].
      destruct (if cfg_dense c2 then _ else _); [|discriminate].
      destruct (cfg_event c1) as [e|] eqn:He.
      - destruct (run_ev_inv c1 e i1 s0 n He Hi) as [Hv Hb]. fold s in Hv, Hb.
        rewrite T0, R1 in Hi2. rewrite Hs in Hb. specialize (Hb eq_refl).
        unfold values_inv in Hv. rewrite <- Hv in Hi2.
        assert (Hz : map init_mask (st_event_values s) = map (fun _ => false) (ev_cond_fn e)).
        { rewrite Hv, map_map. apply map_ext_in. intros cf Hin. destruct cf as [f|f d]; cbn; [|reflexivity].
          apply Hb. exact Hin. }
        rewrite Hz in Hi2.
        assert (Hft : first_true false (map (fun _ => false) (ev_cond_fn e))
                      = (map (fun _ => false) (ev_cond_fn e), false)).
        { clear. induction (ev_cond_fn e) as [|cf l IH]; cbn; [reflexivity|].
          rewrite IH. reflexivity. }
        rewrite Hft in Hi2. injection Hi2 as <-. cbn. rewrite Hs.
        split; [reflexivity|]. split; [|reflexivity].
        assert (Hlen : length (st_event_mask s) = length (ev_cond_fn e)).
        { apply (while_ind c1 (fun s => length (st_event_mask s) = length (ev_cond_fn e) /\ values_inv c1 e s)).
          - intros s' _ [_ Hv']. split; [|apply values_inv_body; exact He].
            rewrite (body_mask_event _ _ _ He), first_true_length, (raw_mask_eq _ _ _ Hv'), map_length.
            reflexivity.
          - split; [|eapply values_inv_init; eauto].
            clear - Hi He. unfold init_state, obind in Hi. rewrite He in Hi.
            destruct (omap _ _); [|discriminate]. destruct (omap2 _ _ _); [|discriminate].
            destruct (if cfg_dense c1 then _ else _); [|discriminate].
            set (ml := map init_mask _) in Hi. pose proof (first_true_length ml false) as Hl.
            destruct (first_true false ml). injection Hi as <-. cbn in *. rewrite Hl.
            subst ml. rewrite !map_length. reflexivity. }
        apply count_occ_existsb in Hmask. clear - Hlen Hmask.
        revert Hlen Hmask. generalize (st_event_mask s) as l. generalize (ev_cond_fn e) as k.
        induction k as [|x k IH]; intros [|b l] Hlen Hx; cbn in *; try discriminate; [reflexivity|].
        apply orb_false_iff in Hx. destruct Hx as [-> Hx]. f_equal. apply IH; [lia|exact Hx].
      - cbn in Hi2. injection Hi2 as <-. cbn. rewrite Hs.
        assert (Hnil : st_event_values s = [] /\ st_event_mask s = []).
        { apply (while_ind c1 (fun s => st_event_values s = [] /\ st_event_mask s = [])).
          - intros s' _ H. unfold body_fun. rewrite He. cbn. exact H.
          - clear - Hi He. unfold init_state, obind in Hi. rewrite He in Hi.
            destruct (omap _ _); [|discriminate]. destruct (omap2 _ _ _); [|discriminate].
            destruct (if cfg_dense c1 then _ else _); [|discriminate]. cbn in Hi. injection Hi as <-. auto. }
        destruct Hnil as [-> ->]. auto. }
    destruct Hev as (V1 & V2 & V3).
    constructor; try congruence.
    rewrite J3, R2. rewrite <- Ht1. lia.
  Qed.

  Lemma pf_C55_stop_and_resume (c1 c2 c : config) (i1 i2 i : initial)
        (h1 h2 h : list attempt) (o1 o2 o : outcome) (n1 n2 : nat) :
    same_numerics c c1 -> same_numerics c1 c2 ->
    cfg_max_steps c1 = Some n1 -> cfg_max_steps c2 = Some n2 -> cfg_max_steps c = Some (n1 + n2)%nat ->
    stepto_len c = None -> midpoint_ok c1 -> cfg_t0 c <= cfg_t1 c -> results_ok c1 ->
    rf_results_ok c1 -> rf_extensional c1 -> rf_extensional c2 ->
    cfg_t0 c = cfg_t0 c1 -> same_start i i1 ->
    solve_run c1 i1 h1 o1 -> out_result o1 = max_steps_reached ->
    let s := out_state o1 in
    cfg_t0 c2 = st_tprev s -> in_y i2 = st_y s -> in_tnext i2 = st_tnext s ->
    in_made_jump i2 = st_made_jump s -> in_solver_state i2 = st_solver_state s ->
    in_controller_state i2 = st_controller_state s ->
    solve_run c2 i2 h2 o2 -> solve_run c i h o ->
    Forall2 attempt_eq h (h1 ++ h2) /\
    out_tfinal o = out_tfinal o2 /\ out_yfinal o = out_yfinal o2 /\ out_result o = out_result o2 /\
    st_num_steps (out_state o) = (st_num_steps (out_state o1) + st_num_steps (out_state o2))%nat /\
    st_solver_state (out_state o) = st_solver_state (out_state o2) /\
    st_controller_state (out_state o) = st_controller_state (out_state o2).
  Proof.
    intros Hn Hn2 M1 M2 M Hst Hmid Ht Hok Hrfo Hext1 Hext2 T0 (S1 & S2 & S3 & S4 & S5 & S6) R1 Hmax s
           T2 E1 E2 E3 E4 E5 R2 R.
    pose proof (proj1 (pf_C01_max_steps_iff c1 i1 h1 o1 Hok Hrfo R1) Hmax) as (L1 & U1 & Su1).
    assert (Hst1 : stepto_len c1 = None) by (destruct Hn; congruence).
    assert (Ht1 : cfg_t1 c = cfg_t1 c1) by (destruct Hn; assumption).
    destruct R1 as (s10 & k1 & I1 & K1 & Hh1 & F1). rewrite M1 in K1. subst k1.
    destruct R2 as (s20 & k2 & I2 & K2 & Hh2 & F2). rewrite M2 in K2. subst k2.
    destruct R as (s00 & k & I0 & K & Hh & F). rewrite M in K. subst k.
    destruct (finish_state _ _ _ F1) as (Hs1 & _).
    destruct (finish_state _ _ _ F2) as (Hs2 & r2 & Tf2 & Hr2).
    destruct (finish_state _ _ _ F) as (Hs & r & Tf & Hr).
    subst s. rewrite Hs1 in *.
    assert (Hc10 : core_eq s00 s10) by (apply (core_init c c1 i i1); assumption).
    destruct (core_while c c1 n1 _ _ Hn Hc10) as [Hc1 Hhist1].
    assert (Hcond : cond_fun c1 (while_loop c1 n1 s10) = true)
      by (apply cond_unfinished; split; assumption).
    assert (Hle1 : cfg_t0 c1 <= cfg_t1 c1) by lia.
    pose proof (resume_init c1 c2 i1 i2 s10 s20 n1 Hn2 Hmid Hle1 Hok I1 Hcond T2 E1 E2 E3 E4 E5 I2) as Hre.
    assert (Hre0 : res_eq (while_loop c n1 s00) s20).
    { destruct Hc1, Hre. constructor; congruence. }
    assert (Hn0 : same_numerics c c2).
    { destruct Hn, Hn2. constructor; intros; congruence. }
    destruct (res_while c c2 Hn0 Hst n2 _ _ Hre0) as (Hf & Hhist2 & Hevf).
    assert (Hhh : h = history c n1 s00 ++ history c n2 (while_loop c n1 s00))
      by (rewrite Hh; apply history_add).
    rewrite while_add in *.
    set (sf := while_loop c n2 (while_loop c n1 s00)) in *.
    set (sf2 := while_loop c2 n2 s20) in *.
    assert (Hcf : cond_fun c sf = cond_fun c2 sf2) by (apply res_cond; assumption).
    assert (Hnum0 : st_num_steps s10 = 0%nat /\ st_num_steps s20 = 0%nat /\ st_num_steps s00 = 0%nat).
    { destruct (init_time _ _ _ I1) as (_ & _ & _ & A & _). destruct (init_time _ _ _ I2) as (_ & _ & _ & B & _).
      destruct (init_time _ _ _ I0) as (_ & _ & _ & C & _). auto. }
    destruct Hnum0 as (N1 & N2 & N0).
    assert (Hnsf : st_num_steps sf = (st_num_steps (while_loop c1 n1 s10) + st_num_steps sf2)%nat).
    { subst sf sf2. rewrite !while_num_steps, N0, N1, N2. cbn [Nat.add].
      assert (Hl : forall l l' : list attempt, Forall2 attempt_eq l l' -> length l = length l')
        by (induction 1; cbn; congruence).
      rewrite (Hl _ _ Hhist1), (Hl _ _ Hhist2). reflexivity. }
    assert (Hft : final_time c (event_happened sf) sf = final_time c2 (event_happened sf2) sf2).
    { assert (Hh' : event_happened sf = event_happened sf2)
        by (unfold event_happened; destruct Hf; congruence).
      rewrite Hh'. apply res_final_time; try assumption.
      intros Hhap Hevn.
      assert (Hh2n : history c2 n2 s20 <> []).
      { intros Hnil. (* no step: then the mask of s20 is that of the first solve's end: empty *)
        assert (W2 : sf2 = s20).
        { subst sf2. destruct n2; [reflexivity|]. cbn [history while_loop] in *.
          destruct (cond_fun c2 s20); [discriminate|reflexivity]. }
        rewrite W2 in Hhap.
        pose proof (run_mask_inv c1 i1 s10 n1 Hok I1) as Hmk.
        pose proof (happened_event c1 _ Hmk) as Hx. rewrite Su1 in Hx. cbn in Hx.
        unfold event_happened in Hhap, Hx. destruct Hre. rewrite <- re_mask0 in Hhap. congruence. }
      split; [apply Hevf; assumption|].
      assert (Hpos : (0 < st_num_steps sf2)%nat).
      { subst sf2. rewrite while_num_steps. destruct (history c2 n2 s20); [congruence|cbn; lia]. }
      rewrite Hnsf. destruct (Nat.eqb_spec (st_num_steps sf2) 0); [lia|].
      apply Nat.eqb_neq. lia. }
    rewrite Hft, Tf2 in Tf. injection Tf as A1 A2 A3.
    rewrite Hs, Hs2. fold sf2.
    split; [rewrite Hhh, Hh1, Hh2; apply Forall2_app; assumption|].
    split; [congruence|]. split; [congruence|]. split; [rewrite Hr, Hr2, Hcf, A3; reflexivity|].
    split; [exact Hnsf|]. destruct Hf. split; congruence.
  Qed.
End Resume.

Section Total.
  Context {Y SS CS DI E V MS : Type}.
  Notation config := (config Y SS CS DI E V MS).
  Notation initial := (initial Y SS CS MS).

  (** No exception is raised on saving if each output has at least one slot. *)
  Lemma save_keeps_size (t : Z) (y : Y) fn (sv sv' : save_state V) rep pred :
    save_ t y fn sv rep pred = Some sv' ->
    length (ss_ts sv') = length (ss_ts sv) /\ length (ss_ys sv') = length (ss_ys sv).
  Proof.
    unfold save_.
    destruct (if pred then Some (Fin t) else _); [|discriminate].
    destruct (if pred then Some (Some (fn t y)) else _); [|discriminate].
    unfold dynamic_update_slice. rewrite !repeat_length.
    destruct (rep <=? length (ss_ts sv))%nat eqn:H1; [|discriminate].
    destruct (rep <=? length (ss_ys sv))%nat eqn:H2; [|discriminate].
    intros H; injection H as <-. cbn. apply Nat.leb_le in H1, H2.
    rewrite !app_length, !firstn_length, !skipn_length, !repeat_length. lia.
  Qed.

  Lemma at_set_length {A} (l : list A) k v : length (at_set l k v) = length l.
  Proof. revert k. induction l as [|a l IH]; intros [|k]; cbn; auto. Qed.

  Lemma save_total (t : Z) (y : Y) fn (sv : save_state V) rep pred :
    (0 < length (ss_ts sv))%nat -> length (ss_ys sv) = length (ss_ts sv) ->
    (rep <= length (ss_ts sv))%nat -> exists sv', save_ t y fn sv rep pred = Some sv'.
  Proof.
    intros H0 H1 H2. unfold save_.
    assert (Hg : forall A (l : list A) k, (0 < length l)%nat -> exists x, get_clamp l k = Some x).
    { intros A l k Hl. unfold get_clamp. destruct (nth_error l _) eqn:Hx; [eauto|].
      apply nth_error_None in Hx. lia. }
    destruct (Hg _ (ss_ts sv) (save_index sv) H0) as [x Hx].
    destruct (Hg _ (ss_ys sv) (save_index sv)) as [x' Hx']; [lia|].
    rewrite Hx, Hx'.
    unfold dynamic_update_slice.
    destruct pred; rewrite !repeat_length, H1, (proj2 (Nat.leb_le _ _) H2); eauto.
  Qed.

  Definition sized (sub : subsaveat Y V) (sv : save_state V) : Prop :=
    (0 < length (ss_ts sv))%nat /\ length (ss_ys sv) = length (ss_ts sv) /\
    (length (sub_ts_list sub) <= length (ss_ts sv))%nat.

  Lemma omap2_total_sized (f : subsaveat Y V -> save_state V -> option (save_state V)) subs svs :
    (forall sub sv, sized sub sv -> exists sv', f sub sv = Some sv' /\ sized sub sv') ->
    Forall2 sized subs svs -> exists r, omap2 f subs svs = Some r /\ Forall2 sized subs r.
  Proof.
    intros Hf H. induction H as [|sub sv subs svs Hs H IH]; cbn; [eauto|].
    destruct (Hf _ _ Hs) as (sv' & -> & Hs'). destruct IH as (r & -> & Hr). cbn. eauto.
  Qed.

  Lemma body_sized (c : config) s :
    Forall2 sized (cfg_subs c) (st_save s) -> Forall2 sized (cfg_subs c) (st_save (body_fun c s)).
  Proof.
    intros H. rewrite body_save. revert H.
    generalize (at_keep (attempt_of c s)), (at_end (attempt_of c s)), (at_y (attempt_of c s)),
       (at_to (attempt_of c s)), (at_interp (attempt_of c s)).
    intros keep te y tn ev. generalize (st_num_accepted s + if keep then 1 else 0)%nat. intros k H.
    induction H as [|sub sv subs svs Hs H IH]; cbn [map2]; constructor; [|exact IH].
    assert (H1 : sized sub (save_ts keep tn ev sub sv)).
    { unfold save_ts. destruct (sub_ts sub) as [ts|]; [|exact Hs].
      generalize (length ts) at 1. intros fuel. clear - Hs. revert sv Hs.
      induction fuel as [|fuel IH]; intros sv Hs; cbn; [exact Hs|].
      destruct (get_clamp ts _); [|exact Hs]. destruct (keep && _ && _); [|exact Hs].
      apply IH. unfold sized in *. cbn. rewrite !at_set_length. exact Hs. }
    unfold save_steps. destruct (sub_steps sub =? 0)%nat; [exact H1|].
    destruct (keep && _); [|exact H1]. unfold sized in *. cbn. rewrite !at_set_length. exact H1.
  Qed.

  Lemma pf_C05_no_exception (c : config) (i : initial) (m : nat) :
    cfg_max_steps c = Some m ->
    Forall (fun sub => (0 < allocated (Some m) sub)%nat) (cfg_subs c) ->
    exists o, solve c i = Some o.
  Proof.
    intros Hm Hsubs. unfold solve. rewrite Hm. unfold obind at 1.
    assert (H1 : exists svs, omap (allocate_output (in_pad i) (Some m)) (cfg_subs c) = Some svs /\
                             Forall2 sized (cfg_subs c) svs).
    { clear Hm. induction Hsubs as [|sub subs H HF IH]; cbn; [eauto|].
      destruct IH as (svs & Hsv & HF').
      assert (Ha : exists n, out_size (Some m) sub = Some n /\ n = allocated (Some m) sub /\
                     (length (sub_ts_list sub) <= n)%nat).
      { unfold out_size, allocated, sub_ts_list.
        destruct (sub_steps sub) as [|k] eqn:Hk; cbn [Nat.eqb];
          eexists; (split; [reflexivity|]); cbn [orb length];
          destruct (sub_ts sub); cbn [length]; destruct (sub_t0 sub), (sub_t1 sub); cbn [andb]; split;
          try lia; destruct (negb _); lia. }
      destruct Ha as (n & Hn & Hn2 & Hn3).
      unfold allocate_output at 1. rewrite Hn. cbn. rewrite Hsv. cbn.
      eexists. split; [reflexivity|]. constructor; [|exact HF'].
      unfold sized. cbn. rewrite !repeat_length. lia. }
    destruct H1 as (svs & Hsv & HF). unfold init_state. rewrite Hm, Hsv. cbn [obind].
    assert (Hsz : forall sub sv sv' t (y : Y) fn rep pred, sized sub sv -> save_ t y fn sv rep pred = Some sv' -> sized sub sv').
    { intros sub sv sv' t y fn rep pred (A & B & C) Hs. destruct (save_keeps_size _ _ _ _ _ _ _ Hs) as [D F].
      unfold sized. rewrite D, F. auto. }
    assert (Htot : forall sub sv t (y : Y) fn rep pred, sized sub sv -> (rep <= 1 \/ rep = length (sub_ts_list sub))%nat ->
               exists sv', save_ t y fn sv rep pred = Some sv' /\ sized sub sv').
    { intros sub sv t y fn rep pred Hs Hr.
      destruct (save_total t y fn sv rep pred) as (sv' & Hsv'); try (unfold sized in Hs; lia).
      eauto. }
    destruct (omap2_total_sized (save_t0 c (in_y i)) (cfg_subs c) svs) as (svs2 & -> & HF2);
      [|exact HF|].
    { intros sub sv Hs. unfold save_t0. destruct (sub_t0 sub); [|eauto]. apply Htot; [exact Hs|lia]. }
    cbn [obind].
    assert (Hd : exists k, (if cfg_dense c then Some m else Some 0%nat) = Some k)
      by (destruct (cfg_dense c); eauto).
    destruct Hd as [k ->]. destruct (first_true _ _) as [mask had]. cbn [obind].
    set (s0 := {| st_y := _ |}).
    assert (Hs0 : Forall2 sized (cfg_subs c) (st_save s0)) by exact HF2.
    assert (Hsf : Forall2 sized (cfg_subs c) (st_save (while_loop c m s0))).
    { apply (while_ind c (fun s => Forall2 sized (cfg_subs c) (st_save s))); [|exact Hs0].
      intros s _ H. apply body_sized. exact H. }
    revert Hsf. generalize (while_loop c m s0). intros s Hsf.
    unfold finish, finish_batched. destruct (final_time c _ s) as [[tf yf] r].
    set (v := if has_root_finder c then _ else _).
    assert (Hv : Forall2 sized (cfg_subs c) v).
    { subst v. destruct (has_root_finder c); [|exact Hsf]. clear - Hsf.
      induction Hsf as [|sub sv subs svs Hs H IH]; cbn; constructor; [|exact IH].
      unfold sized, unsave in *. cbn. rewrite map_length.
      assert (Hml : forall A B C (f : A -> B -> C) l l', length l = length l' -> length (map2 f l l') = length l).
      { clear. intros A B C f l. induction l; intros [|b l'] H; cbn in *; try discriminate; auto. }
      rewrite Hml by lia. lia. }
    assert (Hw : exists w, (if cfg_t0 c =? cfg_t1 c then omap2 (save_if_t0_equals_t1 c yf) (cfg_subs c) v
                            else Some v) = Some w /\ Forall2 sized (cfg_subs c) w).
    { destruct (cfg_t0 c =? cfg_t1 c); [|eauto]. apply omap2_total_sized; [|exact Hv].
      intros sub sv Hs. unfold save_if_t0_equals_t1.
      destruct (sub_ts sub) as [ts|] eqn:Hts; [|eauto]. apply Htot; [exact Hs|].
      right. unfold sub_ts_list. rewrite Hts. reflexivity. }
    destruct Hw as (w & -> & Hw). cbn [obind].
    destruct (omap2_total_sized (save_t1 (has_root_finder c) (st_num_accepted s) tf yf) (cfg_subs c) w)
      as (z & -> & _); [|exact Hw|cbn; eauto].
    intros sub sv Hs. unfold save_t1.
    match goal with |- exists _, (if ?b then _ else _) = _ /\ _ => destruct b end; [eauto|].
    apply Htot; [exact Hs|lia].
  Qed.

  Lemma solve_run_of_solve (c : config) (i : initial) o :
    solve c i = Some o -> exists h, solve_run c i h o.
  Proof.
    unfold solve, obind. destruct (init_state c i) as [s0|] eqn:Hi; [|discriminate].
    destruct (cfg_max_steps c) as [m|] eqn:Hm; [|discriminate]. intros Hf.
    exists (history c m s0), s0, m. rewrite Hm. auto.
  Qed.
End Total.
