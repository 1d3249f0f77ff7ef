(** Non-interference, events and resumption, in terms of complete solves. *)
From Coq Require Import ZArith List Bool Arith Lia Sorted.
From Verif Require Import Model_Result Model_Loop Spec_Loop Proof_LoopBasic Proof_LoopSave
  Proof_LoopFinish Proof_LoopTs Proof_LoopEvent Proof_LoopRoot Proof_LoopCore Proof_PropLoop.
Import ListNotations.
Open Scope Z_scope.

Section Pair.
  Context {Y SS CS DI E V1 MS1 V2 MS2 : Type}.

  (** Two runs of the same problem can be given the same number of iterations. *)
  Lemma run_pair (c1 : config Y SS CS DI E V1 MS1) (c2 : config Y SS CS DI E V2 MS2)
        i1 i2 h1 h2 o1 o2 :
    same_numerics c1 c2 -> cfg_t0 c1 = cfg_t0 c2 -> cfg_max_steps c1 = cfg_max_steps c2 ->
    same_start i1 i2 ->
    solve_run c1 i1 h1 o1 -> solve_run c2 i2 h2 o2 ->
    exists s1 s2 n, init_state c1 i1 = Some s1 /\ init_state c2 i2 = Some s2 /\ core_eq s1 s2 /\
      h1 = history c1 n s1 /\ h2 = history c2 n s2 /\
      finish c1 (while_loop c1 n s1) = Some o1 /\ finish c2 (while_loop c2 n s2) = Some o2.
  Proof.
    intros Hn Ht0 Hm (S1 & S2 & S3 & S4 & S5 & S6) (s1 & n1 & I1 & N1 & -> & F1)
           (s2 & n2 & I2 & N2 & -> & F2).
    assert (Hc : core_eq s1 s2) by (eapply core_init; eauto).
    exists s1, s2. rewrite Hm in N1.
    destruct (cfg_max_steps c2).
    - subst n1 n2. exists n. repeat (split; [assumption || reflexivity|]). assumption.
    - assert (N1' : cond_fun c2 (while_loop c2 n1 s2) = false).
      { rewrite <- (core_cond c1 c2 _ _ Hn (proj1 (core_while c1 c2 n1 _ _ Hn Hc))). exact N1. }
      assert (N2' : cond_fun c1 (while_loop c1 n2 s1) = false).
      { rewrite (core_cond c1 c2 _ _ Hn (proj1 (core_while c1 c2 n2 _ _ Hn Hc))). exact N2. }
      exists (Nat.max n1 n2).
      rewrite (history_more c1 n1 (Nat.max n1 n2)), (history_more c2 n2 (Nat.max n1 n2)),
        (while_more c1 n1 (Nat.max n1 n2)), (while_more c2 n2 (Nat.max n1 n2))
        by (assumption || lia).
      repeat (split; [assumption || reflexivity|]). assumption.
  Qed.

  Lemma finish_result (c : config Y SS CS DI E V1 MS1) s o :
    finish c s = Some o ->
    out_state o = s /\
    exists r, final_time c (event_happened s) s = (out_tfinal o, out_yfinal o, r) /\
              out_result o = where_ (cond_fun c s) max_steps_reached r.
  Proof. apply finish_state. Qed.
End Pair.

Section PropPair.
  Context {Y SS CS DI E V1 MS1 V2 MS2 : Type}.

  Lemma pf_C13_observing_does_not_disturb
        (c1 : config Y SS CS DI E V1 MS1) (c2 : config Y SS CS DI E V2 MS2)
        i1 i2 h1 h2 o1 o2 :
    same_numerics c1 c2 -> cfg_t0 c1 = cfg_t0 c2 -> cfg_max_steps c1 = cfg_max_steps c2 ->
    same_start i1 i2 -> rf_extensional c2 ->
    solve_run c1 i1 h1 o1 -> solve_run c2 i2 h2 o2 ->
    Forall2 attempt_eq h1 h2 /\
    out_tfinal o1 = out_tfinal o2 /\ out_yfinal o1 = out_yfinal o2 /\
    out_result o1 = out_result o2 /\
    st_num_steps (out_state o1) = st_num_steps (out_state o2) /\
    st_num_accepted (out_state o1) = st_num_accepted (out_state o2) /\
    st_num_rejected (out_state o1) = st_num_rejected (out_state o2) /\
    st_solver_state (out_state o1) = st_solver_state (out_state o2) /\
    st_controller_state (out_state o1) = st_controller_state (out_state o2) /\
    st_made_jump (out_state o1) = st_made_jump (out_state o2) /\
    st_event_mask (out_state o1) = st_event_mask (out_state o2).
  Proof.
    intros Hn Ht0 Hm Hst Hext R1 R2.
    destruct (run_pair c1 c2 i1 i2 h1 h2 o1 o2) as (s1 & s2 & n & I1 & I2 & Hc & -> & -> & F1 & F2);
      try assumption.
    destruct (core_while c1 c2 n _ _ Hn Hc) as [Hc' Hh].
    split; [exact Hh|].
    destruct (finish_result _ _ _ F1) as (-> & r1 & T1 & ->).
    destruct (finish_state _ _ _ F2) as (-> & r2 & T2 & ->).
    assert (Hhap : event_happened (while_loop c1 n s1) = event_happened (while_loop c2 n s2))
      by (unfold event_happened; destruct Hc'; congruence).
    rewrite Hhap, (core_final_time c1 c2 _ _ _ Hn Hc' Hext) in T1. rewrite T2 in T1.
    injection T1 as -> -> ->. rewrite (core_cond c1 c2 _ _ Hn Hc').
    destruct Hc'. repeat split; assumption.
  Qed.
End PropPair.

Section PropSubs.
  Context {Y SS CS DI E V MS1 MS2 : Type}.

  Lemma pf_C14_subs_independent
        (c1 : config Y SS CS DI E V MS1) (c2 : config Y SS CS DI E V MS2)
        i1 i2 h1 h2 o1 o2 (j1 j2 : nat) (sub : subsaveat Y V) :
    same_numerics c1 c2 -> cfg_t0 c1 = cfg_t0 c2 -> cfg_max_steps c1 = cfg_max_steps c2 ->
    same_start i1 i2 -> rf_extensional c2 ->
    nth_error (cfg_subs c1) j1 = Some sub -> nth_error (cfg_subs c2) j2 = Some sub ->
    solve_run c1 i1 h1 o1 -> solve_run c2 i2 h2 o2 ->
    exists sv, nth_error (out_save o1) j1 = Some sv /\ nth_error (out_save o2) j2 = Some sv.
  Proof.
    intros Hn Ht0 Hm Hst Hext J1 J2 R1 R2.
    destruct (run_pair c1 c2 i1 i2 h1 h2 o1 o2) as (s1 & s2 & n & I1 & I2 & Hc & -> & -> & F1 & F2);
      try assumption.
    destruct Hst as (Hy & _ & _ & _ & _ & Hp).
    pose proof (save_rel_init c1 c2 j1 j2 sub J1 J2 i1 i2 s1 s2 Ht0 Hm Hy Hp I1 I2) as Hr.
    destruct (core_while c1 c2 n _ _ Hn Hc) as [Hc' _].
    pose proof (save_rel_while c1 c2 j1 j2 sub Hn J1 J2 n s1 s2 Hc Hr) as Hr'.
    destruct (save_rel_finish c1 c2 j1 j2 sub Hn J1 J2 _ _ _ _ Hc' Hr' Ht0 Hext F1 F2) as (He & _).
    assert (Hex : exists sv, nth_error (out_save o1) j1 = Some sv).
    { clear - F1 J1 Hr'. destruct Hr' as (sv & Hsv & _). revert F1 Hsv.
      generalize (while_loop c1 n s1) as s. intros s F1 Hsv.
      assert (Hlen : forall A B C (f : A -> B -> option C) l l' r j a b, omap2 f l l' = Some r ->
              nth_error l j = Some a -> nth_error l' j = Some b -> exists x, nth_error r j = Some x).
      { clear. intros A B C f l. induction l as [|x l IH]; intros l' r j a b H Ha Hb; [destruct j; discriminate|].
        destruct l' as [|y l']; [destruct j; discriminate|]. cbn in H. unfold obind in H.
        destruct (f x y); [|discriminate]. destruct (omap2 f l l') eqn:Hl; [|discriminate].
        injection H as <-. destruct j; cbn in *; eauto. }
      unfold finish, finish_batched, obind in F1.
      destruct (final_time c1 _ s) as [[tf yf] r].
      set (v := if has_root_finder c1 then map (unsave tf) (st_save s) else st_save s) in *.
      assert (Hv : exists x, nth_error v j1 = Some x).
      { subst v. destruct (has_root_finder c1); [|eauto]. rewrite nth_error_map, Hsv. cbn. eauto. }
      destruct Hv as [x Hx].
      destruct (if cfg_t0 c1 =? cfg_t1 c1 then _ else _) as [w|] eqn:Hw; [|discriminate].
      assert (Hw' : exists x, nth_error w j1 = Some x).
      { destruct (cfg_t0 c1 =? cfg_t1 c1); [eapply Hlen; eauto|]. injection Hw as <-. eauto. }
      destruct Hw' as [x' Hx']. destruct (omap2 _ (cfg_subs c1) w) as [z|] eqn:Hz; [|discriminate].
      injection F1 as <-. cbn. eapply Hlen; eauto. }
    destruct Hex as [sv Hsv]. exists sv. split; congruence.
  Qed.
End PropSubs.

Section PropEvent.
  Context {Y SS CS DI E V MS : Type}.
  Notation config := (config Y SS CS DI E V MS).
  Notation initial := (initial Y SS CS MS).
  Notation outcome := (outcome Y SS CS DI V MS).
  Notation state := (state Y SS CS DI V MS).
  Notation attempt := (attempt Y).

  Lemma run_ev_inv (c : config) e i s0 n :
    cfg_event c = Some e -> init_state c i = Some s0 -> ev_inv c e (while_loop c n s0).
  Proof.
    intros He Hi. apply while_ind; [|eapply ev_inv_init; eauto].
    intros s _ H. apply ev_inv_body; assumption.
  Qed.

  Lemma pf_C09_mask_count (c : config) (i : initial) (h : list attempt) (o : outcome) :
    solve_run c i h o -> results_ok c -> rf_results_ok c ->
    (count_occ bool_dec (st_event_mask (out_state o)) true <= 1)%nat /\
    (out_result o = event_occurred ->
     has_root_finder c = false ->
     count_occ bool_dec (st_event_mask (out_state o)) true = 1%nat) /\
    (count_occ bool_dec (st_event_mask (out_state o)) true = 1%nat ->
     out_result o = event_occurred \/
     (has_root_finder c = true /\ out_result o <> successful /\
      out_result o <> max_steps_reached)).
  Proof.
    intros (s0 & n & Hi & Hn & -> & Hf) Hok Hrfo.
    destruct (finish_state _ _ _ Hf) as (-> & r & Hft & ->).
    pose proof (run_mask_inv c i s0 n Hok Hi) as Hm. unfold mask_inv in Hm.
    set (s := while_loop c n s0) in *. split; [rewrite Hm; destruct (is_event _); lia|]. split.
    - intros Hr Hrf.
      destruct (final_result_cases _ _ _ _ _ _ Hrfo Hft) as [(_ & _ & E')|(_ & Hc' & _)]; [|congruence].
      subst r. rewrite Hm. destruct (cond_fun c s); cbn in Hr; [discriminate|].
      rewrite Hr. reflexivity.
    - intros Hcount. rewrite Hm in Hcount.
      assert (Hs : st_result s = event_occurred)
        by (destruct (st_result s); cbn in Hcount; try discriminate; reflexivity).
      assert (Hcf : cond_fun c s = false)
        by (unfold cond_fun; rewrite Hs; apply andb_false_r).
      rewrite Hcf. cbn [where_].
      destruct (final_result_cases _ _ _ _ _ _ Hrfo Hft) as [(_ & _ & E')|(_ & Hc' & [E'|E'])].
      + left; congruence.
      + left; congruence.
      + right. tauto.
  Qed.

  (** The True entry is the first event that triggered on the last step. *)
  Lemma pf_C09_mask_first (c : config) (i : initial) (h : list attempt) (a : attempt) (o : outcome)
        (e : event Y) (k : nat) :
    solve_run c i (h ++ [a]) o -> cfg_event c = Some e -> event_defined e ->
    (nth_error (st_event_mask (out_state o)) k = Some true <->
     (exists cf, nth_error (ev_cond_fn e) k = Some cf /\
                 crosses cf (at_from a) (at_yprev a) (at_end a) (at_y a)) /\
     (forall j cf, (j < k)%nat -> nth_error (ev_cond_fn e) j = Some cf ->
                   ~ crosses cf (at_from a) (at_yprev a) (at_end a) (at_y a))).
  Proof.
    intros (s0 & n & Hi & Hn & Hh & Hf) He Hdef.
    destruct (finish_state _ _ _ Hf) as (-> & _).
    symmetry in Hh. destruct (history_snoc _ _ _ _ _ Hh) as (m & Hm & -> & -> & Hc & -> & _).
    destruct (run_ev_inv c e i s0 m He Hi) as [Hv _].
    set (s := while_loop c m s0) in *.
    rewrite (body_mask_event _ _ _ He), first_true_nth, (raw_mask_eq _ _ _ Hv).
    change (at_from (attempt_of c s)) with (st_tprev s).
    change (at_yprev (attempt_of c s)) with (st_y s).
    assert (Htc : forall cf, In cf (ev_cond_fn e) ->
      (event_triggers cf (cond_value cf (st_tprev s) (st_y s))
          (cond_value cf (at_end (attempt_of c s)) (at_y (attempt_of c s))) = true <->
       crosses cf (st_tprev s) (st_y s) (at_end (attempt_of c s)) (at_y (attempt_of c s)))).
    { intros cf Hin. apply triggers_crosses. destruct cf as [f|f d]; [exact I|].
      split; apply (Hdef _ _ _ Hin). }
    set (aa := attempt_of c s) in *. clearbody aa.
    split.
    - intros [H1 H2]. rewrite nth_error_map in H1.
      destruct (nth_error (ev_cond_fn e) k) as [cf|] eqn:Hk; [|discriminate].
      injection H1 as H1. split.
      + exists cf. split; [reflexivity|]. apply Htc; [eapply nth_error_In; eauto|exact H1].
      + intros j cf' Hjk Hj Hcr. specialize (H2 j Hjk). rewrite nth_error_map, Hj in H2.
        injection H2 as H2. apply Htc in Hcr; [congruence|eapply nth_error_In; eauto].
    - intros [(cf & Hk & Hcr) H2]. split.
      + rewrite nth_error_map, Hk. cbn. f_equal. apply Htc; [eapply nth_error_In; eauto|exact Hcr].
      + intros j Hj. rewrite nth_error_map.
        destruct (nth_error (ev_cond_fn e) j) as [cf'|] eqn:Hjj.
        * cbn. f_equal. specialize (H2 j cf' Hj Hjj).
          destruct (event_triggers _ _ _) eqn:Ht; [|reflexivity].
          exfalso. apply H2. apply Htc; [eapply nth_error_In; eauto|exact Ht].
        * apply nth_error_None in Hjj.
          assert (k < length (ev_cond_fn e))%nat by (apply nth_error_Some; congruence). lia.
  Qed.

  Lemma pf_C10_first_crossing (c : config) (i : initial) (h : list attempt) (a : attempt) (o : outcome)
        (e : event Y) :
    solve_run c i (h ++ [a]) o -> cfg_event c = Some e -> event_defined e -> results_ok c ->
    rejects_in_place (h ++ [a]) ->
    (forall b cf, In b h -> In cf (ev_cond_fn e) ->
       ~ crosses cf (at_from b) (at_yprev b) (at_end b) (at_y b)) /\
    ((exists k, nth_error (st_event_mask (out_state o)) k = Some true) <->
     at_keep a = true /\
     exists cf, In cf (ev_cond_fn e) /\ crosses cf (at_from a) (at_yprev a) (at_end a) (at_y a)).
  Proof.
    intros Hrun He Hdef Hok Hrj. split.
    - destruct Hrun as (s0 & n & Hi & Hn & Hh & Hf). symmetry in Hh.
      destruct (history_snoc _ _ _ _ _ Hh) as (m & Hm & Hhm & -> & Hc & _ & _).
      intros b cf Hb Hin Hcr. rewrite Hhm in Hb.
      apply in_split in Hb. destruct Hb as (l1 & l2 & Hl).
      (* the state after the attempt [b] must be successful, as the loop went on *)
      assert (Hpre : exists k, b = attempt_of c (while_loop c k s0) /\
                cond_fun c (while_loop c k s0) = true /\
                cond_fun c (body_fun c (while_loop c k s0)) = true).
      { clear - Hl Hc Hhm. revert l1 Hl. revert h Hhm.
        assert (Hgen : forall m s l1, cond_fun c (while_loop c m s) = true ->
           history c m s = l1 ++ b :: l2 ->
           exists k, b = attempt_of c (while_loop c k s) /\ cond_fun c (while_loop c k s) = true /\
                     cond_fun c (body_fun c (while_loop c k s)) = true).
        { clear. induction m as [|m IH]; intros s l1 Hc Hl; cbn [history while_loop] in *;
            [destruct l1; discriminate|].
          destruct (cond_fun c s) eqn:Hcs; [|destruct l1; discriminate].
          destruct l1 as [|x l1]; cbn [app] in Hl.
          - injection Hl as <- Hl. exists 0%nat. cbn. split; [reflexivity|]. split; [exact Hcs|].
            destruct m; cbn [while_loop] in Hc; [exact Hc|].
            destruct (cond_fun c (body_fun c s)) eqn:Hx; congruence.
          - injection Hl as _ Hl. destruct (IH _ _ Hc Hl) as (k & K1 & K2 & K3).
            exists (S k). cbn [while_loop]. rewrite Hcs. auto. }
        intros h _ l1 Hl. eapply Hgen; eauto. }
      destruct Hpre as (k & -> & Hck & Hck').
      destruct (run_ev_inv c e i s0 k He Hi) as [Hv _].
      assert (Hsu : is_successful (st_result (while_loop c k s0)) = true)
        by (unfold cond_fun in Hck; apply andb_true_iff in Hck; tauto).
      assert (Hev : st_result (body_fun c (while_loop c k s0)) = event_occurred).
      { apply (body_event_iff c e); try assumption. exists cf. split; [exact Hin|exact Hcr]. }
      unfold cond_fun in Hck'. rewrite Hev in Hck'. rewrite andb_false_r in Hck'. discriminate.
    - pose proof (fun k => pf_C09_mask_first c i h a o e k Hrun He Hdef) as H9.
      split.
      + intros (k & Hk). apply H9 in Hk. destruct Hk as [(cf & Hcf & Hcr) _].
        assert (Hin : In cf (ev_cond_fn e)) by (eapply nth_error_In; eauto).
        split; [|exists cf; auto].
        destruct Hrun as (s0 & n & Hi & Hn & Hh & Hf). symmetry in Hh.
        destruct (history_snoc _ _ _ _ _ Hh) as (m & Hm & _ & -> & Hc & _ & _).
        destruct (at_keep _) eqn:Hkeep; [reflexivity|exfalso].
        destruct (run_ev_inv c e i s0 m He Hi) as [_ Hb].
        assert (Hsu : is_successful (st_result (while_loop c m s0)) = true)
          by (unfold cond_fun in Hc; apply andb_true_iff in Hc; tauto).
        eapply (reject_no_cross c e (while_loop c m s0) cf); eauto.
        apply Forall_app in Hrj. exact (proj2 Hrj).
      + intros [_ (cf & Hin & Hcr)].
        (* least index that crosses *)
        assert (Hex : exists k cf, nth_error (ev_cond_fn e) k = Some cf /\
                   crosses cf (at_from a) (at_yprev a) (at_end a) (at_y a)).
        { apply In_nth_error in Hin. destruct Hin as [k Hk]. exists k, cf. auto. }
        destruct Hex as (k & cf' & Hk & Hcr').
        assert (Hdec : forall cf, {crosses cf (at_from a) (at_yprev a) (at_end a) (at_y a)} +
                                  {~ crosses cf (at_from a) (at_yprev a) (at_end a) (at_y a)}).
        { intros [f|f d]; cbn; [apply bool_dec|].
          destruct (f _ _) as [x|]; [|right; tauto]. destruct (f _ _) as [y|]; [|right; tauto].
          destruct d as [[|]|].
          - destruct (Z_le_dec x 0), (Z_lt_dec 0 y); (left; lia) || (right; lia).
          - destruct (Z_lt_dec 0 x), (Z_le_dec y 0); (left; lia) || (right; lia).
          - destruct (Z.eq_dec (Z.sgn x) (Z.sgn y)); [right|left]; congruence. }
        clear Hin Hcr. revert cf' Hk Hcr'.
        induction k as [k IH] using (well_founded_induction lt_wf). intros cf' Hk Hcr'.
        assert (Hd : (exists j cf2, (j < k)%nat /\ nth_error (ev_cond_fn e) j = Some cf2 /\
                       crosses cf2 (at_from a) (at_yprev a) (at_end a) (at_y a)) \/
                     (forall j cf2, (j < k)%nat -> nth_error (ev_cond_fn e) j = Some cf2 ->
                       ~ crosses cf2 (at_from a) (at_yprev a) (at_end a) (at_y a))).
        { clear - Hdec. induction k as [|k IHk]; [right; intros; lia|].
          destruct IHk as [(j & cf2 & J1 & J2 & J3)|J]; [left; exists j, cf2; auto|].
          destruct (nth_error (ev_cond_fn e) k) as [cfk|] eqn:Hk.
          - destruct (Hdec cfk); [left; exists k, cfk; auto|].
            right. intros j cf2 Hj Hn. destruct (Nat.eq_dec j k) as [->|]; [congruence|].
            apply (J j); [lia|assumption].
          - right. intros j cf2 Hj Hn. destruct (Nat.eq_dec j k) as [->|]; [congruence|].
            apply (J j); [lia|assumption]. }
        destruct Hd as [(j & cf2 & J1 & J2 & J3)|J]; [eapply IH; eauto|].
        exists k. apply H9. split; [exists cf'; auto|exact J].
  Qed.

  Lemma pf_C10_initial (c : config) (i : initial) (o : outcome) (e : event Y) :
    solve_run c i [] o -> cfg_event c = Some e ->
    ((exists k, nth_error (st_event_mask (out_state o)) k = Some true) <->
     exists f, In (BoolCond f) (ev_cond_fn e) /\ f (cfg_t0 c) (in_y i) = true).
  Proof.
    intros (s0 & n & Hi & Hn & Hh & Hf) He.
    destruct (finish_state _ _ _ Hf) as (-> & _).
    assert (Hs : while_loop c n s0 = s0).
    { destruct n; [reflexivity|]. cbn [history while_loop] in *. destruct (cond_fun c s0); [discriminate|reflexivity]. }
    rewrite Hs. unfold init_state, obind in Hi. rewrite He in Hi.
    destruct (omap _ _); [|discriminate]. destruct (omap2 _ _ _); [|discriminate].
    destruct (if cfg_dense c then _ else _); [|discriminate].
    set (ml := map init_mask _) in Hi.
    pose proof (first_true_had ml false) as Hhad. rewrite orb_false_r in Hhad.
    pose proof (first_true_count ml) as Hcount.
    destruct (first_true false ml) as [mask had]. cbn [fst snd] in *. injection Hi as <-. cbn [st_event_mask].
    assert (Hl : existsb (fun b => b) ml = true <->
                 exists f, In (BoolCond f) (ev_cond_fn e) /\ f (cfg_t0 c) (in_y i) = true).
    { subst ml. rewrite map_map, existsb_map_true. split.
      - intros (cf & Hin & Hv). destruct cf as [f|f d]; cbn in Hv; [|discriminate]. eauto.
      - intros (f & Hin & Hv). exists (BoolCond f). auto. }
    rewrite <- Hl. split.
    - intros (k & Hk). destruct (existsb (fun b => b) ml) eqn:Hx; [reflexivity|].
      apply count_occ_not_In in Hcount. exfalso. apply Hcount. eapply nth_error_In; eauto.
    - intros Hx. rewrite Hx in Hcount. apply In_nth_error. apply (count_occ_In bool_dec). lia.
  Qed.

  Lemma run_event_fields (c : config) e i s0 n h a :
    cfg_event c = Some e -> init_state c i = Some s0 -> history c n s0 = h ++ [a] ->
    let s := while_loop c n s0 in
    st_event_tprev s = at_from a /\ st_event_tnext s = at_to a /\
    (forall t, event_interp c s t = at_interp a t) /\ st_num_steps s <> 0%nat.
  Proof.
    intros He Hi Hh s. destruct (history_snoc _ _ _ _ _ Hh) as (m & Hm & _ & -> & Hc & Hw & _).
    subst s. rewrite Hw.
    destruct (body_event_times c (while_loop c m s0) e He) as (T1 & T2 & T3).
    split; [exact T1|]. split; [exact T2|]. split.
    - intros t. unfold event_interp. rewrite T1, T2, T3. reflexivity.
    - rewrite body_num_steps. lia.
  Qed.

  (** With a root finder: where the solve ends, with which value. *)
  Lemma pf_C11_event_time (c : config) (i : initial) (h : list attempt) (a : attempt) (o : outcome)
        (e : event Y) (rf : root_finder) (Inv : Z -> Z -> CS -> Prop) :
    solve_run c i (h ++ [a]) o -> cfg_event c = Some e -> ev_root_finder e = Some rf ->
    bracketing rf ->
    controller_contract c Inv -> midpoint_ok c -> cfg_t0 c <= cfg_t1 c -> cfg_t0 c <= in_tnext i ->
    Inv (cfg_t0 c) (Z.min (in_tnext i) (cfg_t1 c)) (in_controller_state i) ->
    (exists k, nth_error (st_event_mask (out_state o)) k = Some true) ->
    at_from a <= out_tfinal o <= at_to a /\
    out_yfinal o = at_interp a (out_tfinal o).
  Proof.
    intros Hrun He Hrf Hbr Hcc Hm Ht Htn HI (k & Hk).
    destruct (pf_C02_times_in_interval c i (h ++ [a]) o Inv Hrun Hcc Hm Ht Htn HI) as [Htimes _].
    destruct (Htimes a) as (_ & Hle & _); [apply in_or_app; right; left; reflexivity|].
    destruct Hrun as (s0 & n & Hi & Hn & Hh & Hf). symmetry in Hh.
    destruct (run_event_fields c e i s0 n h a He Hi Hh) as (F1 & F2 & F3 & F4).
    destruct (finish_state _ _ _ Hf) as (Hos & r & Hft & _). rewrite Hos in Hk.
    set (s := while_loop c n s0) in *.
    assert (Hhap : event_happened s = true).
    { unfold event_happened. apply existsb_exists. exists true. split; [eapply nth_error_In; eauto|reflexivity]. }
    unfold final_time in Hft. rewrite He, Hrf, Hhap in Hft. unfold root_find_event in Hft.
    pose proof (Hbr (to_root_find c e s (event_happened s)) (st_event_tprev s) (st_event_tnext s)
                    (st_event_tnext s)) as Hb.
    destruct (rf _ _ _ _) as [t er]. cbn [fst] in Hb.
    rewrite (proj2 (Nat.eqb_neq _ _) F4) in Hft. injection Hft as <- <- _.
    rewrite F1, F2 in Hb. split; [apply Hb; exact Hle|]. apply F3.
  Qed.

  (** The value searched for is a zero of the first triggered event. *)
  Lemma pf_C11_root_function (c : config) (e : event Y) (s : state) (t : Z) (k : nat) cf :
    length (st_event_mask s) = length (ev_cond_fn e) ->
    (forall j, nth_error (st_event_mask s) j = Some true -> j = k) ->
    nth_error (st_event_mask s) k = Some true -> nth_error (ev_cond_fn e) k = Some cf ->
    let v := to_root_find c e s true t in
    (forall j, j <> k -> (j < length (ev_cond_fn e))%nat -> nth_error v j = Some (Some 0)) /\
    nth_error v k = Some (match cf with
                          | RealCond f _ => f t (event_interp c s t)
                          | BoolCond _ => Some (st_event_tnext s - t)
                          end).
  Proof.
    intros Hlen Huni Hk Hcf v. subst v. unfold to_root_find.
    assert (Hmap : forall j m f, nth_error (st_event_mask s) j = Some m -> nth_error (ev_cond_fn e) j = Some f ->
      forall (A : Type) (g : bool -> cond_fn Y -> A), nth_error (map2 g (st_event_mask s) (ev_cond_fn e)) j = Some (g m f)).
    { intros j m f Hm Hf A g. rewrite (nth_error_map2 _ _ _ _ _ Hm), Hf. reflexivity. }
    split.
    - intros j Hj Hlt.
      destruct (nth_error (ev_cond_fn e) j) as [f|] eqn:Hf;
        [|apply nth_error_None in Hf; lia].
      destruct (nth_error (st_event_mask s) j) as [[|]|] eqn:Hm.
      + exfalso. apply Hj. apply Huni. exact Hm.
      + rewrite (Hmap _ _ _ Hm Hf). reflexivity.
      + apply nth_error_None in Hm. lia.
    - rewrite (Hmap _ _ _ Hk Hcf). cbn. destruct cf; reflexivity.
  Qed.

  Lemma pf_C11_truncation (c : config) (i : initial) (h : list attempt) (o : outcome)
        (Inv : Z -> Z -> CS -> Prop) :
    solve_run c i h o -> has_root_finder c = true ->
    controller_contract c Inv -> midpoint_ok c -> cfg_t0 c < cfg_t1 c -> cfg_t0 c <= in_tnext i ->
    Inv (cfg_t0 c) (Z.min (in_tnext i) (cfg_t1 c)) (in_controller_state i) ->
    (in_pad i = PInf \/ in_pad i = NInf) ->
    Forall (fun sub => Sorted Z.le (sub_ts_list sub) /\
                       Forall (fun t => cfg_t0 c <= t) (sub_ts_list sub) /\
                       (sub_steps sub = 0%nat \/
                        forall a t, In a (accepted h) -> In t (sub_ts_list sub) ->
                                    at_to a < t -> at_end a <= t)) (cfg_subs c) ->
    Forall2 (fun sub sv =>
        let n := allocated (cfg_max_steps c) sub in
        let log := log_event_in n sub (cfg_t0 c) (in_y i) (accepted h) (out_tfinal o) (out_yfinal o) in
        holds_log_inf sv log n /\
        ((step_due (sub_steps sub) (length (accepted h)) = true ->
          exists l a, accepted h = l ++ [a] /\ out_tfinal o < at_end a) ->
         log = log_event sub (cfg_t0 c) (in_y i) (accepted h) (out_tfinal o) (out_yfinal o)))
      (cfg_subs c) (out_save o).
  Proof.
    intros Hrun Hrf Hcc Hm Ht Htn HI Hpad Hsubs.
    pose proof (size_slots _ _ _ _ Hrun) as Hsz.
    destruct Hrun as (s0 & n & Hi & Hn & -> & Hf).
    pose proof (finish_logs_rf c i s0 n o Inv Hrf Ht Hpad Hcc Hm HI Htn (run_bound _ _ _ Hn) Hi Hf Hsubs) as H.
    pose proof (Forall2_and_l _ _ _ _ Hsz H) as H'.
    eapply Forall2_impl; [|exact H']. cbn beta. intros sub sv [<- Hh]. exact Hh.
  Qed.

  Lemma log_event_le (sub : subsaveat Y V) t0 y0 accs tf yf :
    Forall (fun p => fst p <= tf) (log_event sub t0 y0 accs tf yf).
  Proof.
    unfold log_event. apply Forall_app. split.
    - apply Forall_forall. intros p Hp. apply filter_In in Hp. apply Z.leb_le. tauto.
    - destruct (_ || _); constructor; cbn; [lia|constructor].
  Qed.

  (** Any saved time is at most the final time, whatever the save configuration. *)
  Lemma dus_forall {A} (P : A -> Prop) (l upd r : list A) k :
    Forall P l -> Forall P upd -> dynamic_update_slice l upd k = Some r -> Forall P r.
  Proof.
    unfold dynamic_update_slice. intros H1 H2. destruct (_ <=? _)%nat; [|discriminate].
    intros H; injection H as <-. apply Forall_app. split.
    - rewrite Forall_forall in *. intros x Hx. apply H1. rewrite <- (firstn_skipn (Nat.min k (length l - length upd)) l).
      apply in_or_app. auto.
    - apply Forall_app. split; [exact H2|]. apply Forall_skipn. exact H1.
  Qed.

  Definition not_after (tf : Z) (x : xtime) : Prop := match x with Fin t => t <= tf | _ => True end.

  Lemma save_not_after tf t (y : Y) fn (sv sv' : save_state V) rep pred :
    t <= tf -> Forall (not_after tf) (ss_ts sv) ->
    save_ t y fn sv rep pred = Some sv' -> Forall (not_after tf) (ss_ts sv').
  Proof.
    intros Hle HF H. unfold save_ in H.
    destruct (if pred then Some (Fin t) else get_clamp (ss_ts sv) (save_index sv)) as [x|] eqn:Hx; [|discriminate].
    destruct (if pred then Some (Some (fn t y)) else _) as [v|]; [|discriminate].
    destruct (dynamic_update_slice (ss_ts sv) (repeat x rep) (save_index sv)) as [ts|] eqn:Hts; [|discriminate].
    destruct (dynamic_update_slice (ss_ys sv) (repeat v rep) (save_index sv)) as [ys|]; [|discriminate].
    injection H as <-. cbn.
    assert (Hnx : not_after tf x).
    { destruct pred; [injection Hx as <-; exact Hle|]. unfold get_clamp in Hx.
      apply nth_error_In in Hx. rewrite Forall_forall in HF. auto. }
    eapply dus_forall; [exact HF| |exact Hts].
    apply Forall_forall. intros z Hz. apply repeat_spec in Hz. subst. exact Hnx.
  Qed.

  Lemma unsave_not_after tf (sv : save_state V) : Forall (not_after tf) (ss_ts (unsave tf sv)).
  Proof.
    unfold unsave. cbn. apply Forall_forall. intros x Hx. apply in_map_iff in Hx.
    destruct Hx as (z & <- & _). destruct z; cbn; auto.
    destruct (Z.ltb_spec tf t); cbn; auto.
  Qed.

  Lemma pf_C11_nothing_after_final (c : config) (i : initial) (h : list attempt) (o : outcome) :
    solve_run c i h o -> has_root_finder c = true -> cfg_t0 c <= out_tfinal o ->
    Forall (fun sv => Forall (fun x => match x with Fin t => t <= out_tfinal o | _ => True end) (ss_ts sv))
           (out_save o).
  Proof.
    intros (s0 & n & Hi & Hn & _ & Hf) Hrf Hle.
    change (Forall (fun sv => Forall (not_after (out_tfinal o)) (ss_ts sv)) (out_save o)).
    revert Hf Hle. generalize (while_loop c n s0) as s. intros s Hf Hle. unfold finish, finish_batched in Hf. rewrite Hrf in Hf.
    destruct (final_time c (event_happened s) s) as [[tf yf] r]. unfold obind in Hf.
    assert (Hgen : forall (f : subsaveat Y V -> save_state V -> option (save_state V)) subs svs r,
       (forall sub sv sv', Forall (not_after tf) (ss_ts sv) -> f sub sv = Some sv' -> Forall (not_after tf) (ss_ts sv')) ->
       omap2 f subs svs = Some r -> Forall (fun sv => Forall (not_after tf) (ss_ts sv)) svs ->
       Forall (fun sv => Forall (not_after tf) (ss_ts sv)) r).
    { clear. intros f subs. induction subs as [|sub subs IH]; intros svs r Hstep Hr HF.
      - cbn in Hr. injection Hr as <-. constructor.
      - destruct svs as [|sv svs]; cbn in Hr; [injection Hr as <-; constructor|]. unfold obind in Hr.
        destruct (f sub sv) eqn:Hfs; [|discriminate]. destruct (omap2 f subs svs) eqn:Ho; [|discriminate].
        injection Hr as <-. inversion HF; subst. constructor; [eapply Hstep; eauto|eapply IH; eauto]. }
    assert (H0 : Forall (fun sv => Forall (not_after tf) (ss_ts sv)) (map (unsave tf) (st_save s))).
    { apply Forall_forall. intros sv Hin. apply in_map_iff in Hin. destruct Hin as (x & <- & _).
      apply unsave_not_after. }
    destruct (if cfg_t0 c =? cfg_t1 c then _ else _) as [w|] eqn:Hw; [|discriminate].
    destruct (omap2 _ (cfg_subs c) w) as [z|] eqn:Hz; [|discriminate].
    injection Hf as <-. cbn in *.
    assert (H1 : Forall (fun sv => Forall (not_after tf) (ss_ts sv)) w).
    { destruct (cfg_t0 c =? cfg_t1 c); [|injection Hw as <-; exact H0].
      eapply Hgen; [|exact Hw|exact H0]. intros sub sv sv' HF Hs. unfold save_if_t0_equals_t1 in Hs.
      destruct (sub_ts sub); [|injection Hs as <-; exact HF]. eapply save_not_after; eauto. }
    eapply Hgen; [|exact Hz|exact H1]. intros sub sv sv' HF Hs. unfold save_t1 in Hs.
    match type of Hs with (if ?b then _ else _) = _ => destruct b end; [injection Hs as <-; exact HF|].
    eapply save_not_after; [|exact HF|exact Hs]. lia.
  Qed.
End PropEvent.
