(** Events and results. *)
From Coq Require Import ZArith List Bool Arith Lia Sorted.
From Verif Require Import Model_Result Model_Loop Spec_Loop Proof_LoopBasic Proof_LoopSave
  Proof_LoopFinish Proof_LoopTs.
Import ListNotations.
Open Scope Z_scope.

Lemma first_true_had mask : forall had, snd (first_true had mask) = existsb (fun b => b) mask || had.
Proof.
  induction mask as [|m mask IH]; intros had; cbn; [reflexivity|].
  specialize (IH (m || had)). destruct (first_true (m || had) mask) as [l h]. cbn in *.
  rewrite IH. destruct m, had, (existsb (fun b => b) mask); reflexivity.
Qed.

Lemma first_true_length mask : forall had, length (fst (first_true had mask)) = length mask.
Proof.
  induction mask as [|m mask IH]; intros had; cbn; [reflexivity|].
  specialize (IH (m || had)). destruct (first_true (m || had) mask) as [l h]. cbn in *. lia.
Qed.

Lemma first_true_none mask : fst (first_true true mask) = map (fun _ => false) mask.
Proof.
  induction mask as [|m mask IH]; cbn; [reflexivity|]. rewrite orb_true_r.
  destruct (first_true true mask) as [l h]. cbn in *. rewrite IH, andb_false_r. reflexivity.
Qed.

(** The mask keeps exactly the first [true]. *)
Lemma first_true_nth mask : forall k,
  nth_error (fst (first_true false mask)) k = Some true <->
  nth_error mask k = Some true /\ (forall j, (j < k)%nat -> nth_error mask j = Some false).
Proof.
  induction mask as [|m mask IH]; intros k; cbn.
  - destruct k; cbn; split; intros H; try discriminate; destruct H; discriminate.
  - rewrite orb_false_r. destruct m.
    + pose proof (first_true_none mask) as Hn. destruct (first_true true mask) as [l h].
      cbn in *. subst l. destruct k as [|k]; cbn.
      * split; [intros _; split; [reflexivity|intros; lia]|reflexivity].
      * split.
        -- intros H. exfalso. rewrite nth_error_map in H.
           destruct (nth_error mask k); cbn in H; discriminate.
        -- intros [_ H]. specialize (H 0%nat ltac:(lia)). cbn in H. discriminate.
    + specialize (IH). destruct (first_true false mask) as [l h]. cbn in *.
      destruct k as [|k]; cbn.
      * split; [discriminate|]. intros [H _]. discriminate.
      * rewrite IH. split; intros [H1 H2]; split; auto.
        -- intros j Hj. destruct j as [|j]; cbn; [reflexivity|]. apply H2; lia.
        -- intros j Hj. apply (H2 (S j)). lia.
Qed.

Lemma first_true_count mask :
  count_occ bool_dec (fst (first_true false mask)) true
  = if existsb (fun b => b) mask then 1%nat else 0%nat.
Proof.
  induction mask as [|m mask IH]; cbn; [reflexivity|]. rewrite orb_false_r.
  destruct m; cbn.
  - pose proof (first_true_none mask) as Hn. destruct (first_true true mask) as [l h].
    cbn in *. subst l. f_equal. clear IH. induction mask as [|x mask IH]; cbn; auto.
  - destruct (first_true false mask) as [l h]. cbn in *. exact IH.
Qed.

Lemma count_occ_existsb l :
  count_occ bool_dec l true = 0%nat <-> existsb (fun b => b) l = false.
Proof.
  induction l as [|b l IH]; cbn; [tauto|]. destruct b; cbn; [split; discriminate|exact IH].
Qed.

Section Event.
  Context {Y SS CS DI E V MS : Type}.
  Notation config := (config Y SS CS DI E V MS).
  Notation state := (state Y SS CS DI V MS).
  Notation subsaveat := (subsaveat Y V).
  Notation save_state := (save_state V).
  Implicit Types (c : config) (s : state) (sub : subsaveat).

  (** The stored event values are those at the current point, and the mask tells the result. *)
  Definition values_inv c (e : event Y) s : Prop :=
    st_event_values s = map (fun cf => cond_value cf (st_tprev s) (st_y s)) (ev_cond_fn e).

  Lemma values_inv_body c e s : cfg_event c = Some e -> values_inv c e (body_fun c s).
  Proof.
    intros H. unfold values_inv. rewrite (body_values_event _ _ _ H), body_tprev, body_y.
    reflexivity.
  Qed.
  Lemma values_inv_init c e i s0 :
    cfg_event c = Some e -> init_state c i = Some s0 -> values_inv c e s0.
  Proof.
    intros He Hi. unfold init_state, obind in Hi. rewrite He in Hi.
    destruct (omap _ _); [|discriminate]. destruct (omap2 _ _ _); [|discriminate].
    destruct (if cfg_dense c then _ else _); [|discriminate].
    destruct (first_true _ _). injection Hi as <-. reflexivity.
  Qed.

  (** Raw mask in terms of [crosses]. *)
  Lemma triggers_crosses (cf : cond_fn Y) t y t' y' :
    match cf with BoolCond _ => True | RealCond f _ => f t y <> None /\ f t' y' <> None end ->
    (event_triggers cf (cond_value cf t y) (cond_value cf t' y') = true <->
     crosses cf t y t' y').
  Proof.
    destruct cf as [f|f dir]; cbn; [tauto|]. intros [H1 H2].
    destruct (f t y) as [a|]; [|congruence]. destruct (f t' y') as [b|]; [|congruence].
    clear H1 H2. destruct dir as [[|]|]; cbn.
    - rewrite andb_true_iff, Z.leb_le, Z.ltb_lt.
      destruct a, b; cbn; lia.
    - rewrite andb_true_iff, Z.leb_le, Z.ltb_lt.
      destruct a, b; cbn; lia.
    - rewrite negb_true_iff, Z.eqb_neq. tauto.
  Qed.

  Lemma raw_mask_eq c e s :
    values_inv c e s ->
    raw_mask c e s = map (fun cf => event_triggers cf (cond_value cf (st_tprev s) (st_y s))
                             (cond_value cf (at_end (attempt_of c s)) (at_y (attempt_of c s))))
                         (ev_cond_fn e).
  Proof.
    intros H. unfold raw_mask. rewrite H. generalize (ev_cond_fn e). intros l.
    induction l as [|cf l IH]; cbn [map combine map2 fst snd]; [reflexivity|]. rewrite IH. reflexivity.
  Qed.

  (** Invariant: at most one event is marked; some event is marked iff the result says so. *)
  Definition mask_inv c s : Prop :=
    count_occ bool_dec (st_event_mask s) true
    = if is_event (st_result s) then 1%nat else 0%nat.

  Lemma pre_result_not_event c s :
    results_ok c -> is_successful (st_result s) = true -> is_event (pre_result c s) = false.
  Proof.
    intros [Hs Ha] Hsucc. unfold pre_result, where_.
    destruct (st_result s); try discriminate. cbn [is_okay is_successful is_event orb].
    destruct (Ha (st_tprev s) (st_tnext s) (st_y s) (so_y (do_step c s))
                 (nan_to_inf c (so_error (do_step c s))) (st_controller_state s)) as [A1 A2].
    destruct (Hs (st_tprev s) (st_tnext s) (st_y s) (st_solver_state s) (st_made_jump s)) as [S1 S2].
    fold (do_adapt c s) in A1, A2. fold (do_step c s) in S1, S2.
    destruct (at_keep _).
    - destruct (so_result (do_step c s)); cbn; try reflexivity; try congruence.
      destruct (ao_result (do_adapt c s)); cbn; try reflexivity; congruence.
    - cbn. destruct (ao_result (do_adapt c s)); cbn; try reflexivity; congruence.
  Qed.

  Lemma mask_inv_body c s :
    results_ok c -> cond_fun c s = true -> mask_inv c s -> mask_inv c (body_fun c s).
  Proof.
    intros Hok Hc Hm. unfold mask_inv in *.
    assert (Hsucc : is_successful (st_result s) = true)
      by (unfold cond_fun in Hc; apply andb_true_iff in Hc; tauto).
    pose proof (pre_result_not_event c s Hok Hsucc) as Hpre.
    destruct (cfg_event c) as [e|] eqn:He.
    - rewrite (body_mask_event _ _ _ He), (body_result_event _ _ _ He).
      rewrite first_true_count, first_true_had, orb_false_r.
      destruct (existsb (fun b => b) (raw_mask c e s)); cbn [where_]; [reflexivity|].
      rewrite Hpre. reflexivity.
    - rewrite (body_mask_no_event _ _ He), (body_result_no_event _ _ He), Hpre, Hm.
      destruct (st_result s); try discriminate. reflexivity.
  Qed.

  Lemma mask_inv_init c i s0 : init_state c i = Some s0 -> mask_inv c s0.
  Proof.
    intros Hi. unfold init_state, obind in Hi.
    destruct (omap _ _); [|discriminate]. destruct (omap2 _ _ _); [|discriminate].
    destruct (if cfg_dense c then _ else _); [|discriminate].
    set (vals := match cfg_event c with None => [] | Some e => _ end) in *.
    pose proof (first_true_count (map init_mask vals)) as Hc.
    pose proof (first_true_had (map init_mask vals) false) as Hh. rewrite orb_false_r in Hh.
    destruct (first_true false (map init_mask vals)) as [mask had]. cbn in Hc, Hh. subst had.
    injection Hi as <-. unfold mask_inv; cbn. rewrite Hc.
    destruct (existsb _ _); reflexivity.
  Qed.

  (** Success at init means no boolean event holds initially. *)
  Definition bools_false (e : event Y) (t : Z) (y : Y) : Prop :=
    forall f, In (BoolCond f) (ev_cond_fn e) -> f t y = false.

  Lemma existsb_map_false {A} (g : A -> bool) l :
    existsb (fun b => b) (map g l) = false -> forall x, In x l -> g x = false.
  Proof.
    induction l as [|a l IH]; cbn; intros H x Hx; [contradiction|].
    apply orb_false_iff in H. destruct H. destruct Hx as [<-|Hx]; auto.
  Qed.
  Lemma existsb_map_true {A} (g : A -> bool) l :
    existsb (fun b => b) (map g l) = true <-> exists x, In x l /\ g x = true.
  Proof.
    induction l as [|a l IH]; cbn.
    - split; [discriminate|]. intros (x & [] & _).
    - rewrite orb_true_iff, IH. split.
      + intros [H|(x & H1 & H2)]; eauto.
      + intros (x & [<-|H1] & H2); eauto.
  Qed.

  Lemma init_bools c e i s0 :
    cfg_event c = Some e -> init_state c i = Some s0 ->
    is_successful (st_result s0) = true -> bools_false e (st_tprev s0) (st_y s0).
  Proof.
    intros He Hi Hs. unfold init_state, obind in Hi. rewrite He in Hi.
    destruct (omap _ _); [|discriminate]. destruct (omap2 _ _ _); [|discriminate].
    destruct (if cfg_dense c then _ else _); [|discriminate].
    match type of Hi with context [first_true false ?m] =>
      pose proof (first_true_had m false) as Hh; destruct (first_true false m) as [mask had] end.
    cbn in Hh. rewrite orb_false_r in Hh. subst had. injection Hi as <-. cbn in *.
    intros f Hf. rewrite map_map in Hs.
    destruct (existsb _ _) eqn:Hex; [discriminate|].
    exact (existsb_map_false _ _ Hex _ Hf).
  Qed.

  Lemma body_bools c e s :
    cfg_event c = Some e -> values_inv c e s ->
    is_event (st_result (body_fun c s)) = false ->
    bools_false e (st_tprev (body_fun c s)) (st_y (body_fun c s)).
  Proof.
    intros He Hv Hs. rewrite (body_result_event _ _ _ He), first_true_had, orb_false_r in Hs.
    rewrite (raw_mask_eq _ _ _ Hv) in Hs.
    destruct (existsb _ _) eqn:Hex; [discriminate|].
    intros f Hf. rewrite body_tprev, body_y.
    exact (existsb_map_false _ _ Hex _ Hf).
  Qed.

  (** State invariant for event analysis. *)
  Definition ev_inv c e s : Prop :=
    values_inv c e s /\ (is_successful (st_result s) = true -> bools_false e (st_tprev s) (st_y s)).

  Lemma ev_inv_body c e s : cfg_event c = Some e -> ev_inv c e s -> ev_inv c e (body_fun c s).
  Proof.
    intros He [Hv Hb]. split; [apply values_inv_body; exact He|].
    intros Hs. apply (body_bools _ _ _ He Hv).
    destruct (st_result (body_fun c s)); cbn in *; congruence.
  Qed.
  Lemma ev_inv_init c e i s0 :
    cfg_event c = Some e -> init_state c i = Some s0 -> ev_inv c e s0.
  Proof.
    intros He Hi. split; [eapply values_inv_init; eauto|intros; eapply init_bools; eauto].
  Qed.

  (** Whether one iteration ends in an event. *)
  Lemma body_event_iff c e s :
    cfg_event c = Some e -> event_defined e -> results_ok c ->
    is_successful (st_result s) = true -> values_inv c e s ->
    (st_result (body_fun c s) = event_occurred <->
     exists cf, In cf (ev_cond_fn e) /\
       let a := attempt_of c s in crosses cf (at_from a) (at_yprev a) (at_end a) (at_y a)).
  Proof.
    intros He Hd Hok Hs Hv.
    rewrite (body_result_event _ _ _ He), first_true_had, orb_false_r, (raw_mask_eq _ _ _ Hv).
    pose proof (pre_result_not_event c s Hok Hs) as Hpre.
    split.
    - destruct (existsb _ _) eqn:Hex.
      + intros _. apply existsb_map_true in Hex. destruct Hex as (cf & Hin & Ht).
        exists cf. split; [exact Hin|]. cbn zeta.
        apply triggers_crosses in Ht; [exact Ht|].
        pose proof (Hd cf) as Hd1. destruct cf; auto.
      + cbn [where_]. intros H. rewrite H in Hpre. discriminate.
    - intros (cf & Hin & Hc).
      rewrite (proj2 (existsb_map_true _ _)); [reflexivity|].
      exists cf. split; [exact Hin|]. apply triggers_crosses.
      + pose proof (Hd cf) as Hd1. destruct cf; auto.
      + exact Hc.
  Qed.

  (** A rejected step crosses nothing. *)
  Lemma reject_no_cross c e s cf :
    rejects_in_place [attempt_of c s] -> bools_false e (st_tprev s) (st_y s) ->
    at_keep (attempt_of c s) = false -> In cf (ev_cond_fn e) ->
    let a := attempt_of c s in ~ crosses cf (at_from a) (at_yprev a) (at_end a) (at_y a).
  Proof.
    intros Hr Hb Hk Hin a Hc. subst a. apply Forall_inv in Hr. specialize (Hr Hk).
    rewrite Hr in Hc. rewrite attempt_of_eq in *.
    cbn [at_keep at_from at_yprev at_end at_y] in *. rewrite Hk in Hc.
    destruct cf as [f|f dir]; cbn in Hc.
    - rewrite (Hb f Hin) in Hc. discriminate.
    - destruct (f (st_tprev s) (st_y s)) as [v|]; [|contradiction].
      destruct dir as [[|]|]; lia.
  Qed.

  (** Results without events: that of the last attempt; all earlier ones are successful. *)
  Lemma body_result_attempt c s :
    cfg_event c = None -> is_successful (st_result s) = true ->
    st_result (body_fun c s) = attempt_result (attempt_of c s).
  Proof.
    intros He Hs. rewrite (body_result_no_event _ _ He). unfold pre_result, attempt_result, where_.
    destruct (st_result s); try discriminate. cbn [is_okay is_successful is_event orb].
    rewrite attempt_of_eq; cbn [at_keep at_solver_result at_controller_result].
    destruct (ao_keep (do_adapt c s)); cbn; [|reflexivity].
    destruct (so_result (do_step c s)); reflexivity.
  Qed.

  Lemma history_snoc c n s h a :
    history c n s = h ++ [a] ->
    exists m, (m < n)%nat /\ h = history c m s /\ a = attempt_of c (while_loop c m s) /\
              cond_fun c (while_loop c m s) = true /\
              while_loop c n s = body_fun c (while_loop c m s) /\ length h = m.
  Proof.
    revert s h. induction n as [|n IH]; intros s h H; cbn in H.
    - destruct h; discriminate.
    - destruct (cond_fun c s) eqn:Hc; [|destruct h; discriminate].
      destruct h as [|b h]; cbn in H.
      + injection H as Ha Hh. exists 0%nat. cbn. rewrite Hc. repeat split; auto; try lia.
        destruct n; cbn in Hh |- *; [reflexivity|].
        destruct (cond_fun c (body_fun c s)); [discriminate|reflexivity].
      + injection H as Hb Hh. destruct (IH _ _ Hh) as (m & Hm & H1 & H2 & H3 & H4 & H5).
        exists (S m). cbn. rewrite Hc. subst b h. repeat split; auto; try lia. 
  Qed.

  Lemma result_last_attempt c n s :
    cfg_event c = None -> is_successful (st_result s) = true ->
    st_result (while_loop c n s) =
    last (map attempt_result (history c n s)) successful.
  Proof.
    intros He Hs.
    destruct (history c n s) as [|a0 l] eqn:Hh.
    - cbn. destruct n; cbn in *.
      + destruct (st_result s); try discriminate; reflexivity.
      + destruct (cond_fun c s); [discriminate|]. destruct (st_result s); try discriminate; reflexivity.
    - assert (Hne : a0 :: l <> []) by discriminate.
      destruct (exists_last Hne) as (h & a & Ha). rewrite Ha in Hh |- *.
      destruct (history_snoc _ _ _ _ _ Hh) as (m & _ & _ & -> & Hc & -> & _).
      rewrite map_app. cbn [map]. rewrite last_last.
      apply body_result_attempt; [exact He|].
      unfold cond_fun in Hc. apply andb_true_iff in Hc. tauto.
  Qed.

  Lemma earlier_attempts_ok c n s h a b :
    cfg_event c = None -> is_successful (st_result s) = true ->
    history c n s = h ++ [a] -> In b h -> attempt_result b = successful.
  Proof.
    intros He Hs. revert s h Hs. induction n as [|n IH]; intros s h Hs Hh Hb; cbn in Hh.
    - destruct h; discriminate.
    - destruct (cond_fun c s) eqn:Hc; [|destruct h; discriminate].
      destruct h as [|b0 h]; [contradiction|]. cbn in Hh. injection Hh as Hb0 Hh.
      assert (Hs' : is_successful (st_result (body_fun c s)) = true).
      { destruct n as [|n]; cbn in Hh; [destruct h; discriminate|].
        destruct (cond_fun c (body_fun c s)) eqn:Hc'; [|destruct h; discriminate].
        unfold cond_fun in Hc'. apply andb_true_iff in Hc'. tauto. }
      destruct Hb as [<-|Hb]; [|eapply IH; eauto].
      rewrite <- Hb0, <- (body_result_attempt _ _ He Hs).
      destruct (st_result (body_fun c s)); try discriminate. reflexivity.
  Qed.
End Event.
