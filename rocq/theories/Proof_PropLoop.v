(** Properties of the loop, in terms of complete solves. *)
From Coq Require Import ZArith List Bool Arith Lia Sorted.
From Verif Require Import Model_Result Model_Loop Spec_Loop Proof_LoopBasic Proof_LoopSave
  Proof_LoopFinish Proof_LoopTs Proof_LoopEvent Proof_LoopRoot Proof_LoopCore.
Import ListNotations.
Open Scope Z_scope.

Section PropLoop.
  Context {Y SS CS DI E V MS : Type}.
  Notation config := (config Y SS CS DI E V MS).
  Notation initial := (initial Y SS CS MS).
  Notation outcome := (outcome Y SS CS DI V MS).
  Notation state := (state Y SS CS DI V MS).
  Notation attempt := (attempt Y).

  Lemma finish_state (c : config) s o :
    finish c s = Some o ->
    out_state o = s /\
    exists r, final_time c (event_happened s) s = (out_tfinal o, out_yfinal o, r) /\
              out_result o = where_ (cond_fun c s) max_steps_reached r.
  Proof.
    unfold finish, finish_batched.
    destruct (final_time c (event_happened s) s) as [[tf yf] r]. unfold obind.
    destruct (if cfg_t0 c =? cfg_t1 c then _ else _); [|discriminate].
    destruct (omap2 _ _ _); [|discriminate].
    intros H; injection H as <-. cbn. eauto.
  Qed.

  Lemma run_solves (c : config) (i : initial) o :
    solves c i o <-> exists h, solve_run c i h o.
  Proof.
    split.
    - intros (s0 & sf & Hi & Hl & Hf). destruct (loop_final_while _ _ _ Hl) as (n & -> & Hn).
      exists (history c n s0), s0, n. auto.
    - intros (h & s0 & n & Hi & Hn & Hh & Hf). exists s0, (while_loop c n s0).
      split; [exact Hi|]. split; [|exact Hf]. unfold loop_final.
      destruct (cfg_max_steps c); [subst; reflexivity|]. exists n. auto.
  Qed.

  Lemma run_bound (c : config) n s0 :
    match cfg_max_steps c with
    | Some m => n = m
    | None => cond_fun c (while_loop c n s0) = false
    end ->
    forall m', cfg_max_steps c = Some m' -> (n <= m')%nat.
  Proof. intros H m' E'. rewrite E' in H. lia. Qed.

  Lemma pf_C01_step_accounting (c : config) (i : initial) (h : list attempt) (o : outcome) :
    solve_run c i h o ->
    st_num_steps (out_state o) = length h /\
    st_num_accepted (out_state o) = length (filter at_keep h) /\
    st_num_rejected (out_state o) = length (filter (fun a => negb (at_keep a)) h) /\
    st_num_steps (out_state o)
      = (st_num_accepted (out_state o) + st_num_rejected (out_state o))%nat /\
    (forall m, cfg_max_steps c = Some m -> (st_num_steps (out_state o) <= m)%nat).
  Proof.
    intros (s0 & n & Hi & Hn & -> & Hf).
    destruct (finish_state _ _ _ Hf) as (-> & _).
    destruct (init_time _ _ _ Hi) as (_ & _ & _ & I1 & I2 & I3 & _).
    rewrite while_num_steps, while_num_accepted, while_num_rejected, I1, I2, I3. cbn [Nat.add].
    unfold accepted.
    assert (Hsum : forall l : list attempt,
               length l = (length (filter at_keep l)
                           + length (filter (fun a => negb (at_keep a)) l))%nat).
    { induction l as [|a l IH]; cbn; [reflexivity|]. destruct (at_keep a); cbn; lia. }
    repeat split; auto.
    intros m Hm. pose proof (history_length c n s0). rewrite Hm in Hn. lia.
  Qed.

  (** The result recorded in the loop is never [max_steps_reached]. *)
  Lemma st_result_not_max (c : config) i s0 n :
    results_ok c -> init_state c i = Some s0 ->
    st_result (while_loop c n s0) <> max_steps_reached.
  Proof.
    intros [Hs Ha] Hi. apply (while_ind c (fun s => st_result s <> max_steps_reached)).
    - intros s Hc Hr.
      assert (Hp : pre_result c s <> max_steps_reached).
      { unfold pre_result, where_.
        destruct (Ha (st_tprev s) (st_tnext s) (st_y s) (so_y (do_step c s))
                 (nan_to_inf c (so_error (do_step c s))) (st_controller_state s)) as [A1 A2].
        destruct (Hs (st_tprev s) (st_tnext s) (st_y s) (st_solver_state s) (st_made_jump s)) as [S1 S2].
        fold (do_adapt c s) in A1, A2. fold (do_step c s) in S1, S2.
        repeat match goal with |- (if ?b then _ else _) <> _ => destruct b end; try assumption;
          discriminate. }
      destruct (cfg_event c) as [e|] eqn:He.
      + rewrite (body_result_event _ _ _ He). unfold where_. destruct (snd _); [discriminate|auto].
      + rewrite (body_result_no_event _ _ He). exact Hp.
    - unfold init_state, obind in Hi. destruct (omap _ _); [|discriminate].
      destruct (omap2 _ _ _); [|discriminate].
      destruct (if cfg_dense c then _ else _); [|discriminate].
      destruct (first_true _ _) as [mm hd]. injection Hi as <-. cbn. destruct hd; discriminate.
  Qed.

  Lemma cond_unfinished (c : config) s :
    cond_fun c s = true <-> unfinished c s /\ st_result s = successful.
  Proof.
    unfold cond_fun, unfinished. rewrite andb_true_iff.
    assert (Hs : is_successful (st_result s) = true <-> st_result s = successful)
      by (destruct (st_result s); cbn; split; congruence).
    rewrite Hs. destruct (stepto_len c).
    - rewrite Nat.ltb_lt. tauto.
    - rewrite Z.ltb_lt. tauto.
  Qed.

  Lemma final_result_cases (c : config) s b tf yf r :
    rf_results_ok c -> final_time c b s = (tf, yf, r) ->
    (tf = st_tprev s /\ yf = st_y s /\ r = st_result s) \/
    (b = true /\ has_root_finder c = true /\
     (r = st_result s \/ (r <> successful /\ r <> max_steps_reached))).
  Proof.
    intros Hrf. unfold final_time, has_root_finder, root_find_event.
    destruct (cfg_event c) as [e|] eqn:He; [|intros H; injection H as <- <- <-; auto].
    destruct (ev_root_finder e) as [rf|] eqn:Hr; [|intros H; injection H as <- <- <-; auto].
    destruct b; [|intros H; injection H as <- <- <-; auto].
    destruct (rf _ _ _ _) as [t [er|]] eqn:Hcall; intros H; injection H as <- <- <-; right;
      split; auto; split; auto.
    right. eapply Hrf; eauto. rewrite Hcall. reflexivity.
  Qed.

  Lemma pf_C01_max_steps_iff (c : config) (i : initial) (h : list attempt) (o : outcome) :
    results_ok c -> rf_results_ok c -> solve_run c i h o ->
    (out_result o = max_steps_reached <->
     cfg_max_steps c = Some (length h) /\ unfinished c (out_state o) /\
     st_result (out_state o) = successful).
  Proof.
    intros Hok Hrfo (s0 & n & Hi & Hn & -> & Hf).
    destruct (finish_state _ _ _ Hf) as (-> & r & Hft & ->).
    pose proof (st_result_not_max c i s0 n Hok Hi) as Hnm.
    set (s := while_loop c n s0) in *.
    destruct (cond_fun c s) eqn:Hc; cbn [where_].
    - pose proof (proj1 (cond_unfinished _ _) Hc). split; [intros _|reflexivity].
      split; [|tauto]. destruct (while_exit c n s0) as [Hx|Hx]; [fold s in Hx; congruence|].
      rewrite while_num_steps in Hx. destruct (cfg_max_steps c); [subst n|congruence].
      f_equal. lia.
    - split.
      + intros ->. destruct (final_result_cases _ _ _ _ _ _ Hrfo Hft) as [(_ & _ & E')|(_ & _ & [E'|[_ E']])];
          congruence.
      + intros (_ & Hu & Hs). pose proof (proj2 (cond_unfinished c s) (conj Hu Hs)). congruence.
  Qed.

  Lemma run_time_inv (c : config) i s0 (Inv : Z -> Z -> CS -> Prop) :
    cfg_t0 c <= cfg_t1 c -> cfg_t0 c <= in_tnext i ->
    Inv (cfg_t0 c) (Z.min (in_tnext i) (cfg_t1 c)) (in_controller_state i) ->
    init_state c i = Some s0 -> time_inv c Inv s0.
  Proof.
    intros H1 H2 HI Hi. destruct (init_time _ _ _ Hi) as (I1 & _ & I3 & _ & _ & _ & _ & _ & I4 & _).
    unfold time_inv. rewrite I1, I3, I4. repeat split; try lia. exact HI.
  Qed.

  Lemma pf_C02_times_in_interval (c : config) (i : initial) (h : list attempt) (o : outcome)
        (Inv : Z -> Z -> CS -> Prop) :
    solve_run c i h o ->
    controller_contract c Inv -> midpoint_ok c ->
    cfg_t0 c <= cfg_t1 c -> cfg_t0 c <= in_tnext i ->
    Inv (cfg_t0 c) (Z.min (in_tnext i) (cfg_t1 c)) (in_controller_state i) ->
    (forall a, In a h -> cfg_t0 c <= at_from a /\ at_from a <= at_to a /\ at_to a <= cfg_t1 c) /\
    (forall h1 a b h2, h = h1 ++ a :: b :: h2 ->
       at_from a <= at_from b /\
       (at_keep a = true -> at_to a <= at_from b) /\
       (at_keep a = false -> at_from b = at_from a)) /\
    rejects_in_place h.
  Proof.
    intros (s0 & n & Hi & Hn & -> & Hf) Hcc Hm H1 H2 HI.
    pose proof (run_time_inv c i s0 Inv H1 H2 HI Hi) as Hti.
    pose proof (history_times c Inv n s0 Hcc Hm Hti) as HF. rewrite Forall_forall in HF.
    split; [|split].
    - intros a Ha. specialize (HF a Ha). tauto.
    - intros h1 a b h2 Hh. destruct (history_linked _ _ _ _ _ _ _ Hh) as [L _].
      assert (Ha : In a (history c n s0)) by (rewrite Hh; apply in_or_app; right; left; reflexivity).
      specialize (HF a Ha). rewrite L. tauto.
    - apply Forall_forall. intros a Ha. specialize (HF a Ha). tauto.
  Qed.

  Lemma count_existsb (l : list bool) : existsb (fun b => b) l = true ->
    count_occ bool_dec l true <> 0%nat.
  Proof. intros H H0. apply count_occ_existsb in H0. congruence. Qed.

  Lemma run_mask_inv (c : config) i s0 n :
    results_ok c -> init_state c i = Some s0 -> mask_inv c (while_loop c n s0).
  Proof.
    intros Hok Hi. apply while_ind; [|eapply mask_inv_init; eauto].
    intros s Hc Hm. apply mask_inv_body; assumption.
  Qed.

  Lemma happened_event (c : config) s :
    mask_inv c s -> event_happened s = is_event (st_result s).
  Proof.
    unfold mask_inv, event_happened. intros H.
    destruct (is_event (st_result s)).
    - destruct (existsb _ _) eqn:He; [reflexivity|]. apply count_occ_existsb in He. lia.
    - apply count_occ_existsb. exact H.
  Qed.

  (** Controllers that move to the end of accepted steps and retry rejected ones in place. *)
  Lemma plain_history (c : config) n : forall s,
    plain_controller c -> midpoint_ok c -> st_tprev s <= cfg_t1 c -> st_tnext s <= cfg_t1 c ->
    rejects_in_place (history c n s) /\ no_time_jumps (history c n s).
  Proof.
    induction n as [|n IH]; intros s Hp Hm H1 H2; cbn [history]; [split; constructor|].
    destruct (cond_fun c s); [|split; constructor].
    assert (Ht : st_tprev (body_fun c s) <= cfg_t1 c)
      by (rewrite body_tprev, attempt_of_eq; cbn; lia).
    assert (Ht2 : st_tnext (body_fun c s) <= cfg_t1 c).
    { rewrite body_tnext. unfold clip_to_end. rewrite floor_lt.
      destruct (Z.ltb_spec (cfg_t1 c - 100) (ao_tnext (do_adapt c s))); [|lia].
      destruct (at_keep (attempt_of c s)); [lia|]. apply Hm. rewrite <- body_tprev. exact Ht. }
    destruct (IH _ Hp Hm Ht Ht2) as [IH1 IH2].
    pose proof (Hp (st_tprev s) (st_tnext s) (st_y s) (so_y (do_step c s))
                   (nan_to_inf c (so_error (do_step c s))) (st_controller_state s)) as H.
    cbn zeta in H. fold (do_adapt c s) in H.
    split; (constructor; [|assumption]); rewrite attempt_of_eq;
      cbn [at_keep at_end at_from at_to]; intros Hk; rewrite H, Hk; lia.
  Qed.

  Lemma plain_run (c : config) (i : initial) (h : list attempt) (o : outcome) :
    solve_run c i h o -> plain_controller c -> midpoint_ok c -> cfg_t0 c <= cfg_t1 c ->
    rejects_in_place h /\ no_time_jumps h.
  Proof.
    intros (s0 & n & Hi & Hn & -> & Hf) Hp Hm Ht.
    destruct (init_time _ _ _ Hi) as (I1 & _ & I3 & _).
    apply plain_history; try assumption; lia.
  Qed.

  Lemma pf_C03_success_reaches_t1 (c : config) (i : initial) (h : list attempt) (o : outcome) :
    solve_run c i h o -> stepto_len c = None -> cfg_t0 c <= cfg_t1 c ->
    results_ok c -> rf_results_ok c ->
    out_result o = successful ->
    out_tfinal o = cfg_t1 c /\
    (rejects_in_place h ->
     (out_tfinal o, out_yfinal o) = current (cfg_t0 c) (in_y i) (accepted h)).
  Proof.
    intros (s0 & n & Hi & Hn & -> & Hf) Hst Ht Hok Hrfo.
    destruct (finish_state _ _ _ Hf) as (Hos & r & Hft & ->).
    pose proof (run_mask_inv c i s0 n Hok Hi) as Hm.
    destruct (init_time _ _ _ Hi) as (I1 & I2 & _).
    assert (Hle : st_tprev s0 <= cfg_t1 c) by lia.
    pose proof (tprev_le_t1 c n s0 Hle) as Hle2.
    pose proof (while_last_point c n s0) as Hlast.
    set (s := while_loop c n s0) in *.
    destruct (cond_fun c s) eqn:Hc; [discriminate|]. cbn [where_]. intros ->.
    destruct (final_result_cases _ _ _ _ _ _ Hrfo Hft) as [(E1 & E2 & E3)|(Hb & _ & [E3|[E3 _]])].
    - rewrite E1, E2. split.
      + unfold cond_fun in Hc. rewrite Hst, <- E3 in Hc. cbn in Hc. rewrite andb_true_r in Hc.
        apply Z.ltb_ge in Hc. lia.
      + intros Hrj. rewrite (Hlast Hrj), I1, I2. reflexivity.
    - rewrite (happened_event _ _ Hm), <- E3 in Hb. discriminate.
    - congruence.
  Qed.

  Lemma pf_C08_rejected_step (c : config) (s : state) (Inv : Z -> Z -> CS -> Prop) :
    controller_contract c Inv -> Inv (st_tprev s) (st_tnext s) (st_controller_state s) ->
    st_tprev s <= st_tnext s -> st_tnext s <= cfg_t1 c -> cond_fun c s = true ->
    length (st_save s) = length (cfg_subs c) ->
    at_keep (attempt_of c s) = false ->
    let s' := body_fun c s in
    st_y s' = st_y s /\ st_tprev s' = st_tprev s /\ st_solver_state s' = st_solver_state s /\
    st_made_jump s' = st_made_jump s /\ st_save s' = st_save s /\
    st_dense_ts s' = st_dense_ts s /\ st_dense_infos s' = st_dense_infos s /\
    st_dense_index s' = st_dense_index s /\ st_num_accepted s' = st_num_accepted s /\
    st_num_steps s' = S (st_num_steps s) /\ st_num_rejected s' = S (st_num_rejected s).
  Proof.
    intros Hrj HI Ht1 Ht2 Hcd Hlen Hk s'. subst s'.
    rewrite body_y, body_tprev, body_solver_state, body_made_jump, body_save, body_dense_ts,
      body_dense_infos, body_dense_index, body_num_accepted, body_num_steps, body_num_rejected.
    rewrite Hk, andb_false_r, !Nat.add_0_r.
    assert (Ha : at_y (attempt_of c s) = st_y s /\ at_end (attempt_of c s) = st_tprev s).
    { rewrite attempt_of_eq in Hk |- *. cbn [at_keep at_y at_end] in *. rewrite Hk. split; [reflexivity|].
      pose proof (Hrj (st_tprev s) (st_tnext s) (st_y s) (so_y (do_step c s))
                   (nan_to_inf c (so_error (do_step c s))) (st_controller_state s) HI Ht1 Ht2 (cond_lt_t1 _ _ Hcd)) as H.
      cbn zeta in H. fold (do_adapt c s) in H. destruct H as (_ & H & _). rewrite (H Hk). lia. }
    destruct Ha as [-> ->].
    repeat (split; [try reflexivity|]); try lia.
    generalize (at_to (attempt_of c s)), (at_interp (attempt_of c s)). intros tn ev.
    clear - Hlen. generalize dependent (st_save s). induction (cfg_subs c) as [|sub subs IH];
      intros [|sv svs] Hlen; cbn [map2 length] in *; try discriminate; [reflexivity|].
    rewrite IH by lia. f_equal.
    assert (H1 : save_ts false tn ev sub sv = sv).
    { unfold save_ts. destruct (sub_ts sub) as [ts|]; [|reflexivity].
      destruct (length ts); cbn; [reflexivity|].
      destruct (get_clamp ts (saveat_ts_index sv)); reflexivity. }
    rewrite H1. unfold save_steps. destruct (sub_steps sub =? 0)%nat; reflexivity.
  Qed.

  Lemma history_solver_run (c : config) n : forall s,
    rejects_in_place (history c n s) ->
    solver_run c (st_tprev s) (st_y s) (st_solver_state s) (st_made_jump s)
               (accepted (history c n s)).
  Proof.
    induction n as [|n IH]; intros s Hrj; cbn [history] in *; [constructor|].
    destruct (cond_fun c s); [|constructor].
    specialize (IH _ (Forall_inv_tail Hrj)). apply Forall_inv in Hrj.
    unfold accepted; cbn [filter]. fold (accepted (history c n (body_fun c s))).
    rewrite body_y, body_tprev, body_solver_state, body_made_jump in IH.
    destruct (at_keep (attempt_of c s)) eqn:Hk.
    - econstructor; try reflexivity; [exact Hk| |exact IH].
      rewrite attempt_of_eq in Hk |- *. cbn [at_keep at_y at_to] in *. rewrite Hk. reflexivity.
    - assert (Ha : at_y (attempt_of c s) = st_y s /\ at_end (attempt_of c s) = st_tprev s).
      { split; [|exact (Hrj eq_refl)]. rewrite attempt_of_eq in Hk |- *. cbn [at_keep at_y] in *.
        rewrite Hk. reflexivity. }
      destruct Ha as [Ha1 Ha2]. rewrite Ha1, Ha2 in IH. exact IH.
  Qed.

  Lemma pf_C08_accepted_steps_run (c : config) (i : initial) (h : list attempt) (o : outcome) :
    solve_run c i h o -> rejects_in_place h ->
    solver_run c (cfg_t0 c) (in_y i) (in_solver_state i) (in_made_jump i) (accepted h).
  Proof.
    intros (s0 & n & Hi & Hn & -> & Hf) Hrj.
    destruct (init_time _ _ _ Hi) as (I1 & I2 & _ & _ & _ & _ & I3 & I4 & _).
    rewrite <- I1, <- I2, <- I3, <- I4. apply history_solver_run. assumption.
  Qed.

  Lemma init_successful_no_event (c : config) i s0 :
    cfg_event c = None -> init_state c i = Some s0 -> st_result s0 = successful.
  Proof.
    intros He Hi. unfold init_state, obind in Hi. rewrite He in Hi.
    destruct (omap _ _); [|discriminate]. destruct (omap2 _ _ _); [|discriminate].
    destruct (if cfg_dense c then _ else _); [|discriminate]. cbn in Hi.
    injection Hi as <-. reflexivity.
  Qed.

  Lemma pf_C12_first_failure_wins (c : config) (i : initial) (h : list attempt) (a : attempt)
        (o : outcome) :
    solve_run c i (h ++ [a]) o -> cfg_event c = None ->
    Forall (fun b => attempt_result b = successful) h /\
    (attempt_result a <> successful -> out_result o = attempt_result a) /\
    (attempt_result a = successful ->
     out_result o = successful \/ out_result o = max_steps_reached).
  Proof.
    intros (s0 & n & Hi & Hn & Hh & Hf) He.
    pose proof (init_successful_no_event _ _ _ He Hi) as Hs0.
    assert (Hs : is_successful (st_result s0) = true) by (rewrite Hs0; reflexivity).
    symmetry in Hh. split.
    - apply Forall_forall. intros b Hb. eapply earlier_attempts_ok; eauto.
    - pose proof (result_last_attempt c n s0 He Hs) as Hr.
      rewrite Hh, map_app in Hr. cbn [map] in Hr. rewrite last_last in Hr.
      destruct (finish_state _ _ _ Hf) as (_ & r & Hft & ->).
      unfold final_time in Hft. rewrite He in Hft. injection Hft as _ _ <-.
      unfold where_, cond_fun. rewrite Hr. split.
      + intros Hne. destruct (attempt_result a); try congruence; cbn; rewrite andb_false_r; reflexivity.
      + intros ->. destruct (_ && _); auto.
  Qed.

  (** Saving. *)
  Lemma run_logs (c : config) (i : initial) (h : list attempt) (o : outcome) :
    solve_run c i h o -> has_root_finder c = false ->
    (stepto_len c <> None -> cfg_t0 c < cfg_t1 c) ->
    Forall2 (fun sub sv =>
        holds_log sv (log_final sub (cfg_t0 c) (cfg_t1 c) (in_y i) (accepted h)
                                (out_tfinal o) (out_yfinal o))
                  (in_pad i) (size_of (cfg_max_steps c) sub))
      (cfg_subs c) (out_save o).
  Proof.
    intros (s0 & n & Hi & Hn & -> & Hf) Hrf Hst.
    apply (finish_logs c i s0 n o Hrf Hst (run_bound _ _ _ Hn) Hi Hf).
  Qed.

  Lemma size_slots (c : config) (i : initial) (h : list attempt) (o : outcome) :
    solve_run c i h o ->
    Forall (fun sub => size_of (cfg_max_steps c) sub = allocated (cfg_max_steps c) sub) (cfg_subs c).
  Proof.
    intros (s0 & n & Hi & _).
    assert (Hsz : Forall (fun sub => exists size, out_size (cfg_max_steps c) sub = Some size) (cfg_subs c)).
    { clear - Hi. unfold init_state, obind in Hi.
      destruct (omap _ (cfg_subs c)) as [svs|] eqn:H1; [|discriminate]. clear Hi.
      apply omap_spec in H1. induction H1; constructor; auto.
      destruct (alloc_holds _ _ _ _ H) as (size & Hs & _). eauto. }
    eapply Forall_impl; [|exact Hsz]. cbn beta. intros sub (size & Hs).
    unfold size_of. rewrite Hs. unfold out_size in Hs. unfold allocated, sub_ts_list.
    destruct (sub_ts sub); destruct (sub_steps sub) as [|k]; cbn [Nat.eqb] in Hs;
      destruct (cfg_max_steps c) as [m|]; try discriminate; injection Hs as <-; cbn [length orb];
      rewrite ?Nat.add_0_r; try reflexivity; destruct (sub_t1 sub); cbn; lia.
  Qed.

  Lemma Forall2_and_l {A B} (P : A -> Prop) (R : A -> B -> Prop) l l' :
    Forall P l -> Forall2 R l l' -> Forall2 (fun a b => P a /\ R a b) l l'.
  Proof. intros HP HR. induction HR; constructor; inversion HP; subst; auto. Qed.

  Lemma pf_C05_storage (c : config) (i : initial) (h : list attempt) (o : outcome) :
    solve_run c i h o -> has_root_finder c = false ->
    (stepto_len c <> None -> cfg_t0 c < cfg_t1 c) ->
    Forall2 (fun sub sv =>
        let log := log_final sub (cfg_t0 c) (cfg_t1 c) (in_y i) (accepted h)
                             (out_tfinal o) (out_yfinal o) in
        let n := allocated (cfg_max_steps c) sub in
        (length log <= n)%nat /\
        ss_ts sv = map (fun p => Fin (fst p)) log ++ repeat (in_pad i) (n - length log) /\
        ss_ys sv = map (fun p => Some (snd p)) log ++ repeat None (n - length log))
      (cfg_subs c) (out_save o).
  Proof.
    intros Hrun Hrf Hst. pose proof (run_logs c i h o Hrun Hrf Hst) as H.
    pose proof (Forall2_and_l _ _ _ _ (size_slots _ _ _ _ Hrun) H) as H'.
    eapply Forall2_impl; [|exact H']. cbn beta. intros sub sv [-> Hh]. exact Hh.
  Qed.

  Lemma Forall2_len {A B} (R : A -> B -> Prop) l l' : Forall2 R l l' -> length l = length l'.
  Proof. induction 1; cbn; congruence. Qed.

  Lemma Forall2_nth {A B} (R : A -> B -> Prop) l l' j a :
    Forall2 R l l' -> nth_error l j = Some a -> exists b, nth_error l' j = Some b /\ R a b.
  Proof.
    intros H. revert j. induction H as [|x y l l' Hxy _ IH]; intros [|j] Hn; cbn in *; try discriminate.
    - injection Hn as <-. eauto.
    - eauto.
  Qed.

  Lemma run_reaches (c : config) (i : initial) (h : list attempt) (o : outcome) t :
    solve_run c i h o -> stepto_len c = None -> cfg_t0 c < cfg_t1 c -> cfg_event c = None \/ results_ok c ->
    rf_results_ok c -> results_ok c ->
    rejects_in_place h -> no_time_jumps h -> out_result o = successful -> t <= cfg_t1 c ->
    exists a, find (fun a => t <=? at_to a) (accepted h) = Some a.
  Proof.
    intros Hrun Hst Ht _ Hrfo Hok Hrj Hnj Hr Hle.
    destruct (pf_C03_success_reaches_t1 c i h o Hrun Hst) as [Htf Hcur]; try assumption; [lia|].
    destruct Hrun as (s0 & n & Hi & Hn & -> & Hf).
    destruct (init_time _ _ _ Hi) as (I1 & I2 & _).
    assert (Hl0 : st_tprev s0 <= cfg_t1 c) by lia.
    pose proof (while_last_point c n s0 Hrj) as Hlast.
    assert (Htp : st_tprev (while_loop c n s0) = cfg_t1 c).
    { rewrite I1, I2 in Hlast. specialize (Hcur Hrj). unfold current in Hcur. unfold last_point in Hlast.
      rewrite <- Hlast in Hcur. injection Hcur as Hc1 _. congruence. }
    apply reaches_t1; try assumption; lia.
  Qed.

  Lemma pf_C04_saveat_ts (c : config) (i : initial) (h : list attempt) (o : outcome)
        (j : nat) (sub : subsaveat Y V) (ts : list Z) :
    solve_run c i h o -> has_root_finder c = false -> stepto_len c = None ->
    results_ok c -> rejects_in_place h -> no_time_jumps h ->
    cfg_t0 c < cfg_t1 c ->
    nth_error (cfg_subs c) j = Some sub ->
    sub_ts sub = Some ts -> sub_t0 sub = false -> sub_t1 sub = false -> sub_steps sub = 0%nat ->
    Sorted Z.le ts -> Forall (fun t => t <= cfg_t1 c) ts ->
    out_result o = successful ->
    exists sv, nth_error (out_save o) j = Some sv /\
      ss_ts sv = map Fin ts /\
      Forall2 (fun t v => exists a, find (fun a => t <=? at_to a) (accepted h) = Some a /\
                                    v = Some (sub_fn sub t (at_interp a t))) ts (ss_ys sv).
  Proof.
    intros Hrun Hrf Hst Hok Hrj Hnj Ht Hj Hts H0 H1 Hstep Hsort Hub Hr.
    assert (Hst' : stepto_len c <> None -> cfg_t0 c < cfg_t1 c) by auto.
    destruct (Forall2_nth _ _ _ _ _ (pf_C05_storage c i h o Hrun Hrf Hst') Hj) as (sv & Hsv & Hl & L1 & L2).
    exists sv. split; [exact Hsv|].
    assert (Hrfo : rf_results_ok c).
    { intros e rf f lo hi start r He Hre. unfold has_root_finder in Hrf. rewrite He, Hre in Hrf. discriminate. }
    assert (Hfind : forall t, In t ts -> exists a, find (fun a => t <=? at_to a) (accepted h) = Some a).
    { intros t Hin. rewrite Forall_forall in Hub. eapply run_reaches; eauto. }
    assert (Hlog : exists l, log_final sub (cfg_t0 c) (cfg_t1 c) (in_y i) (accepted h)
                             (out_tfinal o) (out_yfinal o) = combine ts l /\
                   Forall2 (fun t v => exists a, find (fun a => t <=? at_to a) (accepted h) = Some a /\
                                    v = sub_fn sub t (at_interp a t)) ts l).
    { unfold log_final, log_loop, log_t0, sub_ts_list. rewrite H0, H1, Hts. cbn [andb app].
      rewrite (proj2 (Z.eqb_neq _ _)) by lia. rewrite !app_nil_r.
      rewrite ts_log by assumption. clear - Hfind. induction ts as [|t ts IH]; [exists []; auto|].
      destruct IH as (l & E1 & E2); [intros; apply Hfind; right; assumption|].
      destruct (Hfind t (or_introl eq_refl)) as (a & Ha).
      exists (sub_fn sub t (at_interp a t) :: l). cbn [flat_map combine]. rewrite Ha. cbn [app].
      rewrite E1. split; [reflexivity|]. constructor; eauto. }
    destruct Hlog as (l & Hlog & HF). rewrite Hlog in *.
    pose proof (Forall2_len _ _ _ HF) as Hlen.
    assert (Hn : allocated (cfg_max_steps c) sub = length ts).
    { unfold allocated, sub_ts_list. rewrite H0, H1, Hstep, Hts. cbn. lia. }
    rewrite Hn in L1, L2. rewrite combine_length, <- Hlen, Nat.min_id, Nat.sub_diag in L1, L2.
    cbn [repeat] in L1, L2. rewrite app_nil_r in L1, L2. rewrite L1, L2. split.
    - clear - Hlen. revert l Hlen. induction ts as [|t ts IH]; intros [|v l] H; cbn in *; try discriminate;
        [reflexivity|]. f_equal. apply IH. lia.
    - clear - HF. induction HF as [|t v ts l (a & Ha & ->) _ IH]; cbn; constructor; eauto.
  Qed.

  Lemma flat_map_prefix (accs : list attempt) (sub : subsaveat Y V) ts :
    Sorted Z.le ts ->
    map fst (flat_map (fun t => match find (fun a => t <=? at_to a) accs with
                       | Some a => [(t, sub_fn sub t (at_interp a t))]
                       | None => []
                       end) ts)
    = take_while (fun t => existsb (fun a => t <=? at_to a) accs) ts.
  Proof.
    intros Hs. apply Sorted_StronglySorted in Hs; [|red; lia].
    assert (Hfe : forall t, existsb (fun a => t <=? at_to a) accs =
                match find (fun a => t <=? at_to a) accs with Some _ => true | None => false end).
    { intros t. induction accs as [|a accs IH]; cbn; [reflexivity|]. destruct (t <=? at_to a); auto. }
    induction ts as [|t ts IH]; cbn; [reflexivity|].
    apply StronglySorted_inv in Hs. destruct Hs as [Hs HF].
    rewrite Hfe. destruct (find (fun a => t <=? at_to a) accs) as [a|] eqn:Hfd; cbn [app map fst].
    - f_equal. auto.
    - assert (Hnone : forall t', In t' ts -> find (fun a => t' <=? at_to a) accs = None).
      { intros t' Hin. rewrite Forall_forall in HF. specialize (HF t' Hin).
        destruct (find (fun a => t' <=? at_to a) accs) as [b|] eqn:Hb; [|reflexivity].
        apply find_some in Hb. destruct Hb as [B1 B2]. apply Z.leb_le in B2.
        pose proof (find_none _ _ Hfd b B1) as Hn. cbn in Hn. apply Z.leb_gt in Hn. lia. }
      clear - Hnone. induction ts as [|t' ts IH]; cbn; [reflexivity|].
      rewrite (Hnone t' (or_introl eq_refl)). cbn. apply IH. intros; apply Hnone; right; auto.
  Qed.

  Lemma pf_C04_early_stop_prefix (c : config) (i : initial) (h : list attempt) (o : outcome)
        (j : nat) (sub : subsaveat Y V) (ts : list Z) :
    solve_run c i h o -> has_root_finder c = false -> cfg_t0 c < cfg_t1 c ->
    nth_error (cfg_subs c) j = Some sub ->
    sub_ts sub = Some ts -> sub_t0 sub = false -> sub_t1 sub = false -> sub_steps sub = 0%nat ->
    Sorted Z.le ts ->
    let served := take_while (fun t => existsb (fun a => t <=? at_to a) (accepted h)) ts in
    exists sv, nth_error (out_save o) j = Some sv /\
      ss_ts sv = map Fin served ++ repeat (in_pad i) (length ts - length served) /\
      skipn (length served) (ss_ys sv) = repeat None (length ts - length served) /\
      forall k t, nth_error served k = Some t ->
        exists a, find (fun a => t <=? at_to a) (accepted h) = Some a /\
                  nth_error (ss_ys sv) k = Some (Some (sub_fn sub t (at_interp a t))).
  Proof.
    intros Hrun Hrf Ht Hj Hts H0 H1 Hstep Hsort served.
    assert (Hst' : stepto_len c <> None -> cfg_t0 c < cfg_t1 c) by auto.
    destruct (Forall2_nth _ _ _ _ _ (pf_C05_storage c i h o Hrun Hrf Hst') Hj) as (sv & Hsv & Hl & L1 & L2).
    exists sv. split; [exact Hsv|].
    assert (Hn : allocated (cfg_max_steps c) sub = length ts).
    { unfold allocated, sub_ts_list. rewrite H0, H1, Hstep, Hts. cbn. lia. }
    set (fm := flat_map (fun t => match find (fun a => t <=? at_to a) (accepted h) with
                       | Some a => [(t, sub_fn sub t (at_interp a t))]
                       | None => []
                       end) ts).
    assert (Hlog : log_final sub (cfg_t0 c) (cfg_t1 c) (in_y i) (accepted h)
                             (out_tfinal o) (out_yfinal o) = fm).
    { unfold log_final, log_loop, log_t0, sub_ts_list. rewrite H0, H1, Hts. cbn [andb app].
      rewrite (proj2 (Z.eqb_neq _ _)) by lia. rewrite !app_nil_r. apply ts_log; assumption. }
    rewrite Hlog, Hn in *.
    assert (Hserved : map fst fm = served) by (apply flat_map_prefix; assumption).
    assert (Hls : length served = length fm) by (rewrite <- Hserved; apply map_length).
    rewrite Hls. split; [|split].
    - rewrite L1, <- Hserved, map_map. reflexivity.
    - rewrite L2, skipn_app, map_length, Nat.sub_diag, skipn_all2; [reflexivity|].
      rewrite map_length; lia.
    - intros k t Hk. rewrite <- Hserved in Hk. rewrite nth_error_map in Hk.
      destruct (nth_error fm k) as [[t' v]|] eqn:Hfk; [|discriminate]. injection Hk as <-.
      pose proof (nth_error_In _ _ Hfk) as Hin. apply in_flat_map in Hin.
      destruct Hin as (t2 & _ & Hin).
      destruct (find (fun a => t2 <=? at_to a) (accepted h)) as [a|] eqn:Hfa; [|contradiction].
      destruct Hin as [Hin|[]]. injection Hin as <- <-. exists a. split; [exact Hfa|].
      rewrite L2, nth_error_app1.
      + rewrite nth_error_map, Hfk. reflexivity.
      + rewrite map_length. apply nth_error_Some. congruence.
  Qed.

  Lemma pf_C04_t0_equals_t1 (c : config) (i : initial) (h : list attempt) (o : outcome)
        (j : nat) (sub : subsaveat Y V) (ts : list Z) :
    solve_run c i h o -> has_root_finder c = false -> stepto_len c = None ->
    cfg_t0 c = cfg_t1 c ->
    nth_error (cfg_subs c) j = Some sub ->
    sub_ts sub = Some ts -> sub_t0 sub = false -> sub_t1 sub = false -> sub_steps sub = 0%nat ->
    exists sv, nth_error (out_save o) j = Some sv /\
      ss_ts sv = repeat (Fin (cfg_t0 c)) (length ts) /\
      ss_ys sv = repeat (Some (sub_fn sub (cfg_t0 c) (in_y i))) (length ts).
  Proof.
    intros Hrun Hrf Hst Ht Hj Hts H0 H1 Hstep.
    assert (Hst' : stepto_len c <> None -> cfg_t0 c < cfg_t1 c) by congruence.
    destruct (Forall2_nth _ _ _ _ _ (pf_C05_storage c i h o Hrun Hrf Hst') Hj) as (sv & Hsv & Hl & L1 & L2).
    exists sv. split; [exact Hsv|].
    assert (Hn : allocated (cfg_max_steps c) sub = length ts).
    { unfold allocated, sub_ts_list. rewrite H0, H1, Hstep, Hts. cbn. lia. }
    destruct Hrun as (s0 & n & Hi & _ & -> & Hf).
    destruct (no_steps_if_equal c i s0 n Hst' Hi Ht) as (Hh & Hs).
    destruct (finish_norf_final _ _ _ Hrf Hf) as (_ & Hyf & _).
    destruct (init_time _ _ _ Hi) as (I1 & I2 & _).
    rewrite Hh, Hn in *. unfold log_final, log_loop, log_t0, sub_ts_list in *.
    rewrite H0, H1, Hts in *. cbn [accepted filter log_steps app andb] in *.
    rewrite (proj2 (Z.eqb_eq _ _) Ht) in *. rewrite app_nil_r in *.
    rewrite repeat_length, Nat.sub_diag in *. cbn [repeat] in *. rewrite app_nil_r in *.
    rewrite L1, L2, Hyf, Hs, I2. split; clear; induction (length ts); cbn; congruence.
  Qed.

  Lemma select_flat_map (p : nat -> bool) (f : attempt -> Z * V) (accs : list attempt) k :
    flat_map (fun q => if p (fst q) then [f (snd q)] else []) (combine (seq k (length accs)) accs)
    = map f (map snd (filter (fun q => p (fst q)) (combine (seq k (length accs)) accs))).
  Proof.
    revert k. induction accs as [|a accs IH]; intros k; cbn; [reflexivity|].
    rewrite IH. destruct (p k); reflexivity.
  Qed.

  Lemma steps_log_select (sub : subsaveat Y V) (accs : list attempt) :
    log_steps sub [] 0 accs = map (step_point sub) (select (step_due (sub_steps sub)) accs).
  Proof.
    rewrite steps_log. unfold select, numbered, step_point. cbn [Nat.add].
    rewrite <- (select_flat_map (step_due (sub_steps sub)) (fun a => (at_end a, sub_fn sub (at_end a) (at_y a)))).
    reflexivity.
  Qed.

  Lemma pf_C06_saveat_steps (c : config) (i : initial) (h : list attempt) (o : outcome)
        (j n m : nat) (sub : subsaveat Y V) :
    solve_run c i h o -> has_root_finder c = false ->
    (stepto_len c <> None -> cfg_t0 c < cfg_t1 c) ->
    nth_error (cfg_subs c) j = Some sub -> sub_ts sub = None -> sub_t0 sub = false ->
    sub_t1 sub = false -> sub_steps sub = S n -> cfg_max_steps c = Some m ->
    let saved := map (step_point sub) (select (fun k => k mod (S n) =? 0)%nat (accepted h)) in
    exists sv, nth_error (out_save o) j = Some sv /\
      holds_log sv saved (in_pad i) (m / S n).
  Proof.
    intros Hrun Hrf Hst' Hj Hts H0 H1 Hstep Hm saved.
    destruct (Forall2_nth _ _ _ _ _ (pf_C05_storage c i h o Hrun Hrf Hst') Hj) as (sv & Hsv & L).
    exists sv. split; [exact Hsv|].
    assert (Hn : allocated (cfg_max_steps c) sub = (m / S n)%nat).
    { unfold allocated, sub_ts_list. rewrite H0, H1, Hstep, Hts, Hm. cbn [length andb]. lia. }
    rewrite Hn in L.
    assert (Hlog : log_final sub (cfg_t0 c) (cfg_t1 c) (in_y i) (accepted h)
                             (out_tfinal o) (out_yfinal o) = saved).
    { unfold log_final, log_loop, log_t0, sub_ts_list. rewrite H0, H1, Hts. cbn [andb app length repeat].
      rewrite steps_log_select. rewrite Hstep. 
      destruct (cfg_t0 c =? cfg_t1 c); cbn [app]; rewrite app_nil_r; reflexivity. }
    rewrite Hlog in L. exact L.
  Qed.

  Lemma select_last (p q : nat -> bool) (accs : list attempt) :
    (forall k, (k < length accs)%nat -> p k = q k) -> q (length accs) = true ->
    accs <> [] ->
    map snd (filter (fun x => q (fst x)) (numbered accs)) =
    map snd (filter (fun x => p (fst x)) (numbered accs))
    ++ (if p (length accs) then [] else match rev accs with a :: _ => [a] | [] => [] end).
  Proof.
    intros Hpq Hq Hne. destruct (exists_last Hne) as (l & a & ->).
    unfold numbered. rewrite app_length in *. cbn [length] in *. rewrite rev_app_distr. cbn [rev app].
    rewrite Nat.add_1_r in *. rewrite seq_S. cbn [Nat.add].
    assert (Hcomb : forall (l1 : list nat) (l2 : list attempt) x y, length l1 = length l2 ->
               combine (l1 ++ [x]) (l2 ++ [y]) = combine l1 l2 ++ [(x, y)]).
    { induction l1 as [|b l1 IH]; intros [|d l2] x y Hl; cbn in *; try discriminate; [reflexivity|].
      rewrite IH by lia. reflexivity. }
    rewrite Hcomb by apply seq_length. rewrite !filter_app, !map_app.
    assert (Hin : filter (fun x => q (fst x)) (combine (seq 1 (length l)) l)
                  = filter (fun x => p (fst x)) (combine (seq 1 (length l)) l)).
    { apply filter_ext_in. intros [k b] Hin. apply in_combine_l in Hin. apply in_seq in Hin.
      cbn. symmetry. apply Hpq. lia. }
    rewrite Hin. cbn [filter fst]. rewrite Hq. rewrite <- app_assoc. f_equal.
    destruct (p (S (length l))); reflexivity.
  Qed.

  Lemma current_last (t0 : Z) (y0 : Y) (accs : list attempt) a l :
    rev accs = a :: l -> current t0 y0 accs = (at_end a, at_y a).
  Proof.
    intros H. apply (f_equal (@rev attempt)) in H. rewrite rev_involutive in H. cbn in H.
    unfold current. rewrite H, map_app. cbn. apply last_last.
  Qed.

  Lemma run_current (c : config) (i : initial) (h : list attempt) (o : outcome) :
    solve_run c i h o -> has_root_finder c = false -> rejects_in_place h ->
    (out_tfinal o, out_yfinal o) = current (cfg_t0 c) (in_y i) (accepted h).
  Proof.
    intros (s0 & n & Hi & Hn & -> & Hf) Hrf Hrj.
    destruct (finish_norf_final _ _ _ Hrf Hf) as (-> & -> & _).
    destruct (init_time _ _ _ Hi) as (I1 & I2 & _).
    rewrite (while_last_point c n s0 Hrj). rewrite I1, I2. reflexivity.
  Qed.

  Lemma pf_C07_saveat_t1_steps_partial (c : config) (i : initial) (h : list attempt) (o : outcome)
        (j n : nat) (sub : subsaveat Y V) :
    solve_run c i h o -> has_root_finder c = false -> rejects_in_place h ->
    cfg_t0 c < cfg_t1 c ->
    nth_error (cfg_subs c) j = Some sub -> sub_ts sub = None -> sub_t0 sub = false ->
    sub_t1 sub = true -> sub_steps sub = S n ->
    accepted h <> [] ->
    let saved := map (step_point sub)
                     (select (fun k => (k mod S n =? 0) || (k =? length (accepted h)))%nat (accepted h)) in
    exists sv, nth_error (out_save o) j = Some sv /\
      holds_log sv saved (in_pad i) (allocated (cfg_max_steps c) sub).
  Proof.
    intros Hrun Hrf Hrj Ht Hj Hts H0 H1 Hstep Hne saved.
    assert (Hst' : stepto_len c <> None -> cfg_t0 c < cfg_t1 c) by auto.
    destruct (Forall2_nth _ _ _ _ _ (pf_C05_storage c i h o Hrun Hrf Hst') Hj) as (sv & Hsv & L).
    exists sv. split; [exact Hsv|].
    assert (Hle : cfg_t0 c <= cfg_t1 c) by lia.
    pose proof (run_current c i h o Hrun Hrf Hrj) as Hcur.
    assert (Hlog : log_final sub (cfg_t0 c) (cfg_t1 c) (in_y i) (accepted h)
                             (out_tfinal o) (out_yfinal o) = saved).
    { unfold log_final, log_loop, log_t0, sub_ts_list. rewrite H0, H1, Hts.
      rewrite (proj2 (Z.eqb_neq _ _)) by lia. cbn [andb app length repeat].
      rewrite steps_log_select. unfold saved, select.
      rewrite (select_last (step_due (sub_steps sub))
                 (fun k => (k mod S n =? 0) || (k =? length (accepted h)))%nat); [|..|assumption].
      - rewrite map_app. f_equal. rewrite Hstep.
        destruct (step_due (S n) (length (accepted h))); cbn [negb]; [reflexivity|].
        destruct (rev (accepted h)) as [|a l] eqn:Hrev.
        { apply (f_equal (@rev attempt)) in Hrev. rewrite rev_involutive in Hrev. contradiction. }
        rewrite (current_last _ _ _ _ _ Hrev) in Hcur. injection Hcur as -> ->. reflexivity.
      - intros k Hk. rewrite Hstep. unfold step_due. cbn [Nat.eqb negb andb].
        rewrite (proj2 (Nat.eqb_neq k _)) by lia. rewrite orb_false_r. reflexivity.
      - rewrite Nat.eqb_refl, orb_true_r. reflexivity. }
    rewrite Hlog in L. exact L.
  Qed.

  Lemma log_steps_due_last (sub : subsaveat Y V) : forall accs rem k a,
    step_due (sub_steps sub) (k + length accs + 1) = true ->
    exists l, log_steps sub rem k (accs ++ [a]) = l ++ [step_point sub a].
  Proof.
    induction accs as [|b accs IH]; intros rem k a H; cbn [app log_steps length] in *.
    - rewrite Nat.add_0_r in H. unfold step_due in H. rewrite H. rewrite app_nil_r.
      eexists. reflexivity.
    - destruct (IH (drop_while (fun t => t <=? at_to b) rem) (k + 1)%nat a) as [l Hl].
      { replace (k + 1 + length accs + 1)%nat with (k + S (length accs) + 1)%nat by lia. exact H. }
      rewrite Hl, !app_assoc. eexists. reflexivity.
  Qed.

  Lemma pf_C07_final_entry (c : config) (i : initial) (h : list attempt) (o : outcome)
        (j : nat) (sub : subsaveat Y V) :
    solve_run c i h o -> has_root_finder c = false -> rejects_in_place h ->
    cfg_t0 c < cfg_t1 c ->
    nth_error (cfg_subs c) j = Some sub -> sub_t1 sub = true ->
    sub_steps sub = 0%nat \/ accepted h <> [] ->
    exists sv log, nth_error (out_save o) j = Some sv /\
      holds_log sv (log ++ [(out_tfinal o, sub_fn sub (out_tfinal o) (out_yfinal o))])
                (in_pad i) (allocated (cfg_max_steps c) sub).
  Proof.
    intros Hrun Hrf Hrj Ht Hj H1 Hor.
    assert (Hst' : stepto_len c <> None -> cfg_t0 c < cfg_t1 c) by auto.
    destruct (Forall2_nth _ _ _ _ _ (pf_C05_storage c i h o Hrun Hrf Hst') Hj) as (sv & Hsv & L).
    exists sv. cbn zeta in L.
    assert (Hlog : exists log, log_final sub (cfg_t0 c) (cfg_t1 c) (in_y i) (accepted h)
                             (out_tfinal o) (out_yfinal o)
                   = log ++ [(out_tfinal o, sub_fn sub (out_tfinal o) (out_yfinal o))]).
    { unfold log_final. rewrite (proj2 (Z.eqb_neq _ _)) by lia. cbn [app]. rewrite H1. cbn [andb].
      destruct (step_due (sub_steps sub) (length (accepted h))) eqn:Hd; cbn [negb].
      2:{ eexists. reflexivity. }
      destruct Hor as [H0|Hne]; [rewrite H0 in Hd; discriminate Hd|].
      pose proof (run_current c i h o Hrun Hrf Hrj) as Hcur.
      destruct (exists_last Hne) as (l & a & Hla).
      assert (Hrev : rev (accepted h) = a :: rev l) by (rewrite Hla, rev_app_distr; reflexivity).
      rewrite (current_last _ _ _ _ _ Hrev) in Hcur. injection Hcur as -> ->.
      rewrite Hla, app_length in Hd. cbn [length] in Hd.
      destruct (log_steps_due_last sub l (sub_ts_list sub) 0 a Hd) as [l' Hl'].
      unfold log_loop. rewrite Hla, Hl', app_nil_r, app_assoc. eexists. reflexivity. }
    destruct Hlog as [log Hlog]. rewrite Hlog in L. exists log. split; [exact Hsv|exact L].
  Qed.

  Lemma pf_C07_saveat_t1_partial (c : config) (i : initial) (h : list attempt) (o : outcome)
        (j : nat) (sub : subsaveat Y V) :
    solve_run c i h o -> has_root_finder c = false ->
    (stepto_len c <> None -> cfg_t0 c < cfg_t1 c) ->
    nth_error (cfg_subs c) j = Some sub -> sub_t1 sub = true -> sub_steps sub = 0%nat ->
    exists sv log, nth_error (out_save o) j = Some sv /\
      holds_log sv (log ++ [(out_tfinal o, sub_fn sub (out_tfinal o) (out_yfinal o))])
                (in_pad i) (allocated (cfg_max_steps c) sub).
  Proof.
    intros Hrun Hrf Hst' Hj H1 Hstep.
    destruct (Forall2_nth _ _ _ _ _ (pf_C05_storage c i h o Hrun Hrf Hst') Hj) as (sv & Hsv & L).
    exists sv. unfold log_final in L. rewrite H1, Hstep in L. cbn [step_due Nat.eqb negb andb] in L.
    rewrite app_assoc in L. eexists. split; [exact Hsv|]. exact L.
  Qed.

  (** Ordering of what is saved. *)
  Lemma pf_C56_saved_times_sorted (c : config) (i : initial) (h : list attempt) (o : outcome)
        (Inv : Z -> Z -> CS -> Prop) :
    solve_run c i h o -> has_root_finder c = false ->
    (stepto_len c <> None -> cfg_t0 c < cfg_t1 c) ->
    controller_contract c Inv -> midpoint_ok c ->
    cfg_t0 c <= cfg_t1 c -> cfg_t0 c <= in_tnext i ->
    Inv (cfg_t0 c) (Z.min (in_tnext i) (cfg_t1 c)) (in_controller_state i) ->
    Forall (fun sub => Sorted Z.le (sub_ts_list sub) /\
                       Forall (fun t => cfg_t0 c <= t) (sub_ts_list sub) /\
                       (sub_steps sub = 0%nat \/
                        forall a t, In a (accepted h) -> In t (sub_ts_list sub) ->
                                    at_to a < t -> at_end a <= t)) (cfg_subs c) ->
    Forall2 (fun sub sv => exists log n,
        ss_ts sv = map Fin log ++ repeat (in_pad i) n /\ StronglySorted Z.le log /\
        Forall (fun t => cfg_t0 c <= t <= cfg_t1 c) log) (cfg_subs c) (out_save o).
  Proof.
    intros Hrun Hrf Hst' Hcc Hm Ht Htn HI Hsubs.
    pose proof (proj2 (proj2 (pf_C02_times_in_interval c i h o Inv Hrun Hcc Hm Ht Htn HI))) as Hrj.
    pose proof (pf_C05_storage c i h o Hrun Hrf Hst') as HL.
    pose proof (Forall2_and_l _ _ _ _ Hsubs HL) as H. clear HL.
    pose proof (run_current c i h o Hrun Hrf Hrj) as Hcur.
    assert (Hch : chain (cfg_t0 c) (accepted h) /\
                  Forall (fun a => at_to a <= cfg_t1 c /\ at_end a <= cfg_t1 c) (accepted h) /\
                  (cfg_t0 c = cfg_t1 c -> accepted h = [])).
    { destruct Hrun as (s0 & n & Hi & Hn & -> & Hf).
      destruct (init_time _ _ _ Hi) as (I1 & I2 & _).
      pose proof (run_time_inv c i s0 Inv Ht Htn HI Hi) as Hti.
      pose proof (history_chain c Inv n s0 Hcc Hm Hti) as Hch. rewrite I1 in Hch. split; [exact Hch|].
      split.
      - pose proof (history_times c Inv n s0 Hcc Hm Hti) as HF. rewrite Forall_forall in *.
        intros a Ha. apply filter_In in Ha. destruct Ha as [Ha _]. specialize (HF a Ha). tauto.
      - intros He. destruct (no_steps_if_equal c i s0 n Hst' Hi He) as (Hh & Hs). rewrite Hh. reflexivity. }
    destruct Hch as (Hch & Hub & Hemp).
    eapply Forall2_impl; [|exact H]. cbn beta. intros sub sv [(S1 & S2 & S3) (_ & L1 & _)].
    apply Sorted_StronglySorted in S1; [|red; lia].
    destruct (log_steps_sorted sub (accepted h) (sub_ts_list sub) 0 (cfg_t0 c) Hch S1 S2) as [P1 P2];
      [exact S3|].
    pose proof (log_steps_upper sub (cfg_t1 c) (accepted h) (sub_ts_list sub) 0 Hub) as P3.
    (* upper bound by the current time *)
    assert (Hb2 : Forall (fun t => t <= fst (current (cfg_t0 c) (in_y i) (accepted h)))
                         (map fst (log_steps sub (sub_ts_list sub) 0 (accepted h))) /\
                  cfg_t0 c <= fst (current (cfg_t0 c) (in_y i) (accepted h)) <= cfg_t1 c).
    { assert (Hcl : forall lb (accs : list attempt) (y0 : Y), chain lb accs ->
                 Forall (fun a => at_to a <= fst (current lb y0 accs) /\
                                  at_end a <= fst (current lb y0 accs)) accs /\
                 lb <= fst (current lb y0 accs)).
      { clear. intros lb accs y0 Hc. revert y0.
        induction Hc as [lb|lb a accs H1 H2 Hc IH]; intros y0; [cbn; split; [constructor|lia]|].
        assert (Hc' : current lb y0 (a :: accs) = current (at_end a) (at_y a) accs).
        { unfold current. cbn [map]. rewrite last_cons. reflexivity. }
        rewrite Hc'. destruct (IH (at_y a)) as [J1 J2]. split; [constructor; [lia|exact J1]|lia]. }
      destruct (Hcl _ _ (in_y i) Hch) as [J1 J2].
      split; [apply log_steps_upper; exact J1|]. split; [exact J2|].
      rewrite <- Hcur. cbn [fst]. clear - Hcur Hub Ht.
      destruct (rev (accepted h)) as [|a l] eqn:Hrev.
      - apply (f_equal (@rev attempt)) in Hrev. rewrite rev_involutive in Hrev. cbn in Hrev.
        rewrite Hrev in Hcur. cbn in Hcur. injection Hcur as -> _. lia.
      - rewrite (current_last _ _ _ _ _ Hrev) in Hcur. injection Hcur as -> _.
        rewrite Forall_forall in Hub. apply (Hub a). apply in_rev. rewrite Hrev. left; reflexivity. }
    destruct Hb2 as [Hb2 Hb3]. rewrite <- Hcur in Hb2, Hb3. cbn [fst] in Hb2, Hb3.
    set (n := (allocated _ _ - _)%nat) in L1.
    exists (map fst (log_final sub (cfg_t0 c) (cfg_t1 c) (in_y i) (accepted h)
                             (out_tfinal o) (out_yfinal o))), n.
    rewrite map_map. split; [exact L1|].
    unfold log_final, log_loop. rewrite !map_app. rewrite <- app_assoc.
    set (A := map fst (log_t0 _ _ _)).
    set (B := map fst (log_steps _ _ _ _)) in *.
    set (C := map fst (if cfg_t0 c =? cfg_t1 c then _ else _)).
    set (D := map fst (if sub_t1 sub && _ then _ else _)).
    assert (HA : Forall (eq (cfg_t0 c)) A /\ (length A <= 1)%nat)
      by (subst A; unfold log_t0; destruct (sub_t0 sub); cbn; auto).
    assert (HD : D = [] \/ D = [out_tfinal o])
      by (subst D; destruct (sub_t1 sub && _); cbn; auto).
    assert (HC : C = [] \/ (B = [] /\ Forall (eq (cfg_t0 c)) C)).
    { subst C. destruct (Z.eqb_spec (cfg_t0 c) (cfg_t1 c)) as [He|He]; [|left; reflexivity].
      right. split; [subst B; rewrite (Hemp He); reflexivity|].
      clear. induction (length (sub_ts_list sub)); cbn; constructor; auto. }
    assert (Hconst : forall l x, Forall (eq x) l -> StronglySorted Z.le l).
    { clear. intros l x. induction 1 as [|y l Hy HF IH]; constructor; auto. subst.
      eapply Forall_impl; [|exact HF]. intros; cbn in *; lia. }
    assert (Hsd : StronglySorted Z.le D)
      by (destruct HD as [-> | ->]; repeat constructor).
    split.
    - apply SSorted_app; [apply (Hconst _ (cfg_t0 c)); tauto| |].
      + apply SSorted_app; [exact P1| |].
        * apply SSorted_app; [|exact Hsd|].
          -- destruct HC as [-> |[_ HC]]; [constructor|apply (Hconst _ _ HC)].
          -- intros x y Hx Hy. destruct HC as [HC|[_ HC]]; [rewrite HC in Hx; contradiction|].
             rewrite Forall_forall in HC. rewrite <- (HC _ Hx).
             destruct HD as [HD|HD]; rewrite HD in Hy; [contradiction|]. destruct Hy as [<-|[]]. lia.
        * intros x y Hx Hy. apply in_app_or in Hy. destruct Hy as [Hy|Hy].
          -- destruct HC as [HC|[HC _]]; [rewrite HC in Hy|rewrite HC in Hx]; contradiction.
          -- destruct HD as [HD|HD]; rewrite HD in Hy; [contradiction|]. destruct Hy as [<-|[]].
             rewrite Forall_forall in Hb2. apply Hb2. exact Hx.
      + intros x y Hx Hy. destruct HA as [HA _]. rewrite Forall_forall in HA. rewrite <- (HA _ Hx).
        apply in_app_or in Hy. destruct Hy as [Hy|Hy]; [rewrite Forall_forall in P2; apply P2; exact Hy|].
        apply in_app_or in Hy. destruct Hy as [Hy|Hy].
        * destruct HC as [HC|[_ HC]]; [rewrite HC in Hy; contradiction|].
          rewrite Forall_forall in HC. rewrite <- (HC _ Hy). lia.
        * destruct HD as [HD|HD]; rewrite HD in Hy; [contradiction|]. destruct Hy as [<-|[]]. lia.
    - repeat (apply Forall_app; split).
      + destruct HA as [HA _]. eapply Forall_impl; [|exact HA]. intros; cbn in *; lia.
      + rewrite Forall_forall in *. intros x Hx. specialize (P2 _ Hx). specialize (P3 _ Hx).
        cbn in *; lia.
      + destruct HC as [-> |[_ HC]]; [constructor|].
        eapply Forall_impl; [|exact HC]. intros; cbn in *; lia.
      + destruct HD as [-> | ->]; repeat constructor; lia.
  Qed.

End PropLoop.
