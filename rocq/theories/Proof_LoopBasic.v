(** Basic facts about the loop: projections of [body_fun], iteration, accounting. *)
From Coq Require Import ZArith List Bool Arith Lia.
From Verif Require Import Model_Result Model_Loop Spec_Loop.
Import ListNotations.
Open Scope Z_scope.

Section Basic.
  Context {Y SS CS DI E V MS : Type}.
  Notation config := (config Y SS CS DI E V MS).
  Notation state := (state Y SS CS DI V MS).
  Notation subsaveat := (subsaveat Y V).
  Implicit Types (c : config) (s : state).

  Lemma attempt_of_eq c s :
    attempt_of c s =
    Attempt (st_tprev s) (st_y s) (st_made_jump s) (st_tnext s) (ao_keep (do_adapt c s))
            (Z.min (ao_tprev (do_adapt c s)) (cfg_t1 c))
            (if ao_keep (do_adapt c s) then so_y (do_step c s) else st_y s)
            (interpolate c (st_tprev s) (st_tnext s) (so_dense (do_step c s)))
            (so_result (do_step c s)) (ao_result (do_adapt c s)).
  Proof. reflexivity. Qed.

  Ltac body_proj c :=
    unfold body_fun; destruct (cfg_event c);
    [destruct (first_true false _)|]; reflexivity.

  Lemma body_y c s : st_y (body_fun c s) = at_y (attempt_of c s).
  Proof. body_proj c. Qed.
  Lemma body_tprev c s : st_tprev (body_fun c s) = at_end (attempt_of c s).
  Proof. body_proj c. Qed.
  Lemma body_tnext c s :
    st_tnext (body_fun c s) =
    clip_to_end (midpoint c) (at_end (attempt_of c s)) (ao_tnext (do_adapt c s))
                (cfg_t1 c) (t1_clip_floor (cfg_t1 c)) (at_keep (attempt_of c s)).
  Proof. body_proj c. Qed.
  Lemma body_made_jump c s :
    st_made_jump (body_fun c s) =
    if at_keep (attempt_of c s) then ao_jump (do_adapt c s) else st_made_jump s.
  Proof. body_proj c. Qed.
  Lemma body_solver_state c s :
    st_solver_state (body_fun c s) =
    if at_keep (attempt_of c s) then so_state (do_step c s) else st_solver_state s.
  Proof. body_proj c. Qed.
  Lemma body_controller_state c s :
    st_controller_state (body_fun c s) = ao_state (do_adapt c s).
  Proof. body_proj c. Qed.
  Lemma body_meter c s :
    st_meter (body_fun c s) = meter_step c (st_meter s) (at_end (attempt_of c s)).
  Proof. body_proj c. Qed.
  Lemma body_num_steps c s : st_num_steps (body_fun c s) = (st_num_steps s + 1)%nat.
  Proof. body_proj c. Qed.
  Lemma body_num_accepted c s :
    st_num_accepted (body_fun c s) =
    (st_num_accepted s + if at_keep (attempt_of c s) then 1 else 0)%nat.
  Proof. body_proj c. Qed.
  Lemma body_num_rejected c s :
    st_num_rejected (body_fun c s) =
    (st_num_rejected s + if at_keep (attempt_of c s) then 0 else 1)%nat.
  Proof. body_proj c. Qed.
  Lemma body_save c s :
    st_save (body_fun c s) =
    map2 (save_steps (at_keep (attempt_of c s))
                     (st_num_accepted s + if at_keep (attempt_of c s) then 1 else 0)
                     (at_end (attempt_of c s)) (at_y (attempt_of c s)))
         (cfg_subs c)
         (map2 (save_ts (at_keep (attempt_of c s)) (at_to (attempt_of c s))
                        (at_interp (attempt_of c s))) (cfg_subs c) (st_save s)).
  Proof. body_proj c. Qed.
  Lemma body_dense_ts c s :
    st_dense_ts (body_fun c s) =
    if cfg_dense c && at_keep (attempt_of c s)
    then at_set (st_dense_ts s) (st_dense_index s + 1) (Fin (at_end (attempt_of c s)))
    else st_dense_ts s.
  Proof. body_proj c. Qed.
  Lemma body_dense_infos c s :
    st_dense_infos (body_fun c s) =
    if cfg_dense c && at_keep (attempt_of c s)
    then at_set (st_dense_infos s) (st_dense_index s) (Some (so_dense (do_step c s)))
    else st_dense_infos s.
  Proof. body_proj c. Qed.
  Lemma body_dense_index c s :
    st_dense_index (body_fun c s) =
    (st_dense_index s + if cfg_dense c && at_keep (attempt_of c s) then 1 else 0)%nat.
  Proof. body_proj c. Qed.

  (** Result before events. *)
  Definition pre_result c s : RESULTS :=
    let r := where_ (is_okay (st_result s))
                    (where_ (at_keep (attempt_of c s)) (so_result (do_step c s)) successful)
                    (st_result s) in
    where_ (is_okay r) (ao_result (do_adapt c s)) r.

  Definition raw_mask c (e : event Y) s : list bool :=
    map2 (fun cf ov => event_triggers cf (fst ov) (snd ov)) (ev_cond_fn e)
         (combine (st_event_values s)
                  (map (fun cf => cond_value cf (at_end (attempt_of c s)) (at_y (attempt_of c s)))
                       (ev_cond_fn e))).

  Lemma body_result_no_event c s :
    cfg_event c = None -> st_result (body_fun c s) = pre_result c s.
  Proof. intros H. unfold body_fun. rewrite H. reflexivity. Qed.
  Lemma body_result_event c s e :
    cfg_event c = Some e ->
    st_result (body_fun c s) =
    where_ (snd (first_true false (raw_mask c e s))) event_occurred (pre_result c s).
  Proof.
    intros H. unfold body_fun, raw_mask. rewrite H. cbn.
    destruct (first_true false _); reflexivity.
  Qed.
  Lemma body_mask_event c s e :
    cfg_event c = Some e ->
    st_event_mask (body_fun c s) = fst (first_true false (raw_mask c e s)).
  Proof.
    intros H. unfold body_fun, raw_mask. rewrite H. cbn.
    destruct (first_true false _); reflexivity.
  Qed.
  Lemma body_mask_no_event c s :
    cfg_event c = None -> st_event_mask (body_fun c s) = st_event_mask s.
  Proof. intros H. unfold body_fun. rewrite H. reflexivity. Qed.
  Lemma body_values_event c s e :
    cfg_event c = Some e ->
    st_event_values (body_fun c s) =
    map (fun cf => cond_value cf (at_end (attempt_of c s)) (at_y (attempt_of c s)))
        (ev_cond_fn e).
  Proof.
    intros H. unfold body_fun. rewrite H. cbn.
    destruct (first_true false _); reflexivity.
  Qed.
  Lemma body_event_times c s e :
    cfg_event c = Some e ->
    st_event_tprev (body_fun c s) = st_tprev s /\ st_event_tnext (body_fun c s) = st_tnext s /\
    st_event_dense (body_fun c s) = Some (so_dense (do_step c s)).
  Proof.
    intros H. unfold body_fun. rewrite H. cbn.
    destruct (first_true false _); repeat split.
  Qed.

  (** Iteration. *)
  Lemma while_ind c (P : state -> Prop) :
    (forall s, cond_fun c s = true -> P s -> P (body_fun c s)) ->
    forall n s, P s -> P (while_loop c n s).
  Proof.
    intros Hstep n. induction n as [|n IH]; intros s Hs; cbn; [exact Hs|].
    destruct (cond_fun c s) eqn:Hc; auto.
  Qed.

  Lemma while_stuck c n s : cond_fun c s = false -> while_loop c n s = s.
  Proof. intros H. destruct n; cbn; [reflexivity|]. rewrite H. reflexivity. Qed.

  (** Either the loop stops by itself or all of the fuel is used. *)
  Lemma while_exit c n s :
    cond_fun c (while_loop c n s) = false \/
    (st_num_steps (while_loop c n s) = st_num_steps s + n)%nat.
  Proof.
    revert s. induction n as [|n IH]; intros s; cbn; [right; lia|].
    destruct (cond_fun c s) eqn:Hc; [|left; exact Hc].
    destruct (IH (body_fun c s)) as [H|H]; [left; exact H|right].
    rewrite H, body_num_steps. lia.
  Qed.

  Lemma while_num_steps c n s :
    st_num_steps (while_loop c n s) = (st_num_steps s + length (history c n s))%nat.
  Proof.
    revert s. induction n as [|n IH]; intros s; cbn; [lia|].
    destruct (cond_fun c s); cbn; [|lia]. rewrite IH, body_num_steps. lia.
  Qed.
  Lemma history_length c n s : (length (history c n s) <= n)%nat.
  Proof.
    revert s. induction n as [|n IH]; intros s; cbn; [lia|].
    destruct (cond_fun c s); cbn; [|lia]. specialize (IH (body_fun c s)). lia.
  Qed.
  Lemma while_num_accepted c n s :
    st_num_accepted (while_loop c n s)
    = (st_num_accepted s + length (accepted (history c n s)))%nat.
  Proof.
    revert s. induction n as [|n IH]; intros s; cbn [history while_loop]; [cbn; lia|].
    destruct (cond_fun c s); [|cbn; lia]. rewrite IH, body_num_accepted.
    unfold accepted; cbn [filter]. destruct (at_keep (attempt_of c s)); cbn [length]; lia.
  Qed.
  Lemma while_num_rejected c n s :
    st_num_rejected (while_loop c n s)
    = (st_num_rejected s + length (filter (fun a => negb (at_keep a)) (history c n s)))%nat.
  Proof.
    revert s. induction n as [|n IH]; intros s; cbn [history while_loop]; [cbn; lia|].
    destruct (cond_fun c s); [|cbn; lia]. rewrite IH, body_num_rejected.
    cbn [filter]. destruct (at_keep (attempt_of c s)); cbn [length negb]; lia.
  Qed.

  (** More fuel than needed makes no difference. *)
  Lemma while_more c n m s :
    cond_fun c (while_loop c n s) = false -> (n <= m)%nat -> while_loop c m s = while_loop c n s.
  Proof.
    revert m s. induction n as [|n IH]; intros m s H Hnm; cbn in *.
    - apply while_stuck; exact H.
    - destruct m as [|m]; [lia|]. cbn. destruct (cond_fun c s) eqn:Hc; [|reflexivity].
      apply IH; [exact H|lia].
  Qed.
  Lemma history_more c n m s :
    cond_fun c (while_loop c n s) = false -> (n <= m)%nat -> history c m s = history c n s.
  Proof.
    revert m s. induction n as [|n IH]; intros m s H Hnm; cbn in *.
    - destruct m; cbn; [reflexivity|]. rewrite H. reflexivity.
    - destruct m as [|m]; [lia|]. cbn. destruct (cond_fun c s) eqn:Hc; [|reflexivity].
      f_equal. apply IH; [exact H|lia].
  Qed.

  (** Iterations compose. *)
  Lemma while_add c n m s : while_loop c (n + m) s = while_loop c m (while_loop c n s).
  Proof.
    revert s. induction n as [|n IH]; intros s; cbn; [reflexivity|].
    destruct (cond_fun c s) eqn:Hc; [apply IH|].
    symmetry. apply while_stuck. exact Hc.
  Qed.
  Lemma history_add c n m s :
    history c (n + m) s = history c n s ++ history c m (while_loop c n s).
  Proof.
    revert s. induction n as [|n IH]; intros s; cbn; [reflexivity|].
    destruct (cond_fun c s) eqn:Hc; cbn; [f_equal; apply IH|].
    destruct m; cbn; [reflexivity|]. rewrite Hc. reflexivity.
  Qed.

  (** [loop_final] always is [while_loop] for some number of iterations. *)
  Lemma loop_final_while c s0 sf :
    loop_final c s0 sf ->
    exists n, sf = while_loop c n s0 /\
              (match cfg_max_steps c with Some m => n = m | None => cond_fun c sf = false end).
  Proof.
    unfold loop_final. destruct (cfg_max_steps c) as [m|].
    - intros ->. exists m. auto.
    - intros [n [H1 H2]]. exists n. auto.
  Qed.

  (** Time facts under the controller contract. *)
  Lemma floor_lt (t1 : Z) : t1_clip_floor t1 = t1 - 100.
  Proof. unfold t1_clip_floor, prevbefore. cbn. lia. Qed.

  Definition time_inv c (Inv : Z -> Z -> CS -> Prop) s : Prop :=
    cfg_t0 c <= st_tprev s /\ st_tprev s <= cfg_t1 c /\
    (st_result s = successful ->
     st_tprev s <= st_tnext s /\ st_tnext s <= cfg_t1 c /\
     Inv (st_tprev s) (st_tnext s) (st_controller_state s)).

  (** If the loop goes on, the controller was successful. *)
  Lemma body_successful c s :
    st_result (body_fun c s) = successful -> ao_result (do_adapt c s) = successful.
  Proof.
    assert (Hpre : pre_result c s = successful -> ao_result (do_adapt c s) = successful).
    { unfold pre_result, where_. destruct (is_okay (if is_okay (st_result s) then _ else _)) eqn:Hok; [auto|].
      intros H. rewrite H in Hok. discriminate. }
    destruct (cfg_event c) as [e|] eqn:He.
    - rewrite (body_result_event _ _ _ He). unfold where_. destruct (snd _); [discriminate|exact Hpre].
    - rewrite (body_result_no_event _ _ He). exact Hpre.
  Qed.

  Lemma cond_successful c s : cond_fun c s = true -> st_result s = successful.
  Proof.
    unfold cond_fun. intros H. apply andb_true_iff in H. destruct H as [_ H].
    destruct (st_result s); try discriminate. reflexivity.
  Qed.

  Lemma cond_lt_t1 c s : cond_fun c s = true -> stepto_len c = None -> st_tprev s < cfg_t1 c.
  Proof.
    intros Hc Hst. unfold cond_fun in Hc. rewrite Hst in Hc. apply andb_true_iff in Hc.
    destruct Hc as [Hc _]. apply Z.ltb_lt in Hc. exact Hc.
  Qed.

  Lemma time_inv_body c Inv s :
    controller_contract c Inv -> midpoint_ok c ->
    cond_fun c s = true -> time_inv c Inv s ->
    time_inv c Inv (body_fun c s) /\
    st_tprev s <= st_tprev (body_fun c s) /\
    (at_keep (attempt_of c s) = true -> st_tprev (body_fun c s) >= st_tnext s) /\
    (at_keep (attempt_of c s) = false -> st_tprev (body_fun c s) = st_tprev s).
  Proof.
    intros Hc Hm Hcond (H0 & Hp1 & Hsu).
    destruct (Hsu (cond_successful _ _ Hcond)) as (H1 & H2 & HI). clear Hsu.
    pose proof (body_successful c s) as Hbs.
    pose proof (Hc (st_tprev s) (st_tnext s) (st_y s) (so_y (do_step c s))
                   (nan_to_inf c (so_error (do_step c s))) _ HI H1 H2 (cond_lt_t1 _ _ Hcond)) as Hao.
    cbn zeta in Hao. fold (do_adapt c s) in Hao.
    destruct Hao as (Hk & Hr & HI').
    unfold time_inv. rewrite body_tprev, body_tnext, body_controller_state.
    rewrite attempt_of_eq; cbn [at_end at_keep].
    set (ao := do_adapt c s) in *.
    set (tp := Z.min (ao_tprev ao) (cfg_t1 c)) in *.
    assert (Htp : st_tprev s <= tp).
    { subst tp. destruct (ao_keep ao); [specialize (Hk eq_refl)|specialize (Hr eq_refl)]; lia. }
    assert (Hclip : ao_tprev ao <= ao_tnext ao -> tp <= clip_to_end (midpoint c) tp (ao_tnext ao) (cfg_t1 c)
                            (t1_clip_floor (cfg_t1 c)) (ao_keep ao) <= cfg_t1 c).
    { intros Hle. unfold clip_to_end. rewrite floor_lt.
      destruct (Z.ltb_spec (cfg_t1 c - 100) (ao_tnext ao)).
      - assert (Htp1 : tp <= cfg_t1 c) by (subst tp; lia).
        pose proof (Hm _ _ Htp1). destruct (ao_keep ao); lia.
      - subst tp; lia. }
    split; [|split; [exact Htp|]].
    { split; [lia|]. split; [subst tp; lia|]. intros Hs. destruct (HI' (Hbs Hs)) as [Hle HI2].
      specialize (Hclip Hle). split; [lia|]. split; [lia|]. exact HI2. }
    split.
    - intros Hkeep. specialize (Hk Hkeep). subst tp. lia.
    - intros Hkeep. specialize (Hr Hkeep). subst tp. lia.
  Qed.
End Basic.
