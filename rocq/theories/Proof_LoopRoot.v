(** Ordering of the saved times; events with a root finder. *)
From Coq Require Import ZArith List Bool Arith Lia Sorted.
From Verif Require Import Model_Result Model_Loop Spec_Loop Proof_LoopBasic Proof_LoopSave
  Proof_LoopFinish Proof_LoopTs Proof_LoopEvent.
Import ListNotations.
Open Scope Z_scope.

Lemma dus_append_gen {A} (l suf : list A) x n :
  (n <= length suf)%nat ->
  dynamic_update_slice (l ++ suf) (repeat x n) (length l)
  = Some (l ++ repeat x n ++ skipn n suf).
Proof.
  intros H. unfold dynamic_update_slice. rewrite app_length, !repeat_length.
  rewrite (proj2 (Nat.leb_le _ _)) by lia.
  rewrite Nat.min_l by lia. f_equal.
  rewrite firstn_app, firstn_all, Nat.sub_diag, firstn_O, app_nil_r. f_equal. f_equal.
  rewrite skipn_app, skipn_all2 by lia. cbn [app]. f_equal. lia.
Qed.

Lemma SSorted_app {A} (R : A -> A -> Prop) l l' :
  StronglySorted R l -> StronglySorted R l' ->
  (forall x y, In x l -> In y l' -> R x y) -> StronglySorted R (l ++ l').
Proof.
  induction l as [|a l IH]; cbn; intros H1 H2 H3; [exact H2|].
  apply StronglySorted_inv in H1. destruct H1 as [H1 HF]. constructor.
  - apply IH; auto.
  - apply Forall_app. split; [exact HF|]. apply Forall_forall. auto.
Qed.

Section Root.
  Context {Y SS CS DI E V MS : Type}.
  Notation config := (config Y SS CS DI E V MS).
  Notation state := (state Y SS CS DI V MS).
  Notation subsaveat := (subsaveat Y V).
  Notation save_state := (save_state V).
  Implicit Types (c : config) (s : state) (sub : subsaveat).

  (** Accepted steps follow each other from [lb] on. *)
  Inductive chain : Z -> list (attempt Y) -> Prop :=
  | chain_nil lb : chain lb []
  | chain_cons lb a accs :
      lb <= at_to a -> at_to a <= at_end a -> chain (at_end a) accs -> chain lb (a :: accs).

  Lemma chain_weaken lb lb' accs : lb' <= lb -> chain lb accs -> chain lb' accs.
  Proof. intros H Hc. inversion Hc; subst; constructor; auto; lia. Qed.

  (** No requested time falls strictly inside a time jump at which a step is saved. *)
  Definition no_ts_in_gap sub (accs : list (attempt Y)) (ts : list Z) : Prop :=
    sub_steps sub = 0%nat \/
    forall a t, In a accs -> In t ts -> at_to a < t -> at_end a <= t.

  Lemma in_drop_while {A} (p : A -> bool) l x : In x (drop_while p l) -> In x l.
  Proof. intros H. rewrite <- (take_drop_while p l). apply in_or_app. auto. Qed.
  Lemma in_take_while {A} (p : A -> bool) l x : In x (take_while p l) -> In x l /\ p x = true.
  Proof.
    induction l as [|a l IH]; cbn; [contradiction|]. destruct (p a) eqn:Hp; cbn; [|contradiction].
    intros [<-|H]; [auto|]. destruct (IH H). auto.
  Qed.
  Lemma sorted_take_while ts b :
    StronglySorted Z.le ts -> StronglySorted Z.le (take_while (fun t => t <=? b) ts).
  Proof.
    intros H. rewrite <- (take_drop_while (fun t => t <=? b) ts) in H.
    revert H. generalize (take_while (fun t => t <=? b) ts) as l.
    generalize (drop_while (fun t => t <=? b) ts) as l'.
    intros l' l. induction l as [|a l IH]; cbn; intros H; constructor.
    - apply StronglySorted_inv in H. apply IH. tauto.
    - apply StronglySorted_inv in H. destruct H as [_ H]. apply Forall_app in H. tauto.
  Qed.

  Lemma log_steps_sorted sub : forall accs rem k lb,
    chain lb accs -> StronglySorted Z.le rem -> Forall (fun t => lb <= t) rem ->
    no_ts_in_gap sub accs rem ->
    StronglySorted Z.le (map fst (log_steps sub rem k accs)) /\
    Forall (fun t => lb <= t) (map fst (log_steps sub rem k accs)).
  Proof.
    induction accs as [|a accs IH]; intros rem k lb Hc Hs Hlb Hgap; cbn [log_steps map];
      [split; constructor|].
    inversion Hc as [|lb' a' accs' H1 H2 H3]; subst.
    assert (Hs' : Sorted Z.le rem) by (apply StronglySorted_Sorted; exact Hs).
    destruct (sorted_drop rem (at_to a) Hs') as [D1 D2].
    apply Sorted_StronglySorted in D2; [|red; lia].
    set (dr := drop_while (fun t => t <=? at_to a) rem) in *.
    set (tk := take_while (fun t => t <=? at_to a) rem) in *.
    assert (Htk : Forall (fun t => lb <= t <= at_to a) tk).
    { apply Forall_forall. intros t Ht. apply in_take_while in Ht. destruct Ht as [T1 T2].
      apply Z.leb_le in T2. rewrite Forall_forall in Hlb. specialize (Hlb _ T1). lia. }
    destruct (sub_steps sub =? 0)%nat eqn:H0.
    - (* requested times only *)
      cbn [negb andb app]. rewrite map_app, map_map. cbn [fst]. rewrite map_id.
      apply Nat.eqb_eq in H0.
      (* the remaining accepted steps start at [at_end a], but the remaining times are only
         known to be beyond [at_to a]; use [at_to a] as the lower bound *)
      assert (Hc' : chain (at_to a) accs) by (apply (chain_weaken (at_end a)); auto).
      destruct (IH dr (k + 1)%nat (at_to a) Hc' D2) as [I1 I2].
      { eapply Forall_impl; [|exact D1]. intros; cbn in *; lia. }
      { left; exact H0. }
      split.
      + apply SSorted_app; [apply sorted_take_while; exact Hs|exact I1|].
        intros x y Hx Hy. rewrite Forall_forall in Htk, I2.
        specialize (Htk _ Hx). specialize (I2 _ Hy). cbn in *. lia.
      + apply Forall_app. split.
        * eapply Forall_impl; [|exact Htk]. intros; cbn in *; lia.
        * eapply Forall_impl; [|exact I2]. intros; cbn in *; lia.
    - cbn [negb andb]. destruct Hgap as [Hg|Hgap]; [apply Nat.eqb_neq in H0; contradiction|].
      destruct (IH dr (k + 1)%nat (at_end a) H3 D2) as [I1 I2].
      { apply Forall_forall. intros t Ht. apply (Hgap a t); [left; reflexivity| |].
        - apply in_drop_while in Ht. exact Ht.
        - rewrite Forall_forall in D1. specialize (D1 _ Ht). cbn in D1. lia. }
      { right. intros b t Hb Ht Hlt. apply (Hgap b t); [right; exact Hb| |exact Hlt].
        apply in_drop_while in Ht. exact Ht. }
      rewrite !map_app, map_map. cbn [fst]. rewrite map_id.
      set (mid := map fst (if ((k + 1) mod sub_steps sub =? 0)%nat then _ else _)).
      assert (Hmid : mid = [at_end a] \/ mid = [])
        by (subst mid; destruct ((k + 1) mod sub_steps sub =? 0)%nat; cbn [map fst]; auto).
      split.
      + apply SSorted_app; [apply sorted_take_while; exact Hs| |].
        * destruct Hmid as [-> | ->]; cbn [app]; [|exact I1].
          constructor; [exact I1|exact I2].
        * intros x y Hx Hy. rewrite Forall_forall in Htk, I2. specialize (Htk _ Hx). cbn in Htk.
          apply in_app_or in Hy. destruct Hy as [Hy|Hy].
          -- destruct Hmid as [Hm|Hm]; rewrite Hm in Hy; [|contradiction].
             destruct Hy as [<-|[]]. lia.
          -- specialize (I2 _ Hy). cbn in I2. lia.
      + apply Forall_app. split; [eapply Forall_impl; [|exact Htk]; intros; cbn in *; lia|].
        apply Forall_app. split.
        * destruct Hmid as [-> | ->]; constructor; [lia|constructor].
        * eapply Forall_impl; [|exact I2]. intros; cbn in *; lia.
  Qed.

  (** Upper bound of the log. *)
  Lemma log_steps_upper sub ub : forall accs rem k,
    Forall (fun a => at_to a <= ub /\ at_end a <= ub) accs ->
    Forall (fun t => t <= ub) (map fst (log_steps sub rem k accs)).
  Proof.
    induction accs as [|a accs IH]; intros rem k HF; cbn [log_steps map]; [constructor|].
    inversion HF as [|a' accs' [H1 H2] H3]; subst.
    rewrite !map_app, map_map. cbn [fst]. rewrite map_id.
    apply Forall_app. split; [|apply Forall_app; split; [|auto]].
    - apply Forall_forall. intros t Ht. apply in_take_while in Ht. destruct Ht as [_ Ht].
      apply Z.leb_le in Ht. lia.
    - destruct (_ && _); cbn; constructor; auto.
  Qed.

  (** The history satisfies [chain]. *)
  Lemma history_chain c Inv n : forall s,
    controller_contract c Inv -> midpoint_ok c -> time_inv c Inv s ->
    chain (st_tprev s) (accepted (history c n s)).
  Proof.
    induction n as [|n IH]; intros s Hcc Hm Ht; cbn [history]; [constructor|].
    destruct (cond_fun c s) eqn:Hcd; [|constructor].
    destruct (time_inv_body c Inv s Hcc Hm Hcd Ht) as (T1 & T2 & T3 & T4).
    specialize (IH _ Hcc Hm T1).
    unfold accepted; cbn [filter]. fold (accepted (history c n (body_fun c s))).
    destruct (at_keep (attempt_of c s)) eqn:Hk.
    - destruct Ht as (H0 & _ & Hsu). destruct (Hsu (cond_successful _ _ Hcd)) as (H1 & H2 & _).
      constructor.
      + exact H1.
      + specialize (T3 eq_refl). rewrite body_tprev in T3. 
        change (at_to (attempt_of c s)) with (st_tnext s). lia.
      + rewrite <- body_tprev. exact IH.
    - rewrite (T4 eq_refl) in IH. exact IH.
  Qed.

  Lemma history_times c Inv n : forall s,
    controller_contract c Inv -> midpoint_ok c -> time_inv c Inv s ->
    Forall (fun a => cfg_t0 c <= at_from a /\ at_from a <= at_to a /\ at_to a <= cfg_t1 c /\
                     at_from a <= at_end a /\ at_end a <= cfg_t1 c /\
                     (at_keep a = true -> at_to a <= at_end a) /\
                     (at_keep a = false -> at_end a = at_from a) /\
                     (at_keep a = false -> at_y a = at_yprev a)) (history c n s).
  Proof.
    induction n as [|n IH]; intros s Hcc Hm Ht; cbn [history]; [constructor|].
    destruct (cond_fun c s) eqn:Hcd; [|constructor].
    destruct (time_inv_body c Inv s Hcc Hm Hcd Ht) as (T1 & T2 & T3 & T4).
    constructor; [|apply IH; assumption].
    destruct Ht as (H0 & _ & Hsu). destruct (Hsu (cond_successful _ _ Hcd)) as (H1 & H2 & _).
    rewrite body_tprev in T2, T3, T4.
    repeat split; try assumption.
    - cbn. lia.
    - intros Hk. specialize (T3 Hk). cbn in *. lia.
    - intros Hk. cbn in Hk |- *. rewrite Hk. reflexivity.
  Qed.

  Lemma history_linked c n : forall s h1 a b h2,
    history c n s = h1 ++ a :: b :: h2 ->
    at_from b = at_end a /\ at_yprev b = at_y a.
  Proof.
    induction n as [|n IH]; intros s h1 a b h2 H; cbn [history] in H; [destruct h1; discriminate|].
    destruct (cond_fun c s); [|destruct h1; discriminate].
    destruct h1 as [|x h1]; cbn [app] in H.
    - injection H as Ha Hh. destruct n as [|n]; cbn [history] in Hh; [discriminate|].
      destruct (cond_fun c (body_fun c s)); [|discriminate]. injection Hh as Hb _.
      subst a b. split.
      + change (st_tprev (body_fun c s) = at_end (attempt_of c s)). apply body_tprev.
      + change (st_y (body_fun c s) = at_y (attempt_of c s)). apply body_y.
    - injection H as _ Hh. eapply IH; eauto.
  Qed.

  (** Un-saving on a sorted log. *)
  Lemma filter_sorted_split (log : list (Z * V)) tf :
    StronglySorted Z.le (map fst log) ->
    exists l2, log = filter (fun p => fst p <=? tf) log ++ l2 /\ Forall (fun p => tf < fst p) l2.
  Proof.
    induction log as [|p log IH]; cbn; intros H; [exists []; auto|].
    apply StronglySorted_inv in H. destruct H as [H1 H2].
    destruct (IH H1) as (l2 & E2 & F2).
    destruct (Z.leb_spec (fst p) tf).
    - exists l2. cbn. rewrite <- E2. auto.
    - exists (p :: log). split.
      + assert (Hnil : filter (fun p => fst p <=? tf) log = []).
        { clear - H2 H. induction log as [|q log IH]; cbn; [reflexivity|].
          inversion H2; subst. destruct (Z.leb_spec (fst q) tf); [lia|auto]. }
        rewrite Hnil. reflexivity.
      + constructor; [lia|]. apply Forall_forall. intros q Hq.
        rewrite Forall_forall in H2. specialize (H2 (fst q) (in_map fst _ _ Hq)). lia.
  Qed.

  Definition inf_pad (pad : xtime) : Prop := pad = PInf \/ pad = NInf.

  Lemma map2_app {A B C} (f : A -> B -> C) l1 l2 k1 k2 :
    length l1 = length k1 -> map2 f (l1 ++ l2) (k1 ++ k2) = map2 f l1 k1 ++ map2 f l2 k2.
  Proof.
    revert k1. induction l1 as [|a l1 IH]; intros [|b k1] H; cbn in *; try discriminate; [reflexivity|].
    rewrite IH by lia. reflexivity.
  Qed.

  Lemma unsave_sorted (sv : save_state) log pad size tf :
    inf_pad pad -> holds_log sv log pad size -> save_index sv = length log ->
    StronglySorted Z.le (map fst log) ->
    let log1 := filter (fun p => fst p <=? tf) log in
    holds_log_inf (unsave tf sv) log1 size /\ save_index (unsave tf sv) = length log1.
  Proof.
    intros Hpad (Hl & H1 & H2) Hi Hs log1.
    destruct (filter_sorted_split log tf Hs) as (l2 & E2 & F2). fold log1 in E2.
    assert (F1 : Forall (fun p => fst p <= tf) log1).
    { apply Forall_forall. intros p Hp. apply filter_In in Hp. destruct Hp as [_ Hp].
      apply Z.leb_le in Hp. exact Hp. }
    assert (Hlen : length log = (length log1 + length l2)%nat)
      by (rewrite E2 at 1; apply app_length).
    set (R := (size - length log)%nat) in *.
    unfold unsave. rewrite H1, H2, E2. rewrite !map_app, !filter_app, <- !app_assoc.
    assert (A1 : filter (fun t => xgt t tf && xlt_inf t) (map (fun p => Fin (fst p)) log1) = []).
    { clear - F1. induction F1 as [|p l Hp _ IH]; cbn; [reflexivity|].
      rewrite (proj2 (Z.ltb_ge _ _) Hp). exact IH. }
    assert (A2 : filter (fun t => xgt t tf && xlt_inf t) (map (fun p => Fin (fst p)) l2)
                 = map (fun p => Fin (fst p)) l2).
    { clear - F2. induction F2 as [|p l Hp _ IH]; cbn; [reflexivity|].
      rewrite (proj2 (Z.ltb_lt _ _) Hp). cbn. rewrite IH. reflexivity. }
    assert (A3 : filter (fun t => xgt t tf && xlt_inf t) (repeat pad R) = []).
    { clear - Hpad. induction R as [|R IH]; cbn; [reflexivity|].
      destruct Hpad as [-> | ->]; cbn; exact IH. }
    rewrite A1, A2, A3, app_nil_r. cbn [app]. rewrite map_length.
    assert (B1 : map (fun t => if xgt t tf then PInf else t) (map (fun p => Fin (fst p)) log1)
                 = map (fun p => Fin (fst p)) log1).
    { clear - F1. induction F1 as [|p l Hp _ IH]; cbn; [reflexivity|].
      rewrite (proj2 (Z.ltb_ge _ _) Hp), IH. reflexivity. }
    assert (C1 : map2 (fun t (y : option V) => if xgt t tf then None else y)
                   (map (fun p => Fin (fst p)) log1) (map (fun p => Some (snd p)) log1)
                 = map (fun p => Some (snd p)) log1).
    { clear - F1. induction F1 as [|p l Hp _ IH]; cbn; [reflexivity|].
      rewrite (proj2 (Z.ltb_ge _ _) Hp), IH. reflexivity. }
    assert (C2 : map2 (fun t (y : option V) => if xgt t tf then None else y)
                   (map (fun p => Fin (fst p)) l2) (map (fun p => Some (snd p)) l2)
                 = repeat None (length l2)).
    { clear - F2. induction F2 as [|p l Hp _ IH]; cbn; [reflexivity|].
      rewrite (proj2 (Z.ltb_lt _ _) Hp), IH. reflexivity. }
    assert (C3 : map2 (fun t (y : option V) => if xgt t tf then None else y)
                   (repeat pad R) (repeat None R) = repeat None R).
    { clear. induction R as [|R IH]; cbn; [reflexivity|]. rewrite IH. destruct (xgt pad tf); reflexivity. }
    rewrite !map2_app by (rewrite !map_length; reflexivity).
    rewrite B1, C1, C2, C3.
    cbn [save_index]. split; [|rewrite Hi, Hlen; lia].
    unfold holds_log_inf; cbn [ss_ts ss_ys].
    eexists. split; [|split; [|split; [reflexivity|split]]].
    - rewrite app_length, !map_length, repeat_length. unfold R. lia.
    - lia.
    - apply Forall_app. split.
      + apply Forall_forall. intros x Hx. rewrite map_map in Hx. apply in_map_iff in Hx.
        destruct Hx as (p & <- & Hp). rewrite Forall_forall in F2. specialize (F2 _ Hp).
        cbn. rewrite (proj2 (Z.ltb_lt _ _) F2). auto.
      + apply Forall_forall. intros x Hx. apply in_map_iff in Hx.
        destruct Hx as (p & <- & Hp). apply repeat_spec in Hp. subst p.
        destruct Hpad as [-> | ->]; cbn; auto.
    - f_equal. rewrite <- repeat_app. f_equal. unfold R. lia.
  Qed.

  Lemma Forall_skipn {A} (P : A -> Prop) n l : Forall P l -> Forall P (skipn n l).
  Proof.
    intros H. rewrite Forall_forall in *. intros x Hx. apply H.
    rewrite <- (firstn_skipn n l). apply in_or_app. auto.
  Qed.

  Lemma save_append_inf (sv : save_state) log size t (y : Y) fn :
    holds_log_inf sv log size -> save_index sv = length log -> (length log < size)%nat ->
    exists sv', save_ t y fn sv 1 true = Some sv' /\
      holds_log_inf sv' (log ++ [(t, fn t y)]) size.
  Proof.
    intros (suf & L1 & L2 & H1 & HF & H2) Hi Hcap. unfold save_. rewrite Hi, H1, H2.
    assert (Hn : (1 <= length suf)%nat) by lia.
    assert (Hn2 : (1 <= length (repeat (@None V) (size - length log)))%nat)
      by (rewrite repeat_length; lia).
    pose proof (dus_append_gen (map (fun p : Z * V => Fin (fst p)) log) suf (Fin t) 1 Hn) as D1.
    pose proof (dus_append_gen (map (fun p : Z * V => Some (snd p)) log) _ (Some (fn t y)) 1 Hn2)
      as D2.
    rewrite map_length in D1, D2. rewrite D1, D2.
    eexists. split; [reflexivity|]. unfold holds_log_inf; cbn [ss_ts ss_ys].
    exists (skipn 1 suf). rewrite skipn_length, app_length; cbn [length].
    rewrite !map_app, <- !app_assoc. cbn [map app fst snd].
    split; [lia|]. split; [lia|]. split; [reflexivity|].
    split; [apply Forall_skipn; exact HF|]. f_equal.
    replace (size - length log)%nat with (S (size - (length log + 1))) by lia. reflexivity.
  Qed.

  Lemma holds_log_inf_length (sv : save_state) log size :
    holds_log_inf sv log size -> length (ss_ts sv) = size /\ length (ss_ys sv) = size.
  Proof.
    intros (suf & L1 & L2 & H1 & _ & H2). rewrite H1, H2, !app_length, !map_length, repeat_length. lia.
  Qed.

  Lemma dus_last {A} (l : list A) x a k :
    (length l <= k)%nat ->
    dynamic_update_slice (l ++ [a]) (repeat x 1) (S k) = Some (l ++ [x]).
  Proof.
    intros Hk. unfold dynamic_update_slice. rewrite app_length. cbn [repeat length].
    rewrite (proj2 (Nat.leb_le _ _)) by lia.
    rewrite Nat.min_r by lia. replace (length l + 1 - 1)%nat with (length l) by lia.
    rewrite firstn_app, firstn_all, Nat.sub_diag, firstn_O, app_nil_r.
    rewrite skipn_all2 by (rewrite app_length; cbn; lia). reflexivity.
  Qed.

  (** Saving into a full buffer overwrites its last entry. *)
  Lemma save_full_inf (sv : save_state) log size t (y : Y) fn :
    holds_log_inf sv log size -> save_index sv = length log -> (size <= length log)%nat ->
    (0 < size)%nat ->
    exists sv', save_ t y fn sv 1 true = Some sv' /\
      holds_log_inf sv' (removelast log ++ [(t, fn t y)]) size.
  Proof.
    intros (suf & L1 & L2 & H1 & HF & H2) Hi Hcap Hpos.
    assert (Hz : (size - length log = 0)%nat) by lia. rewrite Hz in *.
    destruct suf; [|discriminate]. cbn [repeat] in *. rewrite app_nil_r in *.
    assert (Hne : log <> []) by (intros ->; cbn in *; lia).
    destruct (exists_last Hne) as (l & a & ->). rewrite removelast_last.
    rewrite app_length in *. cbn [length] in *. rewrite map_app in *. cbn [map] in *.
    unfold save_. rewrite Hi, H1, H2. replace (length l + 1)%nat with (S (length l)) by lia.
    rewrite (dus_last (map (fun p : Z * V => Fin (fst p)) l)) by (rewrite map_length; lia).
    rewrite (dus_last (map (fun p : Z * V => Some (snd p)) l)) by (rewrite map_length; lia).
    eexists. split; [reflexivity|]. exists []. cbn [ss_ts ss_ys]. rewrite app_length. cbn [length].
    replace (size - (length l + 1))%nat with 0%nat by lia. cbn [repeat].
    rewrite !app_nil_r, !map_app. repeat split; try lia; auto.
  Qed.

  (** [_save_t1] with a root finder. *)
  Lemma save_t1_rf (sv sv' : save_state) log size tf (yf : Y) sub k :
    holds_log_inf sv log size -> save_index sv = length log ->
    save_t1 true k tf yf sub sv = Some sv' ->
    holds_log_inf sv' (if sub_t1 sub || step_due (sub_steps sub) k
                       then (if (length log <? size)%nat then log else removelast log)
                            ++ [(tf, sub_fn sub tf yf)]
                       else log) size.
  Proof.
    intros Hh Hi H. unfold save_t1 in H.
    match goal with |- holds_log_inf _ ?l _ => set (target := l) end.
    assert (Hcase : forall pred, pred = sub_t1 sub || step_due (sub_steps sub) k ->
              save_ tf yf (sub_fn sub) sv 1 pred = Some sv' ->
              holds_log_inf sv' target size).
    { intros pred Hpred Hsave. subst target. rewrite <- Hpred.
      destruct (holds_log_inf_length _ _ _ Hh) as (L1 & L2).
      destruct (Nat.eq_dec size 0) as [Hz|Hz].
      { rewrite save_empty in Hsave; [discriminate|]. apply length_zero_iff_nil. lia. }
      destruct pred.
      - destruct (Nat.ltb_spec (length log) size) as [Hlt|Hge].
        + destruct (save_append_inf sv log size tf yf (sub_fn sub) Hh Hi Hlt) as (sv1 & S1 & S2).
          rewrite S1 in Hsave. injection Hsave as <-. exact S2.
        + destruct (save_full_inf sv log size tf yf (sub_fn sub) Hh Hi Hge) as (sv1 & S1 & S2); [lia|].
          rewrite S1 in Hsave. injection Hsave as <-. exact S2.
      - rewrite save_noop in Hsave by lia. injection Hsave as <-.
        destruct Hh as (suf & A & B & C & D & F). exists suf. cbn. auto. }
    assert (Hskip : sub_t1 sub || step_due (sub_steps sub) k = false ->
              Some sv = Some sv' -> holds_log_inf sv' target size).
    { subst target. intros -> Hs. injection Hs as <-. exact Hh. }
    clearbody target.
    destruct (sub_steps sub) as [|[|n]] eqn:Hsteps.
    - cbn [step_due Nat.eqb negb andb] in *. destruct (sub_t1 sub); cbn [negb orb] in *.
      + apply (Hcase true); auto.
      + apply Hskip; auto.
    - eapply Hcase; [|exact H]. unfold step_due. cbn. reflexivity.
    - eapply Hcase; [|exact H]. unfold step_due. cbn [Nat.eqb negb andb]. reflexivity.
  Qed.

  (** The last accepted step's own entry is in the log, when due. *)
  Lemma step_entry_in sub : forall accs rem k a,
    step_due (sub_steps sub) (k + length accs + 1) = true ->
    In (at_end a) (map fst (log_steps sub rem k (accs ++ [a]))).
  Proof.
    induction accs as [|b accs IH]; intros rem k a H; cbn [app log_steps length] in *.
    - rewrite Nat.add_0_r in H. unfold step_due in H. rewrite H.
      rewrite !map_app. apply in_or_app. right. apply in_or_app. left. left. reflexivity.
    - rewrite !map_app. apply in_or_app. right. apply in_or_app. right.
      apply IH. replace (k + 1 + length accs + 1)%nat with (k + S (length accs) + 1)%nat by lia.
      exact H.
  Qed.

  Lemma filter_length_lt (log : list (Z * V)) tf x :
    In x (map fst log) -> tf < x ->
    (length (filter (fun p => (fst p <=? tf)%Z) log) < length log)%nat.
  Proof.
    induction log as [|p log IH]; cbn; intros H Hx; [contradiction|].
    destruct H as [<-|H].
    - rewrite (proj2 (Z.leb_gt _ _) Hx).
      pose proof (filter_length_le (fun p => (fst p <=? tf)%Z) log). lia.
    - specialize (IH H Hx). destruct (fst p <=? tf)%Z; cbn; lia.
  Qed.

  (** The final buffers of a solve with a root finder ([t0 <> t1]). *)
  Theorem finish_logs_rf c i s0 n o Inv :
    has_root_finder c = true ->
    cfg_t0 c < cfg_t1 c -> inf_pad (in_pad i) ->
    controller_contract c Inv -> midpoint_ok c ->
    Inv (cfg_t0 c) (Z.min (in_tnext i) (cfg_t1 c)) (in_controller_state i) ->
    cfg_t0 c <= in_tnext i ->
    (forall m', cfg_max_steps c = Some m' -> (n <= m')%nat) ->
    init_state c i = Some s0 ->
    finish c (while_loop c n s0) = Some o ->
    let accs := accepted (history c n s0) in
    Forall (fun sub => Sorted Z.le (sub_ts_list sub) /\ Forall (fun t => cfg_t0 c <= t) (sub_ts_list sub)
                       /\ no_ts_in_gap sub accs (sub_ts_list sub)) (cfg_subs c) ->
    Forall2 (fun sub sv =>
        let log := log_event_in (size_of (cfg_max_steps c) sub) sub (cfg_t0 c) (in_y i) accs
                                (out_tfinal o) (out_yfinal o) in
        holds_log_inf sv log (size_of (cfg_max_steps c) sub) /\
        ((step_due (sub_steps sub) (length accs) = true ->
          exists l a, accs = l ++ [a] /\ out_tfinal o < at_end a) ->
         log = log_event sub (cfg_t0 c) (in_y i) accs (out_tfinal o) (out_yfinal o)))
      (cfg_subs c) (out_save o).
  Proof.
    intros Hrf Ht01 Hpad Hcc Hmid HInv Htn Hm Hi Hf accs Hsubs.
    pose proof (loop_logs c i s0 n Hm Hi) as HL. cbn zeta in HL. fold accs in HL.
    destruct (init_time c i s0 Hi) as (I1 & I2 & I3 & _ & _ & _ & _ & _ & I4 & _).
    assert (Hti : time_inv c Inv s0).
    { unfold time_inv. rewrite I1, I3, I4. repeat split; try lia. exact HInv. }
    pose proof (history_chain c Inv n s0 Hcc Hmid Hti) as Hch. fold accs in Hch. rewrite I1 in Hch.
    set (s := while_loop c n s0) in *.
    assert (Hk : st_num_accepted s = length accs).
    { subst s accs. rewrite while_num_accepted, (init_num_accepted c i s0 Hi). reflexivity. }
    assert (Hkm : forall m, cfg_max_steps c = Some m -> (length accs <= m)%nat).
    { intros m Hmm. specialize (Hm m Hmm). pose proof (history_length c n s0).
      subst accs. unfold accepted. pose proof (filter_length_le at_keep (history c n s0)). lia. }
    assert (Hsz : Forall (fun sub => exists size, out_size (cfg_max_steps c) sub = Some size) (cfg_subs c)).
    { clear - Hi. unfold init_state, obind in Hi.
      destruct (omap _ (cfg_subs c)) as [svs|] eqn:H1; [|discriminate]. clear Hi.
      apply omap_spec in H1. induction H1; constructor; auto.
      destruct (alloc_holds _ _ _ _ H) as (size & Hs & _). eauto. }
    unfold finish, finish_batched in Hf. rewrite Hrf in Hf.
    rewrite (proj2 (Z.eqb_neq _ _)) in Hf by lia.
    destruct (final_time c (event_happened s) s) as [[tf yf] r].
    unfold obind in Hf.
    destruct (omap2 _ (cfg_subs c) (map (unsave tf) (st_save s))) as [svs2|] eqn:H2; [|discriminate].
    injection Hf as <-. cbn [out_save out_tfinal out_yfinal].
    assert (HL' : Forall2 (fun sub sv => exists sv0, sv = unsave tf sv0 /\
        sub_inv (in_pad i) (length accs) 0 (extra_slot (cfg_max_steps c) sub) sub sv0
          (log_loop sub (cfg_t0 c) (in_y i) accs)
          (rem_after (sub_ts_list sub) accs)
          (size_of (cfg_max_steps c) sub)) (cfg_subs c) (map (unsave tf) (st_save s))).
    { clear - HL. induction HL; constructor; eauto. }
    pose proof (omap2_spec _ _ _ _ _ HL' H2) as H2'.
    assert (H3 : Forall2 (fun sub sv => ((exists size, out_size (cfg_max_steps c) sub = Some size) /\
        (Sorted Z.le (sub_ts_list sub) /\ Forall (fun t => cfg_t0 c <= t) (sub_ts_list sub)
                       /\ no_ts_in_gap sub accs (sub_ts_list sub))) /\
        exists b, (exists sv0, b = unsave tf sv0 /\
        sub_inv (in_pad i) (length accs) 0 (extra_slot (cfg_max_steps c) sub) sub sv0
          (log_loop sub (cfg_t0 c) (in_y i) accs)
          (rem_after (sub_ts_list sub) accs)
          (size_of (cfg_max_steps c) sub)) /\
          save_t1 true (st_num_accepted s) tf yf sub b = Some sv) (cfg_subs c) svs2).
    { clear - Hsz Hsubs H2'. induction H2'; constructor; inversion Hsz; inversion Hsubs; subst; auto. }
    eapply Forall2_impl; [|exact H3]. cbn beta.
    intros sub sv [[[size Hsize] (Hsort & Hlb & Hgap)] [b [[sv0 [-> Hinv]] Hs2]]].
    destruct Hinv as (Hh0 & Hi0 & Hle & Hrem & Hcap).
    rewrite Hk in Hs2. unfold size_of in *. rewrite Hsize in *.
    apply Sorted_StronglySorted in Hsort; [|red; lia].
    destruct (log_steps_sorted sub accs (sub_ts_list sub) 0 (cfg_t0 c) Hch Hsort Hlb Hgap) as [S1 S2].
    assert (Hsorted : StronglySorted Z.le (map fst (log_loop sub (cfg_t0 c) (in_y i) accs))).
    { unfold log_loop, log_t0. rewrite map_app. destruct (sub_t0 sub); cbn [map app fst]; [|exact S1].
      constructor; [exact S1|exact S2]. }
    destruct (unsave_sorted sv0 _ _ _ tf Hpad Hh0 Hi0 Hsorted) as [U1 U2].
    cbn zeta. split; [eapply save_t1_rf; eauto|].
    intros Hdue. unfold log_event_in, log_event. cbn zeta.
    destruct (_ || _) eqn:Hpred; [|rewrite app_nil_r; reflexivity].
    rewrite (proj2 (Nat.ltb_lt _ _)); [reflexivity|].
    pose proof (log_steps_length sub (sub_ts_list sub) 0 accs) as Hlen.
    assert (Hl0 : length (log_t0 sub (cfg_t0 c) (in_y i)) = (if sub_t0 sub then 1 else 0)%nat)
      by (unfold log_t0; destruct (sub_t0 sub); reflexivity).
    pose proof (filter_length_le (fun p : Z * V => fst p <=? tf)
                  (log_loop sub (cfg_t0 c) (in_y i) accs)) as Hfl.
    destruct (step_due (sub_steps sub) (length accs)) eqn:Hd.
    - destruct (Hdue eq_refl) as (l & a & Hla & Hlt).
      assert (Hin : In (at_end a) (map fst (log_loop sub (cfg_t0 c) (in_y i) accs))).
      { unfold log_loop. rewrite map_app. apply in_or_app. right. rewrite Hla.
        apply step_entry_in. rewrite Hla, app_length in Hd. cbn in Hd. exact Hd. }
      pose proof (filter_length_lt _ tf _ Hin Hlt) as Hfl2.
      destruct Hh0 as (Hb & _ & _). lia.
    - rewrite orb_false_r in Hpred.
      pose proof (final_room _ _ _ (length accs) Hsize Hkm Hpred Hd) as Hr.
      unfold log_loop in Hfl |- *. rewrite app_length in Hfl. lia.
  Qed.
End Root.
