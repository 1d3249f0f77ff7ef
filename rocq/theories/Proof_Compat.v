(** Proofs about [_assert_term_compatible]. *)
From Coq Require Import List Arith Bool Lia.
From Verif Require Import Model_Typing Spec_Typing Proof_Typing Model_Compat Spec_Compat.
Import ListNotations.

Section Compat.
  Context {V A K : Type} (inst : V -> cid -> bool).
  Notation term := (term V A K).

  Lemma better_spec x : forall ann, checkable ann = true ->
    exists r, better_isinstance inst x ann = Ok r /\ (r = true <-> instance_of inst x ann).
  Proof.
    induction ann as [c|c l IH|v| |l IH|t k IH|n] using ty_ind'; cbn [checkable]; intros H; try discriminate.
    - eexists. split; [reflexivity|]. reflexivity.
    - eexists. split; [reflexivity|]. reflexivity.
    - eexists. split; [reflexivity|]. cbn. tauto.
    - induction IH as [|a l Ha Hl IHl]; [exists false; cbn; split; [reflexivity|]; split; [discriminate|tauto]|].
      cbn [forallb] in H. apply andb_true_iff in H. destruct H as [H1 H2].
      destruct (Ha H1) as (r & Hr & Hs). destruct (IHl H2) as (r' & Hr' & Hs').
      cbn [better_isinstance instance_of] in *. rewrite Hr. cbn [rbind]. destruct r.
      + exists true. split; [reflexivity|]. tauto.
      + exists r'. split; [exact Hr'|]. rewrite Hs'. split; [auto|]. intros [Hx|Hx]; [|exact Hx].
        apply Hs in Hx. discriminate.
  Qed.

  Section WithTable.
  Context (G : table).

  (** The check of a single term. *)
  Lemma check_single_spec cls c a b (tm : term) (kw : tree K) (y : tree A) :
    (cls = TClass c \/ exists args, cls = TSub c args) ->
    get_args_of G term_id cls = Ok [a; b] -> checkable a = true -> checkable b = true ->
    (check_single inst G cls (Leaf tm) kw y = Ok tt <->
     exists k v w, kw = Leaf k /\ issubclass G (t_class tm) c = true /\
       t_vf tm y = Some v /\ instance_of inst v a /\ t_contr tm k = Some w /\ instance_of inst w b).
  Proof.
    intros Hc Hargs Ha Hb.
    assert (Ho : check_single inst G cls (Leaf tm) kw y =
      if negb (issubclass G (t_class tm) c) then Raise E_incompatible else
        rbind (get_args_of G term_id cls) (fun args =>
        match args with
        | [] => Ok tt
        | [vf_expected; control_expected] =>
            rbind (opt (t_vf tm y)) (fun vf =>
            rbind (better_isinstance inst vf vf_expected) (fun ok1 =>
            if negb ok1 then Raise E_incompatible else
            match kw with
            | Node _ => Raise E_type
            | Leaf k =>
                rbind (opt (t_contr tm k)) (fun control =>
                rbind (better_isinstance inst control control_expected) (fun ok2 =>
                if negb ok2 then Raise E_incompatible else Ok tt))
            end))
        | _ => Raise E_assert
        end)).
    { destruct Hc as [->|[args ->]]; reflexivity. }
    rewrite Ho, Hargs. cbn [rbind]. clear Ho. split.
    - destruct (issubclass G (t_class tm) c); cbn [negb]; [|discriminate].
      destruct (t_vf tm y) as [v|] eqn:Hv; cbn [opt rbind]; [|discriminate].
      destruct (better_spec v a Ha) as (r & Hr & Hs). rewrite Hr. cbn [rbind].
      destruct r; cbn [negb]; [|discriminate].
      destruct kw as [k|]; [|discriminate].
      destruct (t_contr tm k) as [w|] eqn:Hw; cbn [opt rbind]; [|discriminate].
      destruct (better_spec w b Hb) as (r' & Hr' & Hs'). rewrite Hr'. cbn [rbind].
      destruct r'; cbn [negb]; [|discriminate].
      intros _. exists k, v, w. tauto.
    - intros (k & v & w & -> & -> & -> & Hia & -> & Hib). cbn [negb opt rbind].
      destruct (better_spec v a Ha) as (r & -> & Hs). cbn [rbind]. apply Hs in Hia. subst r. cbn [negb].
      destruct (better_spec w b Hb) as (r' & -> & Hs'). cbn [rbind]. apply Hs' in Hib. subst r'. reflexivity.
  Qed.

  Definition each_check (y : tree A) := fix each (args : list ty) (ts : list term) (kws : list (tree K)) : res unit :=
    match args, ts, kws with
    | a :: args, t :: ts, k :: kws => rbind (check inst G a (Leaf t) k y) (fun _ => each args ts kws)
    | _, _, _ => Ok tt
    end.

  Lemma check_multi args (tm : term) (kw : tree K) (y : tree A) :
    check inst G (TSub multi_id [TSub tuple_id args]) (Leaf tm) kw y =
    if issubclass G (t_class tm) multi_id then
      if negb (length (t_subs tm) =? length args) then Raise E_assert
      else match kw with
           | Leaf _ => Raise E_assert
           | Node kws => if negb (length (t_subs tm) =? length kws) then Raise E_assert
                         else each_check y args (t_subs tm) kws
           end
    else Raise E_incompatible.
  Proof. reflexivity. Qed.

  Lemma check_is_single cls c (t : tree term) (kw : tree K) (y : tree A) :
    (cls = TClass c \/ exists args, cls = TSub c args /\ c <> multi_id) ->
    check inst G cls t kw y = check_single inst G cls t kw y.
  Proof.
    intros [->|(args & -> & Hne)]; [reflexivity|]. cbn [check].
    rewrite (proj2 (Nat.eqb_neq _ _) Hne). reflexivity.
  Qed.

  Lemma each_check_ok (y : tree A) : forall args ts kws,
    length ts = length args -> length kws = length args ->
    (each_check y args ts kws = Ok tt <->
     forall i a t k, nth_error args i = Some a -> nth_error ts i = Some t -> nth_error kws i = Some k ->
                     check inst G a (Leaf t) k y = Ok tt).
  Proof.
    induction args as [|a args IH]; intros [|t ts] [|k kws] Ht Hk; cbn in Ht, Hk; try discriminate.
    - split; [intros _ [|i] a t k H; discriminate|reflexivity].
    - cbn [each_check]. specialize (IH ts kws ltac:(lia) ltac:(lia)). split.
      + intros H. destruct (check inst G a (Leaf t) k y) as [[]|e|] eqn:Hc; cbn [rbind] in H; try discriminate.
        intros [|i] a' t' k' H1 H2 H3; cbn in H1, H2, H3.
        * injection H1 as <-. injection H2 as <-. injection H3 as <-. exact Hc.
        * eapply (proj1 IH H); eauto.
      + intros H. rewrite (H 0 a t k eq_refl eq_refl eq_refl). cbn [rbind]. apply IH.
        intros i a' t' k' H1 H2 H3. apply (H (S i)); assumption.
  Qed.

  Lemma check_iff (y : tree A) : forall cls, good_leaf G cls -> forall (tm : term) (kw : tree K),
    check inst G cls (Leaf tm) kw y = Ok tt <-> fits inst G y cls tm kw.
  Proof.
    induction 1 as [args Hargs IH|cls c a b Hc Hget Ha Hb]; intros tm kw.
    - rewrite check_multi. split.
      + destruct (issubclass G (t_class tm) multi_id) eqn:Hm; [|discriminate].
        destruct (Nat.eqb_spec (length (t_subs tm)) (length args)) as [Hl|]; cbn [negb]; [|discriminate].
        destruct kw as [k|kws]; [discriminate|].
        destruct (Nat.eqb_spec (length (t_subs tm)) (length kws)) as [Hl'|]; cbn [negb]; [|discriminate].
        intros H. constructor; auto; [lia|]. intros i a t k H1 H2 H3.
        apply IH; [eapply nth_error_In; eauto|].
        eapply (proj1 (each_check_ok y args (t_subs tm) kws Hl ltac:(lia)) H); eauto.
      + intros Hf. inversion Hf as [args' tm' kws Hm Hl Hl' Hall|cls' c' tm' k' vt ct v w Hc' Hs Hg Hv Hi Hw Hi']; subst.
        * rewrite Hm, Hl, Nat.eqb_refl, Hl', Nat.eqb_refl. cbn [negb].
          apply (each_check_ok y args (t_subs tm) kws Hl Hl'). intros i a t k H1 H2 H3.
          apply IH; [eapply nth_error_In; eauto|]. eapply Hall; eauto.
        * destruct Hc' as [Hc'|(args' & Hc' & Hne)]; [discriminate|]. injection Hc' as <- <-. contradiction.
    - rewrite (check_is_single cls c (Leaf tm) kw y Hc).
      assert (Hc2 : cls = TClass c \/ exists args, cls = TSub c args).
      { destruct Hc as [Hc|(args & Hc & _)]; eauto. }
      rewrite (check_single_spec cls c a b tm kw y Hc2 Hget Ha Hb). split.
      + intros (k & v & w & -> & Hs & Hv & Hi & Hw & Hi'). eapply fits_single; eauto.
      + intros Hf. inversion Hf as [args' tm' kws Hm Hl Hl' Hall|cls' c' tm' k' vt ct v w Hc' Hs Hg Hv Hi Hw Hi']; subst.
        * exfalso. destruct Hc as [Hc|(args & Hc & Hne)]; [discriminate|]. injection Hc as <- <-. contradiction.
        * rewrite Hget in Hg. injection Hg as <- <-. exists k', v, w.
          assert (c' = c).
          { destruct Hc as [->|(args & -> & _)], Hc' as [Hc'|(args' & Hc' & _)]; try discriminate; injection Hc'; auto. }
          subst c'. auto 8.
  Qed.

  Definition each_prefix := fix each (ss : list (tree ty)) (ts : list (tree term)) (ks : list (tree K)) (ys : list (tree A)) : bool :=
    match ss, ts, ks, ys with
    | s :: ss, t :: ts, k :: ks, y :: ys => prefix_ok s t k y && each ss ts ks ys
    | _, _, _, _ => true
    end.
  Definition each_tree := fix each (ss : list (tree ty)) (ts : list (tree term)) (ks : list (tree K)) (ys : list (tree A)) : res unit :=
    match ss, ts, ks, ys with
    | s :: ss, t :: ts, k :: ks, y :: ys =>
        rbind (check_tree inst G s t k y) (fun _ => each ss ts ks ys)
    | _, _, _, _ => Ok tt
    end.

  Lemma prefix_node ss ts ks ys :
    @prefix_ok V A K (Node ss) (Node ts) (Node ks) (Node ys) =
    (length ss =? length ts) && (length ss =? length ks) && (length ss =? length ys) && each_prefix ss ts ks ys.
  Proof. reflexivity. Qed.

  Lemma assert_each ss : forall ts ks ys,
    length ts = length ss -> length ks = length ss -> length ys = length ss ->
    (each_prefix ss ts ks ys = true /\ each_tree ss ts ks ys = Ok tt <->
     forall i s t k y, nth_error ss i = Some s -> nth_error ts i = Some t ->
       nth_error ks i = Some k -> nth_error ys i = Some y ->
       prefix_ok s t k y = true /\ check_tree inst G s t k y = Ok tt).
  Proof.
    induction ss as [|s ss IH]; intros [|t ts] [|k ks] [|y ys] Ht Hk Hy; cbn in Ht, Hk, Hy; try discriminate.
    - split; [intros _ [|i] ? ? ? ? H; discriminate|cbn; auto].
    - cbn [each_prefix each_tree]. specialize (IH ts ks ys ltac:(lia) ltac:(lia) ltac:(lia)).
      rewrite andb_true_iff. split.
      + intros [[H1 H2] H3]. destruct (check_tree inst G s t k y) as [[]|e|] eqn:Hc; cbn [rbind] in H3; try discriminate.
        intros [|i] s' t' k' y' E1 E2 E3 E4; cbn in E1, E2, E3, E4.
        * injection E1 as <-. injection E2 as <-. injection E3 as <-. injection E4 as <-. auto.
        * eapply (proj1 IH (conj H2 H3)); eauto.
      + intros H. destruct (H 0 s t k y eq_refl eq_refl eq_refl eq_refl) as [H1 H2].
        rewrite H1, H2. cbn [rbind].
        destruct (proj2 IH) as [H3 H4]; [|auto].
        intros i s' t' k' y' E1 E2 E3 E4. apply (H (S i)); assumption.
  Qed.

  Lemma assert_iff : forall s, good_structure G s -> forall (t : tree term) (kw : tree K) (y : tree A),
    assert_term_compatible inst G s t kw y = Ok tt <-> fits_tree inst G s t kw y.
  Proof.
    assert (Hmain : forall s, good_structure G s -> forall (t : tree term) (kw : tree K) (y : tree A),
      (prefix_ok s t kw y = true /\ check_tree inst G s t kw y = Ok tt) <-> fits_tree inst G s t kw y).
    { induction 1 as [cls Hg|ss Hss IH]; intros t kw y.
      - cbn [prefix_ok check_tree]. split.
        + intros [_ H]. destruct t as [tm|l].
          * constructor. apply check_iff; assumption.
          * exfalso. destruct Hg as [args|cls c a b Hc Hget Ha Hb]; [discriminate|].
            rewrite (check_is_single cls c (Node l) kw y Hc) in H. unfold check_single in H.
            destruct Hc as [->|(args & -> & _)]; cbn in H; discriminate.
        + intros Hf. inversion Hf; subst. split; [reflexivity|]. apply check_iff; assumption.
      - split.
        + intros [Hp Hc]. destruct t as [|ts]; [discriminate|]. destruct kw as [|ks]; [discriminate|].
          destruct y as [|ys]; [discriminate|]. rewrite prefix_node in Hp.
          rewrite !andb_true_iff, !Nat.eqb_eq in Hp. destruct Hp as [[[H1 H2] H3] H4].
          constructor; auto. intros i s t k y E1 E2 E3 E4. apply IH; [eapply nth_error_In; eauto|].
          eapply (proj1 (assert_each ss ts ks ys (eq_sym H1) (eq_sym H2) (eq_sym H3)) (conj H4 Hc)); eauto.
        + intros Hf. inversion Hf as [|ss' ts ks ys H1 H2 H3 Hall]; subst.
          destruct (proj2 (assert_each ss ts ks ys H1 H2 H3)) as [H4 H5].
          { intros i s t k y E1 E2 E3 E4. apply IH; [eapply nth_error_In; eauto|]. eapply Hall; eauto. }
          split; [|exact H5]. rewrite prefix_node, H1, H2, H3, Nat.eqb_refl, H4. reflexivity. }
    intros s Hs t kw y. rewrite <- (Hmain s Hs t kw y). unfold assert_term_compatible.
    destruct (prefix_ok s t kw y); split; try tauto; try discriminate.
    intros [H _]. discriminate.
  Qed.

  (** Refusals. *)
  Lemma check_single_total cls c a b (tm : term) k (y : tree A) :
    (cls = TClass c \/ exists args, cls = TSub c args) ->
    get_args_of G term_id cls = Ok [a; b] -> checkable a = true -> checkable b = true ->
    evaluates tm ->
    check_single inst G cls (Leaf tm) (Leaf k) y = Ok tt \/
    check_single inst G cls (Leaf tm) (Leaf k) y = Raise E_incompatible.
  Proof.
    intros Hc Hargs Ha Hb Hev. destruct Hev as [tm Hv Hk _].
    assert (Hsome : exists v w, t_vf tm y = Some v /\ t_contr tm k = Some w).
    { specialize (Hv y). specialize (Hk k). destruct (t_vf tm y) as [v|]; [|congruence].
      destruct (t_contr tm k) as [w|]; [|congruence]. eauto. }
    destruct Hsome as (v & w & Ev & Ew).
    unfold check_single. destruct Hc as [->|[args ->]]; cbn [get_origin_no_specials rbind];
      (destruct (issubclass G (t_class tm) c); cbn [negb]; [|auto]; rewrite Hargs; cbn [rbind]; rewrite Ev, Ew;
       cbn [opt rbind]; destruct (better_spec v a Ha) as (r & -> & _); cbn [rbind];
       destruct r; cbn [negb]; [|auto]; destruct (better_spec w b Hb) as (r' & -> & _); cbn [rbind];
       destruct r'; cbn [negb]; auto).
  Qed.

  Lemma each_check_refuse (y : tree A) : forall args ts kws,
    length ts = length args -> length kws = length args ->
    (forall i a t k, nth_error args i = Some a -> nth_error ts i = Some t -> nth_error kws i = Some k ->
       check inst G a (Leaf t) k y = Ok tt \/ check inst G a (Leaf t) k y = Raise E_incompatible \/
       (check inst G a (Leaf t) k y = Raise E_assert /\ wrong_count G a t)) ->
    each_check y args ts kws = Ok tt \/ each_check y args ts kws = Raise E_incompatible \/
    (each_check y args ts kws = Raise E_assert /\
     exists i a t, nth_error args i = Some a /\ nth_error ts i = Some t /\ wrong_count G a t).
  Proof.
    induction args as [|a args IH]; intros [|t ts] [|k kws] Ht Hk H; cbn in Ht, Hk; try discriminate; [auto|].
    cbn [each_check].
    destruct (H 0 a t k eq_refl eq_refl eq_refl) as [E|[E|[E W]]]; rewrite E; cbn [rbind].
    - destruct (IH ts kws ltac:(lia) ltac:(lia)) as [F|[F|(F & i & a' & t' & W1 & W2 & W)]]; auto.
      + intros i a' t' k' E1 E2 E3. apply (H (S i)); assumption.
      + right; right. split; [exact F|]. exists (S i), a', t'. auto.
    - auto.
    - right; right. split; [reflexivity|]. exists 0, a, t. auto.
  Qed.

  Lemma check_refuse (y : tree A) : forall cls, good_leaf G cls -> forall (tm : term) (kw : tree K),
    kwargs_for cls kw -> evaluates tm ->
    check inst G cls (Leaf tm) kw y = Ok tt \/ check inst G cls (Leaf tm) kw y = Raise E_incompatible \/
    (check inst G cls (Leaf tm) kw y = Raise E_assert /\ wrong_count G cls tm).
  Proof.
    induction 1 as [args Hargs IH|cls c a b Hc Hget Ha Hb]; intros tm kw Hkw Hev.
    - inversion Hkw as [args' kws Hlk Hall|cls' c' k' Hc']; subst.
      2:{ destruct Hc' as [Hc'|(args' & Hc' & Hne)]; [discriminate|]. injection Hc' as <- <-. contradiction. }
      rewrite check_multi. destruct (issubclass G (t_class tm) multi_id) eqn:Hm; [|auto].
      destruct (Nat.eqb_spec (length (t_subs tm)) (length args)) as [Hl|Hl]; cbn [negb].
      2:{ right; right. split; [reflexivity|]. constructor; assumption. }
      rewrite Hl, Hlk, Nat.eqb_refl. cbn [negb].
      destruct (each_check_refuse y args (t_subs tm) kws Hl Hlk) as [F|[F|(F & i & a & t & W1 & W2 & W)]]; auto.
      + intros i a t k E1 E2 E3. apply IH; [eapply nth_error_In; eauto|eapply Hall; eauto|].
        destruct Hev as [tm _ _ Hsub]. apply Hsub. eapply nth_error_In; eauto.
      + right; right. split; [exact F|]. eapply wc_part; eauto.
    - rewrite (check_is_single cls c (Leaf tm) kw y Hc).
      assert (Hc2 : cls = TClass c \/ exists args, cls = TSub c args).
      { destruct Hc as [Hc|(args & Hc & _)]; eauto. }
      inversion Hkw as [args' kws Hlk Hall|cls' c' k' Hc']; subst.
      { exfalso. destruct Hc as [Hc|(args & Hc & Hne)]; [discriminate|]. injection Hc as <- <-. contradiction. }
      destruct (check_single_total cls c a b tm k' y Hc2 Hget Ha Hb Hev); auto.
  Qed.

  Lemma check_node_leaf cls (l : list (tree term)) (kw : tree K) (y : tree A) :
    good_leaf G cls -> check inst G cls (Node l) kw y = Raise E_incompatible.
  Proof.
    intros [args|cls' c a b Hc Hget Ha Hb]; [reflexivity|].
    rewrite (check_is_single cls' c (Node l) kw y Hc). unfold check_single.
    destruct Hc as [->|(args & -> & _)]; reflexivity.
  Qed.

  Lemma each_tree_refuse ss : forall (ts : list (tree term)) (ks : list (tree K)) (ys : list (tree A)),
    length ts = length ss -> length ks = length ss -> length ys = length ss ->
    (forall i s t k y, nth_error ss i = Some s -> nth_error ts i = Some t ->
       nth_error ks i = Some k -> nth_error ys i = Some y -> 
       check_tree inst G s t k y = Ok tt \/ check_tree inst G s t k y = Raise E_incompatible \/
       (check_tree inst G s t k y = Raise E_assert /\ wrong_count_tree G s t)) ->
    each_tree ss ts ks ys = Ok tt \/ each_tree ss ts ks ys = Raise E_incompatible \/
    (each_tree ss ts ks ys = Raise E_assert /\
     exists i s t, nth_error ss i = Some s /\ nth_error ts i = Some t /\ wrong_count_tree G s t).
  Proof.
    induction ss as [|s ss IH]; intros [|t ts] [|k ks] [|y ys] Ht Hk Hy H; cbn in Ht, Hk, Hy; try discriminate; [auto|].
    cbn [each_tree].
    destruct (H 0 s t k y eq_refl eq_refl eq_refl eq_refl) as [E|[E|[E W]]]; rewrite E; cbn [rbind].
    - destruct (IH ts ks ys ltac:(lia) ltac:(lia) ltac:(lia)) as [F|[F|(F & i & s' & t' & W1 & W2 & W)]]; auto.
      + intros i s' t' k' y' E1 E2 E3 E4. apply (H (S i)); assumption.
      + right; right. split; [exact F|]. exists (S i), s', t'. auto.
    - auto.
    - right; right. split; [reflexivity|]. exists 0, s, t. auto.
  Qed.

  Lemma assert_refuse : forall s, good_structure G s -> forall (t : tree term) (kw : tree K) (y : tree A),
    kwargs_for_tree s kw -> tree_forall evaluates t ->
    assert_term_compatible inst G s t kw y = Ok tt \/
    assert_term_compatible inst G s t kw y = Raise E_incompatible \/
    (assert_term_compatible inst G s t kw y = Raise E_assert /\ wrong_count_tree G s t).
  Proof.
    assert (Hmain : forall s, good_structure G s -> forall (t : tree term) (kw : tree K) (y : tree A),
      kwargs_for_tree s kw -> tree_forall evaluates t -> prefix_ok s t kw y = true ->
      check_tree inst G s t kw y = Ok tt \/ check_tree inst G s t kw y = Raise E_incompatible \/
      (check_tree inst G s t kw y = Raise E_assert /\ wrong_count_tree G s t)).
    { induction 1 as [cls Hg|ss Hss IH]; intros t kw y Hkw Hev Hp.
      - cbn [check_tree]. inversion Hkw; subst. destruct t as [tm|l].
        + inversion Hev; subst. destruct (check_refuse y cls Hg tm kw) as [E|[E|[E W]]]; auto.
          right; right. split; [exact E|]. constructor. exact W.
        + right; left. apply check_node_leaf. exact Hg.
      - inversion Hkw as [|ss' ks Hlk Hall]; subst.
        destruct t as [|ts]; [discriminate|]. destruct y as [|ys]; [discriminate|].
        rewrite prefix_node in Hp. rewrite !andb_true_iff, !Nat.eqb_eq in Hp. destruct Hp as [[[H1 H2] H3] H4].
        inversion Hev as [|l Hevl]; subst.
        destruct (each_tree_refuse ss ts ks ys (eq_sym H1) (eq_sym H2) (eq_sym H3)) as [F|[F|(F & i & s & t & W1 & W2 & W)]]; auto.
        + intros i s t k y E1 E2 E3 E4. apply IH; [eapply nth_error_In; eauto|eapply Hall; eauto| |].
          * apply Hevl. eapply nth_error_In; eauto.
          * clear - E1 E2 E3 E4 H4. revert ss ts ks ys H4 E1 E2 E3 E4.
            induction i as [|i IHi]; intros [|a ss] [|b ts] [|c ks] [|d ys] H4 E1 E2 E3 E4; cbn in E1, E2, E3, E4; try discriminate;
              cbn [each_prefix] in H4; apply andb_true_iff in H4; destruct H4 as [P1 P2].
            -- injection E1 as <-. injection E2 as <-. injection E3 as <-. injection E4 as <-. exact P1.
            -- eapply IHi; eauto.
        + right; right. split; [exact F|]. eapply wct_node; eauto. }
    intros s Hs t kw y Hkw Hev. unfold assert_term_compatible.
    destruct (prefix_ok s t kw y) eqn:Hp; [|auto]. apply Hmain; auto.
  Qed.

  (** The default keyword arguments. *)
  Lemma leaf_kwargs_for empty : forall cls kw, good_leaf G cls -> leaf_kwargs G empty cls = Ok kw -> kwargs_for cls (kw : tree K).
  Proof.
    intros cls kw Hg. revert kw. induction Hg as [args Hargs IH|cls c a b Hc Hget Ha Hb]; intros kw H.
    - assert (He : forall args ks, (forall a, In a args -> forall kw, leaf_kwargs G empty a = Ok kw -> kwargs_for a kw) ->
        (fix each (args : list ty) : res (list (tree K)) :=
           match args with
           | [] => Ok []
           | a :: args => rbind (leaf_kwargs G empty a) (fun k =>
                          rbind (each args) (fun ks => Ok (k :: ks)))
           end) args = Ok ks ->
        length ks = length args /\
        (forall i a k, nth_error args i = Some a -> nth_error ks i = Some k -> kwargs_for a k)).
      { induction args0 as [|a0 args0 IHa]; intros ks Hin He.
        - injection He as <-. split; [reflexivity|]. intros [|i]; discriminate.
        - destruct (leaf_kwargs G empty a0) as [k0|e|] eqn:Ek; cbn [rbind] in He; try discriminate.
          match goal with H : rbind ?r _ = _ |- _ => destruct r as [ks0|e|] eqn:Er end; cbn [rbind] in He; try discriminate.
          injection He as <-. destruct (IHa ks0) as [L1 L2]; [intros; eapply Hin; [right|]; eauto|reflexivity|].
          split; [cbn; lia|]. intros [|i] a k E1 E2; cbn in E1, E2.
          + injection E1 as <-. injection E2 as <-. eapply Hin; [left; reflexivity|exact Ek].
          + eapply L2; eauto. }
      cbn [leaf_kwargs] in H. rewrite Nat.eqb_refl in H.
      match goal with H : rbind ?r _ = _ |- _ => destruct r as [ks0|e|] eqn:Er end; cbn [rbind] in H; try discriminate.
      injection H as <-. destruct (He args ks0 IH Er) as [L1 L2]. constructor; assumption.
    - destruct Hc as [->|(args & -> & Hne)]; cbn [leaf_kwargs] in H.
      + destruct (issubclass G c term_id); [|discriminate]. injection H as <-. econstructor. left. reflexivity.
      + rewrite (proj2 (Nat.eqb_neq _ _) Hne) in H.
        destruct (issubclass G c term_id); [|discriminate]. injection H as <-. econstructor. right. eauto.
  Qed.

  Lemma contr_kwargs_for empty : forall s, good_structure G s -> forall kw,
    contr_kwargs G empty s = Ok kw -> kwargs_for_tree s (kw : tree K).
  Proof.
    induction 1 as [cls Hg|ss Hss IH]; intros kw H.
    - constructor. eapply leaf_kwargs_for; eauto.
    - assert (He : forall ss ks, (forall s, In s ss -> forall kw, contr_kwargs G empty s = Ok kw -> kwargs_for_tree s kw) ->
        (fix each (ss : list (tree ty)) : res (list (tree K)) :=
           match ss with
           | [] => Ok []
           | s :: ss => rbind (contr_kwargs G empty s) (fun k =>
                        rbind (each ss) (fun ks => Ok (k :: ks)))
           end) ss = Ok ks ->
        length ks = length ss /\
        (forall i s k, nth_error ss i = Some s -> nth_error ks i = Some k -> kwargs_for_tree s k)).
      { induction ss0 as [|a0 args0 IHa]; intros ks Hin He.
        - injection He as <-. split; [reflexivity|]. intros [|i]; discriminate.
        - destruct (contr_kwargs G empty a0) as [k0|e|] eqn:Ek; cbn [rbind] in He; try discriminate.
          match goal with H : rbind ?r _ = _ |- _ => destruct r as [ks0|e|] eqn:Er end; cbn [rbind] in He; try discriminate.
          injection He as <-. destruct (IHa ks0) as [L1 L2]; [intros; eapply Hin; [right|]; eauto|reflexivity|].
          split; [cbn; lia|]. intros [|i] a k E1 E2; cbn in E1, E2.
          + injection E1 as <-. injection E2 as <-. eapply Hin; [left; reflexivity|exact Ek].
          + eapply L2; eauto. }
      cbn [contr_kwargs] in H.
      match goal with H : rbind ?r _ = _ |- _ => destruct r as [ks0|e|] eqn:Er end; cbn [rbind] in H; try discriminate.
      injection H as <-. destruct (He ss ks0 IH Er) as [L1 L2]. constructor; assumption.
  Qed.

  (** The shipped structures. *)
  Context (HT : term_classes G).

  Lemma args_abstract : get_args_of G term_id (TClass term_id) = Ok [TAny; TAny].
  Proof.
    destruct HT as (H1 & H2 & H3). unfold get_args_of.
    rewrite (proj2 (issubclass_in G term_id generic_id) H2). cbn [negb origin_params get_origin_no_specials rbind].
    rewrite (proj2 (issubclass_in G term_id term_id) H1). cbn [get_args_of_impl].
    rewrite Nat.eqb_refl. cbn [rbind].
    destruct (c_params (G term_id)) as [|p [|q [|]]]; try discriminate. reflexivity.
  Qed.

  Lemma args_abstract_sub x z : get_args_of G term_id (TSub term_id [x; z]) = Ok [no_var x; no_var z].
  Proof.
    destruct HT as (H1 & H2 & H3). unfold get_args_of.
    rewrite (proj2 (issubclass_in G term_id generic_id) H2). cbn [negb origin_params get_origin_no_specials rbind].
    rewrite (proj2 (issubclass_in G term_id term_id) H1). cbn [get_args_of_impl].
    rewrite Nat.eqb_refl. reflexivity.
  Qed.

  Lemma checkable_no_var x : checkable x = true -> no_var x = x.
  Proof. destruct x; try reflexivity. discriminate. Qed.

  Lemma good_any : good_leaf G (TClass term_id).
  Proof. eapply good_single; [left; reflexivity|apply args_abstract|reflexivity|reflexivity]. Qed.

  Lemma good_sub x z : checkable x = true -> checkable z = true -> good_leaf G (TSub term_id [x; z]).
  Proof.
    intros Hx Hz. eapply good_single.
    - right. eexists. split; [reflexivity|discriminate].
    - rewrite args_abstract_sub, (checkable_no_var x Hx), (checkable_no_var z Hz). reflexivity.
    - exact Hx.
    - exact Hz.
  Qed.

  (** A term of any class of terms. *)
  Definition is_term (tm : term) : Prop := issubclass G (t_class tm) term_id = true.

  Lemma fits_any (y : tree A) (tm : term) (kw : tree K) :
    fits inst G y (TClass term_id) tm kw <->
    is_term tm /\ exists k, kw = Leaf k /\ t_vf tm y <> None /\ t_contr tm k <> None.
  Proof.
    rewrite <- (check_iff y _ good_any). rewrite (check_is_single (TClass term_id) term_id _ _ _ (or_introl eq_refl)).
    rewrite (check_single_spec (TClass term_id) term_id TAny TAny tm kw y (or_introl eq_refl) args_abstract eq_refl eq_refl).
    split.
    - intros (k & v & w & -> & Hs & Hv & _ & Hw & _). split; [exact Hs|]. exists k. rewrite Hv, Hw. repeat split; discriminate.
    - intros (Hs & k & -> & Hv & Hw). destruct (t_vf tm y) as [v|] eqn:Ev; [|congruence].
      destruct (t_contr tm k) as [w|] eqn:Ew; [|congruence]. exists k, v, w. repeat split; auto; exact I.
  Qed.

  Lemma fits_control (z : ty) (y : tree A) (tm : term) (kw : tree K) : checkable z = true ->
    (fits inst G y (TSub term_id [TAny; z]) tm kw <->
     is_term tm /\ exists k w, kw = Leaf k /\ t_vf tm y <> None /\ t_contr tm k = Some w /\ instance_of inst w z).
  Proof.
    intros Hz. rewrite <- (check_iff y _ (good_sub TAny z eq_refl Hz)).
    assert (Hc : TSub term_id [TAny; z] = TClass term_id \/ exists args, TSub term_id [TAny; z] = TSub term_id args /\ term_id <> multi_id).
    { right. eexists. split; [reflexivity|discriminate]. }
    rewrite (check_is_single (TSub term_id [TAny; z]) term_id _ _ _ Hc).
    assert (Hg : get_args_of G term_id (TSub term_id [TAny; z]) = Ok [TAny; z]).
    { rewrite args_abstract_sub, (checkable_no_var z Hz). reflexivity. }
    assert (Hc2 : TSub term_id [TAny; z] = TClass term_id \/ exists args, TSub term_id [TAny; z] = TSub term_id args) by eauto.
    rewrite (check_single_spec _ term_id TAny z tm kw y Hc2 Hg eq_refl Hz).
    split.
    - intros (k & v & w & -> & Hs & Hv & _ & Hw & Hi). split; [exact Hs|]. exists k, w. rewrite Hv. repeat split; auto; discriminate.
    - intros (Hs & k & w & -> & Hv & Hw & Hi). destruct (t_vf tm y) as [v|] eqn:Ev; [|congruence].
      exists k, v, w. repeat split; auto; exact I.
  Qed.

  (** A [MultiTerm] of two. *)
  Lemma fits_two a b (y : tree A) (tm : term) (kw : tree K) :
    fits inst G y (TSub multi_id [TSub tuple_id [a; b]]) tm kw <->
    issubclass G (t_class tm) multi_id = true /\
    exists t1 t2 k1 k2, t_subs tm = [t1; t2] /\ kw = Node [k1; k2] /\
      fits inst G y a t1 k1 /\ fits inst G y b t2 k2.
  Proof.
    split.
    - intros Hf. inversion Hf as [args' tm' kws Hm Hl Hl' Hall|cls' c' tm' k' vt ct v w Hc' Hs Hg Hv Hi Hw Hi']; subst.
      2:{ destruct Hc' as [Hc'|(args' & Hc' & Hne)]; [discriminate|]. injection Hc' as <- <-. contradiction. }
      split; [exact Hm|]. destruct (t_subs tm) as [|t1 [|t2 [|]]] eqn:Ht; try discriminate.
      destruct kws as [|k1 [|k2 [|]]]; try discriminate. exists t1, t2, k1, k2.
      split; [reflexivity|]. split; [reflexivity|].
      split; [apply (Hall 0)|apply (Hall 1)]; reflexivity.
    - intros (Hm & t1 & t2 & k1 & k2 & Ht & -> & F1 & F2). constructor.
      + exact Hm.
      + rewrite Ht. reflexivity.
      + reflexivity.
      + rewrite Ht. intros [|[|[|i]]] a' t' k' E1 E2 E3; cbn in E1, E2, E3; try discriminate;
          injection E1 as <-; injection E2 as <-; injection E3 as <-; assumption.
  Qed.

  Lemma fits_tree_leaf cls (t : tree term) (kw : tree K) (y : tree A) :
    fits_tree inst G (Leaf cls) t kw y <-> exists tm, t = Leaf tm /\ fits inst G y cls tm kw.
  Proof.
    split.
    - intros H. inversion H; subst. eauto.
    - intros (tm & -> & H). constructor. exact H.
  Qed.

  (** Tuples of terms for [EulerHeun] and the Milstein methods. *)
  Lemma upgrade_leaf tuple_of (kw : tree K) (ts : list (tree term)) (y : A) :
    upgrade_terms inst G tuple_of kw (Node ts) (Leaf y) = Node ts.
  Proof. unfold upgrade_terms, assert_term_compatible. cbn [prefix_ok]. destruct kw; reflexivity. Qed.
  End WithTable.
End Compat.
