(** Properties of [get_args_of] and of the check of terms against a solver. *)
From Coq Require Import List Arith Bool Lia.
From Verif Require Import Model_Typing Spec_Typing Proof_Typing Model_Compat Spec_Compat Proof_Compat.
Import ListNotations.

Lemma origin_params_uses G cls c ps : uses G cls c ps -> origin_params G cls = Ok (c, ps).
Proof. intros [c'|c' args Hl]; reflexivity. Qed.

Lemma uses_length G cls c ps : uses G cls c ps -> length ps = length (c_params (G c)).
Proof. intros [c'|c' args Hl]; unfold anys; rewrite map_length; [reflexivity|exact Hl]. Qed.

Lemma gao_eq G b cls c ps : issubclass G b generic_id = true -> uses G cls c ps ->
  get_args_of G b cls =
  if issubclass G c b
  then rbind (get_args_of_impl (S c) G b c ps) (fun r =>
       match r with None => Ok (anys G b) | Some out => Ok out end)
  else Raise E_not_subclass.
Proof.
  intros Hb Hu. unfold get_args_of. rewrite Hb. cbn [negb].
  rewrite (origin_params_uses G cls c ps Hu). reflexivity.
Qed.

Lemma own_orig_generic G (HG : python_classes G) b :
  c_params (G b) <> [] -> own_orig_bases (G b) <> None.
Proof. intros H He. apply H. exact (py_params G HG b He). Qed.

Lemma pf_C64_sound (G : table) (b c : cid) (cls : ty) (ps out : list ty) :
  python_classes G -> flat_bases G -> issubclass G b generic_id = true -> uses G cls c ps ->
  get_args_of G b cls = Ok out -> inherits G b c ps out \/ out = anys G b.
Proof.
  intros HG Hf Hb Hu H. rewrite (gao_eq G b cls c ps Hb Hu) in H.
  destruct (issubclass G c b); [|discriminate].
  destruct (get_args_of_impl (S c) G b c ps) as [[o|]|e|] eqn:E; cbn [rbind] in H; try discriminate;
    injection H as <-; [left|right; reflexivity].
  exact (impl_sound G HG Hf b (S c) c ps o E).
Qed.

Lemma pf_C64_complete (G : table) (b c : cid) (cls : ty) (ps out out' : list ty) :
  python_classes G -> flat_bases G -> issubclass G b generic_id = true -> uses G cls c ps ->
  get_args_of G b cls = Ok out -> inherits_sub G b c ps out' -> out' = out.
Proof.
  intros HG Hf Hb Hu H Hi. rewrite (gao_eq G b cls c ps Hb Hu) in H.
  destruct (issubclass G c b); [|discriminate].
  destruct (get_args_of_impl (S c) G b c ps) as [r|e|] eqn:E; cbn [rbind] in H; try discriminate.
  pose proof (impl_complete G HG Hf b (S c) c ps r out' E Hi) as ->. congruence.
Qed.

Lemma pf_C64_total (G : table) (b c : cid) (cls : ty) (ps : list ty) :
  python_classes G -> flat_bases G -> issubclass G b generic_id = true -> uses G cls c ps ->
  c_params (G b) <> [] ->
  if issubclass G c b
  then (exists out, get_args_of G b cls = Ok out) \/
       (get_args_of G b cls = Raise E_multiple /\
        exists out1 out2, out1 <> out2 /\ inherits G b c ps out1 /\ inherits G b c ps out2)
  else get_args_of G b cls = Raise E_not_subclass.
Proof.
  intros HG Hf Hb Hu Hp. rewrite (gao_eq G b cls c ps Hb Hu).
  destruct (issubclass G c b) eqn:Hs; [|reflexivity].
  destruct (impl_total G HG b (S c) c ps (own_orig_generic G HG b Hp) ltac:(lia) (uses_length G cls c ps Hu) Hs) as [[r Hr]|Hm].
  - left. rewrite Hr. destruct r; cbn [rbind]; eauto.
  - right. split; [rewrite Hm; reflexivity|]. exact (impl_multiple G HG Hf b (S c) c ps Hm).
Qed.

Lemma pf_C64_ambiguous (G : table) (b c : cid) (cls : ty) (ps out1 out2 : list ty) :
  python_classes G -> flat_bases G -> issubclass G b generic_id = true -> uses G cls c ps ->
  c_params (G b) <> [] -> issubclass G c b = true ->
  inherits_sub G b c ps out1 -> inherits_sub G b c ps out2 -> out1 <> out2 ->
  get_args_of G b cls = Raise E_multiple.
Proof.
  intros HG Hf Hb Hu Hp Hs H1 H2 Hne.
  pose proof (pf_C64_total G b c cls ps HG Hf Hb Hu Hp) as Ht. rewrite Hs in Ht.
  destruct Ht as [[out Ho]|[Hm _]]; [|exact Hm]. exfalso. apply Hne.
  rewrite (pf_C64_complete G b c cls ps out out1 HG Hf Hb Hu Ho H1).
  rewrite (pf_C64_complete G b c cls ps out out2 HG Hf Hb Hu Ho H2). reflexivity.
Qed.

(** The number of arguments. *)
Lemma inherits_length G (HG : python_classes G) b c ps out :
  length ps = length (c_params (G c)) -> inherits G b c ps out -> length out = length (c_params (G b)).
Proof.
  intros Hl Hi. induction Hi as [ps|c ps d args out Hin Hns Hi IH|c ps d out Hin Hi IH]; [exact Hl| |].
  - apply IH. rewrite map_length. exact (proj2 (py_args G HG c d args Hin Hns)).
  - apply IH. unfold anys. apply map_length.
Qed.

Lemma pf_C64_length (G : table) (b c : cid) (cls : ty) (ps out : list ty) :
  python_classes G -> flat_bases G -> issubclass G b generic_id = true -> uses G cls c ps ->
  get_args_of G b cls = Ok out -> length out = length (c_params (G b)).
Proof.
  intros HG Hf Hb Hu H. destruct (pf_C64_sound G b c cls ps out HG Hf Hb Hu H) as [Hi| ->].
  - exact (inherits_length G HG b c ps out (uses_length G cls c ps Hu) Hi).
  - unfold anys. apply map_length.
Qed.

(** Terms and solvers. *)
Section CompatProps.
  Context {V A K : Type}.

  Lemma pf_C65_accept (inst : V -> cid -> bool) (G : table) (s : tree ty) (t : tree (term V A K)) (kw : tree K) (y : tree A) :
    good_structure G s ->
    (assert_term_compatible inst G s t kw y = Ok tt <-> fits_tree inst G s t kw y).
  Proof. intros Hs. exact (assert_iff inst G s Hs t kw y). Qed.

  Lemma pf_C65_refuse (inst : V -> cid -> bool) (G : table) (s : tree ty) (t : tree (term V A K)) (kw : tree K) (y : tree A) :
    good_structure G s -> kwargs_for_tree s kw -> tree_forall evaluates t ->
    assert_term_compatible inst G s t kw y = Ok tt \/
    assert_term_compatible inst G s t kw y = Raise E_incompatible \/
    (assert_term_compatible inst G s t kw y = Raise E_assert /\ wrong_count_tree G s t).
  Proof. intros Hs Hk Ht. exact (assert_refuse inst G s Hs t kw y Hk Ht). Qed.

  Lemma pf_C65_default_kwargs (G : table) (s : tree ty) (empty : K) (kw : tree K) :
    good_structure G s -> contr_kwargs G empty s = Ok kw ->
    kwargs_for_tree s kw /\ all_leaves empty kw.
  Proof.
    intros Hs Hk. split; [exact (contr_kwargs_for G empty s Hs kw Hk)|].
    revert kw Hk. induction Hs as [cls Hg|ss Hss IH]; intros kw Hk.
    - cbn [contr_kwargs] in Hk. revert kw Hk.
      induction Hg as [args Hargs IH|cls c a b Hc Hget Ha Hb]; intros kw Hk.
      + cbn [leaf_kwargs] in Hk. rewrite Nat.eqb_refl in Hk.
        match type of Hk with rbind (?f args) _ = _ => remember f as each eqn:Heach end.
        destruct (each args) as [ks|e|] eqn:He; cbn [rbind] in Hk; try discriminate.
        injection Hk as <-. constructor. clear Hargs. revert ks He.
        induction args as [|a args IHa]; intros ks He; rewrite Heach in He.
        * injection He as <-. intros k [].
        * rewrite <- Heach in He. 
          assert (He2 : rbind (leaf_kwargs G empty a) (fun k => rbind (each args) (fun ks => Ok (k :: ks))) = Ok ks)
            by (rewrite Heach in He; rewrite Heach; exact He).
          destruct (leaf_kwargs G empty a) as [k0|e|] eqn:Ek; cbn [rbind] in He2; try discriminate.
          destruct (each args) as [ks0|e|] eqn:Er; cbn [rbind] in He2; try discriminate.
          injection He2 as <-. intros k [<-|Hin].
          -- eapply IH; [left; reflexivity|exact Ek].
          -- eapply IHa; [intros; eapply IH; [right|]; eauto|reflexivity|exact Hin].
      + destruct Hc as [->|(args & -> & Hne)]; cbn [leaf_kwargs] in Hk.
        * destruct (issubclass G c term_id); [|discriminate]. injection Hk as <-. constructor.
        * rewrite (proj2 (Nat.eqb_neq _ _) Hne) in Hk.
          destruct (issubclass G c term_id); [|discriminate]. injection Hk as <-. constructor.
    - cbn [contr_kwargs] in Hk.
      match type of Hk with rbind (?f ss) _ = _ => remember f as each eqn:Heach end.
      destruct (each ss) as [ks|e|] eqn:He; cbn [rbind] in Hk; try discriminate.
      injection Hk as <-. constructor. clear Hss. revert ks He.
      induction ss as [|a args IHa]; intros ks He.
      + rewrite Heach in He. injection He as <-. intros k [].
      + assert (He2 : rbind (contr_kwargs G empty a) (fun k => rbind (each args) (fun ks => Ok (k :: ks))) = Ok ks)
            by (rewrite Heach in He; rewrite Heach; exact He).
        destruct (contr_kwargs G empty a) as [k0|e|] eqn:Ek; cbn [rbind] in He2; try discriminate.
        destruct (each args) as [ks0|e|] eqn:Er; cbn [rbind] in He2; try discriminate.
        injection He2 as <-. intros k [<-|Hin].
        * eapply IH; [left; reflexivity|exact Ek].
        * eapply IHa; [intros; eapply IH; [right|]; eauto|reflexivity|exact Hin].
  Qed.

  Lemma pf_C65_any (inst : V -> cid -> bool) (G : table) (t : tree (term V A K)) (kw : tree K) (y : tree A) :
    term_classes G ->
    (assert_term_compatible inst G structure_any t kw y = Ok tt <->
     exists tm k, t = Leaf tm /\ kw = Leaf k /\ In term_id (c_mro (G (t_class tm))) /\
       t_vf tm y <> None /\ t_contr tm k <> None).
  Proof.
    intros HT. rewrite (assert_iff inst G _ (good_at G _ (good_any G HT)) t kw y).
    rewrite fits_tree_leaf. split.
    - intros (tm & -> & Hf). apply (fits_any inst G HT) in Hf. destruct Hf as (Hs & k & -> & H1 & H2).
      exists tm, k. repeat split; auto. apply issubclass_in. exact Hs.
    - intros (tm & k & -> & -> & Hs & H1 & H2). exists tm. split; [reflexivity|].
      apply (fits_any inst G HT). split; [apply issubclass_in; exact Hs|eauto].
  Qed.

  Lemma pf_C65_pair (inst : V -> cid -> bool) (G : table) (t : tree (term V A K)) (k : K) (y : tree A) :
    term_classes G ->
    (assert_term_compatible inst G structure_pair t (Node [Leaf k; Leaf k]) y = Ok tt <->
     exists t1 t2 y1 y2, t = Node [Leaf t1; Leaf t2] /\ y = Node [y1; y2] /\
       In term_id (c_mro (G (t_class t1))) /\ In term_id (c_mro (G (t_class t2))) /\
       t_vf t1 y1 <> None /\ t_contr t1 k <> None /\ t_vf t2 y2 <> None /\ t_contr t2 k <> None).
  Proof.
    intros HT.
    assert (Hg : good_structure G structure_pair).
    { constructor. intros s [<-|[<-|[]]]; constructor; apply (good_any G HT). }
    rewrite (assert_iff inst G _ Hg t _ y). split.
    - intros Hf. inversion Hf as [|ss ts ks ys H1 H2 H3 Hall]; subst.
      destruct ts as [|u1 [|u2 [|]]]; try discriminate. destruct ys as [|y1 [|y2 [|]]]; try discriminate.
      pose proof (Hall 0 _ _ _ _ eq_refl eq_refl eq_refl eq_refl) as F1.
      pose proof (Hall 1 _ _ _ _ eq_refl eq_refl eq_refl eq_refl) as F2.
      apply fits_tree_leaf in F1, F2. destruct F1 as (t1 & -> & F1), F2 as (t2 & -> & F2).
      apply (fits_any inst G HT) in F1, F2. destruct F1 as (S1 & k1 & E1 & V1 & C1), F2 as (S2 & k2 & E2 & V2 & C2).
      injection E1 as <-. injection E2 as <-.
      exists t1, t2, y1, y2. repeat split; auto; apply issubclass_in; assumption.
    - intros (t1 & t2 & y1 & y2 & -> & -> & S1 & S2 & V1 & C1 & V2 & C2). constructor; try reflexivity.
      intros [|[|[|i]]] s' t' k' y' Es Et Ek Ey; cbn in Es, Et, Ek, Ey; try discriminate;
        injection Es as <-; injection Et as <-; injection Ek as <-; injection Ey as <-;
        apply fits_tree_leaf; eexists; (split; [reflexivity|]); apply (fits_any inst G HT);
        (split; [apply issubclass_in; assumption|eauto]).
  Qed.

  Lemma pf_C65_imex (inst : V -> cid -> bool) (G : table) (n : nat) (t : tree (term V A K)) (k : K) (y : tree A) :
    term_classes G ->
    (assert_term_compatible inst G (structure_imex n) t (Node (repeat (Leaf k) n)) y = Ok tt <->
     exists tm, t = Leaf tm /\ In multi_id (c_mro (G (t_class tm))) /\ length (t_subs tm) = n /\
       forall u, In u (t_subs tm) ->
         In term_id (c_mro (G (t_class u))) /\ t_vf u y <> None /\ t_contr u k <> None).
  Proof.
    intros HT.
    assert (Hg : good_structure G (structure_imex n)).
    { constructor. constructor. intros a Ha. apply repeat_spec in Ha. subst a. apply (good_any G HT). }
    rewrite (assert_iff inst G _ Hg t _ y). unfold structure_imex, structure_sde, structure_srk. rewrite fits_tree_leaf.
    assert (Hrep : forall (B : Type) (x z : B) m i, nth_error (repeat x m) i = Some z -> z = x).
    { intros B x z m i Hi. apply nth_error_In in Hi. apply repeat_spec in Hi. exact Hi. }
    split.
    - intros (tm & -> & Hf). exists tm. split; [reflexivity|].
      inversion Hf as [args' tm' kws Hm Hl Hl' Hall|cls' c' tm' k' vt ct v w Hc' Hs Hgt Hv Hi Hw Hi']; subst.
      rewrite repeat_length in *. split; [apply issubclass_in; exact Hm|]. split; [exact Hl|].
      intros u Hu. destruct (In_nth_error _ _ Hu) as [i Hi].
      assert (Hlt : i < n). { rewrite <- Hl. apply nth_error_Some. congruence. }
      assert (Hn : forall (B : Type) (x : B), nth_error (repeat x n) i = Some x).
      { intros B x. destruct (nth_error (repeat x n) i) eqn:E; [f_equal; eapply Hrep; eauto|].
        apply nth_error_None in E. rewrite repeat_length in E. lia. }
      pose proof (Hall i _ u _ (Hn _ _) Hi (Hn _ _)) as F. apply (fits_any inst G HT) in F.
      destruct F as (F1 & k' & Ek & F2 & F3). injection Ek as <-.
      split; [apply issubclass_in; exact F1|auto].
    - intros (tm & -> & Hm & Hl & Hall). exists tm. split; [reflexivity|]. constructor.
      + apply issubclass_in. exact Hm.
      + rewrite repeat_length. exact Hl.
      + rewrite !repeat_length. reflexivity.
      + intros i a u k' Ea Eu Ek. apply Hrep in Ea, Ek. subst a k'.
        destruct (Hall u (nth_error_In _ _ Eu)) as (F1 & F2 & F3).
        apply (fits_any inst G HT). split; [apply issubclass_in; exact F1|eauto].
  Qed.

  Lemma pf_C65_sde (inst : V -> cid -> bool) (G : table) (real : ty) (t : tree (term V A K)) (k : K) (y : tree A) :
    term_classes G -> checkable real = true ->
    (assert_term_compatible inst G (structure_sde real) t (Node [Leaf k; Leaf k]) y = Ok tt <->
     exists tm t1 t2 w, t = Leaf tm /\ In multi_id (c_mro (G (t_class tm))) /\ t_subs tm = [t1; t2] /\
       In term_id (c_mro (G (t_class t1))) /\ In term_id (c_mro (G (t_class t2))) /\
       t_vf t1 y <> None /\ t_contr t1 k = Some w /\ instance_of inst w real /\
       t_vf t2 y <> None /\ t_contr t2 k <> None).
  Proof.
    intros HT Hr.
    assert (Hg : good_structure G (structure_sde real)).
    { constructor. constructor. intros a [<-|[<-|[]]]; [apply (good_sub G HT); auto|apply (good_any G HT)]. }
    rewrite (assert_iff inst G _ Hg t _ y). unfold structure_imex, structure_sde, structure_srk. rewrite fits_tree_leaf. split.
    - intros (tm & -> & Hf). apply fits_two in Hf. destruct Hf as (Hm & t1 & t2 & k1 & k2 & Ht & Ek & F1 & F2).
      injection Ek as <- <-. apply (fits_control inst G HT real y t1 _ Hr) in F1. apply (fits_any inst G HT) in F2.
      destruct F1 as (S1 & k1 & w & E1 & V1 & C1 & I1), F2 as (S2 & k2 & E2 & V2 & C2).
      injection E1 as <-. injection E2 as <-. exists tm, t1, t2, w.
      repeat split; auto; apply issubclass_in; assumption.
    - intros (tm & t1 & t2 & w & -> & Hm & Ht & S1 & S2 & V1 & C1 & I1 & V2 & C2). exists tm.
      split; [reflexivity|]. apply fits_two. split; [apply issubclass_in; exact Hm|].
      exists t1, t2, (Leaf k), (Leaf k). repeat split; auto.
      + apply (fits_control inst G HT real y t1 _ Hr). split; [apply issubclass_in; assumption|].
        exists k, w. auto.
      + apply (fits_any inst G HT). split; [apply issubclass_in; assumption|eauto].
  Qed.

  Lemma pf_C65_srk (inst : V -> cid -> bool) (G : table) (real : ty) (levy : cid) (t : tree (term V A K))
        (empty use_levy : K) (y : tree A) :
    term_classes G -> checkable real = true ->
    (assert_term_compatible inst G (structure_srk real levy) t (kwargs_srk empty use_levy) y = Ok tt <->
     exists tm t1 t2 w1 w2, t = Leaf tm /\ In multi_id (c_mro (G (t_class tm))) /\ t_subs tm = [t1; t2] /\
       In term_id (c_mro (G (t_class t1))) /\ In term_id (c_mro (G (t_class t2))) /\
       t_vf t1 y <> None /\ t_contr t1 empty = Some w1 /\ instance_of inst w1 real /\
       t_vf t2 y <> None /\ t_contr t2 use_levy = Some w2 /\ inst w2 levy = true).
  Proof.
    intros HT Hr.
    assert (Hg : good_structure G (structure_srk real levy)).
    { constructor. constructor. intros a [<-|[<-|[]]]; apply (good_sub G HT); auto. }
    rewrite (assert_iff inst G _ Hg t _ y). unfold structure_imex, structure_sde, structure_srk. rewrite fits_tree_leaf. split.
    - intros (tm & -> & Hf). apply fits_two in Hf. destruct Hf as (Hm & t1 & t2 & k1 & k2 & Ht & Ek & F1 & F2).
      injection Ek as <- <-. apply (fits_control inst G HT real y t1 _ Hr) in F1.
      apply (fits_control inst G HT (TClass levy) y t2 _ eq_refl) in F2.
      destruct F1 as (S1 & k1 & w1 & E1 & V1 & C1 & I1), F2 as (S2 & k2 & w2 & E2 & V2 & C2 & I2).
      injection E1 as <-. injection E2 as <-. exists tm, t1, t2, w1, w2.
      repeat split; auto; apply issubclass_in; assumption.
    - intros (tm & t1 & t2 & w1 & w2 & -> & Hm & Ht & S1 & S2 & V1 & C1 & I1 & V2 & C2 & I2). exists tm.
      split; [reflexivity|]. apply fits_two. split; [apply issubclass_in; exact Hm|].
      exists t1, t2, (Leaf empty), (Leaf use_levy). repeat split; auto.
      + apply (fits_control inst G HT real y t1 _ Hr). split; [apply issubclass_in; assumption|].
        exists empty, w1. auto.
      + apply (fits_control inst G HT (TClass levy) y t2 _ eq_refl). split; [apply issubclass_in; assumption|].
        exists use_levy, w2. auto.
  Qed.

  Lemma pf_C65_tuple_array (inst : V -> cid -> bool) (G : table) (real : ty) (tuple_of : list V -> V)
        (ts : list (tree (term V A K))) (kw : tree K) (y : A) :
    assert_term_compatible inst G (structure_sde real) (upgrade_terms inst G tuple_of kw (Node ts) (Leaf y)) kw (Leaf y) <> Ok tt.
  Proof.
    rewrite upgrade_leaf. unfold assert_term_compatible. cbn. discriminate.
  Qed.
End CompatProps.

(** Tuples of terms with a pair as [y0]. *)
Section TuplePair.
Context {V A K : Type}.
Lemma pf_C65_tuple_pair (inst : V -> cid -> bool) (G : table) (real : ty) (tuple_of : list V -> V)
      (t1 t2 : term V A K) (k : K) (y1 y2 : tree A) :
  term_classes G -> checkable real = true -> get_args_of G term_id (TClass ode_id) = Ok [TAny; real] ->
  (upgrade_terms inst G tuple_of (Node [Leaf k; Leaf k]) (Node [Leaf t1; Leaf t2]) (Node [y1; y2])
     = Leaf (multi_term tuple_of [t1; t2]) <->
   In ode_id (c_mro (G (t_class t1))) /\ In term_id (c_mro (G (t_class t2))) /\
   t_vf t1 y1 <> None /\ (exists w, t_contr t1 k = Some w /\ instance_of inst w real) /\
   t_vf t2 y2 <> None /\ t_contr t2 k <> None).
Proof.
  intros HT Hr Ho.
  assert (Hgo : good_leaf G (TClass ode_id)) by (eapply good_single; eauto).
  assert (Hg : good_structure G (Node [Leaf (TClass ode_id); Leaf (TClass term_id)])).
  { constructor. intros s [<-|[<-|[]]]; constructor; [exact Hgo|apply (good_any G HT)]. }
  pose proof (assert_iff inst G _ Hg (Node [Leaf t1; Leaf t2]) (Node [Leaf k; Leaf k]) (Node [y1; y2])) as Hiff.
  assert (Hup : upgrade_terms inst G tuple_of (Node [Leaf k; Leaf k]) (Node [Leaf t1; Leaf t2]) (Node [y1; y2])
                = Leaf (multi_term tuple_of [t1; t2]) <->
                assert_term_compatible inst G (Node [Leaf (TClass ode_id); Leaf (TClass term_id)])
                  (Node [Leaf t1; Leaf t2]) (Node [Leaf k; Leaf k]) (Node [y1; y2]) = Ok tt).
  { unfold upgrade_terms.
    destruct (assert_term_compatible inst G _ _ _ _) as [[]|e|]; cbn [map all_some fold_right];
      split; intros H; try reflexivity; discriminate H. }
  rewrite Hup, Hiff. clear Hup Hiff. split.
  - intros Hf. inversion Hf as [|ss ts ks ys H1 H2 H3 Hall]; subst.
    pose proof (Hall 0 _ _ _ _ eq_refl eq_refl eq_refl eq_refl) as F1.
    pose proof (Hall 1 _ _ _ _ eq_refl eq_refl eq_refl eq_refl) as F2.
    apply fits_tree_leaf in F1, F2. destruct F1 as (u1 & E1 & F1), F2 as (u2 & E2 & F2).
    injection E1 as <-. injection E2 as <-.
    apply (fits_any inst G HT) in F2. destruct F2 as (S2 & k2 & E2 & V2 & C2). injection E2 as <-.
    rewrite <- (check_iff inst G y1 _ Hgo) in F1.
    rewrite (check_is_single inst G (TClass ode_id) ode_id _ _ _ (or_introl eq_refl)) in F1.
    rewrite (check_single_spec inst G (TClass ode_id) ode_id TAny real t1 _ y1 (or_introl eq_refl) Ho eq_refl Hr) in F1.
    destruct F1 as (k1 & v & w & E1 & S1 & V1 & _ & C1 & I1). injection E1 as <-.
    split; [apply issubclass_in; exact S1|]. split; [apply issubclass_in; exact S2|].
    rewrite V1. split; [discriminate|]. eauto.
  - intros (S1 & S2 & V1 & (w & C1 & I1) & V2 & C2). constructor; try reflexivity.
    intros [|[|[|i]]] s' t' k' y' Es Et Ek Ey; cbn in Es, Et, Ek, Ey; try discriminate;
        injection Es as <-; injection Et as <-; injection Ek as <-; injection Ey as <-;
        apply fits_tree_leaf; eexists; (split; [reflexivity|]).
    + rewrite <- (check_iff inst G y1 _ Hgo).
      rewrite (check_is_single inst G (TClass ode_id) ode_id _ _ _ (or_introl eq_refl)).
      rewrite (check_single_spec inst G (TClass ode_id) ode_id TAny real t1 _ y1 (or_introl eq_refl) Ho eq_refl Hr).
      destruct (t_vf t1 y1) as [v|] eqn:Ev; [|congruence].
      exists k, v, w. repeat split; auto. apply issubclass_in; exact S1.
    + apply (fits_any inst G HT). split; [apply issubclass_in; assumption|eauto].
Qed.
End TuplePair.
