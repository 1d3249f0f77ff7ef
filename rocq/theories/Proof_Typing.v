(** Proofs about [get_args_of]. *)
From Coq Require Import List Arith Bool Lia.
From Verif Require Import Model_Typing Spec_Typing.
Import ListNotations.

Section TyInd.
  Variable P : ty -> Prop.
  Hypothesis H1 : forall c, P (TClass c).
  Hypothesis H2 : forall c l, Forall P l -> P (TSub c l).
  Hypothesis H3 : forall v, P (TVar v).
  Hypothesis H4 : P TAny.
  Hypothesis H5 : forall l, Forall P l -> P (TUnion l).
  Hypothesis H6 : forall t k, P t -> P (TAnnot t k).
  Hypothesis H7 : forall n, P (TOther n).
  Fixpoint ty_ind' (t : ty) : P t :=
    let fix go (l : list ty) : Forall P l :=
      match l with [] => Forall_nil _ | x :: l => Forall_cons x (ty_ind' x) (go l) end in
    match t with
    | TClass c => H1 c
    | TSub c l => H2 c l (go l)
    | TVar v => H3 v
    | TAny => H4
    | TUnion l => H5 l (go l)
    | TAnnot t k => H6 t k (ty_ind' t)
    | TOther n => H7 n
    end.
End TyInd.

Lemma ty_eqb_sub c l c' l' : ty_eqb (TSub c l) (TSub c' l') = (c =? c') && tys_eqb l l'.
Proof. reflexivity. Qed.
Lemma ty_eqb_union l l' : ty_eqb (TUnion l) (TUnion l') = tys_eqb l l'.
Proof. reflexivity. Qed.

Lemma tys_eqb_spec_aux l : Forall (fun x => forall y, ty_eqb x y = true <-> x = y) l ->
  forall l', tys_eqb l l' = true <-> l = l'.
Proof.
  induction 1 as [|x l Hx Hl IH]; intros [|y l']; cbn.
  - tauto.
  - split; discriminate.
  - split; discriminate.
  - rewrite andb_true_iff, Hx, IH. split; [intros [-> ->]; reflexivity|]. intros H. injection H as -> ->. auto.
Qed.

Lemma ty_eqb_spec x : forall y, ty_eqb x y = true <-> x = y.
Proof.
  induction x as [c|c l IH|v| |l IH|t k IH|n] using ty_ind'; intros y.
  - destruct y; cbn; try (split; discriminate). rewrite Nat.eqb_eq. split; congruence.
  - destruct y; try (cbn; split; discriminate). rewrite ty_eqb_sub, andb_true_iff, Nat.eqb_eq.
    rewrite (tys_eqb_spec_aux l IH). split; [intros [-> ->]; reflexivity|intros H; injection H as -> ->; auto].
  - destruct y; cbn; try (split; discriminate). rewrite Nat.eqb_eq. split; congruence.
  - destruct y; cbn; try (split; discriminate). tauto.
  - destruct y; try (cbn; split; discriminate). rewrite ty_eqb_union, (tys_eqb_spec_aux l IH).
    split; congruence.
  - destruct y; cbn; try (split; discriminate). rewrite andb_true_iff, IH, Nat.eqb_eq.
    split; [intros [-> ->]; reflexivity|intros H; injection H as -> ->; auto].
  - destruct y; cbn; try (split; discriminate). rewrite Nat.eqb_eq. split; congruence.
Qed.

Lemma tys_eqb_spec l l' : tys_eqb l l' = true <-> l = l'.
Proof. apply tys_eqb_spec_aux. apply Forall_forall. intros x _. apply ty_eqb_spec. Qed.

Lemma in_set_add p q acc : In q (set_add p acc) <-> q = p \/ In q acc.
Proof.
  unfold set_add. destruct (existsb (tys_eqb p) acc) eqn:H.
  - apply existsb_exists in H. destruct H as (x & Hx & He). apply tys_eqb_spec in He. subst x.
    split; [auto|]. intros [->|H]; auto.
  - rewrite in_app_iff. cbn. split; [intros [H1|[H1|[]]]; auto|intros [->|H1]; auto].
Qed.

Lemma nodup_set_add p acc : NoDup acc -> NoDup (set_add p acc).
Proof.
  intros Hn. unfold set_add. destruct (existsb (tys_eqb p) acc) eqn:H; [exact Hn|].
  apply NoDup_rev in Hn. rewrite <- (rev_involutive (acc ++ [p])). apply NoDup_rev.
  rewrite rev_app_distr. cbn. constructor; [|exact Hn]. rewrite <- in_rev. intros Hp.
  assert (existsb (tys_eqb p) acc = true); [|congruence].
  apply existsb_exists. exists p. split; [exact Hp|]. apply tys_eqb_spec. reflexivity.
Qed.

Lemma issubclass_in G c b : issubclass G c b = true <-> In b (c_mro (G c)).
Proof.
  unfold issubclass. rewrite existsb_exists. split.
  - intros (x & Hx & He). apply Nat.eqb_eq in He. subst. exact Hx.
  - intros H. exists b. split; [exact H|apply Nat.eqb_refl].
Qed.

(** Flat arguments: [fill] is substitution. *)
Lemma subst_closed ks vs x : closed x = true -> subst ks vs x = x.
Proof.
  induction x as [c|c l IH|v| |l IH|t k IH|n] using ty_ind'; cbn; intros H; try reflexivity; try discriminate.
  - f_equal. rewrite <- (map_id l) at 2. apply map_ext_in. intros a Ha.
    rewrite Forall_forall in IH. apply IH; [exact Ha|]. rewrite forallb_forall in H. auto.
  - f_equal. rewrite <- (map_id l) at 2. apply map_ext_in. intros a Ha.
    rewrite Forall_forall in IH. apply IH; [exact Ha|]. rewrite forallb_forall in H. auto.
  - f_equal. auto.
Qed.

Lemma fill_subst ks vs args :
  (forall a, In a args -> (exists v, a = TVar v) \/ closed a = true) ->
  map (fill ks vs) args = map (subst ks vs) args.
Proof.
  intros H. apply map_ext_in. intros a Ha. destruct (H a Ha) as [[v ->]|Hc]; [reflexivity|].
  rewrite (subst_closed _ _ _ Hc). destruct a; try reflexivity. discriminate.
Qed.

Lemma lookup_anys ks v : lookup ks (map (fun _ => TAny) ks) v = TAny.
Proof. induction ks as [|k ks IH]; cbn; [reflexivity|]. destruct (k =? v); auto. Qed.

Lemma subst_anys ks x : subst ks (map (fun _ => TAny) ks) x = subst [] [] x.
Proof.
  induction x as [c|c l IH|v| |l IH|t k IH|n] using ty_ind'; cbn; try reflexivity.
  - f_equal. apply map_ext_in. rewrite Forall_forall in IH. exact IH.
  - apply lookup_anys.
  - f_equal. apply map_ext_in. rewrite Forall_forall in IH. exact IH.
  - f_equal. exact IH.
Qed.

Section Hierarchy.
  Context (G : table) (HG : python_classes G).

  Lemma mro_le c : forall x, In x (c_mro (G c)) -> x <= c.
  Proof.
    assert (Hk : forall n l1 x l2, length l1 <= n -> c_mro (G c) = l1 ++ x :: l2 -> x <= c).
    { induction n as [|n IH]; intros l1 x l2 Hn He.
      - destruct l1; [|cbn in Hn; lia]. destruct (py_mro_head G HG c) as [l Hl].
        rewrite Hl in He. injection He as -> _. lia.
      - destruct l1 as [|a l1].
        + destruct (py_mro_head G HG c) as [l Hl]. rewrite Hl in He. injection He as -> _. lia.
        + destruct (py_mro_bases G HG c (a :: l1) x l2 He) as (y & z & Hy & Hz & Hb); [discriminate|].
          destruct (py_bases G HG y z Hz) as (d & Hd & Hlt). rewrite Hb in Hd. injection Hd as <-.
          destruct (in_split _ _ Hy) as (k1 & k2 & Hs). rewrite Hs in He.
          rewrite <- app_assoc in He. cbn [app] in He.
          assert (y <= c); [|lia]. apply (IH k1 y (k2 ++ x :: l2)); [|exact He].
          assert (length (a :: l1) = length (k1 ++ y :: k2)) by (rewrite Hs; reflexivity).
          rewrite app_length in H. cbn [length] in *. lia. }
    intros x Hx. destruct (in_split _ _ Hx) as (l1 & l2 & He). eapply Hk; [|exact He]. reflexivity.
  Qed.

  Lemma own_none_plain c x : own_orig_bases (G c) = None -> In x (c_bases (G c)) -> exists d, x = TClass d.
  Proof.
    intros Hn Hx. unfold own_orig_bases in Hn.
    destruct (existsb _ _) eqn:He; [discriminate|].
    destruct (py_bases G HG c x Hx) as (d & Hd & _).
    destruct x as [c'|c' args| | | | |]; cbn in Hd; try discriminate; [eauto|].
    exfalso. assert (existsb (fun x => negb (is_class x)) (c_bases (G c)) = true); [|congruence].
    apply existsb_exists. eexists. split; [exact Hx|reflexivity].
  Qed.

  (** Where [cls.__orig_bases__] is found. *)
  Lemma first_orig_split mro xs :
    first_orig_bases G mro = Some xs ->
    exists l1 x l2, mro = l1 ++ x :: l2 /\ own_orig_bases (G x) = Some xs /\
                    Forall (fun y => own_orig_bases (G y) = None) l1.
  Proof.
    induction mro as [|c mro IH]; cbn; [discriminate|].
    destruct (own_orig_bases (G c)) as [ys|] eqn:Hc.
    - intros H. injection H as <-. exists [], c, mro. cbn. auto.
    - intros H. destruct (IH H) as (l1 & x & l2 & -> & Hx & HF).
      exists (c :: l1), x, l2. cbn. auto.
  Qed.

  (** Reaching a class through bases without subscript. *)
  Lemma plain_reach b c : forall n l1 x l2,
    length l1 <= n -> c_mro (G c) = l1 ++ x :: l2 ->
    Forall (fun y => own_orig_bases (G y) = None) l1 ->
    x = c \/ (forall ps out, inherits G b x (anys G x) out -> inherits G b c ps out).
  Proof.
    induction n as [|n IH]; intros l1 x l2 Hn He HF.
    - destruct l1; [|cbn in Hn; lia]. destruct (py_mro_head G HG c) as [l Hl].
      rewrite Hl in He. injection He as -> _. auto.
    - destruct l1 as [|a l1].
      + destruct (py_mro_head G HG c) as [l Hl]. rewrite Hl in He. injection He as -> _. auto.
      + right. intros ps out Hinh.
        destruct (py_mro_bases G HG c (a :: l1) x l2 He) as (y & z & Hy & Hz & Hb); [discriminate|].
        assert (Hyn : own_orig_bases (G y) = None) by (rewrite Forall_forall in HF; auto).
        destruct (own_none_plain y z Hyn Hz) as [d ->]. cbn in Hb. injection Hb as ->.
        destruct (in_split _ _ Hy) as (k1 & k2 & Hs). rewrite Hs in He, HF.
        rewrite <- app_assoc in He. cbn [app] in He.
        assert (Hlen : length k1 <= n).
        { assert (length (a :: l1) = length (k1 ++ y :: k2)) by (rewrite Hs; reflexivity).
          rewrite app_length in H. cbn [length] in *. lia. }
        destruct (IH k1 y (k2 ++ x :: l2) Hlen He) as [->|Hr].
        { apply Forall_app in HF. tauto. }
        * eapply inh_plain; eassumption.
        * apply Hr. eapply inh_plain; eassumption.
  Qed.

  (** The scan of the bases: what it finds. *)
  Lemma scan_found rec b ks vs : forall xs acc found,
    scan_bases G rec b ks vs xs acc = Ok found ->
    NoDup acc -> NoDup found /\
    forall p, In p found <->
      In p acc \/ exists x o, In x xs /\ get_origin_no_specials x = Ok (Some o) /\ ~ special o /\
                  issubclass G o b = true /\ rec o (map (fill ks vs) (get_args x)) = Ok (Some p).
  Proof.
    induction xs as [|x xs IH]; intros acc found H Hn.
    - injection H as <-. split; [exact Hn|]. intros p. split; [auto|].
      intros [H|(x & o & [] & _)]; exact H.
    - cbn [scan_bases] in H. destruct (get_origin_no_specials x) as [origin|e|] eqn:Ho; cbn [rbind] in H; try discriminate.
      destruct origin as [o|].
      + destruct ((o =? generic_id) || (o =? protocol_id)) eqn:Hsp.
        * destruct (IH _ _ H Hn) as [Hnd Hin]. split; [exact Hnd|]. intros p. rewrite Hin. split.
          -- intros [Hp|(x' & o' & Hx' & Hrest)]; [auto|]. right. exists x', o'. cbn. tauto.
          -- intros [Hp|(x' & o' & [<-|Hx'] & Ho' & Hs' & Hrest)]; [auto| |].
             ++ exfalso. rewrite Ho in Ho'. injection Ho' as <-. apply Hs'. apply orb_true_iff in Hsp.
                rewrite !Nat.eqb_eq in Hsp. exact Hsp.
             ++ right. exists x', o'. tauto.
        * assert (Hns : ~ special o).
          { intros [->| ->]; cbn in Hsp; discriminate Hsp. }
          destruct (get_args x) as [|a args] eqn:Ha; [discriminate|].
          destruct (issubclass G o b) eqn:Hsub.
          -- destruct (rec o (map (fill ks vs) (a :: args))) as [r|e|] eqn:Hr; cbn [rbind] in H; try discriminate.
             assert (Hn' : NoDup (match r with Some p => set_add p acc | None => acc end)).
             { destruct r; [apply nodup_set_add|]; exact Hn. }
             destruct (IH _ _ H Hn') as [Hnd Hin]. split; [exact Hnd|]. intros p. rewrite Hin. split.
             ++ intros [Hp|(x' & o' & Hx' & Hrest)].
                ** destruct r as [q|]; [|auto]. apply in_set_add in Hp. destruct Hp as [->|Hp]; [|auto].
                   right. exists x, o. rewrite Ha. cbn [In]. auto.
                ** right. exists x', o'. cbn. tauto.
             ++ intros [Hp|(x' & o' & [<-|Hx'] & Ho' & Hs' & Hsb' & Hr')].
                ** left. destruct r; [apply in_set_add|]; auto.
                ** left. rewrite Ho in Ho'. injection Ho' as <-. rewrite Ha in Hr'.
                   rewrite Hr in Hr'. injection Hr' as ->. apply in_set_add. auto.
                ** right. exists x', o'. auto.
          -- destruct (IH _ _ H Hn) as [Hnd Hin]. split; [exact Hnd|]. intros p. rewrite Hin. split.
             ++ intros [Hp|(x' & o' & Hx' & Hrest)]; [auto|]. right. exists x', o'. cbn. tauto.
             ++ intros [Hp|(x' & o' & [<-|Hx'] & Ho' & Hs' & Hsb' & Hr')]; [auto| |].
                ** rewrite Ho in Ho'. injection Ho' as <-. congruence.
                ** right. exists x', o'. auto.
      + destruct (is_class x) eqn:Hc; [|discriminate].
        destruct (IH _ _ H Hn) as [Hnd Hin]. split; [exact Hnd|]. intros p. rewrite Hin. split.
        * intros [Hp|(x' & o' & Hx' & Hrest)]; [auto|]. right. exists x', o'. cbn. tauto.
        * intros [Hp|(x' & o' & [<-|Hx'] & Ho' & Hrest)]; [auto| |].
          -- rewrite Ho in Ho'. discriminate.
          -- right. exists x', o'. tauto.
  Qed.

  (** The scan of bases written in a class statement: it fails only if a recursive call does. *)
  Lemma scan_result rec b ks vs : forall xs acc,
    (forall x, In x xs -> exists d, base_class x = Some d) ->
    (forall d args, In (TSub d args) xs -> ~ special d -> args <> []) ->
    (exists found, scan_bases G rec b ks vs xs acc = Ok found) \/
    (exists d args, In (TSub d args) xs /\ ~ special d /\ issubclass G d b = true /\
       (forall r, rec d (map (fill ks vs) args) <> Ok r) /\
       scan_bases G rec b ks vs xs acc
       = match rec d (map (fill ks vs) args) with Raise e => Raise e | _ => OutOfFuel end).
  Proof.
    induction xs as [|x xs IH]; intros acc Hb Ha; [left; eexists; reflexivity|].
    assert (Hb' : forall x, In x xs -> exists d, base_class x = Some d) by (intros; apply Hb; right; auto).
    assert (Ha' : forall d args, In (TSub d args) xs -> ~ special d -> args <> [])
      by (intros; eapply Ha; [right|]; eauto).
    assert (Hkeep : forall acc', (exists found, scan_bases G rec b ks vs xs acc' = Ok found) \/
      (exists d args, In (TSub d args) (x :: xs) /\ ~ special d /\ issubclass G d b = true /\
         (forall r, rec d (map (fill ks vs) args) <> Ok r) /\
         scan_bases G rec b ks vs xs acc'
         = match rec d (map (fill ks vs) args) with Raise e => Raise e | _ => OutOfFuel end)).
    { intros acc'. destruct (IH acc' Hb' Ha') as [H|(d & args & Hin & Hrest)]; [auto|].
      right. exists d, args. split; [right; exact Hin|exact Hrest]. }
    destruct (Hb x (or_introl eq_refl)) as (d & Hd).
    destruct x as [c'|c' args| | | | |]; cbn in Hd; try discriminate; injection Hd as ->.
    - cbn [scan_bases get_origin_no_specials rbind is_class]. apply Hkeep.
    - cbn [scan_bases get_origin_no_specials rbind get_args].
      destruct ((d =? generic_id) || (d =? protocol_id)) eqn:Hsp; [apply Hkeep|].
      assert (Hns : ~ special d) by (intros [->| ->]; cbn in Hsp; discriminate Hsp).
      destruct args as [|a args]; [exfalso; eapply Ha; [left; reflexivity|exact Hns|reflexivity]|].
      destruct (issubclass G d b) eqn:Hsub; [|apply Hkeep].
      destruct (rec d (map (fill ks vs) (a :: args))) as [r|e|] eqn:Hr.
      + cbn [rbind]. apply Hkeep.
      + right. exists d, (a :: args). cbn [rbind]. rewrite Hr. split; [left; reflexivity|].
        repeat split; auto. discriminate.
      + right. exists d, (a :: args). cbn [rbind]. rewrite Hr. split; [left; reflexivity|].
        repeat split; auto. discriminate.
  Qed.

  (** A class with [__orig_bases__] is where they were found. *)
  Lemma orig_bases_at c xs :
    orig_bases G c = Some xs ->
    exists x, x <= c /\ c_bases (G x) = xs /\ own_orig_bases (G x) = Some xs /\
      (x = c \/ (c_params (G c) = [] /\ own_orig_bases (G c) = None /\ forall b ps out,
                 inherits G b x (anys G x) out -> inherits G b c ps out)).
  Proof.
    intros H. unfold orig_bases in H. destruct (first_orig_split _ _ H) as (l1 & x & l2 & He & Hx & HF).
    exists x. split.
    { apply mro_le. rewrite He. apply in_or_app. right. left. reflexivity. }
    assert (Hxs : c_bases (G x) = xs).
    { unfold own_orig_bases in Hx. destruct (existsb _ _); [|discriminate]. injection Hx as <-. reflexivity. }
    split; [exact Hxs|]. split; [exact Hx|].
    destruct (Nat.eq_dec x c) as [->|Hne]; [auto|]. right.
    assert (Hc : own_orig_bases (G c) = None).
    { destruct (py_mro_head G HG c) as [l Hl]. destruct l1 as [|a l1].
      - cbn in He. rewrite Hl in He. injection He as -> _. contradiction.
      - rewrite Hl in He. injection He as <- _. inversion HF. assumption. }
    split; [apply (py_params G HG c Hc)|]. split; [exact Hc|]. intros b ps out Hinh.
    destruct (plain_reach b c (length l1) l1 x l2 (le_n _) He HF) as [->|Hr]; [contradiction|].
    apply Hr. exact Hinh.
  Qed.

  Lemma orig_base_in xs x : forall c, c_bases (G c) = xs -> In x xs -> In x (c_bases (G c)).
  Proof. intros c <- H. exact H. Qed.

  Context (Hflat : flat_bases G).

  (** A base found by the scan gives a way to inherit. *)
  Lemma scan_inherits b c ps xs x o out :
    orig_bases G c = Some xs -> In x xs -> get_origin_no_specials x = Ok (Some o) -> ~ special o ->
    inherits G b o (map (fill (c_params (G c)) ps) (get_args x)) out ->
    inherits G b c ps out.
  Proof.
    intros Hob Hin Ho Hns Hinh.
    destruct (orig_bases_at c xs Hob) as (y & Hle & Hy & Hown & Hcase).
    rewrite <- Hy in Hin. destruct (py_bases G HG y x Hin) as (d & Hd & _).
    destruct x as [c'|c' args| | | | |]; cbn in Hd, Ho; try discriminate.
    injection Ho as <-. cbn [get_args] in Hinh.
    rewrite (fill_subst _ _ _ (Hflat y c' args Hin Hns)) in Hinh.
    destruct Hcase as [->|(Hpar & _ & Hreach)].
    - eapply inh_sub; eassumption.
    - apply Hreach. eapply inh_sub; [exact Hin|exact Hns|]. rewrite Hpar in Hinh.
      assert (He : map (subst (c_params (G y)) (anys G y)) args = map (subst [] ps) args).
      { apply map_ext. intros a. unfold anys. rewrite subst_anys.
        assert (Hnil : forall z, subst [] ps z = subst [] [] z).
        { intros z. induction z as [k|k l IH|v| |l IH|t k IH|n] using ty_ind'; cbn; try reflexivity.
          - f_equal. apply map_ext_in. rewrite Forall_forall in IH. exact IH.
          - f_equal. apply map_ext_in. rewrite Forall_forall in IH. exact IH.
          - f_equal. exact IH. }
        symmetry. apply Hnil. }
      rewrite He. exact Hinh.
  Qed.

  (** Soundness of the recursion. *)
  Lemma impl_sound b : forall fuel c ps out,
    get_args_of_impl fuel G b c ps = Ok (Some out) -> inherits G b c ps out.
  Proof.
    induction fuel as [|fuel IH]; intros c ps out H; [discriminate|]. cbn [get_args_of_impl] in H.
    destruct (Nat.eqb_spec c b) as [->|Hne]; [injection H as ->; constructor|].
    destruct (negb _); [discriminate|].
    destruct (orig_bases G c) as [xs|] eqn:Hob; [|discriminate].
    destruct (scan_bases _ _ _ _ _ _ _) as [found|e|] eqn:Hsc; cbn [rbind] in H; try discriminate.
    destruct (scan_found _ _ _ _ _ _ _ Hsc (NoDup_nil _)) as [_ Hin].
    destruct found as [|p [|q found]]; try discriminate.
    - destruct (issubclass G c b); discriminate.
    - injection H as ->. destruct (proj1 (Hin out)) as [[]|(x & o & Hx & Ho & Hns & Hsub & Hr)]; [left; reflexivity|].
      eapply scan_inherits; eauto.
  Qed.

  (** If there is an error about multiple ways, then there are. *)
  Lemma impl_multiple b : forall fuel c ps,
    get_args_of_impl fuel G b c ps = Raise E_multiple ->
    exists out1 out2, out1 <> out2 /\ inherits G b c ps out1 /\ inherits G b c ps out2.
  Proof.
    induction fuel as [|fuel IH]; intros c ps H; [discriminate|]. cbn [get_args_of_impl] in H.
    destruct (Nat.eqb_spec c b) as [->|Hne]; [discriminate|].
    destruct (negb _); [discriminate|].
    destruct (orig_bases G c) as [xs|] eqn:Hob; [|discriminate].
    destruct (orig_bases_at c xs Hob) as (y & _ & Hy & _).
    assert (Hb : forall x, In x xs -> exists d, base_class x = Some d).
    { intros x Hx. rewrite <- Hy in Hx. destruct (py_bases G HG y x Hx) as (d & Hd & _). eauto. }
    assert (Ha : forall d args, In (TSub d args) xs -> ~ special d -> args <> []).
    { intros d args Hx Hns. rewrite <- Hy in Hx. apply (py_args G HG y d args Hx Hns). }
    destruct (scan_result (get_args_of_impl fuel G b) b (c_params (G c)) ps xs [] Hb Ha)
      as [[found Hsc]|(d & args & Hin & Hns & Hsub & Hnok & Hsc)]; rewrite Hsc in H; cbn [rbind] in H.
    - destruct (scan_found _ _ _ _ _ _ _ Hsc (NoDup_nil _)) as [Hnd Hin].
      destruct found as [|p [|q found]]; try discriminate.
      { destruct (issubclass G c b); discriminate. }
      exists p, q. split.
      { intros ->. inversion Hnd as [|? ? Hni]. apply Hni. left. reflexivity. }
      assert (Hw : forall r, In r (p :: q :: found) -> inherits G b c ps r).
      { intros r Hr. destruct (proj1 (Hin r) Hr) as [[]|(x & o & Hx & Ho & Hns & Hsub & Hrec)].
        eapply scan_inherits; eauto. eapply impl_sound. exact Hrec. }
      split; apply Hw; cbn; auto.
    - destruct (get_args_of_impl fuel G b d (map (fill (c_params (G c)) ps) args)) as [r|e|] eqn:Hr; try discriminate.
      cbn [rbind] in H. injection H as ->. destruct (IH _ _ Hr) as (o1 & o2 & Hne' & H1 & H2).
      exists o1, o2. split; [exact Hne'|].
      split; (eapply (scan_inherits b c ps xs (TSub d args)); [exact Hob|exact Hin|reflexivity|exact Hns|assumption]).
  Qed.

  (** Number of arguments along the way. *)
  Lemma impl_total b : forall fuel c ps,
    own_orig_bases (G b) <> None -> c < fuel -> length ps = length (c_params (G c)) ->
    issubclass G c b = true ->
    (exists r, get_args_of_impl fuel G b c ps = Ok r) \/ get_args_of_impl fuel G b c ps = Raise E_multiple.
  Proof.
    induction fuel as [|fuel IH]; intros c ps Hb Hf Hlen Hsub; [lia|]. cbn [get_args_of_impl].
    destruct (Nat.eqb_spec c b) as [->|Hne]; [eauto|].
    rewrite Hlen, Nat.eqb_refl. cbn [negb].
    destruct (orig_bases G c) as [xs|] eqn:Hob.
    2:{ exfalso. unfold orig_bases in Hob. apply issubclass_in in Hsub.
        induction (c_mro (G c)) as [|a l IHl]; [contradiction|]. cbn in Hob.
        destruct (own_orig_bases (G a)) eqn:Ha; [discriminate|].
        destruct Hsub as [->|Hin]; [contradiction|auto]. }
    destruct (orig_bases_at c xs Hob) as (y & Hle & Hy & _).
    assert (Hbs : forall x, In x xs -> exists d, base_class x = Some d).
    { intros x Hx. rewrite <- Hy in Hx. destruct (py_bases G HG y x Hx) as (d & Hd & _). eauto. }
    assert (Ha : forall d args, In (TSub d args) xs -> ~ special d -> args <> []).
    { intros d args Hx Hns. rewrite <- Hy in Hx. apply (py_args G HG y d args Hx Hns). }
    destruct (scan_result (get_args_of_impl fuel G b) b (c_params (G c)) ps xs [] Hbs Ha)
      as [[found Hsc]|(d & args & Hin & Hns & Hsb & Hnok & Hsc)]; rewrite Hsc; cbn [rbind].
    - rewrite Hsub. destruct found as [|p [|q found]]; eauto.
    - right. pose proof Hin as Hin'. rewrite <- Hy in Hin'.
      destruct (py_bases G HG y _ Hin') as (d' & Hd' & Hlt). cbn in Hd'. injection Hd' as <-.
      destruct (py_args G HG y d args Hin' Hns) as [_ Hl].
      destruct (IH d (map (fill (c_params (G c)) ps) args)) as [[r Hr]|Hr]; auto.
      + lia.
      + rewrite map_length. exact Hl.
      + exfalso. exact (Hnok r Hr).
      + rewrite Hr. reflexivity.
  Qed.

  (** Every way with subscripts is found. *)
  Lemma impl_complete b : forall fuel c ps r out,
    get_args_of_impl fuel G b c ps = Ok r -> inherits_sub G b c ps out -> r = Some out.
  Proof.
    induction fuel as [|fuel IH]; intros c ps r out H Hinh; [discriminate|]. cbn [get_args_of_impl] in H.
    destruct Hinh as [ps|c ps d args out Hne Hin Hns Hrest].
    { rewrite Nat.eqb_refl in H. injection H as <-. reflexivity. }
    rewrite (proj2 (Nat.eqb_neq _ _) Hne) in H.
    destruct (negb _); [discriminate|].
    assert (Hob : orig_bases G c = Some (c_bases (G c))).
    { unfold orig_bases. destruct (py_mro_head G HG c) as [l Hl]. rewrite Hl. cbn.
      unfold own_orig_bases. replace (existsb _ _) with true; [reflexivity|].
      symmetry. apply existsb_exists. exists (TSub d args). auto. }
    rewrite Hob in H.
    destruct (scan_bases _ _ _ _ _ _ _) as [found|e|] eqn:Hsc; cbn [rbind] in H; try discriminate.
    destruct (scan_found _ _ _ _ _ _ _ Hsc (NoDup_nil _)) as [_ Hfound].
    assert (Hsub : issubclass G d b = true).
    { apply issubclass_in. clear - HG Hrest. induction Hrest.
      - destruct (py_mro_head G HG b) as [l ->]. left. reflexivity.
      - eapply (py_mro_sub G HG); eauto. reflexivity. }
    rewrite <- (fill_subst _ _ _ (Hflat c d args Hin Hns)) in Hrest.
    assert (Hsome : exists r', get_args_of_impl fuel G b d (map (fill (c_params (G c)) ps) args) = Ok r').
    { clear - Hsc Hin Hns Hsub HG. revert Hsc. generalize (@nil (list ty)) as acc.
      assert (Hbs : forall x, In x (c_bases (G c)) -> exists d, base_class x = Some d).
      { intros x Hx. destruct (py_bases G HG c x Hx) as (d' & Hd & _). eauto. }
      assert (Ha : forall d args, In (TSub d args) (c_bases (G c)) -> ~ special d -> args <> []).
      { intros d' args' Hx Hns'. apply (py_args G HG c d' args' Hx Hns'). }
      revert Hin Hbs Ha. generalize (c_bases (G c)) as xs.
      induction xs as [|x xs IHx]; intros Hin Hbs Ha acc Hsc; [contradiction|].
      cbn [scan_bases] in Hsc. destruct Hin as [->|Hin].
      - cbn [get_origin_no_specials rbind get_args] in Hsc.
        replace ((d =? generic_id) || (d =? protocol_id)) with false in Hsc.
        2:{ symmetry. apply orb_false_iff. rewrite !Nat.eqb_neq. unfold special in Hns. tauto. }
        destruct args as [|a args]; [discriminate|]. rewrite Hsub in Hsc.
        destruct (get_args_of_impl fuel G b d _) as [r'|e|]; cbn [rbind] in Hsc; try discriminate. eauto.
      - destruct (get_origin_no_specials x) as [[o|]|e|]; cbn [rbind] in Hsc; try discriminate.
        + assert (Hrec : exists acc', scan_bases G (get_args_of_impl fuel G b) b (c_params (G c)) ps xs acc' = Ok found).
          { destruct ((o =? generic_id) || (o =? protocol_id)); [eauto|].
            destruct (get_args x) as [|a args']; [discriminate|].
            destruct (issubclass G o b); [|eauto].
            destruct (get_args_of_impl fuel G b o _) as [r'|e|]; cbn [rbind] in Hsc; try discriminate. eauto. }
          destruct Hrec as [acc' Hrec]. eapply IHx; eauto.
          * intros z Hz. apply Hbs. right. exact Hz.
          * intros d' args' Hz. apply Ha. right. exact Hz.
        + destruct (is_class x); [|discriminate]. eapply IHx; eauto.
          * intros z Hz. apply Hbs. right. exact Hz.
          * intros d' args' Hz. apply Ha. right. exact Hz. }
    destruct Hsome as [r' Hr'].
    pose proof (IH _ _ _ _ Hr' Hrest) as ->.
    assert (Hp : In out found).
    { apply Hfound. right. exists (TSub d args), d. cbn [get_origin_no_specials get_args]. auto. }
    destruct found as [|p [|q found]]; try discriminate; [contradiction|].
    injection H as <-. destruct Hp as [->|[]]. reflexivity.
  Qed.
End Hierarchy.
