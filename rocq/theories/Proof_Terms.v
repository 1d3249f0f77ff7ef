(** Proofs about terms. *)
From Coq Require Import ZArith Reals List Arith Lia Lra FunctionalExtensionality.
From Verif Require Import Model_Result Model_RK Model_Terms Spec_RK Spec_Terms Proof_RKProp.
Import ListNotations.
Open Scope R_scope.

Lemma sum_n_ext n f g : (forall i, (i < n)%nat -> f i = g i) -> sum_n n f = sum_n n g.
Proof. induction n; intros H; cbn; [reflexivity|]. rewrite IHn, H; auto. Qed.
Lemma sum_n_shift n f : sum_n (S n) f = f 0%nat + sum_n n (fun i => f (S i)).
Proof. induction n; cbn; [ring|]. cbn in IHn. rewrite IHn. ring. Qed.
Lemma sum_n_plus n f g : sum_n n (fun i => f i + g i) = sum_n n f + sum_n n g.
Proof. induction n; cbn; [ring|]. rewrite IHn. ring. Qed.
Lemma sum_n_mult n a f : sum_n n (fun i => a * f i) = a * sum_n n f.
Proof. induction n; cbn; [ring|]. rewrite IHn. ring. Qed.
Lemma sum_n_swap n m (f : nat -> nat -> R) : sum_n n (fun i => sum_n m (f i)) = sum_n m (fun j => sum_n n (fun i => f i j)).
Proof. induction n; cbn; [induction m; cbn; [ring|rewrite <- IHm; ring]|]. rewrite IHn, <- sum_n_plus. apply sum_n_ext. auto. Qed.
Lemma sum_n_0 n : sum_n n (fun _ => 0) = 0.
Proof. induction n; cbn; [ring|]. rewrite IHn. ring. Qed.

Lemma Forall2_len {A B} (P : A -> B -> Prop) l l' : Forall2 P l l' -> length l = length l'.
Proof. induction 1; cbn; auto. Qed.

Section Terms.
  Context {I : Type}.
  Notation Y := (I -> R).

  Lemma fold_vadd (l : list Y) (u : Y) x : fold_left vadd l u x = u x + sum_n (length l) (fun m => nth m l vzero x).
  Proof.
    revert u. induction l as [|v l IH]; intros u; [cbn; ring|].
    cbn [fold_left length]. rewrite IH, sum_n_shift. cbn. unfold vadd. ring.
  Qed.
  Lemma sum_terms_eq (l : list Y) x : sum_terms l x = sum_n (length l) (fun m => nth m l vzero x).
  Proof. destruct l as [|v l]; [reflexivity|]. cbn [sum_terms length]. rewrite fold_vadd, sum_n_shift. reflexivity. Qed.

  Section Multi.
    Context {J C : Type}.
    Notation term := (term I J C).

    Lemma map2_length {A B D} (f : A -> B -> D) l m : length (map2 f l m) = Nat.min (length l) (length m).
    Proof. revert m; induction l; intros [|]; cbn; auto. Qed.
    Lemma map2_nth {A B D} (f : A -> B -> D) d l m i :
      nth i (map2 f l m) d = match nth_error l i, nth_error m i with Some a, Some b => f a b | _, _ => d end.
    Proof.
      revert m i; induction l as [|a l IH]; intros [|b m] [|i]; cbn; try reflexivity.
      - destruct (nth_error l i); reflexivity.
      - apply IH.
    Qed.
    Lemma nth_error_combine_seq (l : list term) s i :
      nth_error (combine (seq s (length l)) l) i = option_map (fun t => ((s + i)%nat, t)) (nth_error l i).
    Proof.
      revert s i; induction l; intros s [|i]; cbn; auto; [rewrite Nat.add_0_r; reflexivity|].
      rewrite IHl. replace (S s + i)%nat with (s + S i)%nat by lia. reflexivity.
    Qed.
    Lemma combine_seq_length (l : list term) s : length (combine (seq s (length l)) l) = length l.
    Proof. rewrite combine_length, seq_length. lia. Qed.

    Lemma multi_prod_eq (terms : list term) f cs x :
      multi_prod terms f cs x = sum_n (Nat.min (length terms) (length cs)) (fun m =>
        match nth_error terms m, nth_error cs m with
        | Some trm, Some c => t_prod trm (fun j => f (m, j)) c x | _, _ => 0 end).
    Proof.
      unfold multi_prod. rewrite sum_terms_eq, map2_length, combine_seq_length.
      apply sum_n_ext. intros i Hi. rewrite map2_nth, nth_error_combine_seq.
      destruct (nth_error terms i); [|reflexivity]. cbn. destruct (nth_error cs i); reflexivity.
    Qed.
    Lemma multi_vf_prod_eq (terms : list term) t y cs x :
      t_vf_prod (multi_term terms) t y cs x = sum_n (Nat.min (length terms) (length cs)) (fun m =>
        match nth_error terms m, nth_error cs m with
        | Some trm, Some c => t_vf_prod trm t y c x | _, _ => 0 end).
    Proof.
      cbn. rewrite sum_terms_eq, map2_length.
      apply sum_n_ext. intros i Hi. rewrite map2_nth.
      destruct (nth_error terms i); [|reflexivity]. destruct (nth_error cs i); reflexivity.
    Qed.

    Lemma multi_vf_at (terms : list term) m trm t y :
      nth_error terms m = Some trm -> (fun j => t_vf (multi_term terms) t y (m, j)) = t_vf trm t y.
    Proof. intros H. extensionality j. cbn. unfold multi_vf. cbn. rewrite H. reflexivity. Qed.

    Lemma multi_consistent (terms : list term) :
      (forall trm, In trm terms -> consistent_term trm) -> consistent_term (multi_term terms).
    Proof.
      intros CS t y cs x. rewrite multi_vf_prod_eq. cbn [multi_term t_prod]. rewrite multi_prod_eq.
      apply sum_n_ext. intros i _. destruct (nth_error terms i) as [trm|] eqn:E; [|reflexivity].
      destruct (nth_error cs i); [|reflexivity]. rewrite (multi_vf_at terms i trm t y E). apply CS. eapply nth_error_In; eauto.
    Qed.
    Lemma multi_linear (terms : list term) :
      (forall trm, In trm terms -> linear_term trm) -> linear_term (multi_term terms).
    Proof.
      intros LI a b f g cs x. cbn [multi_term t_prod]. rewrite !multi_prod_eq, <- !sum_n_mult, <- sum_n_plus.
      apply sum_n_ext. intros i _. destruct (nth_error terms i) as [trm|] eqn:E; [|ring].
      destruct (nth_error cs i); [|ring]. apply LI. eapply nth_error_In; eauto.
    Qed.

    (** C47: [MultiTerm] *)
    Lemma pf_C47_multi_term (terms : list term) (controls : list C) t y x :
      length controls = length terms -> (forall trm, In trm terms -> consistent_term trm) ->
      t_vf_prod (multi_term terms) t y controls x = sum_n (length terms) (fun m => contribution terms controls t y m x) /\
      t_prod (multi_term terms) (t_vf (multi_term terms) t y) controls x
      = sum_n (length terms) (fun m => contribution terms controls t y m x).
    Proof.
      intros H CS. rewrite <- (multi_consistent terms CS t y controls x), multi_vf_prod_eq, H, Nat.min_id.
      assert (E : forall P : Prop, P -> P /\ P) by auto. apply E. apply sum_n_ext. intros i _. unfold contribution.
      destruct (nth_error terms i) as [trm|] eqn:E'; [|reflexivity]. destruct (nth_error controls i); [|reflexivity].
      apply CS. eapply nth_error_In; eauto.
    Qed.
    (** C47: the controls of a [MultiTerm] are those of its terms. *)
    Lemma pf_C47_multi_contr (terms : list term) t0 t1 :
      length (t_contr (multi_term terms) t0 t1) = length terms /\
      forall m, nth_error (t_contr (multi_term terms) t0 t1) m
                = match nth_error terms m with Some trm => Some (t_contr trm t0 t1) | None => None end.
    Proof.
      cbn. split; [apply map_length|]. intros m. rewrite nth_error_map. destruct (nth_error terms m); reflexivity.
    Qed.
    Lemma multi_additive (terms : list term) :
      (forall trm, In trm terms -> additive_term trm) -> additive_term (multi_term terms).
    Proof.
      intros AD f t0 t1 t2 x. cbn [multi_term t_prod t_contr]. rewrite !multi_prod_eq, !map_length, <- sum_n_plus.
      apply sum_n_ext. intros i _. rewrite !nth_error_map.
      destruct (nth_error terms i) as [trm|] eqn:E; [|cbn; ring]. cbn. apply AD. eapply nth_error_In; eauto.
    Qed.
  End Multi.

  (** C47: bilinearity *)
  Lemma pf_C47_ode_term (f : R -> Y -> Y) :
    consistent_term (ode_term f) /\ linear_term (ode_term f) /\
    linear_control Rplus Rmult (ode_term f) /\ additive_term (ode_term f) /\
    (forall t y t0 t1 x, t_vf_prod (ode_term f) t y (t_contr (ode_term f) t0 t1) x = (t1 - t0) * f t y x).
  Proof.
    split; [intros t y c x; reflexivity|]. split; [intros a b u v c x; cbn; ring|].
    split; [intros a b u c c' x; cbn; ring|]. split; [intros u t0 t1 t2 x; cbn; ring|]. reflexivity.
  Qed.

  Lemma contract_eq {K} (ks : list K) vf (c : K -> R) (x : I) d :
    contract ks vf c x = sum_n (length ks) (fun m => vf (x, nth m ks d) * c (nth m ks d)).
  Proof.
    unfold contract. induction ks as [|k ks IH]; [reflexivity|]. cbn [fold_right length]. rewrite IH, sum_n_shift. reflexivity.
  Qed.
  Lemma contract_bilinear {K} (ks : list K) a b f g (c : K -> R) (x : I) :
    contract ks (fun j => a * f j + b * g j) c x = a * contract ks f c x + b * contract ks g c x.
  Proof. unfold contract. induction ks; cbn; [ring|]. rewrite IHks. ring. Qed.
  Lemma contract_control {K} (ks : list K) a b f (c c' : K -> R) (x : I) :
    contract ks f (fun j => a * c j + b * c' j) x = a * contract ks f c x + b * contract ks f c' x.
  Proof. unfold contract. induction ks; cbn; [ring|]. rewrite IHks. ring. Qed.

  Lemma pf_C47_control_term (K : Type) (k0 : K) (ks : list K) (f : R -> Y -> (I * K -> R)) (X : R -> K -> R) :
    let trm := control_term ks f (increments X) in
    consistent_term trm /\ linear_term trm /\
    linear_control (fun u v k => u k + v k) (fun a u k => a * u k) trm /\ additive_term trm /\
    (forall t y t0 t1 x, t_vf_prod trm t y (t_contr trm t0 t1) x
       = sum_n (length ks) (fun m => f t y (x, nth m ks k0) * (X t1 (nth m ks k0) - X t0 (nth m ks k0)))).
  Proof.
    intros trm. split; [intros t y c x; reflexivity|]. split; [intros a b u v c x; apply contract_bilinear|].
    split; [intros a b u c c' x; apply contract_control|]. split.
    - intros u t0 t1 t2 x. cbn. rewrite !(contract_eq ks _ _ _ k0), <- sum_n_plus. apply sum_n_ext. intros i _.
      unfold increments. ring.
    - intros t y t0 t1 x. cbn. rewrite (contract_eq ks _ _ _ k0). reflexivity.
  Qed.

  Lemma pf_C47_multi_bilinear (J C : Type) (terms : list (term I J C)) :
    ((forall trm, In trm terms -> consistent_term trm) -> consistent_term (multi_term terms)) /\
    ((forall trm, In trm terms -> linear_term trm) -> linear_term (multi_term terms)) /\
    ((forall trm, In trm terms -> additive_term trm) -> additive_term (multi_term terms)).
  Proof. split; [apply multi_consistent|]. split; [apply multi_linear|apply multi_additive]. Qed.

  Lemma pf_C47_mixed_terms (J C J' C' : Type) (u : term I J C) (v : term I J' C') :
    consistent_term u -> linear_term u -> consistent_term v -> linear_term v ->
    let trm := multi_term [left_term (J' := J') (C' := C') u; right_term (J := J) (C := C) v] in
    consistent_term trm /\ linear_term trm /\
    forall t y t0 t1 x,
      t_vf_prod trm t y (t_contr trm t0 t1) x
      = t_prod u (t_vf u t y) (t_contr u t0 t1) x + t_prod v (t_vf v t y) (t_contr v t0 t1) x.
  Proof.
    intros CU LU CV LV trm. split; [|split].
    - apply multi_consistent. intros w [<-|[<-|[]]] t y [c|c] x; cbn; auto.
    - apply multi_linear. intros w [<-|[<-|[]]] a b f g [c|c] x; cbn; try apply LU; try apply LV; unfold vzero; ring.
    - intros t y t0 t1 x. cbn. unfold vadd. rewrite CU, CV. reflexivity.
  Qed.

  (** C47: [WrapTerm] *)
  Lemma pf_C47_wrap_twice (J C : Type) (scale : R -> C -> C) (direction : Z) (trm : term I J C) :
    direction = 1%Z \/ direction = (-1)%Z ->
    (forall c, scale 1 c = c) -> (forall a b c, scale a (scale b c) = scale (a * b) c) ->
    same_term (wrap_term scale direction (wrap_term scale direction trm)) trm.
  Proof.
    intros D S1 S2. assert (DD : IZR direction * IZR direction = 1) by (destruct D as [-> | ->]; cbn; ring).
    split; [|split; [|split]]; cbn.
    - intros t y j. replace (t * IZR direction * IZR direction) with t; [reflexivity|].
      rewrite Rmult_assoc, DD. ring.
    - intros t0 t1. rewrite S2, DD, S1. destruct D as [-> | ->]; cbn; rewrite ?Ropp_involutive; reflexivity.
    - reflexivity.
    - intros t y c x. replace (t * IZR direction * IZR direction) with t; [reflexivity|].
      rewrite Rmult_assoc, DD. ring.
  Qed.

  Lemma pf_C47_wrap_reflects (K : Type) (ks : list K) (f : R -> Y -> (I * K -> R)) (X : R -> K -> R) :
    same_term (wrap_term (fun a u k => a * u k) (-1) (control_term ks f (increments X)))
      (control_term ks (fun s => f (- s)) (increments (fun s => X (- s)))) /\
    same_term (wrap_term (fun a u k => a * u k) 1 (control_term ks f (increments X)))
      (control_term ks f (increments X)).
  Proof.
    assert (E : forall t, t * -1 = - t) by (intros; ring). assert (E' : forall t, t * 1 = t) by (intros; ring).
    split; (split; [|split; [|split]]); cbn; intros; rewrite ?E, ?E'; try reflexivity;
      extensionality k; unfold increments; ring.
  Qed.
  Lemma pf_C47_wrap_ode (f : R -> Y -> Y) t y t0 t1 x :
    let u := wrap_term Rmult (-1) (ode_term f) in
    let v := ode_term (fun s y x => - f (- s) y x) in
    t_vf_prod u t y (t_contr u t0 t1) x = t_vf_prod v t y (t_contr v t0 t1) x.
  Proof. cbn. replace (t * -1) with (- t) by ring. ring. Qed.

  (** Terms with the same effect on a step give the same step. *)
  Definition same_effect {J C J' C'} (s : nat) (t0 t1 : R) (tab : tableau) (u : term I J C) (v : term I J' C') : Prop :=
    forall i, (i < s)%nat -> let t := t0 + coef_c tab i * (t1 - t0) in
    forall y x, t_prod u (t_vf u t y) (t_contr u t0 t1) x = t_prod v (t_vf v t y) (t_contr v t0 t1) x.
  Notation matching s t0 t1 :=
    (fun p q => fst p = fst q /\ same_effect s t0 t1 (fst p) (snd p) (snd q)).

  Lemma matching_tabs {J C J' C'} s t0 t1 (ps : list (tableau * term I J C)) (ps' : list (tableau * term I J' C')) (F : nat -> tableau -> R) q :
    Forall2 (matching s t0 t1) ps ps' ->
    match nth_error ps' q with Some (tab, _) => F q tab | None => 0 end
    = match nth_error ps q with Some (tab, _) => F q tab | None => 0 end.
  Proof.
    intros H. generalize (F q). revert q. clear F.
    induction H as [|[ta u] [tb v] l l' (E & _) F IH]; intros [|q] G; cbn in *; try reflexivity; [subst; reflexivity|apply IH].
  Qed.

  Lemma equations_effect {J C J' C'} s (ps : list (tableau * term I J C)) (ps' : list (tableau * term I J' C')) t0 t1 y k :
    Forall2 (matching s t0 t1) ps ps' ->
    rk_equations s ps t0 t1 y k -> rk_equations s ps' t0 t1 y k.
  Proof.
    intros F EQ m tab trm i Hm Hi x.
    assert (SV : forall i, stage_value s ps' y k i = stage_value s ps y k i).
    { intros i0. extensionality z. unfold stage_value. f_equal.
      rewrite (Forall2_len _ _ _ F). apply sum_n_ext. intros q _.
      apply (matching_tabs s t0 t1 ps ps' (fun q tab => sum_n s (fun j => coef_a tab i0 j * k q j z)) q F). }
    assert (H : exists u, nth_error ps m = Some (tab, u) /\ same_effect s t0 t1 tab u trm).
    { clear -F Hm. revert m Hm. induction F as [|[ta u] [tb v] l l' (E & SE) F IH]; intros [|m]; cbn; try discriminate; [|apply IH].
      intros H. injection H as <- <-. cbn in E, SE. subst. eauto. }
    destruct H as (u & Hu & SE). rewrite (EQ m tab u i Hu Hi x), SV. apply SE, Hi.
  Qed.

  Lemma step_effect {J C J' C'} (sv : solver I J C) (sv' : solver I J' C') s t0 t1 y0 others others' state state' made_jump made_jump' :
    Forall2 (matching s t0 t1) (sv_parts sv) (sv_parts sv') ->
    valid_parts s (sv_parts sv) -> explicit_parts (sv_parts sv) -> fsal_at_ends (sv_parts sv) ->
    coherent (sv_parts sv) t0 y0 made_jump state ->
    valid_parts s (sv_parts sv') -> explicit_parts (sv_parts sv') -> fsal_at_ends (sv_parts sv') ->
    coherent (sv_parts sv') t0 y0 made_jump' state' ->
    let out := rk_step sv t0 t1 y0 others state made_jump in
    let out' := rk_step sv' t0 t1 y0 others' state' made_jump' in
    same_result out out'.
  Proof.
    intros F V X FE CO V' X' FE' CO' out out'.
    destruct (pf_C28_step sv s t0 t1 y0 others state made_jump V X FE CO) as ((k & EQ) & H).
    destruct (pf_C28_step sv' s t0 t1 y0 others' state' made_jump' V' X' FE' CO') as (_ & H').
    destruct (H k EQ) as (HY & (e & HE & HE2) & _ & R1). destruct (H' k (equations_effect _ _ _ _ _ _ _ F EQ)) as (HY' & (e' & HE' & HE2') & _ & R2).
    assert (CB : forall coef x, combination coef s (sv_parts sv') k x = combination coef s (sv_parts sv) k x).
    { intros coef x. unfold combination. rewrite (Forall2_len _ _ _ F). apply sum_n_ext. intros q _.
      apply (matching_tabs s t0 t1 _ _ (fun q tab => sum_n s (fun j => coef tab j * k q j x)) q F). }
    split; [|split].
    - intros x. unfold out, out'. rewrite HY, HY'. unfold rk_solution. rewrite CB. reflexivity.
    - exists e, e'. repeat split; auto. intros x. rewrite HE2, HE2'. unfold rk_error. rewrite CB. reflexivity.
    - unfold out, out'. rewrite R1, R2. reflexivity.
  Qed.

  Lemma valid_one {J C} tab (trm : term I J C) : post_init_ok tab = true -> consistent_term trm -> linear_term trm ->
    valid_parts (num_stages tab) [(tab, trm)].
  Proof.
    intros P CT LT. split; [discriminate|]. split.
    - intros tab' m [E|[]]. injection E as <- <-. auto.
    - intros [|p] [|q] tab' tab'' m m' Hp Hq _ _; auto; cbn in Hp, Hq; try (destruct p; discriminate); destruct q; discriminate.
  Qed.
  Lemma explicit_one {J C} tab (trm : term I J C) : implicit tab = false -> explicit_parts [(tab, trm)].
  Proof. intros H tab' m [E|[]]. injection E as <- <-. exact H. Qed.
  Lemma ends_one {J C} tab (trm : term I J C) : (fsal tab = true -> ends_at_ends tab) -> fsal_at_ends [(tab, trm)].
  Proof. intros H tab' m [E|[]]. injection E as <- <-. exact H. Qed.

  Lemma step_effect_one {J C J' C'} (sv : solver I J C) (sv' : solver I J' C') tab u v t0 t1 y0 others others' state state' made_jump made_jump' :
    good_explicit tab -> sv_parts sv = [(tab, u)] -> sv_parts sv' = [(tab, v)] ->
    consistent_term u -> linear_term u -> consistent_term v -> linear_term v ->
    same_effect (num_stages tab) t0 t1 tab u v ->
    coherent (sv_parts sv) t0 y0 made_jump state -> coherent (sv_parts sv') t0 y0 made_jump' state' ->
    same_result (rk_step sv t0 t1 y0 others state made_jump) (rk_step sv' t0 t1 y0 others' state' made_jump').
  Proof.
    intros (P & E & N) Hu Hv. intros. apply step_effect with (s := num_stages tab); try assumption; rewrite ?Hu, ?Hv;
      try apply valid_one; try apply explicit_one; try apply ends_one; auto.
  Qed.

  (** C47: a [MultiTerm] of [ODETerm]s, and the [ODETerm] of the sum. *)
  Lemma pf_C47_multi_of_odes (fs : list (R -> Y -> Y)) (sv : solver I (nat * I) (list R)) (sv' : solver I I R) tab
        t0 t1 y0 others others' state state' made_jump made_jump' :
    good_explicit tab -> sv_parts sv = [(tab, multi_term (map ode_term fs))] ->
    sv_parts sv' = [(tab, ode_term (fun t y x => sum_n (length fs) (fun m => nth m fs (fun _ _ _ => 0) t y x)))] ->
    coherent (sv_parts sv) t0 y0 made_jump state -> coherent (sv_parts sv') t0 y0 made_jump' state' ->
    same_result (rk_step sv t0 t1 y0 others state made_jump) (rk_step sv' t0 t1 y0 others' state' made_jump').
  Proof.
    intros G Hu Hv. apply (step_effect_one _ _ _ _ _ _ _ _ _ _ _ _ _ _ G Hu Hv).
    - apply multi_consistent. intros trm Ht. apply in_map_iff in Ht as (f & <- & _). apply pf_C47_ode_term.
    - apply multi_linear. intros trm Ht. apply in_map_iff in Ht as (f & <- & _). apply pf_C47_ode_term.
    - apply pf_C47_ode_term.
    - apply pf_C47_ode_term.
    - intros i Hi t y x. cbn [multi_term t_prod t_vf t_contr ode_term with_default_vf_prod].
      rewrite multi_prod_eq, !map_length, Nat.min_id, <- sum_n_mult. apply sum_n_ext. intros m Hm.
      rewrite !nth_error_map. destruct (nth_error fs m) as [f|] eqn:E.
      + cbn. unfold multi_vf. cbn. rewrite nth_error_map, E. cbn. f_equal. rewrite (nth_error_nth _ _ _ E). reflexivity.
      + apply nth_error_None in E. lia.
  Qed.

  (** C47: a control that moves linearly during the step, and [to_ode]. *)
  Lemma pf_C47_to_ode (K : Type) (k0 : K) (ks : list K) (f : R -> Y -> (I * K -> R)) (X X' : R -> K -> R) (sv : solver I (I * K) (K -> R)) (sv' : solver I I R) tab
        t0 t1 y0 others others' state state' made_jump made_jump' :
    good_explicit tab -> sv_parts sv = [(tab, control_term ks f (increments X))] ->
    sv_parts sv' = [(tab, control_to_ode ks f (increments X) X')] ->
    (forall i k, (i < num_stages tab)%nat -> X t1 k - X t0 k = (t1 - t0) * X' (t0 + coef_c tab i * (t1 - t0)) k) ->
    coherent (sv_parts sv) t0 y0 made_jump state -> coherent (sv_parts sv') t0 y0 made_jump' state' ->
    same_result (rk_step sv t0 t1 y0 others state made_jump) (rk_step sv' t0 t1 y0 others' state' made_jump').
  Proof.
    intros G Hu Hv HX. apply (step_effect_one _ _ _ _ _ _ _ _ _ _ _ _ _ _ G Hu Hv).
    - apply (pf_C47_control_term _ k0).
    - apply (pf_C47_control_term _ k0).
    - apply pf_C47_ode_term.
    - apply pf_C47_ode_term.
    - intros i Hi t y x. cbn. rewrite !(contract_eq ks _ _ _ k0), <- sum_n_mult. apply sum_n_ext. intros m Hm.
      unfold increments. rewrite (HX i _ Hi). fold t. ring.
  Qed.

  (** C47: the terms of a [MultiTerm] as one term, and as parts of an additive method. *)
  Lemma pf_C47_multi_split (J C : Type) (terms : list (term I J C)) (sv : solver I (nat * J) (list C)) (sv' : solver I J C) tab
        t0 t1 y0 others others' state state' made_jump made_jump' :
    good_explicit tab -> terms <> [] -> (forall trm, In trm terms -> consistent_term trm /\ linear_term trm) ->
    sv_parts sv = [(tab, multi_term terms)] -> sv_parts sv' = map (fun trm => (tab, trm)) terms ->
    coherent (sv_parts sv) t0 y0 made_jump state -> coherent (sv_parts sv') t0 y0 made_jump' state' ->
    same_result (rk_step sv t0 t1 y0 others state made_jump) (rk_step sv' t0 t1 y0 others' state' made_jump').
  Proof.
    intros (P & E & N) NE CL Hu Hv CO CO'.
    assert (V : valid_parts (num_stages tab) (sv_parts sv)).
    { rewrite Hu. apply valid_one; [exact P| |]; [apply multi_consistent|apply multi_linear]; apply CL. }
    assert (V' : valid_parts (num_stages tab) (sv_parts sv')).
    { rewrite Hv. split; [destruct terms; [congruence|discriminate]|]. split.
      - intros tab' m H. apply in_map_iff in H as (trm & Et & H). injection Et as <- <-. repeat split; auto; apply CL, H.
      - intros p q ta tb m m' Hp Hq Ia. rewrite nth_error_map in Hp. destruct (nth_error terms p); [|discriminate].
        injection Hp as <- <-. congruence. }
    assert (X : explicit_parts (sv_parts sv)) by (rewrite Hu; apply explicit_one, E).
    assert (X' : explicit_parts (sv_parts sv')).
    { rewrite Hv. intros tab' m H. apply in_map_iff in H as (trm & Et & H). injection Et as <- <-. exact E. }
    assert (FE : fsal_at_ends (sv_parts sv)) by (rewrite Hu; apply ends_one, N).
    assert (FE' : fsal_at_ends (sv_parts sv')).
    { rewrite Hv. intros tab' m H. apply in_map_iff in H as (trm & Et & H). injection Et as <- <-. exact N. }
    destruct (pf_C28_step sv _ t0 t1 y0 others state made_jump V X FE CO) as (_ & H).
    destruct (pf_C28_step sv' _ t0 t1 y0 others' state' made_jump' V' X' FE' CO') as ((k & EQ) & H').
    set (k' := fun (_ i : nat) x => sum_n (length terms) (fun m => k m i x)).
    assert (CB : forall (coef : nat -> R) x,
      sum_n (num_stages tab) (fun j => coef j * k' 0%nat j x)
      = sum_n (length terms) (fun m => sum_n (num_stages tab) (fun j => coef j * k m j x))).
    { intros coef x. unfold k'. rewrite sum_n_swap. apply sum_n_ext. intros j _. symmetry. apply sum_n_mult. }
    assert (CP : forall (coef : tableau -> nat -> R) x,
      sum_n (length (sv_parts sv)) (fun m => match nth_error (sv_parts sv) m with Some (tab, _) => sum_n (num_stages tab) (fun j => coef tab j * k' m j x) | None => 0 end)
      = sum_n (length (sv_parts sv')) (fun m => match nth_error (sv_parts sv') m with Some (tab, _) => sum_n (num_stages tab) (fun j => coef tab j * k m j x) | None => 0 end)).
    { intros coef x. rewrite Hu, Hv, map_length. cbn [length sum_n nth_error]. rewrite CB, Rplus_0_l. apply sum_n_ext.
      intros m Hm. rewrite nth_error_map. destruct (nth_error terms m) eqn:En; [reflexivity|]. apply nth_error_None in En. lia. }
    assert (PS : forall s coef x (kk : nat -> nat -> Y) (ps : list (tableau * term I (nat * J) (list C))),
      (forall tab m, In (tab, m) ps -> num_stages tab = s) ->
      sum_n (length ps) (fun m => match nth_error ps m with Some (tab, _) => sum_n s (fun j => coef tab j * kk m j x) | None => 0 end)
      = sum_n (length ps) (fun m => match nth_error ps m with Some (tab, _) => sum_n (num_stages tab) (fun j => coef tab j * kk m j x) | None => 0 end)).
    { intros s coef x kk ps HS. apply sum_n_ext. intros m _. destruct (nth_error ps m) as [[ta u]|] eqn:En; [|reflexivity].
      rewrite (HS ta u); [reflexivity|]. eapply nth_error_In; eauto. }
    assert (PS' : forall s coef x (kk : nat -> nat -> Y) (ps : list (tableau * term I J C)),
      (forall tab m, In (tab, m) ps -> num_stages tab = s) ->
      sum_n (length ps) (fun m => match nth_error ps m with Some (tab, _) => sum_n s (fun j => coef tab j * kk m j x) | None => 0 end)
      = sum_n (length ps) (fun m => match nth_error ps m with Some (tab, _) => sum_n (num_stages tab) (fun j => coef tab j * kk m j x) | None => 0 end)).
    { intros s coef x kk ps HS. apply sum_n_ext. intros m _. destruct (nth_error ps m) as [[ta u]|] eqn:En; [|reflexivity].
      rewrite (HS ta u); [reflexivity|]. eapply nth_error_In; eauto. }
    assert (N1 : forall ta u, In (ta, u) (sv_parts sv) -> num_stages ta = num_stages tab) by (intros ta u Hi; apply V in Hi; apply Hi).
    assert (N2 : forall ta u, In (ta, u) (sv_parts sv') -> num_stages ta = num_stages tab) by (intros ta u Hi; apply V' in Hi; apply Hi).
    assert (ALL : forall coef x,
      sum_n (length (sv_parts sv)) (fun m => match nth_error (sv_parts sv) m with Some (ta, _) => sum_n (num_stages tab) (fun j => coef ta j * k' m j x) | None => 0 end)
      = sum_n (length (sv_parts sv')) (fun m => match nth_error (sv_parts sv') m with Some (ta, _) => sum_n (num_stages tab) (fun j => coef ta j * k m j x) | None => 0 end)).
    { intros coef x. rewrite (PS _ _ _ _ _ N1), (PS' _ _ _ _ _ N2). apply CP. }
    assert (SV : forall i, stage_value (num_stages tab) (sv_parts sv) y0 k' i = stage_value (num_stages tab) (sv_parts sv') y0 k i).
    { intros i. extensionality x. unfold stage_value. f_equal. apply (ALL (fun ta j => coef_a ta i j)). }
    assert (EQ2 : rk_equations (num_stages tab) (sv_parts sv) t0 t1 y0 k').
    { intros m ta trm i Hm Hi x. rewrite SV. rewrite Hu in Hm. destruct m as [|m]; [|destruct m; discriminate].
      injection Hm as <- <-. cbn [multi_term t_prod t_vf t_contr]. rewrite multi_prod_eq, map_length, Nat.min_id.
      unfold k'. apply sum_n_ext. intros m Hm. rewrite nth_error_map.
      destruct (nth_error terms m) as [trm|] eqn:En; [|apply nth_error_None in En; lia]. cbn [option_map].
      assert (Hm' : nth_error (sv_parts sv') m = Some (tab, trm)) by (rewrite Hv, nth_error_map, En; reflexivity).
      rewrite (EQ m tab trm i Hm' Hi x). f_equal. extensionality j. unfold multi_vf. cbn. rewrite En. reflexivity. }
    destruct (H k' EQ2) as (HY & (e & HE & HE2) & _ & R1). destruct (H' k EQ) as (HY' & (e' & HE' & HE2') & _ & R2).
    split; [|split].
    - intros x. rewrite HY, HY'. unfold rk_solution, combination. f_equal. apply (ALL coef_b).
    - exists e, e'. repeat split; auto. intros x. rewrite HE2, HE2'. apply (ALL coef_e).
    - rewrite R1, R2. reflexivity.
  Qed.

  (** C47: a step backwards in time. *)
  Lemma pf_C47_backward_step (f : R -> Y -> Y) (sv sv' : solver I I R) tab
        t0 t1 y0 others others' state state' made_jump made_jump' :
    good_explicit tab -> sv_parts sv = [(tab, wrap_term Rmult (-1) (ode_term f))] ->
    sv_parts sv' = [(tab, ode_term f)] ->
    coherent (sv_parts sv) (- t0) y0 made_jump state -> coherent (sv_parts sv') t0 y0 made_jump' state' ->
    same_result (rk_step sv (- t0) (- t1) y0 others state made_jump) (rk_step sv' t0 t1 y0 others' state' made_jump').
  Proof.
    intros (P & E & N) Hu Hv CO CO'.
    assert (V : valid_parts (num_stages tab) (sv_parts sv)).
    { rewrite Hu. apply valid_one; [exact P| |]; intros ? **; cbn; try reflexivity; ring. }
    assert (V' : valid_parts (num_stages tab) (sv_parts sv')) by (rewrite Hv; apply valid_one; auto; apply pf_C47_ode_term).
    assert (X : explicit_parts (sv_parts sv)) by (rewrite Hu; apply explicit_one, E).
    assert (X' : explicit_parts (sv_parts sv')) by (rewrite Hv; apply explicit_one, E).
    assert (FE : fsal_at_ends (sv_parts sv)) by (rewrite Hu; apply ends_one, N).
    assert (FE' : fsal_at_ends (sv_parts sv')) by (rewrite Hv; apply ends_one, N).
    destruct (pf_C28_step sv _ (- t0) (- t1) y0 others state made_jump V X FE CO) as (_ & H).
    destruct (pf_C28_step sv' _ t0 t1 y0 others' state' made_jump' V' X' FE' CO') as ((k & EQ) & H').
    assert (EQ2 : rk_equations (num_stages tab) (sv_parts sv) (- t0) (- t1) y0 k).
    { rewrite Hu. rewrite Hv in EQ. intros [|m] ta u i Hm Hi x; [|destruct m; discriminate]. injection Hm as <- <-.
      rewrite (EQ 0%nat _ _ i eq_refl Hi x).
      change (stage_value (num_stages tab) [(tab, ode_term f)] y0 k i) with (stage_value (num_stages tab) [(tab, wrap_term Rmult (-1) (ode_term f))] y0 k i).
      cbn. replace ((- t0 + coef_c tab i * (- t1 - - t0)) * -1) with (t0 + coef_c tab i * (t1 - t0)) by ring. ring. }
    destruct (H k EQ2) as (HY & (e & HE & HE2) & _ & R1). destruct (H' k EQ) as (HY' & (e' & HE' & HE2') & _ & R2).
    split; [|split].
    - intros x. rewrite HY, HY', Hu, Hv. reflexivity.
    - exists e, e'. repeat split; auto. intros x. rewrite HE2, HE2', Hu, Hv. reflexivity.
    - rewrite R1, R2. reflexivity.
  Qed.
End Terms.
