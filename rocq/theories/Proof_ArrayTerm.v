(** Proofs about the shapes and entries of arrays in terms. *)
From Coq Require Import Reals List Bool Arith Lia Lra FinFun.
From Verif Require Import Model_PyTree Model_ArrayTerm Spec_ArrayTerm Proof_PyTree.
Import ListNotations.
Open Scope R_scope.

(** * Mapping over two PyTrees *)
Definition leafwise {A B C} (f : A -> pytree B -> result C) : Prop := forall a g l c, f a (Node g l) <> Ok c.
Lemma tree_map2_inv {A B C} (f : A -> pytree B -> result C) (LW : leafwise f) (s : pytree A) : forall (t : pytree B) (u : pytree C),
  tree_map2 f s t = Ok u -> tree_structure t = tree_structure s /\ tree_structure u = tree_structure s /\
    map2 f (tree_leaves s) (map Leaf (tree_leaves t)) = map Ok (tree_leaves u).
Proof.
  induction s as [a|g l IH] using pytree_ind2; intros t u H.
  - cbn in H. destruct t as [b|g' l']; [|destruct (f a (Node g' l')) as [c|e] eqn:E; [destruct (LW _ _ _ _ E)|discriminate]].
    destruct (f a (Leaf b)) as [c|e] eqn:E; [|discriminate]. cbn in H. injection H as <-. cbn. rewrite E. auto.
  - destruct t as [b|g' l']; [discriminate|]. cbn [tree_map2] in H. destruct (Nat.eqb_spec g g') as [<-|]; [|discriminate].
    set (G := fix go (l : list (pytree A)) (l' : list (pytree B)) : result (list (pytree C)) :=
                  match l, l' with
                  | [], [] => Ok []
                  | s :: l, t :: l' => rbind (tree_map2 f s t) (fun c => rmap (cons c) (go l l'))
                  | _, _ => Raise ValueError
                  end) in H.
    destruct (G l l') as [us|e] eqn:E; [|discriminate]. cbn in H. injection H as <-.
    enough (Q : map tree_structure l' = map tree_structure l /\ map tree_structure us = map tree_structure l /\
                map2 f (flat_map tree_leaves l) (map Leaf (flat_map tree_leaves l')) = map Ok (flat_map tree_leaves us)).
    { destruct Q as (Q1 & Q2 & Q3). rewrite !structure_node, Q1, Q2. auto. }
    revert l' us E. induction IH as [|s l Hs _ IHl]; intros [|t l'] us E; try discriminate.
    + injection E as <-. auto.
    + cbn [G] in E. fold G in E. destruct (tree_map2 f s t) as [c|e] eqn:E1; [|discriminate]. cbn [rbind] in E.
      destruct (G l l') as [cs|e] eqn:E2; [|discriminate]. cbn in E. injection E as <-.
      destruct (Hs t c E1) as (A1 & A2 & A3). destruct (IHl l' cs E2) as (B1 & B2 & B3).
      cbn [map flat_map]. rewrite A1, A2, B1, B2. split; [reflexivity|]. split; [reflexivity|].
      rewrite !map_app, <- A3, <- B3.
      assert (L : length (tree_leaves s) = length (map (@Leaf B) (tree_leaves t))) by (rewrite map_length; symmetry; apply (same_num_leaves t s A1)).
      clear -L. revert L. generalize (tree_leaves s) (map (@Leaf B) (tree_leaves t)). intros x. induction x; intros [|y ys] L; try discriminate; cbn; auto.
      f_equal. apply IHx. cbn in L. lia.
Qed.
Lemma map2_nth {A B C} (f : A -> B -> C) (l : list A) (m : list B) n x y : nth_error l n = Some x -> nth_error m n = Some y ->
  nth_error (map2 f l m) n = Some (f x y).
Proof. revert m n. induction l as [|a l IH]; intros [|b m] [|n] H1 H2; try discriminate; cbn in *; [congruence|auto]. Qed.
Lemma map2_nth_inv {A B C} (f : A -> B -> C) (l : list A) (m : list B) n z : nth_error (map2 f l m) n = Some z ->
  exists x y, nth_error l n = Some x /\ nth_error m n = Some y /\ z = f x y.
Proof. revert m n. induction l as [|a l IH]; intros [|b m] [|n] H; try discriminate; cbn in *; [injection H as <-; eauto|auto]. Qed.
Lemma structure_lengths {A B} (s : pytree A) (t : pytree B) : tree_structure s = tree_structure t -> length (tree_leaves s) = length (tree_leaves t).
Proof. apply same_num_leaves. Qed.
Lemma paired {A B} (l : list A) (m : list B) n x : length l = length m -> nth_error l n = Some x -> exists y, nth_error m n = Some y.
Proof.
  intros L H. assert (n < length l)%nat by (apply nth_error_Some; congruence). destruct (nth_error m n) eqn:E; [eauto|]. apply nth_error_None in E. lia.
Qed.

(** A map that acts on pairs of leaves succeeds exactly if the structures agree and all pairs are accepted. *)
Lemma map2_leaves {A B C} (f : A -> pytree B -> result C) (LW : leafwise f) (s : pytree A) (t : pytree B) :
  (exists u, tree_map2 f s t = Ok u) <->
  (tree_structure s = tree_structure t /\ forall n x y, nth_error (tree_leaves s) n = Some x -> nth_error (tree_leaves t) n = Some y -> exists z, f x (Leaf y) = Ok z).
Proof.
  split.
  - intros (u & H). destruct (tree_map2_inv f LW s t u H) as (E1 & E2 & E3). split; [congruence|]. intros n x y Hx Hy.
    assert (Q : nth_error (map2 f (tree_leaves s) (map Leaf (tree_leaves t))) n = Some (f x (Leaf y))).
    { apply map2_nth; [exact Hx|]. rewrite nth_error_map, Hy. reflexivity. }
    rewrite E3, nth_error_map in Q. destruct (nth_error (tree_leaves u) n) as [z|]; [|discriminate]. injection Q as Q. exists z. congruence.
  - intros (E & H).
    assert (Q : exists cs, map2 f (tree_leaves s) (map Leaf (tree_leaves t)) = map Ok cs).
    { pose proof (structure_lengths s t E) as L. revert L H. generalize (tree_leaves s) (tree_leaves t). intros x. induction x as [|a x IH]; intros [|b y] L H; try discriminate.
      - exists []. reflexivity.
      - destruct (H 0%nat a b eq_refl eq_refl) as (c & Hc). destruct (IH y) as (cs & Hcs); [cbn in L; lia|intros n; apply (H (S n))|].
        exists (c :: cs). cbn. rewrite Hc, Hcs. reflexivity. }
    destruct Q as (cs & Q). destruct (tree_map2_same f s t cs (eq_sym E) Q) as (u & Hu & _). exists u. exact Hu.
Qed.
Lemma map2_values {A B C} (f : A -> pytree B -> result C) (LW : leafwise f) (s : pytree A) (t : pytree B) u : tree_map2 f s t = Ok u ->
  tree_structure s = tree_structure t /\ tree_structure s = tree_structure u /\
  forall n x y z, nth_error (tree_leaves s) n = Some x -> nth_error (tree_leaves t) n = Some y -> nth_error (tree_leaves u) n = Some z -> f x (Leaf y) = Ok z.
Proof.
  intros H. destruct (tree_map2_inv f LW s t u H) as (E1 & E2 & E3). split; [congruence|]. split; [congruence|]. intros n x y z Hx Hy Hz.
  assert (Q : nth_error (map2 f (tree_leaves s) (map Leaf (tree_leaves t))) n = Some (f x (Leaf y))).
  { apply map2_nth; [exact Hx|]. rewrite nth_error_map, Hy. reflexivity. }
  rewrite E3, nth_error_map, Hz in Q. injection Q as Q. congruence.
Qed.

(** * Shapes *)
Lemma shape_eqb_spec s s' : shape_eqb s s' = true <-> s = s'.
Proof.
  revert s'. induction s as [|a s IH]; intros [|b s']; cbn; split; try discriminate; auto.
  - intros H. apply andb_prop in H as (H1 & H2). apply Nat.eqb_eq in H1. apply IH in H2. congruence.
  - intros H. injection H as <- <-. rewrite Nat.eqb_refl. apply IH. reflexivity.
Qed.
Notation fit := (fun a b : nat => a = b \/ a = 1%nat).
Lemma fits_spec a b : fits a b = true <-> exists q r, b = q ++ r /\ Forall2 fit a q.
Proof.
  revert b. induction a as [|x a IH]; intros b; cbn.
  - split; [intros _; exists [], b; auto|auto].
  - destruct b as [|y b]; split; try discriminate.
    + intros (q & r & E & H). destruct q as [|? ?]; [inversion H|discriminate].
    + intros H. apply andb_prop in H as (H1 & H2). apply IH in H2 as (q & r & -> & H2). exists (y :: q), r. split; [reflexivity|]. constructor; [|exact H2].
      apply orb_prop in H1 as [H1|H1]; apply Nat.eqb_eq in H1; auto.
    + intros (q & r & E & H). inversion H; subst. injection E as -> ->. apply andb_true_intro. split; [|apply IH; eauto].
      apply orb_true_intro. destruct H2 as [-> | ->]; [left|right]; apply Nat.eqb_refl.
Qed.
Lemma Forall2_rev' {A B} (P : A -> B -> Prop) l m : Forall2 P l m -> Forall2 P (rev l) (rev m).
Proof. induction 1; [constructor|]. cbn. apply Forall2_app; [assumption|constructor; [assumption|constructor]]. Qed.
Lemma fits_broadcastable s t : fits (rev s) (rev t) = true <-> broadcastable s t.
Proof.
  rewrite fits_spec. split.
  - intros (q & r & E & H). exists (rev r), (rev q). split; [rewrite <- rev_app_distr, <- E, rev_involutive; reflexivity|].
    rewrite <- (rev_involutive s). apply Forall2_rev', H.
  - intros (p & q & -> & H). exists (rev q), (rev p). split; [apply rev_app_distr|apply Forall2_rev', H].
Qed.
Lemma source_app a b i j : length a = length i -> source_index (a ++ b) (i ++ j) = source_index a i ++ source_index b j.
Proof. revert i. induction a as [|x a IH]; intros [|k i] L; try discriminate; [reflexivity|]. cbn. rewrite IH by (cbn in L; lia). reflexivity. Qed.
Lemma source_rev s i : length i = length s -> forall p, rev (source_index (rev s) (rev i ++ rev p)) = read_index s i.
Proof.
  intros L p. assert (Q : source_index (rev s) (rev i ++ rev p) = source_index (rev s) (rev i)).
  { rewrite <- (app_nil_r (rev s)) at 1. rewrite source_app by (rewrite !rev_length; lia). cbn. destruct (rev p); apply app_nil_r. }
  rewrite Q. clear Q p. revert i L. induction s as [|a s IH]; intros [|k i] L; try discriminate; [reflexivity|].
  cbn [rev]. rewrite source_app by (rewrite !rev_length; cbn in L; lia). rewrite rev_app_distr. cbn. f_equal. apply IH. cbn in L. lia.
Qed.

(** * [ODETerm] *)
Lemma ode_leafwise : leafwise (fun (oi : carray) (yi : pytree carray) => match yi with Leaf yi => broadcast_to oi (ca_shape yi) | Node _ _ => Raise TypeError end).
Proof. intros a g l c. discriminate. Qed.
Lemma pf_C78_ode_accepts (f y : pytree carray) (control : R) :
  (exists out, ode_vf_prod f y control = Ok out) <-> leaves2 (fun fn yn => broadcastable (ca_shape fn) (ca_shape yn)) f y.
Proof.
  unfold ode_vf_prod, ode_vf, leaves2. destruct (same_structure _ _) eqn:E; cbn [negb].
  - apply same_structure_eq in E. split.
    + intros (out & H). split; [exact E|]. intros n x yn Hx Hy.
      destruct (proj1 (map2_leaves _ ode_leafwise f y)) as (_ & G). { destruct (tree_map2 _ f y) as [u|]; [exists u; reflexivity|discriminate]. }
      destruct (G n x yn Hx Hy) as (z & Hz). unfold broadcast_to in Hz. destruct (fits _ _) eqn:F; [|discriminate]. apply fits_broadcastable, F.
    + intros (_ & H). destruct (proj2 (map2_leaves _ ode_leafwise f y)) as (u & Hu).
      { split; [exact E|]. intros n x yn Hx Hy. unfold broadcast_to. rewrite (proj2 (fits_broadcastable _ _) (H n x yn Hx Hy)). eauto. }
      rewrite Hu. cbn. eauto.
  - split; [intros (out & H); discriminate|]. intros (H & _). rewrite H, same_structure_refl in E. discriminate.
Qed.
Lemma pf_C78_ode_value (f y : pytree carray) (control : R) (out : pytree carray) :
  ode_vf_prod f y control = Ok out ->
  leaves2 same_shape y out /\
  leaves2 (fun fn on => forall p i, length i = length (ca_shape fn) ->
             ca_at on (p ++ i) = (control * fst (ca_at fn (read_index (ca_shape fn) i)), control * snd (ca_at fn (read_index (ca_shape fn) i)))) f out.
Proof.
  unfold ode_vf_prod, ode_vf. destruct (same_structure _ _) eqn:E; cbn [negb]; [|discriminate]. apply same_structure_eq in E.
  destruct (tree_map2 _ f y) as [u|] eqn:H; [|discriminate]. cbn. intros Q. injection Q as <-.
  destruct (map2_values _ ode_leafwise f y u H) as (E1 & E2 & V).
  assert (SU : tree_structure (ode_prod u control) = tree_structure u) by apply structure_map.
  assert (NTH : forall n z, nth_error (tree_leaves (ode_prod u control)) n = Some z ->
                exists w, nth_error (tree_leaves u) n = Some w /\ z = CArray (ca_shape w) (fun i => cmult (creal control) (ca_at w i))).
  { intros n z. unfold ode_prod. rewrite leaves_map, nth_error_map. destruct (nth_error (tree_leaves u) n) as [w|]; [|discriminate]. cbn. intros Q. injection Q as <-. eauto. }
  split.
  - split; [congruence|]. intros n yn z Hy Hz. destruct (NTH n z Hz) as (w & Hw & ->). cbn.
    destruct (paired (tree_leaves y) (tree_leaves f) n yn (structure_lengths _ _ (eq_sym E)) Hy) as (fn & Hf).
    pose proof (V n fn yn w Hf Hy Hw) as Q. cbn in Q. unfold broadcast_to in Q. destruct (fits _ _); [|discriminate]. injection Q as <-. reflexivity.
  - split; [congruence|]. intros n fn z Hf Hz p i L. destruct (NTH n z Hz) as (w & Hw & ->). cbn [ca_at].
    destruct (paired (tree_leaves f) (tree_leaves y) n fn (structure_lengths _ _ E) Hf) as (yn & Hy).
    pose proof (V n fn yn w Hf Hy Hw) as Q. cbn in Q. unfold broadcast_to in Q. destruct (fits _ _); [|discriminate]. injection Q as <-. cbn [ca_at].
    rewrite rev_app_distr, source_rev by exact L. unfold cmult, creal. cbn [fst snd]. f_equal; ring.
Qed.

(** * [ControlTerm] *)
Lemma prod_leaf_ok v c : (exists o, prod_leaf v c = Ok o) <-> exists s, ca_shape v = s ++ ca_shape c.
Proof.
  unfold prod_leaf. set (n := length (ca_shape c)). set (m := (length (ca_shape v) - n)%nat). split.
  - intros (o & H). destruct (Nat.leb n _) eqn:E; [|discriminate]. cbn in H. destruct (shape_eqb _ _) eqn:F; [|discriminate]. apply shape_eqb_spec in F.
    exists (firstn m (ca_shape v)). rewrite <- F. symmetry. apply firstn_skipn.
  - intros (s & H). assert (M : m = length s) by (unfold m, n; rewrite H, app_length; lia).
    assert (N : Nat.leb n (length (ca_shape v)) = true) by (apply Nat.leb_le; unfold n; rewrite H, app_length; lia). rewrite N.
    assert (SK : skipn m (ca_shape v) = ca_shape c) by (rewrite M, H, skipn_app, skipn_all, Nat.sub_diag; reflexivity).
    rewrite SK, (proj2 (shape_eqb_spec _ _) eq_refl). cbn [andb]. eauto.
Qed.
Lemma prod_leaf_value v c o : prod_leaf v c = Ok o -> ca_shape v = ca_shape o ++ ca_shape c /\
  forall i, ca_at o i = csum (map (fun k => cmult (cconj (ca_at v (i ++ k))) (ca_at c k)) (indices (ca_shape c))).
Proof.
  unfold prod_leaf. set (n := length (ca_shape c)). set (m := (length (ca_shape v) - n)%nat).
  intros H. destruct (Nat.leb n _) eqn:E; [|discriminate]. cbn in H. destruct (shape_eqb _ _) eqn:F; [|discriminate]. apply shape_eqb_spec in F.
  injection H as <-. cbn. split; [rewrite <- F; symmetry; apply firstn_skipn|reflexivity].
Qed.
Lemma control_leafwise : leafwise (fun (v : carray) (c : pytree carray) => match c with Leaf c => prod_leaf v c | Node _ _ => Raise TypeError end).
Proof. intros a g l c. discriminate. Qed.
Lemma check_leafwise : leafwise (fun (yi : carray) (oi : pytree carray) => match oi with Leaf oi => if shape_eqb (ca_shape yi) (ca_shape oi) then Ok tt else Raise ValueError | Node _ _ => Raise ValueError end).
Proof. intros a g l c. discriminate. Qed.
Lemma diagonal_leafwise : leafwise (fun (di : carray) (ci : pytree carray) =>
    match ci with
    | Leaf ci => if shape_eqb (ca_shape di) (ca_shape ci) then Ok (CArray (ca_shape di) (fun i => cmult (ca_at di i) (ca_at ci i))) else Raise TypeError
    | Node _ _ => Raise TypeError
    end).
Proof. intros a g l c. discriminate. Qed.

(** The final check *)
Lemma checked y vf c out : control_vf_prod y vf c = Ok out <-> control_prod vf c = Ok out /\ leaves2 same_shape y out.
Proof.
  unfold control_vf_prod. destruct (control_prod vf c) as [o|e]; cbn; [|split; [discriminate|intros (H & _); discriminate]].
  destruct (same_structure _ _) eqn:E; cbn.
  - apply same_structure_eq in E. split.
    + intros H. destruct (tree_map2 _ y o) as [u|] eqn:Q; [|discriminate]. cbn in H. injection H as <-. split; [reflexivity|]. split; [exact E|].
      intros n yn on Hy Ho. destruct (proj1 (map2_leaves _ check_leafwise y o)) as (_ & G); [eauto|]. destruct (G n yn on Hy Ho) as (z & Hz).
      cbn in Hz. destruct (shape_eqb _ _) eqn:F; [|discriminate]. apply shape_eqb_spec, F.
    + intros (H & (_ & S)). injection H as ->. destruct (proj2 (map2_leaves _ check_leafwise y out)) as (u & Hu).
      { split; [exact E|]. intros n yn on Hy Ho. exists tt. rewrite (proj2 (shape_eqb_spec _ _) (S n yn on Hy Ho)). reflexivity. }
      rewrite Hu. reflexivity.
  - split; [discriminate|]. intros (H & (S & _)). injection H as ->. rewrite S, same_structure_refl in E. discriminate.
Qed.

Lemma pf_C78_control_accepts (y f c : pytree carray) :
  (exists out, control_vf_prod y (Arrays f) c = Ok out) <->
  leaves3 (fun yn fn cn => ca_shape fn = ca_shape yn ++ ca_shape cn) y f c.
Proof.
  split.
  - intros (out & H). apply checked in H as (H & (S1 & S2)). cbn in H.
    destruct (map2_values _ control_leafwise f c out H) as (E1 & E2 & V). split; [congruence|]. split; [congruence|].
    intros n yn fn cn Hy Hf Hc. destruct (paired _ (tree_leaves out) n fn (structure_lengths _ _ E2) Hf) as (on & Ho).
    destruct (prod_leaf_value _ _ _ (V n fn cn on Hf Hc Ho)) as (Q & _). rewrite Q. f_equal. symmetry. apply (S2 n yn on Hy Ho).
  - intros (E1 & E2 & S). destruct (proj2 (map2_leaves _ control_leafwise f c)) as (out & Hout).
    { split; [congruence|]. intros n fn cn Hf Hc. destruct (paired _ (tree_leaves y) n fn (structure_lengths _ _ (eq_sym E1)) Hf) as (yn & Hy).
      apply prod_leaf_ok. exists (ca_shape yn). apply (S n); assumption. }
    exists out. apply checked. split; [exact Hout|]. destruct (map2_values _ control_leafwise f c out Hout) as (F1 & F2 & V). split; [congruence|].
    intros n yn on Hy Ho. destruct (paired _ (tree_leaves f) n yn (structure_lengths _ _ E1) Hy) as (fn & Hf).
    destruct (paired _ (tree_leaves c) n yn (structure_lengths _ _ E2) Hy) as (cn & Hc).
    destruct (prod_leaf_value _ _ _ (V n fn cn on Hf Hc Ho)) as (Q & _). rewrite (S n yn fn cn Hy Hf Hc) in Q. apply app_inv_tail in Q. exact Q.
Qed.
Lemma pf_C78_control_value (y f c out : pytree carray) :
  control_vf_prod y (Arrays f) c = Ok out ->
  leaves2 same_shape y out /\
  leaves3 (fun fn cn on => forall i, ca_at on i =
             csum (map (fun k => cmult (cconj (ca_at fn (i ++ k))) (ca_at cn k)) (indices (ca_shape cn)))) f c out.
Proof.
  intros H. apply checked in H as (H & S). split; [exact S|]. cbn in H. destruct (map2_values _ control_leafwise f c out H) as (E1 & E2 & V).
  split; [exact E1|]. split; [exact E2|]. intros n fn cn on Hf Hc Ho. apply (prod_leaf_value _ _ _ (V n fn cn on Hf Hc Ho)).
Qed.

(** * Indices *)
Lemma indices_spec s i : In i (indices s) <-> Forall2 (fun k n => (k < n)%nat) i s.
Proof.
  revert i. induction s as [|n s IH]; intros i; cbn.
  - split; [intros [<-|[]]; constructor|intros H; inversion H; auto].
  - rewrite in_flat_map. split.
    + intros (k & Hk & H). apply in_map_iff in H as (j & <- & Hj). apply in_seq in Hk. constructor; [lia|apply IH, Hj].
    + intros H. inversion H as [|k n' j s' Hk Hj]; subst. exists k. split; [apply in_seq; lia|]. apply in_map, IH, Hj.
Qed.
Lemma indices_app s t i k : In i (indices s) -> In k (indices t) -> In (i ++ k) (indices (s ++ t)).
Proof. rewrite !indices_spec. apply Forall2_app. Qed.
Lemma NoDup_app_intro {A} (l m : list A) : NoDup l -> NoDup m -> (forall x, In x l -> ~ In x m) -> NoDup (l ++ m).
Proof.
  induction 1 as [|x l Hx Hl IH]; intros Hm D; [exact Hm|]. cbn. constructor.
  - intros H. apply in_app_or in H as [H|H]; [contradiction|]. apply (D x); [left; reflexivity|exact H].
  - apply IH; [exact Hm|]. intros z Hz. apply D. right. exact Hz.
Qed.
Lemma indices_NoDup s : NoDup (indices s).
Proof.
  induction s as [|n s IH]; cbn; [constructor; [intros []|constructor]|].
  generalize 0%nat. induction n as [|n IHn]; intros a; cbn; [constructor|]. apply NoDup_app_intro; [|apply IHn|].
  - apply Injective_map_NoDup; [intros x z H; congruence|exact IH].
  - intros x H1 H2. apply in_map_iff in H1 as (j & <- & _). apply in_flat_map in H2 as (k & Hk & H2). apply in_map_iff in H2 as (j' & E & _).
    injection E as -> _. apply in_seq in Hk. lia.
Qed.

(** * Real vector fields *)
Lemma conj_real a : snd a = 0 -> cconj a = a.
Proof. destruct a as [x z]. cbn. intros ->. unfold cconj. cbn. rewrite Ropp_0. reflexivity. Qed.
Lemma pf_C78_control_real (y f c out : pytree carray) :
  all_real f -> control_vf_prod y (Arrays f) c = Ok out ->
  leaves3 (fun fn cn on => forall i, In i (indices (ca_shape on)) ->
             ca_at on i = csum (map (fun k => cmult (ca_at fn (i ++ k)) (ca_at cn k)) (indices (ca_shape cn)))) f c out.
Proof.
  intros RE H. apply checked in H as (H & S). cbn in H. destruct (map2_values _ control_leafwise f c out H) as (E1 & E2 & V).
  split; [exact E1|]. split; [exact E2|]. intros n fn cn on Hf Hc Ho i Hi. destruct (prod_leaf_value _ _ _ (V n fn cn on Hf Hc Ho)) as (SH & Q). rewrite Q.
  f_equal. apply map_ext_in. intros k Hk. f_equal. apply conj_real. apply (RE fn (nth_error_In _ _ Hf)). rewrite SH. apply indices_app; assumption.
Qed.

(** * A control that is a number; diagonal noise *)
Lemma csum_one (l : list (list nat)) i (g : list nat -> complex) : NoDup l -> In i l -> (forall k, In k l -> k <> i -> g k = czero) -> csum (map g l) = g i.
Proof.
  assert (Z : forall l, (forall k, In k l -> g k = czero) -> csum (map g l) = czero).
  { clear. induction l as [|k l IH]; intros H; [reflexivity|]. cbn. fold (csum (map g l)). rewrite (H k (or_introl eq_refl)), IH by (intros; apply H; right; assumption).
    unfold cplus, czero. cbn. f_equal; ring. }
  induction 1 as [|k l Hk Hl IH]; [intros []|]. intros [-> |Hi] H; cbn; fold (csum (map g l)).
  - rewrite Z. { unfold cplus, czero. cbn. destruct (g i). cbn. f_equal; ring. }
    intros k Hk'. apply H; [right; exact Hk'|]. intros ->. contradiction.
  - rewrite (H k (or_introl eq_refl)) by (intros ->; contradiction). rewrite IH; [|exact Hi|intros k' Hk'; apply H; right; exact Hk'].
    unfold cplus, czero. cbn. destruct (g i). cbn. f_equal; ring.
Qed.

Lemma pf_C78_diagonal (y d m c out : pytree carray) :
  all_real d -> leaves2 diagonal_matrix d m -> control_vf_prod y (weakly_diagonal d) c = Ok out ->
  exists out', control_vf_prod y (Arrays m) c = Ok out' /\ leaves2 same_entries out out'.
Proof.
  intros RE (DM1 & DM2) H. apply checked in H as (H & (S1 & S2)). cbn in H. unfold diagonal_mv in H.
  destruct (map2_values _ diagonal_leafwise d c out H) as (E1 & E2 & V).
  assert (VAL : forall n dn cn on, nth_error (tree_leaves d) n = Some dn -> nth_error (tree_leaves c) n = Some cn -> nth_error (tree_leaves out) n = Some on ->
            ca_shape dn = ca_shape cn /\ on = CArray (ca_shape dn) (fun i => cmult (ca_at dn i) (ca_at cn i))).
  { intros n dn cn on Hd Hc Ho. pose proof (V n dn cn on Hd Hc Ho) as Q. cbn in Q. destruct (shape_eqb _ _) eqn:F; [|discriminate]. injection Q as <-.
    split; [apply shape_eqb_spec, F|reflexivity]. }
  destruct (proj2 (pf_C78_control_accepts y m c)) as (out' & H').
  { split; [congruence|]. split; [congruence|]. intros n yn mn cn Hy Hm Hc.
    destruct (paired _ (tree_leaves d) n mn (structure_lengths _ _ (eq_sym DM1)) Hm) as (dn & Hd). destruct (paired _ (tree_leaves out) n dn (structure_lengths _ _ E2) Hd) as (on & Ho).
    destruct (VAL n dn cn on Hd Hc Ho) as (SC & EO). destruct (DM2 n dn mn Hd Hm) as (SM & _). rewrite SM, SC. f_equal.
    pose proof (S2 n yn on Hy Ho) as Q. rewrite EO in Q. unfold same_shape in Q. cbn in Q. congruence. }
  exists out'. split; [exact H'|]. apply checked in H' as (H' & (S1' & S2')). cbn in H'.
  destruct (map2_values _ control_leafwise m c out' H') as (F1 & F2 & V'). split; [congruence|].
  intros n on on' Ho Ho'. destruct (paired _ (tree_leaves d) n on (structure_lengths _ _ (eq_sym E2)) Ho) as (dn & Hd).
  destruct (paired _ (tree_leaves m) n dn (structure_lengths _ _ DM1) Hd) as (mn & Hm). destruct (paired _ (tree_leaves c) n dn (structure_lengths _ _ E1) Hd) as (cn & Hc).
  destruct (VAL n dn cn on Hd Hc Ho) as (SC & ->). destruct (prod_leaf_value _ _ _ (V' n mn cn on' Hm Hc Ho')) as (SM' & Q). destruct (DM2 n dn mn Hd Hm) as (SM & DM).
  assert (SO : ca_shape on' = ca_shape dn) by (rewrite SM, <- SC in SM'; apply app_inv_tail in SM'; congruence).
  split; [cbn; congruence|]. cbn [ca_shape ca_at]. intros i Hi. rewrite Q. rewrite <- SC.
  rewrite (csum_one _ i); [|apply indices_NoDup|exact Hi|].
  - rewrite (proj1 (DM i i Hi Hi) eq_refl), conj_real; [reflexivity|]. apply (RE dn (nth_error_In _ _ Hd)), Hi.
  - intros k Hk NE. rewrite (proj2 (DM i k Hi Hk)) by congruence. unfold cmult, cconj, czero. cbn. f_equal; ring.
Qed.

(** A real vector field with the length of the step as control *)
Lemma pf_C78_control_is_ode (y f : pytree carray) (control : R) (out out' : pytree carray) :
  all_real f -> leaves2 same_shape f y ->
  control_vf_prod y (Arrays f) (tree_map (fun _ => CArray [] (fun _ => creal control)) f) = Ok out -> ode_vf_prod f y control = Ok out' ->
  leaves2 same_entries out out'.
Proof.
  intros RE (SS1 & SS2) H H'. destruct (pf_C78_control_real _ _ _ _ RE H) as (A1 & A2 & A3). destruct (pf_C78_control_value _ _ _ _ H) as ((B1 & B2) & _).
  destruct (pf_C78_ode_value _ _ _ _ H') as ((C1 & C2) & (D1 & D2)). split; [congruence|]. intros n on on' Ho Ho'.
  destruct (paired _ (tree_leaves f) n on (structure_lengths _ _ (eq_sym A2)) Ho) as (fn & Hf).
  destruct (paired _ (tree_leaves y) n fn (structure_lengths _ _ SS1) Hf) as (yn & Hy).
  assert (Hc : nth_error (tree_leaves (tree_map (fun _ : carray => CArray [] (fun _ => creal control)) f)) n = Some (CArray [] (fun _ => creal control))).
  { rewrite leaves_map, nth_error_map, Hf. reflexivity. }
  assert (S : ca_shape on = ca_shape yn) by (symmetry; apply (B2 n yn on Hy Ho)).
  split; [rewrite S; apply (C2 n yn on' Hy Ho')|]. intros i Hi. rewrite (A3 n fn _ on Hf Hc Ho i Hi). cbn [ca_shape indices map ca_at csum fold_right]. rewrite app_nil_r.
  pose proof (SS2 n fn yn Hf Hy) as SF. unfold same_shape in SF.
  assert (LI : length i = length (ca_shape fn)). { rewrite S, <- SF in Hi. apply indices_spec in Hi. clear -Hi. induction Hi; cbn; congruence. }
  assert (RI : read_index (ca_shape fn) i = i).
  { rewrite S, <- SF in Hi. apply indices_spec in Hi. clear -Hi. induction Hi as [|k a i s K HI IH]; [reflexivity|]. cbn. rewrite IH. destruct (Nat.eqb_spec a 1) as [-> |]; [|reflexivity].
    replace k with 0%nat by lia. reflexivity. }
  pose proof (D2 n fn on' Hf Ho' [] i LI) as Q. cbn [app] in Q. rewrite Q, RI. unfold cplus, cmult, creal, czero. cbn. f_equal; ring.
Qed.
(** For a complex one they differ: [_prod] conjugates. *)
Lemma pf_C78_complex_refuted :
  exists (f y out out' : pytree carray) (control : R), leaves2 same_shape f y /\
    control_vf_prod y (Arrays f) (tree_map (fun _ => CArray [] (fun _ => creal control)) f) = Ok out /\ ode_vf_prod f y control = Ok out' /\
    ~ leaves2 same_entries out out'.
Proof.
  exists (Leaf (CArray [] (fun _ => (0, 1)))), (Leaf (CArray [] (fun _ => czero))). do 2 eexists. exists 1.
  split; [split; [reflexivity|intros [|[|n]] x z Hx Hz; try discriminate; injection Hx as <-; injection Hz as <-; reflexivity]|].
  split; [reflexivity|]. split; [reflexivity|]. intros (_ & H). destruct (H 0%nat _ _ eq_refl eq_refl) as (_ & Q). specialize (Q [] (or_introl eq_refl)).
  cbn in Q. unfold cplus, cmult, cconj, creal, czero in Q. cbn in Q. injection Q as _ Q. lra.
Qed.
Lemma pf_C78_complex_diagonal_refuted :
  exists (y d m c out out' : pytree carray), leaves2 diagonal_matrix d m /\
    control_vf_prod y (weakly_diagonal d) c = Ok out /\ control_vf_prod y (Arrays m) c = Ok out' /\ ~ leaves2 same_entries out out'.
Proof.
  exists (Leaf (CArray [] (fun _ => czero))), (Leaf (CArray [] (fun _ => (0, 1)))), (Leaf (CArray [] (fun _ => (0, 1)))), (Leaf (CArray [] (fun _ => creal 1))). do 2 eexists.
  split.
  { split; [reflexivity|]. intros [|[|n]] x z Hx Hz; try discriminate. injection Hx as <-. injection Hz as <-. split; [reflexivity|]. intros i k [<-|[]] [<-|[]]. split; [reflexivity|]. intros NE. destruct (NE eq_refl). }
  split; [reflexivity|]. split; [reflexivity|]. intros (_ & H). destruct (H 0%nat _ _ eq_refl eq_refl) as (_ & Q). specialize (Q [] (or_introl eq_refl)).
  cbn in Q. unfold cplus, cmult, cconj, creal, czero in Q. cbn in Q. injection Q as _ Q. lra.
Qed.

(** * Dtypes *)
Lemma pf_C78_dtype (D : Type) (eqb : D -> D -> bool) (promote : D -> D -> D) (x target out : D) :
  (forall a b, eqb a b = true <-> a = b) ->
  (upcast_or_raise eqb promote strict x target = Ok out <-> out = target /\ promote x target = target) /\
  (upcast_or_raise eqb promote standard x target = Ok out <-> out = promote x target).
Proof.
  intros EQ. unfold upcast_or_raise. split; [|split; [intros H; injection H; auto|intros ->; reflexivity]]. destruct (eqb target (promote x target)) eqn:E; cbn.
  - apply EQ in E. split; [intros H; injection H as <-; auto|intros (-> & _); congruence].
  - split; [discriminate|]. intros (_ & H). rewrite H in E. rewrite (proj2 (EQ target target) eq_refl) in E. discriminate.
Qed.
