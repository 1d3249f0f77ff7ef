(** Proofs about the terms of the underdamped Langevin equation. *)
From Coq Require Import Reals List Bool Arith Lia Lra.
From Verif Require Import Model_PyTree Model_AdjointTerm Model_LangevinTerm Spec_AdjointTerm Spec_LangevinTerm Proof_PyTree.
Import ListNotations.
Open Scope R_scope.

(** ** Arrays *)
Lemma forall2_length {A B} (P : A -> B -> Prop) (l : list A) (l' : list B) : Forall2 P l l' -> length l = length l'.
Proof. induction 1; cbn; congruence. Qed.
Lemma position_lt (s idx : list nat) : Forall2 lt idx s -> (position s idx < size s)%nat.
Proof.
  induction 1 as [|i n idx s Hi _ IH]; cbn [position size fold_right]; [lia|]. change (fold_right Nat.mul 1%nat s) with (size s). nia.
Qed.
Lemma nth_concat (w : nat) (rows : list (list R)) : Forall (fun r => length r = w) rows -> forall i j, (i < length rows)%nat -> (j < w)%nat ->
  nth (i * w + j) (concat rows) 0 = nth j (nth i rows []) 0.
Proof.
  induction 1 as [|r rows Hr _ IH]; intros i j Hi Hj; cbn in Hi; [lia|]. destruct i as [|i]; cbn [concat nth].
  - cbn. rewrite app_nth1 by lia. reflexivity.
  - rewrite app_nth2 by (rewrite Hr; nia). rewrite Hr. replace (S i * w + j - w)%nat with (i * w + j)%nat by nia. apply IH; lia.
Qed.
Lemma concat_rows_length (w : nat) (rows : list (list R)) : Forall (fun r => length r = w) rows -> length (concat rows) = (length rows * w)%nat.
Proof. induction 1 as [|r rows Hr _ IH]; cbn; [reflexivity|]. rewrite app_length, IH. lia. Qed.
Lemma chunks_length {A} (w : nat) : forall n (xs : list A), length (chunks w n xs) = n.
Proof. induction n; intros; cbn; auto. Qed.
Lemma chunks_nth (w : nat) : forall n (xs : list R) i j, length xs = (n * w)%nat -> (i < n)%nat -> (j < w)%nat ->
  nth j (nth i (chunks w n xs) []) 0 = nth (i * w + j) xs 0.
Proof.
  induction n; intros xs i j L Hi Hj; [lia|]. cbn [chunks]. destruct i as [|i]; cbn [nth].
  - cbn. rewrite <- (firstn_skipn w xs) at 2. rewrite app_nth1; [reflexivity|]. rewrite firstn_length. nia.
  - rewrite IHn by (try lia; rewrite skipn_length; nia). rewrite <- (firstn_skipn w xs) at 2.
    rewrite app_nth2 by (rewrite firstn_length; nia). f_equal. rewrite firstn_length. nia.
Qed.
Lemma chunks_rows_length (w : nat) : forall n (xs : list R), length xs = (n * w)%nat -> Forall (fun r => length r = w) (chunks w n xs).
Proof.
  induction n; intros xs L; cbn [chunks]; constructor.
  - rewrite firstn_length. nia.
  - apply IHn. rewrite skipn_length. nia.
Qed.
Lemma concat_repeat_nth (b i : nat) (r : list R) : (i < b)%nat -> nth i (concat (repeat [r] b)) [] = r.
Proof. revert i. induction b; intros i H; [lia|]. destruct i; cbn; [reflexivity|]. apply IHb. lia. Qed.
Lemma concat_repeat_length (b : nat) (r : list R) : length (concat (repeat [r] b)) = b.
Proof. induction b; cbn; auto. Qed.

Definition same_or_one (n m : nat) : Prop := n = m \/ n = 1%nat.
Definition zeroed (s idx : list nat) : list nat := map2 (fun n i => if Nat.eqb n 1 then 0%nat else i) s idx.
Lemma idx_cons (m : nat) (t idx : list nat) : Forall2 lt idx (m :: t) -> exists i idx', idx = i :: idx' /\ (i < m)%nat /\ Forall2 lt idx' t.
Proof. intros F. inversion F; subst. eauto. Qed.
Lemma zeroed_lt (s t : list nat) : Forall2 same_or_one s t -> forall idx, Forall2 lt idx t -> Forall2 lt (zeroed s idx) s.
Proof.
  induction 1 as [|a b s t H _ IH]; intros idx F; inversion F as [|i ? idx' ? Hi F']; subst; cbn; constructor.
  - destruct (Nat.eqb_spec a 1); [lia|]. destruct H; lia.
  - apply (IH idx' F').
Qed.
Lemma bcast_ok (s t : list nat) : Forall2 same_or_one s t -> forall xs, length xs = size s ->
  length (bcast s t xs) = size t /\
  forall idx, Forall2 lt idx t -> nth (position t idx) (bcast s t xs) 0 = nth (position s (zeroed s idx)) xs 0.
Proof.
  induction 1 as [|a b s t H F0 IH]; intros xs L.
  - split; [exact L|]. intros idx F. inversion F. reflexivity.
  - cbn [bcast]. change (size (a :: s)) with (a * size s)%nat in L. change (size (b :: t)) with (b * size t)%nat.
    pose proof (chunks_rows_length _ _ _ L) as C. pose proof (chunks_length (size s) a xs) as CL.
    set (l := chunks (size s) a xs) in *.
    assert (RL : Forall (fun r => length r = size t) (map (bcast s t) l)).
    { apply Forall_map. revert C. apply Forall_impl. intros r Hr. now apply IH. }
    assert (RN : forall i idx, (i < a)%nat -> Forall2 lt idx t ->
       nth (position t idx) (nth i (map (bcast s t) l) []) 0 = nth (i * size s + position s (zeroed s idx)) xs 0).
    { intros i idx Hi F. rewrite (nth_indep _ [] (bcast s t [])) by (rewrite map_length; lia). rewrite map_nth.
      rewrite (proj2 (IH _ (proj1 (Forall_nth _ l) C i [] ltac:(lia))) idx F). apply chunks_nth; auto.
      apply position_lt. eapply zeroed_lt; eassumption. }
    destruct (Nat.eqb_spec a b) as [E|N].
    + subst b. split; [rewrite (concat_rows_length (size t)) by auto; now rewrite map_length, CL|].
      intros idx F. destruct (idx_cons _ _ _ F) as (i & idx' & -> & Hi & F'). cbn [position zeroed map2]. fold (zeroed s idx').
      rewrite (nth_concat (size t)) by (first [assumption|now apply position_lt|rewrite map_length; lia]). rewrite RN by auto.
      assert (Z : (if Nat.eqb a 1 then 0 else i)%nat = i) by (destruct (Nat.eqb_spec a 1); lia). now rewrite Z.
    + destruct H as [H|H]; [congruence|]. subst a. destruct l as [|r [|r' l]]; try discriminate. cbn [map] in *.
      assert (FR : Forall (fun r => length r = size t) (concat (repeat [bcast s t r] b))).
      { inversion RL; subst. clear - H1. induction b; cbn; constructor; auto. }
      split; [rewrite (concat_rows_length (size t)), concat_repeat_length by auto; reflexivity|].
      intros idx F. destruct (idx_cons _ _ _ F) as (i & idx' & -> & Hi & F'). cbn [position zeroed map2]. fold (zeroed s idx').
      rewrite (nth_concat (size t)) by (rewrite ?concat_repeat_length; auto; now apply position_lt).
      rewrite concat_repeat_nth by auto. exact (RN 0%nat idx' ltac:(lia) F').
Qed.
Lemma compatible_spec (s t : list nat) : compatible s t = true <-> Forall2 same_or_one s t.
Proof.
  revert t. induction s as [|a s IH]; intros [|b t]; cbn [compatible]; split; intros H; try discriminate; try (now inversion H); try constructor.
  - apply andb_prop in H as [H _]. apply orb_prop in H as [H|H]; apply Nat.eqb_eq in H; [now left|now right].
  - apply andb_prop in H as [_ H]. now apply IH.
  - inversion H as [|? ? ? ? H1 H2]; subst. apply andb_true_intro. split; [|now apply IH].
    destruct H1 as [->| ->]; [now rewrite Nat.eqb_refl|apply orb_true_r].
Qed.
Lemma pad_ok (s t : list nat) : broadcastable s t -> Forall2 same_or_one (pad (length t) s) t.
Proof.
  intros [L F]. unfold pad. enough (G : Forall2 same_or_one (repeat 1%nat (length t - length s) ++ s) (firstn (length t - length s) t ++ skipn (length t - length s) t))
    by (now rewrite firstn_skipn in G).
  apply Forall2_app; [|exact F].
  assert (Q : forall n l, length l = n -> Forall2 same_or_one (repeat 1%nat n) l).
  { induction n; intros [|x l] E; try discriminate; cbn; constructor; [now right|]. apply IHn. cbn in E. lia. }
  apply Q. rewrite firstn_length. lia.
Qed.
Lemma pad_inv (s t : list nat) : Forall2 same_or_one (pad (length t) s) t -> broadcastable s t.
Proof.
  intros F. assert (L : (length s <= length t)%nat).
  { apply forall2_length in F. unfold pad in F. rewrite app_length, repeat_length in F. lia. }
  split; [auto|]. unfold pad in F. apply Forall2_app_inv_l in F as (l1 & l2 & F1 & F2 & E). subst t. apply forall2_length in F1. rewrite repeat_length in F1.
  rewrite F1. now rewrite skipn_app, skipn_all, Nat.sub_diag.
Qed.
Lemma size_ones (n : nat) (s : list nat) : size (repeat 1%nat n ++ s) = size s.
Proof. induction n; cbn; [reflexivity|]. rewrite Nat.add_0_r. exact IHn. Qed.
Lemma position_ones (n : nat) (s idx : list nat) : (n <= length idx)%nat ->
  position (repeat 1%nat n ++ s) (zeroed (repeat 1%nat n ++ s) idx) = position s (zeroed s (skipn n idx)).
Proof.
  revert idx. induction n; intros idx L; [reflexivity|]. destruct idx as [|i idx]; [cbn in L; lia|]. cbn [repeat app zeroed map2 position skipn].
  fold (zeroed (repeat 1%nat n ++ s) idx). cbn [Nat.eqb]. rewrite IHn by (cbn in L; lia). reflexivity.
Qed.
Lemma broadcast_to_ok (a : array) (s : list nat) : well_formed a -> broadcastable (shape a) s ->
  exists b, broadcast_to a s = Ok b /\ shape b = s /\ well_formed b /\ forall idx, Forall2 lt idx s -> element b idx = element a (aligned (shape a) idx).
Proof.
  intros W B. unfold broadcast_to. rewrite (proj2 (compatible_spec _ _) (pad_ok _ _ B)).
  destruct (bcast_ok _ _ (pad_ok _ _ B) (data a)) as (Y2 & Y3).
  { unfold pad. now rewrite size_ones. }
  eexists. split; [reflexivity|]. repeat split; auto. intros idx F. unfold element. cbn [shape data]. rewrite Y3 by auto.
  unfold pad, aligned. destruct B as [L _]. rewrite (forall2_length _ _ _ F). rewrite position_ones by (rewrite (forall2_length _ _ _ F); lia). reflexivity.
Qed.
Lemma broadcast_to_err (a : array) (s : list nat) : ~ broadcastable (shape a) s -> broadcast_to a s = Raise ValueError.
Proof.
  intros B. unfold broadcast_to. destruct (compatible _ s) eqn:E; [|reflexivity]. destruct B. apply pad_inv. now apply compatible_spec.
Qed.
Lemma broadcastable_dec (s t : list nat) : broadcastable s t \/ ~ broadcastable s t.
Proof.
  destruct (compatible (pad (length t) s) t) eqn:E; [left; apply pad_inv; now apply compatible_spec|].
  right. intros B. apply pad_ok, compatible_spec in B. congruence.
Qed.

(** Operations on arrays of the same shape *)
Lemma pad_same (s t : list nat) : length s = length t -> pad (length s) t = t.
Proof. intros E. unfold pad. now rewrite E, Nat.sub_diag. Qed.
Lemma bcast_same (s : list nat) : forall xs, length xs = size s -> bcast s s xs = xs.
Proof.
  induction s as [|a s IH]; intros xs L; [reflexivity|]. cbn [bcast]. rewrite Nat.eqb_refl. change (size (a :: s)) with (a * size s)%nat in L.
  revert xs L. induction a as [|a IHa]; intros xs L; [now destruct xs|]. cbn [chunks map concat].
  rewrite IH by (rewrite firstn_length; nia). rewrite IHa by (rewrite skipn_length; nia). apply firstn_skipn.
Qed.
Lemma array_op_same (inc : list nat -> list nat -> error) (op : R -> R -> R) (a b : array) : well_formed a -> well_formed b -> shape a = shape b ->
  array_op inc op a b = Ok (Array (shape b) (map2 op (data a) (data b))).
Proof.
  intros Wa Wb E. unfold array_op, broadcast_shapes. rewrite E, !pad_same by auto.
  assert (J : join_shapes (shape b) (shape b) = Some (shape b)).
  { generalize (shape b). induction l as [|x l IH]; cbn; [auto|]. now rewrite IH, Nat.eqb_refl. }
  rewrite J. unfold broadcast_to. rewrite E, pad_same by auto.
  assert (C : compatible (shape b) (shape b) = true).
  { generalize (shape b). induction l as [|x l IH]; cbn; [auto|]. now rewrite IH, Nat.eqb_refl. }
  rewrite C. cbn [rbind data]. rewrite !bcast_same by (auto; unfold well_formed in *; congruence). reflexivity.
Qed.
Lemma map2_len {A B C} (f : A -> B -> C) (l : list A) (l' : list B) : length l = length l' -> length (map2 f l l') = length l'.
Proof. revert l'. induction l; intros [|y l'] E; try discriminate; cbn; [reflexivity|]. f_equal. apply IHl. cbn in E. lia. Qed.
Lemma element_map2 (op : R -> R -> R) (a b : array) (idx : list nat) : well_formed a -> well_formed b -> shape a = shape b -> Forall2 lt idx (shape b) ->
  element (Array (shape b) (map2 op (data a) (data b))) idx = op (element a idx) (element b idx).
Proof.
  intros Wa Wb E F. unfold element. cbn [shape data]. rewrite E. apply position_lt in F. unfold well_formed in *. rewrite E in Wa. revert F.
  generalize (position (shape b) idx). revert Wa Wb. generalize (size (shape b)) (data a) (data b). clear.
  intros n l l'. revert n l'. induction l as [|x l IH]; intros n [|y l'] E1 E2 i Hi; cbn in *; try lia. destruct i; [reflexivity|]. apply (IH (n - 1)%nat); lia.
Qed.
Lemma element_map (f : R -> R) (a : array) (idx : list nat) : well_formed a -> Forall2 lt idx (shape a) -> element (array_map f a) idx = f (element a idx).
Proof.
  intros W F. unfold element, array_map. cbn [shape data]. apply position_lt in F. unfold well_formed in W.
  rewrite (nth_indep _ 0 (f 0)) by (rewrite map_length; lia). apply map_nth.
Qed.
Lemma aligned_same (s idx : list nat) : Forall2 lt idx s -> aligned s idx = idx.
Proof.
  intros F. unfold aligned. rewrite (forall2_length _ _ _ F), Nat.sub_diag. cbn [skipn].
  induction F as [|i n idx s H _ IH]; cbn; [reflexivity|]. rewrite IH. destruct (Nat.eqb_spec n 1); f_equal. lia.
Qed.

(** ** PyTrees along paths *)
Definition map2_children {A B C} (f : A -> pytree B -> result C) :=
  fix go (l : list (pytree A)) (l' : list (pytree B)) : result (list (pytree C)) :=
    match l, l' with
    | [], [] => Ok []
    | s :: l, t :: l' => rbind (tree_map2 f s t) (fun c => rmap (cons c) (go l l'))
    | _, _ => Raise ValueError
    end.
Lemma tree_map2_node {A B C} (f : A -> pytree B -> result C) (g g' : nat) (l : list (pytree A)) (l' : list (pytree B)) :
  tree_map2 f (Node g l) (Node g' l') = if Nat.eqb g g' then rmap (Node g) (map2_children f l l') else Raise ValueError.
Proof. reflexivity. Qed.
Definition map_r_children {A B} (f : A -> result B) :=
  fix go (l : list (pytree A)) : result (list (pytree B)) :=
    match l with [] => Ok [] | t :: l => rbind (tree_map_r f t) (fun b => rmap (cons b) (go l)) end.
Lemma tree_map_r_node {A B} (f : A -> result B) (g : nat) (l : list (pytree A)) : tree_map_r f (Node g l) = rmap (Node g) (map_r_children f l).
Proof. reflexivity. Qed.

Lemma leaf_map {A B} (f : A -> B) (t : pytree A) : forall p, leaf_at (tree_map f t) p = option_map f (leaf_at t p).
Proof.
  induction t as [a|g l IH] using pytree_ind2; intros p; [now destruct p|]. destruct p as [|i p]; [reflexivity|]. cbn [tree_map leaf_at].
  revert i. induction IH as [|t l Ht _ IHl]; intros [|i]; cbn [map nth_error]; try reflexivity; [apply Ht|apply IHl].
Qed.
Lemma path_of_leaf {A} (t : pytree A) (a : A) : In a (tree_leaves t) -> exists p, leaf_at t p = Some a.
Proof.
  revert a. induction t as [b|g l IH] using pytree_ind2; intros a H.
  - destruct H as [->|[]]. now exists [].
  - cbn [tree_leaves] in H. apply in_flat_map in H as (t & Ht & Ha). rewrite Forall_forall in IH. destruct (IH t Ht a Ha) as (p & Hp).
    apply In_nth_error in Ht as (i & Hi). exists (i :: p). cbn. now rewrite Hi.
Qed.
Lemma leaf_of_path {A} (t : pytree A) : forall p a, leaf_at t p = Some a -> In a (tree_leaves t).
Proof.
  induction t as [b|g l IH] using pytree_ind2; intros p a H.
  - left. destruct p; cbn in H; congruence.
  - destruct p as [|i p]; [discriminate|]. cbn in H. destruct (nth_error l i) as [t|] eqn:E; [|discriminate]. apply nth_error_In in E.
    rewrite Forall_forall in IH. cbn. apply in_flat_map. exists t. split; [auto|]. eapply IH; eassumption.
Qed.
Lemma leaf_same {A B} (s : pytree A) : forall (t : pytree B) p a, tree_structure s = tree_structure t -> leaf_at s p = Some a -> exists b, leaf_at t p = Some b.
Proof.
  intros t p a E H. pose proof (leaf_map (fun _ => tt) s p) as Q1. pose proof (leaf_map (fun _ => tt) t p) as Q2.
  unfold tree_structure in E. rewrite E, Q2 in Q1. rewrite H in Q1. destruct (leaf_at t p); [eauto|discriminate].
Qed.
Lemma tree_ext_path {A} (s : pytree A) : forall t, tree_structure s = tree_structure t -> (forall p a, leaf_at s p = Some a -> leaf_at t p = Some a) -> s = t.
Proof.
  induction s as [a|g l IH] using pytree_ind2; intros [b|g' l'] E H; cbn in E; try discriminate.
  - specialize (H [] a eq_refl). cbn in H. congruence.
  - injection E as <- E. f_equal. assert (H' : forall i p a t, nth_error l i = Some t -> leaf_at t p = Some a -> exists t', nth_error l' i = Some t' /\ leaf_at t' p = Some a).
    { intros i p a t Hi Ht. specialize (H (i :: p) a). cbn in H. rewrite Hi in H. specialize (H Ht). destruct (nth_error l' i); [eauto|discriminate]. }
    clear H. revert l' E H'. induction IH as [|s l Hs _ IHl]; intros [|t l'] E H'; try discriminate; [reflexivity|]. cbn in E. injection E as E1 E2. f_equal.
    + apply Hs; [exact E1|]. intros p a Hp. destruct (H' 0%nat p a s eq_refl Hp) as (t' & T1 & T2). cbn in T1. congruence.
    + apply IHl; [exact E2|]. intros i p a t0 Hi Hp. exact (H' (S i) p a t0 Hi Hp).
Qed.

Lemma map_r_ok {A B} (f : A -> result B) (t : pytree A) : (forall p a, leaf_at t p = Some a -> exists b, f a = Ok b) ->
  exists r, tree_map_r f t = Ok r /\ tree_structure r = tree_structure t /\ forall p a, leaf_at t p = Some a -> exists b, f a = Ok b /\ leaf_at r p = Some b.
Proof.
  induction t as [a|g l IH] using pytree_ind2; intros H.
  - destruct (H [] a eq_refl) as (b & Hb). exists (Leaf b). cbn. rewrite Hb. split; [reflexivity|]. split; [reflexivity|].
    intros p a' E. exists b. destruct p; cbn in *; injection E as <-; auto.
  - rewrite tree_map_r_node.
    assert (Q : exists rs, map_r_children f l = Ok rs /\ map tree_structure rs = map tree_structure l /\
       forall i p t a, nth_error l i = Some t -> leaf_at t p = Some a -> exists r b, nth_error rs i = Some r /\ f a = Ok b /\ leaf_at r p = Some b).
    { assert (H' : forall i p t a, nth_error l i = Some t -> leaf_at t p = Some a -> exists b, f a = Ok b).
      { intros i p t a Hi Ha. apply (H (i :: p)). cbn. now rewrite Hi. }
      clear H. induction IH as [|t l Ht _ IHl].
      - exists []. repeat split; auto. intros [|i]; discriminate.
      - destruct Ht as (r & R1 & R2 & R3); [intros p a Hp; exact (H' 0%nat p t a eq_refl Hp)|].
        destruct IHl as (rs & S1 & S2 & S3); [intros i p t' a Hi Hp; exact (H' (S i) p t' a Hi Hp)|].
        exists (r :: rs). cbn [map_r_children]. rewrite R1. cbn [rbind]. fold (map_r_children f). rewrite S1. split; [reflexivity|]. split; [cbn; congruence|].
        intros [|i] p t' a Hi Hp; cbn [nth_error] in *; [|eapply S3; eassumption]. injection Hi as <-. destruct (R3 p a Hp) as (b & B1 & B2). eauto. }
    destruct Q as (rs & R1 & R2 & R3). rewrite R1. exists (Node g rs). split; [reflexivity|]. split; [rewrite !structure_node; congruence|].
    intros [|i p] a Hp; [discriminate|]. cbn in Hp. destruct (nth_error l i) as [t|] eqn:E; [|discriminate].
    destruct (R3 i p t a E Hp) as (r & b & B1 & B2 & B3). exists b. split; [auto|]. cbn. now rewrite B1.
Qed.
Lemma map_r_err {A B} (f : A -> result B) (e : error) (t : pytree A) : (forall a, In a (tree_leaves t) -> (exists b, f a = Ok b) \/ f a = Raise e) ->
  (exists r, tree_map_r f t = Ok r) \/ tree_map_r f t = Raise e.
Proof.
  induction t as [a|g l IH] using pytree_ind2; intros H.
  - cbn. destruct (H a (or_introl eq_refl)) as [[b ->]| ->]; cbn; eauto.
  - rewrite tree_map_r_node. cbn [tree_leaves] in H.
    assert (Q : (exists r, map_r_children f l = Ok r) \/ map_r_children f l = Raise e).
    { induction IH as [|t l Ht _ IHl]; [left; eexists; reflexivity|]. cbn [map_r_children]. fold (map_r_children f).
      destruct Ht as [[r ->]| ->]; [intros a Ha; apply H; cbn; apply in_or_app; auto| |cbn; auto]. cbn [rbind].
      destruct IHl as [[rs ->]| ->]; [intros a Ha; apply H; cbn; apply in_or_app; auto| |]; cbn; eauto. }
    destruct Q as [[r ->]| ->]; cbn; eauto.
Qed.
Lemma map_r_all {A B} (f : A -> result B) (t : pytree A) (r : pytree B) : tree_map_r f t = Ok r -> forall a, In a (tree_leaves t) -> exists b, f a = Ok b.
Proof.
  revert r. induction t as [x|g l IH] using pytree_ind2; intros r E a Ha.
  - destruct Ha as [<-|[]]. cbn in E. destruct (f x); [eauto|discriminate].
  - rewrite tree_map_r_node in E. destruct (map_r_children f l) as [rs|] eqn:G; [|discriminate]. clear E. cbn [tree_leaves] in Ha.
    revert rs G Ha. induction IH as [|t l Ht _ IHl]; intros rs G Ha; [destruct Ha|]. cbn [map_r_children] in G. fold (map_r_children f) in G.
    destruct (tree_map_r f t) as [r1|] eqn:G1; [|discriminate]. cbn in G. destruct (map_r_children f l) as [rs'|] eqn:G2; [|discriminate].
    cbn in Ha. apply in_app_or in Ha as [Ha|Ha]; [exact (Ht r1 eq_refl a Ha)|exact (IHl rs' eq_refl Ha)].
Qed.

Lemma zip_ok {A B} (s : pytree A) : forall t : pytree B, tree_structure s = tree_structure t ->
  exists z, tree_zip s t = Ok z /\ tree_structure z = tree_structure s /\
  forall p a b, leaf_at s p = Some a -> leaf_at t p = Some b -> leaf_at z p = Some (a, Leaf b).
Proof.
  unfold tree_zip. induction s as [a|g l IH] using pytree_ind2; intros [b|g' l'] E; try discriminate.
  - exists (Leaf (a, Leaf b)). repeat split; auto. intros [|i p] a' b' E1 E2; cbn in *; congruence.
  - cbn in E. injection E as <- E. rewrite tree_map2_node, Nat.eqb_refl.
    assert (Q : exists zs, map2_children (fun a sub => Ok (a, sub)) l l' = Ok zs /\ map tree_structure zs = map tree_structure l /\
       forall i p s t a b, nth_error l i = Some s -> nth_error l' i = Some t -> leaf_at s p = Some a -> leaf_at t p = Some b ->
       exists z, nth_error zs i = Some z /\ leaf_at z p = Some (a, Leaf b)).
    { revert l' E. induction IH as [|s l Hs _ IHl]; intros [|t l'] E; try discriminate.
      - exists []. repeat split; auto. intros [|i]; discriminate.
      - cbn in E. injection E as E1 E2. destruct (Hs t E1) as (z & Z1 & Z2 & Z3). destruct (IHl l' E2) as (zs & S1 & S2 & S3).
        exists (z :: zs). cbn [map2_children]. rewrite Z1. cbn [rbind]. fold (map2_children (fun (a : A) (sub : pytree B) => Ok (a, sub))). rewrite S1.
        split; [reflexivity|]. split; [cbn; congruence|]. intros [|i] p s' t' a b H1 H2 H3 H4; cbn [nth_error] in *; [|eapply S3; eassumption].
        injection H1 as <-. injection H2 as <-. eauto. }
    destruct Q as (zs & Z1 & Z2 & Z3). rewrite Z1. exists (Node g zs). split; [reflexivity|]. split; [rewrite !structure_node; congruence|].
    intros [|i p] a b H1 H2; [discriminate|]. cbn in H1, H2. destruct (nth_error l i) as [s|] eqn:E1; [|discriminate]. destruct (nth_error l' i) as [t|] eqn:E2; [|discriminate].
    destruct (Z3 i p s t a b E1 E2 H1 H2) as (z & B1 & B2). cbn. now rewrite B1.
Qed.
Lemma zip_err {A B} (s : pytree A) : forall t : pytree B, ~ prefix s t -> tree_zip s t = Raise ValueError.
Proof.
  unfold tree_zip. induction s as [a|g l IH] using pytree_ind2; intros t H.
  - destruct H. constructor.
  - destruct t as [b|g' l']; [reflexivity|]. rewrite tree_map2_node. destruct (Nat.eqb_spec g g') as [<-|N]; [|reflexivity].
    assert (H' : ~ Forall2 prefix l l') by (intros F; apply H; now constructor).
    assert (Q : map2_children (fun a sub => Ok (a, sub)) l l' = Raise ValueError); [|now rewrite Q].
    clear H. revert l' H'. induction IH as [|s l Hs _ IHl]; intros [|t l'] H'; try reflexivity; [exfalso; apply H'; constructor|].
    cbn [map2_children]. fold (map2_children (fun (a : A) (sub : pytree B) => Ok (a, sub))).
    destruct (tree_map2 (fun a sub => Ok (a, sub)) s t) as [z|e] eqn:E.
    + cbn [rbind]. rewrite IHl; [reflexivity|]. intros F. apply H'. constructor; [|auto].
      (* a zip that succeeds is of a prefix *)
      clear - E. revert t z E. induction s as [a|g l IH] using pytree_ind2; intros [b|g' l'] z E; try constructor.
      * discriminate.
      * rewrite tree_map2_node in E. destruct (Nat.eqb_spec g g') as [<-|N]; [|discriminate]. constructor.
        destruct (map2_children _ l l') as [zs|] eqn:G; [|discriminate]. clear E. revert l' zs G.
        induction IH as [|s l Hs _ IHl]; intros [|t l'] zs G; try discriminate G; constructor.
        -- cbn [map2_children] in G. destruct (tree_map2 _ s t) as [z'|] eqn:G1; [|discriminate]. exact (Hs t z' G1).
        -- cbn [map2_children] in G. destruct (tree_map2 _ s t) as [z'|] eqn:G1; [|discriminate]. cbn [rbind] in G.
           fold (map2_children (fun (a : A) (sub : pytree B) => Ok (a, sub))) in G.
           destruct (map2_children _ l l') as [zs'|] eqn:G2; [|discriminate]. exact (IHl l' zs' G2).
    + assert (P : ~ prefix s t).
      { intros P. clear - E P. revert t e P E. induction s as [a|g l IH] using pytree_ind2; intros t e P E; [discriminate|].
        inversion P as [|g0 l0 l' F]; subst. rewrite tree_map2_node, Nat.eqb_refl in E.
        assert (Q : exists zs, map2_children (fun (a : A) (sub : pytree B) => Ok (a, sub)) l l' = Ok zs); [|destruct Q as [zs Q]; rewrite Q in E; discriminate].
        clear - IH F. revert l' F. induction IH as [|s l Hs _ IHl]; intros l' F; inversion F as [|? t ? l2 F1 F2]; subst; [eexists; reflexivity|].
        cbn [map2_children]. fold (map2_children (fun (a : A) (sub : pytree B) => Ok (a, sub))). destruct (IHl l2 F2) as [zs Z].
        destruct (tree_map2 (fun a sub => Ok (a, sub)) s t) as [z|e'] eqn:G; [|exfalso; eapply Hs; eassumption].
        cbn [rbind]. rewrite Z. eexists. reflexivity. }
      rewrite Hs in E by exact P. injection E as <-. reflexivity.
Qed.

(** ** Broadcasting a prefix *)
Definition bc (arr : array) (sub : pytree array) : result (pytree array) := tree_map_r (fun leaf => broadcast_to arr (shape leaf)) sub.
Definition fits (arg t r : pytree array) : Prop := tree_structure r = tree_structure t /\
  forall p a, leaf_at t p = Some a -> exists b, leaf_at r p = Some b /\ shape b = shape a /\ well_formed b /\
  forall idx, Forall2 lt idx (shape a) -> element b idx = value arg p idx.
Lemma join_node {A} (g : nat) (l : list (pytree (pytree A))) : tree_join (Node g l) = Node g (map tree_join l).
Proof. reflexivity. Qed.
Lemma broadcast_ok (arg : pytree array) : forall t, covers arg t -> exists r, tree_map2 bc arg t = Ok r /\ fits arg t (tree_join r).
Proof.
  induction arg as [a|g l IH] using pytree_ind2; intros t C.
  - inversion C as [? ? W F|]; subst. cbn [tree_map2]. rewrite Forall_forall in F.
    destruct (map_r_ok (fun leaf => broadcast_to a (shape leaf)) t) as (r & R1 & R2 & R3).
    { intros p b Hb. destruct (broadcast_to_ok a (shape b) W (F b (leaf_of_path _ _ _ Hb))) as (c & C1 & _). eauto. }
    unfold bc at 1. rewrite R1. exists (Leaf r). split; [reflexivity|]. cbn [tree_join]. split; [auto|]. intros p b Hb.
    destruct (R3 p b Hb) as (c & C1 & C2). destruct (broadcast_to_ok a (shape b) W (F b (leaf_of_path _ _ _ Hb))) as (c' & D1 & D2 & D3 & D4).
    rewrite C1 in D1. injection D1 as <-. exists c. repeat split; auto. intros idx Fi. unfold value. destruct p; cbn; auto.
  - inversion C as [|? ? l' F]; subst. rewrite tree_map2_node, Nat.eqb_refl.
    assert (Q : exists rs, map2_children bc l l' = Ok rs /\ map tree_structure (map tree_join rs) = map tree_structure l' /\
      forall i arg t, nth_error l i = Some arg -> nth_error l' i = Some t -> exists r, nth_error rs i = Some r /\ fits arg t (tree_join r)).
    { clear C. revert l' F. induction IH as [|s l Hs _ IHl]; intros l' F; inversion F as [|? t ? l2 F1 F2]; subst.
      - exists []. repeat split; auto. intros [|i]; discriminate.
      - destruct (Hs t F1) as (r & R1 & R2). destruct (IHl l2 F2) as (rs & S1 & S2 & S3). exists (r :: rs). cbn [map2_children]. fold (map2_children bc).
        rewrite R1. cbn [rbind]. rewrite S1. split; [reflexivity|]. split; [cbn [map]; rewrite S2, (proj1 R2); reflexivity|].
        intros [|i] arg t' E1 E2; cbn [nth_error] in *; [|eapply S3; eassumption]. injection E1 as <-. injection E2 as <-. eauto. }
    destruct Q as (rs & R1 & R2 & R3). rewrite R1. exists (Node g rs). split; [reflexivity|]. rewrite join_node. split; [rewrite !structure_node; congruence|].
    intros [|i p] a Ha; [discriminate|]. cbn in Ha. destruct (nth_error l' i) as [t|] eqn:E; [|discriminate].
    assert (exists arg, nth_error l i = Some arg) as [arg E'].
    { destruct (nth_error l i) eqn:E'; [eauto|]. apply nth_error_None in E'. rewrite (forall2_length _ _ _ F) in E'. apply nth_error_None in E'. congruence. }
    destruct (R3 i arg t E' E) as (r & B1 & B2). destruct (proj2 B2 p a Ha) as (b & P1 & P2 & P3 & P4). exists b.
    cbn [leaf_at]. rewrite nth_error_map, B1. cbn [option_map]. repeat split; auto. intros idx Hi. rewrite P4 by auto. unfold value. cbn [leaf_at]. now rewrite E'.
Qed.
Lemma broadcast_err (arg : pytree array) : Forall well_formed (tree_leaves arg) -> forall t,
  (exists r, tree_map2 bc arg t = Ok r /\ covers arg t) \/ tree_map2 bc arg t = Raise ValueError.
Proof.
  induction arg as [a|g l IH] using pytree_ind2; intros W t.
  - cbn [tree_map2]. inversion W as [|? ? W1 _]; subst.
    destruct (map_r_err (fun leaf => broadcast_to a (shape leaf)) ValueError t) as [[r R]|R].
    + intros b _. destruct (broadcastable_dec (shape a) (shape b)) as [B|B]; [left|right; now apply broadcast_to_err].
      destruct (broadcast_to_ok a (shape b) W1 B) as (c & C & _). eauto.
    + left. exists (Leaf r). unfold bc. rewrite R. split; [reflexivity|]. constructor; [auto|]. apply Forall_forall. intros b Hb.
      destruct (map_r_all _ _ _ R b Hb) as (c & Hc). destruct (broadcastable_dec (shape a) (shape b)) as [B|B]; [auto|].
      rewrite broadcast_to_err in Hc by auto. discriminate.
    + right. unfold bc. now rewrite R.
  - destruct t as [b|g' l']; [right; reflexivity|]. rewrite tree_map2_node. destruct (Nat.eqb_spec g g') as [<-|N]; [|right; reflexivity].
    assert (Q : (exists rs, map2_children bc l l' = Ok rs /\ Forall2 covers l l') \/ map2_children bc l l' = Raise ValueError).
    { cbn [tree_leaves] in W. revert l' W. induction IH as [|s l Hs _ IHl]; intros [|t l'] W; [left; exists []; split; [reflexivity|constructor]|right; reflexivity|right; reflexivity|].
      cbn [flat_map] in W. apply Forall_app in W as [W1 W2]. cbn [map2_children]. fold (map2_children bc).
      destruct (Hs W1 t) as [(r & -> & C)| ->]; [|right; reflexivity]. cbn [rbind].
      destruct (IHl l' W2) as [(rs & -> & C')| ->]; [|right; reflexivity]. left. exists (r :: rs). split; [reflexivity|now constructor]. }
    destruct Q as [(rs & -> & C)| ->]; [left|right; reflexivity]. exists (Node g rs). split; [reflexivity|now constructor].
Qed.
Lemma broadcast_arg_ok (arg t : pytree array) : covers arg t -> exists r, broadcast_arg arg t = Ok r /\ fits arg t r.
Proof.
  intros C. destruct (broadcast_ok arg t C) as (r & R & F). unfold bc in R. exists (tree_join r). split; [|auto]. unfold broadcast_arg, broadcast_pytree.
  rewrite R. reflexivity.
Qed.
Lemma broadcast_arg_err (arg t : pytree array) : Forall well_formed (tree_leaves arg) -> ~ covers arg t -> broadcast_arg arg t = Raise RuntimeError.
Proof.
  intros W C. unfold broadcast_arg, broadcast_pytree. destruct (broadcast_err arg W t) as [(r & _ & C')|E]; [contradiction|]. unfold bc in E. now rewrite E.
Qed.

(** ** The equations *)
Lemma value_leaf (t : pytree array) (p idx : list nat) (a : array) : leaf_at t p = Some a -> Forall2 lt idx (shape a) -> value t p idx = element a idx.
Proof. intros E F. unfold value. rewrite E. now rewrite aligned_same. Qed.
Lemma fits_like (arg t r : pytree array) : fits arg t r -> like t r.
Proof.
  intros [S F]. assert (E : tree_map shape r = tree_map shape t).
  { symmetry. apply tree_ext_path; [now rewrite !structure_map|]. intros p s H. rewrite leaf_map in *. destruct (leaf_at t p) as [a|] eqn:E; [|discriminate].
    destruct (F p a E) as (b & B1 & B2 & _). rewrite B1. cbn in *. congruence. }
  split; [auto|]. apply Forall_forall. intros b Hb. destruct (path_of_leaf _ _ Hb) as (p & Hp).
  destruct (leaf_same r t p b S Hp) as (a & Ha). destruct (F p a Ha) as (b' & B1 & _ & B3 & _). congruence.
Qed.
Lemma like_leaf (t r : pytree array) (p : list nat) (a : array) : like t r -> leaf_at t p = Some a ->
  exists b, leaf_at r p = Some b /\ shape b = shape a /\ well_formed b.
Proof.
  intros [E W] H. pose proof (leaf_map shape r p) as Q. rewrite E, leaf_map, H in Q. cbn in Q. destruct (leaf_at r p) as [b|] eqn:B; [|discriminate].
  exists b. split; [auto|]. cbn in Q. split; [congruence|]. rewrite Forall_forall in W. apply W. eapply leaf_of_path; eassumption.
Qed.
Lemma like_str (e t : pytree array) : like e t -> tree_structure t = tree_structure e.
Proof. intros [E _]. rewrite <- (structure_map shape t), E. apply structure_map. Qed.
Lemma wf_map (f : R -> R) (a : array) : well_formed a -> well_formed (array_map f a).
Proof. unfold well_formed. cbn. now rewrite map_length. Qed.
Lemma wf_map2 (op : R -> R -> R) (a b : array) : well_formed a -> well_formed b -> shape a = shape b -> well_formed (Array (shape b) (map2 op (data a) (data b))).
Proof. unfold well_formed. cbn. intros A B E. rewrite map2_len; [auto|]. congruence. Qed.
(** Results leaf by leaf *)
Lemma leafwise (t r : pytree array) (h : list nat -> list nat -> R) : tree_structure r = tree_structure t ->
  (forall p a, leaf_at t p = Some a -> exists b, leaf_at r p = Some b /\ shape b = shape a /\ well_formed b /\ forall idx, Forall2 lt idx (shape a) -> element b idx = h p idx) ->
  like t r /\ forall p idx, position_of t p idx -> value r p idx = h p idx.
Proof.
  intros S H. split.
  - split.
    + symmetry. apply tree_ext_path; [now rewrite !structure_map|]. intros p s E. rewrite leaf_map in *. destruct (leaf_at t p) as [a|] eqn:Ea; [|discriminate].
      destruct (H p a Ea) as (b & B1 & B2 & _). rewrite B1. cbn in *. congruence.
    + apply Forall_forall. intros b Hb. destruct (path_of_leaf _ _ Hb) as (p & Hp). destruct (leaf_same r t p b S Hp) as (a & Ha).
      destruct (H p a Ha) as (b' & B1 & _ & B3 & _). congruence.
  - intros p idx (a & Ha & F). destruct (H p a Ha) as (b & B1 & B2 & B3 & B4). rewrite (value_leaf r p idx b B1) by congruence. auto.
Qed.
Lemma tree_scale (f : R -> R) (t r : pytree array) : like t r -> like t (tree_map (array_map f) r) /\
  forall p idx, position_of t p idx -> value (tree_map (array_map f) r) p idx = f (value r p idx).
Proof.
  intros L. apply leafwise; [rewrite structure_map; now apply like_str|]. intros p a Ha. destruct (like_leaf t r p a L Ha) as (b & B1 & B2 & B3).
  exists (array_map f b). rewrite leaf_map, B1. repeat split; auto; [now apply wf_map|]. intros idx F. rewrite (value_leaf r p idx b B1) by congruence.
  apply element_map; [auto|congruence].
Qed.

Lemma pf_C70_drift (incompatible : list nat -> list nat -> error) (gamma u : pytree array) (grad_f : pytree array -> result (pytree array)) (x v g : pytree array) (dt : R) :
  like v v -> covers gamma v -> covers u v -> grad_f x = Ok g -> like v g ->
  exists w, drift_vf incompatible gamma u grad_f x v = Ok w /\
  let dx := fst (drift_prod w dt) in let dv := snd (drift_prod w dt) in
  like v dx /\ like v dv /\
  forall path idx, position_of v path idx ->
    value dx path idx = dt * value v path idx /\
    value dv path idx = dt * (- value gamma path idx * value v path idx - value u path idx * value g path idx).
Proof.
  intros Lv Cg Cu Eg Lg. unfold drift_vf. destruct (broadcast_arg_ok gamma v Cg) as (ga & -> & G1 & G2). destruct (broadcast_arg_ok u v Cu) as (ub & -> & U1 & U2).
  cbn [rbind]. rewrite Eg. cbn [rbind].
  destruct (zip_ok ga ub) as (z1 & Z1 & Z1s & Z1l); [congruence|]. rewrite Z1. cbn [rbind].
  destruct (zip_ok z1 v) as (z2 & Z2 & Z2s & Z2l); [congruence|]. rewrite Z2. cbn [rbind].
  destruct (zip_ok z2 g) as (z3 & Z3 & Z3s & Z3l); [rewrite (like_str _ _ Lg); congruence|]. rewrite Z3. cbn [rbind].
  match goal with |- context [tree_map_r ?f z3] => set (fn := f) end.
  assert (K : forall p a, leaf_at v p = Some a -> exists q c, leaf_at z3 p = Some q /\ fn q = Ok c /\ shape c = shape a /\ well_formed c /\
     forall idx, Forall2 lt idx (shape a) -> element c idx = - value gamma p idx * value v p idx - value u p idx * value g p idx).
  { intros p a Ha. destruct (G2 p a Ha) as (b1 & B1 & B2 & B3 & B4). destruct (U2 p a Ha) as (b2 & D1 & D2 & D3 & D4).
    destruct (like_leaf v g p a Lg Ha) as (b3 & E1 & E2 & E3).
    assert (Wa : well_formed a) by (destruct Lv as [_ W]; rewrite Forall_forall in W; apply W; eapply leaf_of_path; eassumption).
    pose proof (Z3l p _ _ (Z2l p _ _ (Z1l p _ _ B1 D1) Ha) E1) as Hz.
    eexists _, _. split; [exact Hz|]. unfold fn. cbn [with_array].
    rewrite (array_op_same incompatible Rmult (array_map Ropp b1) a) by (auto; now apply wf_map). cbn [rbind].
    rewrite (array_op_same incompatible Rmult b2 b3) by (auto; congruence). cbn [rbind].
    rewrite array_op_same by (try apply wf_map2; auto; try (now apply wf_map); cbn; congruence).
    split; [reflexivity|]. cbn [shape]. split; [auto|]. split; [apply (wf_map2 Rminus (Array _ _) (Array _ _)); try apply wf_map2; auto; try (now apply wf_map); cbn; congruence|].
    intros idx F. pose proof (element_map2 Rminus (Array (shape a) (map2 Rmult (data (array_map Ropp b1)) (data a))) (Array (shape b3) (map2 Rmult (data b2) (data b3))) idx) as Q.
    cbn [shape] in Q. rewrite Q by (try apply wf_map2; auto; try (now apply wf_map); cbn; congruence). clear Q.
    rewrite element_map2 by (auto; try (now apply wf_map); cbn; congruence).
    rewrite element_map2 by (auto; cbn; congruence). rewrite element_map by (auto; congruence).
    rewrite B4, D4 by auto. rewrite (value_leaf v p idx a Ha F). rewrite (value_leaf g p idx b3 E1) by congruence. reflexivity. }
  destruct (map_r_ok fn z3) as (r & R1 & R2 & R3).
  { intros p q Hq. destruct (leaf_same z3 v p q) as (a & Ha); [congruence|auto|]. destruct (K p a Ha) as (q' & c & Q1 & Q2 & _). rewrite Hq in Q1. injection Q1 as <-. eauto. }
  rewrite R1. exists (v, r). split; [reflexivity|]. cbn [drift_prod fst snd].
  destruct (leafwise v r (fun p idx => - value gamma p idx * value v p idx - value u p idx * value g p idx)) as [Lr Vr]; [congruence| |].
  { intros p a Ha. destruct (K p a Ha) as (q & c & Q1 & Q2 & Q3 & Q4 & Q5). destruct (R3 p q Q1) as (c' & C1 & C2). rewrite Q2 in C1. injection C1 as <-. eauto. }
  destruct (tree_scale (Rmult dt) v v Lv) as [T1 T2]. destruct (tree_scale (Rmult dt) v r Lr) as [T3 T4].
  split; [auto|]. split; [auto|]. intros p idx P. split; [now apply T2|]. rewrite T4, Vr by auto. reflexivity.
Qed.

Lemma pf_C70_diffusion (incompatible : list nat -> list nat -> error) (gamma u v dw : pytree array) :
  like v v -> covers gamma v -> covers u v -> like v dw ->
  exists w, diffusion_vf incompatible gamma u v = Ok w /\
  exists dx dv, diffusion_prod incompatible w dw = Ok (dx, dv) /\ like v dx /\ like v dv /\
  forall path idx, position_of v path idx ->
    value dx path idx = 0 /\
    (0 <= value gamma path idx * value u path idx -> value dv path idx = sqrt (2 * value gamma path idx * value u path idx) * value dw path idx).
Proof.
  intros Lv Cg Cu Lw. unfold diffusion_vf. destruct (broadcast_arg_ok gamma v Cg) as (ga & -> & G1 & G2). destruct (broadcast_arg_ok u v Cu) as (ub & -> & U1 & U2).
  cbn [rbind]. destruct (zip_ok ga ub) as (z1 & Z1 & Z1s & Z1l); [congruence|]. rewrite Z1. cbn [rbind].
  match goal with |- context [tree_map_r ?f z1] => set (fn := f) end.
  assert (K : forall p a, leaf_at v p = Some a -> exists q c, leaf_at z1 p = Some q /\ fn q = Ok c /\ shape c = shape a /\ well_formed c /\
     forall idx, Forall2 lt idx (shape a) -> element c idx = sqrt (2 * value gamma p idx * value u p idx)).
  { intros p a Ha. destruct (G2 p a Ha) as (b1 & B1 & B2 & B3 & B4). destruct (U2 p a Ha) as (b2 & D1 & D2 & D3 & D4).
    eexists _, _. split; [exact (Z1l p _ _ B1 D1)|]. unfold fn. cbn [with_array].
    rewrite (array_op_same incompatible Rmult (array_map (Rmult 2) b1) b2) by (auto; try (now apply wf_map); cbn; congruence). cbn [rmap rbind].
    split; [reflexivity|]. cbn [array_map shape]. split; [auto|].
    assert (W : well_formed (Array (shape b2) (map2 Rmult (data (array_map (Rmult 2) b1)) (data b2)))) by (apply wf_map2; auto; try (now apply wf_map); cbn; congruence).
    split; [exact (wf_map sqrt _ W)|]. intros idx F. pose proof (element_map sqrt _ idx W) as Q. unfold array_map at 1 in Q. cbn [shape data] in Q |- *.
    rewrite Q by congruence. rewrite element_map2 by (auto; try (now apply wf_map); cbn; congruence). rewrite element_map by (auto; congruence).
    now rewrite B4, D4 by auto. }
  destruct (map_r_ok fn z1) as (r & R1 & R2 & R3).
  { intros p q Hq. destruct (leaf_same z1 v p q) as (a & Ha); [congruence|auto|]. destruct (K p a Ha) as (q' & c & Q1 & Q2 & _). rewrite Hq in Q1. injection Q1 as <-. eauto. }
  rewrite R1. exists r. split; [reflexivity|].
  destruct (leafwise v r (fun p idx => sqrt (2 * value gamma p idx * value u p idx))) as [Lr Vr]; [congruence| |].
  { intros p a Ha. destruct (K p a Ha) as (q & c & Q1 & Q2 & Q3 & Q4 & Q5). destruct (R3 p q Q1) as (c' & C1 & C2). rewrite Q2 in C1. injection C1 as <-. eauto. }
  clear K R3 R1. unfold diffusion_prod.
  destruct (zip_ok r dw) as (z2 & Z2 & Z2s & Z2l); [rewrite (like_str _ _ Lw); congruence|]. rewrite Z2. cbn [rbind].
  match goal with |- context [tree_map_r ?f z2] => set (mul := f) end.
  assert (K : forall p a, leaf_at v p = Some a -> exists q c, leaf_at z2 p = Some q /\ mul q = Ok c /\ shape c = shape a /\ well_formed c /\
     forall idx, Forall2 lt idx (shape a) -> element c idx = value r p idx * value dw p idx).
  { intros p a Ha. destruct (like_leaf v r p a Lr Ha) as (b1 & B1 & B2 & B3). destruct (like_leaf v dw p a Lw Ha) as (b2 & D1 & D2 & D3).
    eexists _, _. split; [exact (Z2l p _ _ B1 D1)|]. unfold mul. cbn [with_array].
    rewrite array_op_same by (auto; congruence). split; [reflexivity|]. cbn [shape]. split; [auto|]. split; [apply wf_map2; auto; congruence|].
    intros idx F. rewrite element_map2 by (auto; congruence). rewrite (value_leaf r p idx b1 B1), (value_leaf dw p idx b2 D1) by congruence. reflexivity. }
  destruct (map_r_ok mul z2) as (r2 & S1 & S2 & S3).
  { intros p q Hq. destruct (leaf_same z2 v p q) as (a & Ha); [congruence|auto|]. destruct (K p a Ha) as (q' & c & Q1 & Q2 & _). rewrite Hq in Q1. injection Q1 as <-. eauto. }
  rewrite S1. cbn [rbind].
  destruct (leafwise v r2 (fun p idx => value r p idx * value dw p idx)) as [Lr2 Vr2]; [congruence| |].
  { intros p a Ha. destruct (K p a Ha) as (q & c & Q1 & Q2 & Q3 & Q4 & Q5). destruct (S3 p q Q1) as (c' & C1 & C2). rewrite Q2 in C1. injection C1 as <-. eauto. }
  destruct (tree_scale (fun _ => 0) v r2 Lr2) as [T1 T2].
  eexists _, _. split; [reflexivity|]. split; [exact T1|]. split; [auto|]. intros p idx P. split; [now apply T2|]. intros _. rewrite Vr2, Vr by auto. reflexivity.
Qed.

Lemma pf_C70_rejects (incompatible : list nat -> list nat -> error) (gamma u : pytree array) (grad_f : pytree array -> result (pytree array)) (x v : pytree array) :
  Forall well_formed (tree_leaves gamma) -> Forall well_formed (tree_leaves u) -> ~ (covers gamma v /\ covers u v) ->
  drift_vf incompatible gamma u grad_f x v = Raise RuntimeError /\ diffusion_vf incompatible gamma u v = Raise RuntimeError.
Proof.
  intros Wg Wu H. unfold drift_vf, diffusion_vf.
  destruct (broadcast_err gamma Wg v) as [(r & R & C)|E].
  - assert (Nu : ~ covers u v) by tauto. destruct (broadcast_arg_ok gamma v C) as (ga & -> & _). rewrite (broadcast_arg_err u v Wu Nu). split; reflexivity.
  - assert (Eg : broadcast_arg gamma v = Raise RuntimeError) by (unfold broadcast_arg, broadcast_pytree; unfold bc in E; now rewrite E). rewrite Eg. split; reflexivity.
Qed.
Lemma prefix_structure {A B C} (s : pytree A) : forall (t : pytree B) (w : pytree C), tree_structure s = tree_structure t -> prefix s w -> prefix t w.
Proof.
  induction s as [a|g l IH] using pytree_ind2; intros [b|g' l'] w E P; try discriminate; [constructor|]. cbn in E. injection E as <- E.
  inversion P as [|? ? l2 F]; subst. constructor. clear P. revert l' l2 E F.
  induction IH as [|s l Hs _ IHl]; intros [|t l'] l2 E F; try discriminate; inversion F as [|? w ? l3 F1 F2]; subst; constructor.
  - injection E as E1 E2. eapply Hs; eassumption.
  - injection E as E1 E2. eapply IHl; eassumption.
Qed.
Lemma pf_C70_grad_structure (incompatible : list nat -> list nat -> error) (gamma u : pytree array) (grad_f : pytree array -> result (pytree array)) (x v g : pytree array) :
  like v v -> covers gamma v -> covers u v -> grad_f x = Ok g -> ~ prefix v g ->
  drift_vf incompatible gamma u grad_f x v = Raise RuntimeError.
Proof.
  intros Lv Cg Cu Eg N. unfold drift_vf. destruct (broadcast_arg_ok gamma v Cg) as (ga & -> & G1 & G2). destruct (broadcast_arg_ok u v Cu) as (ub & -> & U1 & U2).
  cbn [rbind]. rewrite Eg. cbn [rbind].
  destruct (zip_ok ga ub) as (z1 & Z1 & Z1s & Z1l); [congruence|]. rewrite Z1. cbn [rbind].
  destruct (zip_ok z1 v) as (z2 & Z2 & Z2s & Z2l); [congruence|]. rewrite Z2. cbn [rbind].
  rewrite (zip_err z2 g); [reflexivity|]. intros P. apply N. apply (prefix_structure z2); [congruence|auto].
Qed.
