(** Proofs about PyTrees. *)
From Coq Require Import Reals List Bool Arith Lia.
From Verif Require Import Model_PyTree.
Import ListNotations.

(** ** Induction *)
Section Ind.
  Context {A : Type} (P : pytree A -> Prop).
  Hypothesis HL : forall a, P (Leaf a).
  Hypothesis HN : forall g l, Forall P l -> P (Node g l).
  Fixpoint pytree_ind2 (t : pytree A) : P t :=
    match t with
    | Leaf a => HL a
    | Node g l => HN g l ((fix go (l : list (pytree A)) : Forall P l :=
                             match l with [] => Forall_nil P | t :: l => Forall_cons t (pytree_ind2 t) (go l) end) l)
    end.
End Ind.

Lemma structure_node {A} (g : nat) (l : list (pytree A)) : tree_structure (Node g l) = Node g (map tree_structure l).
Proof. reflexivity. Qed.
Lemma tree_map_id {A} (f : A -> A) (t : pytree A) : (forall a, f a = a) -> tree_map f t = t.
Proof.
  intros F. induction t as [a|g l IH] using pytree_ind2; cbn; [now rewrite F|]. f_equal.
  induction IH as [|t l Ht _ IHl]; cbn; congruence.
Qed.
Lemma structure_unit (s : pytree unit) : tree_structure s = s.
Proof. apply tree_map_id. now intros []. Qed.
Lemma tree_map_map {A B C} (f : A -> B) (h : B -> C) (t : pytree A) : tree_map h (tree_map f t) = tree_map (fun a => h (f a)) t.
Proof.
  induction t as [a|g l IH] using pytree_ind2; cbn; [reflexivity|]. f_equal. rewrite map_map.
  induction IH as [|t l Ht _ IHl]; cbn; congruence.
Qed.
Lemma structure_map {A B} (f : A -> B) (t : pytree A) : tree_structure (tree_map f t) = tree_structure t.
Proof. unfold tree_structure. apply tree_map_map. Qed.
Lemma leaves_map {A B} (f : A -> B) (t : pytree A) : tree_leaves (tree_map f t) = map f (tree_leaves t).
Proof.
  induction t as [a|g l IH] using pytree_ind2; cbn; [reflexivity|].
  induction IH as [|t l Ht _ IHl]; cbn; [reflexivity|]. rewrite Ht, IHl. now rewrite map_app.
Qed.
Lemma num_leaves_structure {A} (t : pytree A) : num_leaves (tree_structure t) = num_leaves t.
Proof. unfold num_leaves, tree_structure. rewrite leaves_map. apply map_length. Qed.
Lemma same_num_leaves {A B} (t : pytree A) (s : pytree B) : tree_structure t = tree_structure s -> num_leaves t = num_leaves s.
Proof. intros E. rewrite <- (num_leaves_structure t), E. apply num_leaves_structure. Qed.

Lemma same_structure_refl (s : pytree unit) : same_structure s s = true.
Proof.
  induction s as [a|g l IH] using pytree_ind2; cbn; [reflexivity|]. rewrite Nat.eqb_refl. cbn.
  induction IH as [|t l Ht _ IHl]; cbn; [reflexivity|]. now rewrite Ht.
Qed.
Lemma same_structure_eq (s t : pytree unit) : same_structure s t = true -> s = t.
Proof.
  revert t. induction s as [[]|g l IH] using pytree_ind2; intros [[]|g' l']; cbn; try discriminate; [reflexivity|].
  intros E. apply andb_prop in E as [E1 E2]. apply Nat.eqb_eq in E1 as <-. f_equal.
  revert l' E2. induction IH as [|t l Ht _ IHl]; intros [|t' l'] E2; try discriminate; [reflexivity|].
  apply andb_prop in E2 as [E E2]. f_equal; auto.
Qed.

(** ** Unflattening *)
Lemma fill_structure {A} (s : pytree unit) : forall xs ys : list A, length xs = num_leaves s ->
  exists t, fill s (xs ++ ys) = Some (t, ys) /\ tree_structure t = s /\ tree_leaves t = xs.
Proof.
  induction s as [[]|g l IH] using pytree_ind2; intros xs ys E.
  - destruct xs as [|x [|? ?]]; try discriminate. exists (Leaf x). auto.
  - cbn [fill].
    set (F := fix fills (l : list (pytree unit)) (xs : list A) : option (list (pytree A) * list A) :=
               match l with
               | [] => Some ([], xs)
               | s :: l => match fill s xs with
                           | Some (t, xs) => match fills l xs with Some (ts, xs) => Some (t :: ts, xs) | None => None end
                           | None => None
                           end
               end).
    enough (H : exists ts, F l (xs ++ ys) = Some (ts, ys) /\ map tree_structure ts = l /\ flat_map tree_leaves ts = xs).
    { destruct H as (ts & -> & E1 & E2). exists (Node g ts). rewrite structure_node. subst. auto. }
    unfold num_leaves in E. cbn in E. revert xs ys E. induction IH as [|s l Hs _ IHl]; intros xs ys E.
    + destruct xs; [|discriminate]. exists []. auto.
    + cbn in E. rewrite app_length in E.
      destruct (Hs (firstn (num_leaves s) xs) (skipn (num_leaves s) xs ++ ys)) as (t & T1 & T2 & T3).
      { apply firstn_length_le. unfold num_leaves. lia. }
      rewrite app_assoc, firstn_skipn in T1. cbn [F]. fold F. rewrite T1.
      destruct (IHl (skipn (num_leaves s) xs) ys) as (ts & S1 & S2 & S3).
      { rewrite skipn_length. unfold num_leaves. lia. }
      rewrite S1. exists (t :: ts). cbn. rewrite T2, S2, T3, S3, firstn_skipn. auto.
Qed.
Lemma unflatten_ok {A} (s : pytree unit) (xs : list A) : length xs = num_leaves s ->
  exists t, tree_unflatten s xs = Ok t /\ tree_structure t = s /\ tree_leaves t = xs.
Proof.
  intros E. destruct (fill_structure s xs [] E) as (t & T1 & T2 & T3). rewrite app_nil_r in T1.
  exists t. unfold tree_unflatten. rewrite T1. auto.
Qed.
(** A tree is its structure and its leaves. *)
Lemma tree_ext {A} (t t' : pytree A) : tree_structure t = tree_structure t' -> tree_leaves t = tree_leaves t' -> t = t'.
Proof.
  revert t'. induction t as [a|g l IH] using pytree_ind2; intros [a'|g' l']; cbn; try discriminate.
  - intros _ E. now injection E as ->.
  - intros E. injection E as <- E. intros F. f_equal. revert l' E F.
    induction IH as [|t l Ht _ IHl]; intros [|t' l'] E F; try discriminate; [reflexivity|].
    cbn in E, F. injection E as E1 E2.
    assert (L : length (tree_leaves t) = length (tree_leaves t')) by (apply (same_num_leaves t t'); exact E1).
    assert (F1 : tree_leaves t = tree_leaves t').
    { apply (f_equal (firstn (length (tree_leaves t)))) in F. rewrite firstn_app, Nat.sub_diag, firstn_all in F. cbn in F.
      rewrite L, firstn_app, Nat.sub_diag, firstn_all in F. cbn in F. now rewrite !app_nil_r in F. }
    f_equal; [auto|]. apply IHl; [auto|]. rewrite F1 in F. now apply app_inv_head in F.
Qed.

(** ** Trees of trees *)
Lemma leaves_join {A} (t : pytree (pytree A)) : tree_leaves (tree_join t) = flat_map tree_leaves (tree_leaves t).
Proof.
  induction t as [a|g l IH] using pytree_ind2; cbn; [now rewrite app_nil_r|].
  induction IH as [|t l Ht _ IHl]; cbn; [reflexivity|]. rewrite Ht, IHl. now rewrite flat_map_app.
Qed.
Lemma join_leaf {A} (t : pytree A) : tree_join (tree_map Leaf t) = t.
Proof.
  induction t as [a|g l IH] using pytree_ind2; cbn; [reflexivity|]. f_equal. rewrite map_map.
  induction IH as [|t l Ht _ IHl]; cbn; congruence.
Qed.

(** [tree_map2] with something of which the first is a prefix *)
Lemma tree_map2_join {A B C} (f : A -> pytree B -> result C) (s : pytree A) : forall (t : pytree (pytree B)) (cs : list C),
  tree_structure t = tree_structure s -> map2 f (tree_leaves s) (tree_leaves t) = map Ok cs ->
  exists c, tree_map2 f s (tree_join t) = Ok c /\ tree_structure c = tree_structure s /\ tree_leaves c = cs.
Proof.
  induction s as [a|g l IH] using pytree_ind2; intros [u|g' l'] cs E F; cbn in E; try discriminate.
  - cbn in F. destruct cs as [|c [|? ?]]; try discriminate. injection F as F. exists (Leaf c). cbn. rewrite F. auto.
  - injection E as <- E. cbn [tree_map2 tree_join]. rewrite Nat.eqb_refl.
    set (G := fix go (l : list (pytree A)) (l' : list (pytree B)) : result (list (pytree C)) :=
                  match l, l' with
                  | [], [] => Ok []
                  | s :: l, t :: l' => rbind (tree_map2 f s t) (fun c => rmap (cons c) (go l l'))
                  | _, _ => Raise ValueError
                  end).
    enough (H : exists c, G l (map tree_join l') = Ok c /\ map tree_structure c = map tree_structure l /\ flat_map tree_leaves c = cs).
    { destruct H as (c & -> & E1 & E2). exists (Node g' c). rewrite !structure_node, E1. auto. }
    cbn in F. revert l' cs E F. induction IH as [|s l Hs _ IHl]; intros [|t l'] cs E F; try discriminate.
    + destruct cs; [|discriminate]. exists []. auto.
    + cbn in E, F. injection E as E1 E2.
      assert (L : length (tree_leaves t) = length (tree_leaves s)) by (apply (same_num_leaves t s); exact E1).
      assert (F' : map2 f (tree_leaves s) (tree_leaves t) ++ map2 f (flat_map tree_leaves l) (flat_map tree_leaves l') = map Ok cs).
      { rewrite <- F. clear - L. revert L. generalize (tree_leaves s) (tree_leaves t). intros x. induction x; intros [|y ys] L; try discriminate; cbn; auto.
        f_equal. apply IHx. cbn in L. lia. }
      symmetry in F'. apply map_eq_app in F' as (c1 & c2 & -> & F1 & F2).
      destruct (Hs t c1 E1 (eq_sym F1)) as (c & C1 & C2 & C3).
      destruct (IHl l' c2 E2 (eq_sym F2)) as (d & D1 & D2 & D3).
      exists (c :: d). cbn [map]. cbn [G]. fold G. rewrite C1. cbn [rbind]. rewrite D1. cbn. rewrite D2, D3, C3. fold (tree_structure s).
      split; [auto|]. split; [|auto]. f_equal. exact C2.
Qed.
Lemma tree_map2_same {A B C} (f : A -> pytree B -> result C) (s : pytree A) (t : pytree B) (cs : list C) :
  tree_structure t = tree_structure s -> map2 f (tree_leaves s) (map Leaf (tree_leaves t)) = map Ok cs ->
  exists c, tree_map2 f s t = Ok c /\ tree_structure c = tree_structure s /\ tree_leaves c = cs.
Proof.
  intros E F. rewrite <- (join_leaf t). apply tree_map2_join; [now rewrite structure_map|]. now rewrite leaves_map.
Qed.

Lemma result_list_ok {A} (l : list A) : result_list (map Ok l) = Ok l.
Proof. induction l; cbn; [reflexivity|]. now rewrite IHl. Qed.

(** ** Transposing *)
(** A tree of structure [outer] of trees of structure [inner], with the values of a function of the numbers of the leaves *)
Definition grid {A} (outer inner : pytree unit) (m : nat -> nat -> A) (t : pytree A) : Prop :=
  exists T, t = tree_join T /\ tree_structure T = outer /\
  length (tree_leaves T) = num_leaves outer /\
  forall o d, (o < num_leaves outer)%nat -> tree_structure (nth o (tree_leaves T) d) = inner /\
    tree_leaves (nth o (tree_leaves T) d) = map (m o) (seq 0 (num_leaves inner)).

Lemma list_by_nth {A} (l : list A) (n : nat) (f : nat -> A) : length l = n -> (forall o d, (o < n)%nat -> nth o l d = f o) -> l = map f (seq 0 n).
Proof.
  intros L F. destruct l as [|a l0] eqn:El; [subst n; reflexivity|rewrite <- El in *].
  apply nth_ext with (d := a) (d' := f 0%nat); [now rewrite map_length, seq_length|].
  intros i Hi. rewrite F by lia. rewrite map_nth, seq_nth by lia. reflexivity.
Qed.
Lemma flat_map_rows {A B} (f : A -> list B) (l : list A) (g : nat -> list B) (n : nat) : length l = n ->
  (forall o d, (o < n)%nat -> f (nth o l d) = g o) -> flat_map f l = flat_map g (seq 0 n).
Proof.
  intros L F. rewrite !flat_map_concat_map. f_equal. apply list_by_nth; [now rewrite map_length|].
  intros o d Ho. destruct l as [|a l0] eqn:El; [cbn in L; lia|rewrite <- El in *].
  rewrite (nth_indep _ d (f a)) by (rewrite map_length; lia). rewrite map_nth. now apply F.
Qed.
Lemma chunks_rows {A} (f : nat -> list A) (w : nat) : (forall i, length (f i) = w) -> forall n a,
  chunks w n (flat_map f (seq a n)) = map f (seq a n).
Proof.
  intros L. induction n; intros a; cbn; [reflexivity|].
  rewrite firstn_app, L, Nat.sub_diag. cbn. rewrite app_nil_r, <- (L a), firstn_all. f_equal.
  rewrite (L a), skipn_app, L, Nat.sub_diag. cbn. rewrite <- (L a), skipn_all. cbn. rewrite L. apply IHn.
Qed.
Lemma transpose_rows {A} (m : nat -> nat -> A) (rows : nat) : forall w a,
  transpose w (map (fun o => map (m o) (seq a w)) (seq 0 rows)) = map (fun l => map (fun o => m o l) (seq 0 rows)) (seq a w).
Proof.
  induction w; intros a; [reflexivity|]. cbn [transpose]. cbn [seq map]. f_equal.
  - generalize (seq 0 rows). intros r. induction r; cbn; congruence.
  - rewrite map_map. cbn. apply IHw.
Qed.

Lemma unflatten_grid {A} (outer inner : pytree unit) (m : nat -> nat -> A) :
  exists t, rbind (result_list (map (tree_unflatten inner) (map (fun o => map (m o) (seq 0 (num_leaves inner))) (seq 0 (num_leaves outer)))))
              (fun subtrees => rmap tree_join (tree_unflatten outer subtrees)) = Ok t /\ grid outer inner m t.
Proof.
  rewrite map_map.
  assert (U : forall o, exists t, tree_unflatten inner (map (m o) (seq 0 (num_leaves inner))) = Ok t /\
     tree_structure t = inner /\ tree_leaves t = map (m o) (seq 0 (num_leaves inner))).
  { intros o. apply unflatten_ok. now rewrite map_length, seq_length. }
  assert (W : forall n a, exists ts, map (fun o => tree_unflatten inner (map (m o) (seq 0 (num_leaves inner)))) (seq a n) = map Ok ts /\
     length ts = n /\ forall o d, (o < n)%nat -> tree_structure (nth o ts d) = inner /\ tree_leaves (nth o ts d) = map (m (a + o)%nat) (seq 0 (num_leaves inner))).
  { induction n; intros a.
    - exists []. repeat split; auto; lia.
    - destruct (U a) as (t & U1 & U2 & U3). destruct (IHn (Datatypes.S a)) as (ts & W1 & W2 & W3). exists (t :: ts). cbn. rewrite U1, W1.
      split; [auto|]. split; [auto|]. intros [|o] d Ho; [rewrite Nat.add_0_r; auto|]. replace (a + Datatypes.S o)%nat with (Datatypes.S a + o)%nat by lia.
      apply W3. lia. }
  destruct (W (num_leaves outer) 0%nat) as (ts & W1 & W2 & W3). rewrite W1, result_list_ok. cbn [rbind].
  destruct (unflatten_ok outer ts W2) as (T & T1 & T2 & T3). rewrite T1. cbn. exists (tree_join T). split; [reflexivity|].
  exists T. split; [auto|]. split; [auto|]. split; [now rewrite T3|]. intros o d Ho. rewrite T3. apply (W3 o d Ho).
Qed.

Lemma transpose_grid {A} (outer inner : pytree unit) (m : nat -> nat -> A) (t : pytree A) : num_leaves outer <> 0%nat ->
  grid outer inner m t -> exists t', tree_transpose outer inner t = Ok t' /\ grid inner outer (fun l o => m o l) t'.
Proof.
  intros N (T & -> & S & L & G).
  assert (E : tree_leaves (tree_join T) = flat_map (fun o => map (m o) (seq 0 (num_leaves inner))) (seq 0 (num_leaves outer))).
  { rewrite leaves_join. apply flat_map_rows; [auto|]. intros o d Ho. apply G. auto. }
  unfold tree_transpose. rewrite E.
  assert (Len : length (flat_map (fun o => map (m o) (seq 0 (num_leaves inner))) (seq 0 (num_leaves outer))) = (num_leaves outer * num_leaves inner)%nat).
  { clear. generalize (seq 0 (num_leaves outer)) (seq_length (num_leaves outer) 0). generalize (num_leaves outer). intros n l E. subst n.
    induction l; cbn; [reflexivity|]. rewrite app_length, map_length, seq_length, IHl. reflexivity. }
  rewrite Len, Nat.eqb_refl. rewrite chunks_rows by (intros; now rewrite map_length, seq_length).
  assert (Q : (match map (fun o => map (m o) (seq 0 (num_leaves inner))) (seq 0 (num_leaves outer)) with
               [] => [] | _ => transpose (num_leaves inner) (map (fun o => map (m o) (seq 0 (num_leaves inner))) (seq 0 (num_leaves outer))) end) =
              map (fun l => map (fun o => m o l) (seq 0 (num_leaves outer))) (seq 0 (num_leaves inner))).
  { rewrite transpose_rows. destruct (num_leaves outer); [congruence|]. reflexivity. }
  rewrite Q. apply (unflatten_grid inner outer (fun l o => m o l)).
Qed.
