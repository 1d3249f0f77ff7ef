(** Proofs about the vector field and the product of [AdjointTerm]. *)
From Coq Require Import Reals List Bool Arith Lia Lra.
From Verif Require Import Model_PyTree Model_AdjointTerm Spec_AdjointTerm Proof_PyTree.
Import ListNotations.
Open Scope R_scope.

(** ** Lists of numbers *)
Lemma dot_cons (x y : R) (v w : list R) : dot (x :: v) (y :: w) = x * y + dot v w.
Proof. reflexivity. Qed.
Lemma dot_app (v v' w w' : list R) : length v = length w -> dot (v ++ v') (w ++ w') = dot v w + dot v' w'.
Proof.
  revert w. induction v; intros [|y w] L; try discriminate; cbn [app]; [unfold dot at 2; cbn; lra|].
  rewrite !dot_cons, IHv by (cbn in L; lia). ring.
Qed.
Lemma eye_0 (n : nat) : eye (S n) 0 = 1 :: repeat 0 n.
Proof.
  unfold eye. cbn. f_equal. rewrite <- seq_shift, map_map. cbn. generalize (seq 0 n) (seq_length n 0). intros l E. subst n.
  induction l; cbn; congruence.
Qed.
Lemma eye_S (n k : nat) : eye (S n) (S k) = 0 :: eye n k.
Proof. unfold eye. cbn. f_equal. rewrite <- seq_shift, map_map. reflexivity. Qed.
Lemma eye_length (n k : nat) : length (eye n k) = n.
Proof. unfold eye. now rewrite map_length, seq_length. Qed.
Lemma dot_zero (n : nat) (w : list R) : dot (repeat 0 n) w = 0.
Proof. revert w. induction n; intros [|y w]; try reflexivity. cbn [repeat]. rewrite dot_cons, IHn. ring. Qed.
Lemma dot_sym (v w : list R) : dot v w = dot w v.
Proof. revert w. induction v; intros [|y w]; try reflexivity. rewrite !dot_cons, IHv. ring. Qed.
Lemma dot_eye (n k : nat) (w : list R) : length w = n -> (k < n)%nat -> dot (eye n k) w = nth k w 0.
Proof.
  revert k w. induction n; intros k [|y w] L K; try discriminate; try lia.
  destruct k; [rewrite eye_0, dot_cons, dot_zero; cbn; ring|]. cbn in L. rewrite eye_S, dot_cons, IHn by lia. cbn. ring.
Qed.
Definition comb (a b : R) (v w : list R) : list R := map2 (fun u v => a * u + b * v) v w.
Lemma map2_length {A B C} (f : A -> B -> C) (l : list A) (l' : list B) : length l = length l' -> length (map2 f l l') = length l.
Proof. revert l'. induction l; intros [|y l'] E; try discriminate; cbn; [reflexivity|]. f_equal. apply IHl. cbn in E. lia. Qed.
Lemma map2_nth {A B C} (f : A -> B -> C) (l : list A) (l' : list B) (i : nat) (d : A) (d' : B) (e : C) : length l = length l' -> (i < length l)%nat ->
  nth i (map2 f l l') e = f (nth i l d) (nth i l' d').
Proof.
  revert l' i. induction l; intros [|y l'] i E H; cbn in *; try lia. destruct i; [reflexivity|]. apply IHl; lia.
Qed.
(** A linear functional is given by its values on the basis. *)
Lemma linear_functional (n : nat) : forall phi : list R -> R,
  (forall a b v w, length v = n -> length w = n -> phi (comb a b v w) = a * phi v + b * phi w) ->
  forall v, length v = n -> phi v = dot (map (fun k => phi (eye n k)) (seq 0 n)) v.
Proof.
  induction n; intros phi H v L.
  - destruct v; [|discriminate]. pose proof (H 0 0 [] [] eq_refl eq_refl) as Q. cbn in Q. cbn. lra.
  - destruct v as [|x v]; [discriminate|]. cbn in L. injection L as L.
    assert (E : x :: v = comb x 1 (1 :: repeat 0 n) (0 :: v)).
    { unfold comb. cbn. f_equal; [ring|]. clear - L. revert v L. induction n; intros [|y v] L; try discriminate; cbn; [reflexivity|].
      f_equal; [ring|]. apply IHn. cbn in L. lia. }
    rewrite E at 1. rewrite H by (cbn; rewrite ?repeat_length; lia).
    cbn [seq map]. rewrite dot_cons, eye_0. rewrite <- seq_shift, map_map.
    rewrite (map_ext (fun k => phi (eye (S n) (S k))) (fun k => phi (0 :: eye n k))) by (intros; now rewrite eye_S).
    rewrite (IHn (fun v => phi (0 :: v))); [ring| |auto].
    intros a b v' w' L1 L2. rewrite <- H by (cbn; lia). f_equal. unfold comb. cbn. f_equal. ring.
Qed.

(** ** Trees of arrays *)
Lemma like_structure (e t : pytree array) : like e t -> tree_structure t = tree_structure e.
Proof. intros [E _]. rewrite <- (structure_map shape t), E. apply structure_map. Qed.
Lemma like_shapes (e t : pytree array) : like e t -> map shape (tree_leaves t) = map shape (tree_leaves e).
Proof. intros [E _]. now rewrite <- !leaves_map, E. Qed.
Lemma shapes_like (e t : pytree array) : tree_structure t = tree_structure e -> map shape (tree_leaves t) = map shape (tree_leaves e) ->
  Forall well_formed (tree_leaves t) -> like e t.
Proof. intros S L W. split; [|auto]. apply tree_ext; [now rewrite !structure_map|]. now rewrite !leaves_map. Qed.

Definition total (shapes : list (list nat)) : nat := fold_right Nat.add 0%nat (map size shapes).
Lemma tree_size_total (t : pytree array) : tree_size t = total (map shape (tree_leaves t)).
Proof. unfold tree_size, total. now rewrite map_map. Qed.
Lemma flat_data_length (l : list array) : Forall well_formed l -> length (flat_map data l) = total (map shape l).
Proof. induction 1 as [|a l W _ IH]; cbn; [reflexivity|]. rewrite app_length, IH. unfold well_formed in W. now rewrite W. Qed.
Lemma ravel_length (e t : pytree array) : like e t -> length (ravel t) = tree_size e.
Proof. intros L. unfold ravel. rewrite flat_data_length by apply L. rewrite tree_size_total. f_equal. now apply like_shapes. Qed.

Lemma split_arrays_ok (shapes : list (list nat)) : forall xs, length xs = total shapes ->
  map shape (split_arrays shapes xs) = shapes /\ Forall well_formed (split_arrays shapes xs) /\ flat_map data (split_arrays shapes xs) = xs.
Proof.
  induction shapes as [|s l IH]; intros xs E; cbn.
  - destruct xs; [auto|discriminate].
  - unfold total in E. cbn [map fold_right] in E. fold (total l) in E. destruct (IH (skipn (size s) xs)) as (A & B & C); [rewrite skipn_length; lia|].
    rewrite A, C. split; [auto|]. split; [|apply firstn_skipn]. constructor; [|auto]. unfold well_formed. cbn [shape data].
    apply firstn_length_le. lia.
Qed.
Lemma unravel_ok (t : pytree array) (xs : list R) : length xs = tree_size t ->
  exists c, unravel t xs = Ok c /\ like t c /\ ravel c = xs.
Proof.
  intros E. rewrite tree_size_total in E. destruct (split_arrays_ok _ _ E) as (A & B & C).
  destruct (unflatten_ok (tree_structure t) (split_arrays (map shape (tree_leaves t)) xs)) as (c & C1 & C2 & C3).
  { rewrite <- (map_length shape), A, map_length. symmetry. apply num_leaves_structure. }
  exists c. split; [exact C1|]. split; [|unfold ravel; now rewrite C3].
  apply shapes_like; [auto| |]; rewrite C3; auto.
Qed.

(** ** Pieces of the Jacobian *)
Lemma offsets_length (shapes : list (list nat)) : forall off, length (offsets off shapes) = length shapes.
Proof. induction shapes; intros; cbn; auto. Qed.
Lemma nth_map_seq {A} (f : nat -> A) (n i : nat) (d : A) : (i < n)%nat -> nth i (map f (seq 0 n)) d = f i.
Proof.
  intros H. rewrite (nth_indep _ d (f 0%nat)) by (rewrite map_length, seq_length; auto). rewrite map_nth, seq_nth by auto. reflexivity.
Qed.
Lemma piece_of_ravel (l : list array) : Forall well_formed l -> forall pre o d d',
  (o < length l)%nat -> let p := nth o (offsets (length pre) (map shape l)) d in
  nth o l d' = Array (snd p) (map (fun i => nth (fst p + i)%nat (pre ++ flat_map data l) 0) (seq 0 (size (snd p)))).
Proof.
  induction 1 as [|a l W _ IH]; intros pre o d d' Ho; [cbn in Ho; lia|]. cbn [map offsets]. destruct o as [|o].
  - cbn. destruct a as [s x]. unfold well_formed in W. cbn in *. f_equal.
    apply nth_ext with (d := 0) (d' := 0); [now rewrite map_length, seq_length|].
    intros i Hi. rewrite nth_map_seq by lia.
    rewrite app_nth2_plus. rewrite app_nth1 by lia. reflexivity.
  - cbn [nth]. cbn [length] in Ho.
    specialize (IH (pre ++ data a) o d d' ltac:(lia)). cbv zeta in *. rewrite app_length in IH. unfold well_formed in W. rewrite W in IH.
    rewrite IH at 1. cbn. now rewrite <- app_assoc.
Qed.

Lemma piece_rows (M : nat -> nat -> R) (o : nat * list nat) (off : nat) (a : array) : well_formed a ->
  tensordot (jac_piece M o (off, shape a)) a =
  Ok (Array (snd o) (map (fun i => dot (map (fun k => M (fst o + i)%nat (off + k)%nat) (seq 0 (size (shape a)))) (data a)) (seq 0 (size (snd o))))).
Proof.
  intros W. unfold tensordot, jac_piece. cbn [shape data fst snd].
  rewrite app_length. replace (length (snd o) + length (shape a) - length (shape a))%nat with (length (snd o)) by lia.
  rewrite skipn_app, skipn_all, Nat.sub_diag. cbn [skipn app].
  assert (R : forall s, shape_eqb s s = true) by (induction s as [|x s IHs]; cbn; [auto|]; now rewrite Nat.eqb_refl, IHs).
  rewrite R. rewrite (proj2 (Nat.leb_le _ _)) by lia. cbn [andb].
  rewrite firstn_app, firstn_all, Nat.sub_diag. cbn [firstn]. rewrite app_nil_r.
  rewrite chunks_rows by (intros; now rewrite map_length, seq_length). now rewrite map_map.
Qed.
Lemma contract_pieces (M : nat -> nat -> R) (o : nat * list nat) (l : list array) : Forall well_formed l -> forall off,
  map2 (fun a => on_array (tensordot a)) (map (jac_piece M o) (offsets off (map shape l))) (map Leaf l) =
  map Ok (map2 (fun p a => Array (snd o) (map (fun i => dot (map (fun k => M (fst o + i)%nat (fst p + k)%nat) (seq 0 (size (snd p)))) (data a)) (seq 0 (size (snd o)))))
           (offsets off (map shape l)) l).
Proof.
  induction 1 as [|a l W _ IH]; intros off; cbn [map offsets map2]; [reflexivity|]. cbn [on_array]. rewrite piece_rows by auto. f_equal. apply IH.
Qed.

Lemma sum_from_ok (s : list nat) (n : nat) (gs : list (nat -> R)) : forall g,
  sum_from (Array s (map g (seq 0 n))) (map (fun g => Array s (map g (seq 0 n))) gs) =
  Ok (Array s (map (fun i => g i + fold_right Rplus 0 (map (fun g => g i) gs)) (seq 0 n))).
Proof.
  assert (Rf : forall s, shape_eqb s s = true) by (induction s0 as [|x s0 IHs]; cbn; [auto|]; now rewrite Nat.eqb_refl, IHs).
  induction gs as [|h gs IH]; intros g; cbn [map sum_from].
  - do 2 f_equal. apply map_ext. intros. cbn. ring.
  - unfold array_add. cbn [shape data]. rewrite Rf. cbn [rbind].
    replace (map2 Rplus (map g (seq 0 n)) (map h (seq 0 n))) with (map (fun i => g i + h i) (seq 0 n))
      by (clear; generalize (seq 0 n); intros l; induction l as [|x l IHl]; cbn [map map2]; [reflexivity|now rewrite IHl]).
    rewrite IH. do 2 f_equal. apply map_ext. intros. cbn. ring.
Qed.
Lemma sum_arrays_ok (s : list nat) (n : nat) (gs : list (nat -> R)) : gs <> [] ->
  sum_arrays (map (fun g => Array s (map g (seq 0 n))) gs) = Ok (Array s (map (fun i => fold_right Rplus 0 (map (fun g => g i) gs)) (seq 0 n))).
Proof. destruct gs as [|g gs]; [congruence|]. intros _. cbn [map sum_arrays]. apply sum_from_ok. Qed.

Lemma sum_pieces (f : nat -> R) (l : list array) : Forall well_formed l -> forall off,
  fold_right Rplus 0 (map2 (fun p a => dot (map (fun k => f (fst p + k)%nat) (seq 0 (size (snd p)))) (data a)) (offsets off (map shape l)) l) =
  dot (map f (seq off (total (map shape l)))) (flat_map data l).
Proof.
  induction 1 as [|a l W _ IH]; intros off; cbn [map offsets map2 fold_right flat_map]; [reflexivity|].
  rewrite IH. unfold total at 2. cbn [map fold_right]. rewrite seq_app, map_app. unfold well_formed in W.
  rewrite dot_app by (rewrite map_length, seq_length; auto). f_equal. f_equal. cbn [fst snd].
  generalize (size (shape a)). clear. intros n. revert off. induction n; intros; cbn; [reflexivity|]. rewrite Nat.add_0_r. f_equal.
  rewrite <- (seq_shift n 0), map_map. rewrite <- IHn. apply map_ext. intros. f_equal. lia.
Qed.

Lemma map2_ok {A B C} (f : A -> B -> result C) (n : nat) (l : list A) (l' : list B) (zs : list C) : length l = n -> length l' = n -> length zs = n ->
  (forall o d d' e, (o < n)%nat -> f (nth o l d) (nth o l' d') = Ok (nth o zs e)) -> map2 f l l' = map Ok zs.
Proof.
  revert l l' zs. induction n; intros [|a l] [|b l'] [|z zs] E1 E2 E3 H; try discriminate; [reflexivity|]. cbn. f_equal.
  - exact (H 0%nat a b z ltac:(lia)).
  - apply IHn; cbn in *; try lia. intros o d d' e Ho. exact (H (S o) d d' e ltac:(lia)).
Qed.

Section Matrix.
  Context (control out : pytree array) (M : nat -> nat -> R).
  Notation ctl := (tree_structure control).
  Notation outs := (tree_structure out).
  Definition o_at (o : nat) : nat * list nat := nth o (offsets 0 (map shape (tree_leaves out))) (0%nat, []).
  Definition l_at (l : nat) : nat * list nat := nth l (offsets 0 (map shape (tree_leaves control))) (0%nat, []).
  Definition pieces (o l : nat) : array := jac_piece M (o_at o) (l_at l).

  Lemma offsets_by_nth (l : list array) (n : nat) : length l = n ->
    offsets 0 (map shape l) = map (fun o => nth o (offsets 0 (map shape l)) (0%nat, [])) (seq 0 n).
  Proof. intros E. apply list_by_nth; [now rewrite offsets_length, map_length|]. intros o d Ho. apply nth_indep. now rewrite offsets_length, map_length, E. Qed.

  Lemma jac_tree_grid : exists t, jac_tree M control out = Ok t /\ grid outs ctl pieces t.
  Proof.
    destruct (unflatten_grid outs ctl pieces) as (t & T & G). exists t. split; [|auto]. rewrite <- T. unfold jac_tree.
    do 3 f_equal. rewrite !num_leaves_structure.
    rewrite (offsets_by_nth (tree_leaves out) (num_leaves out) eq_refl), map_map. apply map_ext. intros o.
    rewrite (offsets_by_nth (tree_leaves control) (num_leaves control) eq_refl), map_map. reflexivity.
  Qed.

  (** The product with such a matrix is the matrix product. *)
  Lemma prod_matrix (v c z : pytree array) : tree_leaves control <> [] -> grid ctl outs (fun l o => pieces o l) v ->
    like control c -> like out z ->
    (forall i, (i < tree_size out)%nat -> nth i (ravel z) 0 = dot (map (M i) (seq 0 (tree_size control))) (ravel c)) ->
    adjoint_prod v c = Ok z.
  Proof.
    intros NE G Lc Lz E. unfold adjoint_prod. rewrite (like_structure _ _ Lc).
    assert (NC : num_leaves ctl <> 0%nat).
    { rewrite num_leaves_structure. unfold num_leaves. destruct (tree_leaves control); [congruence|discriminate]. }
    destruct (transpose_grid ctl outs _ v NC G) as (vf' & TR & G').
    destruct G as (T & -> & T1 & T2 & T3).
    destruct (tree_map2_join (fun (_ : array) sub => Ok (tree_structure sub)) c T (map tree_structure (tree_leaves T))) as (st & S1 & S2 & S3).
    { rewrite T1. symmetry. now apply like_structure. }
    { assert (L : length (tree_leaves c) = length (tree_leaves T)).
      { rewrite T2. rewrite num_leaves_structure. apply same_num_leaves. now apply like_structure. }
      revert L. generalize (tree_leaves c) (tree_leaves T). clear. intros l. induction l; intros [|t l'] L; try discriminate; cbn; [reflexivity|].
      f_equal. apply IHl. cbn in L. lia. }
    rewrite S1. cbn [rbind]. rewrite S3.
    assert (CS : common_structure (map tree_structure (tree_leaves T)) = Ok outs).
    { assert (F : Forall (fun t => tree_structure t = outs) (tree_leaves T)).
      { apply Forall_forall. intros t Ht. apply In_nth with (d := t) in Ht as (i & Hi & <-). apply (T3 i t). now rewrite <- T2. }
      destruct (tree_leaves T) as [|t l]; [cbn in T2; congruence|]. inversion F as [|? ? F1 F2]; subst. cbn. rewrite F1.
      rewrite (proj2 (forallb_forall _ _)); [reflexivity|]. intros s Hs. apply in_map_iff in Hs as (t' & <- & Ht').
      rewrite Forall_forall in F2. rewrite (F2 t' Ht'). apply same_structure_refl. }
    rewrite CS. cbn [rbind]. rewrite TR. cbn [rbind].
    destruct G' as (T' & -> & T1' & T2' & T3').
    match goal with |- tree_map2 ?f _ _ = _ => set (contract := f) end.
    destruct (tree_map2_join contract outs T' (tree_leaves z)) as (r & R1 & R2 & R3).
    { rewrite T1'. symmetry. apply structure_unit. }
    2: { rewrite R1. f_equal. apply tree_ext; [|auto]. rewrite R2, structure_unit. symmetry. now apply like_structure. }
    assert (NZ : length (tree_leaves z) = num_leaves outs).
    { rewrite num_leaves_structure. apply same_num_leaves. now apply like_structure. }
    apply (map2_ok contract (num_leaves outs)); auto.
    intros o d d' e Ho. destruct (T3' o d' Ho) as [P1 P2].
    unfold contract. rewrite P1, same_structure_refl.
    assert (PL : tree_leaves (nth o (tree_leaves T') d') = map (jac_piece M (o_at o)) (offsets 0 (map shape (tree_leaves c)))).
    { rewrite P2, (like_shapes _ _ Lc). rewrite (offsets_by_nth (tree_leaves control) (num_leaves ctl) (eq_sym (num_leaves_structure _))), map_map. reflexivity. }
    destruct (tree_map2_same (fun a => on_array (tensordot a)) (nth o (tree_leaves T') d') c
      (map2 (fun p a => Array (snd (o_at o)) (map (fun i => dot (map (fun k => M (fst (o_at o) + i)%nat (fst p + k)%nat) (seq 0 (size (snd p)))) (data a)) (seq 0 (size (snd (o_at o))))))
           (offsets 0 (map shape (tree_leaves c))) (tree_leaves c))) as (q & Q1 & _ & Q3).
    { rewrite P1. now apply like_structure. }
    { rewrite PL. apply contract_pieces. apply Lc. }
    rewrite Q1. cbn [rbind]. rewrite Q3.
    set (g := fun (p : nat * list nat) (a : array) (i : nat) => dot (map (fun k => M (fst (o_at o) + i)%nat (fst p + k)%nat) (seq 0 (size (snd p)))) (data a)).
    assert (MM : forall ls (l : list array), map2 (fun p a => Array (snd (o_at o)) (map (g p a) (seq 0 (size (snd (o_at o)))))) ls l =
              map (fun h => Array (snd (o_at o)) (map h (seq 0 (size (snd (o_at o)))))) (map2 g ls l)).
    { induction ls as [|p ls IHls]; intros [|b l]; try reflexivity. cbn [map map2]. now rewrite IHls. }
    unfold g in MM. rewrite MM. fold g. rewrite sum_arrays_ok.
    2: { pose proof (same_num_leaves c control (like_structure _ _ Lc)) as NN. rewrite num_leaves_structure in NC. unfold num_leaves in *.
         destruct (tree_leaves c); [cbn in NN; lia|]. discriminate. }
    f_equal.
    assert (Oe : forall d, nth o (offsets (length (@nil R)) (map shape (tree_leaves z))) d = o_at o).
    { intros d0. unfold o_at. rewrite (like_shapes _ _ Lz). cbn. apply nth_indep. rewrite offsets_length, map_length.
      rewrite num_leaves_structure in Ho. exact Ho. }
    pose proof (piece_of_ravel (tree_leaves z) (proj2 Lz) [] o (0%nat, []) e ltac:(lia)) as PR. cbv zeta in PR. rewrite Oe in PR.
    cbn [app] in PR. fold (ravel z) in PR. rewrite PR. f_equal. apply map_ext_in. intros i Hi. apply in_seq in Hi.
    rewrite E.
    - rewrite (tree_size_total control), <- (like_shapes _ _ Lc). unfold ravel. rewrite <- (sum_pieces (M (fst (o_at o) + i)%nat) (tree_leaves c) (proj2 Lc) 0).
      f_equal. assert (GG : forall ls (l : list array), map (fun h => h i) (map2 g ls l) = map2 (fun p a => g p a i) ls l).
      { induction ls as [|p ls IHls]; intros [|b l]; try reflexivity. cbn [map map2]. now rewrite IHls. }
      rewrite GG. reflexivity.
    - (* the piece lies within *)
      rewrite tree_size_total, <- (like_shapes _ _ Lz).
      assert (B : forall l off o d, (o < length l)%nat -> let p := nth o (offsets off l) d in (fst p + size (snd p) <= off + total l)%nat).
      { clear. induction l as [|s l IH]; intros off o d Ho; [cbn in Ho; lia|]. unfold total. cbn [map fold_right]. fold (total l).
        destruct o as [|o]; cbn [nth offsets fst snd]; cbv zeta; cbn [fst snd]; [lia|]. cbn in Ho. specialize (IH (off + size s)%nat o d ltac:(lia)). cbv zeta in IH. lia. }
      specialize (B (map shape (tree_leaves z)) 0%nat o (0%nat, []) ltac:(rewrite map_length; lia)). cbv zeta in B.
      specialize (Oe (0%nat, [])). cbn [length] in Oe. rewrite Oe in B. lia.
  Qed.
End Matrix.

Lemma pf_C69_prod_vf (vf_prod : pytree array -> result (pytree array)) (jvp vjp : pytree array -> pytree array -> result (pytree array))
  (y_size : nat) (control out : pytree array) :
  like control control -> linear vf_prod control out -> is_jvp vf_prod control jvp -> is_vjp vf_prod control out vjp ->
  tree_leaves control <> [] -> tree_leaves out <> [] ->
  exists v, adjoint_vf vf_prod jvp vjp y_size control = Ok v /\
  forall c, like control c -> adjoint_prod v c = vf_prod c.
Proof.
  intros Lc Lin J W NC NO. destruct (lin_total _ _ _ Lin control Lc) as (out1 & O1 & O2).
  assert (S1 : tree_structure out1 = tree_structure out) by (now apply like_structure).
  assert (NO1 : tree_leaves out1 <> []).
  { pose proof (same_num_leaves _ _ S1) as NN. unfold num_leaves in NN. destruct (tree_leaves out1); [|discriminate]. destruct (tree_leaves out); [congruence|discriminate]. }
  assert (L1 : forall z, like out z -> like out1 z).
  { intros z [A B]. split; [|auto]. rewrite A. symmetry. apply O2. }
  assert (L2 : forall z, like out1 z -> like out z).
  { intros z [A B]. split; [|auto]. rewrite A. apply O2. }
  set (n := tree_size control). set (m := tree_size out1).
  (* the values on the basis *)
  assert (BV : exists col, length col = n /\ forall k e, (k < n)%nat -> exists b z, unravel control (eye n k) = Ok b /\ like control b /\ ravel b = eye n k /\
                 vf_prod b = Ok z /\ like out1 z /\ nth k col e = z).
  { enough (K : forall q a, (a + q <= n)%nat -> exists col, length col = q /\ forall k e, (k < q)%nat -> exists b z, unravel control (eye n (a + k)) = Ok b /\ like control b /\ ravel b = eye n (a + k) /\
                 vf_prod b = Ok z /\ like out1 z /\ nth k col e = z) by (apply (K n 0%nat); lia).
    induction q; intros a Ha; [exists []; split; [auto|intros; lia]|].
    destruct (IHq (S a) ltac:(lia)) as (col & C1 & C2).
    destruct (unravel_ok control (eye n a)) as (b & B1 & B2 & B3); [apply eye_length|].
    destruct (lin_total _ _ _ Lin b B2) as (z & Z1 & Z2). exists (z :: col). split; [cbn; lia|].
    intros [|k] e Hk; [rewrite Nat.add_0_r; exists b, z; auto 10|].
    replace (a + S k)%nat with (S a + k)%nat by lia. apply (C2 k e). lia. }
  destruct BV as (col & C1 & C2).
  set (M := fun i k => nth i (ravel (nth k col tree_None)) 0).
  (* linear functions are matrices *)
  assert (MX : forall c z, like control c -> vf_prod c = Ok z -> like out1 z /\ forall i, (i < m)%nat -> nth i (ravel z) 0 = dot (map (M i) (seq 0 n)) (ravel c)).
  { intros c z Hc Hz. assert (Lz : like out1 z) by (destruct (lin_total _ _ _ Lin c Hc) as (z' & Z1 & Z2); rewrite Hz in Z1; injection Z1 as ->; auto).
    split; [auto|]. intros i Hi.
    set (phi := fun v => match unravel control v with Ok c => match vf_prod c with Ok z => nth i (ravel z) 0 | _ => 0 end | _ => 0 end).
    assert (PH : forall c z, like control c -> vf_prod c = Ok z -> phi (ravel c) = nth i (ravel z) 0).
    { intros c' z' Hc' Hz'. unfold phi. destruct (unravel_ok control (ravel c')) as (c'' & U1 & U2 & U3); [now rewrite (ravel_length control c' Hc')|].
      rewrite U1. assert (c'' = c') as ->; [|now rewrite Hz'].
      apply tree_ext; [now rewrite (like_structure _ _ U2), (like_structure _ _ Hc')|].
      pose proof (like_shapes _ _ U2) as A. rewrite <- (like_shapes _ _ Hc') in A.
      assert (D : forall l l', map shape l = map shape l' -> Forall well_formed l -> Forall well_formed l' -> flat_map data l = flat_map data l' -> l = l').
      { clear. induction l as [|[s x] l IH]; intros [|[s' x'] l'] E F F' D; try discriminate; [reflexivity|]. cbn in E, D. injection E as -> E.
        inversion F as [|? ? W1 W2]; inversion F' as [|? ? W1' W2']; subst. unfold well_formed in *. cbn in *.
        assert (LEN : length x = length x') by lia.
        assert (x = x') as ->.
        { apply (f_equal (firstn (length x))) in D. rewrite firstn_app, firstn_all, Nat.sub_diag, LEN, firstn_app, firstn_all, Nat.sub_diag in D.
          cbn [firstn] in D. now rewrite !app_nil_r in D. }
        apply app_inv_head in D. f_equal. auto. }
      apply D; [auto|apply U2|apply Hc'|exact U3]. }
    rewrite <- (PH c z Hc Hz). rewrite (linear_functional n phi).
    - f_equal. apply map_ext_in. intros k Hk. apply in_seq in Hk. destruct (C2 k tree_None ltac:(lia)) as (b & zb & B1 & B2 & B3 & B4 & B5 & B6).
      rewrite <- B3. rewrite (PH b zb B2 B4). unfold M. now rewrite B6.
    - intros a b v w Lv Lw.
      destruct (unravel_ok control v Lv) as (cv & V1 & V2 & V3). destruct (unravel_ok control w Lw) as (cw & W1 & W2 & W3).
      destruct (unravel_ok control (comb a b v w)) as (cc & X1 & X2 & X3); [unfold comb; rewrite map2_length by lia; auto|].
      destruct (lin_total _ _ _ Lin cv V2) as (zv & ZV1 & ZV2). destruct (lin_total _ _ _ Lin cw W2) as (zw & ZW1 & ZW2).
      destruct (lin_total _ _ _ Lin cc X2) as (zc & ZC1 & ZC2).
      rewrite <- X3, <- V3, <- W3. rewrite (PH cc zc X2 ZC1), (PH cv zv V2 ZV1), (PH cw zw W2 ZW1).
      assert (CB : combination a cv b cw cc) by (unfold combination; rewrite X3, V3, W3; reflexivity).
      pose proof (lin_combination _ _ _ Lin a b cv cw cc zv zw zc V2 W2 X2 ZV1 ZW1 ZC1 CB) as Q. unfold combination in Q. rewrite Q.
      assert (QL : length (ravel zv) = m /\ length (ravel zw) = m) by (split; apply (ravel_length out1); auto).
      apply (map2_nth (fun u v => a * u + b * v) (ravel zv) (ravel zw) i 0 0 0); lia.
    - apply (ravel_length control c Hc). }
  (* the Jacobian is that matrix, whichever way it is found *)
  assert (JJ : forall M' : nat -> nat -> R, (forall i k, (i < m)%nat -> (k < n)%nat -> M' i k = M i k) ->
     exists t, jac_tree M' control out1 = Ok t /\
     (if same_structure tree_None (tree_structure out1) || same_structure tree_None (tree_structure control) then Raise NotImplementedError
      else tree_transpose (tree_structure out1) (tree_structure control) t) <> Raise NotImplementedError /\
     exists v, (if same_structure tree_None (tree_structure out1) || same_structure tree_None (tree_structure control) then Raise NotImplementedError
      else tree_transpose (tree_structure out1) (tree_structure control) t) = Ok v /\ forall c, like control c -> adjoint_prod v c = vf_prod c).
  { intros M' EM. destruct (jac_tree_grid control out1 M') as (t & T1 & T2). exists t. split; [auto|].
    assert (NN : forall t : pytree array, tree_leaves t <> [] -> same_structure tree_None (tree_structure t) = false).
    { intros t' Ht. destruct (same_structure _ _) eqn:E; [|auto]. apply same_structure_eq in E. pose proof (num_leaves_structure t') as Q.
      rewrite <- E in Q. unfold num_leaves in Q. destruct (tree_leaves t'); [congruence|discriminate]. }
    rewrite !NN by auto. cbn [orb].
    assert (ND : num_leaves (tree_structure out1) <> 0%nat).
    { rewrite num_leaves_structure. unfold num_leaves. destruct (tree_leaves out1); [congruence|discriminate]. }
    destruct (transpose_grid _ _ _ t ND T2) as (v & V1 & V2). rewrite V1. split; [discriminate|]. exists v. split; [auto|].
    intros c Hc. destruct (lin_total _ _ _ Lin c Hc) as (z & Z1 & Z2). rewrite Z1. destruct (MX c z Hc Z1) as [Lz Ez].
    apply (prod_matrix control out1 M' v c z); auto. intros i Hi. rewrite (Ez i Hi). f_equal. apply map_ext_in.
    intros k Hk. apply in_seq in Hk. symmetry. apply EM; auto. unfold n. lia. }
  unfold adjoint_vf. fold n.
  assert (FW : exists t, jacfwd vf_prod jvp control = Ok (out1, t) /\ jac_tree M control out1 = Ok t).
  { unfold jacfwd. rewrite O1. cbn [rbind]. rewrite (proj2 (Nat.eqb_neq _ _)) by (unfold num_leaves; destruct (tree_leaves control); [congruence|discriminate]).
    fold n.
    assert (CO : map (fun k => rbind (unravel control (eye n k)) (jvp control)) (seq 0 n) = map Ok col).
    { symmetry. rewrite (list_by_nth (map Ok col) n (fun k => rbind (unravel control (eye n k)) (jvp control))); [reflexivity|now rewrite map_length|].
      intros k d Hk. destruct (C2 k tree_None Hk) as (b & z & B1 & B2 & B3 & B4 & B5 & B6). rewrite B1. cbn [rbind]. rewrite (J control b Lc B2), B4.
      rewrite (nth_indep _ d (Ok tree_None)) by (rewrite map_length; lia). rewrite map_nth. now rewrite B6. }
    rewrite CO, result_list_ok. cbn [rbind]. destruct (JJ M (fun _ _ _ _ => eq_refl)) as (t & T1 & _). exists t. fold M. now rewrite T1. }
  assert (RV : exists t M', jacrev vf_prod vjp control = Ok (out1, t) /\ jac_tree M' control out1 = Ok t /\ forall i k, (i < m)%nat -> (k < n)%nat -> M' i k = M i k).
  { unfold jacrev. rewrite O1. cbn [rbind]. rewrite (proj2 (Nat.eqb_neq _ _)) by (unfold num_leaves; destruct (tree_leaves out1); [congruence|discriminate]).
    fold m.
    assert (RW : exists rows, map (fun i => rbind (unravel out1 (eye m i)) (vjp control)) (seq 0 m) = map Ok rows /\
        forall i k, (i < m)%nat -> (k < n)%nat -> nth k (ravel (nth i rows tree_None)) 0 = M i k).
    { enough (K : forall q a, (a + q <= m)%nat -> exists rows, map (fun i => rbind (unravel out1 (eye m i)) (vjp control)) (seq a q) = map Ok rows /\
        forall i k, (i < q)%nat -> (k < n)%nat -> nth k (ravel (nth i rows tree_None)) 0 = M (a + i)%nat k) by (apply (K m 0%nat); lia).
      induction q; intros a Ha; [exists []; split; [auto|intros; lia]|].
      destruct (IHq (S a) ltac:(lia)) as (rows & R1 & R2).
      destruct (unravel_ok out1 (eye m a)) as (w & U1 & U2 & U3); [apply eye_length|].
      destruct (W control w Lc (L2 _ U2)) as (g & G1 & G2 & G3). exists (g :: rows). cbn [seq map]. rewrite U1. cbn [rbind]. rewrite G1, R1. split; [auto|].
      intros [|i] k Hi Hk; [|replace (a + S i)%nat with (S a + i)%nat by lia; apply R2; lia].
      rewrite Nat.add_0_r. cbn [nth]. destruct (C2 k tree_None Hk) as (b & z & B1 & B2 & B3 & B4 & B5 & B6).
      specialize (G3 b z B2 B4). rewrite U3, B3 in G3. rewrite dot_sym, dot_eye in G3 by (auto; apply (ravel_length control g G2)).
      rewrite dot_eye in G3 by (auto; try lia; apply (ravel_length out1 z B5)). rewrite G3. unfold M. now rewrite B6. }
    destruct RW as (rows & R1 & R2). rewrite R1, result_list_ok. cbn [rbind].
    destruct (JJ (fun i k => nth k (ravel (nth i rows tree_None)) 0) R2) as (t & T1 & _).
    exists t, (fun i k => nth k (ravel (nth i rows tree_None)) 0). rewrite T1. auto. }
  destruct (n <? y_size)%nat.
  - destruct FW as (t & F1 & F2). rewrite F1. cbn [rbind]. destruct (JJ M (fun _ _ _ _ => eq_refl)) as (t' & T1 & _ & v & T2).
    rewrite F2 in T1. injection T1 as <-. eauto.
  - destruct RV as (t & M' & F1 & F2 & F3). rewrite F1. cbn [rbind]. destruct (JJ M' F3) as (t' & T1 & _ & v & T2).
    rewrite F2 in T1. injection T1 as <-. eauto.
Qed.

(** ** The augmented vector field *)
Lemma inner_ext (n : nat) (v w v' w' : vec) : (forall i, (i < n)%nat -> v i = v' i /\ w i = w' i) -> inner n v w = inner n v' w'.
Proof.
  intros H. unfold inner. f_equal. apply map_ext_in. intros i Hi. apply in_seq in Hi. destruct (H i ltac:(lia)) as [-> ->]. reflexivity.
Qed.
Lemma inner_comb_r (n : nat) (w : vec) (a b : R) (v v' : vec) :
  inner n w (fun i => a * v i + b * v' i) = a * inner n w v + b * inner n w v'.
Proof. unfold inner. induction (seq 0 n); cbn; [ring|]. rewrite IHl. ring. Qed.
Lemma inner_opp (n : nat) (w v : vec) : inner n (fun i => - w i) v = - inner n w v.
Proof. unfold inner. induction (seq 0 n); cbn; [ring|]. rewrite IHl. ring. Qed.
Lemma inner_zero (n : nat) (w : vec) : inner n w (fun _ => 0) = 0.
Proof. unfold inner. induction (seq 0 n); cbn; [ring|]. rewrite IHl. ring. Qed.
Lemma inner_basis (n : nat) (w : vec) (k : nat) : (k < n)%nat -> inner n w (fun i => if Nat.eqb i k then 1 else 0) = w k.
Proof.
  intros K. unfold inner.
  enough (H : forall m a, fold_right Rplus 0 (map (fun i => w i * (if Nat.eqb i k then 1 else 0)) (seq a m)) =
              if (a <=? k)%nat && (k <? a + m)%nat then w k else 0).
  { rewrite H. cbn [Nat.leb Nat.add andb]. now rewrite (proj2 (Nat.ltb_lt _ _) K). }
  induction m; intros a; cbn [seq map fold_right].
  - rewrite Nat.add_0_r. destruct (a <=? k)%nat eqn:E; [|reflexivity]. apply Nat.leb_le in E. rewrite (proj2 (Nat.ltb_ge _ _)) by lia. reflexivity.
  - rewrite IHm. destruct (Nat.eqb_spec a k) as [->|N].
    + rewrite Nat.leb_refl. rewrite (proj2 (Nat.leb_gt (S k) k)) by lia. rewrite (proj2 (Nat.ltb_lt k (k + S m))) by lia. cbn [andb]. ring.
    + destruct (a <=? k)%nat eqn:E1.
      * apply Nat.leb_le in E1. rewrite (proj2 (Nat.leb_le (S a) k)) by lia. replace (S a + m)%nat with (a + S m)%nat by lia. cbn [andb]. ring.
      * apply Nat.leb_gt in E1. rewrite (proj2 (Nat.leb_gt (S a) k)) by lia. cbn [andb]. ring.
Qed.
Lemma derivative_linear (n q : nat) (f : vec -> vec -> vec -> vec) (vjp : vec -> vec -> vec -> vec -> vec * vec) :
  linear_in_control n f ->
  (forall y theta c w, transposed_derivative n q (fun y theta => f y theta c) y theta w (vjp y theta c w)) ->
  forall y theta w a b c e, 
  (forall i, (i < n)%nat -> fst (vjp y theta (fun k => a * c k + b * e k) w) i = a * fst (vjp y theta c w) i + b * fst (vjp y theta e w) i) /\
  (forall i, (i < q)%nat -> snd (vjp y theta (fun k => a * c k + b * e k) w) i = a * snd (vjp y theta c w) i + b * snd (vjp y theta e w) i).
Proof.
  intros L D y theta w a b c e.
  assert (Q : forall d r, inner n (fst (vjp y theta (fun k => a * c k + b * e k) w)) d + inner q (snd (vjp y theta (fun k => a * c k + b * e k) w)) r =
     a * (inner n (fst (vjp y theta c w)) d + inner q (snd (vjp y theta c w)) r) + b * (inner n (fst (vjp y theta e w)) d + inner q (snd (vjp y theta e w)) r)).
  { intros d r. refine (uniqueness_limite _ 0 _ _ (D y theta (fun k => a * c k + b * e k) w d r) _).
    pose proof (derivable_pt_lim_plus _ _ 0 _ _
       (derivable_pt_lim_scal _ a 0 _ (D y theta c w d r)) (derivable_pt_lim_scal _ b 0 _ (D y theta e w d r))) as P.
    intros eps He. destruct (P eps He) as [del Pd]. exists del. intros h H1 H2. specialize (Pd h H1 H2).
    unfold plus_fct, mult_real_fct in Pd.
    assert (X : forall u, inner n w (f (along y d u) (along theta r u) (fun k => a * c k + b * e k)) =
       a * inner n w (f (along y d u) (along theta r u) c) + b * inner n w (f (along y d u) (along theta r u) e)).
    { intros u. rewrite <- inner_comb_r. apply inner_ext. intros i Hi. split; [reflexivity|]. apply L. auto. }
    rewrite !X. exact Pd. }
  split; intros i Hi.
  - specialize (Q (fun j => if Nat.eqb j i then 1 else 0) (fun _ => 0)). rewrite !inner_zero, !inner_basis in Q by auto. lra.
  - specialize (Q (fun _ => 0) (fun j => if Nat.eqb j i then 1 else 0)). rewrite !inner_zero, !inner_basis in Q by auto. lra.
Qed.

Lemma pf_C69_linear (n q : nat) (f : vec -> vec -> vec -> vec) (vjp : vec -> vec -> vec -> vec -> vec * vec) (theta : vec) (aug : vec * vec * vec)
  (a b : R) (c d : vec) :
  linear_in_control n f ->
  (forall y theta c w, transposed_derivative n q (fun y theta => f y theta c) y theta w (vjp y theta c w)) ->
  let z := adjoint_vf_prod f vjp theta aug in
  let s := z (fun k => a * c k + b * d k) in
  (forall i, (i < n)%nat -> fst (fst s) i = a * fst (fst (z c)) i + b * fst (fst (z d)) i) /\
  (forall i, (i < n)%nat -> snd (fst s) i = a * snd (fst (z c)) i + b * snd (fst (z d)) i) /\
  (forall i, (i < q)%nat -> snd s i = a * snd (z c) i + b * snd (z d) i).
Proof.
  intros L D z s. subst s z. destruct aug as [[y ay] at_].
  unfold adjoint_vf_prod. destruct (derivative_linear n q f vjp L D y theta (fun i => - ay i) a b c d) as [P Q].
  destruct (vjp y theta (fun k => a * c k + b * d k) (fun i => - ay i)) as [g1 g2].
  destruct (vjp y theta c (fun i => - ay i)) as [g3 g4]. destruct (vjp y theta d (fun i => - ay i)) as [g5 g6]. cbn [fst snd] in *.
  split; [intros; now apply L|]. split; auto.
Qed.

Lemma pf_C69_adjoint (n q : nat) (f : vec -> vec -> vec -> vec) (vjp : vec -> vec -> vec -> vec -> vec * vec) (theta y a_y a_args control d e : vec) :
  (forall y theta c w, transposed_derivative n q (fun y theta => f y theta c) y theta w (vjp y theta c w)) ->
  let z := adjoint_vf_prod f vjp theta (y, a_y, a_args) control in
  (forall i, fst (fst z) i = f y theta control i) /\
  derivable_pt_lim (fun h => inner n a_y (f (along y d h) (along theta e h) control)) 0 (- (inner n (snd (fst z)) d + inner q (snd z) e)).
Proof.
  intros D z. subst z. unfold adjoint_vf_prod. specialize (D y theta control (fun i => - a_y i) d e).
  destruct (vjp y theta control (fun i => - a_y i)) as [g1 g2]. cbn [fst snd] in *. split; [reflexivity|].
  pose proof (derivable_pt_lim_opp _ 0 _ D) as P.
  intros eps He. destruct (P eps He) as [del Pd]. exists del. intros h H1 H2. specialize (Pd h H1 H2). unfold opp_fct in Pd.
  rewrite !inner_opp, !Ropp_involutive in Pd. exact Pd.
Qed.

Lemma pf_C69_expensive (control : pytree array) : like control control ->
  adjoint_is_vf_expensive control = true <-> (2 <= length (ravel control))%nat.
Proof.
  intros L. rewrite (ravel_length control control L). unfold adjoint_is_vf_expensive.
  destruct (tree_size control) as [|[|n]]; cbn; split; try discriminate; try lia; auto.
Qed.

Lemma leafless_map2 {A B C} (f : A -> pytree B -> result C) (s : pytree A) : forall t u, tree_leaves s = [] -> tree_map2 f s t = Ok u -> tree_leaves u = [].
Proof.
  induction s as [a|g l IH] using pytree_ind2; intros t u H E; [discriminate|].
  cbn [tree_map2] in E. destruct t as [b|g' l']; [discriminate|]. destruct (Nat.eqb g g'); [|discriminate].
  match type of E with rmap _ ?x = _ => destruct x as [us|] eqn:G end; [|discriminate]. cbn in E. injection E as <-.
  cbn [tree_leaves] in *. revert l' us G H. induction IH as [|s l Hs _ IHl]; intros [|t l'] us G H; cbn in *; try discriminate.
  - now injection G as <-.
  - apply app_eq_nil in H as [H1 H2]. destruct (tree_map2 f s t) as [c|] eqn:G1; [|discriminate]. cbn in G.
    match type of G with rmap _ ?x = _ => destruct x as [cs|] eqn:G2 end; [|discriminate]. cbn in G. injection G as <-.
    cbn. rewrite (Hs t c H1 G1). cbn. apply (IHl l' cs G2 H2).
Qed.
Lemma pf_C69_no_leaves (v control : pytree array) : tree_leaves control = [] -> exists e, adjoint_prod v control = Raise e.
Proof.
  intros H. unfold adjoint_prod. destruct (tree_map2 _ control v) as [u|e] eqn:E; cbn [rbind]; [|eexists; reflexivity].
  rewrite (leafless_map2 _ _ _ _ H E). eexists. reflexivity.
Qed.
