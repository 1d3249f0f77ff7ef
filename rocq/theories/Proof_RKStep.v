(** Proofs about one Runge--Kutta step. *)
From Coq Require Import Reals QArith Qabs Qreals List Bool Arith Lia Lra FunctionalExtensionality.
From Verif Require Import Model_Result Model_RK Spec_RK.
Import ListNotations.
Open Scope R_scope.

(** ** Sums and lists *)

Lemma sum_n_ext n f g : (forall i, (i < n)%nat -> f i = g i) -> sum_n n f = sum_n n g.
Proof.
  induction n; intros H; [reflexivity|]. cbn [sum_n].
  rewrite IHn by (intros; apply H; lia). rewrite (H n) by lia. reflexivity.
Qed.
Lemma sum_n_shift n f : sum_n (S n) f = f 0%nat + sum_n n (fun i => f (S i)).
Proof. induction n; [cbn; lra|]. cbn [sum_n] in *. rewrite IHn. lra. Qed.
Lemma sum_n_0 n f : (forall i, (i < n)%nat -> f i = 0) -> sum_n n f = 0.
Proof. induction n; intros H; [reflexivity|]. cbn [sum_n]. rewrite IHn, H; [lra|lia|intros; apply H; lia]. Qed.
Lemma sum_n_plus n f g : sum_n n (fun i => f i + g i) = sum_n n f + sum_n n g.
Proof. induction n; [cbn; lra|]. cbn [sum_n]. rewrite IHn. lra. Qed.
Lemma sum_n_scal n a f : sum_n n (fun i => a * f i) = a * sum_n n f.
Proof. induction n; [cbn; lra|]. cbn [sum_n]. rewrite IHn. lra. Qed.
Lemma sum_n_one n p f : (p < n)%nat -> (forall i, (i < n)%nat -> i <> p -> f i = 0) -> sum_n n f = f p.
Proof.
  induction n; intros L H; [lia|]. cbn [sum_n]. destruct (Nat.eq_dec p n) as [->|N].
  - rewrite sum_n_0 by (intros; apply H; lia). lra.
  - rewrite IHn; [|lia|intros; apply H; lia]. rewrite (H n) by lia. lra.
Qed.

Lemma nth_error_map2 {A B C} (f : A -> B -> C) l m i :
  nth_error (map2 f l m) i =
  match nth_error l i, nth_error m i with Some x, Some y => Some (f x y) | _, _ => None end.
Proof.
  revert m i. induction l; intros [|b m] [|i]; cbn; try reflexivity.
  - destruct (nth_error l i); reflexivity.
  - apply IHl.
Qed.
Lemma map2_length {A B C} (f : A -> B -> C) l m : length (map2 f l m) = Nat.min (length l) (length m).
Proof. revert m. induction l; intros [|b m]; cbn; try reflexivity. f_equal. apply IHl. Qed.
Lemma set_nth_length {A} i (v : A) l : length (set_nth i v l) = length l.
Proof. revert i. induction l; intros [|i]; cbn; try reflexivity. f_equal. apply IHl. Qed.
Lemma nth_set_nth {A} i j (v d : A) l :
  nth j (set_nth i v l) d = if ((j =? i) && (i <? length l))%nat then v else nth j l d.
Proof.
  revert i j. induction l; intros i j.
  - replace (i <? length [])%nat with false by reflexivity. rewrite andb_false_r. destruct i; reflexivity.
  - destruct i, j; try reflexivity. cbn [set_nth nth nth_error]. rewrite IHl. reflexivity.
Qed.
Lemma nth_error_set_nth {A} i j (v : A) l :
  nth_error (set_nth i v l) j = if ((j =? i) && (i <? length l))%nat then Some v else nth_error l j.
Proof.
  revert i j. induction l; intros i j.
  - replace (i <? length [])%nat with false by reflexivity. rewrite andb_false_r. destruct i; reflexivity.
  - destruct i, j; try reflexivity. cbn [set_nth nth nth_error]. rewrite IHl. reflexivity.
Qed.
Lemma nth_error_combine {A B} (l : list A) (m : list B) i :
  nth_error (combine l m) i =
  match nth_error l i, nth_error m i with Some x, Some y => Some (x, y) | _, _ => None end.
Proof.
  revert m i. induction l; intros [|b m] [|i]; cbn; try reflexivity.
  - destruct (nth_error l i); reflexivity.
  - apply IHl.
Qed.
Lemma nth_of_error {A} (l : list A) i d x : nth_error l i = Some x -> nth i l d = x.
Proof. revert i; induction l; intros [|i]; cbn; intros H; try discriminate; [congruence|eauto]. Qed.
Lemma nth_error_lt {A} (l : list A) i : (i < length l)%nat -> exists x, nth_error l i = Some x.
Proof.
  intros H. destruct (nth_error l i) eqn:E; [eauto|]. apply nth_error_None in E. lia.
Qed.
Lemma nth_error_repeat {A} (x : A) n i : (i < n)%nat -> nth_error (repeat x n) i = Some x.
Proof. revert i; induction n; intros [|i]; cbn; intros; try lia; [reflexivity|apply IHn; lia]. Qed.
Lemma last_nth {A} (l : list A) d : last l d = nth (length l - 1) l d.
Proof.
  induction l as [|a l IH]; [reflexivity|]. destruct l; [reflexivity|].
  change (last (a :: a0 :: l) d) with (last (a0 :: l) d). rewrite IH.
  cbn [length]. replace (S (S (length l)) - 1)%nat with (S (length l)) by lia.
  replace (S (length l) - 1)%nat with (length l) by lia. reflexivity.
Qed.
Lemma nth_error_removelast {A} (l : list A) i : (S i < length l)%nat -> nth_error (removelast l) i = nth_error l i.
Proof.
  revert i. induction l as [|a l IH]; intros i H; [cbn in H; lia|].
  destruct l; [cbn in H; lia|]. destruct i; [reflexivity|].
  change (removelast (a :: a0 :: l)) with (a :: removelast (a0 :: l)). cbn [nth_error].
  apply IH. cbn in *. lia.
Qed.

Lemma find_index_some {A} (p : A -> bool) l i :
  find_index p l = Some i -> exists x, nth_error l i = Some x /\ p x = true.
Proof.
  revert i. induction l as [|a l IH]; intros i; cbn; [discriminate|].
  destruct (p a) eqn:E.
  - intros H. injection H as <-. exists a. split; [reflexivity|exact E].
  - destruct (find_index p l); cbn; intros H; [|discriminate]. injection H as <-. apply IH. reflexivity.
Qed.
Lemma find_index_none {A} (p : A -> bool) l : find_index p l = None -> forall x, In x l -> p x = false.
Proof.
  induction l as [|a l IH]; cbn; [intros _ x []|]. destruct (p a) eqn:E; [discriminate|].
  destruct (find_index p l); cbn; [discriminate|]. intros _ x [<-|H]; [exact E|apply IH; auto].
Qed.

Section VecLemmas.
  Context {K : Type}.
  Lemma vdot_sum (a : list Q) (b : list (K -> R)) x :
    vector_tree_dot a b x = sum_n (length b) (fun j => Q2R (nth j a 0%Q) * nth j b vzero x).
  Proof.
    revert b. induction a as [|q a IH]; intros b.
    - replace (vector_tree_dot [] b x) with 0 by (destruct b; reflexivity).
      rewrite sum_n_0; [reflexivity|]. intros i _. destruct i; cbn; rewrite RMicromega.Q2R_0; lra.
    - destruct b as [|u b]; [reflexivity|].
      change (vector_tree_dot (q :: a) (u :: b) x) with (Q2R q * u x + vector_tree_dot a b x).
      change (length (u :: b)) with (S (length b)). rewrite sum_n_shift. cbn [nth]. rewrite <- IH. reflexivity.
  Qed.
  Lemma vsum_sum (y : K -> R) l x : vsum y l x = y x + sum_n (length l) (fun m => nth m l vzero x).
  Proof.
    revert y. unfold vsum. induction l as [|u l IH]; intros y.
    - cbn. lra.
    - cbn [fold_left]. rewrite IH. change (length (u :: l)) with (S (length l)). rewrite sum_n_shift.
      cbn [nth]. unfold vadd. lra.
  Qed.
End VecLemmas.

(** ** Tableaus *)

Record shaped (s : nat) (tab : tableau) : Prop := Shaped {
  sh_s : (2 <= s)%nat;
  sh_c : length (tab_c tab) = (s - 1)%nat;
  sh_a : length (tab_a_lower tab) = (s - 1)%nat;
  sh_rows : forall i, (i < s - 1)%nat -> length (nth i (tab_a_lower tab) []) = S i;
  sh_b : length (tab_b_sol tab) = s;
  sh_e : length (tab_b_error tab) = s;
  sh_d : forall d, tab_a_diagonal tab = Some d -> length d = s
}.

Lemma rows_shape rows :
  forallb (fun p : nat * list Q => Nat.eqb (S (fst p)) (length (snd p))) (combine (seq 0 (length rows)) rows) = true ->
  forall i, (i < length rows)%nat -> length (nth i rows []) = S i.
Proof.
  intros H i L. rewrite forallb_forall in H.
  assert (E : In (i, nth i rows []) (combine (seq 0 (length rows)) rows)).
  { apply (nth_error_In _ i). rewrite nth_error_combine.
    rewrite (nth_error_nth' _ 0%nat) by (rewrite seq_length; exact L). rewrite seq_nth by exact L.
    rewrite (nth_error_nth' _ [] L). reflexivity. }
  apply H in E. cbn [fst snd] in E. apply Nat.eqb_eq in E. auto.
Qed.

Lemma post_init_shaped s tab : post_init_ok tab = true -> num_stages tab = s -> shaped s tab.
Proof.
  unfold post_init_ok, shapes_ok, num_stages. intros H N.
  apply andb_prop in H as [H Z]. apply andb_prop in H as [H D]. apply andb_prop in H as [H _].
  apply andb_prop in H as [H E]. apply andb_prop in H as [H B]. apply andb_prop in H as [LA RW].
  apply Nat.eqb_eq in E, B, LA. apply negb_true_iff, Nat.eqb_neq in Z.
  constructor; try lia.
  - intros i L. apply rows_shape; [exact RW|lia].
  - intros d Hd. unfold implicit_ok in D. rewrite Hd in D. destruct (tab_a_predictor tab); [|discriminate].
    apply andb_prop in D as [D _]. apply andb_prop in D as [D _]. apply Nat.eqb_eq in D. lia.
Qed.

Lemma nth_firstn_lt {A} n j (l : list A) d : (j < n)%nat -> nth j (firstn n l) d = nth j l d.
Proof.
  revert j l. induction n; intros j l H; [lia|]. destruct l; [reflexivity|].
  destruct j; [reflexivity|]. cbn. apply IHn. lia.
Qed.
Lemma embed_row s rows i j :
  (length rows < s)%nat -> (i <= length rows)%nat ->
  (forall r, (r < length rows)%nat -> length (nth r rows []) = S r) ->
  nth j (nth i (embed s rows) []) 0%Q =
  if (j <? i)%nat then nth j (nth (i - 1) rows []) 0%Q else 0%Q.
Proof.
  intros L Li SH. destruct i as [|i].
  - cbn [embed nth]. rewrite nth_repeat. destruct (j <? 0)%nat eqn:E; [apply Nat.ltb_lt in E; lia|reflexivity].
  - unfold embed. cbn [nth]. replace (S i - 1)%nat with i by lia.
    rewrite (nth_indep _ [] (pad_row s [])) by (rewrite map_length; lia).
    rewrite map_nth. unfold pad_row. specialize (SH i ltac:(lia)).
    destruct (j <? S i)%nat eqn:E.
    + apply Nat.ltb_lt in E. rewrite nth_firstn_lt by lia. apply app_nth1. lia.
    + apply Nat.ltb_ge in E. destruct (lt_dec j s) as [J|J].
      * rewrite nth_firstn_lt by lia. rewrite app_nth2 by lia. apply nth_repeat.
      * apply nth_overflow. rewrite firstn_length, app_length, repeat_length. lia.
Qed.

Lemma coef_a_lower s tab i j : shaped s tab -> (i < s)%nat -> j <> i ->
  coef_a tab i j = Q2R (nth j (nth i (embed s (tab_a_lower tab)) []) 0%Q).
Proof.
  intros S L N. rewrite embed_row.
  - unfold coef_a. destruct (j <? i)%nat; [reflexivity|]. apply Nat.eqb_neq in N. rewrite N.
    symmetry. apply RMicromega.Q2R_0.
  - rewrite (sh_a _ _ S). pose proof (sh_s _ _ S). lia.
  - rewrite (sh_a _ _ S). lia.
  - intros r Hr. apply (sh_rows _ _ S). rewrite (sh_a _ _ S) in Hr. exact Hr.
Qed.
Lemma embed_diag s tab i : shaped s tab -> (i < s)%nat ->
  nth i (nth i (embed s (tab_a_lower tab)) []) 0%Q = 0%Q.
Proof.
  intros S L. rewrite embed_row.
  - rewrite Nat.ltb_irrefl. reflexivity.
  - rewrite (sh_a _ _ S). pose proof (sh_s _ _ S). lia.
  - rewrite (sh_a _ _ S). lia.
  - intros r Hr. apply (sh_rows _ _ S). rewrite (sh_a _ _ S) in Hr. exact Hr.
Qed.
Lemma coef_a_diag tab i : coef_a tab i i = Q2R (diagonal_or_zero tab i).
Proof.
  unfold coef_a, diagonal_or_zero, nthQ. rewrite Nat.ltb_irrefl, Nat.eqb_refl.
  destruct (tab_a_diagonal tab); [reflexivity|symmetry; apply RMicromega.Q2R_0].
Qed.

Lemma stage_time_spec t0 t1 tab i :
  stage_time t0 t1 (nthQ (embed_c tab) i) = t0 + coef_c tab i * (t1 - t0).
Proof.
  assert (E : Q2R (nthQ (embed_c tab) i) = coef_c tab i) by (destruct i; reflexivity).
  unfold stage_time. rewrite E. destruct (Qeq_bool _ 1) eqn:H; [|reflexivity].
  apply Qeq_bool_eq, Qeq_eqR in H. rewrite E in H. rewrite H, RMicromega.Q2R_1. lra.
Qed.

(** The last row of a tableau with the last-stage shortcut is the row of the weights. *)
Lemma last_row s tab j :
  shaped s tab -> lower_b_sol_equal tab = true -> diagonal_b_sol_equal tab = true -> (j < s)%nat ->
  coef_a tab (s - 1) j = coef_b tab j.
Proof.
  intros S LB DB L. pose proof (sh_s _ _ S). unfold coef_b.
  destruct (Nat.eq_dec j (s - 1)) as [->|N].
  - rewrite coef_a_diag. unfold diagonal_b_sol_equal in DB. apply Qeq_bool_eq, Qeq_eqR in DB.
    rewrite last_nth, (sh_b _ _ S) in DB. rewrite DB. unfold diagonal_or_zero, nthQ.
    destruct (tab_a_diagonal tab) as [d|] eqn:D; [|reflexivity].
    rewrite last_nth, (sh_d _ _ S d D). reflexivity.
  - unfold coef_a. replace (j <? s - 1)%nat with true by (symmetry; apply Nat.ltb_lt; lia).
    apply Qeq_eqR. unfold lower_b_sol_equal in LB. rewrite forallb_forall in LB.
    assert (R : length (last (tab_a_lower tab) []) = (s - 1)%nat).
    { rewrite last_nth, (sh_a _ _ S), (sh_rows _ _ S); lia. }
    specialize (LB (nth j (tab_b_sol tab) 0%Q, nth j (last (tab_a_lower tab) []) 0%Q)).
    cbn [fst snd] in LB. symmetry. rewrite last_nth, (sh_a _ _ S) in LB.
    apply Qeq_bool_eq, LB. apply (nth_error_In _ j). rewrite nth_error_combine, nth_error_removelast by (rewrite (sh_b _ _ S); lia).
    destruct (nth_error_lt (tab_b_sol tab) j) as [b Hb]; [rewrite (sh_b _ _ S); lia|].
    rewrite last_nth, (sh_a _ _ S) in R.
    destruct (nth_error_lt (nth (s - 1 - 1) (tab_a_lower tab) []) j) as [a Ha]; [lia|].
    rewrite Hb, Ha. rewrite (nth_of_error _ _ _ _ Hb), (nth_of_error _ _ _ _ Ha). reflexivity.
Qed.

Lemma update_okay a b : is_okay (update_result a b) = true -> is_okay a = true /\ is_okay b = true.
Proof. destruct a, b; cbn; auto. Qed.
Lemma update_okay_iff a b : is_okay (update_result a b) = is_okay a && is_okay b.
Proof. destruct a, b; cbn; auto. Qed.

(** ** One stage *)

Lemma sum_diag s tab i (k : nat -> R) : shaped s tab -> (i < s)%nat ->
  sum_n s (fun j => coef_a tab i j * k j) =
  sum_n s (fun j => Q2R (nth j (nth i (embed s (tab_a_lower tab)) []) 0%Q) * k j)
  + Q2R (diagonal_or_zero tab i) * k i.
Proof.
  intros S L.
  rewrite (sum_n_ext s _ (fun j => Q2R (nth j (nth i (embed s (tab_a_lower tab)) []) 0%Q) * k j
                                   + (if (j =? i)%nat then Q2R (diagonal_or_zero tab i) * k i else 0))).
  - rewrite sum_n_plus. f_equal. rewrite (sum_n_one s i); [|exact L|].
    + rewrite Nat.eqb_refl. reflexivity.
    + intros j _ N. apply Nat.eqb_neq in N. rewrite N. reflexivity.
  - intros j Hj. destruct (Nat.eqb_spec j i) as [->|N].
    + rewrite coef_a_diag, embed_diag by assumption. rewrite RMicromega.Q2R_0. lra.
    + rewrite (coef_a_lower s) by assumption. lra.
Qed.

Section Stage.
  Context {I J C : Type}.
  Variable sv : solver I J C.
  Variable s : nat.
  Hypothesis V : valid_parts s (sv_parts sv).
  Variables (t0 t1 : R) (y0 : I -> R).
  Notation ps := (sv_parts sv).
  Notation M := (length ps).

  Lemma part_tabs m tab trm : nth_error ps m = Some (tab, trm) -> nth_error (map fst ps) m = Some tab.
  Proof. intros H. rewrite nth_error_map, H. reflexivity. Qed.
  Lemma part_terms m tab trm : nth_error ps m = Some (tab, trm) -> nth_error (map snd ps) m = Some trm.
  Proof. intros H. rewrite nth_error_map, H. reflexivity. Qed.
  Lemma part_controls m tab trm : nth_error ps m = Some (tab, trm) ->
    nth_error (controls sv t0 t1) m = Some (t_contr trm t0 t1).
  Proof. intros H. unfold controls. rewrite !nth_error_map, H. reflexivity. Qed.
  Lemma part_shaped m tab trm : nth_error ps m = Some (tab, trm) -> shaped s tab.
  Proof.
    intros H. destruct V as (_ & A & _). apply nth_error_In, A in H as (P & N & _).
    apply post_init_shaped; assumption.
  Qed.
  Lemma part_consistent m tab trm : nth_error ps m = Some (tab, trm) -> consistent_term trm.
  Proof. intros H. destruct V as (_ & A & _). apply nth_error_In, A in H. apply H. Qed.
  Lemma part_linear m tab trm : nth_error ps m = Some (tab, trm) -> linear_term trm.
  Proof. intros H. destruct V as (_ & A & _). apply nth_error_In, A in H. apply H. Qed.
  Lemma part_exists m : (m < M)%nat -> exists tab trm, nth_error ps m = Some (tab, trm).
  Proof. intros H. apply nth_error_lt in H as ((tab & trm) & H). eauto. Qed.
  Lemma part_lt m p : nth_error ps m = Some p -> (m < M)%nat.
  Proof. intros H. apply nth_error_Some. rewrite H. discriminate. Qed.
  Lemma controls_length : length (controls sv t0 t1) = M.
  Proof. unfold controls. rewrite !map_length. reflexivity. Qed.

  Lemma nst : nstages sv = s.
  Proof.
    destruct V as (N & A & _). unfold nstages. destruct (sv_parts sv) as [|(tab & m) l] eqn:E; [congruence|].
    cbn. apply (A tab m). left. reflexivity.
  Qed.

  Lemma eval_fs_eq : eval_fs sv = use_fsal sv.
  Proof. unfold eval_fs, use_fsal. destruct (sv_vf_expensive sv), (forallb fsal (map fst ps)); reflexivity. Qed.
  Lemma store_fs_eq : store_fs sv = use_fsal sv && has_implicit sv.
  Proof. unfold store_fs, use_fsal. destruct (sv_vf_expensive sv), (forallb fsal (map fst ps)); reflexivity. Qed.

  Definition kview (st : stage_state sv) (m j : nat) : I -> R :=
    if store_fs sv then
      match nth_error ps m with
      | Some (_, trm) => t_prod trm (nth j (nth m (sg_fs sv st) []) vzero) (t_contr trm t0 t1)
      | None => vzero
      end
    else nth j (nth m (sg_ks sv st) []) vzero.

  Definition shape (st : stage_state sv) : Prop :=
    if store_fs sv then
      length (sg_fs sv st) = M /\ forall m, (m < M)%nat -> length (nth m (sg_fs sv st) []) = s
    else
      length (sg_ks sv st) = M /\ forall m, (m < M)%nat -> length (nth m (sg_ks sv st) []) = s.

  Lemma prod_zero (trm : term I J C) : linear_term trm -> forall c x, t_prod trm vzero c x = 0.
  Proof.
    intros L c x. specialize (L 0 0 vzero vzero c x).
    replace (fun j => 0 * @vzero J j + 0 * vzero j) with (@vzero J) in L
      by (extensionality j; unfold vzero; lra).
    lra.
  Qed.
  Lemma prod_dot (trm : term I J C) : linear_term trm -> forall row fs c x,
    t_prod trm (vector_tree_dot row fs) c x =
    sum_n (length fs) (fun j => Q2R (nth j row 0%Q) * t_prod trm (nth j fs vzero) c x).
  Proof.
    intros L row fs c x. revert row. induction fs as [|u fs IH]; intros row.
    - replace (vector_tree_dot row []) with (@vzero J) by (destruct row; reflexivity).
      rewrite prod_zero by assumption. reflexivity.
    - destruct row as [|q row].
      + cbn [vector_tree_dot]. rewrite prod_zero by assumption. rewrite sum_n_0; [reflexivity|].
        intros i _. destruct i; cbn [nth]; rewrite RMicromega.Q2R_0; lra.
      + change (length (u :: fs)) with (S (length fs)). rewrite sum_n_shift. cbn [nth]. rewrite <- IH.
        cbn [vector_tree_dot].
        replace (vadd (vscale (Q2R q) u) (vector_tree_dot row fs))
          with (fun j => Q2R q * u j + 1 * vector_tree_dot row fs j)
          by (extensionality j; unfold vadd, vscale; lra).
        rewrite L. lra.
  Qed.

  Definition row_sum (st : stage_state sv) (i : nat) : I -> R := fun x =>
    y0 x + sum_n M (fun m =>
      match nth_error ps m with
      | Some (tab, _) =>
          sum_n s (fun j => Q2R (nth j (nth i (embed s (tab_a_lower tab)) []) 0%Q) * kview st m j x)
      | None => 0 end).

  Lemma partial_eq st i : shape st -> stage_partial sv t0 t1 y0 i st = row_sum st i.
  Proof.
    intros SH. extensionality x. unfold stage_partial, row_sum. rewrite vsum_sum. f_equal. rewrite nst.
    unfold shape in SH. destruct (store_fs sv) eqn:E; destruct SH as (L & SH).
    - unfold prod_all. rewrite map2_length, combine_length, map2_length, !map_length, controls_length, L, !Nat.min_id.
      apply sum_n_ext. intros m Hm. destruct (part_exists m Hm) as (tab & trm & P). rewrite P.
      destruct (nth_error_lt (sg_fs sv st) m) as [b Hb]; [lia|].
      erewrite nth_of_error.
      2:{ rewrite nth_error_map2, nth_error_combine, (part_terms _ _ _ P), (part_controls _ _ _ P), nth_error_map2.
          rewrite nth_error_map, (part_tabs _ _ _ P). cbn [option_map]. rewrite Hb. reflexivity. }
      cbn [fst snd]. rewrite prod_dot by (eapply part_linear; eauto).
      pose proof (SH m Hm) as SM. rewrite (nth_of_error _ _ _ _ Hb) in SM. rewrite SM.
      apply sum_n_ext. intros j Hj. unfold kview. rewrite E, P, (nth_of_error _ _ [] _ Hb). reflexivity.
    - rewrite map2_length, !map_length, L, Nat.min_id.
      apply sum_n_ext. intros m Hm. destruct (part_exists m Hm) as (tab & trm & P). rewrite P.
      destruct (nth_error_lt (sg_ks sv st) m) as [b Hb]; [lia|].
      erewrite nth_of_error.
      2:{ rewrite nth_error_map2, nth_error_map, (part_tabs _ _ _ P). cbn [option_map]. rewrite Hb. reflexivity. }
      rewrite vdot_sum. pose proof (SH m Hm) as SM. rewrite (nth_of_error _ _ _ _ Hb) in SM. rewrite SM.
      apply sum_n_ext. intros j Hj. unfold kview. rewrite E, (nth_of_error _ _ [] _ Hb). reflexivity.
  Qed.

  (** The value of the state at a stage is the partial sum plus the diagonal contributions. *)
  Lemma stage_value_diag k i x : (i < s)%nat ->
    stage_value s ps y0 k i x =
    y0 x + sum_n M (fun m =>
      match nth_error ps m with
      | Some (tab, _) =>
          sum_n s (fun j => Q2R (nth j (nth i (embed s (tab_a_lower tab)) []) 0%Q) * k m j x)
      | None => 0 end)
    + sum_n M (fun m =>
      match nth_error ps m with
      | Some (tab, _) => Q2R (diagonal_or_zero tab i) * k m i x | None => 0 end).
  Proof.
    intros Hi. unfold stage_value. rewrite Rplus_assoc. f_equal. rewrite <- sum_n_plus. apply sum_n_ext.
    intros m Hm. destruct (part_exists m Hm) as (tab & trm & P). rewrite P.
    apply (sum_diag s tab i (fun j => k m j x)); [eapply part_shaped; eauto|exact Hi].
  Qed.

  Lemma row_sum_new st k i : (i < s)%nat ->
    (forall m j x, (m < M)%nat -> j <> i -> k m j x = kview st m j x) ->
    forall x, stage_value s ps y0 k i x = row_sum st i x +
      sum_n M (fun m => match nth_error ps m with
                        | Some (tab, _) => Q2R (diagonal_or_zero tab i) * k m i x | None => 0 end).
  Proof.
    intros Hi H x. rewrite stage_value_diag by exact Hi. f_equal. unfold row_sum. f_equal.
    apply sum_n_ext. intros m Hm. destruct (part_exists m Hm) as (tab & trm & P). rewrite P.
    apply sum_n_ext. intros j Hj. destruct (Nat.eq_dec j i) as [->|N].
    - rewrite (embed_diag s) by (try exact Hi; eapply part_shaped; eauto). rewrite RMicromega.Q2R_0. lra.
    - rewrite H by assumption. reflexivity.
  Qed.

  Lemma explicit_diag tab i : implicit tab = false -> Q2R (diagonal_or_zero tab i) = 0.
  Proof.
    unfold implicit, diagonal_or_zero. destruct (tab_a_diagonal tab); [discriminate|].
    intros _. apply RMicromega.Q2R_0.
  Qed.
  Lemma no_implicit m tab trm : implicit_index sv = None -> nth_error ps m = Some (tab, trm) -> implicit tab = false.
  Proof.
    unfold implicit_index. intros H P. eapply find_index_none; [exact H|].
    apply part_tabs in P. apply nth_error_In in P. exact P.
  Qed.
  Lemma the_implicit p : implicit_index sv = Some p ->
    exists tab trm, nth_error ps p = Some (tab, trm) /\ implicit tab = true /\
      forall m tab' trm', nth_error ps m = Some (tab', trm') -> m <> p -> implicit tab' = false.
  Proof.
    unfold implicit_index. intros H. apply find_index_some in H as (tab & H & T).
    rewrite nth_error_map in H. destruct (nth_error ps p) as [(tab' & trm)|] eqn:P; [|discriminate].
    injection H as ->. exists tab, trm. repeat split; auto.
    intros m tab' trm' P' N. destruct (implicit tab') eqn:E; [|reflexivity].
    destruct V as (_ & _ & U). contradict N. exact (U m p tab' tab trm' trm P' P E T).
  Qed.

  (** What one stage does. *)
  Definition stage_result (i : nat) (st new : stage_state sv) : Prop :=
    shape new /\
    (forall m j, (m < M)%nat -> j <> i -> kview new m j = kview st m j) /\
    (is_okay (sg_result sv new) = true -> is_okay (sg_result sv st) = true) /\
    (is_okay (sg_result sv new) = true -> exact_root_finder (sv_root_finder sv) \/ implicit_index sv = None ->
     (forall m tab trm, nth_error ps m = Some (tab, trm) -> forall x,
        kview new m i x =
        t_prod trm (t_vf trm (t0 + coef_c tab i * (t1 - t0)) (sg_yi sv new)) (t_contr trm t0 t1) x) /\
     sg_yi sv new = stage_value s ps y0 (kview new) i /\
     (use_fsal sv = true -> length (sg_f1 sv new) = M /\
        forall m tab trm, nth_error ps m = Some (tab, trm) ->
          nth_error (sg_f1 sv new) m = Some (t_vf trm (t0 + coef_c tab i * (t1 - t0)) (sg_yi sv new)))).

  Lemma times_nth m tab trm i : nth_error ps m = Some (tab, trm) ->
    nth_error (map (fun tab => stage_time t0 t1 (nthQ (embed_c tab) i)) (map fst ps)) m =
    Some (t0 + coef_c tab i * (t1 - t0)).
  Proof. intros P. rewrite nth_error_map, (part_tabs _ _ _ P). cbn [option_map]. rewrite stage_time_spec. reflexivity. Qed.

  Lemma nth_map2_set {A} i (vs : list A) (bufs : list (list A)) m (v d : A) j :
    nth_error vs m = Some v -> (m < length bufs)%nat -> (i < length (nth m bufs []))%nat ->
    nth j (nth m (map2 (set_nth i) vs bufs) []) d = if (j =? i)%nat then v else nth j (nth m bufs []) d.
  Proof.
    intros H L Li. destruct (nth_error_lt bufs m L) as [b Hb].
    erewrite (nth_of_error (map2 _ _ _)); [|rewrite nth_error_map2, H, Hb; reflexivity].
    rewrite (nth_of_error _ _ _ _ Hb) in *. rewrite nth_set_nth.
    apply Nat.ltb_lt in Li. rewrite Li, andb_true_r. reflexivity.
  Qed.
  Lemma map2_set_shape {A} i (vs : list A) (bufs : list (list A)) n k :
    length vs = n -> length bufs = n -> (forall m, (m < n)%nat -> length (nth m bufs []) = k) ->
    length (map2 (set_nth i) vs bufs) = n /\
    forall m, (m < n)%nat -> length (nth m (map2 (set_nth i) vs bufs) []) = k.
  Proof.
    intros L1 L2 S. split; [rewrite map2_length; lia|]. intros m Hm.
    destruct (nth_error_lt vs m) as [v Hv]; [lia|]. destruct (nth_error_lt bufs m) as [b Hb]; [lia|].
    erewrite (nth_of_error (map2 _ _ _)); [|rewrite nth_error_map2, Hv, Hb; reflexivity].
    rewrite set_nth_length. specialize (S m Hm). rewrite (nth_of_error _ _ _ _ Hb) in S. exact S.
  Qed.
  Lemma patch_length {A} (v : option A) xs : length (patch sv v xs) = length xs.
  Proof. unfold patch. destruct v; [|reflexivity]. destruct (implicit_index sv); [apply set_nth_length|reflexivity]. Qed.
  Lemma patch_none {A} (xs : list A) : patch sv None xs = xs.
  Proof. reflexivity. Qed.
  Lemma patch_nth {A} p (v : A) xs m : implicit_index sv = Some p -> (p < length xs)%nat ->
    nth_error (patch sv (Some v) xs) m = if (m =? p)%nat then Some v else nth_error xs m.
  Proof.
    intros H L. unfold patch. rewrite H, nth_error_set_nth.
    apply Nat.ltb_lt in L. rewrite L, andb_true_r. reflexivity.
  Qed.
  Lemma implicit_lt p : implicit_index sv = Some p -> (p < M)%nat.
  Proof. intros H. apply the_implicit in H as (tab & trm & P & _). eapply part_lt; eauto. Qed.

  Lemma vf_all_length ts y v : length ts = M -> length (vf_all sv ts y v) = M.
  Proof. intros L. unfold vf_all. rewrite patch_length, map2_length, map_length. lia. Qed.
  Lemma prod_all_length fs : length fs = M -> length (prod_all sv t0 t1 fs) = M.
  Proof. intros L. unfold prod_all. rewrite map2_length, combine_length, map_length, controls_length. lia. Qed.
  Lemma vf_prod_all_length ts y v : length ts = M -> length (vf_prod_all sv t0 t1 ts y v) = M.
  Proof. intros L. unfold vf_prod_all. rewrite patch_length, map2_length, combine_length, map_length, controls_length. lia. Qed.

  Lemma vf_nth ts y m tab trm t : nth_error ps m = Some (tab, trm) -> nth_error ts m = Some t ->
    nth_error (map2 (fun term t => t_vf term t y) (map snd ps) ts) m = Some (t_vf trm t y).
  Proof. intros P T. rewrite nth_error_map2, (part_terms _ _ _ P), T. reflexivity. Qed.
  Lemma prod_nth fs m tab trm f : nth_error ps m = Some (tab, trm) -> nth_error fs m = Some f ->
    nth_error (prod_all sv t0 t1 fs) m = Some (t_prod trm f (t_contr trm t0 t1)).
  Proof.
    intros P T. unfold prod_all. rewrite nth_error_map2, nth_error_combine, (part_terms _ _ _ P),
      (part_controls _ _ _ P), T. reflexivity.
  Qed.
  Lemma vf_prod_nth ts y m tab trm t : nth_error ps m = Some (tab, trm) -> nth_error ts m = Some t ->
    nth_error (map2 (fun tc t => t_vf_prod (fst tc) t y (snd tc)) (combine (map snd ps) (controls sv t0 t1)) ts) m
    = Some (t_vf_prod trm t y (t_contr trm t0 t1)).
  Proof.
    intros P T. rewrite nth_error_map2, nth_error_combine, (part_terms _ _ _ P),
      (part_controls _ _ _ P), T. reflexivity.
  Qed.

  Ltac times_len := rewrite !map_length; reflexivity.

  Lemma implicit_sum p tab i (k : nat -> nat -> I -> R) x trm :
    implicit_index sv = Some p -> nth_error ps p = Some (tab, trm) ->
    sum_n M (fun m => match nth_error ps m with
                      | Some (tab, _) => Q2R (diagonal_or_zero tab i) * k m i x | None => 0 end)
    = Q2R (diagonal_or_zero tab i) * k p i x.
  Proof.
    intros H P. rewrite (sum_n_one M p).
    - rewrite P. reflexivity.
    - eapply part_lt; eauto.
    - intros m Hm N. destruct (part_exists m Hm) as (tab' & trm' & P'). rewrite P'.
      destruct (the_implicit p H) as (tab0 & trm0 & P0 & _ & U).
      rewrite explicit_diag; [lra|]. eapply U; eauto.
  Qed.

  Lemma stage_explicit st i : implicit_index sv = None -> (i < s)%nat -> shape st ->
    stage_result i st (rk_stage sv t0 t1 y0 st i).
  Proof.
    intros NI Hi SH. unfold rk_stage. rewrite NI. rewrite eval_fs_eq.
    assert (SF : store_fs sv = false) by (rewrite store_fs_eq; unfold has_implicit; rewrite NI; apply andb_false_r).
    pose proof (partial_eq st i SH) as PE. rewrite PE. clear PE.
    unfold shape in SH. rewrite SF in SH. destruct SH as (L & SL). rewrite SF.
    set (ts := map (fun tab => stage_time t0 t1 (nthQ (embed_c tab) i)) (map fst ps)).
    assert (LT : length ts = M) by (unfold ts; times_len).
    set (yi := row_sum st i).
    set (ki := if use_fsal sv then prod_all sv t0 t1 (if use_fsal sv then vf_all sv ts yi None else [])
               else vf_prod_all sv t0 t1 ts yi None).
    assert (LK : length ki = M).
    { unfold ki. destruct (use_fsal sv); [apply prod_all_length, vf_all_length, LT|apply vf_prod_all_length, LT]. }
    assert (KN : forall m tab trm, nth_error ps m = Some (tab, trm) ->
              exists k, nth_error ki m = Some k /\ forall x,
                k x = t_prod trm (t_vf trm (t0 + coef_c tab i * (t1 - t0)) yi) (t_contr trm t0 t1) x).
    { intros m tab trm P. pose proof (times_nth m tab trm i P) as T. fold ts in T.
      unfold ki. destruct (use_fsal sv).
      - eexists. split; [eapply prod_nth; [exact P|]|].
        + unfold vf_all. rewrite patch_none. eapply vf_nth; eauto.
        + reflexivity.
      - eexists. split.
        + unfold vf_prod_all. rewrite patch_none. eapply vf_prod_nth; eauto.
        + intros x. apply (part_consistent _ _ _ P). }
    destruct (map2_set_shape i ki (sg_ks sv st) M s LK L SL) as (NL & NS).
    match goal with |- stage_result _ _ ?n => set (new := n) end.
    assert (KV : forall m j, (m < M)%nat -> kview new m j = nth j (nth m (map2 (set_nth i) ki (sg_ks sv st)) []) vzero).
    { intros m j Hm. unfold kview. rewrite SF. reflexivity. }
    assert (KO : forall m j, (m < M)%nat -> j <> i -> kview new m j = kview st m j).
    { intros m j Hm N. rewrite KV by exact Hm. destruct (part_exists m Hm) as (tab & trm & P).
      destruct (KN _ _ _ P) as (k & K1 & _).
      rewrite (nth_map2_set i ki (sg_ks sv st) m k vzero j K1) by (rewrite ?L, ?SL; lia).
      apply Nat.eqb_neq in N. rewrite N. unfold kview. rewrite SF. reflexivity. }
    split; [|split; [exact KO|split; [intros H; exact H|]]].
    - unfold shape. rewrite SF. split; assumption.
    - intros OK _.
      assert (K1 : forall m tab trm, nth_error ps m = Some (tab, trm) -> forall x, kview new m i x =
        t_prod trm (t_vf trm (t0 + coef_c tab i * (t1 - t0)) (sg_yi sv new)) (t_contr trm t0 t1) x).
      { intros m tab trm P x. pose proof (part_lt _ _ P) as Hm. rewrite KV by exact Hm.
        destruct (KN _ _ _ P) as (k & K1 & K2).
        rewrite (nth_map2_set i ki (sg_ks sv st) m k vzero i K1) by (rewrite ?L, ?SL; lia).
        rewrite Nat.eqb_refl. apply K2. }
      split; [exact K1|split].
      + extensionality x. rewrite (row_sum_new st (kview new) i Hi).
        * rewrite sum_n_0; [change (sg_yi sv new x) with (row_sum st i x); lra|].
          intros m Hm. destruct (part_exists m Hm) as (tab & trm & P). rewrite P.
          rewrite explicit_diag by (eapply no_implicit; eauto). lra.
        * intros m j x' Hm N. rewrite KO by assumption. reflexivity.
      + intros U. unfold new. cbn [sg_f1 sg_yi]. rewrite U. split; [apply vf_all_length, LT|].
        intros m tab trm P. unfold vf_all. rewrite patch_none.
        pose proof (times_nth m tab trm i P) as T. fold ts in T. eapply vf_nth; eauto.
  Qed.

  Lemma stage_implicit_f st i p : implicit_index sv = Some p -> use_fsal sv = true -> (i < s)%nat -> shape st ->
    stage_result i st (rk_stage sv t0 t1 y0 st i).
  Proof.
    intros HI UF Hi SH. destruct (the_implicit p HI) as (tab & trm & P & IM & UN).
    assert (SF : store_fs sv = true) by (rewrite store_fs_eq, UF; unfold has_implicit; rewrite HI; reflexivity).
    unfold rk_stage. rewrite HI, (part_terms _ _ _ P), (part_controls _ _ _ P), eval_fs_eq, UF, SF.
    unfold implicit_stage. rewrite eval_fs_eq, UF.
    pose proof (partial_eq st i SH) as PE. rewrite PE. clear PE.
    unfold implicit_tableau. rewrite (nth_of_error _ _ _ _ (part_tabs _ _ _ P)).
    set (part := row_sum st i).
    match goal with |- context [choose_jac ?a ?b ?c ?d] => set (jac := choose_jac a b c d) end. clearbody jac.
    match goal with |- context [vector_tree_dot ?a ?b] => set (pred := vector_tree_dot a b) end. clearbody pred.
    rewrite stage_time_spec.
    set (rel := implicit_relation_f _ _ _ _ _).
    destruct (rf_f (sv_root_finder sv) jac i rel pred) as (fi & r) eqn:RF.
    unfold shape in SH. rewrite SF in SH. destruct SH as (L & SL).
    set (ts := map (fun tab => stage_time t0 t1 (nthQ (embed_c tab) i)) (map fst ps)).
    assert (LT : length ts = M) by (unfold ts; times_len).
    set (yi := vadd part (vscale (Q2R (diagonal_or_zero tab i)) (t_prod trm fi (t_contr trm t0 t1)))).
    set (fs := vf_all sv ts yi (Some fi)).
    assert (LF : length fs = M) by (apply vf_all_length, LT).
    assert (LX : length (map2 (fun (term : term I J C) t => t_vf term t yi) (map snd ps) ts) = M)
      by (rewrite map2_length, map_length; lia).
    assert (FN : forall m, nth_error fs m = if (m =? p)%nat then Some fi
              else nth_error (map2 (fun (term : term I J C) t => t_vf term t yi) (map snd ps) ts) m).
    { intros m. unfold fs, vf_all. apply patch_nth; [exact HI|].
      rewrite LX. apply implicit_lt. exact HI. }
    destruct (map2_set_shape i fs (sg_fs sv st) M s LF L SL) as (NL & NS).
    match goal with |- stage_result _ _ ?n => set (new := n) end.
    assert (KV : forall m j tab trm, nth_error ps m = Some (tab, trm) -> kview new m j =
              t_prod trm (nth j (nth m (map2 (set_nth i) fs (sg_fs sv st)) []) vzero) (t_contr trm t0 t1)).
    { intros m j tab' trm' Hm. unfold kview. rewrite SF, Hm. reflexivity. }
    assert (KO : forall m j, (m < M)%nat -> j <> i -> kview new m j = kview st m j).
    { intros m j Hm N. destruct (part_exists m Hm) as (tab' & trm' & P'). rewrite (KV _ _ _ _ P').
      destruct (nth_error_lt fs m) as (f & Hf); [lia|].
      rewrite (nth_map2_set i fs (sg_fs sv st) m f vzero j Hf) by (rewrite ?L, ?SL; lia).
      apply Nat.eqb_neq in N. rewrite N. unfold kview. rewrite SF, P'. reflexivity. }
    split; [|split; [exact KO|split]].
    - unfold shape. rewrite SF. split; assumption.
    - unfold new. cbn [sg_result]. intros H. apply update_okay in H. apply H.
    - intros OK EX. destruct EX as [EX|EX]; [|congruence].
      unfold new in OK. cbn [sg_result] in OK. apply update_okay in OK as (_ & OK).
      assert (FI : fi = t_vf trm (t0 + coef_c tab i * (t1 - t0)) yi).
      { extensionality x. pose proof (proj1 EX _ _ _ _ _ _ RF OK x) as Z.
        unfold rel, implicit_relation_f, vsub in Z. unfold yi. lra. }
      assert (FN' : forall m tab' trm', nth_error ps m = Some (tab', trm') ->
                nth_error fs m = Some (t_vf trm' (t0 + coef_c tab' i * (t1 - t0)) yi)).
      { intros m tab' trm' P'. rewrite FN. destruct (Nat.eqb_spec m p) as [->|N].
        - rewrite P in P'. injection P' as <- <-. f_equal. exact FI.
        - eapply vf_nth; [exact P'|]. eapply times_nth. exact P'. }
      assert (K1 : forall m tab trm, nth_error ps m = Some (tab, trm) -> forall x, kview new m i x =
        t_prod trm (t_vf trm (t0 + coef_c tab i * (t1 - t0)) (sg_yi sv new)) (t_contr trm t0 t1) x).
      { intros m tab' trm' P' x. pose proof (part_lt _ _ P') as Hm. rewrite (KV _ _ _ _ P').
        rewrite (nth_map2_set i fs (sg_fs sv st) m _ vzero i (FN' _ _ _ P')) by (rewrite ?L, ?SL; lia).
        rewrite Nat.eqb_refl. reflexivity. }
      split; [exact K1|split].
      + extensionality x. rewrite (row_sum_new st (kview new) i Hi).
        * rewrite (implicit_sum p tab i _ x trm HI P). rewrite (K1 _ _ _ P).
          change (sg_yi sv new) with yi. rewrite <- FI. reflexivity.
        * intros m j x' Hm N. rewrite KO by assumption. reflexivity.
      + intros _. unfold new. cbn [sg_f1 sg_yi]. split; [exact LF|exact FN'].
  Qed.

  Lemma stage_implicit_k st i p : implicit_index sv = Some p -> use_fsal sv = false -> (i < s)%nat -> shape st ->
    stage_result i st (rk_stage sv t0 t1 y0 st i).
  Proof.
    intros HI UF Hi SH. destruct (the_implicit p HI) as (tab & trm & P & IM & UN).
    assert (SF : store_fs sv = false) by (rewrite store_fs_eq, UF; reflexivity).
    unfold rk_stage. rewrite HI, (part_terms _ _ _ P), (part_controls _ _ _ P), eval_fs_eq, UF, SF.
    unfold implicit_stage. rewrite eval_fs_eq, UF.
    pose proof (partial_eq st i SH) as PE. rewrite PE. clear PE.
    unfold implicit_tableau. rewrite (nth_of_error _ _ _ _ (part_tabs _ _ _ P)).
    set (part := row_sum st i).
    match goal with |- context [choose_jac ?a ?b ?c ?d] => set (jac := choose_jac a b c d) end. clearbody jac.
    match goal with |- context [rf_k _ _ _ _ ?a] => set (pred := a) end. clearbody pred.
    rewrite stage_time_spec.
    set (rel := implicit_relation_k _ _ _ _).
    destruct (rf_k (sv_root_finder sv) jac i rel pred) as (ki & r) eqn:RF.
    unfold shape in SH. rewrite SF in SH. destruct SH as (L & SL).
    set (ts := map (fun tab => stage_time t0 t1 (nthQ (embed_c tab) i)) (map fst ps)).
    assert (LT : length ts = M) by (unfold ts; times_len).
    set (yi := vadd part (vscale (Q2R (diagonal_or_zero tab i)) ki)).
    set (ks := vf_prod_all sv t0 t1 ts yi (Some ki)).
    assert (LF : length ks = M) by (apply vf_prod_all_length, LT).
    set (raw := map2 (fun (tc : term I J C * C) t => t_vf_prod (fst tc) t yi (snd tc)) (combine (map snd ps) (controls sv t0 t1)) ts).
    assert (LX : length raw = M)
      by (unfold raw; rewrite map2_length, combine_length, map_length, controls_length; lia).
    assert (FN : forall m, nth_error ks m = if (m =? p)%nat then Some ki else nth_error raw m).
    { intros m. unfold ks, vf_prod_all. apply patch_nth; [exact HI|].
      fold raw. rewrite LX. apply implicit_lt. exact HI. }
    destruct (map2_set_shape i ks (sg_ks sv st) M s LF L SL) as (NL & NS).
    match goal with |- stage_result _ _ ?n => set (new := n) end.
    assert (KV : forall m j, kview new m j = nth j (nth m (map2 (set_nth i) ks (sg_ks sv st)) []) vzero).
    { intros m j. unfold kview. rewrite SF. reflexivity. }
    assert (KO : forall m j, (m < M)%nat -> j <> i -> kview new m j = kview st m j).
    { intros m j Hm N. rewrite KV. destruct (nth_error_lt ks m) as (f & Hf); [lia|].
      rewrite (nth_map2_set i ks (sg_ks sv st) m f vzero j Hf) by (rewrite ?L, ?SL; lia).
      apply Nat.eqb_neq in N. rewrite N. unfold kview. rewrite SF. reflexivity. }
    split; [|split; [exact KO|split]].
    - unfold shape. rewrite SF. split; assumption.
    - unfold new. cbn [sg_result]. intros H. apply update_okay in H. apply H.
    - intros OK EX. destruct EX as [EX|EX]; [|congruence].
      unfold new in OK. cbn [sg_result] in OK. apply update_okay in OK as (_ & OK).
      assert (FI : forall x, ki x = t_prod trm (t_vf trm (t0 + coef_c tab i * (t1 - t0)) yi) (t_contr trm t0 t1) x).
      { intros x. pose proof (proj2 EX _ _ _ _ _ _ RF OK x) as Z.
        unfold rel, implicit_relation_k, vsub in Z. fold yi in Z.
        rewrite (part_consistent _ _ _ P) in Z. lra. }
      assert (FN' : forall m tab' trm', nth_error ps m = Some (tab', trm') ->
                exists k, nth_error ks m = Some k /\ forall x,
                  k x = t_prod trm' (t_vf trm' (t0 + coef_c tab' i * (t1 - t0)) yi) (t_contr trm' t0 t1) x).
      { intros m tab' trm' P'. rewrite FN. destruct (Nat.eqb_spec m p) as [->|N].
        - rewrite P in P'. injection P' as <- <-. exists ki. split; [reflexivity|exact FI].
        - eexists. split; [eapply vf_prod_nth; [exact P'|]; eapply times_nth; exact P'|].
          intros x. apply (part_consistent _ _ _ P'). }
      assert (K1 : forall m tab trm, nth_error ps m = Some (tab, trm) -> forall x, kview new m i x =
        t_prod trm (t_vf trm (t0 + coef_c tab i * (t1 - t0)) (sg_yi sv new)) (t_contr trm t0 t1) x).
      { intros m tab' trm' P' x. pose proof (part_lt _ _ P') as Hm. rewrite KV.
        destruct (FN' _ _ _ P') as (k & Hk & K2).
        rewrite (nth_map2_set i ks (sg_ks sv st) m k vzero i Hk) by (rewrite ?L, ?SL; lia).
        rewrite Nat.eqb_refl. apply K2. }
      split; [exact K1|split].
      + extensionality x. rewrite (row_sum_new st (kview new) i Hi).
        * rewrite (implicit_sum p tab i _ x trm HI P). rewrite (K1 _ _ _ P).
          change (sg_yi sv new) with yi. rewrite <- FI. reflexivity.
        * intros m j x' Hm N. rewrite KO by assumption. reflexivity.
      + intros U. congruence.
  Qed.

  Lemma stage_correct st i : (i < s)%nat -> shape st -> stage_result i st (rk_stage sv t0 t1 y0 st i).
  Proof.
    intros Hi SH. destruct (implicit_index sv) as [p|] eqn:E.
    - destruct (use_fsal sv) eqn:U; [eapply stage_implicit_f|eapply stage_implicit_k]; eauto.
    - apply stage_explicit; assumption.
  Qed.
End Stage.
