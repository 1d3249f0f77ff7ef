(** Deciding the order conditions of a tableau with rational coefficients. *)
From Coq Require Import Reals QArith Qabs Qreals Qreduction List Bool Arith Permutation Lia Lra.
From Verif Require Import Model_Result Model_RK Spec_RK Spec_Order Proof_Terms Proof_BSeries Proof_BSeries2.
Import ListNotations.

(** ** Enumerating multisets *)
Section Multisets.
  Context {X : Type}.
  Variable sz : X -> nat.
  Definition total (l : list X) : nat := fold_right (fun x n => (sz x + n)%nat) 0%nat l.
  (** All multisets of elements of the list with a given total size. *)
  Fixpoint multisets (ts : list X) (n : nat) : list (list X) :=
    match n, ts with
    | O, _ => [[]]
    | S _, [] => []
    | S _, t :: ts =>
        let z := sz t in
        if (n <? z)%nat then multisets ts n
        else flat_map (fun j => if (j * z <=? n)%nat then map (app (repeat t j)) (multisets ts (n - j * z)) else []) (seq 0 (S n))
    end.
  Lemma multisets_cons t ts n l : (1 <= sz t)%nat -> (In l (multisets (t :: ts) n) <->
    In l (flat_map (fun j => if (j * sz t <=? n)%nat then map (app (repeat t j)) (multisets ts (n - j * sz t)) else []) (seq 0 (S n)))).
  Proof.
    intros Hz. destruct n as [|n].
    - cbn. assert (E : multisets ts 0 = [[]]) by (destruct ts; reflexivity). rewrite E. cbn. tauto.
    - cbn [multisets]. destruct (Nat.ltb_spec (S n) (sz t)) as [L|L]; [|tauto]. split; intros H.
      + apply in_flat_map. exists 0%nat. split; [apply in_seq; lia|]. cbn [Nat.mul Nat.leb]. rewrite Nat.sub_0_r. apply in_map_iff. exists l. split; [reflexivity|exact H].
      + apply in_flat_map in H as (j & _ & H). destruct (Nat.leb_spec (j * sz t) (S n)) as [J|J]; [|destruct H].
        assert (j = 0)%nat as -> by nia. cbn [Nat.mul] in H. rewrite Nat.sub_0_r in H. apply in_map_iff in H as (l' & <- & H). exact H.
  Qed.
  Lemma split_copies (t : X) (ts l : list X) : Forall (fun x => In x (t :: ts)) l ->
    exists j l', Permutation l (repeat t j ++ l') /\ Forall (fun x => In x ts) l'.
  Proof.
    induction l as [|x l IH]; intros H; [exists 0%nat, []; split; constructor|].
    inversion H as [|? ? Hx Hl]; subst. destruct (IH Hl) as (j & l' & P & F). destruct Hx as [<-|Hx].
    - exists (S j), l'. split; [constructor; exact P|exact F].
    - exists j, (x :: l'). split; [|constructor; assumption]. apply Permutation_cons_app, P.
  Qed.
  Lemma total_app l l' : total (l ++ l') = (total l + total l')%nat.
  Proof. unfold total. induction l; cbn; [reflexivity|]. rewrite IHl. lia. Qed.
  Lemma total_repeat t j : total (repeat t j) = (j * sz t)%nat.
  Proof. unfold total. induction j; cbn; [reflexivity|]. rewrite IHj. reflexivity. Qed.
  Lemma total_perm l l' : Permutation l l' -> total l = total l'.
  Proof. unfold total. induction 1; cbn; lia. Qed.
  Lemma multisets_complete ts : (forall x, In x ts -> (1 <= sz x)%nat) -> forall l, Forall (fun x => In x ts) l ->
    exists l', Permutation l l' /\ In l' (multisets ts (total l)).
  Proof.
    induction ts as [|t ts IH]; intros H1 l HF.
    - destruct l as [|x l]; [exists []; split; [constructor|left; reflexivity]|]. inversion HF as [|? ? []].
    - destruct (split_copies t ts l HF) as (j & l1 & P1 & F1).
      destruct (IH (fun x Hx => H1 x (or_intror Hx)) l1 F1) as (l2 & P2 & I2).
      exists (repeat t j ++ l2). split; [eapply Permutation_trans; [exact P1|apply Permutation_app_head, P2]|].
      assert (T : total l = (j * sz t + total l1)%nat) by (rewrite (total_perm _ _ P1), total_app, total_repeat; reflexivity).
      pose proof (H1 t (or_introl eq_refl)) as H1t.
      apply multisets_cons; [exact H1t|]. apply in_flat_map. exists j. split; [apply in_seq; split; [lia|]; rewrite T; nia|].
      assert (L : (j * sz t <=? total l)%nat = true) by (apply Nat.leb_le; lia). rewrite L. apply in_map.
      replace (total l - j * sz t)%nat with (total l1) by lia. exact I2.
  Qed.
  Lemma multisets_in ts n l : In l (multisets ts n) -> Forall (fun x => In x ts) l.
  Proof.
    revert n l. induction ts as [|t ts IH]; intros n l H.
    - destruct n; [destruct H as [<-|[]]; constructor|destruct H].
    - destruct n as [|n]; [destruct H as [<-|[]]; constructor|]. cbn [multisets] in H. destruct (S n <? sz t)%nat.
      + eapply Forall_impl; [|apply (IH _ _ H)]. intros x Hx. right. exact Hx.
      + apply in_flat_map in H as (j & _ & H). destruct (j * sz t <=? S n)%nat; [|destruct H].
        apply in_map_iff in H as (l' & <- & H). apply Forall_app. split.
        * apply Forall_forall. intros x Hx. apply repeat_spec in Hx. left. congruence.
        * eapply Forall_impl; [|apply (IH _ _ H)]. intros x Hx. right. exact Hx.
  Qed.
  Lemma multisets_total ts : forall n l, In l (multisets ts n) -> total l = n.
  Proof.
    induction ts as [|t ts IH]; intros n l H.
    - destruct n; [destruct H as [<-|[]]; reflexivity|destruct H].
    - destruct n as [|n]; [destruct H as [<-|[]]; reflexivity|]. cbn [multisets] in H. destruct (S n <? sz t)%nat; [apply IH, H|].
      apply in_flat_map in H as (j & _ & H). destruct (Nat.leb_spec (j * sz t) (S n)); [|destruct H].
      apply in_map_iff in H as (l' & <- & H'). rewrite total_app, total_repeat, (IH _ _ H'). lia.
  Qed.
End Multisets.

(** ** Weights in an arithmetic [A] that represents reals by [rel] *)
Open Scope R_scope.
Definition aQ (tab : tableau) (i j : nat) : Q :=
  if (j <? i)%nat then nth j (nth (i - 1) (tab_a_lower tab) []) 0%Q
  else if (j =? i)%nat then match tab_a_diagonal tab with None => 0%Q | Some d => nth i d 0%Q end
  else 0%Q.
Definition cQ (tab : tableau) (i : nat) : Q := match i with O => tab_c1 tab | S i => nth i (tab_c tab) 0%Q end.
Lemma aQ_coef tab i j : Q2R (aQ tab i j) = coef_a tab i j.
Proof.
  unfold aQ, coef_a. destruct (j <? i)%nat; [reflexivity|]. destruct (j =? i)%nat; [|apply RMicromega.Q2R_0].
  destruct (tab_a_diagonal tab); [reflexivity|apply RMicromega.Q2R_0].
Qed.
Lemma cQ_coef tab i : Q2R (cQ tab i) = coef_c tab i.
Proof. destruct i; reflexivity. Qed.

(** The density as a binary number *)
Fixpoint densityZ (t : tree) : Z :=
  match t with
  | Time => 1
  | Node _ l => (Z.of_nat (size t) * fold_right (fun u n => densityZ u * n) 1 l)%Z
  end.
Lemma densityZ_correct t : densityZ t = Z.of_nat (density t).
Proof.
  induction t as [|p l IH] using tree_ind'; [reflexivity|]. cbn [densityZ density]. rewrite Nat2Z.inj_mul. f_equal.
  induction IH as [|u l Hu _ IHl]; [reflexivity|]. cbn [fold_right]. rewrite Nat2Z.inj_mul, <- IHl, Hu. reflexivity.
Qed.
Lemma density_pos t : (1 <= density t)%nat.
Proof.
  induction t as [|p l IH] using tree_ind'; [cbn; lia|]. cbn [density].
  assert (1 <= fold_right (fun u n => density u * n) 1 l)%nat by (induction IH as [|u l Hu _ IHl]; cbn; nia).
  pose proof (size_pos (Node p l)). nia.
Qed.
Lemma sum_n_head n (f : nat -> R) : sum_n (S n) f = f 0%nat + sum_n n (fun i => f (S i)).
Proof. induction n as [|n IH]; cbn; [ring|]. cbn in IH. rewrite IH. ring. Qed.

Section Eval.
  (** Vectors [V] and matrices [M] of [s] entries and scalars [A], representing reals *)
  Context {V M A : Type}.
  Variable tabs : list tableau.
  Variable s : nat.
  Variables (vecQ : list Q -> V) (matQ : list (list Q) -> M) (times : V -> V -> V) (mat_vec : M -> V -> V)
    (dotV : V -> V -> A) (plusQ : A -> Q -> A).
  Variables (represents : V -> (nat -> R) -> Prop) (rel : A -> R -> Prop).
  Hypothesis H_vec : forall g, represents (vecQ (map g (seq 0 s))) (fun i => Q2R (g i)).
  Hypothesis H_times : forall u v f g, represents u f -> represents v g -> represents (times u v) (fun i => f i * g i).
  Hypothesis H_mat : forall a v f, represents v f ->
    represents (mat_vec (matQ (map (fun i => map (a i) (seq 0 s)) (seq 0 s))) v) (fun i => sum_n s (fun j => Q2R (a i j) * f j)).
  Hypothesis H_dot : forall u v f g, represents u f -> represents v g -> rel (dotV u v) (sum_n s (fun i => f i * g i)).
  Hypothesis H_plus : forall a x q, rel a x -> rel (plusQ a q) (x + Q2R q).
  Hypothesis H_ext : forall v f g, represents v f -> (forall i, f i = g i) -> represents v g.

  Definition vone : V := vecQ (map (fun _ => 1%Q) (seq 0 s)).
  Definition matrix (tab : tableau) : M := matQ (map (fun i => map (aQ tab i) (seq 0 s)) (seq 0 s)).
  Definition cvec (tab : tableau) : V := vecQ (map (cQ tab) (seq 0 s)).
  Definition vec_of (v : tableau -> list Q) (tab : tableau) : V := vecQ (map (fun i => nth i (v tab) 0%Q) (seq 0 s)).
  Definition mats := map matrix tabs.
  Definition cvecs := map cvec tabs.
  Lemma represents_mat_vec tab v f : represents v f -> represents (mat_vec (matrix tab) v) (fun i => sum_n s (fun j => coef_a tab i j * f j)).
  Proof.
    intros H. eapply H_ext; [apply H_mat, H|]. intros i. apply sum_n_ext. intros j _. rewrite aQ_coef. reflexivity.
  Qed.
  Lemma represents_one : represents vone (fun _ => 1).
  Proof. eapply H_ext; [apply H_vec|]. intros i. apply RMicromega.Q2R_1. Qed.
  Lemma nth_mats q : (q < length tabs)%nat -> nth q mats (matQ []) = matrix (part_tableau tabs q).
  Proof. intros H. unfold mats. rewrite (nth_indep _ _ (matrix no_tableau)) by (rewrite map_length; exact H). apply map_nth. Qed.
  Lemma nth_cvecs q : (q < length tabs)%nat -> nth q cvecs vone = cvec (part_tableau tabs q).
  Proof. intros H. unfold cvecs. rewrite (nth_indep _ _ (cvec no_tableau)) by (rewrite map_length; exact H). apply map_nth. Qed.

  (** Trees with the same size, density and weights *)
  Definition eqv (t u : tree) : Prop :=
    size t = size u /\ density t = density u /\ root t = root u /\ (is_node t <-> is_node u) /\
    forall i, weight tabs s i t = weight tabs s i u.
  Lemma eqv_refl t : eqv t t.
  Proof. repeat split; auto. Qed.
  Lemma eqv_trans t u v : eqv t u -> eqv u v -> eqv t v.
  Proof.
    intros (a1 & b1 & c1 & d1 & e1) (a2 & b2 & c2 & d2 & e2).
    split; [congruence|]. split; [congruence|]. split; [congruence|]. split; [tauto|]. intros i. rewrite e1. apply e2.
  Qed.
  Lemma eqv_node c l l' : Forall2 eqv l l' -> eqv (Node c l) (Node c l').
  Proof.
    intros H. assert (SZ : size (Node c l) = size (Node c l')).
    { rewrite !size_node. f_equal. induction H as [|t u l l' Ht _ IH]; [reflexivity|]. cbn. f_equal; [apply Ht|exact IH]. }
    split; [exact SZ|]. split; [|split; [reflexivity|split; [tauto|]]].
    - cbn [density]. f_equal; [exact SZ|]. clear SZ. induction H as [|t u l l' Ht _ IH]; [reflexivity|]. cbn. f_equal; [apply Ht|exact IH].
    - clear SZ. intros i. cbn [weight]. induction H as [|t u l l' Ht _ IH]; [reflexivity|]. cbn [fold_right]. f_equal; [|exact IH].
      destruct Ht as (_ & _ & RT & NT & WT). destruct t as [|q lt], u as [|q' lu]; cbn in NT, RT; try tauto. subst q'.
      apply sum_n_ext. intros j _. rewrite WT. reflexivity.
  Qed.
  Lemma eqv_perm c l l' : Permutation l l' -> eqv (Node c l) (Node c l').
  Proof.
    intros H. assert (SZ : size (Node c l) = size (Node c l')).
    { rewrite !size_node. f_equal. unfold size_l. induction H; cbn [fold_right] in *; lia. }
    split; [exact SZ|]. split; [|split; [reflexivity|split; [tauto|]]].
    - cbn [density]. f_equal; [exact SZ|]. clear SZ. induction H; cbn in *; [reflexivity|congruence|ring|congruence].
    - clear SZ. intros i. cbn [weight]. induction H; cbn [fold_right]; [reflexivity|rewrite IHPermutation; reflexivity|ring|congruence].
  Qed.

  (** The tree and, for a node [u] of part [q], the numbers [sum_j a^q_ij weight_j u]. *)
  Notation entry := (tree * option V)%type.
  Definition esize (e : entry) : nat := size (fst e).
  Definition factor (cs : list V) (c : nat) (e : entry) : V :=
    match snd e with None => nth c cs vone | Some v => v end.
  Fixpoint wv (cs : list V) (c : nat) (es : list entry) : V :=
    match es with
    | [] => vone
    | e :: es' => match es' with [] => factor cs c e | _ => times (factor cs c e) (wv cs c es') end
    end.
  Definition nodes_at (N : nat) (tb : list entry) (m : nat) : list (nat * list entry) :=
    flat_map (fun es => map (fun c => (c, es)) (seq 0 N)) (multisets esize tb m).
  Definition nodes_of (N : nat) (tb : list entry) (n : nat) : list (nat * list entry) := flat_map (nodes_at N tb) (seq 0 n).
  (** All trees of size at most [n], up to permutation.  The tables of coefficients are arguments so that
      they are computed once. *)
  Fixpoint table (ms : list M) (cs : list V) (N n : nat) : list entry :=
    match n with
    | O => [(Time, None)]
    | S n =>
        let tb := table ms cs N n in
        tb ++ map (fun ce => (Node (fst ce) (map fst (snd ce)), Some (mat_vec (nth (fst ce) ms (matQ [])) (wv cs (fst ce) (snd ce)))))
                        (nodes_at N tb n)
    end.

  Definition good_entry (e : entry) : Prop :=
    of_parts (length tabs) (fst e) /\
    match fst e, snd e with
    | Time, None => True
    | Time, Some _ => False
    | Node _ _, None => False
    | Node q _, Some v => represents v (fun i => sum_n s (fun j => coef_a (part_tableau tabs q) i j * weight tabs s j (fst e)))
    end.
  Lemma wv_correct c es : (c < length tabs)%nat -> Forall good_entry es ->
    represents (wv cvecs c es) (fun i => weight tabs s i (Node c (map fst es))).
  Proof.
    intros Hc H. induction H as [|(u & v) es (Hp & Hu) _ IH]; [apply represents_one|].
    assert (F : represents (factor cvecs c (u, v)) (fun i => match u with Time => coef_c (part_tableau tabs c) i
      | Node q _ => sum_n s (fun j => coef_a (part_tableau tabs q) i j * weight tabs s j u) end)).
    { unfold factor. cbn [fst snd] in *. destruct u as [|q lu], v as [v|]; try contradiction.
      - rewrite nth_cvecs by exact Hc. eapply H_ext; [apply H_vec|]. intros i. apply cQ_coef.
      - exact Hu. }
    cbn [wv]. destruct es as [|e es].
    - eapply H_ext; [exact F|]. intros i. cbn [map fst weight fold_right]. rewrite Rmult_1_r. reflexivity.
    - cbn [map fst weight fold_right]. cbn [map fst weight fold_right] in IH.
      apply (H_times _ _ _ _ F IH).
  Qed.
  Lemma in_nodes_at N tb n c es : In (c, es) (nodes_at N tb n) -> (c < N)%nat /\ Forall (fun e => In e tb) es.
  Proof.
    intros H. apply in_flat_map in H as (es' & He & H).
    apply in_map_iff in H as (c' & E & Hc). injection E as -> ->. apply in_seq in Hc. split; [lia|]. eapply multisets_in, He.
  Qed.
  Lemma in_nodes N tb n c es : In (c, es) (nodes_of N tb n) -> (c < N)%nat /\ Forall (fun e => In e tb) es.
  Proof. intros H. apply in_flat_map in H as (m & _ & H). eapply in_nodes_at, H. Qed.
  Lemma nodes_size N tb n c es : In (c, es) (nodes_of N tb n) -> (size (Node c (map fst es)) <= n)%nat.
  Proof.
    intros H. apply in_flat_map in H as (m & Hm & H). apply in_flat_map in H as (es' & He & H).
    apply in_map_iff in H as (c' & E & Hc). injection E as -> ->. apply in_seq in Hm. apply multisets_total in He.
    rewrite size_node. replace (size_l (map fst es)) with (total esize es); [lia|].
    clear. unfold total, size_l. induction es; cbn [fold_right map]; [reflexivity|]. rewrite IHes. reflexivity.
  Qed.
  Lemma table_good n : Forall good_entry (table mats cvecs (length tabs) n).
  Proof.
    induction n as [|n IH]; [constructor; [split; exact Logic.I|constructor]|]. cbn [table]. apply Forall_app. split; [exact IH|].
    apply Forall_forall. intros e He. apply in_map_iff in He as ((c & es) & <- & He). apply in_nodes_at in He as (Hc & He).
    assert (G : Forall good_entry es) by (eapply Forall_impl; [|exact He]; intros e He'; rewrite Forall_forall in IH; apply IH, He').
    split; cbn [fst snd].
    - cbn [of_parts]. split; [exact Hc|]. apply of_parts_l. apply Forall_map. eapply Forall_impl; [|exact G]. intros e He'. apply He'.
    - rewrite nth_mats by exact Hc. apply represents_mat_vec. apply wv_correct; assumption.
  Qed.

  Lemma nodes_complete tb c l : (c < length tabs)%nat ->
    Forall (fun u => exists e, In e tb /\ eqv u (fst e)) l ->
    exists es, In (c, es) (nodes_at (length tabs) tb (size_l l)) /\ eqv (Node c l) (Node c (map fst es)).
  Proof.
    intros Hc H.
    assert (E : exists es, Forall (fun e => In e tb) es /\ Forall2 eqv l (map fst es)).
    { induction H as [|u l (e & He & Ee) _ (es & Hes & Ees)]; [exists []; split; constructor|].
      exists (e :: es). split; constructor; assumption. }
    destruct E as (es & Hes & Ees).
    assert (T : total esize es = size_l l).
    { clear -Ees. unfold total, size_l. revert l Ees. induction es as [|e es IH]; intros l Ees; inversion Ees as [|u ? l' ? Eu El]; subst; [reflexivity|].
      cbn [fold_right]. rewrite (IH l' El). destruct Eu as (-> & _). reflexivity. }
    destruct (multisets_complete esize tb (fun e _ => size_pos (fst e)) es Hes) as (es' & P & Hin).
    exists es'. split.
    - rewrite <- T. apply in_flat_map. exists es'. split; [exact Hin|]. apply in_map_iff. exists c. split; [reflexivity|]. apply in_seq. lia.
    - eapply eqv_trans; [apply eqv_node, Ees|]. apply eqv_perm, Permutation_map, P.
  Qed.
  Lemma nodes_of_complete tb n c l : (c < length tabs)%nat -> (size_l l < n)%nat ->
    Forall (fun u => exists e, In e tb /\ eqv u (fst e)) l ->
    exists es, In (c, es) (nodes_of (length tabs) tb n) /\ eqv (Node c l) (Node c (map fst es)).
  Proof.
    intros Hc Hn H. destruct (nodes_complete tb c l Hc H) as (es & Hin & E). exists es. split; [|exact E].
    apply in_flat_map. exists (size_l l). split; [apply in_seq; lia|exact Hin].
  Qed.
  Lemma child_size u l : In u l -> (size u <= size_l l)%nat.
  Proof.
    intros Hu. induction l as [|v l IHl]; [destruct Hu|]. cbn in *.
    destruct Hu as [->|Hu]; [lia|]. specialize (IHl Hu). unfold size_l in IHl. lia.
  Qed.
  Lemma table_complete n : forall t, of_parts (length tabs) t -> (size t <= n)%nat ->
    exists e, In e (table mats cvecs (length tabs) n) /\ eqv t (fst e).
  Proof.
    induction n as [|n IH]; intros t Hp Hs; [pose proof (size_pos t); lia|].
    destruct (le_lt_dec (size t) n) as [L|L].
    { destruct (IH t Hp L) as (e & He & E). exists e. split; [apply in_or_app; left; exact He|exact E]. }
    destruct t as [|c l].
    { exists (Time, None). split; [|apply eqv_refl]. clear. induction n as [|n IHn]; [left; reflexivity|]. cbn [table] in *. apply in_or_app. left. exact IHn. }
    rewrite size_node in Hs, L. cbn [of_parts] in Hp. destruct Hp as (Hc & Hl). apply of_parts_l in Hl.
    destruct (nodes_complete (table mats cvecs (length tabs) n) c l Hc) as (es & Hin & E).
    - apply Forall_forall. intros u Hu. rewrite Forall_forall in Hl. apply IH; [apply Hl, Hu|].
      pose proof (child_size u l Hu). lia.
    - assert (size_l l = n) as En by lia. rewrite En in Hin.
      eexists. split; [cbn [table]; apply in_or_app; right; apply in_map_iff; eexists; split; [reflexivity|exact Hin]|]. exact E.
  Qed.

  (** Testing all trees of size at most [p] *)
  Definition all_trees ms cs (N : nat) (test : tree -> V -> bool) (p : nat) : bool :=
    forallb (fun ce => test (Node (fst ce) (map fst (snd ce))) (wv cs (fst ce) (snd ce))) (nodes_of N (table ms cs N (p - 1)) p).
  Lemma all_trees_correct test p : all_trees mats cvecs (length tabs) test p = true ->
    forall t, is_node t -> of_parts (length tabs) t -> (size t <= p)%nat ->
    exists u v, eqv t u /\ is_node u /\ of_parts (length tabs) u /\ represents v (fun i => weight tabs s i u) /\ test u v = true.
  Proof.
    intros H [|c l] Hn Hp Hs; [destruct Hn|]. rewrite size_node in Hs.
    pose proof Hp as Hp'. cbn [of_parts] in Hp'. destruct Hp' as (Hc & Hl). apply of_parts_l in Hl.
    destruct (nodes_of_complete (table mats cvecs (length tabs) (p - 1)) p c l Hc ltac:(lia)) as (es & Hin & E).
    { apply Forall_forall. intros u Hu. rewrite Forall_forall in Hl. apply table_complete; [apply Hl, Hu|].
      assert (size u <= size_l l)%nat; [|lia]. clear -Hu. induction l as [|v l IHl]; [destruct Hu|]. cbn in *.
      destruct Hu as [->|Hu]; [lia|]. specialize (IHl Hu). unfold size_l in IHl. lia. }
    unfold all_trees in H. rewrite forallb_forall in H. specialize (H _ Hin). cbn [fst snd] in H.
    destruct (in_nodes _ _ _ _ _ Hin) as (_ & He).
    assert (G : Forall good_entry es).
    { eapply Forall_impl; [|exact He]. intros e He'. pose proof (table_good (p - 1)) as TG. rewrite Forall_forall in TG. apply TG, He'. }
    exists (Node c (map fst es)), (wv cvecs c es). split; [exact E|]. split; [exact Logic.I|]. split.
    - cbn [of_parts]. split; [exact Hc|]. apply of_parts_l. apply Forall_map. eapply Forall_impl; [|exact G]. intros e He'. apply He'.
    - split; [apply wv_correct; assumption|exact H].
  Qed.

  Lemma all_trees_false test p : all_trees mats cvecs (length tabs) test p = false ->
    exists u v, is_node u /\ of_parts (length tabs) u /\ (size u <= p)%nat /\ represents v (fun i => weight tabs s i u) /\ test u v = false.
  Proof.
    intros H. unfold all_trees in H.
    assert (E : exists ce, In ce (nodes_of (length tabs) (table mats cvecs (length tabs) (p - 1)) p) /\
      test (Node (fst ce) (map fst (snd ce))) (wv cvecs (fst ce) (snd ce)) = false).
    { induction (nodes_of (length tabs) (table mats cvecs (length tabs) (p - 1)) p) as [|ce l IH]; [discriminate|].
      cbn [forallb] in H. destruct (test _ _) eqn:T in H.
      - destruct (IH H) as (ce' & Hin & E). exists ce'. split; [right; exact Hin|exact E].
      - exists ce. split; [left; reflexivity|exact T]. }
    destruct E as ((c & es) & Hin & T). cbn [fst snd] in T. pose proof (nodes_size _ _ _ _ _ Hin) as Hs.
    apply in_nodes in Hin as (Hc & He).
    assert (G : Forall good_entry es).
    { eapply Forall_impl; [|exact He]. intros e He'. pose proof (table_good (p - 1)) as TG. rewrite Forall_forall in TG. apply TG, He'. }
    exists (Node c (map fst es)), (wv cvecs c es). split; [exact Logic.I|]. split.
    - cbn [of_parts]. split; [exact Hc|]. apply of_parts_l. apply Forall_map. eapply Forall_impl; [|exact G]. intros e He'. apply He'.
    - split; [exact Hs|]. split; [apply wv_correct; assumption|exact T].
  Qed.

  Definition value (vecs : list V) (t : tree) (v : V) : A := dotV (nth (root t) vecs vone) v.
  Lemma value_correct b t v : is_node t -> of_parts (length tabs) t -> represents v (fun i => weight tabs s i t) ->
    rel (value (map (vec_of b) tabs) t v)
      (sum_n s (fun i => Q2R (nth i (b (part_tableau tabs (root t))) 0%Q) * weight tabs s i t)).
  Proof.
    intros Hn Hp W. destruct t as [|p l]; [destruct Hn|].
    cbn [of_parts] in Hp. destruct Hp as (Hp & _). unfold value. cbn [root].
    rewrite (nth_indep _ _ (vec_of b no_tableau)) by (rewrite map_length; exact Hp). rewrite map_nth. fold (part_tableau tabs p).
    apply (H_dot _ _ (fun i => Q2R (nth i (b (part_tableau tabs p)) 0%Q))); [|exact W]. apply H_vec.
  Qed.
  Definition value_minus vecs (t : tree) (v : V) : A := plusQ (value vecs t v) (-1 # Z.to_pos (densityZ t)).
  Lemma value_minus_correct b t v : is_node t -> of_parts (length tabs) t -> represents v (fun i => weight tabs s i t) ->
    rel (value_minus (map (vec_of b) tabs) t v)
      (sum_n s (fun i => Q2R (nth i (b (part_tableau tabs (root t))) 0%Q) * weight tabs s i t) - / INR (density t)).
  Proof.
    intros Hn Hp W. unfold Rminus.
    replace (- / INR (density t)) with (Q2R (-1 # Z.to_pos (densityZ t))); [apply H_plus, value_correct; assumption|].
    pose proof (density_pos t). rewrite densityZ_correct. unfold Q2R. cbn [Qnum Qden].
    rewrite Z2Pos.id by lia. rewrite <- INR_IZR_INZ. lra.
  Qed.

  Lemma eqv_residual t u : eqv t u -> residual tabs s t = residual tabs s u /\ error_residual tabs s t = error_residual tabs s u.
  Proof.
    intros (_ & D & RT & _ & W). unfold residual, error_residual. rewrite D, RT. split; [f_equal|]; apply sum_n_ext; intros i _; rewrite W; reflexivity.
  Qed.

  Definition order_test (ok : A -> bool) (p : nat) : bool :=
    let vecs := map (vec_of tab_b_sol) tabs in let ms := mats in let cs := cvecs in
    all_trees ms cs (length tabs) (fun t v => ok (value_minus vecs t v)) p.
  Definition error_test (ok : A -> bool) (p : nat) : bool :=
    let vecs := map (vec_of tab_b_error) tabs in let ms := mats in let cs := cvecs in
    all_trees ms cs (length tabs) (fun t v => ok (value vecs t v)) p.
  Lemma order_test_correct ok p (P : R -> Prop) : (forall a x, rel a x -> ok a = true -> P x) ->
    order_test ok p = true -> forall t, is_node t -> of_parts (length tabs) t -> (size t <= p)%nat -> P (residual tabs s t).
  Proof.
    intros HP H t Hn Hp Hs. destruct (all_trees_correct _ p H t Hn Hp Hs) as (u & v & E & Hn' & Hp' & W & T).
    destruct (eqv_residual t u E) as (-> & _). eapply HP; [|exact T]. apply (value_minus_correct tab_b_sol); assumption.
  Qed.
  Lemma error_test_correct ok p (P : R -> Prop) : (forall a x, rel a x -> ok a = true -> P x) ->
    error_test ok p = true -> forall t, is_node t -> of_parts (length tabs) t -> (size t <= p)%nat -> P (error_residual tabs s t).
  Proof.
    intros HP H t Hn Hp Hs. destruct (all_trees_correct _ p H t Hn Hp Hs) as (u & v & E & Hn' & Hp' & W & T).
    destruct (eqv_residual t u E) as (_ & ->). eapply HP; [|exact T]. apply (value_correct tab_b_error); assumption.
  Qed.
  Lemma order_test_false ok p (P : R -> Prop) : (forall a x, rel a x -> ok a = false -> P x) ->
    order_test ok p = false -> exists t, is_node t /\ of_parts (length tabs) t /\ (size t <= p)%nat /\ P (residual tabs s t).
  Proof.
    intros HP H. destruct (all_trees_false _ p H) as (u & v & Hn & Hp & Hs & W & T). exists u.
    split; [exact Hn|]. split; [exact Hp|]. split; [exact Hs|]. eapply HP; [|exact T]. apply (value_minus_correct tab_b_sol); assumption.
  Qed.
  Lemma error_test_false ok p (P : R -> Prop) : (forall a x, rel a x -> ok a = false -> P x) ->
    error_test ok p = false -> exists t, is_node t /\ of_parts (length tabs) t /\ (size t <= p)%nat /\ P (error_residual tabs s t).
  Proof.
    intros HP H. destruct (all_trees_false _ p H) as (u & v & Hn & Hp & Hs & W & T). exists u.
    split; [exact Hn|]. split; [exact Hp|]. split; [exact Hs|]. eapply HP; [|exact T]. apply (value_correct tab_b_error); assumption.
  Qed.
End Eval.

(** ** Exactly, with rational numbers *)
Section Elementwise.
  Context {A : Type}.
  Variables (ofQ : Q -> A) (mul add : A -> A -> A).
  Variable rel : A -> R -> Prop.
  Hypothesis R_ofQ : forall q, rel (ofQ q) (Q2R q).
  Hypothesis R_mul : forall a b x y, rel a x -> rel b y -> rel (mul a b) (x * y).
  Hypothesis R_add : forall a b x y, rel a x -> rel b y -> rel (add a b) (x + y).
  Variable s : nat.
  Definition erepresents (v : list A) (f : nat -> R) : Prop :=
    length v = s /\ forall i a, nth_error v i = Some a -> rel a (f i).

  Fixpoint dot (u v : list A) : A :=
    match u, v with x :: u, y :: v => add (mul x y) (dot u v) | _, _ => ofQ 0 end.
  Definition etimes (u v : list A) : list A := map2 mul u v.
  Definition emat_vec (m : list (list A)) (v : list A) : list A := map (fun row => dot row v) m.

  Lemma rel_seq (g : nat -> A) (f : nat -> R) n i a : (forall i, (i < n)%nat -> rel (g i) (f i)) ->
    nth_error (map g (seq 0 n)) i = Some a -> rel a (f i).
  Proof.
    intros H E. assert (Hi : (i < n)%nat).
    { assert (nth_error (map g (seq 0 n)) i <> None) as E' by congruence.
      apply nth_error_Some in E'. rewrite map_length, seq_length in E'. exact E'. }
    rewrite nth_error_map, nth_error_nth' with (d := 0%nat) in E by (rewrite seq_length; exact Hi).
    rewrite seq_nth in E by exact Hi. cbn in E. injection E as <-. apply H, Hi.
  Qed.
  Lemma erepresents_seq (g : nat -> A) (f : nat -> R) : (forall i, (i < s)%nat -> rel (g i) (f i)) -> erepresents (map g (seq 0 s)) f.
  Proof. intros H. split; [rewrite map_length, seq_length; reflexivity|]. intros i a. apply rel_seq, H. Qed.
  Lemma erepresents_times u v f g : erepresents u f -> erepresents v g -> erepresents (etimes u v) (fun i => f i * g i).
  Proof.
    intros (Lu & Hu) (Lv & Hv). unfold erepresents, etimes. clear R_ofQ R_add. revert v f g s Lu Lv Hu Hv.
    induction u as [|a u IH]; intros [|b v] f g n Lu Lv Hu Hv; cbn in Lu, Lv; subst n; try discriminate.
    - split; [reflexivity|]. intros [|i] a E; discriminate.
    - destruct (IH v (fun i => f (S i)) (fun i => g (S i)) (length u) eq_refl ltac:(congruence)) as (L & H).
      + intros i a' E. apply (Hu (S i)), E.
      + intros i a' E. apply (Hv (S i)), E.
      + split; [cbn; rewrite L; reflexivity|]. intros [|i] a' E; [|apply (H i), E].
        injection E as <-. apply R_mul; [apply (Hu 0%nat); reflexivity|apply (Hv 0%nat); reflexivity].
  Qed.
  Lemma erepresents_dot u v f g : erepresents u f -> erepresents v g -> rel (dot u v) (sum_n s (fun i => f i * g i)).
  Proof.
    intros (Lu & Hu) (Lv & Hv). revert v f g s Lu Lv Hu Hv.
    induction u as [|a u IH]; intros [|b v] f g n Lu Lv Hu Hv; cbn in Lu, Lv; subst n; try discriminate.
    - cbn. rewrite <- RMicromega.Q2R_0. apply R_ofQ.
    - cbn [length]. rewrite sum_n_head. cbn [dot]. apply R_add.
      + apply R_mul; [apply (Hu 0%nat); reflexivity|apply (Hv 0%nat); reflexivity].
      + apply (IH v (fun i => f (S i)) (fun i => g (S i)) (length u) eq_refl ltac:(congruence)).
        * intros i a' E. apply (Hu (S i)), E.
        * intros i a' E. apply (Hv (S i)), E.
  Qed.
End Elementwise.
Definition relQ (q : Q) (x : R) : Prop := Q2R q = x.
Definition addQ (a b : Q) : Q := Qred (a + b).
Definition mulQ (a b : Q) : Q := if Qeq_bool a 0 then 0%Q else Qred (a * b).
Lemma relQ_add a b x y : relQ a x -> relQ b y -> relQ (addQ a b) (x + y).
Proof. unfold relQ, addQ. intros <- <-. rewrite (Qeq_eqR _ _ (Qred_correct (a + b))). apply Q2R_plus. Qed.
Lemma relQ_mul a b x y : relQ a x -> relQ b y -> relQ (mulQ a b) (x * y).
Proof.
  unfold relQ, mulQ. intros <- <-. destruct (Qeq_bool a 0) eqn:E.
  - apply Qeq_bool_eq, Qeq_eqR in E. rewrite E, RMicromega.Q2R_0. ring.
  - rewrite (Qeq_eqR _ _ (Qred_correct (a * b))). apply Q2R_mult.
Qed.
Definition isZero (q : Q) : bool := Qeq_bool q 0.
Lemma isZero_correct q x : relQ q x -> isZero q = true -> x = 0.
Proof. unfold relQ. intros <- E. apply Qeq_bool_eq, Qeq_eqR in E. rewrite E. apply RMicromega.Q2R_0. Qed.
Definition idQ (q : Q) : Q := q.
Lemma relQ_id q : relQ (idQ q) (Q2R q).
Proof. reflexivity. Qed.
Section Exact.
  Variables (tabs : list tableau) (s : nat).
  Notation vecr := (erepresents relQ s).
  Definition plusQQ (a q : Q) : Q := addQ a q.
  Notation dotQ := (dot idQ mulQ addQ).
  Lemma Q_vec g : vecr (map g (seq 0 s)) (fun i => Q2R (g i)).
  Proof. apply erepresents_seq. intros i _. reflexivity. Qed.
  Lemma Q_times u v f g : vecr u f -> vecr v g -> vecr (etimes mulQ u v) (fun i => f i * g i).
  Proof. apply erepresents_times. exact relQ_mul. Qed.
  Lemma Q_dot u v f g : vecr u f -> vecr v g -> relQ (dotQ u v) (sum_n s (fun i => f i * g i)).
  Proof. apply erepresents_dot; [exact relQ_id|exact relQ_mul|exact relQ_add]. Qed.
  Lemma Q_mat a v f : vecr v f ->
    vecr (emat_vec idQ mulQ addQ (map (fun i => map (a i) (seq 0 s)) (seq 0 s)) v) (fun i => sum_n s (fun j => Q2R (a i j) * f j)).
  Proof.
    intros H. unfold emat_vec. rewrite map_map. apply erepresents_seq. intros i _. apply (Q_dot _ _ (fun j => Q2R (a i j))); [apply Q_vec|exact H].
  Qed.
  Lemma Q_plus a x q : relQ a x -> relQ (plusQQ a q) (x + Q2R q).
  Proof. intros H. apply relQ_add; [exact H|reflexivity]. Qed.
  Lemma Q_ext v f g : vecr v f -> (forall i, f i = g i) -> vecr v g.
  Proof. intros (L & H) E. split; [exact L|]. intros i a Hi. rewrite <- E. apply H, Hi. Qed.

  Definition order_exact (p : nat) : bool :=
    order_test tabs s (fun v => v) (fun m => m) (etimes mulQ) (emat_vec idQ mulQ addQ) dotQ plusQQ isZero p.
  Definition error_exact (p : nat) : bool :=
    error_test tabs s (fun v => v) (fun m => m) (etimes mulQ) (emat_vec idQ mulQ addQ) dotQ isZero p.
  Lemma order_exact_correct p : order_exact p = true -> has_order tabs s p.
  Proof.
    intros H. unfold has_order. eapply (order_test_correct tabs s _ _ _ _ _ _ vecr relQ Q_vec Q_times Q_mat Q_dot Q_plus Q_ext _ _ (fun x => x = 0) isZero_correct H).
  Qed.
  Lemma error_exact_correct p : error_exact p = true -> error_has_order tabs s p.
  Proof.
    intros H. unfold error_has_order. eapply (error_test_correct tabs s _ _ _ _ _ vecr relQ Q_vec Q_times Q_mat Q_dot Q_ext _ _ (fun x => x = 0) isZero_correct H).
  Qed.
  Lemma isZero_false q x : relQ q x -> isZero q = false -> x <> 0.
  Proof. unfold relQ. intros <- E H. rewrite <- RMicromega.Q2R_0 in H. apply eqR_Qeq in H. apply Qeq_bool_neq in E. contradiction. Qed.
  Lemma order_exact_false p : order_exact p = false -> ~ has_order tabs s p.
  Proof.
    intros H HO. eapply (order_test_false tabs s _ _ _ _ _ _ vecr relQ Q_vec Q_times Q_mat Q_dot Q_plus Q_ext _ _ (fun x => x <> 0) isZero_false) in H.
    destruct H as (t & Hn & Hp & Hs & E). apply E, HO; assumption.
  Qed.
  Lemma error_exact_false p : error_exact p = false -> ~ error_has_order tabs s p.
  Proof.
    intros H HO. eapply (error_test_false tabs s _ _ _ _ _ vecr relQ Q_vec Q_times Q_mat Q_dot Q_ext _ _ (fun x => x <> 0) isZero_false) in H.
    destruct H as (t & Hn & Hp & Hs & E). apply E, HO; assumption.
  Qed.
End Exact.

(** ** Approximately, with fixed-point numbers and error bounds *)
Section Ball.
  Variable k : Z.
  Hypothesis Hk : (16 <= k)%Z.
  Lemma Hk0 : (0 <= k)%Z.
  Proof. lia. Qed.
  Definition ball : Type := Z * Z.
  Definition relB (b : ball) (x : R) : Prop := Rabs (x * IZR (2 ^ k) - IZR (fst b)) <= IZR (snd b).
  (** A number times [2 ^ k], its absolute value in units of [2 ^ (k - 16)] rounded up, and a bound on its error *)
  Record fx := Fix { x_val : Z; x_size : Z; x_err : Z }.
  Definition mkfix (z e : Z) : fx := Fix z (Z.shiftr (Z.abs z) (k - 16) + 1) e.
  Definition fixQ (q : Q) : Z := if (Qnum q =? 0)%Z then 0%Z else (Z.shiftl (Qnum q) k / Zpos (Qden q))%Z.
  Definition ofQB (q : Q) : fx := if (Qnum q =? 0)%Z then Fix 0 0 0 else mkfix (fixQ q) 1.
  Definition is_zero (x : fx) : bool := ((x_val x =? 0) && (x_size x =? 0) && (x_err x =? 0))%Z.
  Fixpoint trim (l : list fx) : list fx :=
    match l with [] => [] | z :: l => match trim l with [] => if is_zero z then [] else [z] | l' => z :: l' end end.
  Definition vecB (l : list Q) : list fx := map ofQB l.
  Definition matB (m : list (list Q)) : list (list fx) := map (fun r => trim (map ofQB r)) m.
  (** The error of a product, in units of [2 ^ (k - 16)] *)
  Definition prod_err (x y : fx) : Z := (x_size x * x_err y + x_err x * x_size y + x_err x * x_err y)%Z.
  Definition mulB (x y : fx) : fx := mkfix (Z.shiftr (x_val x * x_val y) k) (Z.shiftr (prod_err x y) 16 + 2).
  Definition timesB (u v : list fx) : list fx := map2 mulB u v.
  Fixpoint dotZ (u v : list fx) : Z :=
    match u, v with x :: u, y :: v => (x_val x * x_val y + dotZ u v)%Z | _, _ => 0%Z end.
  Fixpoint dotE (u v : list fx) : Z :=
    match u, v with x :: u, y :: v => (prod_err x y + dotE u v)%Z | _, _ => 0%Z end.
  Definition dotB (u v : list fx) : ball := (Z.shiftr (dotZ u v) k, Z.shiftr (dotE u v) 16 + 2)%Z.
  Definition mat_vecB (m : list (list fx)) (v : list fx) : list fx :=
    map (fun row => let d := dotB row v in mkfix (fst d) (snd d)) m.
  Definition plusB (a : ball) (q : Q) : ball := (fst a + fixQ q, snd a + 1)%Z.
  Lemma P_pos : 0 < IZR (2 ^ k).
  Proof. apply IZR_lt. apply Z.pow_pos_nonneg; lia. Qed.
  Lemma floor_div a b : (0 < b)%Z -> IZR a / IZR b - 1 <= IZR (a / b) <= IZR a / IZR b.
  Proof.
    intros Hb. pose proof (Z.div_mod a b ltac:(lia)) as E. pose proof (Z.mod_pos_bound a b Hb) as (M1 & M2).
    apply IZR_lt in Hb. apply IZR_le in M1. apply IZR_lt in M2. apply (f_equal IZR) in E. rewrite plus_IZR, mult_IZR in E.
    assert (D : IZR a / IZR b = IZR (a / b) + IZR (a mod b) / IZR b) by (rewrite E; field; lra).
    assert (0 <= IZR (a mod b) / IZR b <= 1).
    { split; [apply Rmult_le_pos; [lra|left; apply Rinv_0_lt_compat; exact Hb]|].
      apply Rmult_le_reg_r with (IZR b); [exact Hb|]. unfold Rdiv. rewrite Rmult_assoc, Rinv_l by lra. lra. }
    lra.
  Qed.


  Definition near (z : Z) (e : Z) (x : R) : Prop := Rabs (x * IZR (2 ^ k) - IZR z) <= IZR e.
  Definition U : Z := (2 ^ (k - 16))%Z.
  Lemma U_pos : (1 <= U)%Z.
  Proof. unfold U. pose proof (Z.pow_pos_nonneg 2 (k - 16) ltac:(lia) ltac:(lia)). lia. Qed.
  Lemma U_P : (U * 2 ^ 16 = 2 ^ k)%Z.
  Proof. unfold U. rewrite <- Z.pow_add_r by lia. f_equal. lia. Qed.
  Definition relF (a : fx) (x : R) : Prop :=
    near (x_val a) (x_err a) x /\ (Z.abs (x_val a) <= x_size a * U)%Z /\ (0 <= x_err a)%Z /\ (0 <= x_size a)%Z.
  Lemma mkfix_rel z e x : (0 <= e)%Z -> near z e x -> relF (mkfix z e) x.
  Proof.
    intros He H. unfold relF, mkfix. cbn [x_val x_size x_err]. split; [exact H|].
    rewrite Z.shiftr_div_pow2 by lia. fold U. pose proof U_pos as HU.
    pose proof (Z.div_mod (Z.abs z) U ltac:(lia)). pose proof (Z.mod_pos_bound (Z.abs z) U ltac:(lia)).
    assert (0 <= Z.abs z / U)%Z by (apply Z.div_pos; lia). split; [nia|]. split; [exact He|lia].
  Qed.
  Lemma fixQ_near q : near (fixQ q) 1 (Q2R q).
  Proof.
    unfold near, fixQ. destruct (Z.eqb_spec (Qnum q) 0) as [E|E].
    - unfold Q2R. rewrite E. rewrite !Rmult_0_l, Rminus_0_r, Rabs_R0. lra.
    - rewrite Z.shiftl_mul_pow2 by exact Hk0. pose proof (floor_div (Qnum q * 2 ^ k) (Zpos (Qden q)) ltac:(lia)) as F.
      rewrite mult_IZR in F. unfold Q2R. apply Rabs_le.
      replace (IZR (Qnum q) * / IZR (Zpos (Qden q)) * IZR (2 ^ k)) with (IZR (Qnum q) * IZR (2 ^ k) / IZR (Zpos (Qden q))) by (unfold Rdiv; ring).
      lra.
  Qed.
  Lemma ofQB_rel q : relF (ofQB q) (Q2R q).
  Proof.
    unfold ofQB. destruct (Z.eqb_spec (Qnum q) 0) as [E|E]; [|apply mkfix_rel; [lia|apply fixQ_near]].
    unfold relF, near, Q2R. rewrite E. cbn [x_val x_size x_err]. rewrite !Rmult_0_l, Rminus_0_r, Rabs_R0. cbn. repeat split; try lra; lia.
  Qed.
  Definition vecrB (s : nat) (v : list fx) (f : nat -> R) : Prop := erepresents relF s v f.
  Lemma B_vec s g : vecrB s (vecB (map g (seq 0 s))) (fun i => Q2R (g i)).
  Proof. unfold vecB. rewrite map_map. apply erepresents_seq. intros i _. apply ofQB_rel. Qed.
  (** Products of approximations, and the common shift at the end *)
  Definition near2 (z : Z) (e : Z) (x : R) : Prop := Rabs (x * IZR (2 ^ k) * IZR (2 ^ k) - IZR z) <= IZR (e * U).
  Lemma near_mul a b x y : relF a x -> relF b y -> near2 (x_val a * x_val b) (prod_err a b) (x * y).
  Proof.
    unfold relF, near2, near, prod_err. intros (Ha & Ma & Ea & Sa) (Hb & Mb & Eb & Sb).
    pose proof U_pos as HU. apply IZR_le in Ma, Mb, Ea, Eb, Sa, Sb, HU. rewrite abs_IZR, mult_IZR in Ma, Mb. rewrite !mult_IZR, !plus_IZR, !mult_IZR.
    set (P := IZR (2 ^ k)) in *. set (u := IZR U) in *.
    replace (x * y * P * P - IZR (x_val a) * IZR (x_val b)) with
      (IZR (x_val a) * (y * P - IZR (x_val b)) + (x * P - IZR (x_val a)) * IZR (x_val b) + (x * P - IZR (x_val a)) * (y * P - IZR (x_val b))) by ring.
    set (dx := x * P - IZR (x_val a)) in *. set (dy := y * P - IZR (x_val b)) in *.
    pose proof (Rabs_pos dx). pose proof (Rabs_pos dy). pose proof (Rabs_pos (IZR (x_val a))). pose proof (Rabs_pos (IZR (x_val b))).
    replace ((IZR (x_size a) * IZR (x_err b) + IZR (x_err a) * IZR (x_size b) + IZR (x_err a) * IZR (x_err b)) * u) with
      ((IZR (x_size a) * u) * IZR (x_err b) + IZR (x_err a) * (IZR (x_size b) * u) + IZR (x_err a) * IZR (x_err b) * u) by ring.
    eapply Rle_trans; [apply Rabs_triang|]. apply Rplus_le_compat.
    - eapply Rle_trans; [apply Rabs_triang|]. rewrite !Rabs_mult. apply Rplus_le_compat; apply Rmult_le_compat; lra.
    - rewrite Rabs_mult. assert (Rabs dx * Rabs dy <= IZR (x_err a) * IZR (x_err b)) by (apply Rmult_le_compat; lra).
      assert (E0 : 0 <= IZR (x_err a) * IZR (x_err b)) by (apply Rmult_le_pos; lra).
      eapply Rle_trans; [eassumption|]. rewrite <- (Rmult_1_r (IZR (x_err a) * IZR (x_err b))) at 1. apply Rmult_le_compat_l; [exact E0|exact HU].
  Qed.
  Lemma near_shift z e x : near2 z e x -> near (Z.shiftr z k) (Z.shiftr e 16 + 2) x.
  Proof.
    unfold near2, near. intros H. pose proof P_pos as HP. rewrite !Z.shiftr_div_pow2 by lia.
    assert (HP' : (0 < 2 ^ k)%Z) by (apply lt_IZR; exact HP).
    pose proof (floor_div z (2 ^ k) HP') as F1. pose proof (floor_div e (2 ^ 16) ltac:(lia)) as F2. rewrite plus_IZR.
    assert (EU : IZR (e * U) / IZR (2 ^ k) = IZR e / IZR (2 ^ 16)).
    { rewrite <- U_P, !mult_IZR. pose proof U_pos. field. split; apply not_0_IZR; lia. }
    set (P := IZR (2 ^ k)) in *.
    assert (D : Rabs (x * P - IZR z / P) <= IZR (e * U) / P).
    { replace (x * P - IZR z / P) with ((x * P * P - IZR z) * / P) by (field; lra).
      rewrite Rabs_mult, (Rabs_pos_eq (/ P)) by (left; apply Rinv_0_lt_compat; lra).
      apply Rmult_le_compat_r; [left; apply Rinv_0_lt_compat; lra|exact H]. }
    rewrite EU in D. unfold Rabs in D. apply Rabs_le. destruct (Rcase_abs (x * P - IZR z / P)); lra.
  Qed.
  Lemma prod_err_nonneg a b x y : relF a x -> relF b y -> (0 <= prod_err a b)%Z.
  Proof. unfold relF, prod_err. intros (_ & _ & Ea & Sa) (_ & _ & Eb & Sb). nia. Qed.
  Lemma shift_nonneg e : (0 <= e)%Z -> (0 <= Z.shiftr e 16 + 2)%Z.
  Proof. intros H. pose proof (proj2 (Z.shiftr_nonneg e 16) H). lia. Qed.
  Lemma mulB_rel a b x y : relF a x -> relF b y -> relF (mulB a b) (x * y).
  Proof. intros Ha Hb. apply mkfix_rel; [eapply shift_nonneg, prod_err_nonneg; eassumption|]. apply near_shift, near_mul; assumption. Qed.
  Lemma B_times s u v f g : vecrB s u f -> vecrB s v g -> vecrB s (timesB u v) (fun i => f i * g i).
  Proof. apply erepresents_times. exact mulB_rel. Qed.
  Lemma near2_add z e x z' e' x' : near2 z e x -> near2 z' e' x' -> near2 (z + z') (e + e') (x + x').
  Proof.
    unfold near2. intros H H'. rewrite Z.mul_add_distr_r, !plus_IZR.
    replace ((x + x') * IZR (2 ^ k) * IZR (2 ^ k) - (IZR z + IZR z')) with ((x * IZR (2 ^ k) * IZR (2 ^ k) - IZR z) + (x' * IZR (2 ^ k) * IZR (2 ^ k) - IZR z')) by ring.
    eapply Rle_trans; [apply Rabs_triang|]. lra.
  Qed.
  Lemma near2_zero : near2 0 0 0.
  Proof. unfold near2. rewrite !Rmult_0_l, Rminus_0_r, Rabs_R0. cbn. lra. Qed.
  Lemma dot_near : forall s (u v : list fx) (f g : nat -> R), vecrB s u f -> vecrB s v g ->
    near2 (dotZ u v) (dotE u v) (sum_n s (fun i => f i * g i)) /\ (0 <= dotE u v)%Z.
  Proof.
    intros s u v f g (Lu & Hu) (Lv & Hv). revert v s f g Lu Lv Hu Hv.
    induction u as [|a u IH]; intros [|b v] n f g Lu Lv Hu Hv; cbn in Lu, Lv; subst n; try discriminate.
    - split; [apply near2_zero|cbn; lia].
    - cbn [length]. rewrite sum_n_head. cbn [dotZ dotE].
      destruct (IH v (length u) (fun i => f (S i)) (fun i => g (S i))) as (N & P);
        [reflexivity|congruence|intros i c Hi; apply (Hu (S i)), Hi|intros i c Hi; apply (Hv (S i)), Hi|].
      specialize (Hu 0%nat a eq_refl). specialize (Hv 0%nat b eq_refl).
      split; [apply near2_add; [apply near_mul; assumption|exact N]|]. pose proof (prod_err_nonneg _ _ _ _ Hu Hv). lia.
  Qed.
  Lemma B_dot s u v f g : vecrB s u f -> vecrB s v g -> relB (dotB u v) (sum_n s (fun i => f i * g i)).
  Proof. intros Hu Hv. apply near_shift. apply (dot_near s); assumption. Qed.
  Lemma dotZ_trim u : forall v, dotZ (trim u) v = dotZ u v /\ dotE (trim u) v = dotE u v.
  Proof.
    induction u as [|x u IH]; intros v; [split; reflexivity|]. cbn [trim]. destruct (trim u) as [|x' u'] eqn:T.
    - unfold is_zero. destruct (Z.eqb_spec (x_val x) 0) as [E1|N].
      + destruct (Z.eqb_spec (x_size x) 0) as [E2|N]; [destruct (Z.eqb_spec (x_err x) 0) as [E3|N]|]; cbn [andb];
          destruct v as [|y v]; cbn [dotZ dotE]; try (split; reflexivity); destruct (IH v) as (I1 & I2); rewrite <- I1, <- I2; cbn [dotZ dotE];
          unfold prod_err; rewrite ?E1, ?E2, ?E3; split; lia.
      + cbn [andb]. destruct v as [|y v]; cbn [dotZ dotE]; [split; reflexivity|]. destruct (IH v) as (I1 & I2). rewrite <- I1, <- I2. cbn [dotZ dotE]. split; lia.
    - destruct v as [|y v]; cbn [dotZ dotE]; [split; reflexivity|]. destruct (IH v) as (I1 & I2). rewrite <- I1, <- I2. split; reflexivity.
  Qed.
  Lemma B_mat s a v f : vecrB s v f ->
    vecrB s (mat_vecB (matB (map (fun i => map (a i) (seq 0 s)) (seq 0 s))) v) (fun i => sum_n s (fun j => Q2R (a i j) * f j)).
  Proof.
    intros H. unfold mat_vecB, matB. rewrite !map_map. apply erepresents_seq. intros i _.
    unfold dotB. destruct (dotZ_trim (map ofQB (map (a i) (seq 0 s))) v) as (-> & ->). cbn [fst snd].
    destruct (dot_near s (map ofQB (map (a i) (seq 0 s))) v (fun j => Q2R (a i j)) f) as (N & P); [apply (B_vec s)|exact H|].
    apply mkfix_rel; [apply shift_nonneg, P|apply near_shift, N].
  Qed.
  Lemma B_plus a x q : relB a x -> relB (plusB a q) (x + Q2R q).
  Proof.
    unfold relB, plusB. cbn [fst snd]. intros H. pose proof (fixQ_near q) as N. unfold near in N. rewrite !plus_IZR.
    replace ((x + Q2R q) * IZR (2 ^ k) - (IZR (fst a) + IZR (fixQ q))) with ((x * IZR (2 ^ k) - IZR (fst a)) + (Q2R q * IZR (2 ^ k) - IZR (fixQ q))) by ring.
    eapply Rle_trans; [apply Rabs_triang|]. lra.
  Qed.
  Lemma B_ext s v f g : vecrB s v f -> (forall i, f i = g i) -> vecrB s v g.
  Proof. intros (L & H) E. split; [exact L|]. intros i z Hi. rewrite <- E. apply H, Hi. Qed.

  Definition below (eps : Q) (b : ball) : bool :=
    ((Z.abs (fst b) + snd b) * Zpos (Qden eps) <=? Z.shiftl (Qnum eps) k)%Z.
  Lemma below_correct eps b x : relB b x -> below eps b = true -> Rabs x <= Q2R eps.
  Proof.
    unfold relB, below. intros H E. apply Z.leb_le, IZR_le in E. rewrite Z.shiftl_mul_pow2, !mult_IZR, plus_IZR, abs_IZR in E by exact Hk0.
    pose proof P_pos as HP. set (P := IZR (2 ^ k)) in *.
    assert (HD : 0 < IZR (Zpos (Qden eps))) by (apply IZR_lt; lia). set (d := IZR (Zpos (Qden eps))) in *.
    assert (A : Rabs x * P <= Rabs (IZR (fst b)) + IZR (snd b)).
    { rewrite <- (Rabs_pos_eq P) at 1 by lra. rewrite <- Rabs_mult.
      replace (x * P) with (IZR (fst b) + (x * P - IZR (fst b))) by ring. eapply Rle_trans; [apply Rabs_triang|]. lra. }
    unfold Q2R. fold d. apply Rmult_le_reg_r with (P * d); [nra|].
    replace (IZR (Qnum eps) * / d * (P * d)) with (IZR (Qnum eps) * P) by (field; lra).
    eapply Rle_trans; [|exact E]. rewrite <- Rmult_assoc. apply Rmult_le_compat_r; lra.
  Qed.

  Definition not_above (eps : Q) (b : ball) : bool :=
    ((Z.abs (fst b) - snd b) * Zpos (Qden eps) <=? Z.shiftl (Qnum eps) k)%Z.
  Lemma not_above_false eps b x : relB b x -> not_above eps b = false -> Q2R eps < Rabs x.
  Proof.
    unfold relB, not_above. intros H E. apply Z.leb_gt, IZR_lt in E. rewrite Z.shiftl_mul_pow2, !mult_IZR, minus_IZR, abs_IZR in E by exact Hk0.
    pose proof P_pos as HP. set (P := IZR (2 ^ k)) in *.
    assert (HD : 0 < IZR (Zpos (Qden eps))) by (apply IZR_lt; lia). set (d := IZR (Zpos (Qden eps))) in *.
    assert (A : Rabs (IZR (fst b)) - IZR (snd b) <= Rabs x * P).
    { rewrite <- (Rabs_pos_eq P) at 1 by lra. rewrite <- Rabs_mult.
      pose proof (Rabs_triang (x * P) (- (x * P - IZR (fst b)))) as T. rewrite Rabs_Ropp in T.
      replace (x * P + - (x * P - IZR (fst b))) with (IZR (fst b)) in T by ring. lra. }
    unfold Q2R. fold d. apply Rmult_lt_reg_r with (P * d); [nra|].
    replace (IZR (Qnum eps) * / d * (P * d)) with (IZR (Qnum eps) * P) by (field; lra).
    eapply Rlt_le_trans; [exact E|]. rewrite <- Rmult_assoc. apply Rmult_le_compat_r; lra.
  Qed.
  Variable s : nat.
  Variable tabs : list tableau.
  Definition order_approx (eps : Q) (p : nat) : bool := order_test tabs s vecB matB timesB mat_vecB dotB plusB (below eps) p.
  Definition error_approx (eps : Q) (p : nat) : bool := error_test tabs s vecB matB timesB mat_vecB dotB (below eps) p.
  Lemma order_approx_correct eps p : order_approx eps p = true -> has_order_up_to tabs s (Q2R eps) p.
  Proof.
    intros H. unfold has_order_up_to. eapply (order_test_correct tabs s _ _ _ _ _ _ (vecrB s) relB (B_vec s) (B_times s) (B_mat s) (B_dot s) B_plus (B_ext s) _ _ (fun x => Rabs x <= Q2R eps) (below_correct eps) H).
  Qed.
  Lemma error_approx_correct eps p : error_approx eps p = true -> error_has_order_up_to tabs s (Q2R eps) p.
  Proof.
    intros H. unfold error_has_order_up_to. eapply (error_test_correct tabs s _ _ _ _ _ (vecrB s) relB (B_vec s) (B_times s) (B_mat s) (B_dot s) (B_ext s) _ _ (fun x => Rabs x <= Q2R eps) (below_correct eps) H).
  Qed.
  Definition order_missed (eps : Q) (p : nat) : bool := negb (order_test tabs s vecB matB timesB mat_vecB dotB plusB (not_above eps) p).
  Lemma order_missed_correct eps p : order_missed eps p = true ->
    exists t, is_node t /\ of_parts (length tabs) t /\ (size t <= p)%nat /\ Q2R eps < Rabs (residual tabs s t).
  Proof.
    intros H. apply negb_true_iff in H.
    apply (order_test_false tabs s _ _ _ _ _ _ (vecrB s) relB (B_vec s) (B_times s) (B_mat s) (B_dot s) B_plus (B_ext s) _ _ (fun x => Q2R eps < Rabs x) (not_above_false eps) H).
  Qed.
End Ball.
