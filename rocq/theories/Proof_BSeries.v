(** Expansions of Runge--Kutta steps and of exact solutions as sums over trees. *)
From Coq Require Import Reals QArith Qreals List Bool Arith Lia Lra FunctionalExtensionality.
From Verif Require Import Model_Result Model_RK Model_Terms Spec_RK Spec_Order Proof_Terms.
Import ListNotations.
Open Scope R_scope.

(** * Trees *)
Section TreeInd.
  Variable P : tree -> Prop.
  Hypothesis PT : P Time.
  Hypothesis PN : forall c l, Forall P l -> P (Node c l).
  Fixpoint tree_ind' (t : tree) : P t :=
    match t with
    | Time => PT
    | Node c l => PN c l ((fix go l := match l return Forall P l with
                                       | [] => Forall_nil _ | t :: l => Forall_cons _ (tree_ind' t) (go l) end) l)
    end.
End TreeInd.

Definition size_l (l : list tree) : nat := fold_right (fun u n => size u + n)%nat 0%nat l.

Lemma size_pos t : (1 <= size t)%nat.
Proof. destruct t; cbn; lia. Qed.

(** * Finite sums over lists *)
Definition lsum {A : Type} (l : list A) (f : A -> R) : R := fold_right (fun a acc => f a + acc) 0 l.

  Lemma lsum_app {A : Type} (l m : list A) f : lsum (l ++ m) f = lsum l f + lsum m f.
  Proof. unfold lsum. induction l; cbn; [ring|]. rewrite IHl. ring. Qed.
  Lemma lsum_ext {A : Type} (l : list A) f g : (forall a, In a l -> f a = g a) -> lsum l f = lsum l g.
  Proof. unfold lsum. induction l; cbn; [reflexivity|]. intros H. rewrite H, IHl; auto. Qed.
  Lemma lsum_plus {A : Type} (l : list A) f g : lsum l (fun a => f a + g a) = lsum l f + lsum l g.
  Proof. unfold lsum. induction l; cbn; [ring|]. rewrite IHl. ring. Qed.
  Lemma lsum_mult {A : Type} (l : list A) c f : lsum l (fun a => c * f a) = c * lsum l f.
  Proof. unfold lsum. induction l; cbn; [ring|]. rewrite IHl. ring. Qed.
  Lemma lsum_minus {A : Type} (l : list A) f g : lsum l (fun a => f a - g a) = lsum l f - lsum l g.
  Proof. unfold lsum. induction l; cbn; [ring|]. rewrite IHl. ring. Qed.
  Lemma lsum_map {A B : Type} (g : A -> B) (l : list A) f : lsum (map g l) f = lsum l (fun a => f (g a)).
  Proof. unfold lsum. induction l; cbn; [ring|]. rewrite IHl. ring. Qed.
  Lemma lsum_flat_map {A B : Type} (g : A -> list B) (l : list A) f : lsum (flat_map g l) f = lsum l (fun a => lsum (g a) f).
  Proof. induction l; [reflexivity|]. cbn [flat_map]. rewrite lsum_app, IHl. reflexivity. Qed.
  Lemma lsum_filter {A : Type} (p : A -> bool) (l : list A) f :
    lsum l f = lsum (filter p l) f + lsum (filter (fun a => negb (p a)) l) f.
  Proof.
    unfold lsum. induction l as [|a l IH]; cbn; [ring|]. rewrite IH. destruct (p a); cbn; ring.
  Qed.
  Lemma lsum_swap {A B : Type} (l : list A) (m : list B) f : lsum l (fun a => lsum m (f a)) = lsum m (fun b => lsum l (fun a => f a b)).
  Proof.
    induction l as [|a l IH]; cbn.
    - unfold lsum. induction m; cbn; [reflexivity|]. rewrite <- IHm. ring.
    - fold (lsum l (fun a => lsum m (f a))). rewrite IH.
      change (fun b => f a b + fold_right (fun a0 acc => f a0 b + acc) 0 l) with (fun b => f a b + lsum l (fun a => f a b)).
      rewrite lsum_plus. reflexivity.
  Qed.
  Lemma lsum_abs {A : Type} (l : list A) f g : (forall a, In a l -> Rabs (f a) <= g a) -> Rabs (lsum l f) <= lsum l g.
  Proof.
    unfold lsum. induction l as [|a l IH]; cbn; intros H; [rewrite Rabs_R0; lra|].
    eapply Rle_trans; [apply Rabs_triang|]. apply Rplus_le_compat; auto.
  Qed.
  Lemma lsum_nonneg {A : Type} (l : list A) g : (forall a, In a l -> 0 <= g a) -> 0 <= lsum l g.
  Proof. unfold lsum. induction l as [|a l IH]; cbn; intros H; [lra|]. apply Rplus_le_le_0_compat; auto. Qed.
Lemma sum_n_lsum n f : sum_n n f = lsum (seq 0 n) f.
Proof.
  induction n; [reflexivity|]. rewrite seq_S, lsum_app, <- IHn. cbn. ring.
Qed.
Lemma sum_n_lsum_swap {A} n (l : list A) (f : nat -> A -> R) :
  sum_n n (fun i => lsum l (f i)) = lsum l (fun a => sum_n n (fun i => f i a)).
Proof.
  rewrite sum_n_lsum, lsum_swap. apply lsum_ext. intros a _. symmetry. apply sum_n_lsum.
Qed.

(** * Order of vanishing, uniformly in the position *)
Section BigO.
  Context {K : Type}.
  Definition bigO (q : nat) (g : R -> K -> R) : Prop :=
    exists C h0, 0 <= C /\ 0 < h0 /\ forall h, 0 < h <= h0 -> bounded (g h) (C * h ^ q).

  Lemma bigO_ext q g g' h0 : 0 < h0 -> (forall h x, 0 < h <= h0 -> g h x = g' h x) -> bigO q g -> bigO q g'.
  Proof.
    intros H0 E (C & h1 & HC & H1 & H). exists C, (Rmin h0 h1). split; [exact HC|]. split; [apply Rmin_pos; auto|].
    intros h Hh x. pose proof (Rmin_l h0 h1). pose proof (Rmin_r h0 h1). rewrite <- E by lra. apply H. lra.
  Qed.
  Lemma bigO_eq q g g' : (forall h x, g h x = g' h x) -> bigO q g -> bigO q g'.
  Proof. intros E. apply (bigO_ext q g g' 1); [lra|auto]. Qed.
  Lemma bigO_plus q g g' : bigO q g -> bigO q g' -> bigO q (fun h x => g h x + g' h x).
  Proof.
    intros (C & h0 & HC & H0 & H) (C' & h0' & HC' & H0' & H'). exists (C + C'), (Rmin h0 h0').
    split; [lra|]. split; [apply Rmin_pos; auto|]. intros h Hh x.
    pose proof (Rmin_l h0 h0'). pose proof (Rmin_r h0 h0').
    eapply Rle_trans; [apply Rabs_triang|]. rewrite Rmult_plus_distr_r. apply Rplus_le_compat; [apply H|apply H']; lra.
  Qed.
  Lemma bigO_scale q a g : bigO q g -> bigO q (fun h x => a * g h x).
  Proof.
    intros (C & h0 & HC & H0 & H). exists (Rabs a * C), h0. split; [apply Rmult_le_pos; auto; apply Rabs_pos|].
    split; [exact H0|]. intros h Hh x. rewrite Rabs_mult, Rmult_assoc. apply Rmult_le_compat_l; [apply Rabs_pos|].
    apply H, Hh.
  Qed.
  Lemma bigO_minus q g g' : bigO q g -> bigO q g' -> bigO q (fun h x => g h x - g' h x).
  Proof.
    intros H H'. apply (bigO_eq _ (fun h x => g h x + -1 * g' h x)); [intros; ring|].
    apply bigO_plus; [exact H|apply bigO_scale, H'].
  Qed.
  Lemma bigO_0 q : bigO q (fun _ _ => 0).
  Proof. exists 0, 1. split; [lra|]. split; [lra|]. intros h _ x. rewrite Rabs_R0. lra. Qed.
  Lemma bigO_lsum {A} q (l : list A) (g : A -> R -> K -> R) :
    (forall a, In a l -> bigO q (g a)) -> bigO q (fun h x => lsum l (fun a => g a h x)).
  Proof.
    induction l as [|a l IH]; intros H; [apply bigO_0|]. cbn. apply bigO_plus; [apply H; left; auto|].
    apply IH. intros b Hb. apply H. right. exact Hb.
  Qed.
  Lemma bigO_sum_n q n (g : nat -> R -> K -> R) :
    (forall i, (i < n)%nat -> bigO q (g i)) -> bigO q (fun h x => sum_n n (fun i => g i h x)).
  Proof.
    intros H. induction n; [apply bigO_0|]. cbn. apply bigO_plus; [apply IHn; auto|apply H; auto].
  Qed.
  Lemma pow_le_1 h n : 0 <= h <= 1 -> h ^ n <= 1.
  Proof. intros H. rewrite <- (pow1 n). apply pow_incr. lra. Qed.
  Lemma bigO_weaken q q' g : (q <= q')%nat -> bigO q' g -> bigO q g.
  Proof.
    intros L (C & h0 & HC & H0 & H). exists C, (Rmin h0 1). split; [exact HC|]. split; [apply Rmin_pos; lra|].
    intros h Hh x. pose proof (Rmin_l h0 1). pose proof (Rmin_r h0 1).
    eapply Rle_trans; [apply H; lra|]. apply Rmult_le_compat_l; [exact HC|].
    replace q' with (q + (q' - q))%nat by lia. rewrite pow_add. rewrite <- (Rmult_1_r (h ^ q)) at 2.
    apply Rmult_le_compat_l; [apply pow_le; lra|]. apply pow_le_1. lra.
  Qed.
  Lemma bigO_pow q m g : bigO q g -> bigO (m + q) (fun h x => h ^ m * g h x).
  Proof.
    intros (C & h0 & HC & H0 & H). exists C, h0. split; [exact HC|]. split; [exact H0|]. intros h Hh x.
    rewrite Rabs_mult, Rabs_pos_eq by (apply pow_le; lra). rewrite pow_add.
    replace (C * (h ^ m * h ^ q)) with (h ^ m * (C * h ^ q)) by ring.
    apply Rmult_le_compat_l; [apply pow_le; lra|]. apply H, Hh.
  Qed.
  Lemma bigO_const v B : bounded v B -> bigO 0 (fun _ => v).
  Proof.
    intros H. exists (Rabs B), 1. split; [apply Rabs_pos|]. split; [lra|]. intros h _ x. cbn. rewrite Rmult_1_r.
    eapply Rle_trans; [apply H|]. apply Rle_abs.
  Qed.
  (** Something of positive order gets as small as required. *)
  Lemma bigO_small q g eps : bigO (S q) g -> 0 < eps ->
    exists h0, 0 < h0 /\ forall h, 0 < h <= h0 -> bounded (g h) eps.
  Proof.
    intros (C & h0 & HC & H0 & H) He. exists (Rmin (Rmin h0 1) (eps / (C + 1))).
    assert (HD : 0 < eps / (C + 1)) by (apply Rdiv_lt_0_compat; lra).
    split; [repeat apply Rmin_pos; lra|]. intros h Hh x.
    pose proof (Rmin_l (Rmin h0 1) (eps / (C + 1))). pose proof (Rmin_r (Rmin h0 1) (eps / (C + 1))).
    pose proof (Rmin_l h0 1). pose proof (Rmin_r h0 1).
    eapply Rle_trans; [apply H; lra|]. cbn.
    assert (h ^ q <= 1) by (apply pow_le_1; lra). assert (0 <= h ^ q) by (apply pow_le; lra).
    assert (h * h ^ q <= h) by (apply Rle_trans with (h * 1); [apply Rmult_le_compat_l; lra|lra]).
    assert (0 <= h * h ^ q) by (apply Rmult_le_pos; lra).
    apply Rle_trans with ((C + 1) * (eps / (C + 1))).
    - apply Rmult_le_compat; lra.
    - right. field. lra.
  Qed.
End BigO.

(** * Tuples *)
Fixpoint tuples {A : Type} (m : nat) (T : list A) : list (list A) :=
  match m with O => [[]] | S m => flat_map (fun t => map (cons t) (tuples m T)) T end.

Lemma tuples_in {A} m (T : list A) l : In l (tuples m T) -> length l = m /\ Forall (fun t => In t T) l.
Proof.
  revert l. induction m; cbn; intros l H.
  - destruct H as [<-|[]]. auto.
  - apply in_flat_map in H as (t & Ht & H). apply in_map_iff in H as (l' & <- & H). destruct (IHm _ H). cbn. auto.
Qed.

Definition prods {A : Type} (alpha : A -> R) (l : list A) : R := fold_right (fun t acc => alpha t * acc) 1 l.

Section Multilinear.
  Context {I : Type}.
  Notation Y := (I -> R).
  Notation V := (option I -> R).
  Variable D : list V -> Y.
  Hypothesis ML : multilinear D.
  Hypothesis BM : bounded_map D.

  Lemma D_lsum {A} (T : list A) (g : A -> R) (F : A -> V) (r : V) l l' x :
    D (l ++ (fun o => lsum T (fun t => g t * F t o) + r o) :: l') x
    = lsum T (fun t => g t * D (l ++ F t :: l') x) + D (l ++ r :: l') x.
  Proof.
    induction T as [|t T IH].
    - cbn. rewrite Rplus_0_l. f_equal. f_equal. f_equal. extensionality o. ring.
    - cbn [lsum fold_right].
      replace (fun o => g t * F t o + fold_right (fun a acc => g a * F a o + acc) 0 T + r o)
        with (fun o => g t * F t o + 1 * (lsum T (fun t => g t * F t o) + r o))
        by (extensionality o; unfold lsum; ring).
      rewrite ML, IH. unfold lsum. ring.
  Qed.

  Lemma D_bounded l : Forall (fun v => exists B, bounded v B) l -> exists B, bounded (D l) B.
  Proof.
    intros H. destruct (BM (length l)) as (M & HM).
    assert (E : exists Bs, Forall2 bounded l Bs).
    { clear HM. induction H as [|v l (B & HB) H (Bs & IH)]; [exists []; constructor|]. exists (B :: Bs). constructor; auto. }
    destruct E as (Bs & HB). exists (M * fold_right Rmult 1 Bs). apply HM; auto.
  Qed.

  Lemma Forall2_repeat {A B} (P : A -> B -> Prop) a b m : P a b -> Forall2 P (repeat a m) (repeat b m).
  Proof. intros H. induction m; cbn; constructor; auto. Qed.
  Lemma prod_repeat B m : fold_right Rmult 1 (repeat B m) = B ^ m.
  Proof. induction m; cbn; [reflexivity|]. rewrite IHm. reflexivity. Qed.
  Lemma prod_app l l' : fold_right Rmult 1 (l ++ l') = fold_right Rmult 1 l * fold_right Rmult 1 l'.
  Proof. induction l; cbn; [ring|]. rewrite IHl. ring. Qed.

  (** A small entry makes the result small. *)
  Lemma D_small q pre (r z : R -> V) m : Forall (fun v => exists B, bounded v B) pre ->
    bigO q r -> bigO 0 z -> bigO q (fun h => D (pre ++ r h :: repeat (z h) m)).
  Proof.
    intros HP (C & h0 & HC & H0 & Hr) (C' & h0' & HC' & H0' & Hz).
    assert (E : exists Bs, Forall2 bounded pre Bs).
    { clear -HP. induction HP as [|v l (B & HB) H (Bs & IH)]; [exists []; constructor|]. exists (B :: Bs). constructor; auto. }
    destruct E as (Bs & HB). destruct (BM (length pre + S m)%nat) as (M & HM).
    set (K := Rabs (M * fold_right Rmult 1 Bs * C * C' ^ m)).
    exists K, (Rmin h0 h0'). split; [apply Rabs_pos|]. split; [apply Rmin_pos; auto|].
    intros h Hh x. pose proof (Rmin_l h0 h0'). pose proof (Rmin_r h0 h0').
    eapply Rle_trans.
    - apply (HM _ (Bs ++ C * h ^ q :: repeat C' m)).
      + rewrite app_length. cbn. rewrite repeat_length. reflexivity.
      + apply Forall2_app; [exact HB|]. constructor; [apply Hr; lra|]. apply Forall2_repeat.
        intros o. eapply Rle_trans; [apply Hz; lra|]. cbn. lra.
    - rewrite prod_app. cbn. rewrite prod_repeat.
      replace (M * (fold_right Rmult 1 Bs * (C * h ^ q * C' ^ m)))
        with (M * fold_right Rmult 1 Bs * C * C' ^ m * h ^ q) by ring.
      apply Rmult_le_compat_r; [apply pow_le; lra|]. apply Rle_abs.
  Qed.

  (** Expanding all arguments. *)
  Lemma D_expand q (T : list tree) (alpha : tree -> R) (F : tree -> V) (z : R -> V) m :
    (forall t, In t T -> exists B, bounded (F t) B) ->
    bigO 0 z ->
    bigO q (fun h o => z h o - lsum T (fun t => h ^ size t * alpha t * F t o)) ->
    forall pre, Forall (fun v => exists B, bounded v B) pre ->
    bigO q (fun h x => D (pre ++ repeat (z h) m) x
      - lsum (tuples m T) (fun l => h ^ size_l l * prods alpha l * D (pre ++ map F l) x)).
  Proof.
    intros HF Hz Hr. induction m as [|m IH]; intros pre HP.
    - apply (bigO_eq _ (fun _ _ => 0)); [|apply bigO_0]. intros h x. cbn. ring.
    - apply (bigO_eq _ (fun h x =>
        D (pre ++ (fun o => z h o - lsum T (fun t => h ^ size t * alpha t * F t o)) :: repeat (z h) m) x +
        lsum T (fun t => alpha t * (h ^ size t *
          (D ((pre ++ [F t]) ++ repeat (z h) m) x
           - lsum (tuples m T) (fun l => h ^ size_l l * prods alpha l * D ((pre ++ [F t]) ++ map F l) x)))))).
      + intros h x. cbn [repeat tuples].
        replace (D (pre ++ z h :: repeat (z h) m) x)
          with (D (pre ++ (fun o => lsum T (fun t => (h ^ size t * alpha t) * F t o)
                     + (z h o - lsum T (fun t => h ^ size t * alpha t * F t o))) :: repeat (z h) m) x).
        2:{ f_equal. f_equal. f_equal. extensionality o. ring. }
        rewrite D_lsum, lsum_flat_map.
        rewrite <- (Rplus_comm (D _ x)). unfold Rminus at 3. rewrite Rplus_assoc. f_equal.
        rewrite <- Ropp_mult_distr_l_reverse || idtac.
        match goal with |- _ = ?a + - ?b => change (a + - b) with (a - b) end.
        rewrite <- lsum_minus. apply lsum_ext. intros t Ht.
        rewrite lsum_map, <- !app_assoc. cbn [app].
        replace (lsum (tuples m T) (fun l => h ^ size_l (t :: l) * prods alpha (t :: l) * D (pre ++ map F (t :: l)) x))
          with ((h ^ size t * alpha t) * lsum (tuples m T) (fun l => h ^ size_l l * prods alpha l * D ((pre ++ [F t]) ++ map F l) x)).
        2:{ rewrite <- lsum_mult. apply lsum_ext. intros l _. cbn [size_l fold_right prods map].
            rewrite <- app_assoc. cbn [app]. fold (size_l l). fold (prods alpha l). rewrite pow_add. ring. }
        ring.
      + apply bigO_plus.
        * apply D_small; assumption.
        * apply (bigO_lsum q T (fun t h x => alpha t * (h ^ size t *
            (D ((pre ++ [F t]) ++ repeat (z h) m) x
             - lsum (tuples m T) (fun l => h ^ size_l l * prods alpha l * D ((pre ++ [F t]) ++ map F l) x))))).
          intros t Ht. apply bigO_scale. apply bigO_weaken with (q' := (size t + q)%nat); [lia|]. apply bigO_pow.
          apply IH. apply Forall_app. split; [exact HP|]. constructor; [apply HF, Ht|constructor].
  Qed.
End Multilinear.
