(** Expansions of Runge--Kutta steps and of exact solutions as sums over trees, continued. *)
From Coq Require Import Reals QArith Qreals List Bool Arith Lia Lra FunctionalExtensionality.
From Verif Require Import Model_Result Model_RK Model_Terms Spec_RK Spec_Order Proof_Terms Proof_BSeries.
Import ListNotations.
Open Scope R_scope.

Section Series.
  Context {I : Type}.
  Notation Y := (I -> R).
  Notation V := (option I -> R).
  (** [N] parts [f] with expansions [D] up to order [P]. *)
  Variables (N P s : nat) (f : nat -> R -> Y -> Y) (t0 : R) (y0 : Y).
  Variable D : nat -> list V -> Y.
  Hypothesis ML : forall c, multilinear (D c).
  Hypothesis BM : forall c, bounded_map (D c).
  Hypothesis TA : forall c, (c < N)%nat -> taylor P (f c) t0 y0 (D c).

  (** The elementary differentials *)
  Fixpoint F (t : tree) : V :=
    match t with
    | Time => fun o => match o with None => 1 | Some _ => 0 end
    | Node c l => fun o => match o with None => 0 | Some x => D c (map F l) x end
    end.

  Lemma F_bounded t : exists B, bounded (F t) B.
  Proof.
    induction t as [|c l IH] using tree_ind'.
    - exists 1. intros [x|]; cbn; rewrite ?Rabs_R0, ?Rabs_R1; lra.
    - destruct (D_bounded (D c) (BM c) (map F l)) as (B & HB).
      { apply Forall_map. exact IH. }
      exists (Rabs B). intros [x|]; cbn.
      + eapply Rle_trans; [apply HB|]. apply Rle_abs.
      + rewrite Rabs_R0. apply Rabs_pos.
  Qed.

  (** All trees with at most [q] nodes *)
  Fixpoint T (q : nat) : list tree :=
    match q with
    | O => []
    | S q => Time :: flat_map (fun c => map (Node c)
        (filter (fun l => (size_l l <=? q)%nat) (flat_map (fun m => tuples m (T q)) (seq 0 P)))) (seq 0 N)
    end.
  Definition L (q : nat) : list (list tree) :=
    filter (fun l => (size_l l <=? q)%nat) (flat_map (fun m => tuples m (T q)) (seq 0 P)).
  Definition nodes (q c : nat) : list tree := match q with O => [] | S q => map (Node c) (L q) end.
  Lemma T_S q : T (S q) = Time :: flat_map (nodes (S q)) (seq 0 N).
  Proof. reflexivity. Qed.

  Lemma of_parts_l n l : Forall (of_parts n) l <-> fold_right (fun u P => of_parts n u /\ P) True l.
  Proof.
    induction l; cbn; [split; auto|]. split.
    - intros H. inversion H; subst. split; [assumption|]. apply IHl. assumption.
    - intros (H1 & H2). constructor; [exact H1|]. apply IHl, H2.
  Qed.
  Lemma size_node c l : size (Node c l) = S (size_l l).
  Proof. reflexivity. Qed.
  Lemma T_in q t : In t (T q) -> (size t <= q)%nat /\ of_parts N t.
  Proof.
    revert t. induction q as [|q IH]; intros t; [intros []|]. rewrite T_S. intros [<-|H]; [cbn; split; [lia|exact Logic.I]|].
    apply in_flat_map in H as (c & Hc & H). apply in_seq in Hc. cbn in H. apply in_map_iff in H as (l & <- & H).
    apply filter_In in H as (H & Hs). apply Nat.leb_le in Hs. rewrite size_node. split; [lia|].
    cbn. split; [lia|]. apply of_parts_l. apply in_flat_map in H as (m & _ & H). apply tuples_in in H as (_ & H).
    eapply Forall_impl; [|exact H]. intros u Hu. apply IH, Hu.
  Qed.
  Lemma L_size q l : In l (L q) -> (size_l l <= q)%nat.
  Proof. intros H. apply filter_In in H as (_ & H). apply Nat.leb_le, H. Qed.

  (** ** Substituting an expansion into [f] *)
  Lemma substitute q c (alpha : tree -> R) (z : R -> V) : (c < N)%nat -> (S q <= P)%nat ->
    bigO 1 z ->
    bigO (S q) (fun h o => z h o - lsum (T q) (fun t => h ^ size t * alpha t * F t o)) ->
    bigO (S q) (fun h x => f c (t0 + z h None) (fun x => y0 x + z h (Some x)) x
      - lsum (L q) (fun l => h ^ size_l l * prods alpha l * D c (map F l) x)).
  Proof.
    intros Hc HP Hz Hr. destruct (TA c Hc) as (_ & _ & delta & M & Hd & HM & HT).
    destruct (bigO_small 0 z delta Hz Hd) as (h1 & H1 & Hz1).
    assert (R1 : bigO (S q) (fun h x => f c (t0 + z h None) (fun x => y0 x + z h (Some x)) x
                                        - sum_n P (fun m => D c (repeat (z h) m) x))).
    { apply bigO_weaken with (q' := P); [exact HP|]. destruct Hz as (C & h2 & HC & H2 & Hz).
      exists (M * C ^ P), (Rmin (Rmin h1 h2) (delta / (C + 1))).
      assert (HD : 0 < delta / (C + 1)) by (apply Rdiv_lt_0_compat; lra).
      split; [apply Rmult_le_pos; [exact HM|apply pow_le, HC]|]. split; [repeat apply Rmin_pos; assumption|].
      intros h Hh x. pose proof (Rmin_l (Rmin h1 h2) (delta / (C + 1))). pose proof (Rmin_r (Rmin h1 h2) (delta / (C + 1))).
      pose proof (Rmin_l h1 h2). pose proof (Rmin_r h1 h2).
      eapply Rle_trans; [apply (HT (z h) (C * h))|].
      - split; [apply Rmult_le_pos; lra|]. apply Rle_trans with ((C + 1) * (delta / (C + 1))); [|right; field; lra].
        apply Rmult_le_compat; lra.
      - intros o. eapply Rle_trans; [apply Hz; lra|]. cbn. lra.
      - rewrite Rpow_mult_distr. right. ring. }
    assert (R2 : bigO (S q) (fun h x => sum_n P (fun m => D c (repeat (z h) m) x
       - lsum (tuples m (T q)) (fun l => h ^ size_l l * prods alpha l * D c (map F l) x)))).
    { apply (bigO_sum_n (S q) P (fun m h x => D c (repeat (z h) m) x
       - lsum (tuples m (T q)) (fun l => h ^ size_l l * prods alpha l * D c (map F l) x))).
      intros m _. apply (D_expand (D c) (ML c) (BM c) (S q) (T q) alpha F z m) with (pre := []); auto.
      - intros t _. apply F_bounded.
      - apply bigO_weaken with (q' := 1%nat); [lia|exact Hz]. }
    assert (R3 : bigO (S q) (fun h x =>
        lsum (filter (fun l => negb (size_l l <=? q)%nat) (flat_map (fun m => tuples m (T q)) (seq 0 P)))
             (fun l => h ^ size_l l * prods alpha l * D c (map F l) x))).
    { apply (bigO_lsum (S q) _ (fun l h x => h ^ size_l l * prods alpha l * D c (map F l) x)). intros l Hl.
      apply filter_In in Hl as (_ & Hl). apply negb_true_iff, Nat.leb_gt in Hl.
      apply bigO_weaken with (q' := (size_l l + 0)%nat); [lia|].
      apply (bigO_eq _ (fun h x => h ^ size_l l * (prods alpha l * D c (map F l) x))); [intros; ring|].
      apply bigO_pow. apply bigO_scale.
      destruct (D_bounded (D c) (BM c) (map F l)) as (B & HB).
      { apply Forall_map. apply Forall_forall. intros t _. apply F_bounded. }
      apply (bigO_const _ B HB). }
    apply (bigO_eq _ (fun h x =>
      (f c (t0 + z h None) (fun x => y0 x + z h (Some x)) x - sum_n P (fun m => D c (repeat (z h) m) x)) +
      (sum_n P (fun m => D c (repeat (z h) m) x
       - lsum (tuples m (T q)) (fun l => h ^ size_l l * prods alpha l * D c (map F l) x))
       + lsum (filter (fun l => negb (size_l l <=? q)%nat) (flat_map (fun m => tuples m (T q)) (seq 0 P)))
             (fun l => h ^ size_l l * prods alpha l * D c (map F l) x)))).
    - intros h x.
      pose proof (lsum_filter (fun l => (size_l l <=? q)%nat) (flat_map (fun m => tuples m (T q)) (seq 0 P))
        (fun l => h ^ size_l l * prods alpha l * D c (map F l) x)) as E.
      rewrite lsum_flat_map in E. fold (L q) in E.
      rewrite !sum_n_lsum, lsum_minus. lra.
    - apply bigO_plus; [exact R1|]. apply bigO_plus; [exact R2|exact R3].
  Qed.

  Lemma f_bounded : exists B delta, 0 <= B /\ 0 < delta /\ forall c v, (c < N)%nat -> bounded v delta ->
    bounded (fun x => f c (t0 + v None) (fun x => y0 x + v (Some x)) x) B.
  Proof.
    assert (H : forall n, (n <= N)%nat -> exists B delta, 0 <= B /\ 0 < delta /\ forall c v, (c < n)%nat -> bounded v delta ->
      bounded (fun x => f c (t0 + v None) (fun x => y0 x + v (Some x)) x) B).
    { induction n as [|n IH]; intros Hn; [exists 0, 1; split; [lra|]; split; [lra|]; intros; lia|].
      destruct IH as (B & d & HB & Hd & IH); [lia|].
      destruct (TA n) as (_ & _ & d' & M & Hd' & HM & HT); [lia|].
      set (dd := Rmin d d'). assert (Hdd : 0 < dd) by (apply Rmin_pos; assumption).
      assert (E : exists B', 0 <= B' /\ forall v, bounded v dd -> bounded (fun x => sum_n P (fun m => D n (repeat v m) x)) B').
      { clear -BM Hdd. induction P as [|p IHp]; [exists 0; split; [lra|]; intros v _ x; cbn; rewrite Rabs_R0; lra|].
        destruct IHp as (B' & HB' & IHp). destruct (BM n p) as (M & HM).
        exists (B' + Rabs (M * dd ^ p)). split; [pose proof (Rabs_pos (M * dd ^ p)); lra|].
        intros v Hv x. cbn. eapply Rle_trans; [apply Rabs_triang|]. apply Rplus_le_compat; [apply IHp, Hv|].
        eapply Rle_trans; [apply (HM _ (repeat dd p))|].
        - apply repeat_length.
        - apply Forall2_repeat, Hv.
        - rewrite prod_repeat. apply Rle_abs. }
      destruct E as (B' & HB' & E). exists (Rmax B (B' + M * dd ^ P)), dd.
      split; [eapply Rle_trans; [exact HB|apply Rmax_l]|]. split; [exact Hdd|].
      intros c v Hc Hv x. assert (Hc' : (c < n)%nat \/ c = n) by lia. destruct Hc' as [Hc' | ->].
      - eapply Rle_trans; [apply IH; auto|apply Rmax_l]. intros o. eapply Rle_trans; [apply Hv|apply Rmin_l].
      - eapply Rle_trans; [|apply Rmax_r].
        assert (HT' := HT v dd (conj (Rlt_le _ _ Hdd) (Rmin_r _ _)) Hv x). cbn beta in HT'.
        specialize (E v Hv x). cbn beta in E.
        match goal with |- Rabs ?a <= _ => replace a with ((a - sum_n P (fun m => D n (repeat v m) x)) + sum_n P (fun m => D n (repeat v m) x)) by ring end.
        eapply Rle_trans; [apply Rabs_triang|]. lra. }
    apply H. lia.
  Qed.

  (** ** The numerical solution *)
  Variable tabs : list tableau.
  Notation a p := (coef_a (part_tableau tabs p)).
  Notation cc p := (coef_c (part_tableau tabs p)).
  Notation Phi := (weight tabs s).

  Section Numerical.
    Variable k : R -> nat -> nat -> Y.
    Variable h0 : R.
    Hypothesis H0 : 0 < h0.
    Definition stage_sum (h : R) (i : nat) (x : I) : R :=
      sum_n N (fun p => sum_n s (fun j => a p i j * k h p j x)).
    Hypothesis EQ : forall h c i x, 0 < h <= h0 -> (c < N)%nat -> (i < s)%nat ->
      k h c i x = h * f c (t0 + cc c i * h) (fun x => y0 x + stage_sum h i x) x.
    Hypothesis VAN : forall eps, 0 < eps -> exists h1, 0 < h1 /\ forall h i, 0 < h <= h1 -> (i < s)%nat ->
      bounded (stage_sum h i) eps.

    Definition zv (c i : nat) (h : R) : V :=
      fun o => match o with None => cc c i * h | Some x => stage_sum h i x end.

    Lemma time_small c i eps : 0 < eps -> exists h1, 0 < h1 /\ forall h, 0 < h <= h1 -> Rabs (cc c i * h) <= eps.
    Proof.
      intros He. pose proof (Rabs_pos (cc c i)) as Hp. exists (eps / (Rabs (cc c i) + 1)).
      assert (HD : 0 < eps / (Rabs (cc c i) + 1)) by (apply Rdiv_lt_0_compat; lra).
      split; [exact HD|]. intros h Hh. rewrite Rabs_mult, (Rabs_pos_eq h) by lra.
      apply Rle_trans with ((Rabs (cc c i) + 1) * (eps / (Rabs (cc c i) + 1))); [|right; field; lra].
      apply Rmult_le_compat; lra.
    Qed.

    Lemma k_O1 c i : (c < N)%nat -> (i < s)%nat -> bigO 1 (fun h => k h c i).
    Proof.
      intros Hc Hi. destruct f_bounded as (B & delta & HB & Hd & HF).
      destruct (VAN delta Hd) as (h1 & H1 & HV). destruct (time_small c i delta Hd) as (h2 & H2 & HT).
      exists B, (Rmin h0 (Rmin h1 h2)). split; [exact HB|]. split; [repeat apply Rmin_pos; assumption|].
      intros h Hh x. pose proof (Rmin_l h0 (Rmin h1 h2)). pose proof (Rmin_r h0 (Rmin h1 h2)).
      pose proof (Rmin_l h1 h2). pose proof (Rmin_r h1 h2).
      rewrite EQ by (auto; lra). rewrite Rabs_mult, Rabs_pos_eq by lra. cbn. rewrite Rmult_1_r, Rmult_comm.
      apply Rmult_le_compat_r; [lra|]. apply (HF c (zv c i h) Hc). intros [x'|]; cbn; [apply HV|apply HT]; auto; lra.
    Qed.

    Definition alpha (c i : nat) (t : tree) : R :=
      match t with
      | Time => cc c i
      | Node q _ => sum_n s (fun j => a q i j * Phi j t)
      end.
    Lemma Phi_node c l i : Phi i (Node c l) = prods (alpha c i) l.
    Proof. reflexivity. Qed.

    Lemma zv_O1 c i : (i < s)%nat -> bigO 1 (zv c i).
    Proof.
      intros Hi.
      assert (S1 : bigO 1 (fun h x => stage_sum h i x)).
      { unfold stage_sum. apply (bigO_sum_n 1 N (fun p h x => sum_n s (fun j => a p i j * k h p j x))). intros p Hp.
        apply (bigO_sum_n 1 s (fun j h x => a p i j * k h p j x)). intros j Hj. apply bigO_scale. apply k_O1; assumption. }
      destruct S1 as (C & h1 & HC & H1 & S1). exists (Rmax C (Rabs (cc c i))), h1.
      split; [eapply Rle_trans; [exact HC|apply Rmax_l]|]. split; [exact H1|]. intros h Hh [x|]; cbn; rewrite Rmult_1_r.
      - eapply Rle_trans; [apply S1, Hh|]. cbn. rewrite Rmult_1_r. apply Rmult_le_compat_r; [lra|apply Rmax_l].
      - rewrite Rabs_mult, (Rabs_pos_eq h) by lra. apply Rmult_le_compat_r; [lra|apply Rmax_r].
    Qed.

    (** Replacing a function of the position by one of the optional position. *)
    Lemma bigO_option q (g : R -> V) : bigO q (fun h x => g h (Some x)) -> (forall h, 0 < h -> g h None = 0) -> bigO q g.
    Proof.
      intros (C & h1 & HC & H1 & H) HN. exists C, h1. split; [exact HC|]. split; [exact H1|]. intros h Hh [x|].
      - apply H, Hh.
      - rewrite HN, Rabs_R0 by lra. apply Rmult_le_pos; [exact HC|]. apply pow_le. lra.
    Qed.

    Lemma F_nodes q c t : In t (nodes q c) -> F t None = 0.
    Proof. destruct q; [intros []|]. cbn. intros H. apply in_map_iff in H as (l & <- & _). reflexivity. Qed.

    Lemma z_expand q c i : (i < s)%nat -> (q <= P)%nat ->
      (forall c i, (c < N)%nat -> (i < s)%nat ->
         bigO (S q) (fun h x => k h c i x - lsum (nodes q c) (fun t => h ^ size t * Phi i t * F t (Some x)))) ->
      bigO (S q) (fun h o => zv c i h o - lsum (T q) (fun t => h ^ size t * alpha c i t * F t o)).
    Proof.
      intros Hi HP IH. destruct q as [|q].
      { apply (bigO_eq _ (zv c i)); [intros; cbn; ring|]. apply zv_O1, Hi. }
      apply bigO_option.
      - apply (bigO_eq _ (fun h x => sum_n N (fun p => sum_n s (fun j => a p i j *
          (k h p j x - lsum (nodes (S q) p) (fun t => h ^ size t * Phi j t * F t (Some x))))))).
        + intros h x. rewrite T_S. cbn [lsum fold_right zv]. cbn [F].
          fold (lsum (flat_map (nodes (S q)) (seq 0 N)) (fun t => h ^ size t * alpha c i t * F t (Some x))).
          rewrite Rmult_0_r, Rplus_0_l, lsum_flat_map, <- sum_n_lsum. unfold stage_sum.
          match goal with |- _ = ?u - ?v => replace (u - v) with (u + -1 * v) by ring end.
          rewrite <- sum_n_mult, <- sum_n_plus.
          apply sum_n_ext. intros p Hp.
          rewrite <- lsum_mult.
          replace (lsum (nodes (S q) p) (fun t => -1 * (h ^ size t * alpha c i t * F t (Some x))))
            with (sum_n s (fun j => lsum (nodes (S q) p) (fun t => - (a p i j * (h ^ size t * Phi j t * F t (Some x)))))).
          * rewrite <- sum_n_plus. apply sum_n_ext. intros j Hj.
            replace (lsum (nodes (S q) p) (fun t => - (a p i j * (h ^ size t * Phi j t * F t (Some x)))))
              with (- a p i j * lsum (nodes (S q) p) (fun t => h ^ size t * Phi j t * F t (Some x))); [ring|].
            rewrite <- lsum_mult. apply lsum_ext. intros; ring.
          * rewrite sum_n_lsum_swap. apply lsum_ext. intros t Ht.
            cbn [nodes] in Ht. apply in_map_iff in Ht as (l & <- & _). cbn [alpha].
            replace (-1 * (h ^ size (Node p l) * sum_n s (fun j => a p i j * Phi j (Node p l)) * F (Node p l) (Some x)))
              with ((- h ^ size (Node p l) * F (Node p l) (Some x)) * sum_n s (fun j => a p i j * Phi j (Node p l))) by ring.
            rewrite <- sum_n_mult. apply sum_n_ext. intros; ring.
        + apply (bigO_sum_n (S (S q)) N (fun p h x => sum_n s (fun j => a p i j *
            (k h p j x - lsum (nodes (S q) p) (fun t => h ^ size t * Phi j t * F t (Some x)))))). intros p Hp.
          apply (bigO_sum_n (S (S q)) s (fun j h x => a p i j *
            (k h p j x - lsum (nodes (S q) p) (fun t => h ^ size t * Phi j t * F t (Some x))))). intros j Hj.
          apply bigO_scale. apply IH; assumption.
      - intros h Hh. rewrite T_S. cbn [lsum fold_right zv alpha size F].
        fold (lsum (flat_map (nodes (S q)) (seq 0 N)) (fun t => h ^ size t * alpha c i t * F t None)).
        rewrite (lsum_ext _ _ (fun _ => 0 * 0)), lsum_mult; [ring|].
        intros t Ht. apply in_flat_map in Ht as (p & _ & Ht). rewrite (F_nodes _ _ _ Ht). ring.
    Qed.

    Lemma k_expand q : (q <= P)%nat -> forall c i, (c < N)%nat -> (i < s)%nat ->
      bigO (S q) (fun h x => k h c i x - lsum (nodes q c) (fun t => h ^ size t * Phi i t * F t (Some x))).
    Proof.
      induction q as [|q IH]; intros HP c i Hc Hi.
      - apply (bigO_eq _ (fun h => k h c i)); [intros; cbn; ring|]. apply k_O1; assumption.
      - apply (bigO_ext _ (fun h x => h ^ 1 * (f c (t0 + zv c i h None) (fun x => y0 x + zv c i h (Some x)) x
          - lsum (L q) (fun l => h ^ size_l l * prods (alpha c i) l * D c (map F l) x))) _ h0 H0).
        + intros h x Hh. rewrite EQ by (auto; lra). cbn [zv]. rewrite pow_1, Rmult_minus_distr_l. f_equal.
          cbn [nodes]. rewrite lsum_map, <- lsum_mult. apply lsum_ext. intros l _. rewrite Phi_node, size_node. cbn [F pow]. ring.
        + apply (bigO_pow (S q) 1). apply substitute; [exact Hc|lia|apply zv_O1, Hi|].
          apply z_expand; [exact Hi|lia|]. intros c' i' Hc' Hi'. apply IH; [lia|exact Hc'|exact Hi'].
    Qed.
  End Numerical.

  (** ** The exact solution *)
  Section Exact.
    Variable y : R -> Y.
    Variable h0 : R.
    Hypothesis H0 : 0 < h0.
    Hypothesis Y0 : forall x, y t0 x = y0 x.
    Hypothesis CONT : forall eps, 0 < eps -> exists h1, 0 < h1 /\ forall h, 0 <= h <= h1 -> bounded (fun x => y (t0 + h) x - y0 x) eps.
    Hypothesis DER : forall h x, 0 <= h <= h0 ->
      derivable_pt_lim (fun h => y (t0 + h) x) h (sum_n N (fun c => f c (t0 + h) (y (t0 + h)) x)).

    Definition ev (h : R) : V := fun o => match o with None => h | Some x => y (t0 + h) x - y0 x end.
    Definition w (t : tree) : R := / INR (density t).

    (** If the derivative is of order [q] then the function is of order [q + 1]. *)
    Lemma integrate q (g g' : R -> Y) : (forall x, g 0 x = 0) ->
      (forall h x, 0 <= h <= h0 -> derivable_pt_lim (fun h => g h x) h (g' h x)) ->
      bigO q g' -> bigO (S q) g.
    Proof.
      intros G0 GD (C & h1 & HC & H1 & HG). exists C, (Rmin h0 h1). split; [exact HC|]. split; [apply Rmin_pos; assumption|].
      intros h Hh x. pose proof (Rmin_l h0 h1). pose proof (Rmin_r h0 h1).
      destruct (MVT_cor2 (fun h => g h x) (fun h => g' h x) 0 h) as (t & E & Ht); [lra| |].
      { intros c Hc. apply GD. lra. }
      rewrite G0, !Rminus_0_r in E. rewrite E, Rabs_mult, (Rabs_pos_eq h) by lra. cbn.
      replace (C * (h * h ^ q)) with (C * h ^ q * h) by ring. apply Rmult_le_compat_r; [lra|].
      eapply Rle_trans; [apply HG; lra|]. apply Rmult_le_compat_l; [exact HC|]. apply pow_incr. lra.
    Qed.

    Lemma ev_Some_eq h : (fun x => y0 x + ev h (Some x)) = y (t0 + h).
    Proof. extensionality x. cbn. ring. Qed.

    Lemma deriv_ev h x : 0 <= h <= h0 ->
      derivable_pt_lim (fun h => ev h (Some x)) h (sum_n N (fun c => f c (t0 + ev h None) (fun x => y0 x + ev h (Some x)) x)).
    Proof.
      intros Hh. rewrite ev_Some_eq. cbn [ev].
      replace (sum_n N (fun c => f c (t0 + h) (y (t0 + h)) x)) with (sum_n N (fun c => f c (t0 + h) (y (t0 + h)) x) - 0) by ring.
      apply (derivable_pt_lim_minus (fun h => y (t0 + h) x) (fun _ => y0 x)); [apply DER, Hh|]. apply derivable_pt_lim_const.
    Qed.

    Lemma ev_O1 : bigO 1 ev.
    Proof.
      destruct f_bounded as (B & delta & HB & Hd & HF). destruct (CONT delta Hd) as (h1 & H1 & HC).
      assert (E : bigO 1 (fun h x => ev h (Some x))).
      { apply integrate with (g' := fun h x => sum_n N (fun c => f c (t0 + ev h None) (fun x => y0 x + ev h (Some x)) x)).
        - intros x. cbn. rewrite Rplus_0_r, Y0. ring.
        - intros h x Hh. apply deriv_ev, Hh.
        - apply (bigO_sum_n 0 N (fun c h x => f c (t0 + ev h None) (fun x => y0 x + ev h (Some x)) x)). intros c Hc.
          exists B, (Rmin delta h1). split; [exact HB|]. split; [apply Rmin_pos; assumption|]. intros h Hh x.
          pose proof (Rmin_l delta h1). pose proof (Rmin_r delta h1). cbn [pow]. rewrite Rmult_1_r. apply (HF c (ev h) Hc).
          intros [x'|]; cbn; [apply HC; lra|]. rewrite Rabs_pos_eq; lra. }
      destruct E as (C & h2 & HC2 & H2 & E). exists (Rmax C 1), h2. split; [eapply Rle_trans; [exact HC2|apply Rmax_l]|].
      split; [exact H2|]. intros h Hh [x|].
      - eapply Rle_trans; [apply (E h Hh x)|]. apply Rmult_le_compat_r; [apply pow_le; lra|apply Rmax_l].
      - cbn. rewrite Rabs_pos_eq by lra. rewrite Rmult_1_r. rewrite <- (Rmult_1_l h) at 1. apply Rmult_le_compat_r; [lra|apply Rmax_r].
    Qed.

    Lemma w_node c l : w (Node c l) = / INR (S (size_l l)) * prods w l.
    Proof.
      unfold w. cbn [density]. rewrite size_node, mult_INR, Rinv_mult. f_equal.
      clear. induction l as [|t l IH]; cbn; [apply Rinv_1|]. rewrite mult_INR, Rinv_mult. f_equal. exact IH.
    Qed.

    Lemma deriv_pow n h : derivable_pt_lim (fun h => h ^ S n * / INR (S n)) h (h ^ n).
    Proof.
      replace (h ^ n) with (/ INR (S n) * (INR (S n) * h ^ n)).
      - assert (E : (fun h => h ^ S n * / INR (S n)) = mult_real_fct (/ INR (S n)) (fun h => h ^ S n)).
        { extensionality u. unfold mult_real_fct. ring. }
        rewrite E. apply derivable_pt_lim_scal. apply (derivable_pt_lim_pow h (S n)).
      - field. apply not_0_INR. lia.
    Qed.
    Lemma deriv_lsum {A} (l : list A) (g g' : A -> R -> R) h :
      (forall a, derivable_pt_lim (g a) h (g' a h)) ->
      derivable_pt_lim (fun h => lsum l (fun a => g a h)) h (lsum l (fun a => g' a h)).
    Proof.
      intros H. induction l as [|a l IH]; [apply derivable_pt_lim_const|].
      apply (derivable_pt_lim_plus (g a) (fun h => lsum l (fun a => g a h))); [apply H|exact IH].
    Qed.
    Lemma deriv_sum_n n (g g' : nat -> R -> R) h :
      (forall a, derivable_pt_lim (g a) h (g' a h)) ->
      derivable_pt_lim (fun h => sum_n n (fun a => g a h)) h (sum_n n (fun a => g' a h)).
    Proof.
      intros H. induction n as [|n IH]; [apply derivable_pt_lim_const|].
      apply (derivable_pt_lim_plus (fun h => sum_n n (fun a => g a h)) (g n)); [exact IH|apply H].
    Qed.

    (** The derivative of what the expansion of the exact solution misses. *)
    Lemma ev_rest_deriv q h x : 0 <= h <= h0 ->
      derivable_pt_lim (fun h => ev h (Some x) - lsum (T (S q)) (fun t => h ^ size t * w t * F t (Some x))) h
        (sum_n N (fun c => f c (t0 + ev h None) (fun x => y0 x + ev h (Some x)) x
          - lsum (L q) (fun l => h ^ size_l l * prods w l * D c (map F l) x))).
    Proof.
      intros Hh.
          assert (E : (fun h => ev h (Some x) - lsum (T (S q)) (fun t => h ^ size t * w t * F t (Some x)))
            = (fun h => ev h (Some x) - sum_n N (fun c => lsum (L q) (fun l => prods w l * D c (map F l) x * (h ^ S (size_l l) * / INR (S (size_l l))))))).
          { extensionality u. f_equal. rewrite T_S. cbn [lsum fold_right]. cbn [F].
            fold (lsum (flat_map (nodes (S q)) (seq 0 N)) (fun t => u ^ size t * w t * F t (Some x))).
            rewrite Rmult_0_r, Rplus_0_l, lsum_flat_map, <- sum_n_lsum. apply sum_n_ext. intros c _.
            cbn [nodes]. rewrite lsum_map. apply lsum_ext. intros l _. rewrite w_node, size_node. cbn [F]. ring. }
          rewrite E.
          replace (sum_n N (fun c => f c (t0 + ev h None) (fun x => y0 x + ev h (Some x)) x - lsum (L q) (fun l => h ^ size_l l * prods w l * D c (map F l) x)))
            with (sum_n N (fun c => f c (t0 + ev h None) (fun x => y0 x + ev h (Some x)) x)
                  - sum_n N (fun c => lsum (L q) (fun l => prods w l * D c (map F l) x * h ^ size_l l))).
          * apply (derivable_pt_lim_minus (fun h => ev h (Some x))); [apply deriv_ev, Hh|].
            apply (deriv_sum_n N (fun c h => lsum (L q) (fun l => prods w l * D c (map F l) x * (h ^ S (size_l l) * / INR (S (size_l l)))))
                                 (fun c h => lsum (L q) (fun l => prods w l * D c (map F l) x * h ^ size_l l))). intros c.
            apply (deriv_lsum (L q) (fun l h => prods w l * D c (map F l) x * (h ^ S (size_l l) * / INR (S (size_l l))))
                                 (fun l h => prods w l * D c (map F l) x * h ^ size_l l)). intros l.
            apply (derivable_pt_lim_scal (fun h => h ^ S (size_l l) * / INR (S (size_l l)))). apply deriv_pow.
          * match goal with |- ?u - ?v = _ => replace (u - v) with (u + -1 * v) by ring end.
            rewrite <- sum_n_mult, <- sum_n_plus. apply sum_n_ext. intros c _. unfold Rminus. f_equal.
            rewrite <- lsum_mult. replace (- lsum (L q) (fun l => h ^ size_l l * prods w l * D c (map F l) x))
              with (-1 * lsum (L q) (fun l => h ^ size_l l * prods w l * D c (map F l) x)) by ring.
            rewrite <- lsum_mult. apply lsum_ext. intros; ring.
    Qed.

    Lemma ev_expand q : (q <= P)%nat ->
      bigO (S q) (fun h o => ev h o - lsum (T q) (fun t => h ^ size t * w t * F t o)).
    Proof.
      induction q as [|q IH]; intros HP.
      { apply (bigO_eq _ ev); [intros; cbn; ring|]. apply ev_O1. }
      apply bigO_option.
      - apply integrate with (g' := fun h x => sum_n N (fun c =>
          f c (t0 + ev h None) (fun x => y0 x + ev h (Some x)) x
          - lsum (L q) (fun l => h ^ size_l l * prods w l * D c (map F l) x))).
        + intros x. cbn [ev]. rewrite Rplus_0_r, Y0. rewrite (lsum_ext _ _ (fun _ => 0 * 0)), lsum_mult; [ring|].
          intros t _. pose proof (size_pos t). rewrite pow_i by lia. ring.
        + intros h x Hh. apply ev_rest_deriv, Hh.
        + apply (bigO_sum_n (S q) N (fun c h x => f c (t0 + ev h None) (fun x => y0 x + ev h (Some x)) x
            - lsum (L q) (fun l => h ^ size_l l * prods w l * D c (map F l) x))). intros c Hc.
          apply substitute; [exact Hc|lia|apply ev_O1|]. apply IH. lia.
      - intros h Hh. rewrite T_S. cbn [lsum fold_right ev size F].
        fold (lsum (flat_map (nodes (S q)) (seq 0 N)) (fun t => h ^ size t * w t * F t None)).
        rewrite (lsum_ext _ _ (fun _ => 0 * 0)), lsum_mult.
        + unfold w. cbn. rewrite Rinv_1. ring.
        + intros t Ht. apply in_flat_map in Ht as (p & _ & Ht). rewrite (F_nodes _ _ _ Ht). ring.
    Qed.

    Lemma deriv_zero (g : R -> R) l C h1 : derivable_pt_lim g 0 l -> g 0 = 0 -> 0 <= C -> 0 < h1 ->
      (forall h, 0 < h <= h1 -> Rabs (g h) <= C * (h * h)) -> l = 0.
    Proof.
      intros HD G0 HC H1 HB. destruct (Req_dec l 0) as [E|Hl]; [exact E|exfalso].
      assert (Hp : 0 < Rabs l) by (apply Rabs_pos_lt, Hl).
      destruct (HD (Rabs l / 2) ltac:(lra)) as (d & Hd).
      set (h := Rmin (Rmin h1 (d / 2)) (Rabs l / (4 * (C + 1)))).
      assert (Q : 0 < Rabs l / (4 * (C + 1))) by (apply Rdiv_lt_0_compat; lra).
      assert (Hh : 0 < h) by (pose proof (cond_pos d); repeat apply Rmin_pos; lra).
      assert (A1 : h <= h1) by (eapply Rle_trans; [apply Rmin_l|apply Rmin_l]).
      assert (A2 : h <= d / 2) by (eapply Rle_trans; [apply Rmin_l|apply Rmin_r]).
      assert (A3 : h <= Rabs l / (4 * (C + 1))) by apply Rmin_r.
      specialize (Hd h ltac:(lra) ltac:(rewrite Rabs_pos_eq; pose proof (cond_pos d); lra)).
      specialize (HB h (conj Hh A1)). rewrite Rplus_0_l, G0, Rminus_0_r in Hd.
      assert (B : Rabs (g h / h) <= C * h).
      { unfold Rdiv. rewrite Rabs_mult, (Rabs_pos_eq (/ h)) by (left; apply Rinv_0_lt_compat, Hh).
        apply Rmult_le_reg_r with h; [exact Hh|]. rewrite Rmult_assoc, Rinv_l by lra. lra. }
      assert (B2 : C * h <= Rabs l / 4).
      { apply Rle_trans with ((C + 1) * (Rabs l / (4 * (C + 1)))); [apply Rmult_le_compat; lra|right; field; lra]. }
      pose proof (Rabs_triang_inv l (g h / h)). rewrite <- Rabs_Ropp in Hd. replace (- (g h / h - l)) with (l - g h / h) in Hd by ring. lra.
    Qed.

    (** The derivative of the exact solution, expanded. *)
    Lemma slope_expand q : (S q <= P)%nat -> exists C h1, 0 <= C /\ 0 < h1 /\ forall h, 0 <= h <= h1 ->
      bounded (fun x => sum_n N (fun c => f c (t0 + h) (y (t0 + h)) x
                          - lsum (L q) (fun l => h ^ size_l l * prods w l * D c (map F l) x))) (C * h ^ S q).
    Proof.
      intros HP.
      assert (E : bigO (S q) (fun h x => sum_n N (fun c => f c (t0 + ev h None) (fun x => y0 x + ev h (Some x)) x
            - lsum (L q) (fun l => h ^ size_l l * prods w l * D c (map F l) x)))).
      { apply (bigO_sum_n (S q) N (fun c h x => f c (t0 + ev h None) (fun x => y0 x + ev h (Some x)) x
            - lsum (L q) (fun l => h ^ size_l l * prods w l * D c (map F l) x))). intros c Hc.
        apply substitute; [exact Hc|lia|apply ev_O1|]. apply ev_expand. lia. }
      destruct E as (C & h1 & HC & H1 & E). destruct (ev_expand (S q) HP) as (C' & h2 & HC' & H2 & E').
      exists C, h1. split; [exact HC|]. split; [exact H1|]. intros h Hh x. destruct (Req_dec h 0) as [->|Hn].
      - pose proof (ev_rest_deriv q 0 x ltac:(lra)) as HD.
        rewrite ev_Some_eq in HD. cbn [ev] in HD.
        rewrite (deriv_zero _ _ C' (Rmin h2 1) HD).
        + rewrite Rabs_R0. apply Rmult_le_pos; [exact HC|]. apply pow_le. lra.
        + rewrite Rplus_0_r, Y0. rewrite (lsum_ext _ _ (fun _ => 0 * 0)), lsum_mult; [ring|].
          intros t _. pose proof (size_pos t). rewrite pow_i by lia. ring.
        + exact HC'.
        + apply Rmin_pos; lra.
        + intros u Hu. pose proof (Rmin_l h2 1). pose proof (Rmin_r h2 1).
          eapply Rle_trans; [apply (E' u ltac:(lra) (Some x))|]. apply Rmult_le_compat_l; [exact HC'|].
          cbn [pow]. assert (u ^ q <= 1) by (rewrite <- (pow1 q); apply pow_incr; lra). assert (0 <= u ^ q) by (apply pow_le; lra).
          rewrite <- (Rmult_1_r (u * u)), Rmult_assoc. apply Rmult_le_compat_l; [lra|]. apply Rmult_le_compat_l; lra.
      - specialize (E h ltac:(lra) x). cbn beta in E. rewrite ev_Some_eq in E. cbn [ev] in E. exact E.
    Qed.
  End Exact.
End Series.
