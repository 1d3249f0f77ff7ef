(** Accuracy of combinations of the stages inside a step. *)
From Coq Require Import Reals QArith Qreals List Bool Arith Lia Lra FunctionalExtensionality.
From Verif Require Import Model_Result Model_RK Model_Terms Spec_RK Spec_Order Spec_DenseOrder Proof_Terms Proof_BSeries Proof_BSeries2 Proof_Order Proof_OrderStep Proof_RKProp.
Import ListNotations.
Open Scope R_scope.

Lemma sum_n_swap n m (f : nat -> nat -> R) : sum_n n (fun i => sum_n m (f i)) = sum_n m (fun j => sum_n n (fun i => f i j)).
Proof.
  induction n; cbn; [symmetry; clear; induction m; cbn; [reflexivity|rewrite IHm; ring]|].
  rewrite IHn, sum_n_plus. reflexivity.
Qed.
Lemma sum_n_scale_r n (f : nat -> R) a : sum_n n f * a = sum_n n (fun i => f i * a).
Proof. induction n; cbn; [ring|]. rewrite <- IHn. ring. Qed.

Section Dense.
  Context {I : Type}.
  Notation Y := (I -> R).
  Notation V := (option I -> R).

  (** Combinations of the stages, expanded uniformly in the fraction of the step. *)
  Lemma weights_expand q (fs : list (R -> Y -> Y)) t0 y0 (D : nat -> list V -> Y) :
    (forall c, multilinear (D c)) -> (forall c, bounded_map (D c)) ->
    (forall c, (c < length fs)%nat -> taylor q (nth c fs (fun _ _ _ => 0)) t0 y0 (D c)) ->
    forall tabs s k T', length tabs = length fs -> 0 < T' -> rk_family s (combine tabs fs) t0 y0 T' k -> forall W d,
    let N := length fs in let L := flat_map (nodes N q q) (seq 0 N) in
    exists C h0, 0 <= C /\ 0 < h0 /\ forall h th, 0 < h <= h0 -> 0 <= th <= 1 -> bounded (fun x =>
      sum_n N (fun c => sum_n s (fun i => poly_weight (W (part_tableau tabs c)) d th i * k h c i x))
      - lsum L (fun t => h ^ size t * sum_n s (fun i => poly_weight (W (part_tableau tabs (root t))) d th i * weight tabs s i t) * F D t (Some x))) (C * h ^ S q).
  Proof.
    intros ML BM TA tabs s k T' LE HT' (EQ & VAN) W d N L.
    induction d as [|d (C & h0 & HC & H0 & IH)].
      - exists 0, 1. split; [lra|]. split; [lra|]. intros h th _ _ x. unfold poly_weight. cbn [sum_n].
        rewrite (sum_n_ext N _ (fun _ => 0)).
        2:{ intros c _. rewrite (sum_n_ext s _ (fun _ => 0)) by (intros; ring). clear. induction s; cbn; lra. }
        rewrite (lsum_ext L _ (fun _ => 0)).
        2:{ intros t _. rewrite (sum_n_ext s _ (fun _ => 0)) by (intros; ring). replace (sum_n s (fun _ => 0)) with 0 by (clear; induction s; cbn; lra). ring. }
        replace (sum_n N (fun _ => 0)) with 0 by (clear; induction N; cbn; lra).
        replace (lsum L (fun _ => 0)) with 0 by (clear; unfold lsum; induction L; cbn; lra).
        rewrite Rminus_0_r, Rabs_R0. lra.
      - destruct (combination_expand q s tabs fs t0 y0 T' HT' LE D ML BM TA k EQ VAN (fun tab i => W tab d i)) as (C' & h' & HC' & H' & EE).
        exists (C + C'), (Rmin h0 h'). split; [lra|]. split; [apply Rmin_pos; assumption|]. intros h th Hh Hth x.
        pose proof (Rmin_l h0 h'). pose proof (Rmin_r h0 h').
        specialize (IH h th ltac:(lra) Hth x). specialize (EE h ltac:(lra) x). cbn beta in IH, EE.
        rewrite (combination_eq s tabs fs LE) in EE. fold N L in EE.
        set (A := sum_n N (fun c => sum_n s (fun i => W (part_tableau tabs c) d i * k h c i x))) in *.
        set (Bl := lsum L (fun t => h ^ size t * sum_n s (fun i => W (part_tableau tabs (root t)) d i * weight tabs s i t) * F D t (Some x))) in *.
        match goal with |- Rabs ?u <= _ => match type of IH with Rabs ?v <= _ => replace u with (v + th ^ d * (A - Bl)) end end.
        + eapply Rle_trans; [apply Rabs_triang|]. rewrite Rmult_plus_distr_r. apply Rplus_le_compat; [exact IH|].
          rewrite Rabs_mult. rewrite <- (Rmult_1_l (C' * h ^ S q)). apply Rmult_le_compat; [apply Rabs_pos|apply Rabs_pos| |exact EE].
          rewrite Rabs_pos_eq by (apply pow_le; lra). apply pow_le_1. lra.
        + assert (X : forall tab (g : nat -> R), sum_n s (fun i => poly_weight (W tab) (S d) th i * g i) = sum_n s (fun i => poly_weight (W tab) d th i * g i) + th ^ d * sum_n s (fun i => W tab d i * g i)).
          { intros tab g. rewrite <- sum_n_mult, <- sum_n_plus. apply sum_n_ext. intros i _. unfold poly_weight. cbn [sum_n]. ring. }
          rewrite (sum_n_ext N (fun c => sum_n s (fun i => poly_weight (W (part_tableau tabs c)) (S d) th i * k h c i x)) (fun c => sum_n s (fun i => poly_weight (W (part_tableau tabs c)) d th i * k h c i x) + th ^ d * sum_n s (fun i => W (part_tableau tabs c) d i * k h c i x))) by (intros c _; apply X).
          rewrite sum_n_plus, sum_n_mult. fold A.
          rewrite (lsum_ext L (fun t => h ^ size t * sum_n s (fun i => poly_weight (W (part_tableau tabs (root t))) (S d) th i * weight tabs s i t) * F D t (Some x))
            (fun t => h ^ size t * sum_n s (fun i => poly_weight (W (part_tableau tabs (root t))) d th i * weight tabs s i t) * F D t (Some x)
                      - (- th ^ d) * (h ^ size t * sum_n s (fun i => W (part_tableau tabs (root t)) d i * weight tabs s i t) * F D t (Some x)))) by (intros t _; rewrite X; ring).
          rewrite lsum_minus, lsum_mult. fold Bl. ring.
  Qed.

  Lemma dense_up_to q (fs : list (R -> Y -> Y)) t0 y0 T y :
    0 < T -> (forall f, In f fs -> smooth q f t0 y0) -> exact_solution fs t0 y0 T y ->
    exists K, 0 <= K /\ forall tabs s k T', length tabs = length fs -> 0 < T' -> rk_family s (combine tabs fs) t0 y0 T' k ->
      forall W d eps, 0 <= eps -> dense_conditions tabs s (fun tab => poly_weight (W tab) d) eps q ->
      exists C h0, 0 <= C /\ 0 < h0 /\ forall h th, 0 < h <= h0 -> 0 <= th <= 1 ->
         bounded (fun x => y0 x + sum_n (length fs) (fun c => sum_n s (fun i => poly_weight (W (part_tableau tabs c)) d th i * k h c i x)) - y (t0 + th * h) x)
                 (K * eps * h + C * h ^ S q).
  Proof.
    intros HT SM EX. destruct (choose_D q fs t0 y0 SM) as (D & ML & BM & TA).
    set (N := length fs). destruct (choose_bounds D BM (flat_map (nodes N q q) (seq 0 N))) as (K & HK & B & HB & HKB & HP).
    exists K. split; [exact HK|]. intros tabs s k T' LE HT' FAM W d eps He HO.
    set (L := flat_map (nodes N q q) (seq 0 N)).
    (* the exact solution *)
    destruct EX as (Y0 & CO & DE).
    pose proof (ev_expand N q (fun c => nth c fs (fun _ _ _ => 0)) t0 y0 D ML BM TA y T HT Y0 CO DE q (le_n q)) as E.
    assert (E' : bigO (S q) (fun h x => y (t0 + h) x - y0 x - lsum L (fun t => h ^ size t * w t * F D t (Some x)))).
    { destruct E as (C & h1 & HC & H1 & E). exists C, h1. split; [exact HC|]. split; [exact H1|]. intros h Hh x.
      specialize (E h Hh (Some x)). cbn beta in E. cbn [ev] in E. unfold L. destruct q as [|p].
      { change (lsum (Proof_BSeries2.T N 0 0) _) with 0 in E. rewrite lsum_flat_map. rewrite (lsum_ext (seq 0 N) _ (fun _ => 0)) by reflexivity.
        replace (lsum (seq 0 N) (fun _ => 0)) with 0; [exact E|]. clear. induction (seq 0 N) as [|u l IH]; cbn; [reflexivity|]. unfold lsum in IH. rewrite <- IH. ring. }
      rewrite T_S in E. cbn [lsum fold_right F] in E.
      fold (lsum (flat_map (nodes N (S p) (S p)) (seq 0 N)) (fun t => h ^ size t * w t * F D t (Some x))) in E.
      rewrite Rmult_0_r, Rplus_0_l in E. exact E. }
    destruct E' as (C1 & h1 & HC1 & H1 & E1).
    (* the stages *)
    pose proof (weights_expand q fs t0 y0 D ML BM TA tabs s k T' LE HT' FAM W d) as KE. cbn zeta in KE. fold N L in KE.
    destruct KE as (C2 & h2 & HC2 & H2 & E2).
    exists (C1 + C2), (Rmin 1 (Rmin h1 h2)). split; [lra|]. split; [repeat apply Rmin_pos; lra|]. intros h th Hh Hth x.
    pose proof (Rmin_l 1 (Rmin h1 h2)). pose proof (Rmin_r 1 (Rmin h1 h2)). pose proof (Rmin_l h1 h2). pose proof (Rmin_r h1 h2).
    specialize (E2 h th ltac:(lra) Hth x). cbn beta in E2.
    assert (E1' : Rabs (y (t0 + th * h) x - y0 x - lsum L (fun t => (th * h) ^ size t * w t * F D t (Some x))) <= C1 * h ^ S q).
    { destruct (Req_dec th 0) as [->|Hn].
      - rewrite Rmult_0_l, Rplus_0_r, Y0. rewrite (lsum_ext L _ (fun _ => 0)).
        + replace (lsum L (fun _ => 0)) with 0 by (clear; unfold lsum; induction L; cbn; lra).
          replace (y0 x - y0 x - 0) with 0 by ring. rewrite Rabs_R0. apply Rmult_le_pos; [lra|apply pow_le; lra].
        + intros t _. pose proof (size_pos t). rewrite pow_i by lia. ring.
      - eapply Rle_trans; [apply (E1 (th * h)); split; nra|]. apply Rmult_le_compat_l; [lra|]. apply pow_incr. nra. }
    pose proof (residual_sum D L (fun t => sum_n s (fun i => poly_weight (W (part_tableau tabs (root t))) d th i * weight tabs s i t) - th ^ size t * / INR (density t)) eps h x B ltac:(lra) He) as RS.
    assert (RS' := RS (fun t Ht => match nodes_in N q D t Ht with conj a (conj b c) => HO t th a ltac:(rewrite LE; exact b) c Hth end) HB).
    match type of E2 with Rabs ?a <= _ => match type of E1' with Rabs ?b <= _ => match type of RS' with Rabs ?c <= _ => match goal with |- Rabs ?u <= _ => replace u with (a - b + c) end end end end.
    - eapply Rle_trans; [apply Rabs_triang|]. rewrite Rplus_comm. apply Rplus_le_compat.
      + eapply Rle_trans; [exact RS'|]. apply Rmult_le_compat_r; [lra|]. apply Rmult_le_compat_r; [exact He|exact HKB].
      + eapply Rle_trans; [apply Rabs_triang|]. rewrite Rabs_Ropp, Rmult_plus_distr_r. lra.
    - rewrite (lsum_ext L (fun t => h ^ size t * (_ - _) * _) (fun t => h ^ size t * sum_n s (fun i => poly_weight (W (part_tableau tabs (root t))) d th i * weight tabs s i t) * F D t (Some x)
        - (th * h) ^ size t * w t * F D t (Some x))).
      2:{ intros t _. rewrite Rpow_mult_distr. unfold w. ring. }
      rewrite lsum_minus. fold N. ring.
  Qed.
End Dense.
