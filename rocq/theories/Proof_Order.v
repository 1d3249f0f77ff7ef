(** Order of Runge--Kutta steps from the order conditions. *)
From Coq Require Import Reals QArith Qreals List Bool Arith Lia Lra FunctionalExtensionality.
From Verif Require Import Model_Result Model_RK Model_Terms Spec_RK Spec_Order Proof_Terms Proof_BSeries Proof_BSeries2 Proof_RKProp.
Import ListNotations.
Open Scope R_scope.

Lemma combine_fst {A B} (l : list A) (m : list B) : length l = length m -> map fst (combine l m) = l.
Proof. revert m; induction l; intros [|]; cbn; auto; intros H; try discriminate. injection H as H. rewrite IHl; auto. Qed.
Lemma combine_snd {A B} (l : list A) (m : list B) : length l = length m -> map snd (combine l m) = m.
Proof. revert m; induction l; intros [|]; cbn; auto; intros H; try discriminate. injection H as H. rewrite IHl; auto. Qed.
Lemma combine_map {A B} (ps : list (A * B)) : combine (map fst ps) (map snd ps) = ps.
Proof. induction ps as [|[a b] ps IH]; cbn; [reflexivity|]. rewrite IH. reflexivity. Qed.

Section Order.
  Context {I : Type}.
  Notation Y := (I -> R).
  Notation V := (option I -> R).
  Notation zero_f := (fun (_ : R) (_ : Y) (_ : I) => 0).

  (** Choosing expansions *)
  Lemma choose_D p (fs : list (R -> Y -> Y)) t0 y0 : (forall f, In f fs -> smooth p f t0 y0) ->
    exists D : nat -> list V -> Y, (forall c, multilinear (D c)) /\ (forall c, bounded_map (D c)) /\
      forall c, (c < length fs)%nat -> taylor p (nth c fs zero_f) t0 y0 (D c).
  Proof.
    induction fs as [|f fs IH]; intros H.
    - exists (fun _ _ _ => 0). split; [intros c l l' a b u v x; ring|]. split.
      + intros c m. exists 0. intros l Bs _ _ x. rewrite Rabs_R0. lra.
      + intros c Hc. cbn in Hc. lia.
    - destruct IH as (D & M & B & TA); [intros g Hg; apply H; right; exact Hg|].
      destruct (H f (or_introl eq_refl)) as (D0 & T0). pose proof T0 as (M0 & B0 & _).
      exists (fun c => match c with O => D0 | S c => D c end).
      split; [intros [|c]; auto|]. split; [intros [|c]; auto|]. intros [|c] Hc; [exact T0|]. cbn. apply TA. cbn in Hc. lia.
  Qed.

  Lemma nodes_in N p (D : nat -> list V -> Y) t :
    In t (flat_map (nodes N p p) (seq 0 N)) -> is_node t /\ of_parts N t /\ (size t <= p)%nat.
  Proof.
    intros H. assert (H' : In t (T N p p)).
    { destruct p; [apply in_flat_map in H as (c & _ & [])|]. rewrite T_S. right. exact H. }
    apply T_in in H' as (H1 & H2). split; [|auto].
    apply in_flat_map in H as (c & _ & H). destruct p; [destruct H|]. apply in_map_iff in H as (l & <- & _). exact Logic.I.
  Qed.
  Lemma nodes_root N p q c t : In t (nodes N p q c) -> root t = c /\ exists l, t = Node c l.
  Proof. destruct q; [intros []|]. intros H. apply in_map_iff in H as (l & <- & _). cbn. eauto. Qed.

  Section Fix.
    Variables (p s : nat) (tabs : list tableau) (fs : list (R -> Y -> Y)) (t0 : R) (y0 : Y) (h0 : R).
    Hypothesis H0 : 0 < h0.
    Hypothesis LE : length tabs = length fs.
    Let N := length fs.
    Let f c := nth c fs zero_f.
    Variable D : nat -> list V -> Y.
    Hypothesis ML : forall c, multilinear (D c).
    Hypothesis BM : forall c, bounded_map (D c).
    Hypothesis TA : forall c, (c < N)%nat -> taylor p (f c) t0 y0 (D c).
    Variable k : R -> nat -> nat -> Y.
    Let ps := combine tabs fs.

    Lemma nth_parts c : (c < N)%nat -> nth_error (ode_parts ps) c = Some (part_tableau tabs c, ode_term (f c)).
    Proof.
      intros Hc. unfold ode_parts, ps. rewrite nth_error_map. subst N f.
      clear -Hc LE. revert tabs c Hc LE. induction fs as [|g fs' IH]; intros [|tab tabs'] c Hc LE; cbn in *; try lia.
      destruct c; [reflexivity|]. cbn. apply IH; lia.
    Qed.
    Lemma len_parts : length (ode_parts ps) = N.
    Proof. unfold ode_parts, ps, N. rewrite map_length, combine_length, LE. lia. Qed.

    Lemma stage_value_eq y k0 i x : stage_value s (ode_parts ps) y k0 i x
      = y x + sum_n N (fun q => sum_n s (fun j => coef_a (part_tableau tabs q) i j * k0 q j x)).
    Proof.
      unfold stage_value. rewrite len_parts. f_equal. apply sum_n_ext. intros m Hm. rewrite (nth_parts m Hm). reflexivity.
    Qed.
    Lemma combination_eq coef k0 x : combination coef s (ode_parts ps) k0 x
      = sum_n N (fun q => sum_n s (fun j => coef (part_tableau tabs q) j * k0 q j x)).
    Proof.
      unfold combination. rewrite len_parts. apply sum_n_ext. intros m Hm. rewrite (nth_parts m Hm). reflexivity.
    Qed.

    Hypothesis EQ : forall h, 0 < h <= h0 -> rk_equations s (ode_parts ps) t0 (t0 + h) y0 (k h).

    Lemma EQ' h c i x : 0 < h <= h0 -> (c < N)%nat -> (i < s)%nat ->
      k h c i x = h * f c (t0 + coef_c (part_tableau tabs c) i * h) (fun x => y0 x + stage_sum N s tabs k h i x) x.
    Proof.
      intros Hh Hc Hi. rewrite (EQ h Hh c _ _ i (nth_parts c Hc) Hi x). cbn.
      replace (t0 + h - t0) with h by ring. f_equal. f_equal. extensionality z. apply stage_value_eq.
    Qed.

    Section Van.
      Hypothesis VAN : forall eps, 0 < eps -> exists h1, 0 < h1 /\ forall h i, 0 < h <= h1 -> (i < s)%nat ->
        bounded (fun x => stage_value s (ode_parts ps) y0 (k h) i x - y0 x) eps.
      Lemma VAN' eps : 0 < eps -> exists h1, 0 < h1 /\ forall h i, 0 < h <= h1 -> (i < s)%nat ->
        bounded (stage_sum N s tabs k h i) eps.
      Proof.
        intros He. destruct (VAN eps He) as (h1 & H1 & H). exists h1. split; [exact H1|]. intros h i Hh Hi x.
        replace (stage_sum N s tabs k h i x) with (stage_value s (ode_parts ps) y0 (k h) i x - y0 x).
        - apply (H h i Hh Hi x).
        - rewrite stage_value_eq. unfold stage_sum. ring.
      Qed.

      Lemma combination_expand (coef : tableau -> nat -> R) :
        bigO (S p) (fun h x => combination coef s (ode_parts ps) (k h) x
          - lsum (flat_map (nodes N p p) (seq 0 N)) (fun t =>
              h ^ size t * sum_n s (fun i => coef (part_tableau tabs (root t)) i * weight tabs s i t) * F D t (Some x))).
      Proof.
        apply (bigO_eq _ (fun h x => sum_n N (fun c => sum_n s (fun i => coef (part_tableau tabs c) i *
          (k h c i x - lsum (nodes N p p c) (fun t => h ^ size t * weight tabs s i t * F D t (Some x))))))).
        - intros h x. rewrite combination_eq, lsum_flat_map, <- sum_n_lsum.
          match goal with |- _ = ?u - ?v => replace (u - v) with (u + -1 * v) by ring end.
          rewrite <- sum_n_mult, <- sum_n_plus. apply sum_n_ext. intros c Hc.
          rewrite <- lsum_mult.
          replace (lsum (nodes N p p c) (fun t => -1 * (h ^ size t * sum_n s (fun i => coef (part_tableau tabs (root t)) i * weight tabs s i t) * F D t (Some x))))
            with (sum_n s (fun i => lsum (nodes N p p c) (fun t => - coef (part_tableau tabs c) i * (h ^ size t * weight tabs s i t * F D t (Some x))))).
          + rewrite <- sum_n_plus. apply sum_n_ext. intros i Hi. rewrite lsum_mult. ring.
          + rewrite sum_n_lsum_swap. apply lsum_ext. intros t Ht. destruct (nodes_root _ _ _ _ _ Ht) as (-> & _).
            match goal with |- _ = -1 * (?u * ?v * ?z) => replace (-1 * (u * v * z)) with ((- u * z) * v) by ring end.
            rewrite <- sum_n_mult. apply sum_n_ext. intros; ring.
        - apply (bigO_sum_n (S p) N (fun c h x => sum_n s (fun i => coef (part_tableau tabs c) i *
            (k h c i x - lsum (nodes N p p c) (fun t => h ^ size t * weight tabs s i t * F D t (Some x)))))). intros c Hc.
          apply (bigO_sum_n (S p) s (fun i h x => coef (part_tableau tabs c) i *
            (k h c i x - lsum (nodes N p p c) (fun t => h ^ size t * weight tabs s i t * F D t (Some x))))). intros i Hi.
          apply bigO_scale. apply (k_expand N p s f t0 y0 D ML BM TA tabs k h0 H0 EQ' VAN' p (le_n p) c i Hc Hi).
      Qed.

      Lemma solution_expand T y : 0 < T -> exact_solution fs t0 y0 T y ->
        bigO (S p) (fun h x => rk_solution s (ode_parts ps) y0 (k h) x - y (t0 + h) x
          - lsum (flat_map (nodes N p p) (seq 0 N)) (fun t => h ^ size t * residual tabs s t * F D t (Some x))).
      Proof.
        intros HT (Y0 & CO & DE).
        pose proof (ev_expand N p f t0 y0 D ML BM TA y T HT Y0 CO DE p (le_n p)) as E.
        pose proof (combination_expand coef_b) as K.
        assert (E' : bigO (S p) (fun h x => y (t0 + h) x - y0 x
          - lsum (flat_map (nodes N p p) (seq 0 N)) (fun t => h ^ size t * w t * F D t (Some x)))).
        { destruct E as (C & h1 & HC & H1 & E). exists C, h1. split; [exact HC|]. split; [exact H1|]. intros h Hh x.
          specialize (E h Hh (Some x)). cbn beta in E. cbn [ev] in E. destruct p as [|q].
          { change (lsum (Proof_BSeries2.T N 0 0) _) with 0 in E. rewrite lsum_flat_map. rewrite (lsum_ext (seq 0 N) _ (fun _ => 0)) by reflexivity.
            replace (lsum (seq 0 N) (fun _ => 0)) with 0; [exact E|]. clear. induction (seq 0 N) as [|u l IH]; cbn; [reflexivity|]. unfold lsum in IH. rewrite <- IH. ring. } rewrite T_S in E.
          cbn [lsum fold_right F] in E.
          fold (lsum (flat_map (nodes N (S q) (S q)) (seq 0 N)) (fun t => h ^ size t * w t * F D t (Some x))) in E.
          rewrite Rmult_0_r, Rplus_0_l in E. exact E. }
        apply (bigO_eq _ (fun h x => (combination coef_b s (ode_parts ps) (k h) x
          - lsum (flat_map (nodes N p p) (seq 0 N)) (fun t =>
              h ^ size t * sum_n s (fun i => coef_b (part_tableau tabs (root t)) i * weight tabs s i t) * F D t (Some x)))
          - (y (t0 + h) x - y0 x
          - lsum (flat_map (nodes N p p) (seq 0 N)) (fun t => h ^ size t * w t * F D t (Some x))))).
        - intros h x. unfold rk_solution.
          replace (lsum (flat_map (nodes N p p) (seq 0 N)) (fun t => h ^ size t * residual tabs s t * F D t (Some x)))
            with (lsum (flat_map (nodes N p p) (seq 0 N)) (fun t => h ^ size t * sum_n s (fun i => coef_b (part_tableau tabs (root t)) i * weight tabs s i t) * F D t (Some x))
                  - lsum (flat_map (nodes N p p) (seq 0 N)) (fun t => h ^ size t * w t * F D t (Some x))); [ring|].
          rewrite <- lsum_minus. apply lsum_ext. intros t _. unfold residual, w. ring.
        - apply bigO_minus; [exact K|exact E'].
      Qed.

    End Van.
  End Fix.

      (** A sum of small terms *)
      Lemma residual_sum (D : nat -> list V -> Y) (l : list tree) (r : tree -> R) eps h x B : 0 < h <= 1 -> 0 <= eps ->
        (forall t, In t l -> Rabs (r t) <= eps) ->
        (forall t, In t l -> bounded (F D t) (B t)) ->
        Rabs (lsum l (fun t => h ^ size t * r t * F D t (Some x)))
        <= lsum l B * eps * h.
      Proof.
        intros Hh He Hr HB. eapply Rle_trans.
        - apply (lsum_abs _ _ (fun t => (eps * h) * B t)). intros t Ht.
          rewrite !Rabs_mult, Rabs_pos_eq by (apply pow_le; lra).
          apply Rmult_le_compat; [apply Rmult_le_pos; [apply pow_le; lra|apply Rabs_pos]|apply Rabs_pos| |apply HB, Ht].
          rewrite Rmult_comm. apply Rmult_le_compat; [apply Rabs_pos|apply pow_le; lra|apply Hr, Ht|].
          pose proof (size_pos t). replace (size t) with (S (size t - 1)) by lia. cbn.
          apply Rle_trans with (h * 1); [|lra]. apply Rmult_le_compat_l; [lra|]. apply pow_le_1. lra.
        - rewrite lsum_mult. right. ring.
      Qed.
  Lemma choose_bounds (D : nat -> list V -> Y) (BM : forall c, bounded_map (D c)) (l : list tree) :
    exists K, 0 <= K /\ exists B : tree -> R, (forall t, In t l -> bounded (F D t) (B t)) /\ lsum l B <= K /\ (forall t, 0 <= B t).
  Proof.
    assert (H : exists B : tree -> R, (forall t, In t l -> bounded (F D t) (B t)) /\ (forall t, 0 <= B t)).
    { assert (DEC : forall t u : tree, {t = u} + {t <> u}).
      { fix IH 1. intros [|c m] [|c' m']; try (right; discriminate); [left; reflexivity|].
        destruct (Nat.eq_dec c c') as [->|]; [|right; congruence].
        destruct (list_eq_dec IH m m') as [->|]; [left; reflexivity|right; congruence]. }
      induction l as [|t l (B & IH & HB)]; [exists (fun _ => 0); split; [intros t []|intros; lra]|].
      destruct (F_bounded D BM t) as (b & Hb). exists (fun u => if DEC u t then Rabs b else B u). split.
      - intros u [<-|Hu].
        + destruct (DEC t t); [|congruence]. intros x. eapply Rle_trans; [apply Hb|apply Rle_abs].
        + destruct (DEC u t) as [->|]; [|apply IH, Hu]. intros x. eapply Rle_trans; [apply Hb|apply Rle_abs].
      - intros u. destruct (DEC u t); [apply Rabs_pos|apply HB]. }
    destruct H as (B & HB & HP). exists (lsum l B). split; [apply lsum_nonneg; auto|]. exists B. split; [exact HB|]. split; [lra|exact HP].
  Qed.

  (** C30, C31: order from order conditions, up to rounding of coefficients. *)
  Lemma order_up_to p (fs : list (R -> Y -> Y)) t0 y0 T y :
    0 < T -> (forall f, In f fs -> smooth p f t0 y0) -> exact_solution fs t0 y0 T y ->
    exists K, 0 <= K /\ forall tabs s k, length tabs = length fs -> rk_family s (combine tabs fs) t0 y0 T k ->
      (forall eps, 0 <= eps -> has_order_up_to tabs s eps p -> exists C h0, 0 <= C /\ 0 < h0 /\ forall h, 0 < h <= h0 ->
         bounded (fun x => rk_solution s (ode_parts (combine tabs fs)) y0 (k h) x - y (t0 + h) x) (K * eps * h + C * h ^ S p)) /\
      (forall eps, 0 <= eps -> error_has_order_up_to tabs s eps p -> exists C h0, 0 <= C /\ 0 < h0 /\ forall h, 0 < h <= h0 ->
         bounded (rk_error s (ode_parts (combine tabs fs)) (k h)) (K * eps * h + C * h ^ S p)).
  Proof.
    intros HT SM EX. destruct (choose_D p fs t0 y0 SM) as (D & ML & BM & TA).
    set (N := length fs). destruct (choose_bounds D BM (flat_map (nodes N p p) (seq 0 N))) as (K & HK & B & HB & HKB & HP).
    exists K. split; [exact HK|]. intros tabs s k LE (EQ & VAN). split; intros eps He HO.
    - destruct (solution_expand p s tabs fs t0 y0 T HT LE D ML BM TA k EQ VAN T y HT EX) as (C & h0 & HC & H0 & HS).
      exists C, (Rmin h0 1). split; [exact HC|]. split; [apply Rmin_pos; lra|]. intros h Hh x.
      pose proof (Rmin_l h0 1). pose proof (Rmin_r h0 1).
      specialize (HS h ltac:(lra) x). cbn beta in HS. fold N in HS.
      pose proof (residual_sum D (flat_map (nodes N p p) (seq 0 N)) (residual tabs s) eps h x B ltac:(lra) He) as RS.
      assert (RS' := RS (fun t Ht => match nodes_in N p D t Ht with conj a (conj b c) => HO t a ltac:(rewrite LE; exact b) c end) HB).
      match goal with |- Rabs ?u <= _ => match type of HS with Rabs (_ - ?v) <= _ => replace u with ((u - v) + v) by ring end end.
      eapply Rle_trans; [apply Rabs_triang|]. rewrite Rplus_comm. apply Rplus_le_compat; [|exact HS].
      eapply Rle_trans; [exact RS'|]. apply Rmult_le_compat_r; [lra|]. apply Rmult_le_compat_r; [exact He|exact HKB].
    - destruct (combination_expand p s tabs fs t0 y0 T HT LE D ML BM TA k EQ VAN coef_e) as (C & h0 & HC & H0 & HS).
      exists C, (Rmin h0 1). split; [exact HC|]. split; [apply Rmin_pos; lra|]. intros h Hh x.
      pose proof (Rmin_l h0 1). pose proof (Rmin_r h0 1).
      specialize (HS h ltac:(lra) x). cbn beta in HS. fold N in HS.
      pose proof (residual_sum D (flat_map (nodes N p p) (seq 0 N)) (error_residual tabs s) eps h x B ltac:(lra) He) as RS.
      assert (RS' := RS (fun t Ht => match nodes_in N p D t Ht with conj a (conj b c) => HO t a ltac:(rewrite LE; exact b) c end) HB).
      unfold rk_error.
      match goal with |- Rabs ?u <= _ => match type of HS with Rabs (_ - ?v) <= _ => replace u with ((u - v) + v) by ring end end.
      eapply Rle_trans; [apply Rabs_triang|]. rewrite Rplus_comm. apply Rplus_le_compat; [|exact HS].
      eapply Rle_trans; [exact RS'|]. apply Rmult_le_compat_r; [lra|]. apply Rmult_le_compat_r; [exact He|exact HKB].
  Qed.
End Order.
