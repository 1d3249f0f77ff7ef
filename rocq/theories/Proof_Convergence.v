(** Uniform local errors along a trajectory and their accumulation. *)
From Coq Require Import Reals QArith Qreals List Bool Arith Lia Lra.
From Verif Require Import Model_Result Model_RK Model_Terms Spec_RK Spec_Order Spec_DenseOrder Spec_Lipschitz Spec_Convergence
  Proof_RKStep Proof_RKProp Proof_BSeries Proof_BSeries2 Proof_Order Proof_OrderStep Proof_StageLipschitz Proof_StageExist Proof_Product Proof_DenseOrder.
Import ListNotations.
Open Scope R_scope.

(** As [order_up_to], for families of steps of size at most [T']. *)
Lemma order_up_to_on {I : Type} p (fs : list (R -> (I -> R) -> (I -> R))) t0 y0 T y :
  0 < T -> (forall f, In f fs -> smooth p f t0 y0) -> exact_solution fs t0 y0 T y ->
  exists K, 0 <= K /\ forall tabs s k T', length tabs = length fs -> 0 < T' -> rk_family s (combine tabs fs) t0 y0 T' k ->
    (forall eps, 0 <= eps -> has_order_up_to tabs s eps p -> exists C h0, 0 <= C /\ 0 < h0 /\ forall h, 0 < h <= h0 ->
       bounded (fun x => rk_solution s (ode_parts (combine tabs fs)) y0 (k h) x - y (t0 + h) x) (K * eps * h + C * h ^ S p)).
Proof.
  intros HT SM EX. destruct (choose_D p fs t0 y0 SM) as (D & ML & BM & TA).
  set (N := length fs). destruct (choose_bounds D BM (flat_map (nodes N p p) (seq 0 N))) as (K & HK & B & HB & HKB & HP).
  exists K. split; [exact HK|]. intros tabs s k T' LE HT' (EQ & VAN) eps He HO.
  destruct (solution_expand p s tabs fs t0 y0 T' HT' LE D ML BM TA k EQ VAN T y HT EX) as (C & h0 & HC & H0 & HS).
  exists C, (Rmin h0 1). split; [exact HC|]. split; [apply Rmin_pos; lra|]. intros h Hh x.
  pose proof (Rmin_l h0 1). pose proof (Rmin_r h0 1).
  specialize (HS h ltac:(lra) x). cbn beta in HS. fold N in HS.
  pose proof (residual_sum D (flat_map (nodes N p p) (seq 0 N)) (residual tabs s) eps h x B ltac:(lra) He) as RS.
  assert (RS' := RS (fun t Ht => match nodes_in N p D t Ht with conj a (conj b c) => HO t a ltac:(rewrite LE; exact b) c end) HB).
  match goal with |- Rabs ?u <= _ => match type of HS with Rabs (_ - ?v) <= _ => replace u with ((u - v) + v) by ring end end.
  eapply Rle_trans; [apply Rabs_triang|]. rewrite Rplus_comm. apply Rplus_le_compat; [|exact HS].
  eapply Rle_trans; [exact RS'|]. apply Rmult_le_compat_r; [lra|]. apply Rmult_le_compat_r; [exact He|exact HKB].
Qed.

Section Lift.
  Context {I : Type}.
  Notation Y := (I -> R).
  Variables (a b : R).
  Notation start := (start a b).
  Notation I' := (I * start)%type.

  Definition lift_parts (ps : list (tableau * (R -> Y -> Y))) : list (tableau * (R -> (I' -> R) -> (I' -> R))) :=
    map (fun q => (fst q, lift a b (snd q))) ps.
  Definition lift_stages (k : start -> nat -> nat -> Y) (m i : nat) : I' -> R := fun q => k (snd q) m i (fst q).

  Lemma lift_combine (tabs : list tableau) fs : combine tabs (map (lift a b) fs) = lift_parts (combine tabs fs).
  Proof. revert fs. induction tabs as [|tab tabs IH]; intros [|f fs]; cbn; try reflexivity. f_equal. apply IH. Qed.

  Lemma lift_sum coef s ps k (q : I') :
    combination coef s (ode_parts (lift_parts ps)) (lift_stages k) q = combination coef s (ode_parts ps) (k (snd q)) (fst q).
  Proof.
    unfold combination. replace (length (ode_parts (lift_parts ps))) with (length (ode_parts ps)) by (unfold lift_parts, ode_parts; rewrite !map_length; reflexivity).
    apply sum_n_ext. intros m _. rewrite !parts_nth. unfold lift_parts. rewrite nth_error_map. destruct (nth_error ps m) as [(tab & f)|]; reflexivity.
  Qed.

  Lemma stage_value_combination {K J C} s (ps : list (tableau * term K J C)) y0 k i x :
    stage_value s ps y0 k i x = y0 x + combination (fun tab => coef_a tab i) s ps k x.
  Proof. reflexivity. Qed.

  Lemma lift_stage_value s ps (y0 : I' -> R) k i (q : I') :
    stage_value s (ode_parts (lift_parts ps)) y0 (lift_stages k) i q
    = stage_value s (ode_parts ps) (at_start a b y0 (snd q)) (k (snd q)) i (fst q).
  Proof. rewrite !stage_value_combination, lift_sum. destruct q. reflexivity. Qed.

  Lemma equations_lift s ps h (y : R -> Y) (k : start -> nat -> nat -> Y) :
    (forall t : start, rk_equations s (ode_parts ps) (proj1_sig t) (proj1_sig t + h) (y (proj1_sig t)) (k t)) ->
    rk_equations s (ode_parts (lift_parts ps)) 0 (0 + h) (fun q => y (proj1_sig (snd q)) (fst q)) (lift_stages k).
  Proof.
    intros H m tab trm i Hm Hi (x & t). rewrite parts_nth in Hm. unfold lift_parts in Hm. rewrite nth_error_map in Hm.
    destruct (nth_error ps m) as [(tab' & f)|] eqn:Hp; [|discriminate]. cbn in Hm. injection Hm as <- <-.
    assert (Hp' : nth_error (ode_parts ps) m = Some (tab', ode_term f)) by (rewrite parts_nth, Hp; reflexivity).
    unfold lift_stages at 1. cbn [fst snd]. rewrite (H t m tab' _ i Hp' Hi x).
    cbn [ode_term with_default_vf_prod t_prod t_vf t_contr]. unfold lift. cbn [fst snd].
    replace (proj1_sig t + h - proj1_sig t) with h by ring. replace (0 + h - 0) with h by ring.
    rewrite Rplus_0_l. do 2 f_equal.
    apply FunctionalExtensionality.functional_extensionality. intros z.
    change (stage_value s (ode_parts ps) (y (proj1_sig t)) (k t) i z =
      stage_value s (ode_parts (lift_parts ps)) (fun q => y (proj1_sig (snd q)) (fst q)) (lift_stages k) i (z, t)).
    rewrite lift_stage_value. reflexivity.
  Qed.
End Lift.

Section Uniform.
  Context {I : Type}.
  Notation Y := (I -> R).
  Variable FI : finite_type I.
  Variables (L : R) (fs : list (R -> Y -> Y)) (p : nat) (a b T : R) (y0 : Y) (y : R -> Y).
  Hypothesis L0 : 0 <= L.
  Hypothesis LIP : forall f, In f fs -> lipschitz L f.
  Hypothesis P1 : (1 <= p)%nat.
  Hypothesis AB : a <= b.
  Hypothesis BT : b < a + T.
  Hypothesis SM : forall f, In f fs -> uniformly_smooth p f a (a + T) y.
  Hypothesis EX : exact_solution fs a y0 T y.

  Lemma fields_bounded : exists d M, 0 < d /\ 0 <= M /\ forall f t dt, In f fs -> a <= t <= a + T -> Rabs dt <= d -> bounded (f (t + dt) (y t)) M.
  Proof.
    clear -SM P1. destruct p as [|q]; [lia|]. induction fs as [|f l IH]; [exists 1, 0; split; [lra|]; split; [lra|]; intros f t dt []|].
    destruct IH as (d & M & Hd & HM & IH); [intros g Hg; apply SM; right; exact Hg|].
    destruct (field_bounded a (a + T) q f y (SM f (or_introl eq_refl))) as (d' & M' & Hd' & HM' & H).
    exists (Rmin d d'), (M + M'). pose proof (Rmin_l d d'). pose proof (Rmin_r d d'). split; [apply Rmin_pos; lra|]. split; [lra|].
    intros g t dt [<-|Hg] Ht Hdt x.
    - specialize (H t dt Ht ltac:(lra) x). lra.
    - specialize (IH g t dt Hg Ht ltac:(lra) x). lra.
  Qed.

  (** What holds of all small steps of a method, from any point. *)
  Definition small_steps (s : nat) (ps : list (tableau * (R -> Y -> Y))) (A h0 : R) : Prop :=
    0 <= A /\ 0 < h0 /\
    (forall m tab f i j, nth_error ps m = Some (tab, f) -> (i < s)%nat -> (j < s)%nat -> Rabs (coef_a tab i j) <= A) /\
    (forall h, 0 < h <= h0 -> h * (L * (INR (length ps) * (INR s * A))) <= 1 / 2).

  Lemma small_steps_exist s ps : exists A h0, small_steps s ps A h0.
  Proof.
    destruct (coef_bound s ps) as (A & HA & HC). destruct (small_factor s ps L L0 A HA) as (h1 & H1 & HF).
    exists A, h1. repeat split; assumption.
  Qed.

  Lemma in_ps (tabs : list tableau) tab f : In (tab, f) (combine tabs fs) -> lipschitz L f.
  Proof. intros H. apply LIP. apply in_combine_r in H. exact H. Qed.

  (** The family of all steps from all points of the trajectory tends to the trajectory. *)
  Lemma stages_vanish_uniformly tabs s A h0 (k : R -> start a b -> nat -> nat -> Y) :
    small_steps s (combine tabs fs) A h0 ->
    (forall h t, 0 < h <= h0 -> rk_equations s (ode_parts (combine tabs fs)) (proj1_sig t) (proj1_sig t + h) (y (proj1_sig t)) (k h t)) ->
    forall eps, 0 < eps -> exists h1, 0 < h1 /\ forall h i, 0 < h <= h1 -> (i < s)%nat -> forall t : start a b,
      bounded (fun x => stage_value s (ode_parts (combine tabs fs)) (y (proj1_sig t)) (k h t) i x - y (proj1_sig t) x) eps.
  Proof.
    intros (HA & H0 & HC & HF) EQ eps He. set (ps := combine tabs fs) in *.
    assert (CB : exists c, 0 <= c /\ forall m tab f i, nth_error ps m = Some (tab, f) -> (i < s)%nat -> Rabs (coef_c tab i) <= c).
    { destruct (max_list (flat_map (fun q => map (fun i => Rabs (coef_c (fst q) i)) (seq 0 s)) ps)) as (c & C0 & C1 & _).
      exists c. split; [exact C0|]. intros m tab f i Hm Hi. apply C1. apply in_flat_map. exists (tab, f). split; [eapply nth_error_In, Hm|].
      apply in_map_iff. exists i. split; [reflexivity|apply in_seq; lia]. }
    destruct CB as (c & C0 & HCC). destruct fields_bounded as (d & M & Hd & HM & FB).
    set (S0 := INR (length ps) * (INR s * A)).
    assert (HS0 : 0 <= S0) by (unfold S0; repeat apply Rmult_le_pos; auto using pos_INR).
    assert (HX : 0 <= S0 * (2 * M)) by (apply Rmult_le_pos; lra).
    set (h2 := Rmin h0 (Rmin (d / (c + 1)) (eps / (S0 * (2 * M) + 1)))).
    assert (P2 : 0 < h2) by (repeat apply Rmin_pos; auto; apply Rdiv_lt_0_compat; lra).
    exists h2. split; [exact P2|]. intros h i Hh Hi (t & Ht). cbn [proj1_sig].
    assert (B : h <= h0 /\ h <= d / (c + 1) /\ h <= eps / (S0 * (2 * M) + 1)).
    { destruct Hh as (_ & Hh). unfold h2 in Hh. repeat split; (eapply Rle_trans; [exact Hh|]).
      - apply Rmin_l.
      - eapply Rle_trans; [apply Rmin_r|apply Rmin_l].
      - eapply Rle_trans; [apply Rmin_r|apply Rmin_r]. }
    destruct B as (B1 & B3 & B4). pose proof (EQ h (exist _ t Ht) ltac:(lra)) as E. cbn [proj1_sig] in E.
    assert (KS : forall m i x, (m < length ps)%nat -> (i < s)%nat -> Rabs (k h (exist _ t Ht) m i x) <= 2 * h * M).
    { apply (stages_small FI s ps L (in_ps tabs) A HA HC h ltac:(lra) (HF h ltac:(lra)) t (y t) _ M HM E).
      intros m tab f i' Hp Hi'. apply FB; [apply nth_error_In in Hp; apply in_combine_r in Hp; exact Hp|lra|].
      rewrite Rabs_mult, (Rabs_pos_eq h) by lra. apply Rle_trans with ((c + 1) * (d / (c + 1))); [|right; field; lra].
      apply Rmult_le_compat; [apply Rabs_pos|lra| |exact B3]. pose proof (HCC m tab f i' Hp Hi'). lra. }
    intros x. pose proof (stage_diff s ps (k h (exist _ t Ht)) (fun _ _ _ => 0) (y t) A (2 * h * M) i HA) as SD.
    specialize (SD ltac:(repeat apply Rmult_le_pos; lra) HC ltac:(intros m j z Hm Hj; rewrite Rminus_0_r; apply KS; assumption) Hi x). cbv beta in SD.
    replace (stage_value s (ode_parts ps) (y t) (fun _ _ _ => 0) i x) with (y t x) in SD.
    - eapply Rle_trans; [exact SD|].
      replace (INR (length ps) * (INR s * (A * (2 * h * M)))) with ((S0 * (2 * M)) * h) by (unfold S0; ring).
      apply Rle_trans with ((S0 * (2 * M) + 1) * (eps / (S0 * (2 * M) + 1))); [|right; field; lra]. apply Rmult_le_compat; lra.
    - unfold stage_value. rewrite sum_n_0; [ring|]. intros m _. destruct (nth_error (ode_parts ps) m) as [(tab & trm)|]; [|reflexivity].
      apply sum_n_0. intros j _. ring.
  Qed.

  (** The steps from all points of the trajectory together are steps of the lifted equation *)
  Notation y0' := (fun q : I * start a b => y (proj1_sig (snd q)) (fst q)).
  Lemma uniform_family tabs s : exists A h1 (k : R -> start a b -> nat -> nat -> Y),
    small_steps s (combine tabs fs) A h1 /\
    rk_family s (combine tabs (map (lift a b) fs)) 0 y0' h1 (fun h => lift_stages a b (k h)) /\
    forall t (Ht : a <= t <= b) h k', 0 < h <= h1 -> rk_equations s (ode_parts (combine tabs fs)) t (t + h) (y t) k' ->
      forall m i x, (m < length (combine tabs fs))%nat -> (i < s)%nat -> k h (exist _ t Ht) m i x = k' m i x.
  Proof.
    destruct (small_steps_exist s (combine tabs fs)) as (A & h1 & SS). pose proof SS as (HA & H1 & HC & HF).
    set (k := fun h (t : start a b) =>
      match Rlt_dec 0 h with
      | left H0 => match Rle_dec h h1 with
                   | left H2 => proj1_sig (stages_exist FI s (combine tabs fs) L (in_ps tabs) A HA HC h H0 (HF h (conj H0 H2)) (proj1_sig t) (y (proj1_sig t)))
                   | right _ => fun _ _ _ => 0 end
      | right _ => fun _ _ _ => 0
      end).
    assert (KE : forall h t, 0 < h <= h1 -> rk_equations s (ode_parts (combine tabs fs)) (proj1_sig t) (proj1_sig t + h) (y (proj1_sig t)) (k h t)).
    { intros h t Hh. unfold k. destruct (Rlt_dec 0 h); [|lra]. destruct (Rle_dec h h1); [|lra]. apply proj2_sig. }
    exists A, h1, k. split; [exact SS|]. split; [split|].
    - intros h Hh. rewrite lift_combine. apply (equations_lift a b s _ h y (k h)). intros t. apply KE, Hh.
    - intros e Hee. destruct (stages_vanish_uniformly tabs s A h1 k SS KE e Hee) as (h2 & H2 & V). exists h2. split; [exact H2|].
      intros h i Hh Hi (x & t). rewrite lift_combine, lift_stage_value. apply (V h i Hh Hi t x).
    - intros t Ht h k' Hh E m i z Hm Hi.
      pose proof (stages_lipschitz FI s (combine tabs fs) L (in_ps tabs) L0 A HA HC h ltac:(lra) (HF h ltac:(lra)) t (y t) (y t) (k h (exist _ t Ht)) k' 0 ltac:(lra)) as SL.
      specialize (SL ltac:(intros w; rewrite Rminus_diag_eq, Rabs_R0 by reflexivity; lra) (KE h (exist _ t Ht) ltac:(lra)) E m i z Hm Hi).
      rewrite Rmult_0_r in SL. pose proof (Rabs_pos (k h (exist (fun t => a <= t <= b) t Ht) m i z - k' m i z)).
      destruct (Req_dec (k h (exist _ t Ht) m i z - k' m i z) 0) as [Z|Z]; [lra|]. apply Rabs_no_R0 in Z. lra.
  Qed.

  (** The local error from any point of the trajectory *)
  Lemma uniform_local : exists K, 0 <= K /\ forall tabs s eps,
    length tabs = length fs -> 0 <= eps -> has_order_up_to tabs s eps p ->
    exists C A h0, 0 <= C /\ small_steps s (combine tabs fs) A h0 /\ forall t h k, a <= t <= b -> 0 < h <= h0 ->
      rk_equations s (ode_parts (combine tabs fs)) t (t + h) (y t) k ->
      bounded (fun x => rk_solution s (ode_parts (combine tabs fs)) (y t) k x - y (t + h) x) (K * eps * h + C * h ^ S p).
  Proof.
    destruct (order_up_to_on p (map (lift a b) fs) 0 y0' ((a + T - b) / 2) (along a b y)) as (K & HK & H).
    - lra.
    - intros f Hf. apply in_map_iff in Hf as (g & <- & Hg). apply smooth_lift. apply (uniformly_smooth_sub a (a + T)); [lra|apply SM, Hg].
    - apply (exact_lift a b p fs y0 T y); assumption.
    - exists K. split; [exact HK|]. intros tabs s eps LE He HO.
      destruct (uniform_family tabs s) as (A & h1 & k & (HA & H1 & HC & HF) & FAM & UNI).
      destruct (H tabs s _ h1 ltac:(rewrite map_length; exact LE) H1 FAM eps He HO) as (C & h2 & HC2 & H2 & HB).
      exists C, A, (Rmin h1 h2). pose proof (Rmin_l h1 h2). pose proof (Rmin_r h1 h2). split; [exact HC2|]. split.
      + split; [exact HA|]. split; [apply Rmin_pos; lra|]. split; [exact HC|]. intros h Hh. apply HF. lra.
      + intros t h k' Ht Hh E x. specialize (HB h ltac:(lra) (x, exist _ t Ht)). unfold rk_solution in HB.
        rewrite lift_combine, lift_sum in HB. unfold along in HB. cbn [fst snd proj1_sig] in HB.
        rewrite Rplus_0_l in HB. unfold rk_solution.
        replace (combination coef_b s (ode_parts (combine tabs fs)) k' x) with (combination coef_b s (ode_parts (combine tabs fs)) (k h (exist _ t Ht)) x); [exact HB|].
        apply combination_ext. intros m i z Hm Hi. unfold ode_parts in Hm. rewrite map_length in Hm. apply UNI; try assumption. lra.
  Qed.

  (** The same within a step *)
  Lemma uniform_dense q : (q <= p)%nat -> exists K, 0 <= K /\ forall tabs s W d eps,
    length tabs = length fs -> 0 <= eps -> dense_conditions tabs s (fun tab => poly_weight (W tab) d) eps q ->
    exists C h0, 0 <= C /\ 0 < h0 /\ forall t h k th, a <= t <= b -> 0 < h <= h0 -> 0 <= th <= 1 ->
      rk_equations s (ode_parts (combine tabs fs)) t (t + h) (y t) k ->
      bounded (fun x => y t x + combination (fun tab => poly_weight (W tab) d th) s (ode_parts (combine tabs fs)) k x - y (t + th * h) x) (K * eps * h + C * h ^ S q).
  Proof.
    intros Hq. destruct (dense_up_to q (map (lift a b) fs) 0 y0' ((a + T - b) / 2) (along a b y)) as (K & HK & H).
    - lra.
    - intros f Hf. apply in_map_iff in Hf as (g & <- & Hg). apply (smooth_le p q); [exact Hq|]. apply smooth_lift. apply (uniformly_smooth_sub a (a + T)); [lra|apply SM, Hg].
    - apply (exact_lift a b p fs y0 T y); assumption.
    - exists K. split; [exact HK|]. intros tabs s W d eps LE He HO.
      destruct (uniform_family tabs s) as (A & h1 & k & (HA & H1 & HC & HF) & FAM & UNI).
      destruct (H tabs s _ h1 ltac:(rewrite map_length; exact LE) H1 FAM W d eps He HO) as (C & h2 & HC2 & H2 & HB).
      exists C, (Rmin h1 h2). pose proof (Rmin_l h1 h2). pose proof (Rmin_r h1 h2). split; [exact HC2|]. split; [apply Rmin_pos; lra|].
      intros t h k' th Ht Hh Hth E x. specialize (HB h th ltac:(lra) Hth (x, exist _ t Ht)). cbv beta in HB.
      rewrite <- (combination_eq s tabs (map (lift a b) fs) ltac:(rewrite map_length; exact LE) (fun tab => poly_weight (W tab) d th)) in HB.
      rewrite lift_combine, lift_sum in HB. unfold along in HB. cbn [fst snd proj1_sig] in HB.
      rewrite Rplus_0_l in HB.
      replace (combination _ s (ode_parts (combine tabs fs)) k' x) with (combination (fun tab => poly_weight (W tab) d th) s (ode_parts (combine tabs fs)) (k h (exist _ t Ht)) x); [exact HB|].
      apply combination_ext. intros m i z Hm Hi. unfold ode_parts in Hm. rewrite map_length in Hm. apply UNI; try assumption. lra.
  Qed.

  (** One more step *)
  Lemma growth_step (W E0 h t0 t : R) Lam : 0 <= Lam -> 0 <= W -> 0 < h -> t0 <= t -> 
    E0 <= W * (t - t0) * exp (Lam * (t - t0)) ->
    (1 + Lam * h) * E0 + W * h <= W * (t + h - t0) * exp (Lam * (t + h - t0)).
  Proof.
    intros HL HW Hh Ht HE.
    assert (X : 1 + Lam * h <= exp (Lam * h)).
    { destruct (Req_dec (Lam * h) 0) as [->|N]; [rewrite exp_0; lra|]. left. apply exp_ineq1. pose proof (Rmult_le_pos Lam h HL ltac:(lra)). lra. }
    assert (P : 0 <= Lam * h) by (apply Rmult_le_pos; lra).
    replace (Lam * (t + h - t0)) with (Lam * h + Lam * (t - t0)) by ring. rewrite exp_plus.
    set (e1 := exp (Lam * h)) in *. set (e2 := exp (Lam * (t - t0))) in *.
    assert (E2 : 1 <= e2).
    { unfold e2. pose proof (Rmult_le_pos Lam (t - t0) HL ltac:(lra)). destruct (Req_dec (Lam * (t - t0)) 0) as [->|N]; [rewrite exp_0; lra|].
      pose proof (exp_ineq1 (Lam * (t - t0)) ltac:(lra)). lra. }
    assert (Q : 0 <= W * (t - t0) * e2) by (repeat apply Rmult_le_pos; lra).
    apply Rle_trans with ((1 + Lam * h) * (W * (t - t0) * e2) + W * h).
    { apply Rplus_le_compat_r. apply Rmult_le_compat_l; lra. }
    apply Rle_trans with (e1 * (W * (t - t0) * e2) + W * h); [apply Rplus_le_compat_r, Rmult_le_compat_r; lra|].
    replace (W * (t + h - t0) * (e1 * e2)) with (e1 * (W * (t - t0) * e2) + W * h * (e1 * e2)) by ring.
    apply Rplus_le_compat_l. rewrite <- (Rmult_1_r (W * h)) at 1. apply Rmult_le_compat_l; [apply Rmult_le_pos; lra|].
    apply Rle_trans with (1 * e2); [lra|]. apply Rmult_le_compat_r; lra.
  Qed.
End Uniform.
