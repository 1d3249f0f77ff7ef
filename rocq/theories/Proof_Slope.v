(** Accuracy of the derivative of the dense output inside a step. *)
From Coq Require Import ZArith Reals QArith Qreals List Bool Arith Lia Lra FunctionalExtensionality.
From Verif Require Import Model_Result Model_RK Model_Tableaus Model_Terms Model_Orders Model_Interp Model_DenseOutput.
From Verif Require Import Spec_RK Spec_Order Spec_DenseOrder Spec_Slope Proof_Terms Proof_BSeries Proof_BSeries2 Proof_RK Proof_RKProp Proof_RKStep Proof_Order
  Proof_OrderStep Proof_RKShipped Proof_OrderCheck Proof_DenseOrder Proof_DenseCheck Proof_DenseMethods Proof_DenseSolvers Proof_DenseStep.
Import ListNotations.
Open Scope R_scope.

Lemma sum_n_first n (g : nat -> R) : sum_n (S n) g = g 0%nat + sum_n n (fun j => g (S j)).
Proof. induction n as [|n IH]; cbn in *; [ring|]. rewrite IH. ring. Qed.
Lemma poly_slope_weight W d th i : poly_slope W d th i = poly_weight (fun j i => INR (S j) * W (S j) i) (pred d) th i.
Proof.
  unfold poly_slope, poly_weight. destruct d as [|d]; [reflexivity|]. rewrite sum_n_first. cbn [pred]. rewrite Rmult_0_l, Rmult_0_l, Rplus_0_l.
  apply sum_n_ext. intros j _. replace (S j - 1)%nat with j by lia. ring.
Qed.
Lemma deriv_poly_weight W d i th : derivable_pt_lim (fun th => poly_weight W d th i) th (poly_slope W d th i).
Proof.
  unfold poly_weight, poly_slope. induction d as [|d IH]; [apply derivable_pt_lim_const|]. cbn [sum_n].
  apply (derivable_pt_lim_plus (fun th => sum_n d (fun j => th ^ j * W j i)) (fun th => th ^ d * W d i)); [exact IH|].
  replace (INR d * th ^ (d - 1) * W d i) with (W d i * (INR d * th ^ pred d)) by (rewrite Nat.sub_1_r; ring).
  assert (E : (fun th => th ^ d * W d i) = mult_real_fct (W d i) (fun th => th ^ d)) by (extensionality u; unfold mult_real_fct; ring).
  rewrite E. apply derivable_pt_lim_scal, derivable_pt_lim_pow.
Qed.

(** From the conditions for all powers *)
Lemma columns_slope tabs s W d q eps : (q < d <= 10)%nat -> 0 <= eps ->
  (forall j t, (j < d)%nat -> is_node t -> of_parts (length tabs) t -> (size t <= q)%nat -> Rabs (column_residual tabs s W j t) <= eps) ->
  slope_conditions tabs s (fun tab => poly_slope (fun j i => Q2R (W tab j i)) d) (10 * (INR d * eps)) q.
Proof.
  intros Hd He H t th Hn Hp Hs Hth.
  assert (E : forall n, sum_n s (fun i => poly_slope (fun j i => Q2R (W (part_tableau tabs (root t)) j i)) n th i * weight tabs s i t)
      - (if (size t <? n)%nat then INR (size t) * th ^ (size t - 1) * / INR (density t) else 0)
      = sum_n n (fun j => INR j * th ^ (j - 1) * column_residual tabs s W j t)).
  { induction n as [|n IH].
    - unfold poly_slope. cbn. rewrite (sum_n_ext s _ (fun _ => 0)) by (intros; ring).
      replace (sum_n s (fun _ => 0)) with 0 by (clear; induction s; cbn; lra). ring.
    - cbn [sum_n]. rewrite <- IH. unfold column_residual.
      rewrite (sum_n_ext s (fun i => poly_slope _ (S n) th i * _) (fun i => poly_slope (fun j i => Q2R (W (part_tableau tabs (root t)) j i)) n th i * weight tabs s i t + INR n * th ^ (n - 1) * (Q2R (W (part_tableau tabs (root t)) n i) * weight tabs s i t)))
        by (intros i _; unfold poly_slope; cbn [sum_n]; ring).
      rewrite sum_n_plus, sum_n_mult.
      destruct (Nat.ltb_spec (size t) (S n)), (Nat.ltb_spec (size t) n), (Nat.eqb_spec n (size t)); try lia; subst; ring. }
  specialize (E d). destruct (Nat.ltb_spec (size t) d); [|lia]. rewrite E.
  assert (B : forall n, (n <= d)%nat -> Rabs (sum_n n (fun j => INR j * th ^ (j - 1) * column_residual tabs s W j t)) <= INR n * (10 * eps)).
  { induction n as [|n IH]; intros Hn'; [cbn; rewrite Rabs_R0; lra|]. rewrite S_INR. cbn [sum_n].
    eapply Rle_trans; [apply Rabs_triang|]. rewrite Rmult_plus_distr_r, Rmult_1_l. apply Rplus_le_compat; [apply IH; lia|].
    rewrite !Rabs_mult, (Rabs_pos_eq (INR n)) by apply pos_INR. rewrite (Rabs_pos_eq (th ^ _)) by (apply pow_le; lra).
    apply Rmult_le_compat; [apply Rmult_le_pos; [apply pos_INR|apply pow_le; lra]|apply Rabs_pos| |apply H; auto; lia].
    replace 10 with (10 * 1) by ring. apply Rmult_le_compat; [apply pos_INR|apply pow_le; lra| |apply pow_le_1; lra].
    replace 10 with (INR 10) by (cbn; ring). apply le_INR. lia. }
  eapply Rle_trans; [apply (B d); lia|]. right. ring.
Qed.

Lemma good_slope d q eps : good d q eps -> 0 <= eps -> slope_order (dm_interpolation d) (tabs_of d) (stages d) (10 * eps) q.
Proof.
  intros (W & deg & e & IN & HQ & He & HC) Hp. exists (fun tab j i => Q2R (W tab j i)), deg. split; [exact IN|].
  intros t th Hn Hpt Hs Hth.
  assert (He' : forall j, (j < deg)%nat -> Rabs (column_residual (tabs_of d) (stages d) W j t) <= Rmax e 0).
  { intros j Hj. eapply Rle_trans; [apply HC; auto|apply Rmax_l]. }
  destruct (Rle_dec 0 e) as [P|P].
  - eapply Rle_trans; [apply (columns_slope (tabs_of d) (stages d) W deg q e HQ P HC t th); assumption|]. lra.
  - exfalso. pose proof (HC 0%nat t ltac:(lia) Hn Hpt Hs). pose proof (Rabs_pos (column_residual (tabs_of d) (stages d) W 0 t)). lra.
Qed.

Section Slope.
  Context {I : Type}.
  Notation Y := (I -> R).
  Notation V := (option I -> R).

  Lemma slope_up_to q (fs : list (R -> Y -> Y)) t0 y0 T y :
    (0 < q)%nat -> 0 < T -> (forall f, In f fs -> smooth q f t0 y0) -> exact_solution fs t0 y0 T y ->
    exists K, 0 <= K /\ forall tabs s k T', length tabs = length fs -> 0 < T' -> rk_family s (combine tabs fs) t0 y0 T' k ->
      forall W d eps, 0 <= eps -> slope_conditions tabs s (fun tab => poly_slope (W tab) d) eps q ->
      exists C h0, 0 <= C /\ 0 < h0 /\ forall h th, 0 < h <= h0 -> 0 <= th <= 1 ->
         bounded (fun x => sum_n (length fs) (fun c => sum_n s (fun i => poly_slope (W (part_tableau tabs c)) d th i * k h c i x)) * / h
                           - sum_n (length fs) (fun c => nth c fs (fun _ _ _ => 0) (t0 + th * h) (y (t0 + th * h)) x))
                 (K * eps + C * h ^ q).
  Proof.
    intros HQ HT SM EX. destruct (choose_D q fs t0 y0 SM) as (D & ML & BM & TA).
    set (N := length fs). destruct (choose_bounds D BM (flat_map (nodes N q q) (seq 0 N))) as (K & HK & B & HB & HKB & HP).
    exists K. split; [exact HK|]. intros tabs s k T' LE HT' FAM W d eps He HO.
    set (L := flat_map (nodes N q q) (seq 0 N)).
    destruct EX as (Y0 & CO & DE).
    assert (E1 : exists C h1, 0 <= C /\ 0 < h1 /\ forall h, 0 <= h <= h1 -> bounded (fun x =>
       sum_n N (fun c => nth c fs (fun _ _ _ => 0) (t0 + h) (y (t0 + h)) x) - lsum L (fun t => INR (size t) * h ^ (size t - 1) * w t * F D t (Some x))) (C * h ^ q)).
    { destruct q as [|p]; [lia|].
      destruct (slope_expand N (S p) (fun c => nth c fs (fun _ _ _ => 0)) t0 y0 D ML BM TA y T HT Y0 CO DE p (le_n _)) as (C & h1 & HC & H1 & E).
      exists C, h1. split; [exact HC|]. split; [exact H1|]. intros h Hh x. eapply Rle_trans; [|apply (E h Hh x)]. right. f_equal.
      unfold L. rewrite lsum_flat_map, <- sum_n_lsum. unfold Rminus.
      rewrite (sum_n_ext N (fun c => nth c fs (fun _ _ _ => 0) (t0 + h) (y (t0 + h)) x + - _)
        (fun c => nth c fs (fun _ _ _ => 0) (t0 + h) (y (t0 + h)) x + -1 * lsum (Proof_BSeries2.L N (S p) p) (fun l => h ^ size_l l * prods w l * D c (map (F D) l) x)))
        by (intros; ring).
      rewrite sum_n_plus, sum_n_mult. rewrite <- (Rmult_1_l (sum_n N (fun i => lsum _ _))), Ropp_mult_distr_l. f_equal. f_equal.
      apply sum_n_ext. intros c _. cbn [nodes]. rewrite lsum_map. apply lsum_ext. intros l _. rewrite w_node, size_node. cbn [F].
      replace (S (size_l l) - 1)%nat with (size_l l) by lia. field. apply not_0_INR. lia. }
    destruct E1 as (C1 & h1 & HC1 & H1 & E1).
    pose proof (weights_expand q fs t0 y0 D ML BM TA tabs s k T' LE HT' FAM (fun tab j i => INR (S j) * W tab (S j) i) (pred d)) as KE.
    cbn zeta in KE. fold N L in KE. destruct KE as (C2 & h2 & HC2 & H2 & E2).
    exists (C1 + C2), (Rmin 1 (Rmin h1 h2)). split; [lra|]. split; [repeat apply Rmin_pos; lra|]. intros h th Hh Hth x.
    pose proof (Rmin_l 1 (Rmin h1 h2)). pose proof (Rmin_r 1 (Rmin h1 h2)). pose proof (Rmin_l h1 h2). pose proof (Rmin_r h1 h2).
    specialize (E2 h th ltac:(lra) Hth x). cbn beta in E2.
    assert (Hu : 0 <= th * h <= h).
    { split; [apply Rmult_le_pos; lra|]. rewrite <- (Rmult_1_l h) at 2. apply Rmult_le_compat_r; lra. }
    specialize (E1 (th * h) ltac:(lra) x). cbn beta in E1.
    set (A := sum_n N (fun c => sum_n s (fun i => poly_slope (W (part_tableau tabs c)) d th i * k h c i x))).
    rewrite (sum_n_ext N (fun c => sum_n s (fun i => poly_weight _ _ th i * k h c i x)) (fun c => sum_n s (fun i => poly_slope (W (part_tableau tabs c)) d th i * k h c i x))) in E2
      by (intros c _; apply sum_n_ext; intros i _; rewrite poly_slope_weight; reflexivity).
    rewrite (lsum_ext L _ (fun t => h ^ size t * sum_n s (fun i => poly_slope (W (part_tableau tabs (root t))) d th i * weight tabs s i t) * F D t (Some x))) in E2
      by (intros t _; do 2 f_equal; apply sum_n_ext; intros i _; rewrite poly_slope_weight; reflexivity).
    fold A in E2.
    pose proof (residual_sum D L (fun t => sum_n s (fun i => poly_slope (W (part_tableau tabs (root t))) d th i * weight tabs s i t) - INR (size t) * th ^ (size t - 1) * / INR (density t)) eps h x B ltac:(lra) He) as RS.
    assert (RS' := RS (fun t Ht => match nodes_in N q D t Ht with conj a (conj b c) => HO t th a ltac:(rewrite LE; exact b) c Hth end) HB).
    set (f := sum_n N (fun c => nth c fs (fun _ _ _ => 0) (t0 + th * h) (y (t0 + th * h)) x)) in *.
    apply Rmult_le_reg_l with h; [lra|].
    rewrite <- (Rabs_pos_eq h) at 1 by lra. rewrite <- Rabs_mult.
    set (LF := lsum L (fun t => INR (size t) * (th * h) ^ (size t - 1) * w t * F D t (Some x))) in *.
    assert (X : h * LF = lsum L (fun t => h ^ size t * (INR (size t) * th ^ (size t - 1) * / INR (density t)) * F D t (Some x))).
    { unfold LF. rewrite <- lsum_mult. apply lsum_ext. intros t _. rewrite Rpow_mult_distr. unfold w. pose proof (size_pos t).
      replace (h ^ size t) with (h * h ^ (size t - 1)) by (replace (size t) with (S (size t - 1)) at 2 by lia; reflexivity). ring. }
    match type of E2 with Rabs ?a <= _ => match type of E1 with Rabs ?b <= _ => match type of RS' with Rabs ?c <= _ => match goal with |- Rabs ?u <= _ => replace u with (a - h * b + c) end end end end.
    - eapply Rle_trans; [apply Rabs_triang|]. rewrite Rmult_plus_distr_l, Rplus_comm. apply Rplus_le_compat.
      + eapply Rle_trans; [exact RS'|]. rewrite Rmult_comm. apply Rmult_le_compat_l; [lra|]. apply Rmult_le_compat_r; [exact He|exact HKB].
      + eapply Rle_trans; [apply Rabs_triang|]. rewrite Rabs_Ropp, Rabs_mult, (Rabs_pos_eq h) by lra.
        assert (Rabs (f - LF) <= C1 * h ^ q) by (eapply Rle_trans; [exact E1|]; apply Rmult_le_compat_l; [lra|]; apply pow_incr; lra).
        assert (h * Rabs (f - LF) <= h * (C1 * h ^ q)) by (apply Rmult_le_compat_l; lra).
        replace (h * ((C1 + C2) * h ^ q)) with (h * (C1 * h ^ q) + C2 * h ^ S q) by (cbn; ring). lra.
    - rewrite Rmult_minus_distr_l, X.
      rewrite (lsum_ext L (fun t => h ^ size t * (_ - _) * _) (fun t => h ^ size t * sum_n s (fun i => poly_slope (W (part_tableau tabs (root t))) d th i * weight tabs s i t) * F D t (Some x)
        - h ^ size t * (INR (size t) * th ^ (size t - 1) * / INR (density t)) * F D t (Some x))) by (intros; ring).
      rewrite lsum_minus. field. lra.
  Qed.

  (** The derivative of the dense output *)
  Lemma dense_slope (sv : solver I I R) s tabs (fs : list (R -> Y -> Y)) interp W deg t0 h y0 others state mj :
    length tabs = length fs -> sv_parts sv = ode_parts (combine tabs fs) ->
    valid_parts s (sv_parts sv) -> fsal_at_ends (sv_parts sv) -> interpolates interp tabs s (fun tab => poly_weight (W tab) deg) -> 0 < h ->
    coherent (sv_parts sv) t0 y0 mj state ->
    (exact_root_finder (sv_root_finder sv) \/ implicit_index sv = None) ->
    let out := rk_step sv t0 (t0 + h) y0 others state mj in
    is_okay (ro_result out) = true ->
    forall th x, derivable_pt_lim (fun t => dense_value interp t0 (t0 + h) y0 out t x) (t0 + th * h)
      (sum_n (length fs) (fun c => sum_n s (fun i => poly_slope (W (part_tableau tabs c)) deg th i * stages_of out c i x)) * / h).
  Proof.
    intros LE PS VP FE IN Hh CO EX out OK th x.
    assert (E : (fun t => dense_value interp t0 (t0 + h) y0 out t x) = (fun t => y0 x +
      sum_n (length fs) (fun c => sum_n s (fun i => poly_weight (W (part_tableau tabs c)) deg ((t - t0) * / h) i * stages_of out c i x)))).
    { extensionality t. replace t with (t0 + (t - t0) * / h * h) at 1 by (field; lra).
      apply (dense_step_value sv s tabs fs interp (fun tab => poly_weight (W tab) deg) t0 h y0 others state mj); assumption. }
    rewrite E.
    match goal with |- derivable_pt_lim _ _ ?l => replace l with (0 + l) by ring end.
    apply (derivable_pt_lim_plus (fun _ => y0 x)); [apply derivable_pt_lim_const|].
    set (G := fun th => sum_n (length fs) (fun c => sum_n s (fun i => poly_weight (W (part_tableau tabs c)) deg th i * stages_of out c i x))).
    apply (derivable_pt_lim_comp (fun t => (t - t0) * / h) G).
    - assert (E2 : (fun t => (t - t0) * / h) = mult_real_fct (/ h) (fun t => t - t0)) by (extensionality u; unfold mult_real_fct; ring).
      rewrite E2. refine (eq_ind _ (derivable_pt_lim _ _) _ (/ h) (Rmult_1_r _)). apply derivable_pt_lim_scal. rewrite <- (Rminus_0_r 1). apply (derivable_pt_lim_minus (fun t => t) (fun _ => t0)); [apply derivable_pt_lim_id|apply derivable_pt_lim_const].
    - replace ((t0 + th * h - t0) * / h) with th by (field; lra). unfold G.
      apply (deriv_sum_n (length fs) (fun c th => sum_n s (fun i => poly_weight (W (part_tableau tabs c)) deg th i * stages_of out c i x))
        (fun c th => sum_n s (fun i => poly_slope (W (part_tableau tabs c)) deg th i * stages_of out c i x))). intros c.
      apply (deriv_sum_n s (fun i th => poly_weight (W (part_tableau tabs c)) deg th i * stages_of out c i x)
        (fun i th => poly_slope (W (part_tableau tabs c)) deg th i * stages_of out c i x)). intros i.
      set (a := stages_of out c i x).
      assert (E2 : (fun th => poly_weight (W (part_tableau tabs c)) deg th i * a) = mult_real_fct a (fun th => poly_weight (W (part_tableau tabs c)) deg th i))
        by (extensionality u; unfold mult_real_fct; ring).
      rewrite E2, Rmult_comm. apply derivable_pt_lim_scal, deriv_poly_weight.
  Qed.
  Lemma pf_C68_step :
    forall (fs : list (R -> Y -> Y)) (q : nat) (t0 : R) (y0 : Y) (T : R) (y : R -> Y),
    (0 < q)%nat -> 0 < T -> (forall f, In f fs -> smooth q f t0 y0) -> exact_solution fs t0 y0 T y ->
    exists K, forall (sv : solver I I R) (tabs : list tableau) (s : nat) (interp : interpolation) (eps : R),
      length tabs = length fs -> sv_parts sv = ode_parts (combine tabs fs) ->
      valid_parts s (sv_parts sv) -> explicit_parts (sv_parts sv) -> fsal_at_ends (sv_parts sv) ->
      0 <= eps -> slope_order interp tabs s eps q ->
      exists C h0, 0 < h0 /\ forall h theta others state made_jump, 0 < h <= h0 -> 0 <= theta <= 1 ->
        coherent (sv_parts sv) t0 y0 made_jump state ->
        let out := rk_step sv t0 (t0 + h) y0 others state made_jump in
        forall x, exists l, derivable_pt_lim (fun t => dense_value interp t0 (t0 + h) y0 out t x) (t0 + theta * h) l /\
          Rabs (l - sum_n (length fs) (fun m => nth m fs (fun _ _ _ => 0) (t0 + theta * h) (y (t0 + theta * h)) x)) <= K * eps + C * h ^ q.
  Proof.
    intros fs q t0 y0 T y HQ HT SM EX. destruct (slope_up_to q fs t0 y0 T y HQ HT SM EX) as (K & HK & O).
    exists K. intros sv tabs s interp eps LE PS VP XP FE He (W & deg & IN & DC).
    set (k := fun h => stages_of (rk_step sv t0 (t0 + h) y0 false None false)).
    assert (KQ : forall h, rk_equations s (sv_parts sv) t0 (t0 + h) y0 (k h)).
    { intros h. destruct (pf_C28_step sv s t0 (t0 + h) y0 false None false VP XP FE Logic.I) as ((k' & Hk') & H).
      destruct (H k' Hk') as (_ & _ & Hk & _). eapply equations_ext; [|exact Hk']. intros m i x Hm Hi. symmetry. apply Hk; assumption. }
    assert (FAM : rk_family s (combine tabs fs) t0 y0 T k).
    { split.
      - intros h _. rewrite <- PS. apply KQ.
      - apply (explicit_vanish q s tabs fs t0 y0 T k HT LE SM).
        + intros c i j Hij. rewrite <- (combine_fst tabs fs LE). apply coef_a_explicit; [rewrite <- PS; exact XP|exact Hij].
        + intros h _. rewrite <- PS. apply KQ. }
    destruct (O tabs s k T LE HT FAM W deg eps He DC) as (C & h0 & HC & H0 & B).
    exists C, h0. split; [exact H0|]. intros h th others state mj Hh Hth CO out x.
    destruct (pf_C28_step sv s t0 (t0 + h) y0 others state mj VP XP FE CO) as (_ & HS).
    destruct (HS (k h) (KQ h)) as (_ & _ & Hk & OK). fold out in Hk, OK.
    eexists. split.
    { apply (dense_slope sv s tabs fs interp W deg t0 h y0 others state mj LE PS VP FE IN); [lra|exact CO|right; apply explicit_none, XP|fold out; rewrite OK; reflexivity]. }
    fold out. eapply Rle_trans; [|apply (B h th Hh Hth x)]. right. do 3 f_equal.
    apply sum_n_ext. intros c Hc. apply sum_n_ext. intros i Hi. f_equal. unfold stages_of. apply Hk; [|exact Hi].
    rewrite PS. unfold ode_parts. rewrite map_length, combine_length. lia.
  Qed.

  Lemma pf_C68_implicit_step :
    forall (fs : list (R -> Y -> Y)) (q : nat) (t0 : R) (y0 : Y) (T : R) (y : R -> Y),
    (0 < q)%nat -> 0 < T -> (forall f, In f fs -> smooth q f t0 y0) -> exact_solution fs t0 y0 T y ->
    exists K, forall (sv : solver I I R) (tabs : list tableau) (s : nat) (interp : interpolation) (eps : R)
        (others : R -> bool) (state : R -> solver_state I) (made_jump : R -> bool),
      length tabs = length fs -> sv_parts sv = ode_parts (combine tabs fs) ->
      valid_parts s (sv_parts sv) -> exact_root_finder (sv_root_finder sv) -> fsal_at_ends (sv_parts sv) ->
      0 <= eps -> slope_order interp tabs s eps q ->
      let out h := rk_step sv t0 (t0 + h) y0 (others h) (state h) (made_jump h) in
      (forall h, 0 < h <= T -> coherent (sv_parts sv) t0 y0 (made_jump h) (state h) /\ is_okay (ro_result (out h)) = true) ->
      (forall delta, 0 < delta -> exists h1, 0 < h1 /\ forall h i, 0 < h <= h1 -> (i < s)%nat ->
         bounded (fun x => stage_value s (sv_parts sv) y0 (stages_of (out h)) i x - y0 x) delta) ->
      exists C h0, 0 < h0 /\ forall h theta, 0 < h <= h0 -> 0 <= theta <= 1 ->
        forall x, exists l, derivable_pt_lim (fun t => dense_value interp t0 (t0 + h) y0 (out h) t x) (t0 + theta * h) l /\
          Rabs (l - sum_n (length fs) (fun m => nth m fs (fun _ _ _ => 0) (t0 + theta * h) (y (t0 + theta * h)) x)) <= K * eps + C * h ^ q.
  Proof.
    intros fs q t0 y0 T y HQ HT SM EX. destruct (slope_up_to q fs t0 y0 T y HQ HT SM EX) as (K & HK & O).
    exists K. intros sv tabs s interp eps others state mj LE PS VP RF FE He (W & deg & IN & DC) out OK VAN.
    set (k := fun h => stages_of (out h)).
    assert (FAM : rk_family s (combine tabs fs) t0 y0 T k).
    { split; [|rewrite <- PS; exact VAN]. intros h Hh. rewrite <- PS. destruct (OK h Hh) as (CO & OKh).
      destruct (pf_C36_stages sv s t0 (t0 + h) y0 (others h) (state h) (mj h) VP RF FE CO) as (H & _).
      destruct (H OKh) as (k' & E & _ & _ & Hk). fold (out h) in *.
      eapply equations_ext; [|exact E]. intros m i x Hm Hi. symmetry. apply Hk; assumption. }
    destruct (O tabs s k T LE HT FAM W deg eps He DC) as (C & h0 & HC & H0 & B).
    exists C, (Rmin T h0). split; [apply Rmin_pos; lra|]. intros h th Hh Hth x.
    pose proof (Rmin_l T h0). pose proof (Rmin_r T h0). destruct (OK h ltac:(lra)) as (CO & OKh).
    eexists. split.
    { apply (dense_slope sv s tabs fs interp W deg t0 h y0 (others h) (state h) (mj h) LE PS VP FE IN); [lra|exact CO|left; exact RF|exact OKh]. }
    apply (B h th ltac:(lra) Hth x).
  Qed.

  Lemma pf_C68_solvers : forall (d : dense_method) (q : nat) (eps : R) (tab : tableau) (f : R -> Y -> Y) (t0 : R) (y0 : Y) (T : R) (y : R -> Y),
    In (d, q, eps) [(heun_dense, 2%nat, 0); (midpoint_dense, 1%nat, 0); (ralston_dense, 1%nat, 0); (bosh3_dense, 3%nat, 0);
                    (dopri5_dense, 4%nat, 0); (tsit5_dense, 4%nat, / IZR (10 ^ 15)); (dopri8_dense, 5%nat, / IZR (10 ^ 13))] ->
    m_tableaus (dm_method d) = [tab] ->
    0 < T -> smooth q f t0 y0 -> exact_solution [f] t0 y0 T y ->
    exists K, forall sv : solver I I R, sv_parts sv = [(tab, ode_term f)] ->
    exists C h0, 0 < h0 /\ forall h theta others state made_jump, 0 < h <= h0 -> 0 <= theta <= 1 ->
      coherent (sv_parts sv) t0 y0 made_jump state ->
      let out := rk_step sv t0 (t0 + h) y0 others state made_jump in
        forall x, exists l, derivable_pt_lim (fun t => dense_value (dm_interpolation d) t0 (t0 + h) y0 out t x) (t0 + theta * h) l /\
          Rabs (l - f (t0 + theta * h) (y (t0 + theta * h)) x) <= K * eps + C * h ^ q.
  Proof.
    intros d q eps tab f t0 y0 T y Hd Ht HT SM EX.
    assert (X : good d q eps /\ 0 <= eps /\ valid_tabsb (stages d) [tab] = true /\ implicit tab = false /\ (0 < q)%nat).
    { assert (P : forall z, (0 < z)%Z -> 0 <= / IZR z) by (intros z Hz; left; apply Rinv_0_lt_compat, IZR_lt; exact Hz).
      repeat (destruct Hd as [Hd|Hd]; [injection Hd as <- <- <-; cbn in Ht; injection Ht as <-;
        (split; [first [exact good_heun|exact good_midpoint|exact good_ralston|exact good_bosh3|exact good_dopri5|exact good_tsit5|exact good_dopri8]|]);
        (split; [first [lra|apply P; reflexivity]|]); (split; [vm_compute; reflexivity|]); (split; [vm_compute; reflexivity|lia])|]). destruct Hd. }
    destruct X as (GD & He & VT & NI & HQ). apply good_slope in GD; [|exact He]. unfold tabs_of in GD. rewrite Ht in GD.
    destruct (pf_C68_step [f] q t0 y0 T y HQ HT) as (K & O); [intros g [<-|[]]; exact SM|exact EX|].
    exists (K * 10). intros sv PS.
    assert (PS' : sv_parts sv = ode_parts (combine [tab] [f])) by exact PS.
    destruct (valid_tabs (stages d) [tab] [f] eq_refl VT) as (VP & FE). rewrite <- PS' in VP, FE.
    assert (XP : explicit_parts (sv_parts sv)) by (rewrite PS; intros tab' m' [Eq|[]]; injection Eq as <- <-; exact NI).
    destruct (O sv [tab] (stages d) (dm_interpolation d) (10 * eps) eq_refl PS' VP XP FE ltac:(lra) GD) as (C & h0 & H0 & B).
    exists C, h0. split; [exact H0|]. intros h th others state mj Hh Hth CO out x. destruct (B h th others state mj Hh Hth CO x) as (l & D & E).
    exists l. split; [exact D|]. cbn [length sum_n nth] in E. rewrite Rplus_0_l in E. eapply Rle_trans; [exact E|]. right. ring.
  Qed.

  Lemma pf_C68_implicit_solvers : forall (d : dense_method) (q : nat) (eps : R) (fs : list (R -> Y -> Y)) (t0 : R) (y0 : Y) (T : R) (y : R -> Y),
    In (d, q, eps) [(kvaerno3_dense, 3%nat, 0); (kvaerno4_dense, 3%nat, 0); (kvaerno5_dense, 3%nat, / IZR (10 ^ 15)); (sil3_dense, 2%nat, 0);
                    (kencarp3_dense, 2%nat, / IZR (10 ^ 23)); (kencarp4_dense, 3%nat, / IZR (10 ^ 23)); (kencarp5_dense, 3%nat, / IZR (10 ^ 9))] ->
    let tabs := m_tableaus (dm_method d) in
    let s := m_stages (dm_method d) in
    length tabs = length fs ->
    0 < T -> (forall f, In f fs -> smooth q f t0 y0) -> exact_solution fs t0 y0 T y ->
    exists K, forall (sv : solver I I R) (others : R -> bool) (state : R -> solver_state I) (made_jump : R -> bool),
      sv_parts sv = ode_parts (combine tabs fs) -> exact_root_finder (sv_root_finder sv) ->
      let out h := rk_step sv t0 (t0 + h) y0 (others h) (state h) (made_jump h) in
      (forall h, 0 < h <= T -> coherent (sv_parts sv) t0 y0 (made_jump h) (state h) /\ is_okay (ro_result (out h)) = true) ->
      (forall delta, 0 < delta -> exists h1, 0 < h1 /\ forall h i, 0 < h <= h1 -> (i < s)%nat ->
         bounded (fun x => stage_value s (sv_parts sv) y0 (stages_of (out h)) i x - y0 x) delta) ->
      exists C h0, 0 < h0 /\ forall h theta, 0 < h <= h0 -> 0 <= theta <= 1 ->
        forall x, exists l, derivable_pt_lim (fun t => dense_value (dm_interpolation d) t0 (t0 + h) y0 (out h) t x) (t0 + theta * h) l /\
          Rabs (l - sum_n (length fs) (fun m => nth m fs (fun _ _ _ => 0) (t0 + theta * h) (y (t0 + theta * h)) x)) <= K * eps + C * h ^ q.
  Proof.
    intros d q eps fs t0 y0 T y Hd tabs s LE HT SM EX.
    assert (X : good d q eps /\ 0 <= eps /\ valid_tabsb (stages d) (tabs_of d) = true /\ (0 < q)%nat).
    { assert (P : forall z, (0 < z)%Z -> 0 <= / IZR z) by (intros z Hz; left; apply Rinv_0_lt_compat, IZR_lt; exact Hz).
      clear LE. repeat (destruct Hd as [Hd|Hd]; [injection Hd as <- <- <-;
        (split; [first [exact good_kvaerno3|exact good_kvaerno4|exact good_kvaerno5|exact good_sil3|exact good_kencarp3|exact good_kencarp4|exact good_kencarp5]|]);
        (split; [first [lra|apply P; reflexivity]|]); (split; [vm_compute; reflexivity|lia])|]). destruct Hd. }
    destruct X as (GD & He & VT & HQ). apply good_slope in GD; [|exact He].
    destruct (pf_C68_implicit_step fs q t0 y0 T y HQ HT SM EX) as (K & O).
    exists (K * 10). intros sv others state mj PS RF out OK VAN.
    destruct (valid_tabs (stages d) (tabs_of d) fs LE VT) as (VP & FE). unfold tabs_of in VP, FE. fold tabs in VP, FE. rewrite <- PS in VP, FE.
    destruct (O sv tabs s (dm_interpolation d) (10 * eps) others state mj LE PS VP RF FE ltac:(lra) GD OK VAN) as (C & h0 & H0 & B).
    exists C, h0. split; [exact H0|]. intros h th Hh Hth x. destruct (B h th Hh Hth x) as (l & D & E).
    exists l. split; [exact D|]. eapply Rle_trans; [exact E|]. right. ring.
  Qed.
End Slope.
