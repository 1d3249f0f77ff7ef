(** Linear stability of the implicit Runge--Kutta solvers: C60. *)
From Coq Require Import ZArith Reals QArith Qreals List Bool Arith Lia Lra FunctionalExtensionality.
From Coquelicot Require Import Complex.
From Verif Require Import Model_Result Model_Loop Model_RK Model_Tableaus Model_Terms Model_Orders Model_Solvers Spec_Loop Spec_RK Spec_RKLoop Spec_Order Spec_Convergence
  Spec_Stability Proof_LoopBasic Proof_PropLoop Proof_RKStep Proof_RKProp Proof_RKLoop Proof_OrderCheck Proof_DenseStep Proof_ConvergeLoop Proof_Poly Proof_PolyBall Proof_StabilityPoly.
Import ListNotations.
Open Scope R_scope.

(** ** Sums *)
Lemma sum_csum n f g : (sum_n n f, sum_n n g) = csum n (fun j => (f j, g j)).
Proof. induction n as [|n IH]; cbn; [reflexivity|]. rewrite <- IH. reflexivity. Qed.
Lemma csum_ext n f g : (forall j, (j < n)%nat -> f j = g j) -> csum n f = csum n g.
Proof. intros H. induction n as [|n IH]; cbn; [reflexivity|]. rewrite IH by (intros; apply H; lia). rewrite H by lia. reflexivity. Qed.
Lemma csum_scale n z f : csum n (fun j => Cmult z (f j)) = Cmult z (csum n f).
Proof. induction n as [|n IH]; cbn [csum]; [ring|]. rewrite IH. ring. Qed.
Lemma csum_split n i f : (i < n)%nat -> (forall j, (i < j < n)%nat -> f j = RtoC 0) -> csum n f = Cplus (csum i f) (f i).
Proof.
  induction n as [|n IH]; intros Hi H; [lia|]. destruct (Nat.eq_dec i n) as [->|Hne]; [reflexivity|].
  cbn [csum]. rewrite IH by (try lia; intros; apply H; lia). rewrite (H n) by lia. ring.
Qed.
Lemma sum_only n m f : (m < n)%nat -> (forall j, (j < n)%nat -> j <> m -> f j = 0) -> sum_n n f = f m.
Proof.
  induction n as [|n IH]; intros Hm H; [lia|]. cbn. destruct (Nat.eq_dec m n) as [->|Hne].
  - assert (Z : forall k, (k <= n)%nat -> sum_n k f = 0).
    { induction k as [|k IHk]; intros Hk; cbn; [reflexivity|]. rewrite IHk, (H k) by lia. ring. }
    rewrite Z by lia. ring.
  - rewrite IH by (try lia; intros; apply H; lia). rewrite (H n) by lia. ring.
Qed.

(** ** The stages of one step *)
Lemma esdirk_spec tab s g : esdirk tab s g = true ->
  (2 <= s)%nat /\ 0 < Q2R g /\ coef_a tab 0 0 = 0 /\ (forall i, (0 < i < s)%nat -> coef_a tab i i = Q2R g) /\
  forall j, (j < s)%nat -> coef_b tab j = coef_a tab (s - 1) j.
Proof.
  unfold esdirk. intros H. apply andb_prop in H as (H & B). apply andb_prop in H as (H & D). apply andb_prop in H as (H & A). apply andb_prop in H as (L & P).
  apply Nat.leb_le in L. rewrite forallb_forall in B, D. split; [exact L|].
  split; [|split; [|split]].
  - apply negb_true_iff in P. destruct (Rlt_le_dec 0 (Q2R g)) as [?|N]; [assumption|]. exfalso.
    rewrite <- RMicromega.Q2R_0 in N. apply Rle_Qle in N. apply Qle_bool_iff in N. congruence.
  - apply Qeq_bool_eq, Qeq_eqR in A. rewrite aQ_coef, RMicromega.Q2R_0 in A. exact A.
  - intros i Hi. specialize (D i). rewrite in_seq in D. specialize (D ltac:(lia)). apply Qeq_bool_eq, Qeq_eqR in D. rewrite aQ_coef in D. exact D.
  - intros j Hj. specialize (B j). rewrite in_seq in B. specialize (B ltac:(lia)). apply Qeq_bool_eq, Qeq_eqR in B. rewrite aQ_coef in B. exact B.
Qed.

Lemma last_nth_error {I : Type} (f : R -> (I -> R) -> I -> R) (tabs0 : list tableau) tab m :
  nth_error (ode_parts (combine (tabs0 ++ [tab]) (last_field (length (tabs0 ++ [tab])) f))) m =
  match nth_error tabs0 m with
  | Some t => Some (t, ode_term (fun _ _ _ => 0))
  | None => if (m =? length tabs0)%nat then Some (tab, ode_term f) else None
  end.
Proof.
  unfold last_field. rewrite app_length, Nat.add_sub.
  revert m. induction tabs0 as [|t tabs0 IH]; intros [|m]; cbn; try reflexivity; [destruct m; reflexivity|]. apply IH.
Qed.

Section Step.
  Context {K : Type}.
  Notation Y := (K * bool -> R).
  Variables (tabs0 : list tableau) (tab : tableau) (s : nat) (g : Q) (re im : K -> R).
  Notation parts := (ode_parts (combine (tabs0 ++ [tab]) (last_field (length (tabs0 ++ [tab])) (modes re im)))).
  Hypothesis ES : esdirk tab s g = true.
  Variables (t0 t1 : R) (y0 : Y) (k : nat -> nat -> Y).
  Hypothesis EQ : rk_equations s parts t0 t1 y0 k.

  Lemma parts_length : length parts = S (length tabs0).
  Proof. unfold ode_parts. rewrite map_length, combine_length. unfold last_field. rewrite !app_length, repeat_length. cbn. lia. Qed.
  Lemma other_zero m i x : (m < length tabs0)%nat -> (i < s)%nat -> k m i x = 0.
  Proof.
    intros Hm Hi. destruct (nth_error tabs0 m) as [t|] eqn:E; [|apply nth_error_None in E; lia].
    rewrite (EQ m t (ode_term (fun _ _ _ => 0)) i) by (try assumption; rewrite last_nth_error, E; reflexivity). cbn. ring.
  Qed.
  Lemma only_last (coef : tableau -> nat -> R) x :
    sum_n (length parts) (fun m => match nth_error parts m with Some (tab, _) => sum_n s (fun j => coef tab j * k m j x) | None => 0 end)
    = sum_n s (fun j => coef tab j * k (length tabs0) j x).
  Proof.
    rewrite parts_length, (sum_only _ (length tabs0)); [|lia|].
    2: { intros m Hm Hne. rewrite last_nth_error. destruct (nth_error tabs0 m) as [t|] eqn:E; [|apply nth_error_None in E; lia].
      transitivity (sum_n s (fun _ => 0)); [apply sum_n_ext; intros j Hj; rewrite other_zero by lia; ring|].
      clear. induction s as [|n IH]; cbn; [reflexivity|]. rewrite IH. ring. }
    rewrite last_nth_error. assert (E : nth_error tabs0 (length tabs0) = None) by (apply nth_error_None; lia).
    rewrite E, Nat.eqb_refl. reflexivity.
  Qed.

  Variable q : K.
  Notation h := (t1 - t0).
  Notation val y := ((y (q, false), y (q, true)) : C).
  Notation z := ((h * re q, h * im q) : C).
  Notation st i := (val (stage_value s parts y0 k i)).
  Lemma stage_last j : (j < s)%nat -> val (k (length tabs0) j) = Cmult z (st j).
  Proof.
    intros Hj. assert (E : nth_error parts (length tabs0) = Some (tab, ode_term (modes re im))).
    { rewrite last_nth_error. assert (E : nth_error tabs0 (length tabs0) = None) by (apply nth_error_None; lia). rewrite E, Nat.eqb_refl. reflexivity. }
    rewrite !(EQ _ _ _ j E Hj). cbn. unfold Cmult, modes. cbn [fst snd]. f_equal; ring.
  Qed.
  Lemma stage_sum i : st i = Cplus (val y0) (Cmult z (csum s (fun j => Cmult (RtoC (coef_a tab i j)) (st j)))).
  Proof.
    rewrite <- csum_scale.
    rewrite (csum_ext _ _ (fun j => (coef_a tab i j * k (length tabs0) j (q, false), coef_a tab i j * k (length tabs0) j (q, true)))).
    - rewrite <- sum_csum. unfold stage_value at 1 2. rewrite !(only_last (fun tab => coef_a tab i)). reflexivity.
    - intros j Hj. transitivity (Cmult (RtoC (coef_a tab i j)) (Cmult z (st j))); [ring|]. rewrite <- stage_last by exact Hj. unfold Cmult, RtoC. cbn [fst snd]. f_equal; ring.
  Qed.
  Lemma result_last : val (rk_solution s parts y0 k) = st (s - 1)%nat.
  Proof.
    destruct (esdirk_spec _ _ _ ES) as (_ & _ & _ & _ & B). unfold rk_solution, combination, stage_value. rewrite !(only_last coef_b), !(only_last (fun tab => coef_a tab (s - 1))).
    f_equal; f_equal; apply sum_n_ext; intros j Hj; rewrite B by exact Hj; reflexivity.
  Qed.
  Lemma upper i j : (i < j)%nat -> coef_a tab i j = 0.
  Proof. intros H. unfold coef_a. destruct (Nat.ltb_spec j i); [lia|]. destruct (Nat.eqb_spec j i); [lia|reflexivity]. Qed.
  Notation d := (ceval [1; - Q2R g] z).
  Lemma d_value : d = Cminus (RtoC 1) (Cmult (RtoC (Q2R g)) z).
  Proof. cbn [ceval]. rewrite RtoC_opp. ring. Qed.
  Lemma stage_rec i : (0 < i < s)%nat -> Cmult d (st i) = Cplus (val y0) (Cmult z (csum i (fun j => Cmult (RtoC (coef_a tab i j)) (st j)))).
  Proof.
    intros Hi. destruct (esdirk_spec _ _ _ ES) as (_ & _ & _ & D & _).
    pose proof (stage_sum i) as E. rewrite (csum_split s i) in E by (try lia; intros j Hj; rewrite upper by lia; ring). rewrite D in E by lia.
    rewrite d_value. set (w := st i) in *. set (c := csum i _) in *. set (zz := z) in *. clearbody w c zz.
    transitivity (Cminus w (Cmult (Cmult (RtoC (Q2R g)) zz) w)); [ring|]. rewrite E at 1. ring.
  Qed.
  Lemma stage_zero : st 0%nat = val y0.
  Proof.
    destruct (esdirk_spec _ _ _ ES) as (S2 & _ & A & _ & _).
    rewrite stage_sum, (csum_split s 0) by (try lia; intros j Hj; rewrite upper by lia; ring). rewrite A. cbn [csum]. ring.
  Qed.

  Hypothesis Hre : re q <= 0.
  Hypothesis Hh : t0 <= t1.
  Lemma z_left : h * re q <= 0.
  Proof. rewrite <- (Rmult_0_r h). apply Rmult_le_compat_l; lra. Qed.
  Lemma d_size : Q2R g * Cmod z <= Cmod d /\ 1 <= Cmod d.
  Proof.
    destruct (esdirk_spec _ _ _ ES) as (_ & G & _). pose proof z_left as Z. rewrite d_value. unfold Cmod at 1.
    assert (E : Cmod (Cminus (RtoC 1) (Cmult (RtoC (Q2R g)) z)) = sqrt ((1 - Q2R g * (h * re q)) ^ 2 + (Q2R g * (h * im q)) ^ 2)).
    { unfold Cmod. f_equal. cbn. ring. }
    rewrite E. cbn [fst snd]. set (a := h * re q) in *. set (b := h * im q) in *. clearbody a b. set (gg := Q2R g) in *. clearbody gg. pose proof (Rmult_le_compat_l gg _ _ (Rlt_le _ _ G) Z) as GA. rewrite Rmult_0_r in GA. split.
    - rewrite <- (sqrt_pow2 gg) at 1 by lra. rewrite <- sqrt_mult by (try apply pow2_ge_0; apply Rplus_le_le_0_compat; apply pow2_ge_0).
      apply sqrt_le_1; [apply Rmult_le_pos; [apply pow2_ge_0|apply Rplus_le_le_0_compat; apply pow2_ge_0]|apply Rplus_le_le_0_compat; apply pow2_ge_0|].
      replace ((1 - gg * a) ^ 2 + (gg * b) ^ 2) with (gg ^ 2 * (a ^ 2 + b ^ 2) + (1 - 2 * (gg * a))) by ring. lra.
    - rewrite <- sqrt_1 at 1. apply sqrt_le_1; [lra|apply Rplus_le_le_0_compat; apply pow2_ge_0|].
      pose proof (pow2_ge_0 (gg * b)). pose proof (pow2_ge_0 (gg * a)). replace ((1 - gg * a) ^ 2) with (1 - 2 * (gg * a) + (gg * a) ^ 2) by ring. lra.
  Qed.
  Lemma Cmod_Cpow w n : Cmod (Cpow w n) = Cmod w ^ n.
  Proof. induction n as [|n IH]; cbn [Cpow pow]; [apply Cmod_1|]. rewrite Cmod_mult, IH. reflexivity. Qed.

  Lemma amplification : Cmod d ^ (s - 1) * Cmod (val (rk_solution s parts y0 k)) = Cmod (ceval (numerR tab s g) z) * Cmod (val y0).
  Proof.
    destruct (esdirk_spec _ _ _ ES) as (S2 & _). rewrite result_last.
    assert (N : Cmult (Cpow d (s - 1)) (st (s - 1)%nat) = Cmult (ceval (numerR tab s g) z) (val y0)).
    { unfold numerR. apply (numerators_correct (Q2R g) (coef_a tab) z (val y0) (fun i => st i) (s - 1)).
      - intros E. pose proof d_size as (_ & D). fold d in E. rewrite E, Cmod_0 in D. lra.
      - apply stage_zero.
      - intros i Hi. apply stage_rec. lia.
      - lia.
      - lia. }
    rewrite <- Cmod_Cpow, <- !Cmod_mult, N. reflexivity.
  Qed.

  Lemma step_a prec eps cert : a_stable prec tab s g eps cert = true -> 0 <= Q2R eps ->
    amplitude (rk_solution s parts y0 k) q <= (1 + Q2R eps) * amplitude y0 q.
  Proof.
    intros H HE. pose proof z_left as Z. pose proof (a_stable_correct prec tab s g eps cert (- (h * re q)) (h * im q) H ltac:(lra)) as A.
    rewrite Ropp_involutive in A. pose proof amplification as E. pose proof d_size as (_ & D1).
    change (amplitude (rk_solution s parts y0 k) q) with (Cmod (val (rk_solution s parts y0 k))). change (amplitude y0 q) with (Cmod (val y0)).
    set (dd := Cmod d ^ (s - 1)) in *. set (n := Cmod (ceval (numerR tab s g) z)) in *. set (w := Cmod (val (rk_solution s parts y0 k))) in *. set (v := Cmod (val y0)) in *.
    assert (P : 1 <= dd) by (apply pow_R1_Rle; exact D1).
    assert (N0 : 0 <= n) by apply Cmod_ge_0. assert (V0 : 0 <= v) by apply Cmod_ge_0. clearbody dd n w v. set (e := Q2R eps) in *. clearbody e. clear - A E P N0 V0 HE.
    assert (N : n <= (1 + e) * dd).
    { destruct (Rle_dec n ((1 + e) * dd)) as [?|C]; [assumption|]. exfalso. apply Rnot_le_lt in C.
      assert (Q : ((1 + e) * dd) ^ 2 < n ^ 2).
      { cbn. rewrite !Rmult_1_r. apply Rmult_le_0_lt_compat; try assumption; apply Rmult_le_pos; lra. }
      assert (X : (1 + e) * dd ^ 2 <= ((1 + e) * dd) ^ 2).
      { replace (((1 + e) * dd) ^ 2) with ((1 + e) * ((1 + e) * dd ^ 2)) by ring. apply Rmult_le_compat_l; [lra|]. rewrite <- (Rmult_1_l (dd ^ 2)) at 1. apply Rmult_le_compat_r; [apply pow2_ge_0|lra]. }
      lra. }
    apply Rmult_le_reg_l with dd; [lra|]. rewrite E. eapply Rle_trans; [apply Rmult_le_compat_r; [exact V0|exact N]|]. right. ring.
  Qed.

  Lemma step_l prec eps : l_stable prec tab s g eps = true -> 1 <= h * rate re im q ->
    amplitude (rk_solution s parts y0 k) q <= (Q2R eps + size_sum (numerR tab s g) / Q2R g ^ (s - 1) / (h * rate re im q)) * amplitude y0 q.
  Proof.
    intros H HZ. assert (CZ : Cmod z = h * rate re im q).
    { unfold Cmod, rate. cbn [fst snd]. replace ((h * re q) ^ 2 + (h * im q) ^ 2) with (h ^ 2 * (re q ^ 2 + im q ^ 2)) by ring.
      rewrite sqrt_mult, sqrt_pow2 by (try lra; try apply pow2_ge_0; apply Rplus_le_le_0_compat; apply pow2_ge_0). reflexivity. }
    destruct (esdirk_spec _ _ _ ES) as (S2 & G & _). rewrite <- CZ in *.
    pose proof (l_stable_correct prec tab s g eps z H ltac:(lia) HZ) as L. pose proof amplification as E. pose proof d_size as (DZ & D1).
    change (amplitude (rk_solution s parts y0 k) q) with (Cmod (val (rk_solution s parts y0 k))). change (amplitude y0 q) with (Cmod (val y0)).
    pose proof (size_sum_pos (numerR tab s g)) as M0. cbn [pow] in L.
    assert (DP : (Q2R g * Cmod z) ^ (s - 1) <= Cmod d ^ (s - 1)) by (apply pow_incr; split; [apply Rmult_le_pos; lra|exact DZ]). rewrite Rpow_mult_distr in DP.
    assert (P : 1 <= Cmod d ^ (s - 1)) by (apply pow_R1_Rle; exact D1).
    assert (GP : 0 < Q2R g ^ (s - 1)) by (apply pow_lt; exact G).
    assert (E0 : 0 <= Q2R eps).
    { unfold l_stable in H. apply andb_prop in H as (_ & B). apply Qle_bool_iff, Qle_Rle in B. rewrite Q2R_plus, Q2R_mult, absQ_correct, qpow_correct in B.
      pose proof (nth_rel (numerB prec tab s g) (numerR tab s g) (s - 1) (numer_rel prec tab s g)) as RN. unfold relB in RN.
      set (b := nth (s - 1) (numerB prec tab s g) (exactB 0)) in *. pose proof (Rabs_pos (Q2R (mid b))). pose proof (Rabs_pos (nth (s - 1) (numerR tab s g) 0 - Q2R (mid b))).
      apply Rmult_le_reg_r with (Q2R g ^ (s - 1)); [exact GP|]. lra. }
    set (dd := Cmod d ^ (s - 1)) in *. set (n := Cmod (ceval (numerR tab s g) z)) in *. set (w := Cmod (val (rk_solution s parts y0 k))) in *. set (v := Cmod (val y0)) in *.
    set (x := Cmod z) in *. set (gp := Q2R g ^ (s - 1)) in *. set (xp := x ^ (s - 1)) in *. set (M := size_sum _) in *. set (e := Q2R eps) in *.
    assert (V0 : 0 <= v) by apply Cmod_ge_0. clearbody dd n w v x gp xp M e. clear - L E V0 M0 DP P GP E0 HZ.
    apply Rmult_le_reg_l with (dd * x); [apply Rmult_lt_0_compat; lra|].
    replace (dd * x * w) with (n * x * v) by (transitivity (x * (n * v)); [ring|]; rewrite <- E; ring).
    replace (dd * x * ((e + M / gp / x) * v)) with ((e * x * dd + M / gp * dd) * v) by (field; lra).
    apply Rmult_le_compat_r; [exact V0|]. eapply Rle_trans; [exact L|]. apply Rplus_le_compat.
    - replace (e * gp * (x * xp)) with (e * x * (gp * xp)) by ring. apply Rmult_le_compat_l; [apply Rmult_le_pos; lra|exact DP].
    - replace (M * xp) with (M / gp * (gp * xp)) by (field; lra). apply Rmult_le_compat_l; [|exact DP]. apply Rmult_le_pos; [exact M0|left; apply Rinv_0_lt_compat, GP].
  Qed.
End Step.
