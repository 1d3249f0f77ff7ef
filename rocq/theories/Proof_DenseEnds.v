(** The dense output at the ends of a step. *)
From Coq Require Import ZArith Reals QArith Qreals Qabs List Bool Arith Lia Lra.
From Verif Require Import Model_Result Model_RK Model_Tableaus Model_Terms Model_Orders Model_Interp Model_DenseOutput.
From Verif Require Import Spec_RK Spec_Order Spec_DenseOrder Proof_Terms Proof_BSeries Proof_RK Proof_RKProp Proof_RKStep Proof_Order Proof_OrderStep
  Proof_RKShipped Proof_OrderCheck Proof_DenseOrder Proof_DenseCheck Proof_DenseMethods Proof_DenseSolvers Proof_DenseStep.
Import ListNotations.
Open Scope R_scope.

Fixpoint sum_Q (n : nat) (f : nat -> Q) : Q := match n with O => 0%Q | S n => Qred (sum_Q n f + f n)%Q end.
Lemma sum_Q_correct n f : Q2R (sum_Q n f) = sum_n n (fun i => Q2R (f i)).
Proof.
  induction n as [|n IH]; cbn [sum_Q sum_n]; [apply RMicromega.Q2R_0|]. rewrite (Qeq_eqR _ _ (Qred_correct _)), Q2R_plus, IH. reflexivity.
Qed.

Definition ends_test (tabs : list tableau) (s : nat) (W : tableau -> nat -> nat -> Q) (deg : nat) (e : Q) : bool :=
  forallb (fun tab => forallb (fun i =>
    Qeq_bool (W tab 0%nat i) 0%Q && Qle_bool (Qabs (sum_Q deg (fun j => W tab j i) - nth i (tab_b_sol tab) 0%Q)) e) (seq 0 s)) tabs.

Definition at_ends (d : dense_method) (eps : R) : Prop :=
  exists w, interpolates (dm_interpolation d) (tabs_of d) (stages d) w /\
    forall c i, (c < length (tabs_of d))%nat -> (i < stages d)%nat ->
      w (part_tableau (tabs_of d) c) 0 i = 0 /\ Rabs (w (part_tableau (tabs_of d) c) 1 i - coef_b (part_tableau (tabs_of d) c) i) <= eps.

Lemma poly_weight_0 W d i : W 0%nat i = 0 -> poly_weight W d 0 i = 0.
Proof.
  intros H. unfold poly_weight. apply Proof_RKStep.sum_n_0. intros [|j] _; [rewrite H; ring|].
  rewrite pow_ne_zero by discriminate. ring.
Qed.
Lemma poly_weight_1 W d i : poly_weight W d 1 i = sum_n d (fun j => W j i).
Proof. unfold poly_weight. apply sum_n_ext. intros j _. rewrite pow1. ring. Qed.

Lemma at_ends_test d W deg e : interpolates (dm_interpolation d) (tabs_of d) (stages d) (fun tab => poly_weight (fun j i => Q2R (W tab j i)) deg) ->
  ends_test (tabs_of d) (stages d) W deg e = true -> at_ends d (Q2R e).
Proof.
  intros HI H. eexists. split; [exact HI|]. intros c i Hc Hi. cbv beta. unfold ends_test in H. rewrite forallb_forall in H.
  assert (HT : In (part_tableau (tabs_of d) c) (tabs_of d)) by (apply nth_In, Hc).
  generalize dependent (part_tableau (tabs_of d) c). intros tab HT. specialize (H _ HT). rewrite forallb_forall in H.
  specialize (H i ltac:(apply in_seq; lia)). apply andb_prop in H as (H1 & H2). apply Qeq_bool_eq in H1. apply Qle_bool_iff in H2. split.
  - apply poly_weight_0. rewrite H1 || rewrite (Qeq_eqR _ _ H1). apply RMicromega.Q2R_0.
  - rewrite poly_weight_1. unfold coef_b. rewrite <- (sum_Q_correct deg (fun j => W tab j i)), <- Q2R_minus.
    apply Qabs_Qle_condition in H2 as (A & B). apply Qle_Rle in A, B. rewrite Q2R_opp in A. apply Rabs_le. split; assumption.
Qed.

Lemma at_ends_le d e b : (0 < b)%Z -> (1 * Qnum e * b <=? Zpos (Qden e))%Z = true -> at_ends d (Q2R e) -> at_ends d (/ IZR b).
Proof.
  intros Hb H (w & HI & HW). exists w. split; [exact HI|]. intros c i Hc Hi. destruct (HW c i Hc Hi) as (H0 & H1). split; [exact H0|].
  eapply Rle_trans; [exact H1|]. pose proof (small_eps 1 e b Hb H) as S. cbn [INR] in S. rewrite Rmult_1_l in S. exact S.
Qed.
Lemma ends_hermite d tab : tabs_of d = [tab] -> dm_interpolation d = hermite_from_k -> (0 < stages d)%nat ->
  ends_test (tabs_of d) (stages d) (fun tab => hermite_W (tab_b_sol tab) (stages d)) 4 0%Q = true -> at_ends d 0.
Proof.
  intros Ht Hi Hs H. rewrite <- RMicromega.Q2R_0. eapply at_ends_test; [|exact H]. rewrite Ht, Hi. apply hermite_interpolates, Hs.
Qed.
Ltac hermite := eapply ends_hermite; [reflexivity|reflexivity|vm_compute; lia|vm_compute; reflexivity].
Lemma ends_heun : at_ends heun_dense 0. Proof. hermite. Qed.
Lemma ends_midpoint : at_ends midpoint_dense 0. Proof. hermite. Qed.
Lemma ends_ralston : at_ends ralston_dense 0. Proof. hermite. Qed.
Lemma ends_bosh3 : at_ends bosh3_dense 0. Proof. hermite. Qed.
Lemma ends_kvaerno3 : at_ends kvaerno3_dense 0. Proof. hermite. Qed.
Lemma ends_kvaerno4 : at_ends kvaerno4_dense 0. Proof. hermite. Qed.
Lemma ends_kvaerno5 : at_ends kvaerno5_dense 0. Proof. hermite. Qed.
Lemma ends_dopri5 : at_ends dopri5_dense 0.
Proof. rewrite <- RMicromega.Q2R_0. eapply at_ends_test; [apply (fourth_interpolates dopri5_tableau); [vm_compute; lia|reflexivity]|vm_compute; reflexivity]. Qed.
Lemma ends_sil3 : at_ends sil3_dense 0.
Proof. rewrite <- RMicromega.Q2R_0. eapply at_ends_test; [apply (sil3_interpolates sil3_explicit_tableau sil3_implicit_tableau); vm_compute; lia|vm_compute; reflexivity]. Qed.
Lemma ends_tsit5 : at_ends tsit5_dense (/ IZR (10 ^ 16)).
Proof. apply (at_ends_le _ (1 # 10 ^ 16)); [reflexivity|vm_compute; reflexivity|]. eapply at_ends_test; [apply (tsit5_interpolates tsit5_tableau)|vm_compute; reflexivity]. Qed.
Lemma ends_dopri8 : at_ends dopri8_dense (/ IZR (10 ^ 12)).
Proof. apply (at_ends_le _ (1 # 10 ^ 12)); [reflexivity|vm_compute; reflexivity|]. eapply at_ends_test; [apply (dopri8_interpolates dopri8_tableau)|vm_compute; reflexivity]. Qed.
Ltac rows := intros row H; repeat (destruct H as [<-|H]; [reflexivity|]); destruct H.
Lemma ends_kencarp3 : at_ends kencarp3_dense (/ IZR (10 ^ 25)).
Proof. apply (at_ends_le _ (1 # 10 ^ 25)); [reflexivity|vm_compute; reflexivity|]. eapply at_ends_test; [apply (kencarp_interpolates kencarp3_coeffs 2); [reflexivity|rows]|vm_compute; reflexivity]. Qed.
Lemma ends_kencarp4 : at_ends kencarp4_dense (/ IZR (10 ^ 25)).
Proof. apply (at_ends_le _ (1 # 10 ^ 25)); [reflexivity|vm_compute; reflexivity|]. eapply at_ends_test; [apply (kencarp_interpolates kencarp4_coeffs 3); [reflexivity|rows]|vm_compute; reflexivity]. Qed.
Lemma ends_kencarp5 : at_ends kencarp5_dense (/ IZR (10 ^ 23)).
Proof. apply (at_ends_le _ (1 # 10 ^ 23)); [reflexivity|vm_compute; reflexivity|]. eapply at_ends_test; [apply (kencarp_interpolates kencarp5_coeffs 3); [reflexivity|rows]|vm_compute; reflexivity]. Qed.

Lemma sum_n_Rabs n f : Rabs (sum_n n f) <= sum_n n (fun i => Rabs (f i)).
Proof.
  induction n as [|n IH]; cbn [sum_n]; [rewrite Rabs_R0; lra|]. eapply Rle_trans; [apply Rabs_triang|]. lra.
Qed.

Lemma sum_n_le n f g : (forall i, (i < n)%nat -> f i <= g i) -> sum_n n f <= sum_n n g.
Proof. induction n as [|n IH]; intros H; cbn [sum_n]; [lra|]. apply Rplus_le_compat; [apply IH; intros i Hi; apply H; lia|apply H; lia]. Qed.

Lemma pf_C38_shipped_ends : forall (I : Type) (d : dense_method) (eps : R) (fs : list (R -> (I -> R) -> I -> R)) (sv : solver I I R)
    (t0 h : R) (y0 : I -> R) (others : bool) (state : solver_state I) (made_jump : bool),
  In (d, eps) [(heun_dense, 0); (midpoint_dense, 0); (ralston_dense, 0); (bosh3_dense, 0); (dopri5_dense, 0);
               (kvaerno3_dense, 0); (kvaerno4_dense, 0); (kvaerno5_dense, 0); (sil3_dense, 0);
               (tsit5_dense, / IZR (10 ^ 16)); (dopri8_dense, / IZR (10 ^ 12));
               (kencarp3_dense, / IZR (10 ^ 25)); (kencarp4_dense, / IZR (10 ^ 25)); (kencarp5_dense, / IZR (10 ^ 23))] ->
  length (m_tableaus (dm_method d)) = length fs -> sv_parts sv = ode_parts (combine (m_tableaus (dm_method d)) fs) ->
  exact_root_finder (sv_root_finder sv) -> coherent (sv_parts sv) t0 y0 made_jump state -> 0 < h ->
  let out := rk_step sv t0 (t0 + h) y0 others state made_jump in
  is_okay (ro_result out) = true ->
  forall x, dense_value (dm_interpolation d) t0 (t0 + h) y0 out t0 x = y0 x /\
    Rabs (dense_value (dm_interpolation d) t0 (t0 + h) y0 out (t0 + h) x - ro_y out x)
    <= eps * sum_n (length fs) (fun m => sum_n (m_stages (dm_method d)) (fun i => Rabs (stages_of out m i x))).
Proof.
  intros I d eps fs sv t0 h y0 others state mj Hd LE PS RF CO Hh out OK x.
  assert (X : at_ends d eps /\ valid_tabsb (stages d) (tabs_of d) = true).
  { clear LE PS. repeat (destruct Hd as [Hd|Hd]; [injection Hd as <- <-;
      (split; [first [exact ends_heun|exact ends_midpoint|exact ends_ralston|exact ends_bosh3|exact ends_dopri5|exact ends_kvaerno3|exact ends_kvaerno4
        |exact ends_kvaerno5|exact ends_sil3|exact ends_tsit5|exact ends_dopri8|exact ends_kencarp3|exact ends_kencarp4|exact ends_kencarp5]|]);
      vm_compute; reflexivity|]). destruct Hd. }
  destruct X as ((w & IN & HW) & VT).
  destruct (valid_tabs (stages d) (tabs_of d) fs LE VT) as (VP & FE). unfold tabs_of in VP, FE. rewrite <- PS in VP, FE.
  pose proof (dense_step_value sv (stages d) (m_tableaus (dm_method d)) fs (dm_interpolation d) w t0 h y0 others state mj LE PS VP FE IN Hh CO (or_introl RF)) as DV.
  fold out in DV. specialize (DV OK). unfold tabs_of in HW. rewrite LE in HW. split.
  - replace t0 with (t0 + 0 * h) at 3 by ring. rewrite DV, Proof_RKStep.sum_n_0; [ring|]. intros c Hc.
    apply Proof_RKStep.sum_n_0. intros i Hi. rewrite (proj1 (HW c i Hc Hi)). ring.
  - replace (t0 + h) with (t0 + 1 * h) at 2 by ring. rewrite DV.
    pose proof (step_y_value sv (stages d) (m_tableaus (dm_method d)) fs t0 h y0 others state mj LE PS VP FE CO (or_introl RF) OK x) as YV.
    fold out in YV. rewrite YV, LE.
    match goal with |- Rabs (?a + ?b - (?a + ?c)) <= _ => replace (a + b - (a + c)) with (b + (-1) * c) by ring end.
    rewrite <- sum_n_mult, <- Proof_Terms.sum_n_plus.
    eapply Rle_trans; [apply sum_n_Rabs|]. rewrite <- sum_n_mult. apply sum_n_le. intros c Hc.
    rewrite <- sum_n_mult, <- Proof_Terms.sum_n_plus.
    eapply Rle_trans; [apply sum_n_Rabs|]. rewrite <- sum_n_mult. apply sum_n_le. intros i Hi.
    match goal with |- Rabs (?u * ?z + -1 * (?v * ?z)) <= _ => replace (u * z + -1 * (v * z)) with ((u - v) * z) by ring end.
    rewrite Rabs_mult. apply Rmult_le_compat_r; [apply Rabs_pos|]. apply (HW c i Hc Hi).
Qed.
