(** Dense output less accurate than documented: quadrature. *)
From Coq Require Import ZArith Reals QArith Qreals Qabs List Bool Arith Lia Lra FunctionalExtensionality.
From Verif Require Import Model_Result Model_RK Model_Tableaus Model_Terms Model_Orders Model_Interp Model_DenseOutput.
From Verif Require Import Spec_RK Spec_Order Spec_DenseOrder Proof_Terms Proof_BSeries Proof_RK Proof_RKProp Proof_RKStep Proof_Order Proof_OrderStep
  Proof_RKShipped Proof_OrderCheck Proof_DenseOrder Proof_DenseCheck Proof_DenseMethods Proof_DenseSolvers Proof_DenseStep Proof_DenseEnds.
Import ListNotations.
Open Scope R_scope.

(** [y' = t ^ n], [y(0) = 0]. *)
Definition power (n : nat) (t : R) (y : unit -> R) : unit -> R := fun _ => t ^ n.
Definition power_solution (n : nat) (t : R) : unit -> R := fun _ => t ^ S n / INR (S n).
Definition power_D (n : nat) (l : list (option unit -> R)) : unit -> R :=
  fun _ => if (length l =? n)%nat then fold_right Rmult 1 (map (fun v => v None) l) else 0.

Lemma prod_app (l l' : list R) : fold_right Rmult 1 (l ++ l') = fold_right Rmult 1 l * fold_right Rmult 1 l'.
Proof. induction l as [|a l IH]; cbn; [ring|rewrite IH; ring]. Qed.
Lemma power_taylor n p : taylor p (power n) 0 (fun _ => 0) (power_D n).
Proof.
  assert (ML : multilinear (power_D n)).
  { intros l l' a b u v x. unfold power_D. rewrite !app_length. cbn [length]. destruct (length l + S (length l') =? n)%nat; [|ring].
    rewrite !map_app, !prod_app. cbn. ring. }
  assert (BM : bounded_map (power_D n)).
  { intros m. exists 1. intros l Bs _ H x. rewrite Rmult_1_l. unfold power_D.
    assert (P : Rabs (fold_right Rmult 1 (map (fun v => v None) l)) <= fold_right Rmult 1 Bs).
    { induction H as [|v B l Bs Hv H IH]; cbn; [rewrite Rabs_pos_eq; lra|]. rewrite Rabs_mult.
      apply Rmult_le_compat; [apply Rabs_pos|apply Rabs_pos|apply (Hv None)|exact IH]. }
    destruct (length l =? n)%nat; [exact P|]. rewrite Rabs_R0. eapply Rle_trans; [apply Rabs_pos|exact P]. }
  assert (T3 : forall q, taylor (S n + q) (power n) 0 (fun _ => 0) (power_D n)).
  { intros q. split; [exact ML|]. split; [exact BM|]. exists 1, 0. split; [lra|]. split; [lra|]. intros v B _ _ x.
    rewrite (sum_n_one (S n + q) n) by (try lia; intros i _ Hi; unfold power_D; rewrite repeat_length; apply Nat.eqb_neq in Hi; rewrite Hi; reflexivity).
    unfold power_D, power. rewrite repeat_length, Nat.eqb_refl, Rplus_0_l.
    replace (fold_right Rmult 1 (map (fun v => v None) (repeat v n))) with (v None ^ n)
      by (clear; induction n as [|n IH]; cbn; [reflexivity|rewrite IH; reflexivity]).
    rewrite Rminus_eq_0, Rabs_R0. lra. }
  destruct (le_lt_dec p (S n)) as [Hp|Hp].
  - apply (taylor_le (S n + 0) p); [lia|apply T3].
  - replace p with (S n + (p - S n))%nat by lia. apply T3.
Qed.
Lemma power_exact n : exact_solution [power n] 0 (fun _ => 0) 1 (power_solution n).
Proof.
  assert (N : 1 <= INR (S n)) by (rewrite S_INR; pose proof (pos_INR n); lra).
  split; [intros x; unfold power_solution; rewrite pow_ne_zero by discriminate; field; lra|]. split.
  - intros eps He. exists (Rmin 1 eps). split; [apply Rmin_pos; lra|]. intros h Hh x.
    pose proof (Rmin_l 1 eps). pose proof (Rmin_r 1 eps). unfold power_solution. rewrite Rplus_0_l, Rminus_0_r.
    assert (P : 0 <= h ^ n <= 1) by (split; [apply pow_le; lra|rewrite <- (pow1 n); apply pow_incr; lra]).
    assert (V : 0 < / INR (S n) <= 1) by (split; [apply Rinv_0_lt_compat; lra|rewrite <- Rinv_1; apply Rinv_le_contravar; lra]).
    cbn [pow]. unfold Rdiv. rewrite Rabs_pos_eq; [|apply Rmult_le_pos; [apply Rmult_le_pos|]; lra].
    apply Rle_trans with (h * 1 * 1); [|lra]. apply Rmult_le_compat; try lra; [apply Rmult_le_pos; lra|]. apply Rmult_le_compat_l; lra.
  - intros h x Hh. cbn [length sum_n nth]. rewrite Rplus_0_l. unfold power, power_solution.
    replace (fun h => (0 + h) ^ S n / INR (S n)) with (mult_real_fct (/ INR (S n)) (fun h => h ^ S n))
      by (extensionality z; unfold mult_real_fct; rewrite Rplus_0_l; unfold Rdiv; ring).
    replace ((0 + h) ^ n) with (/ INR (S n) * (INR (S n) * h ^ n)) by (rewrite Rplus_0_l; field; lra).
    apply derivable_pt_lim_scal. apply (derivable_pt_lim_pow h (S n)).
Qed.

(** The error at the middle of a step, divided by the power of the step size *)
Definition middle_residual (tab : tableau) (s n : nat) (w : tableau -> R -> nat -> R) : R :=
  sum_n s (fun i => w tab (1 / 2) i * coef_c tab i ^ n) - (1 / 2) ^ S n / INR (S n).

Definition coef_cQ (tab : tableau) (i : nat) : Q := match i with O => tab_c1 tab | S i => nth i (tab_c tab) 0%Q end.
Fixpoint powQ (q : Q) (n : nat) : Q := match n with O => 1%Q | S n => Qred (q * powQ q n)%Q end.
Definition middle_Q (tab : tableau) (s n : nat) (W : nat -> nat -> Q) (deg : nat) : Q :=
  sum_Q s (fun i => sum_Q deg (fun j => powQ (1 # 2) j * W j i) * powQ (coef_cQ tab i) n)%Q - powQ (1 # 2) (S n) / inject_Z (Z.of_nat (S n)).

Lemma Q2R_pow q n : Q2R (powQ q n) = Q2R q ^ n.
Proof.
  induction n as [|n IH]; [apply RMicromega.Q2R_1|]. cbn [powQ pow]. rewrite (Qeq_eqR _ _ (Qred_correct _)), Q2R_mult, IH. reflexivity.
Qed.
Lemma Q2R_half : Q2R (1 # 2) = 1 / 2. Proof. unfold Q2R. cbn. lra. Qed.
Lemma coef_cQ_correct tab i : Q2R (coef_cQ tab i) = coef_c tab i.
Proof. destruct i; reflexivity. Qed.
Lemma middle_correct tab s n W deg : Q2R (middle_Q tab s n (W tab) deg) = middle_residual tab s n (fun tab => poly_weight (fun j i => Q2R (W tab j i)) deg).
Proof.
  unfold middle_Q, middle_residual. rewrite Q2R_minus, sum_Q_correct. f_equal.
  - apply sum_n_ext. intros i _. rewrite Q2R_mult, Q2R_pow, coef_cQ_correct, sum_Q_correct. f_equal. unfold poly_weight. apply sum_n_ext. intros j _.
    rewrite Q2R_mult, Q2R_pow, Q2R_half. ring.
  - rewrite Q2R_div by (intros H; apply (f_equal Qnum) in H || idtac; unfold Qeq in H; cbn in H; lia). rewrite Q2R_pow, Q2R_half. unfold Rdiv. f_equal.
    f_equal. unfold Q2R. cbn [Qnum Qden inject_Z]. rewrite INR_IZR_INZ. field.
Qed.

Definition bad (d : dense_method) (tab : tableau) (n : nat) : Prop :=
  exists w, interpolates (dm_interpolation d) [tab] (stages d) w /\ middle_residual tab (stages d) n w <> 0.
Lemma bad_test d tab n W deg : interpolates (dm_interpolation d) [tab] (stages d) (fun tab => poly_weight (fun j i => Q2R (W tab j i)) deg) ->
  Qeq_bool (middle_Q tab (stages d) n (W tab) deg) 0 = false -> bad d tab n.
Proof.
  intros HI H. eexists. split; [exact HI|]. rewrite <- middle_correct. intros E. rewrite <- RMicromega.Q2R_0 in E. apply eqR_Qeq in E.
  apply Qeq_bool_neq in H. contradiction.
Qed.
Lemma bad_midpoint : bad midpoint_dense midpoint_tableau 1.
Proof. eapply bad_test; [apply hermite_interpolates; vm_compute; lia|vm_compute; reflexivity]. Qed.
Lemma bad_ralston : bad ralston_dense ralston_tableau 1.
Proof. eapply bad_test; [apply hermite_interpolates; vm_compute; lia|vm_compute; reflexivity]. Qed.
Lemma bad_dopri5 : bad dopri5_dense dopri5_tableau 4.
Proof. eapply bad_test; [apply fourth_interpolates; [vm_compute; lia|reflexivity]|vm_compute; reflexivity]. Qed.
Lemma bad_tsit5 : bad tsit5_dense tsit5_tableau 4.
Proof. eapply bad_test; [apply tsit5_interpolates|vm_compute; reflexivity]. Qed.
Lemma bad_dopri8 : bad dopri8_dense dopri8_tableau 5.
Proof. eapply bad_test; [apply dopri8_interpolates|vm_compute; reflexivity]. Qed.

Lemma pf_C58_documented_refuted : forall (d : dense_method) (n : nat) (tab : tableau) (sv : solver unit unit R),
  In (d, n) [(midpoint_dense, 1%nat); (ralston_dense, 1%nat); (dopri5_dense, 4%nat); (tsit5_dense, 4%nat); (dopri8_dense, 5%nat)] ->
  m_tableaus (dm_method d) = [tab] ->
  let f : R -> (unit -> R) -> unit -> R := fun t _ _ => t ^ n in
  let y : R -> unit -> R := fun t _ => t ^ (n + 1) / INR (n + 1) in
  sv_parts sv = [(tab, ode_term f)] ->
  (n + 1 <= dm_documented d)%nat /\ (forall p, smooth p f 0 (fun _ => 0)) /\ exact_solution [f] 0 (fun _ => 0) 1 y /\
  forall C h0, 0 < h0 -> exists h, 0 < h <= h0 /\
    let out := rk_step sv 0 h (fun _ => 0) false None false in
    C * h ^ (n + 2) < Rabs (dense_value (dm_interpolation d) 0 h (fun _ => 0) out (h / 2) tt - y (h / 2) tt).
Proof.
  intros d n tab sv Hd Ht f y PS. unfold y. replace (n + 1)%nat with (S n) by lia. replace (n + 2)%nat with (S (S n)) by lia.
  assert (X : bad d tab n /\ valid_tabsb (stages d) [tab] = true /\ implicit tab = false /\ (S n <= dm_documented d)%nat).
  { clear PS. repeat (destruct Hd as [Hd|Hd]; [injection Hd as <- <-; cbn in Ht; injection Ht as <-;
      (split; [lazymatch goal with |- bad midpoint_dense _ _ => exact bad_midpoint | |- bad ralston_dense _ _ => exact bad_ralston | |- bad dopri5_dense _ _ => exact bad_dopri5
        | |- bad tsit5_dense _ _ => exact bad_tsit5 | |- bad dopri8_dense _ _ => exact bad_dopri8 end|]);
      (split; [vm_compute; reflexivity|]); (split; [vm_compute; reflexivity|]); vm_compute; lia|]). destruct Hd. }
  destruct X as ((w & IN & NZ) & VT & NI & DO).
  split; [exact DO|]. split; [intros p; exists (power_D n); apply power_taylor|]. split; [apply power_exact|].
  intros C h0 H0. set (r := middle_residual tab (stages d) n w) in *.
  assert (PS' : sv_parts sv = ode_parts (combine [tab] [f])) by exact PS.
  destruct (valid_tabs (stages d) [tab] [f] eq_refl VT) as (VP & FE). rewrite <- PS' in VP, FE.
  assert (XP : explicit_parts (sv_parts sv)) by (rewrite PS; intros tab' m' [Eq|[]]; injection Eq as <- <-; exact NI).
  assert (V : forall h, 0 < h -> dense_value (dm_interpolation d) 0 h (fun _ => 0) (rk_step sv 0 h (fun _ => 0) false None false) (h / 2) tt
      - (h / 2) ^ S n / INR (S n) = r * h ^ S n).
  { intros h Hh. assert (E0 : 0 + h = h) by ring. set (out := rk_step sv 0 h (fun _ => 0) false None false).
    pose proof (pf_C28_step sv (stages d) 0 (0 + h) (fun _ => 0) false None false VP XP FE Logic.I) as Z. rewrite E0 in Z. destruct Z as ((k & Hk) & H).
    destruct (H k Hk) as (_ & _ & Hs & OK). fold out in Hs, OK.
    pose proof (dense_step_value sv (stages d) [tab] [f] (dm_interpolation d) w 0 h (fun _ => 0) false None false eq_refl PS' VP FE IN Hh Logic.I
      (or_intror (explicit_none sv XP))) as DV. rewrite E0 in DV. fold out in DV. specialize (DV ltac:(rewrite OK; reflexivity) (1 / 2) tt).
    replace (0 + 1 / 2 * h) with (h / 2) in DV by field. rewrite DV. cbn [length sum_n]. rewrite !Rplus_0_l.
    assert (SV : forall i, (i < stages d)%nat -> stages_of out 0 i tt = h * (coef_c tab i * h) ^ n).
    { intros i Hi. unfold stages_of. rewrite Hs by (try exact Hi; rewrite PS; cbn; lia).
      assert (NE : nth_error (sv_parts sv) 0 = Some (tab, ode_term f)) by (rewrite PS; reflexivity).
      rewrite (Hk 0%nat tab (ode_term f) i NE Hi tt). cbn. unfold f. rewrite Rplus_0_l, Rminus_0_r. ring. }
    unfold r, middle_residual. rewrite (sum_n_ext _ _ (fun i => (w tab (1 / 2) i * coef_c tab i ^ n) * h ^ S n)).
    - rewrite <- sum_n_scale_r. replace (h / 2) with (1 / 2 * h) by field. rewrite Rpow_mult_distr. unfold Rdiv. ring.
    - intros i Hi. rewrite SV by exact Hi. change (part_tableau [tab] 0) with tab. rewrite Rpow_mult_distr. cbn [pow]. ring. }
  assert (RP : 0 < Rabs r) by (apply Rabs_pos_lt, NZ).
  set (C' := Rabs C + 1). assert (CP : 0 < C') by (unfold C'; pose proof (Rabs_pos C); lra).
  exists (Rmin h0 (Rabs r / C')). assert (HH : 0 < Rmin h0 (Rabs r / C')) by (apply Rmin_pos; [lra|apply Rdiv_lt_0_compat; lra]).
  pose proof (Rmin_l h0 (Rabs r / C')). pose proof (Rmin_r h0 (Rabs r / C')). set (h := Rmin h0 (Rabs r / C')) in *. split; [lra|].
  cbv zeta. rewrite V by exact HH. rewrite Rabs_mult, (Rabs_pos_eq (h ^ S n)) by (apply pow_le; lra).
  change (h ^ S (S n)) with (h * h ^ S n). assert (P : 0 < h ^ S n) by (apply pow_lt; lra).
  rewrite <- Rmult_assoc. apply Rmult_lt_compat_r; [exact P|].
  assert (C' * h <= Rabs r).
  { apply Rle_trans with (C' * (Rabs r / C')); [apply Rmult_le_compat_l; lra|]. right. field. lra. }
  apply Rlt_le_trans with (C' * h); [|assumption]. apply Rmult_lt_compat_r; [exact HH|]. unfold C'. pose proof (Rle_abs C). lra.
Qed.
