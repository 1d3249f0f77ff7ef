(** Coefficients of the Langevin solvers: the Taylor polynomials approximate the direct formulas. *)
From Coq Require Import Reals List Bool Lia Lra Psatz.
From Coquelicot Require Import Coquelicot.
From Verif Require Import Model_Langevin Spec_Langevin Proof_SRKTest.
Import ListNotations.
Open Scope R_scope.

Lemma Derive_n_expz (z : R) (k : nat) : forall t, Derive_n (fun t => exp (z * t)) k t = z ^ k * exp (z * t).
Proof.
  induction k; intros t; [cbn; ring|]. cbn [Derive_n]. rewrite (Derive_ext _ _ t IHk).
  apply is_derive_unique. auto_derive; [auto|]. cbn [pow]. ring.
Qed.
Lemma ex_derive_n_expz (z : R) (k : nat) t : ex_derive_n (fun t => exp (z * t)) k t.
Proof.
  destruct k; [exact I|]. cbn [ex_derive_n].
  apply (ex_derive_ext (fun t => z ^ k * exp (z * t))); [intros; symmetry; apply Derive_n_expz|]. auto_derive. auto.
Qed.
Lemma taylor_sum (k : nat) (z : R) :
  sum_f_R0 (fun m => (1 - 0) ^ m / INR (fact m) * Derive_n (fun t => exp (z * t)) m 0) k = taylor (S k) z.
Proof.
  induction k; cbn [sum_f_R0 taylor].
  - rewrite Derive_n_expz. rewrite Rmult_0_r, exp_0. cbn. field.
  - rewrite IHk. cbn [taylor]. f_equal. rewrite Derive_n_expz, Rmult_0_r, exp_0, Rminus_0_r, pow1. unfold Rdiv. ring.
Qed.
Lemma exp_remainder (k : nat) (z : R) : Rabs z <= 1 -> Rabs (exp z - taylor (S k) z) <= 3 * Rabs z ^ S k / INR (fact (S k)).
Proof.
  intros Hz.
  destruct (Taylor_Lagrange (fun t => exp (z * t)) k 0 1 Rlt_0_1) as (zeta & Hzeta & Eq).
  { intros t Ht m Hm. apply ex_derive_n_expz. }
  rewrite Rmult_1_r, taylor_sum, Derive_n_expz in Eq. rewrite Eq.
  replace (_ - _) with ((1 - 0) ^ S k / INR (fact (S k)) * (z ^ S k * exp (z * zeta))) by ring.
  assert (Hf : 0 < INR (fact (S k))) by apply INR_fact_lt_0.
  rewrite Rminus_0_r, pow1. unfold Rdiv. rewrite Rmult_1_l, Rabs_mult, (Rabs_mult (z ^ S k)), <- RPow_abs.
  rewrite (Rabs_pos_eq (/ _)) by (left; apply Rinv_0_lt_compat; exact Hf).
  rewrite (Rabs_pos_eq (exp _)) by (left; apply exp_pos).
  assert (exp (z * zeta) <= 3).
  { eapply Rle_trans; [|exact exp_le_3].
    assert (z * zeta <= 1) by (pose proof (Rle_abs z); nra).
    destruct (Req_dec (z * zeta) 1) as [->|]; [lra|]. left. apply exp_increasing. lra. }
  assert (0 <= Rabs z ^ S k) by (apply pow_le, Rabs_pos).
  assert (0 <= / INR (fact (S k))) by (left; apply Rinv_0_lt_compat; exact Hf).
  rewrite (Rmult_comm (/ _)). apply Rmult_le_compat_r; [assumption|]. rewrite Rmult_comm. apply Rmult_le_compat_r; assumption.
Qed.

(** What is used of it: the polynomials written out *)
Lemma exp_rem6 z : Rabs z <= 1 -> Rabs (exp z - (1 + z + z ^ 2 / 2 + z ^ 3 / 6 + z ^ 4 / 24 + z ^ 5 / 120)) <= Rabs z ^ 6 / 240.
Proof.
  intros Hz. pose proof (exp_remainder 5 z Hz) as H. cbv [taylor] in H.
  replace (1 + z + z ^ 2 / 2 + z ^ 3 / 6 + z ^ 4 / 24 + z ^ 5 / 120) with
    (0 + z ^ 0 / INR (fact 0) + z ^ 1 / INR (fact 1) + z ^ 2 / INR (fact 2) + z ^ 3 / INR (fact 3) + z ^ 4 / INR (fact 4) + z ^ 5 / INR (fact 5))
    by (cbn -[pow]; field).
  eapply Rle_trans; [exact H|]. right. set (a := Rabs z). cbn -[pow]. field.
Qed.
Lemma exp_rem7 z : Rabs z <= 1 -> Rabs (exp z - (1 + z + z ^ 2 / 2 + z ^ 3 / 6 + z ^ 4 / 24 + z ^ 5 / 120 + z ^ 6 / 720)) <= Rabs z ^ 7 / 1680.
Proof.
  intros Hz. pose proof (exp_remainder 6 z Hz) as H. cbv [taylor] in H.
  replace (1 + z + z ^ 2 / 2 + z ^ 3 / 6 + z ^ 4 / 24 + z ^ 5 / 120 + z ^ 6 / 720) with
    (0 + z ^ 0 / INR (fact 0) + z ^ 1 / INR (fact 1) + z ^ 2 / INR (fact 2) + z ^ 3 / INR (fact 3) + z ^ 4 / INR (fact 4) + z ^ 5 / INR (fact 5) + z ^ 6 / INR (fact 6))
    by (simpl fact; rewrite !INR_IZR_INZ; cbn -[pow IZR]; field).
  eapply Rle_trans; [exact H|]. right. set (a := Rabs z). simpl fact. rewrite !INR_IZR_INZ. cbn -[pow IZR]. field.
Qed.
Lemma INR_fact_S n : INR (fact (S n)) = INR (S n) * INR (fact n).
Proof. rewrite fact_simpl, mult_INR. reflexivity. Qed.
Ltac facts := repeat rewrite INR_fact_S; change (INR (fact 0)) with 1; rewrite ?INR_IZR_INZ; cbn [Z.of_nat Pos.of_succ_nat Pos.succ].
Lemma exp_rem8 z : Rabs z <= 1 ->
  Rabs (exp z - (1 + z + z ^ 2 / 2 + z ^ 3 / 6 + z ^ 4 / 24 + z ^ 5 / 120 + z ^ 6 / 720 + z ^ 7 / 5040)) <= Rabs z ^ 8 / 13440.
Proof.
  intros Hz. pose proof (exp_remainder 7 z Hz) as H. cbv [taylor] in H.
  replace (1 + z + z ^ 2 / 2 + z ^ 3 / 6 + z ^ 4 / 24 + z ^ 5 / 120 + z ^ 6 / 720 + z ^ 7 / 5040) with
    (0 + z ^ 0 / INR (fact 0) + z ^ 1 / INR (fact 1) + z ^ 2 / INR (fact 2) + z ^ 3 / INR (fact 3) + z ^ 4 / INR (fact 4) + z ^ 5 / INR (fact 5) + z ^ 6 / INR (fact 6) + z ^ 7 / INR (fact 7))
    by (facts; field).
  eapply Rle_trans; [exact H|]. right. set (a := Rabs z). facts. field.
Qed.
Lemma exp_rem9 z : Rabs z <= 1 ->
  Rabs (exp z - (1 + z + z ^ 2 / 2 + z ^ 3 / 6 + z ^ 4 / 24 + z ^ 5 / 120 + z ^ 6 / 720 + z ^ 7 / 5040 + z ^ 8 / 40320)) <= Rabs z ^ 9 / 120960.
Proof.
  intros Hz. pose proof (exp_remainder 8 z Hz) as H. cbv [taylor] in H.
  replace (1 + z + z ^ 2 / 2 + z ^ 3 / 6 + z ^ 4 / 24 + z ^ 5 / 120 + z ^ 6 / 720 + z ^ 7 / 5040 + z ^ 8 / 40320) with
    (0 + z ^ 0 / INR (fact 0) + z ^ 1 / INR (fact 1) + z ^ 2 / INR (fact 2) + z ^ 3 / INR (fact 3) + z ^ 4 / INR (fact 4) + z ^ 5 / INR (fact 5) + z ^ 6 / INR (fact 6) + z ^ 7 / INR (fact 7) + z ^ 8 / INR (fact 8))
    by (facts; field).
  eapply Rle_trans; [exact H|]. right. set (a := Rabs z). facts. field.
Qed.

(** Division by non-zero numbers in bounds *)
Lemma bound_div (x b d : R) : d <> 0 -> Rabs x <= b -> Rabs (x / d) <= b / Rabs d.
Proof.
  intros Hd Hx. unfold Rdiv. rewrite Rabs_mult, Rabs_inv. apply Rmult_le_compat_r; [|exact Hx].
  left. apply Rinv_0_lt_compat, Rabs_pos_lt. exact Hd.
Qed.
Ltac poly := cbv [eval_taylor fl_map fl_tay polyval fold_left align_map al_beta al_a1 al_b1 al_aa al_chh align_tay align_direct
  should_map should_tay should_direct sh_beta_half sh_a_half sh_b_half sh_beta1 sh_a1 sh_b1 sh_aa sh_chh sh_ckk].

Section Leaf.
  Context (h c : R).
  Hypothesis Hal : Rabs (c * h) <= 1.
  Hypothesis Hne : c * h <> 0.
  Lemma c_ne : c <> 0. Proof. intros ->. apply Hne. ring. Qed.
  Lemma h_ne : h <> 0. Proof. intros ->. apply Hne. ring. Qed.
  (** A coefficient [(e^(-q al) - T) m / (d al^j c)], [T] the polynomial in use. *)
  Lemma abs_al : Rabs (- (c * h)) <= 1. Proof. rewrite Rabs_Ropp. exact Hal. Qed.

  (** With [z] times the step size, for [0 < z <= 1] *)
  Context (z : R).
  Hypothesis Hz : 0 < z <= 1.
  Lemma abs_zal : Rabs (- (z * (c * h))) <= 1.
  Proof. rewrite Rabs_Ropp, Rabs_mult, (Rabs_pos_eq z) by lra. pose proof (Rabs_pos (c * h)). nra. Qed.
  Lemma pow_z (k : nat) : 0 <= z ^ k <= 1.
  Proof. split; [apply pow_le; lra|]. rewrite <- (pow1 k). apply pow_incr. lra. Qed.
  Lemma rabs_zal (k : nat) : Rabs (- (z * (c * h))) ^ k <= Rabs (c * h) ^ k.
  Proof.
    rewrite Rabs_Ropp, Rabs_mult, (Rabs_pos_eq z) by lra. apply pow_incr. pose proof (Rabs_pos (c * h)).
    split; [apply Rmult_le_pos; lra|nra].
  Qed.

  (** [beta], [a] and [b] at the fraction [z] of the step *)
  Definition p_beta := 1 - c * z * h + c ^ 2 * z ^ 2 / 2 * h ^ 2 - c ^ 3 * z ^ 3 / 6 * h ^ 3 + c ^ 4 * z ^ 4 / 24 * h ^ 4 - c ^ 5 * z ^ 5 / 120 * h ^ 5.
  Definition p_a := z * h - c * z ^ 2 / 2 * h ^ 2 + c ^ 2 * z ^ 3 / 6 * h ^ 3 - c ^ 3 * z ^ 4 / 24 * h ^ 4 + c ^ 4 * z ^ 5 / 120 * h ^ 5.
  Definition p_b := z ^ 2 / 2 * h - c * z ^ 3 / 6 * h ^ 2 + c ^ 2 * z ^ 4 / 24 * h ^ 3 - c ^ 3 * z ^ 5 / 120 * h ^ 4 + c ^ 4 * z ^ 6 / 720 * h ^ 5.
  Definition p_aa := 1 - c / 2 * h + c ^ 2 / 6 * h ^ 2 - c ^ 3 / 24 * h ^ 3 + c ^ 4 / 120 * h ^ 4 - c ^ 5 / 720 * h ^ 5.
  Definition p_chh := h - c / 2 * h ^ 2 + 3 * c ^ 2 / 20 * h ^ 3 - c ^ 3 / 30 * h ^ 4 + c ^ 4 / 168 * h ^ 5.
  Definition p_ckk := - c * h ^ 2 + c ^ 2 / 2 * h ^ 3 - c ^ 3 / 7 * h ^ 4 + 5 * c ^ 4 / 168 * h ^ 5.

  Lemma beta_bound : Rabs (p_beta - exp (- (z * (c * h)))) <= Rabs (c * h) ^ 6 / 240.
  Proof.
    pose proof (exp_rem6 _ abs_zal) as H. rewrite Rabs_minus_sym. pose proof (rabs_zal 6).
    replace p_beta with (1 + - (z * (c * h)) + (- (z * (c * h))) ^ 2 / 2 + (- (z * (c * h))) ^ 3 / 6 + (- (z * (c * h))) ^ 4 / 24 + (- (z * (c * h))) ^ 5 / 120)
      by (unfold p_beta; field).
    eapply Rle_trans; [exact H|]. lra.
  Qed.
  Lemma a_bound : Rabs (p_a - (1 - exp (- (z * (c * h)))) / c) <= Rabs h * Rabs (c * h) ^ 5 / 240.
  Proof.
    pose proof c_ne.
    replace (p_a - _) with (- (p_beta - exp (- (z * (c * h)))) / c) by (unfold p_beta, p_a; field; assumption).
    eapply Rle_trans; [apply bound_div; [assumption|rewrite Rabs_Ropp; apply beta_bound]|]. right.
    rewrite Rabs_mult. assert (0 < Rabs c) by (apply Rabs_pos_lt; assumption). field. lra.
  Qed.
  Lemma b_bound : Rabs (p_b - (exp (- (z * (c * h))) + z * (c * h) - 1) / (c * (c * h))) <= Rabs h * Rabs (c * h) ^ 5 / 1680.
  Proof.
    pose proof c_ne. pose proof h_ne. pose proof (exp_rem7 _ abs_zal) as H7. pose proof (rabs_zal 7).
    match type of H7 with Rabs (exp ?u - ?T) <= _ =>
      replace (p_b - _) with (- (exp u - T) / (c * (c * h))) by (unfold p_b; field; auto) end.
    eapply Rle_trans; [apply bound_div; [auto|rewrite Rabs_Ropp; eapply Rle_trans; [exact H7|apply Rmult_le_compat_r; [lra|eassumption]]]|].
    right. rewrite !Rabs_mult. assert (0 < Rabs c) by (apply Rabs_pos_lt; assumption).
    assert (0 < Rabs h) by (apply Rabs_pos_lt; assumption). field. lra.
  Qed.
  Lemma aa_bound : Rabs (p_aa - (1 - exp (- (c * h))) / (c * h)) <= Rabs (c * h) ^ 6 / 1680.
  Proof.
    pose proof c_ne. pose proof h_ne. pose proof (exp_rem7 _ abs_al) as H7. rewrite (Rabs_Ropp (c * h)) in H7.
    match type of H7 with Rabs (exp ?u - ?T) <= _ =>
      replace (p_aa - _) with ((exp u - T) / (c * h)) by (unfold p_aa; field; auto) end.
    eapply Rle_trans; [apply bound_div; [auto|exact H7]|].
    right. assert (0 < Rabs (c * h)) by (apply Rabs_pos_lt; assumption). field. lra.
  Qed.
  Lemma chh_bound :
    Rabs (p_chh - 6 * (exp (- (c * h)) * (c * h + 2) + c * h - 2) / ((c * h) ^ 2 * c)) <= Rabs h * Rabs (c * h) ^ 5 / 390.
  Proof.
    pose proof c_ne. pose proof h_ne. pose proof (exp_rem8 _ abs_al) as H8. rewrite (Rabs_Ropp (c * h)) in H8.
    match type of H8 with Rabs (exp ?u - ?T) <= _ =>
      replace (p_chh - _) with (- 6 * ((exp u - T) * (c * h + 2) - (c * h) ^ 8 / 5040) / ((c * h) ^ 2 * c))
        by (unfold p_chh; field; auto); set (R8 := exp u - T) in * end.
    set (al := c * h) in *. assert (Ha : 0 < Rabs al) by (apply Rabs_pos_lt; assumption).
    assert (P : 0 <= Rabs al ^ 8) by (apply pow_le, Rabs_pos).
    assert (B : Rabs (- 6 * (R8 * (al + 2) - al ^ 8 / 5040)) <= Rabs al ^ 8 / 390).
    { rewrite Rabs_mult, Rabs_left by lra.
      assert (Rabs (R8 * (al + 2)) <= Rabs al ^ 8 / 13440 * 3).
      { rewrite Rabs_mult. apply Rmult_le_compat; try apply Rabs_pos; [assumption|].
        eapply Rle_trans; [apply Rabs_triang|]. rewrite (Rabs_pos_eq 2) by lra. lra. }
      assert (Rabs (al ^ 8 / 5040) = Rabs al ^ 8 / 5040).
      { unfold Rdiv. rewrite Rabs_mult, (Rabs_pos_eq (/ 5040)) by lra. rewrite RPow_abs. reflexivity. }
      pose proof (Rabs_triang (R8 * (al + 2)) (- (al ^ 8 / 5040))). rewrite Rabs_Ropp in *. unfold Rminus. lra. }
    eapply Rle_trans; [apply bound_div; [|exact B]|].
    - apply Rmult_integral_contrapositive_currified; [apply pow_nonzero; assumption|assumption].
    - right. rewrite Rabs_mult, <- RPow_abs. assert (0 < Rabs c) by (apply Rabs_pos_lt; assumption).
      assert (E : Rabs al = Rabs c * Rabs h) by (unfold al; apply Rabs_mult).
      replace (Rabs h) with (Rabs al / Rabs c) by (rewrite E; field; lra). field. lra.
  Qed.
  Lemma ckk_bound :
    Rabs (p_ckk - 60 * (exp (- (c * h)) * (c * h * (c * h + 6) + 12) - c * h * (c * h - 6) - 12) / ((c * h) ^ 2 * (c * h) * c))
      <= Rabs h * Rabs (c * h) ^ 5 / 72.
  Proof.
    pose proof c_ne. pose proof h_ne. pose proof (exp_rem9 _ abs_al) as H9. rewrite (Rabs_Ropp (c * h)) in H9.
    match type of H9 with Rabs (exp ?u - ?T) <= _ =>
      replace (p_ckk - _) with (- 60 * ((exp u - T) * (c * h * (c * h + 6) + 12) + (- (c * h) ^ 9 / 20160 + (c * h) ^ 10 / 40320)) / ((c * h) ^ 2 * (c * h) * c))
        by (unfold p_ckk; field; auto); set (R9 := exp u - T) in * end.
    set (al := c * h) in *. assert (Ha : 0 < Rabs al) by (apply Rabs_pos_lt; assumption).
    assert (P : 0 <= Rabs al ^ 9) by (apply pow_le, Rabs_pos).
    assert (B : Rabs (- 60 * (R9 * (al * (al + 6) + 12) + (- al ^ 9 / 20160 + al ^ 10 / 40320))) <= Rabs al ^ 9 / 72).
    { rewrite Rabs_mult, Rabs_left by lra.
      assert (Rabs (R9 * (al * (al + 6) + 12)) <= Rabs al ^ 9 / 120960 * 19).
      { rewrite Rabs_mult. apply Rmult_le_compat; try apply Rabs_pos; [assumption|].
        eapply Rle_trans; [apply Rabs_triang|]. rewrite (Rabs_pos_eq 12) by lra. rewrite Rabs_mult.
        pose proof (Rabs_triang al 6). rewrite (Rabs_pos_eq 6) in * by lra. nra. }
      assert (Rabs (- al ^ 9 / 20160 + al ^ 10 / 40320) <= Rabs al ^ 9 / 20160 + Rabs al ^ 9 / 40320).
      { eapply Rle_trans; [apply Rabs_triang|]. unfold Rdiv. rewrite !Rabs_mult, Rabs_Ropp, <- !RPow_abs, !(Rabs_pos_eq (/ _)) by lra.
        change (Rabs al ^ 10) with (Rabs al * Rabs al ^ 9). nra. }
      pose proof (Rabs_triang (R9 * (al * (al + 6) + 12)) (- al ^ 9 / 20160 + al ^ 10 / 40320)). lra. }
    eapply Rle_trans; [apply bound_div; [|exact B]|].
    - apply Rmult_integral_contrapositive_currified; [apply Rmult_integral_contrapositive_currified|assumption];
        [apply pow_nonzero; assumption|assumption].
    - right. rewrite !Rabs_mult, <- RPow_abs. assert (0 < Rabs c) by (apply Rabs_pos_lt; assumption).
      assert (E : Rabs al = Rabs c * Rabs h) by (unfold al; apply Rabs_mult).
      replace (Rabs h) with (Rabs al / Rabs c) by (rewrite E; field; lra). field. lra.
  Qed.
End Leaf.
