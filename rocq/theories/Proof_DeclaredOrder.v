(** The declared orders of the solvers without a tableau: C82. *)
From Coq Require Import Reals List Bool Arith Lia Lra.
From Verif Require Import Model_Result Model_Loop Model_RK Model_Terms Model_Solvers Model_MethodOrders Spec_Solvers Spec_Order Spec_Lipschitz Spec_MethodOrder Proof_MethodOrder.
Import ListNotations.
Open Scope R_scope.

Section Declared.
  Context {I : Type}.
  Notation Y := (I -> R).

  Lemma smooth3_2 t0 T M2 M3 (u u' : R -> Y) : smooth3 t0 T M2 M3 u u' -> smooth2 t0 T M2 u u'.
  Proof. intros (v & H). exists v. intros t x Ht. destruct (H t x Ht) as (A & B & C & _). auto. Qed.

  Lemma pf_C82_declared (f : R -> Y -> Y) (L M2 M3 t0 T : R) (y : R -> Y) :
    finite_type I -> 0 <= L -> 0 <= M2 -> 0 <= M3 -> 0 <= T -> lipschitz L f -> smooth3 t0 T M2 M3 y (fun t => f t (y t)) ->
    exists C h0, 0 < h0 /\ forall (h : R) (n : nat), 0 < h <= h0 -> h <= T -> INR n * h <= T ->
    let off {SS DI} (m : method Y SS DI) x := fst (steps m t0 (grid t0 h n) (y t0) (me_init m t0 (t0 + h) (y t0))) x - y (t0 + INR n * h) x in
    bounded (off (euler (ode_term f))) (C * h ^ euler_order) /\
    bounded (off (leapfrog_midpoint (ode_term f))) (C * h ^ leapfrog_midpoint_order) /\
    bounded (off (reversible_heun (ode_term f))) (C * h ^ reversible_heun_order) /\
    (forall (root_find : (Y -> Y) -> Y -> Y * RESULTS) (yn : Y),
       (forall g z, is_okay (snd (root_find g z)) = true -> forall x, g (fst (root_find g z)) x = 0) ->
       good_steps (implicit_euler root_find (ode_term f)) t0 (grid t0 h n) (y t0) tt yn tt ->
       bounded (fun x => yn x - y (t0 + INR n * h) x) (C * h ^ implicit_euler_order)).
  Proof.
    intros FT HL HM2 HM3 HT LF SM. pose proof (smooth3_2 _ _ _ _ _ _ SM) as SM2.
    set (K := (M2 / 4 + T * (L * M2 / 4 + 3 * M3)) * exp (2 * L * T)).
    set (C1 := M2 * T * exp (L * T)). set (C2 := (M2 + 2 * M3 * T) * exp (2 * L * T)). set (C3 := K + L * T * (K + M2 / 8)). set (C4 := 2 * M2 * T * exp (2 * L * T)).
    pose proof (exp_pos (L * T)) as E1. pose proof (exp_pos (2 * L * T)) as E2.
    assert (0 <= L * M2) by (apply Rmult_le_pos; lra). assert (0 <= M2 * T) by (apply Rmult_le_pos; lra). assert (0 <= M3 * T) by (apply Rmult_le_pos; lra).
    assert (P1 : 0 <= C1) by (apply Rmult_le_pos; lra). assert (P2 : 0 <= C2) by (apply Rmult_le_pos; lra).
    assert (PK : 0 <= K). { apply Rmult_le_pos; [|lra]. assert (0 <= T * (L * M2 / 4 + 3 * M3)) by (apply Rmult_le_pos; lra). lra. }
    assert (P3 : 0 <= C3). { assert (0 <= L * T * (K + M2 / 8)) by (apply Rmult_le_pos; [apply Rmult_le_pos; lra|lra]). unfold C3. lra. }
    assert (P4 : 0 <= C4) by (apply Rmult_le_pos; lra).
    exists (C1 + C2 + C3 + C4), (/ (2 * (L + 1))). split; [apply Rinv_0_lt_compat; lra|]. intros h n (Hh & Hh0) HhT Hn. cbv zeta beta.
    assert (HL2 : h * L <= 1 / 2).
    { assert (h * (2 * (L + 1)) <= 1) by (apply (Rle_trans _ (/ (2 * (L + 1)) * (2 * (L + 1)))); [apply Rmult_le_compat_r; lra|rewrite Rinv_l; lra]). lra. }
    assert (PH : 0 <= h^2) by (apply pow_le; lra).
    split; [|split; [|split]].
    - eapply bounded_more; [exact (pf_C82_euler f L M2 t0 T h y n HL HM2 LF SM2 Hh Hn)|]. unfold euler_order. rewrite pow_1. fold C1. apply Rmult_le_compat_r; lra.
    - eapply bounded_more; [exact (pf_C82_leapfrog f L M2 M3 t0 T h y n HL HM2 HM3 LF SM Hh Hn)|]. fold C2. unfold leapfrog_midpoint_order. apply Rmult_le_compat_r; lra.
    - eapply bounded_more; [exact (pf_C82_reversible_heun f L M2 M3 t0 T h y n HL HM2 HM3 LF SM (conj Hh HhT) Hn)|]. fold K. fold C3. unfold reversible_heun_order. apply Rmult_le_compat_r; lra.
    - intros rf yn RT G. eapply bounded_more; [exact (pf_C82_implicit_euler f rf L M2 t0 T h y n yn FT RT HL HM2 LF SM2 Hh HL2 Hn G)|].
      fold C4. unfold implicit_euler_order. rewrite pow_1. apply Rmult_le_compat_r; lra.
  Qed.
End Declared.

Lemma pf_C82_declared_semi_implicit (I1 I2 : Type) (f : R -> (I2 -> R) -> (I1 -> R)) (g : R -> (I1 -> R) -> (I2 -> R)) (L M1 M2 t0 T : R) (q : R -> I1 -> R) (p : R -> I2 -> R) :
  0 <= L -> 0 <= M1 -> 0 <= M2 -> half_lipschitz L f -> half_lipschitz L g ->
  smooth2 t0 T M2 q (fun t => f t (p t)) -> smooth2 t0 T M2 p (fun t => g t (q t)) ->
  (forall t, t0 <= t <= t0 + T -> bounded (f t (p t)) M1) ->
  exists C h0, 0 < h0 /\ forall (h : R) (n : nat), 0 < h <= h0 -> INR n * h <= T ->
  let m := semi_implicit_euler (half_ode f) (half_ode g) in
  let yn := fst (steps m t0 (grid t0 h n) (q t0, p t0) (me_init m t0 (t0 + h) (q t0, p t0))) in
  bounded (fun x => fst yn x - q (t0 + INR n * h) x) (C * h ^ semi_implicit_euler_order) /\
  bounded (fun x => snd yn x - p (t0 + INR n * h) x) (C * h ^ semi_implicit_euler_order).
Proof.
  intros HL HM1 HM2 LF LG SQ SP BF. exists ((2 * M2 + L * M1) * T * exp (2 * L * T)), (/ (L + 1)). split; [apply Rinv_0_lt_compat; lra|].
  intros h n (Hh & Hh0) Hn. unfold semi_implicit_euler_order. rewrite pow_1.
  assert (HL2 : h * L <= 1). { assert (h * (L + 1) <= 1) by (apply (Rle_trans _ (/ (L + 1) * (L + 1))); [apply Rmult_le_compat_r; lra|rewrite Rinv_l; lra]). lra. }
  exact (pf_C82_semi_implicit_euler I1 I2 f g L M1 M2 t0 T h q p n HL HM1 HM2 LF LG SQ SP BF Hh HL2 Hn).
Qed.
