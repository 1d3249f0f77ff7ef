(** [ConstantStepSize] in exact arithmetic. *)
From Coq Require Import ZArith List Bool Arith Lia QArith Qround Qfield Lqa.
From Verif Require Import Model_Fixed Spec_Fixed.
Open Scope Q_scope.

Lemma ceil_spec (d e : Q) : 0 < d -> 0 < e ->
  let n := Qceiling (d / e) in
  (0 < n)%Z /\ (inject_Z n - 1) * e < d /\ d <= inject_Z n * e.
Proof.
  intros Hd He n.
  assert (H1 : d / e <= inject_Z n) by apply Qle_ceiling.
  assert (H2 : inject_Z (n - 1) < d / e) by apply Qceiling_lt.
  unfold Z.sub in H2. rewrite inject_Z_plus in H2. change (inject_Z (-(1))) with (-1) in H2.
  assert (H3 : d == (d / e) * e) by (field; lra).
  split; [|split].
  - assert (0 < d / e) by (apply Qlt_shift_div_l; lra).
    rewrite Zlt_Qlt. change (inject_Z 0) with 0. lra.
  - rewrite H3 at 1. apply Qmult_lt_compat_r; lra.
  - rewrite H3 at 1. apply Qmult_le_compat_r; lra.
Qed.

Lemma exact_state next t0 t1 dt0 k :
  snd (exact_end next t0 t1 dt0 k)
  = ConstState (Z.of_nat k + 1) (Qceiling ((t1 - t0) / next dt0)) t0 t1.
Proof.
  induction k as [|k IH].
  - reflexivity.
  - cbn [exact_end]. destruct (exact_end next t0 t1 dt0 k) as [t s]. cbn [snd] in *. subst s.
    unfold const_step. cbn [steps_completed num_steps t0_sim t1_sim_or_dt0]. f_equal. lia.
Qed.

Lemma exact_time next t0 t1 dt0 k :
  let n := Qceiling ((t1 - t0) / next dt0) in
  (0 <= n)%Z ->
  fst (exact_end next t0 t1 dt0 (S k))
  = if (Z.of_nat k + 2 =? n)%Z then t1
    else t0 + (t1 - t0) * (inject_Z (Z.of_nat k + 2) / inject_Z n).
Proof.
  intros n Hn. cbn [exact_end]. pose proof (exact_state next t0 t1 dt0 k) as Hs.
  destruct (exact_end next t0 t1 dt0 k) as [t s]. cbn [snd] in Hs. subst s. cbn [fst].
  unfold const_next. cbn [steps_completed num_steps t0_sim t1_sim_or_dt0].
  fold n. destruct (Z.leb_spec 0 n); [|lia].
  replace (Z.of_nat k + 1 + 1)%Z with (Z.of_nat k + 2)%Z by lia. reflexivity.
Qed.

Lemma frac_lt (a b n : Z) : (0 < n)%Z -> (a < b)%Z -> inject_Z a / inject_Z n < inject_Z b / inject_Z n.
Proof.
  intros Hn Hab. assert (0 < inject_Z n) by (change 0 with (inject_Z 0); rewrite <- Zlt_Qlt; exact Hn).
  unfold Qdiv. apply Qmult_lt_compat_r; [apply Qinv_lt_0_compat; assumption|].
  rewrite <- Zlt_Qlt. exact Hab.
Qed.

Lemma pf_C25_exact (next : Q -> Q) (t0 t1 dt0 : Q) :
  t0 < t1 -> 0 < dt0 -> dt0 <= next dt0 ->
  let n := Qceiling ((t1 - t0) / next dt0) in
  let ends k := fst (exact_end next t0 t1 dt0 k) in
  (0 < n)%Z /\
  t0 < ends 0%nat /\
  (forall k, (Z.of_nat k + 1 < n)%Z -> ends k < ends (S k)) /\
  ((2 <= n)%Z -> ends (Z.to_nat n - 1)%nat = t1) /\
  (n = 1%Z -> t1 <= t0 + next dt0).
Proof.
  intros Ht Hdt Hnext n ends.
  destruct (ceil_spec (t1 - t0) (next dt0)) as (Hn & H1 & H2); [lra|lra|]. fold n in Hn, H1, H2.
  assert (Hnq : 0 < inject_Z n) by (change 0 with (inject_Z 0); rewrite <- Zlt_Qlt; exact Hn).
  assert (He0 : ends 0%nat = t0 + dt0) by reflexivity.
  assert (HeS : forall k, ends (S k) = if (Z.of_nat k + 2 =? n)%Z then t1
    else t0 + (t1 - t0) * (inject_Z (Z.of_nat k + 2) / inject_Z n)).
  { intros k. apply exact_time. fold n. lia. }
  assert (Heq : forall k, (Z.of_nat k + 2 <= n)%Z ->
            ends (S k) == t0 + (t1 - t0) * (inject_Z (Z.of_nat k + 2) / inject_Z n)).
  { intros k Hk. rewrite HeS. destruct (Z.eqb_spec (Z.of_nat k + 2) n) as [->|]; [|reflexivity].
    field. lra. }
  split; [exact Hn|]. split; [rewrite He0; lra|]. split; [|split].
  - intros [|k] Hk.
    + rewrite Heq by lia. rewrite He0. cbn [Z.of_nat Z.add].
      assert (dt0 < (t1 - t0) * (inject_Z 2 / inject_Z n)); [|lra].
      assert (Hn2 : 2 <= inject_Z n) by (change 2 with (inject_Z 2); rewrite <- Zle_Qle; lia).
      apply Qle_lt_trans with (next dt0); [exact Hnext|].
      assert (Hm : next dt0 * inject_Z n < (t1 - t0) * 2) by nra.
      assert (Hd : (t1 - t0) * (inject_Z 2 / inject_Z n) == (t1 - t0) * 2 / inject_Z n)
        by (change (inject_Z 2) with 2; field; lra).
      rewrite Hd. apply Qlt_shift_div_l; [exact Hnq|exact Hm].
    + rewrite !Heq by lia.
      pose proof (frac_lt (Z.of_nat k + 2) (Z.of_nat (S k) + 2) n Hn ltac:(lia)) as Hf.
      apply Qplus_lt_r. rewrite !(Qmult_comm (t1 - t0)). apply Qmult_lt_compat_r; [lra|exact Hf].
  - intros Hn2. replace (Z.to_nat n - 1)%nat with (S (Z.to_nat n - 2)) by lia.
    rewrite HeS. destruct (Z.eqb_spec (Z.of_nat (Z.to_nat n - 2) + 2) n); [reflexivity|lia].
  - intros Hn1. rewrite Hn1 in H2. change (inject_Z 1) with 1 in H2. lra.
Qed.

Lemma pf_C25_equal_steps (next : Q -> Q) (t0 t1 dt0 : Q) (m : Z) :
  t0 < t1 -> 0 < dt0 -> dt0 <= next dt0 ->
  t1 - t0 == inject_Z m * dt0 -> inject_Z (m - 1) * next dt0 < t1 - t0 ->
  Qceiling ((t1 - t0) / next dt0) = m /\
  (forall k, (Z.of_nat k < m)%Z ->
     fst (exact_end next t0 t1 dt0 k) == t0 + inject_Z (Z.of_nat k + 1) * dt0).
Proof.
  intros Ht Hdt Hnext Hm Hm1.
  destruct (ceil_spec (t1 - t0) (next dt0)) as (Hn & H1 & H2); [lra|lra|].
  set (n := Qceiling ((t1 - t0) / next dt0)) in *.
  assert (Hmq : 0 < inject_Z m) by nra.
  assert (Heq : n = m).
  { assert (A : inject_Z (m - 1) < inject_Z n).
    { apply (Qmult_lt_r _ _ (next dt0)); [lra|]. lra. }
    rewrite <- Zlt_Qlt in A.
    assert (B : inject_Z n - 1 < inject_Z m).
    { apply (Qmult_lt_r _ _ (next dt0)); [lra|].
      assert (inject_Z m * dt0 <= inject_Z m * next dt0) by nra. lra. }
    change 1 with (inject_Z 1) in B. 
    assert (C : inject_Z n < inject_Z (m + 1)) by (rewrite inject_Z_plus; lra).
    rewrite <- Zlt_Qlt in C. lia. }
  split; [exact Heq|]. intros [|k] Hk.
  - cbn. change (inject_Z 1) with 1. lra.
  - rewrite exact_time by (fold n; lia). fold n.
    replace (Z.of_nat (S k) + 1)%Z with (Z.of_nat k + 2)%Z by lia.
    destruct (Z.eqb_spec (Z.of_nat k + 2) n) as [Hkn|Hkn].
    + rewrite Hkn, Heq. lra.
    + rewrite Heq, Hm. field. lra.
Qed.
