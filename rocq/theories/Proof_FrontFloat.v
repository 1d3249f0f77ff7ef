(** Proofs about the test on the sign of [dt0] in floating point arithmetic. *)
From Coq Require Import ZArith Reals Lra Lia.
From Flocq Require Import Core.Core.
From Flocq Require Plus_error Relative.
Import Plus_error Relative.
From Verif Require Import Model_FrontFloat.
Open Scope R_scope.

Section Proofs.
  Context (emin prec : Z) (Hp : (1 < prec)%Z).
  Local Instance prec_pos : Prec_gt_0 prec. Proof. unfold Prec_gt_0. lia. Qed.
  Notation fexp := (FLT_exp emin prec).
  Notation fl := (fl emin prec).
  Notation is_float := (is_float emin prec).

  Lemma fl_pos x : 0 <= x -> 0 <= fl x.
  Proof. intros H. rewrite <- (round_0 radix2 fexp ZnearestE). apply round_le; [typeclasses eauto..|exact H]. Qed.
  Lemma fl_neg x : x <= 0 -> fl x <= 0.
  Proof. intros H. rewrite <- (round_0 radix2 fexp ZnearestE). apply round_le; [typeclasses eauto..|exact H]. Qed.

  Lemma fl_bpow e : (emin <= e)%Z -> fl (bpow radix2 e) = bpow radix2 e.
  Proof.
    intros He. apply round_generic; [typeclasses eauto|]. apply generic_format_bpow.
    unfold FLT_exp. lia.
  Qed.
  Lemma fl_opp x : fl (- x) = - fl x.
  Proof. apply round_NE_opp. Qed.

  Lemma sound (t0 t1 dt0 : R) : wrong_sign_float emin prec t0 t1 dt0 = true ->
    (t0 < t1 /\ dt0 < 0) \/ (t1 < t0 /\ 0 < dt0).
  Proof.
    unfold wrong_sign_float. intros H.
    destruct (Rlt_bool_spec (fl (fl (t1 - t0) * dt0)) 0) as [Hl|]; [|discriminate]. clear H.
    assert (Hneg : fl (t1 - t0) * dt0 < 0).
    { destruct (Rlt_le_dec (fl (t1 - t0) * dt0) 0) as [h|h]; [exact h|]. apply fl_pos in h. lra. }
    destruct (Rtotal_order t0 t1) as [Ht|[Ht|Ht]].
    - left. split; [exact Ht|]. pose proof (fl_pos (t1 - t0) ltac:(lra)) as Hf.
      destruct (Rlt_le_dec dt0 0) as [h|h]; [exact h|]. pose proof (Rmult_le_pos _ _ Hf h). lra.
    - subst. rewrite Rminus_eq_0 in Hneg. unfold Model_FrontFloat.fl in Hneg at 1. rewrite round_0 in Hneg by typeclasses eauto. lra.
    - right. split; [exact Ht|]. pose proof (fl_neg (t1 - t0) ltac:(lra)) as Hf.
      destruct (Rlt_le_dec 0 dt0) as [h|h]; [exact h|].
      assert (0 <= - fl (t1 - t0) * - dt0) by (apply Rmult_le_pos; lra). lra.
  Qed.

  (** The difference of two floating point numbers is rounded down to at least half of it. *)
  Lemma half x : (exists a b, x = a - b /\ is_float a /\ is_float b) -> 0 < x -> x / 2 < fl x.
  Proof.
    intros (a & b & -> & Ha & Hb) Hpos.
    destruct (Rlt_le_dec (a - b) (bpow radix2 (emin + prec - 1))) as [Hs|Hs].
    - (* exact *)
      assert (He : fl (a - b) = a - b).
      { apply round_generic; [typeclasses eauto|]. unfold Rminus.
        apply FLT_format_plus_small; try assumption; [typeclasses eauto|apply generic_format_opp; exact Hb|].
        rewrite Rabs_pos_eq by lra. apply Rle_trans with (bpow radix2 (emin + prec - 1)); [lra|].
        apply bpow_le. lia. }
      rewrite He. lra.
    - pose proof (relative_error_N_FLT radix2 emin prec prec_pos (fun n => negb (Z.even n)) (a - b)) as Hr.
      rewrite Rabs_pos_eq in Hr by lra. specialize (Hr Hs).
      change (Rabs (fl (a - b) - (a - b)) <= / 2 * bpow radix2 (- prec + 1) * (a - b)) in Hr.
      assert (Hb2 : bpow radix2 (- prec + 1) <= / 2).
      { apply Rle_trans with (bpow radix2 (-1)); [apply bpow_le; lia|]. cbn. lra. }
      assert (Hx : / 2 * bpow radix2 (- prec + 1) * (a - b) <= / 4 * (a - b)).
      { apply Rmult_le_compat_r; [lra|]. lra. }
      apply Rabs_le_inv in Hr. lra.
  Qed.

  Lemma complete_pos (t0 t1 d : R) : is_float t0 -> is_float t1 -> t0 < t1 -> 0 < d ->
    bpow radix2 emin <= (t1 - t0) * d -> 0 < fl (fl (t1 - t0) * d).
  Proof.
    intros F0 F1 Ht Hd Hu.
    assert (Hh : (t1 - t0) / 2 < fl (t1 - t0)) by (apply half; [exists t1, t0; auto|lra]).
    assert (Hprod : bpow radix2 (emin - 1) < fl (t1 - t0) * d).
    { apply Rle_lt_trans with ((t1 - t0) / 2 * d).
      - replace (bpow radix2 (emin - 1)) with (bpow radix2 emin / 2); [lra|].
        unfold Zminus. rewrite bpow_plus. cbn. lra.
      - apply Rmult_lt_compat_r; assumption. }
    set (z := fl (t1 - t0) * d) in *.
    destruct (Rle_lt_dec (bpow radix2 emin) z) as [Hz|Hz].
    - apply Rlt_le_trans with (bpow radix2 emin); [apply bpow_gt_0|].
      rewrite <- (fl_bpow emin) by lia. apply round_le; [typeclasses eauto..|exact Hz].
    - (* between half of and the smallest number: rounded up *)
      assert (Hm : 0 < bpow radix2 emin) by apply bpow_gt_0.
      assert (Hm2 : bpow radix2 (emin - 1) = bpow radix2 emin / 2).
      { unfold Zminus. rewrite bpow_plus. cbn. lra. }
      assert (Hzp : 0 < z) by lra.
      unfold Model_FrontFloat.fl, round, F2R, scaled_mantissa, cexp. cbn [Fnum Fexp].
      assert (Hmag : (mag radix2 z <= emin)%Z).
      { apply mag_le_bpow; [lra|]. rewrite Rabs_pos_eq by lra. exact Hz. }
      assert (Hexp : FLT_exp emin prec (mag radix2 z) = emin) by (unfold FLT_exp; unfold Prec_gt_0 in *; lia).
      rewrite Hexp. apply Rmult_lt_0_compat; [|exact Hm].
      assert (Hlow : / 2 < z * bpow radix2 (- emin)).
      { apply Rmult_lt_reg_r with (bpow radix2 emin); [exact Hm|].
        rewrite Rmult_assoc, <- bpow_plus, Z.add_opp_diag_l. cbn [bpow]. lra. }
      assert (Hup : z * bpow radix2 (- emin) < 1).
      { apply Rmult_lt_reg_r with (bpow radix2 emin); [exact Hm|].
        rewrite Rmult_assoc, <- bpow_plus, Z.add_opp_diag_l. cbn [bpow]. lra. }
      replace (ZnearestE (z * bpow radix2 (- emin))) with 1%Z; [cbn; lra|]. symmetry.
      apply Znearest_imp. rewrite Rabs_left1 by (cbn; lra). cbn. lra.
  Qed.
End Proofs.

Lemma pf_C61_dt0_float (emin prec : Z) (t0 t1 dt0 : R) : (1 < prec)%Z ->
  is_float emin prec t0 -> is_float emin prec t1 -> is_float emin prec dt0 ->
  let away := (t0 < t1 /\ dt0 < 0) \/ (t1 < t0 /\ 0 < dt0) in
  (wrong_sign_float emin prec t0 t1 dt0 = true -> away) /\
  (away -> bpow radix2 emin <= Rabs (t1 - t0) * Rabs dt0 -> wrong_sign_float emin prec t0 t1 dt0 = true).
Proof.
  intros Hp F0 F1 Fd away. split; [apply sound; exact Hp|].
  intros [[Ht Hd]|[Ht Hd]] Hu; apply Rlt_bool_true.
  - rewrite Rabs_pos_eq, Rabs_left in Hu by lra.
    pose proof (complete_pos emin prec Hp t0 t1 (- dt0) F0 F1 Ht ltac:(lra) Hu) as H.
    replace (fl emin prec (t1 - t0) * - dt0) with (- (fl emin prec (t1 - t0) * dt0)) in H by ring.
    rewrite fl_opp in H. lra.
  - rewrite Rabs_left, Rabs_pos_eq in Hu by lra.
    replace (- (t1 - t0)) with (t0 - t1) in Hu by ring.
    pose proof (complete_pos emin prec Hp t1 t0 dt0 F1 F0 Ht Hd Hu) as H.
    replace (t0 - t1) with (- (t1 - t0)) in H by ring. rewrite fl_opp in H.
    replace (- fl emin prec (t1 - t0) * dt0) with (- (fl emin prec (t1 - t0) * dt0)) in H by ring.
    rewrite fl_opp in H. lra.
Qed.

Lemma fl_tiny emin prec e : (1 < prec)%Z -> (e < emin - 1)%Z -> fl emin prec (bpow radix2 e) = 0.
Proof.
  intros Hp He. unfold fl. 
  apply (round_N_small_pos radix2 (FLT_exp emin prec) (fun n => negb (Z.even n)) (bpow radix2 e) (e + 1)).
  - split; [replace (e + 1 - 1)%Z with e by ring; lra|apply bpow_lt; lia].
  - unfold FLT_exp. lia.
Qed.

Lemma witness emin prec e : (1 < prec)%Z -> (emin <= e)%Z -> (e + e < emin - 1)%Z ->
  is_float emin prec 0 /\ is_float emin prec (bpow radix2 e) /\ is_float emin prec (- bpow radix2 e) /\
  0 < bpow radix2 e /\ - bpow radix2 e < 0 /\ wrong_sign_float emin prec 0 (bpow radix2 e) (- bpow radix2 e) = false.
Proof.
  intros Hp He H2. pose proof (bpow_gt_0 radix2 e) as Hpos.
  assert (Hf : is_float emin prec (bpow radix2 e)).
  { apply generic_format_bpow. unfold FLT_exp. lia. }
  split; [apply generic_format_0|]. split; [exact Hf|]. split; [apply generic_format_opp; exact Hf|].
  split; [exact Hpos|]. split; [lra|].
  unfold wrong_sign_float. apply Rlt_bool_false. rewrite Rminus_0_r.
  rewrite (fl_bpow emin prec Hp e He).
  replace (bpow radix2 e * - bpow radix2 e) with (- bpow radix2 (e + e)) by (rewrite bpow_plus; ring).
  rewrite fl_opp, fl_tiny by assumption. lra.
Qed.

Lemma pf_C61_dt0_underflow_refuted :
  (exists t0 t1 dt0, is_float (-149) 24 t0 /\ is_float (-149) 24 t1 /\ is_float (-149) 24 dt0 /\
     t0 < t1 /\ dt0 < 0 /\ wrong_sign_float (-149) 24 t0 t1 dt0 = false) /\
  (exists t0 t1 dt0, is_float (-1074) 53 t0 /\ is_float (-1074) 53 t1 /\ is_float (-1074) 53 dt0 /\
     t0 < t1 /\ dt0 < 0 /\ wrong_sign_float (-1074) 53 t0 t1 dt0 = false).
Proof.
  split.
  - exists 0, (bpow radix2 (-80)), (- bpow radix2 (-80)). apply witness; lia.
  - exists 0, (bpow radix2 (-600)), (- bpow radix2 (-600)). apply witness; lia.
Qed.
