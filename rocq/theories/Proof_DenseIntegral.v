(** The derivative of dense output integrates to its increments. *)
From Coq Require Import ZArith Reals List Bool Arith Lia Lra Sorting.Sorted.
From Coquelicot Require Import Coquelicot.
From Verif Require Import Model_Loop Model_Dense Model_DenseDeriv Spec_DenseDeriv Proof_DenseDeriv.
Import ListNotations.
Open Scope R_scope.

Section Integral.
  Context {DI : Type}.
  Variables (d : dense_real DI) (ks : list R) (dis : list DI) (left : bool).
  Hypothesis HK : real_knots d ks dis.
  Hypothesis HD : slope_is_derivative d.
  Hypothesis HC : forall a b info t, a < b -> continuous (dr_slope d a b info) t.
  Hypothesis HJ : continuous_at_knots d ks dis.
  Notation dir := (dr_direction d).
  Notation D := (fun u => value_or_zero (dr_derivative d u left)).

  Lemma dir_dir : dir * dir = 1.
  Proof. destruct HK as (_ & _ & _ & _ & [E|E]); rewrite E; ring. Qed.

  (** Values on the closed steps *)
  Lemma closed_value j prev next info t : nth_error ks j = Some prev -> nth_error ks (S j) = Some next -> nth_error dis j = Some info ->
    prev <= t * dir <= next -> dr_evaluate d t left = Some (dr_cls d prev next info (t * dir)).
  Proof.
    intros Hp Hn Hi Ht. pose proof HK as (_ & _ & Hl & Hs & _).
    assert (Hj : (S j < length ks)%nat) by (apply nth_error_Some; congruence).
    pose proof (sorted_lt ks Hs j (S j) prev next (Nat.lt_succ_diag_r _) Hp Hn) as Hlt.
    destruct left.
    - destruct (Rlt_le_dec prev (t * dir)) as [H|H].
      { apply (selected d ks dis t true j prev next info HK Hp Hn Hi). unfold selects. split; [left|]; lra. }
      destruct j as [|j].
      { apply (selected d ks dis t true 0 prev next info HK Hp Hn Hi). unfold selects. split; [right; split; [reflexivity|]|]; lra. }
      destruct (nth_error ks j) as [pp|] eqn:E; [|apply nth_error_None in E; lia].
      destruct (nth_error dis j) as [i'|] eqn:E'; [|apply nth_error_None in E'; lia].
      pose proof (sorted_lt ks Hs j (S j) pp prev (Nat.lt_succ_diag_r _) E Hp).
      destruct (selected d ks dis t true j pp prev i' HK E Hp E') as (V & _); [unfold selects; split; [left|]; lra|].
      rewrite V. f_equal. replace (t * dir) with prev by lra. apply (HJ j pp prev next i' info); assumption.
    - destruct (Rlt_le_dec (t * dir) next) as [H|H].
      { apply (selected d ks dis t false j prev next info HK Hp Hn Hi). unfold selects. split; [|left]; lra. }
      destruct (nth_error ks (S (S j))) as [nn|] eqn:E.
      + assert ((S (S j)) < length ks)%nat by (apply nth_error_Some; congruence).
        destruct (nth_error dis (S j)) as [i'|] eqn:E'; [|apply nth_error_None in E'; lia].
        pose proof (sorted_lt ks Hs (S j) (S (S j)) next nn (Nat.lt_succ_diag_r _) Hn E).
        destruct (selected d ks dis t false (S j) next nn i' HK Hn E E') as (V & _); [unfold selects; split; [|left]; lra|].
        rewrite V. f_equal. replace (t * dir) with next by lra. symmetry. apply (HJ j prev next nn info i'); assumption.
      + apply nth_error_None in E. apply (selected d ks dis t false j prev next info HK Hp Hn Hi). unfold selects. split; [lra|right; split; [lia|lra]].
  Qed.

  (** Within one step *)
  Lemma piece j prev next info a b : nth_error ks j = Some prev -> nth_error ks (S j) = Some next -> nth_error dis j = Some info ->
    prev <= a * dir <= next -> prev <= b * dir <= next ->
    is_RInt D a b (dr_cls d prev next info (b * dir) - dr_cls d prev next info (a * dir)).
  Proof.
    intros Hp Hn Hi Ha Hb. pose proof HK as (_ & _ & _ & Hs & DR).
    pose proof (sorted_lt ks Hs j (S j) prev next (Nat.lt_succ_diag_r _) Hp Hn) as Hlt.
    apply is_RInt_ext with (f := fun u => dir * dr_slope d prev next info (u * dir)).
    - intros u Hu. assert (HS : selects ks left (u * dir) j prev next).
      { unfold selects. unfold Rmin, Rmax in Hu. destruct (Rle_dec a b); destruct DR as [E|E]; rewrite E in *; destruct left; lra. }
      destruct (selected d ks dis u left j prev next info HK Hp Hn Hi HS) as (_ & ->). reflexivity.
    - apply (is_RInt_derive (fun u => dr_cls d prev next info (u * dir)) (fun u => dir * dr_slope d prev next info (u * dir))).
      + intros u _. apply is_derive_Reals. exact (local_deriv d ks dis prev next info u HK HD Hlt).
      + intros u _. apply (continuous_scal_r dir (fun u => dr_slope d prev next info (u * dir))).
        apply (continuous_comp (fun u => u * dir) (dr_slope d prev next info)); [|apply HC, Hlt].
        apply (continuous_mult (fun u : R => u) (fun _ => dir)); [apply continuous_id|apply continuous_const].
  Qed.

  (** From the start of the solve *)
  Lemma from_start k0 v0 : nth_error ks 0 = Some k0 -> dr_evaluate d (k0 * dir) left = Some v0 ->
    forall j prev next t v, nth_error ks j = Some prev -> nth_error ks (S j) = Some next -> prev <= t * dir <= next ->
    dr_evaluate d t left = Some v -> is_RInt D (k0 * dir) t (v - v0).
  Proof.
    intros H0 V0. pose proof HK as (_ & _ & Hl & Hs & _).
    assert (K0 : k0 * dir * dir = k0) by (rewrite Rmult_assoc, dir_dir; ring).
    induction j as [|j IH]; intros prev next t v Hp Hn Ht V; destruct (info_exists d ks dis _ prev next HK Hp Hn) as (info & Hi);
      pose proof (sorted_lt ks Hs _ _ prev next (Nat.lt_succ_diag_r _) Hp Hn) as Hlt.
    - rewrite H0 in Hp. injection Hp as <-.
      pose proof (closed_value 0 k0 next info t H0 Hn Hi Ht) as E. rewrite V in E. injection E as ->.
      pose proof (closed_value 0 k0 next info (k0 * dir) H0 Hn Hi ltac:(lra)) as E. rewrite V0 in E. injection E as ->.
      apply (piece 0 k0 next info); auto. lra.
    - assert (PP : prev * dir * dir = prev) by (rewrite Rmult_assoc, dir_dir; ring).
      assert (Hj : (S (S j) < length ks)%nat) by (apply nth_error_Some; congruence).
      destruct (nth_error ks j) as [pp|] eqn:E; [|apply nth_error_None in E; lia].
      pose proof (sorted_lt ks Hs j (S j) pp prev (Nat.lt_succ_diag_r _) E Hp).
      pose proof (closed_value (S j) prev next info t Hp Hn Hi Ht) as Et. rewrite V in Et. injection Et as ->.
      pose proof (closed_value (S j) prev next info (prev * dir) Hp Hn Hi ltac:(lra)) as Ep.
      assert (R1 : is_RInt D (k0 * dir) (prev * dir) (dr_cls d prev next info (prev * dir * dir) - v0)) by (apply (IH pp prev); auto; lra).
      assert (R2 : is_RInt D (prev * dir) t (dr_cls d prev next info (t * dir) - dr_cls d prev next info (prev * dir * dir)))
        by (apply (piece (S j) prev next info); auto; lra).
      pose proof (is_RInt_Chasles _ _ _ _ _ _ R1 R2) as RR.
      match type of RR with is_RInt _ _ _ ?x => replace x with (dr_cls d prev next info (t * dir) - v0) in RR; [exact RR|] end.
      unfold plus. cbn. ring.
  Qed.

  Lemma integral_between (a b k0 k1 ya yb : R) : (2 <= length ks)%nat ->
    nth_error ks 0 = Some k0 -> nth_error ks (length ks - 1) = Some k1 ->
    k0 <= a * dir <= k1 -> k0 <= b * dir <= k1 ->
    dr_evaluate d a left = Some ya -> dr_evaluate d b left = Some yb -> is_RInt D a b (yb - ya).
  Proof.
    intros Hl H0 H1 Ha Hb Va Vb. pose proof HK as (_ & _ & _ & Hs & _).
    assert (K0 : k0 * dir * dir = k0) by (rewrite Rmult_assoc, dir_dir; ring).
    assert (F : forall t, k0 <= t * dir <= k1 -> exists j prev next, nth_error ks j = Some prev /\ nth_error ks (S j) = Some next /\ prev <= t * dir <= next).
    { intros t Ht. destruct (Rlt_le_dec (t * dir) k1) as [H|H].
      - destruct (find_right ks (t * dir) k0 k1 Hs Hl H0 H1 ltac:(lra)) as (j & p & n & A & B & C). exists j, p, n. repeat split; auto; lra.
      - pose proof (sorted_lt ks Hs 0 (length ks - 1) k0 k1 ltac:(lia) H0 H1).
        destruct (find_left ks (t * dir) k0 k1 Hs Hl H0 H1 ltac:(lra)) as (j & p & n & A & B & C). exists j, p, n. repeat split; auto; lra. }
    pose proof (sorted_le ks Hs 0 (length ks - 1) k0 k1 ltac:(lia) H0 H1).
    destruct (F (k0 * dir) ltac:(lra)) as (j0 & p0 & n0 & P0 & N0 & B0). destruct (info_exists d ks dis _ p0 n0 HK P0 N0) as (i0 & I0).
    pose proof (closed_value j0 p0 n0 i0 (k0 * dir) P0 N0 I0 B0) as V0.
    destruct (F a Ha) as (ja & pa & na & Pa & Na & Ba). destruct (F b Hb) as (jb & pb & nb & Pb & Nb & Bb).
    pose proof (from_start k0 _ H0 V0 ja pa na a ya Pa Na Ba Va) as RA. pose proof (from_start k0 _ H0 V0 jb pb nb b yb Pb Nb Bb Vb) as RB.
    apply is_RInt_swap in RA. pose proof (is_RInt_Chasles _ _ _ _ _ _ RA RB) as RR.
    match type of RR with is_RInt _ _ _ ?x => replace x with (yb - ya) in RR; [exact RR|] end.
    unfold plus, opp. cbn. ring.
  Qed.
End Integral.

Section Final.
Context {DI : Type}.
Lemma pf_C68_integral (d : dense_real DI) (ks : list R) (dis : list DI) (left : bool) (a b k0 k1 : R) :
  real_knots d ks dis -> slope_is_derivative d -> continuous_at_knots d ks dis ->
  (forall a b info t, a < b -> continuity_pt (dr_slope d a b info) t) ->
  (2 <= length ks)%nat -> nth_error ks 0 = Some k0 -> nth_error ks (length ks - 1) = Some k1 ->
  k0 <= a * dr_direction d <= k1 -> k0 <= b * dr_direction d <= k1 ->
  exists increment, dr_increment d a b left = Some increment /\
    is_RInt (fun u => value_or_zero (dr_derivative d u left)) a b increment.
Proof.
  intros HK HD HJ HC Hl H0 H1 Ha Hb.
  assert (EV : forall t, k0 <= t * dr_direction d <= k1 -> exists v, dr_evaluate d t left = Some v).
  { intros t Ht. pose proof HK as (_ & _ & _ & Hs & _).
    pose proof (sorted_lt ks Hs 0 (length ks - 1) k0 k1 ltac:(lia) H0 H1).
    assert (F : exists j prev next, nth_error ks j = Some prev /\ nth_error ks (S j) = Some next /\ prev <= t * dr_direction d <= next).
    { destruct (Rlt_le_dec (t * dr_direction d) k1) as [H'|H'].
      - destruct (find_right ks (t * dr_direction d) k0 k1 Hs Hl H0 H1 ltac:(lra)) as (j & p & n & A & B & C). exists j, p, n. repeat split; auto; lra.
      - destruct (find_left ks (t * dr_direction d) k0 k1 Hs Hl H0 H1 ltac:(lra)) as (j & p & n & A & B & C). exists j, p, n. repeat split; auto; lra. }
    destruct F as (j & p & n & P & N & B). destruct (info_exists d ks dis _ p n HK P N) as (i & Hi).
    eexists. apply (closed_value d ks dis left HK HJ j p n i t P N Hi B). }
  destruct (EV a Ha) as (ya & Va). destruct (EV b Hb) as (yb & Vb). exists (yb - ya).
  split; [unfold dr_increment; rewrite Va, Vb; reflexivity|].
  apply (integral_between d ks dis left HK HD (fun a b i t Hlt => proj1 (continuity_pt_filterlim _ _) (HC a b i t Hlt)) HJ a b k0 k1 ya yb); auto.
Qed.
End Final.
