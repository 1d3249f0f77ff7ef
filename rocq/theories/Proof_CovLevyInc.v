(** Proofs about the Brownian tree: the covariance of increments and Levy areas. *)
From Coq Require Import Reals List Bool Lra Lia Psatz.
From Verif Require Import Model_Brownian Spec_Brownian Proof_Brownian Proof_Covariance Proof_CovLeaf Proof_CovPath Proof_CovLevy Proof_CovLevyPath.
Import ListNotations.
Open Scope R_scope.

Section CovLevyInc.
  Context {V : Type} (o : ops V) (smp : sampler V) (cov : V -> V -> R).
  Hypothesis HC : is_covariance o cov.
  Hypothesis HI : independent_samples smp cov.
  Hypothesis HD : degenerate_is_mean o smp.
  Context (la : levy_area) (eps : R) (vt : tree).
  Hypothesis P : proper vt.
  Notation val := (val o).
  Notation avail := (avail la).
  Notation var3 := (var3 la).
  Notation ev := (evaluate o smp la Sqrt eps vt).
  Notation evl := (evaluate_leaf o smp la Sqrt eps (scaled_tol vt) (vt_key vt)).
  Local Notation "0v" := (op_zero o).
  Ltac covs := repeat first [rewrite (cov_plus _ _ HC) | rewrite (cov_minus _ _ HC) | rewrite (cov_scale _ _ HC) | rewrite (cov_zero _ _ HC)].

  Definition place (t : R) : R := (t - vt_t0 vt) / length vt.
  Definition pick (i : nat) (x : increment V) : V := nth i [inc_W x; inc_H x; inc_K x] 0v.
  (** [levy_diff], by the values at its end and at its start *)
  Definition at_end (r r' : R) (i : nat) : list R :=
    nth i [[1; 0; 0]; [r / 2; 1; 0]; [r / 2 * (r / 2) + (r' - 2 * r) / 12 * r; r / 2; 1]] [].
  Definition at_start (r r' : R) (i : nat) : list R :=
    nth i [[- 1; 0; 0]; [- r' / 2; - 1; 0]; [- (r / 2 * (r' / 2)) - (r' - 2 * r) / 12 * r'; - r' / 2; - 1]] [].
  Definition factor (a : R) (i : nat) : R :=
    sqrt (length vt) * nth i [1; guarded_inverse eps a a; guarded_inverse eps (a * a) (a * a)] 0.
  Definition factor1 (r : R) (i : nat) : R :=
    let inverse := match la with STT => guarded_inverse eps (r * r) r | _ => guarded_inverse eps r r end in
    sqrt (length vt) * nth i [1; inverse; inverse ^ 2] 0.

  Lemma evl_dt (fuel : nat) (r : R) (x : levy_val V) : evl fuel r = Some x -> lv_dt x = r.
  Proof.
    intros X. apply evaluate_leaf_run in X as [_ (n & -> & _)].
    destruct (run o smp la n r (init_tree o smp la (vt_key vt))) as [l s [[ws wu] wsu] k [[hs hu] hsu] [[ks ku] ksu]].
    unfold tree_leaf. cbn [ts_level ts_s ts_key ts_w ts_bhh ts_bkk]. destruct la; try reflexivity.
    destruct (multivariate_normal _ _ _) as [[w h] kk]. reflexivity.
  Qed.
  Lemma evl_HK (fuel : nat) (r : R) (x : levy_val V) : evl fuel r = Some x -> forall z,
    cov z (lv_H x) = (if avail 1 then match la with STT => guarded_inverse eps (r * r) r | _ => guarded_inverse eps r r end * cov z (lv_bH x) else 0) /\
    cov z (lv_K x) = (if avail 2 then guarded_inverse eps (r * r) r ^ 2 * cov z (lv_bK x) else 0).
  Proof.
    intros X z. apply evaluate_leaf_run in X as [_ (n & -> & _)].
    destruct (run o smp la n r (init_tree o smp la (vt_key vt))) as [l s [[ws wu] wsu] k [[hs hu] hsu] [[ks ku] ksu]].
    unfold tree_leaf, Proof_CovLevy.avail. cbn [ts_level ts_s ts_key ts_w ts_bhh ts_bkk nth]. destruct la; cbn [lv_H lv_K lv_bH lv_bK nth].
    - split; apply (cov_zero _ _ HC).
    - rewrite (cov_scale _ _ HC). split; [reflexivity|apply (cov_zero _ _ HC)].
    - destruct (multivariate_normal _ _ _) as [[w h] kk]. cbn [lv_H lv_K lv_bH lv_bK]. rewrite !(cov_scale _ _ HC _ z). split; reflexivity.
  Qed.

  Lemma evaluate_pick (fuel : nat) (s t : R) (x : increment V) : ev fuel s (Some t) = Some x ->
    exists a b, evl fuel (place s) = Some a /\ evl fuel (place t) = Some b /\
    forall i z, (i < 3)%nat -> cov z (pick i x) = if avail i then factor (place t - place s) i *
      (dot3 (at_end (place s) (place t) i) (fun m => cov z (val m b)) + dot3 (at_start (place s) (place t) i) (fun m => cov z (val m a))) else 0.
  Proof.
    unfold evaluate. rewrite !linear_rescale_in by (exact (proj1 P)). fold (length vt). fold (place s) (place t).
    destruct (evl fuel (place s)) as [a|] eqn:A; [|discriminate]. destruct (evl fuel (place t)) as [b|] eqn:B; [|discriminate].
    intros [= <-]. exists a, b. do 2 (split; [reflexivity|]). apply evl_dt in A, B.
    intros i z Hi. unfold denormalise, levy_diff. rewrite A, B. unfold Proof_CovLevy.avail, pick, factor, at_end, at_start, dot3, Proof_CovLevy.val.
    fold (length vt). set (r := place s). set (r' := place t). clearbody r r'.
    destruct la; (destruct i as [|[|[|i]]]; [..|lia]); cbn [nth inc_W inc_H inc_K]; covs; field.
  Qed.
  Lemma evaluate_pick1 (fuel : nat) (t : R) (x : increment V) : ev fuel t None = Some x ->
    exists a, evl fuel (place t) = Some a /\
    forall i z, (i < 3)%nat -> cov z (pick i x) = if avail i then factor1 (place t) i * cov z (val i a) else 0.
  Proof.
    unfold evaluate. rewrite !linear_rescale_in by (exact (proj1 P)). fold (length vt). fold (place t).
    destruct (evl fuel (place t)) as [a|] eqn:A; [|discriminate].
    intros [= <-]. exists a. split; [reflexivity|].
    intros i z Hi. destruct (evl_HK _ _ _ A z) as [AH AK]. revert AH AK. unfold denormalise, make_levy_val, Proof_CovLevy.avail, pick, factor1, Proof_CovLevy.val.
    fold (length vt). destruct la; (destruct i as [|[|[|i]]]; [..|lia]); cbn [nth inc_W inc_H inc_K]; intros AH AK; covs; rewrite ?AH, ?AK; ring.
  Qed.

  Lemma place_le (s t : R) : s <= t -> place s <= place t.
  Proof.
    intros L. destruct P as [P1 _]. apply Rmult_le_compat_r; [left; apply Rinv_0_lt_compat; unfold length; lra|lra].
  Qed.
  Lemma evl_cov (fuel fuel' i j : nat) (s t : R) (x y : levy_val V) : told_apart vt s t -> (i < 3)%nat -> (j < 3)%nat ->
    evl fuel (place s) = Some x -> evl fuel' (place t) = Some y -> cov (val i x) (val j y) = target la (place s) (place t) i j.
  Proof.
    intros [Le Gr] Hi Hj X Y. refine (leaf_val_cov o smp cov HC HI HD la eps _ _ _ _ _ _ _ _ _ _ Hi Hj (place_le _ _ Le) _ X Y).
    destruct Gr as [->|Gr]; [auto|right]. now apply grid_rescale.
  Qed.

  Lemma told_refl (t : R) : told_apart vt t t.
  Proof. split; [lra|auto]. Qed.

  (** Over one interval *)
  Lemma pick_gram (fuel i j : nat) (s t : R) (x : increment V) : told_apart vt s t -> ev fuel s (Some t) = Some x -> (i < 3)%nat -> (j < 3)%nat ->
    cov (pick i x) (pick j x) = if Nat.eqb i j then factor (place t - place s) i ^ 2 * var3 (place t - place s) i else 0.
  Proof.
    intros T X Hi Hj. apply evaluate_pick in X as (a & b & A & B & X).
    rewrite X by auto. unfold dot3. rewrite !(cov_sym _ _ HC (pick i x)), !X by auto. unfold dot3.
    rewrite !(cov_sym _ _ HC (val _ b) (val _ a)).
    rewrite !(fun i j Hi Hj => evl_cov fuel fuel i j s t a b T Hi Hj A B) by lia.
    rewrite !(fun i j Hi Hj => evl_cov fuel fuel i j s s a a (told_refl s) Hi Hj A A) by lia.
    rewrite !(fun i j Hi Hj => evl_cov fuel fuel i j t t b b (told_refl t) Hi Hj B B) by lia.
    generalize (factor (place t - place s)). generalize (place s) (place t). clear - Hi Hj. intros r r' f.
    unfold target, Proof_CovLevy.var3, Proof_CovLevy.avail, at_end, at_start, chen, eH, eK.
    destruct la; (destruct i as [|[|[|i]]]; try lia); (destruct j as [|[|[|j]]]; try lia); cbn [nth Nat.eqb]; try ring; field.
  Qed.
  (** Over two *)
  Lemma pick_apart (fuel fuel' i j : nat) (s t s' t' : R) (x y : increment V) : told_apart vt s t -> told_apart vt t s' -> told_apart vt s' t' ->
    ev fuel s (Some t) = Some x -> ev fuel' s' (Some t') = Some y -> (i < 3)%nat -> (j < 3)%nat -> cov (pick i x) (pick j y) = 0.
  Proof.
    intros T1 T2 T3 X Y Hi Hj. apply evaluate_pick in X as (a & b & A & B & X). apply evaluate_pick in Y as (c & d & C & D & Y).
    pose proof (told_apart_trans vt _ _ _ T1 T2) as T12. pose proof (told_apart_trans vt _ _ _ T2 T3) as T23.
    pose proof (told_apart_trans vt _ _ _ T1 T23) as T13.
    rewrite Y by auto. unfold dot3. rewrite !(cov_sym _ _ HC (pick i x)), !X by auto. unfold dot3.
    rewrite !(cov_sym _ _ HC (val _ c)), !(cov_sym _ _ HC (val _ d)).
    rewrite !(fun i j Hi Hj => evl_cov fuel fuel' i j s s' a c T12 Hi Hj A C) by lia.
    rewrite !(fun i j Hi Hj => evl_cov fuel fuel' i j s t' a d T13 Hi Hj A D) by lia.
    rewrite !(fun i j Hi Hj => evl_cov fuel fuel' i j t s' b c T2 Hi Hj B C) by lia.
    rewrite !(fun i j Hi Hj => evl_cov fuel fuel' i j t t' b d T23 Hi Hj B D) by lia.
    generalize (factor (place t - place s)) (factor (place t' - place s')). generalize (place s) (place t) (place s') (place t'). clear - Hi Hj.
    intros r1 r2 r3 r4 f g.
    unfold target, Proof_CovLevy.var3, Proof_CovLevy.avail, at_end, at_start, chen, eH, eK.
    destruct la; (destruct i as [|[|[|i]]]; try lia); (destruct j as [|[|[|j]]]; try lia); cbn [nth]; try ring; field.
  Qed.

  Lemma length_pos : 0 < length vt.
  Proof. destruct P as [P1 _]. unfold length. lra. Qed.
  Lemma place_minus (s t : R) : place t - place s = (t - s) / length vt.
  Proof. pose proof length_pos. unfold place. field. lra. Qed.
  Lemma sqrt_len2 : sqrt (length vt) ^ 2 = length vt.
  Proof. pose proof length_pos. rewrite <- Rsqr_pow2, Rsqr_sqrt; lra. Qed.
  Lemma guard_open (a b : R) : 0 <= a -> eps <= a -> guarded_inverse eps a b = / b.
  Proof. intros A E. unfold guarded_inverse. rewrite Rabs_right by lra. destruct (Rlt_dec _ _); [lra|reflexivity]. Qed.
  Lemma apart_open (s t : R) : apart eps vt s t -> eps <= (t - s) / length vt /\ 0 < (t - s) / length vt.
  Proof.
    intros [L E]. pose proof length_pos as LP. split.
    - apply Rmult_le_reg_r with (length vt); [auto|]. unfold Rdiv. rewrite Rmult_assoc, Rinv_l by lra. lra.
    - apply Rdiv_lt_0_compat; lra.
  Qed.
  Lemma apart2_open (s t : R) : apart2 eps vt s t -> eps <= (t - s) / length vt * ((t - s) / length vt) /\ 0 < (t - s) / length vt.
  Proof.
    intros [L E]. pose proof length_pos as LP. split; [|apply Rdiv_lt_0_compat; lra].
    apply Rmult_le_reg_r with (length vt ^ 2); [now apply pow_lt|].
    replace ((t - s) / length vt * ((t - s) / length vt) * length vt ^ 2) with ((t - s) ^ 2) by (field; lra). lra.
  Qed.
End CovLevyInc.

Lemma pf_C45_levy (V : Type) (o : ops V) (smp : sampler V) (cov : V -> V -> R) (la : levy_area) (eps : R) (vt : tree)
  (fuel : nat) (s t : R) (x : increment V) :
  is_covariance o cov -> independent_samples smp cov -> degenerate_is_mean o smp -> proper vt ->
  told_apart vt s t ->
  evaluate o smp la Sqrt eps vt fuel s (Some t) = Some x ->
  (la <> BM -> apart eps vt s t -> cov (inc_H x) (inc_H x) = (t - s) / 12) /\
  (la = STT -> apart2 eps vt s t -> cov (inc_K x) (inc_K x) = (t - s) / 720) /\
  cov (inc_W x) (inc_H x) = 0 /\ cov (inc_W x) (inc_K x) = 0 /\ cov (inc_H x) (inc_K x) = 0.
Proof.
  intros HC HI HD P T X. pose proof (length_pos vt P) as LP. pose proof (sqrt_len2 vt P) as Q.
  pose proof (fun i j => pick_gram o smp cov HC HI HD la eps vt P fuel i j s t x T X) as G.
  split; [|split; [|repeat split]].
  - intros NB A. apply (apart_open eps vt P) in A as [A1 A2]. specialize (G 1%nat 1%nat ltac:(lia) ltac:(lia)). revert G.
    unfold pick, factor, var3. cbn [nth Nat.eqb]. rewrite (place_minus vt P), (guard_open eps) by lra. intros ->.
    rewrite Rpow_mult_distr, Q. assert (t - s <> 0) by (intros E; rewrite E in A2; unfold Rdiv in A2; lra).
    unfold eH. destruct la; [congruence| |]; field; lra.
  - intros -> A. apply (apart2_open eps vt P) in A as [A1 A2]. specialize (G 2%nat 2%nat ltac:(lia) ltac:(lia)). revert G.
    unfold pick, factor, var3. cbn [nth Nat.eqb]. rewrite (place_minus vt P), (guard_open eps) by nra. intros ->.
    rewrite Rpow_mult_distr, Q. assert (t - s <> 0) by (intros E; rewrite E in A2; unfold Rdiv in A2; lra).
    unfold eK. field; lra.
  - exact (G 0%nat 1%nat ltac:(lia) ltac:(lia)).
  - exact (G 0%nat 2%nat ltac:(lia) ltac:(lia)).
  - exact (G 1%nat 2%nat ltac:(lia) ltac:(lia)).
Qed.

Lemma pf_C45_levy_independent (V : Type) (o : ops V) (smp : sampler V) (cov : V -> V -> R) (la : levy_area) (eps : R) (vt : tree)
  (fuel fuel' : nat) (s t s' t' : R) (x y : increment V) :
  is_covariance o cov -> independent_samples smp cov -> degenerate_is_mean o smp -> proper vt ->
  told_apart vt s t -> told_apart vt t s' -> told_apart vt s' t' ->
  evaluate o smp la Sqrt eps vt fuel s (Some t) = Some x ->
  evaluate o smp la Sqrt eps vt fuel' s' (Some t') = Some y ->
  forall a b : V, In a [inc_W x; inc_H x; inc_K x] -> In b [inc_W y; inc_H y; inc_K y] -> cov a b = 0.
Proof.
  intros HC HI HD P T1 T2 T3 X Y a b A B.
  pose proof (fun i j => pick_apart o smp cov HC HI HD la eps vt P fuel fuel' i j s t s' t' x y T1 T2 T3 X Y) as G.
  apply In_nth with (d := op_zero o) in A as (i & Hi & <-). apply In_nth with (d := op_zero o) in B as (j & Hj & <-).
  exact (G i j Hi Hj).
Qed.

Lemma pf_C45_levy_single (V : Type) (o : ops V) (smp : sampler V) (cov : V -> V -> R) (la : levy_area) (eps : R) (vt : tree)
  (fuel : nat) (t : R) (x : increment V) :
  is_covariance o cov -> independent_samples smp cov -> degenerate_is_mean o smp -> proper vt ->
  evaluate o smp la Sqrt eps vt fuel t None = Some x ->
  (la = ST -> apart eps vt (vt_t0 vt) t -> cov (inc_H x) (inc_H x) = (t - vt_t0 vt) / 12) /\
  (la = STT -> apart2 eps vt (vt_t0 vt) t ->
   cov (inc_H x) (inc_H x) = (t - vt_t0 vt) / 12 /\ cov (inc_K x) (inc_K x) = (t - vt_t0 vt) / 720) /\
  cov (inc_W x) (inc_H x) = 0 /\ cov (inc_W x) (inc_K x) = 0 /\ cov (inc_H x) (inc_K x) = 0.
Proof.
  intros HC HI HD P X. pose proof (length_pos vt P) as LP. pose proof (sqrt_len2 vt P) as Q.
  apply (evaluate_pick1 o smp cov HC la eps vt P) in X as (a & A & X).
  assert (G : forall i j, (i < 3)%nat -> (j < 3)%nat -> cov (pick o i x) (pick o j x) =
    if Nat.eqb i j then factor1 la eps vt (place vt t) i ^ 2 * var3 la (place vt t) i else 0).
  { intros i j Hi Hj. rewrite X, (cov_sym _ _ HC (pick o i x)), X by auto.
    rewrite (evl_cov o smp cov HC HI HD la eps vt P fuel fuel j i t t a a (told_refl vt t) Hj Hi A A).
    generalize (factor1 la eps vt (place vt t)). generalize (place vt t). clear - Hi Hj. intros r f.
    unfold target, var3, avail, chen, eH, eK.
    destruct la; (destruct i as [|[|[|i]]]; try lia); (destruct j as [|[|[|j]]]; try lia); cbn [nth Nat.eqb]; try ring; field. }
  assert (N : forall c, 0 < (t - vt_t0 vt) / length vt -> c = 0 -> t - vt_t0 vt <> 0).
  { intros c H _ E. rewrite E in H. unfold Rdiv in H. lra. }
  split; [|split; [|repeat split]].
  - intros -> B. apply (apart_open eps vt P) in B as [A1 A2]. pose proof (N 0 A2 eq_refl). specialize (G 1%nat 1%nat ltac:(lia) ltac:(lia)). revert G.
    unfold pick, factor1, var3. cbn [nth Nat.eqb]. unfold place. rewrite (guard_open eps) by lra. intros ->.
    rewrite Rpow_mult_distr, Q. unfold eH. field; lra.
  - intros -> B. apply (apart2_open eps vt P) in B as [A1 A2]. pose proof (N 0 A2 eq_refl). 
    pose proof (G 1%nat 1%nat ltac:(lia) ltac:(lia)) as G1. pose proof (G 2%nat 2%nat ltac:(lia) ltac:(lia)) as G2. revert G1 G2.
    unfold pick, factor1, var3. cbn [nth Nat.eqb]. unfold place. rewrite (guard_open eps) by nra. intros -> ->.
    rewrite !Rpow_mult_distr, Q. unfold eH, eK. split; field; lra.
  - exact (G 0%nat 1%nat ltac:(lia) ltac:(lia)).
  - exact (G 0%nat 2%nat ltac:(lia) ltac:(lia)).
  - exact (G 1%nat 2%nat ltac:(lia) ltac:(lia)).
Qed.
