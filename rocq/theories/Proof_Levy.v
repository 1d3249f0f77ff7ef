(** Proofs about the Levy areas of the Brownian tree. *)
From Coq Require Import Reals List Bool Lra Lia Psatz.
From Verif Require Import Model_Brownian Spec_Brownian Proof_Brownian.
Import ListNotations.
Open Scope R_scope.

Section Chen.
  Context (smp : sampler R) (la : levy_area) (spl : spline) (eps : R) (vt : tree) (fuel : nat).
  Notation ev := (evaluate real_ops smp la spl eps vt fuel).
  Hypothesis T : vt_t0 vt < vt_t1 vt.

  Lemma evaluate_two (s t : R) (x : increment R) : ev s (Some t) = Some x ->
    exists a b, evaluate_leaf real_ops smp la spl eps (scaled_tol vt) (vt_key vt) fuel ((s - vt_t0 vt) / length vt) = Some a /\
      evaluate_leaf real_ops smp la spl eps (scaled_tol vt) (vt_key vt) fuel ((t - vt_t0 vt) / length vt) = Some b /\
      lv_dt a = (s - vt_t0 vt) / length vt /\ lv_dt b = (t - vt_t0 vt) / length vt /\
      x = denormalise real_ops vt (levy_diff real_ops la eps a b).
  Proof.
    unfold evaluate. rewrite !linear_rescale_in by auto.
    destruct (evaluate_leaf _ _ _ _ _ _ _ _ ((s - _) / _)) as [a|] eqn:A; [|discriminate].
    destruct (evaluate_leaf _ _ _ _ _ _ _ _ ((t - _) / _)) as [b|] eqn:B; [|discriminate].
    intros [= <-]. exists a, b. repeat split; auto.
    - apply evaluate_leaf_inv in A as (_ & n & -> & _). apply leaf_dt.
    - apply evaluate_leaf_inv in B as (_ & n & -> & _). apply leaf_dt.
  Qed.

  Lemma guarded_big (x y : R) : eps <= x -> 0 <= x -> guarded_inverse eps x y = / y.
  Proof. intros. unfold guarded_inverse. rewrite Rabs_right by lra. destruct (Rlt_dec _ _); [lra|reflexivity]. Qed.

  Lemma div_apart (s t : R) : apart eps vt s t ->
    eps <= (t - vt_t0 vt) / length vt - (s - vt_t0 vt) / length vt /\ 0 < (t - vt_t0 vt) / length vt - (s - vt_t0 vt) / length vt.
  Proof.
    intros [A B]. assert (L : 0 < length vt) by (unfold length; lra).
    replace ((t - vt_t0 vt) / length vt - (s - vt_t0 vt) / length vt) with ((t - s) / length vt) by (field; lra).
    split.
    - apply Rmult_le_reg_r with (length vt); [auto|]. unfold Rdiv. rewrite Rmult_assoc, Rinv_l by lra. lra.
    - apply Rdiv_lt_0_compat; lra.
  Qed.
  Lemma div_apart2 (s t : R) : apart2 eps vt s t -> let d := (t - vt_t0 vt) / length vt - (s - vt_t0 vt) / length vt in
    eps <= d * d /\ 0 < d.
  Proof.
    intros [A B]. assert (L : 0 < length vt) by (unfold length; lra). cbv zeta.
    replace ((t - vt_t0 vt) / length vt - (s - vt_t0 vt) / length vt) with ((t - s) / length vt) by (field; lra).
    split.
    - apply Rmult_le_reg_r with (length vt ^ 2); [nra|].
      replace ((t - s) / length vt * ((t - s) / length vt) * length vt ^ 2) with ((t - s) ^ 2) by (field; lra). lra.
    - apply Rdiv_lt_0_compat; lra.
  Qed.
End Chen.

Lemma pf_C46_chen_H (smp : sampler R) (la : levy_area) (spl : spline) (eps : R) (vt : tree) (fuel : nat) (s t u : R)
  (x y z : increment R) :
  proper vt -> 0 < eps -> la <> BM -> apart eps vt s t -> apart eps vt t u ->
  evaluate real_ops smp la spl eps vt fuel s (Some t) = Some x ->
  evaluate real_ops smp la spl eps vt fuel t (Some u) = Some y ->
  evaluate real_ops smp la spl eps vt fuel s (Some u) = Some z ->
  chen_H (t - s) (u - t) x y z.
Proof.
  intros [P T] E0 La A1 A2 X Y Z.
  assert (L : 0 < length vt) by (unfold length; lra).
  assert (A3 : apart eps vt s u). { destruct A1, A2. split; nra. }
  apply evaluate_two in X as (a & b & Ea & Eb & Da & Db & ->); auto.
  apply evaluate_two in Y as (b' & c & Eb' & Ec & _ & Dc & ->); auto.
  apply evaluate_two in Z as (a' & c' & Ea' & Ec' & _ & _ & ->); auto.
  rewrite Eb in Eb'; rewrite Ea in Ea'; rewrite Ec in Ec'.
  injection Eb' as <-; injection Ea' as <-; injection Ec' as <-. clear Ea Eb Ec.
  pose proof (div_apart eps vt P s t A1) as [G1 H1]. pose proof (div_apart eps vt P t u A2) as [G2 H2].
  pose proof (div_apart eps vt P s u A3) as [G3 H3].
  rewrite <- Da, <- Db, <- Dc in *.
  assert (S1 : t - s = length vt * (lv_dt b - lv_dt a)) by (rewrite Da, Db; field; lra).
  assert (S2 : u - t = length vt * (lv_dt c - lv_dt b)) by (rewrite Dc, Db; field; lra).
  unfold chen_H, denormalise. fold (length vt). rewrite S1, S2.
  clear S1 S2 Da Db Dc A1 A2 A3.
  destruct a as [r1 w1 h1 bh1 k1 bk1]; destruct b as [r2 w2 h2 bh2 k2 bk2]; destruct c as [r3 w3 h3 bh3 k3 bk3].
  cbn [lv_dt] in *.
  destruct la; [congruence| |]; unfold levy_diff; cbn [inc_H inc_W lv_dt lv_W lv_bH lv_bK op_plus op_minus op_scale real_ops];
    rewrite !guarded_big by lra; field; lra.
Qed.

Lemma pf_C46_chen_K (smp : sampler R) (spl : spline) (eps : R) (vt : tree) (fuel : nat) (s t u : R)
  (x y z : increment R) :
  proper vt -> 0 < eps <= 1 -> apart2 eps vt s t -> apart2 eps vt t u ->
  evaluate real_ops smp STT spl eps vt fuel s (Some t) = Some x ->
  evaluate real_ops smp STT spl eps vt fuel t (Some u) = Some y ->
  evaluate real_ops smp STT spl eps vt fuel s (Some u) = Some z ->
  chen_K (t - s) (u - t) x y z.
Proof.
  intros [P T] E0 A1 A2 X Y Z.
  assert (L : 0 < length vt) by (unfold length; lra).
  assert (A3 : apart2 eps vt s u). { destruct A1, A2. split; nra. }
  apply evaluate_two in X as (a & b & Ea & Eb & Da & Db & ->); auto.
  apply evaluate_two in Y as (b' & c & Eb' & Ec & _ & Dc & ->); auto.
  apply evaluate_two in Z as (a' & c' & Ea' & Ec' & _ & _ & ->); auto.
  rewrite Eb in Eb'; rewrite Ea in Ea'; rewrite Ec in Ec'.
  injection Eb' as <-; injection Ea' as <-; injection Ec' as <-.
  apply evaluate_leaf_inv in Ea as [Ra _]. apply evaluate_leaf_inv in Eb as [Rb _]. apply evaluate_leaf_inv in Ec as [Rc _].
  pose proof (div_apart2 eps vt P s t A1) as [G1 H1]. pose proof (div_apart2 eps vt P t u A2) as [G2 H2].
  pose proof (div_apart2 eps vt P s u A3) as [G3 H3].
  rewrite <- Da, <- Db, <- Dc in *.
  assert (S1 : t - s = length vt * (lv_dt b - lv_dt a)) by (rewrite Da, Db; field; lra).
  assert (S2 : u - t = length vt * (lv_dt c - lv_dt b)) by (rewrite Dc, Db; field; lra).
  unfold chen_K, denormalise. fold (length vt). rewrite S1, S2.
  clear S1 S2 Da Db Dc A1 A2 A3.
  destruct a as [r1 w1 h1 bh1 k1 bk1]; destruct b as [r2 w2 h2 bh2 k2 bk2]; destruct c as [r3 w3 h3 bh3 k3 bk3].
  cbn [lv_dt] in *.
  assert (K1 : eps <= r2 - r1) by nra. assert (K2 : eps <= r3 - r2) by nra. assert (K3 : eps <= r3 - r1) by nra.
  unfold levy_diff; cbn [inc_H inc_K inc_W lv_dt lv_W lv_bH lv_bK op_plus op_minus op_scale real_ops].
  rewrite (guarded_big eps (r2 - r1)), (guarded_big eps (r3 - r2)) by lra.
  rewrite (guarded_big eps ((r2 - r1) * (r2 - r1))), (guarded_big eps ((r3 - r2) * (r3 - r2))), (guarded_big eps ((r3 - r1) * (r3 - r1))) by lra.
  field. lra.
Qed.

Lemma pf_C46_single (smp : sampler R) (la : levy_area) (spl : spline) (eps : R) (vt : tree) (fuel : nat) (t : R)
  (x y : increment R) :
  degenerate_is_mean real_ops smp -> proper vt -> 0 < eps <= 1 -> apart2 eps vt (vt_t0 vt) t ->
  evaluate real_ops smp la spl eps vt fuel t None = Some x ->
  evaluate real_ops smp la spl eps vt fuel (vt_t0 vt) (Some t) = Some y ->
  x = y.
Proof.
  intros D [P T] E0 A1 X Y.
  assert (L : 0 < length vt) by (unfold length; lra).
  apply evaluate_two in Y as (a & b & Ea & Eb & Da & Db & ->); auto.
  unfold evaluate in X. rewrite linear_rescale_in in X by auto. rewrite Eb in X. injection X as <-.
  pose proof (div_apart2 eps vt P _ _ A1) as [G1 H1]. rewrite <- Da, <- Db in *.
  f_equal.
  assert (Za : (vt_t0 vt - vt_t0 vt) / length vt = 0) by (field; lra).
  rewrite Za in *.
  apply evaluate_leaf_inv in Ea as [_ (n & -> & _)]. apply evaluate_leaf_inv in Eb as [Rb (m & Eb & _)].
  pose proof (leaf_HK smp la spl eps (lv_dt b) (run real_ops smp la m (lv_dt b) (init_tree real_ops smp la (vt_key vt)))) as [HH HK].
  rewrite <- Eb in HH, HK. clear Eb Db.
  rewrite run_left by auto. rewrite Da in *.
  assert (V : value_at la eps 0 (left_end la (init_tree real_ops smp la (vt_key vt))) = LevyVal 0 0 0 0 0 0)
    by (unfold value_at, left_end, init_tree; destruct la; cbn; f_equal; ring).
  rewrite V. cbn [lv_dt] in *.
  destruct b as [r w h bh k bk]. cbn [lv_dt lv_H lv_K lv_bH lv_bK] in *.
  replace (r - 0) with r in * by ring.
  assert (K1 : eps <= r) by nra.
  unfold make_levy_val, levy_diff. cbn [inc_H inc_K inc_W lv_dt lv_W lv_H lv_K lv_bH lv_bK op_plus op_minus op_scale op_zero real_ops].
  replace (r - 0) with r by ring.
  rewrite (guarded_big eps r) in * by lra. rewrite (guarded_big eps (r * r)) in * by lra.
  destruct la; subst; f_equal; try ring; field; lra.
Qed.

(** Samples that are zero, except those with which the space-time-time Levy area of the whole interval is drawn *)
Definition only_K : sampler R :=
  Sampler (fun k => match k with 3%nat :: _ => sqrt 720 | _ => 0 end) (fun _ _ => (0, 0, 0)).
Definition unit_tree : tree := Tree 0 1 1 [].

Lemma only_K_leaf (eps r : R) (fuel : nat) : 0 <= r <= 1 ->
  evaluate_leaf real_ops only_K STT Sqrt eps (scaled_tol unit_tree) [] fuel (linear_rescale 0 r 1) =
  Some (let w := 120 * r * (1 - r) * (1 / 2 - r) in let h := 30 * r ^ 3 * (1 - r) in let k := r ^ 5 in
        LevyVal r w (guarded_inverse eps (r * r) r * h) h (guarded_inverse eps (r * r) r ^ 2 * k) k).
Proof.
  intros Hr.
  assert (Tl : scaled_tol unit_tree = 1) by (unfold scaled_tol, unit_tree; cbn; field).
  assert (Lr : linear_rescale 0 r 1 = r).
  { unfold linear_rescale. destruct (Req_EM_T _ _); [lra|]. field. }
  rewrite Tl, Lr. unfold evaluate_leaf. destruct (Rlt_dec r 0); [lra|]. destruct (Rlt_dec 1 r); [lra|].
  assert (Lp : tree_loop real_ops only_K STT 1 r fuel (init_tree real_ops only_K STT []) = Some (init_tree real_ops only_K STT [])).
  { destruct fuel; cbn [tree_loop init_tree ts_level]; unfold pow2; simpl pow; (destruct (Rlt_dec 1 1); [lra|reflexivity]). }
  rewrite Lp. apply f_equal.
  unfold tree_leaf, init_tree. cbn [ts_level ts_s ts_w ts_bhh ts_bkk ts_key normal multivariate_normal only_K split].
  assert (P1 : pow2 0 = 1) by reflexivity. rewrite P1.
  replace (r - 0) with r by ring. rewrite (relu_pos r) by lra. rewrite (relu_pos (1 - r)) by lra.
  cbn [op_plus op_minus op_scale op_zero real_ops].
  assert (Q : sqrt 720 <> 0) by (apply Rgt_not_eq, sqrt_lt_R0; lra).
  assert (Q2 : sqrt 12 <> 0) by (apply Rgt_not_eq, sqrt_lt_R0; lra).
  replace (1 / sqrt 720 * sqrt 720) with 1 by (field; auto).
  cbv zeta. f_equal; try (field; auto); try (apply f_equal; field; auto).
Qed.

Lemma pf_C46_small_steps_refuted :
  exists (smp : sampler R) (vt : tree) (s t u : R) (x y z : increment R), forall fuel,
  let eps := / 2 ^ 23 in
  degenerate_is_mean real_ops smp /\ proper vt /\ apart eps vt s t /\ apart eps vt t u /\
  evaluate real_ops smp STT Sqrt eps vt fuel s (Some t) = Some x /\
  evaluate real_ops smp STT Sqrt eps vt fuel t (Some u) = Some y /\
  evaluate real_ops smp STT Sqrt eps vt fuel s (Some u) = Some z /\
  ~ chen_K (t - s) (u - t) x y z.
Proof.
  set (eps := / 2 ^ 23).
  set (X := fun r => let w := 120 * r * (1 - r) * (1 / 2 - r) in let h := 30 * r ^ 3 * (1 - r) in let k := r ^ 5 in
        LevyVal r w (guarded_inverse eps (r * r) r * h) h (guarded_inverse eps (r * r) r ^ 2 * k) k).
  set (D := fun a b => denormalise real_ops unit_tree (levy_diff real_ops STT eps (X a) (X b))).
  exists only_K, unit_tree, 0, (/ 4096), (/ 2), (D 0 (/ 4096)), (D (/ 4096) (/ 2)), (D 0 (/ 2)).
  intros fuel. cbv zeta. fold eps.
  assert (Ee : eps = / 8388608) by (unfold eps; f_equal; lra).
  assert (EV : forall a b, 0 <= a <= 1 -> 0 <= b <= 1 ->
     evaluate real_ops only_K STT Sqrt eps unit_tree fuel a (Some b) = Some (D a b)).
  { intros a b Ha Hb. unfold evaluate. cbn [vt_t0 vt_t1 vt_key unit_tree].
    rewrite (only_K_leaf eps a fuel Ha), (only_K_leaf eps b fuel Hb). reflexivity. }
  assert (L1 : length unit_tree = 1) by (unfold length, unit_tree; cbn; ring).
  split; [intros k; reflexivity|]. split; [split; cbn; lra|].
  split; [split; [lra|rewrite L1, Ee; lra]|]. split; [split; [lra|rewrite L1, Ee; lra]|].
  rewrite !EV by lra. split; [reflexivity|]. split; [reflexivity|]. split; [reflexivity|].
  unfold chen_K, D, denormalise, levy_diff, X.
  cbn [inc_H inc_K inc_W lv_dt lv_W lv_bH lv_bK op_plus op_minus op_scale real_ops vt_t0 vt_t1 unit_tree].
  replace (1 - 0) with 1 by ring. rewrite sqrt_1.
  assert (G0 : forall z, guarded_inverse eps ((/ 4096 - 0) * (/ 4096 - 0)) z = 0).
  { intros z. unfold guarded_inverse. rewrite Rabs_right by lra. destruct (Rlt_dec _ _); [reflexivity|lra]. }
  rewrite G0.
  rewrite (guarded_big eps (/ 4096 - 0)), (guarded_big eps (/ 2 - / 4096)) by lra.
  rewrite (guarded_big eps ((/ 2 - / 4096) * (/ 2 - / 4096))), (guarded_big eps ((/ 2 - 0) * (/ 2 - 0))) by lra.
  intros F. field_simplify in F. lra.
Qed.

Lemma pf_C46_single_refuted :
  exists (smp : sampler R) (vt : tree) (t : R) (x y : increment R), forall fuel,
  let eps := / 2 ^ 23 in
  degenerate_is_mean real_ops smp /\ proper vt /\ apart eps vt (vt_t0 vt) t /\
  evaluate real_ops smp STT Sqrt eps vt fuel t None = Some x /\
  evaluate real_ops smp STT Sqrt eps vt fuel (vt_t0 vt) (Some t) = Some y /\
  inc_H x <> inc_H y.
Proof.
  set (eps := / 2 ^ 23).
  set (X := fun r => let w := 120 * r * (1 - r) * (1 / 2 - r) in let h := 30 * r ^ 3 * (1 - r) in let k := r ^ 5 in
        LevyVal r w (guarded_inverse eps (r * r) r * h) h (guarded_inverse eps (r * r) r ^ 2 * k) k).
  exists only_K, unit_tree, (/ 4096), (denormalise real_ops unit_tree (make_levy_val (X (/ 4096)))),
    (denormalise real_ops unit_tree (levy_diff real_ops STT eps (X 0) (X (/ 4096)))).
  intros fuel. cbv zeta. fold eps.
  assert (Ee : eps = / 8388608) by (unfold eps; f_equal; lra).
  assert (L1 : length unit_tree = 1) by (unfold length, unit_tree; cbn; ring).
  split; [intros k; reflexivity|]. split; [split; cbn; lra|].
  split; [split; [cbn; lra|rewrite L1, Ee; cbn; lra]|].
  unfold evaluate. cbn [vt_t0 vt_t1 vt_key unit_tree].
  rewrite (only_K_leaf eps (/ 4096) fuel), (only_K_leaf eps 0 fuel) by lra.
  split; [reflexivity|]. split; [reflexivity|].
  unfold denormalise, make_levy_val, levy_diff, X.
  cbn [inc_H inc_K inc_W lv_dt lv_W lv_H lv_bH lv_bK op_plus op_minus op_scale real_ops vt_t0 vt_t1 unit_tree].
  replace (1 - 0) with 1 by ring. rewrite sqrt_1.
  assert (G0 : forall z, guarded_inverse eps (/ 4096 * / 4096) z = 0).
  { intros z. unfold guarded_inverse. rewrite Rabs_right by lra. destruct (Rlt_dec _ _); [reflexivity|lra]. }
  rewrite G0. rewrite (guarded_big eps (/ 4096 - 0)) by lra.
  intros F. field_simplify in F. lra.
Qed.
