(** Proofs about the Brownian tree: one path. *)
From Coq Require Import Reals List Bool Lra Lia Psatz.
From Verif Require Import Model_Brownian Spec_Brownian.
Import ListNotations.
Open Scope R_scope.

Lemma pow2_pos (n : nat) : 0 < pow2 n.
Proof. unfold pow2. apply pow_lt. lra. Qed.
Lemma pow2_S (n : nat) : pow2 (n + 1) = pow2 n / 2.
Proof. unfold pow2. rewrite pow_add. simpl. lra. Qed.
Lemma pow2_inv (n : nat) : pow2 n = / 2 ^ n.
Proof. unfold pow2. rewrite pow_inv. reflexivity. Qed.

Section Loop.
  Context {V : Type} (o : ops V) (smp : sampler V) (la : levy_area) (spl : spline) (eps : R).
  Notation body := (tree_body o smp la).

  Lemma body_level (r : R) (st : tree_state V) : ts_level (body r st) = (ts_level st + 1)%nat.
  Proof.
    destruct st as [l s [[ws wu] wsu] k [[hs hu] hsu] [[ks ku] ksu]].
    unfold tree_body, brownian_arch. destruct la; reflexivity.
  Qed.
  Lemma body_s (r : R) (st : tree_state V) :
    ts_s (body r st) = if Rlt_dec (ts_s st + pow2 (ts_level st) / 2) r then ts_s st + pow2 (ts_level st) / 2 else ts_s st.
  Proof.
    destruct st as [l s [[ws wu] wsu] k [[hs hu] hsu] [[ks ku] ksu]].
    unfold tree_body, brownian_arch. destruct la; cbn; destruct (Rlt_dec _ _); reflexivity.
  Qed.

  Fixpoint run (n : nat) (r : R) (st : tree_state V) : tree_state V :=
    match n with O => st | S n => run n r (body r st) end.

  Lemma run_level (n : nat) (r : R) (st : tree_state V) : ts_level (run n r st) = (ts_level st + n)%nat.
  Proof. revert st; induction n; intros; cbn; [lia|]. rewrite IHn, body_level. lia. Qed.
  Lemma run_add (n m : nat) (r : R) (st : tree_state V) : run (n + m) r st = run m r (run n r st).
  Proof. revert st; induction n; intros; cbn; auto. Qed.

  Lemma loop_run (tol r : R) (fuel : nat) : forall st f, tree_loop o smp la tol r fuel st = Some f ->
    exists n, f = run n r st /\ pow2 (ts_level st + n) <= tol /\ forall j, (j < n)%nat -> tol < pow2 (ts_level st + j).
  Proof.
    induction fuel; intros st f; cbn [tree_loop]; destruct (Rlt_dec _ _) as [L|L]; try discriminate.
    - intros [= <-]. exists 0%nat. split; [reflexivity|]. rewrite Nat.add_0_r. split; [lra|lia].
    - intros Hf. destruct (IHfuel _ _ Hf) as (n & E1 & E2 & E3). exists (S n). rewrite body_level in *.
      split; [exact E1|]. split; [now replace (ts_level st + S n)%nat with (ts_level st + 1 + n)%nat by lia|].
      intros [|j] Hj; [now rewrite Nat.add_0_r|].
      replace (ts_level st + S j)%nat with (ts_level st + 1 + j)%nat by lia. apply E3. lia.
    - intros [= <-]. exists 0%nat. split; [reflexivity|]. rewrite Nat.add_0_r. split; [lra|lia].
  Qed.
  Lemma loop_some (tol r : R) (n : nat) : forall fuel st, (n <= fuel)%nat -> pow2 (ts_level st + n) <= tol ->
    exists f, tree_loop o smp la tol r fuel st = Some f.
  Proof.
    induction n; intros fuel st Hn Hp.
    - rewrite Nat.add_0_r in Hp. exists st. destruct fuel; cbn; destruct (Rlt_dec _ _); auto; lra.
    - destruct fuel; [lia|]. cbn. destruct (Rlt_dec _ _); [|eauto].
      apply IHn; [lia|]. rewrite body_level. now replace (ts_level st + 1 + n)%nat with (ts_level st + S n)%nat by lia.
  Qed.
  Lemma pow2_anti (n m : nat) : (n <= m)%nat -> pow2 m <= pow2 n.
  Proof.
    intros H. induction H; [lra|]. replace (S m) with (m + 1)%nat by lia. rewrite pow2_S.
    pose proof (pow2_pos m). lra.
  Qed.
  Lemma depth_unique (tol : R) (n m l : nat) : pow2 (l + n) <= tol -> (forall j, (j < n)%nat -> tol < pow2 (l + j)) ->
    pow2 (l + m) <= tol -> (forall j, (j < m)%nat -> tol < pow2 (l + j)) -> n = m.
  Proof.
    intros A B C D. destruct (Nat.lt_trichotomy n m) as [H|[H|H]]; auto; [specialize (D _ H)|specialize (B _ H)]; lra.
  Qed.

  (** The position of [r]: in the half-open interval of the state, or at the start *)
  Definition located (r : R) (st : tree_state V) : Prop :=
    (ts_s st < r <= ts_s st + pow2 (ts_level st)) \/ (r = 0 /\ ts_s st = 0).
  Lemma located_body (r : R) (st : tree_state V) : 0 <= ts_s st -> located r st -> 0 <= ts_s (body r st) /\ located r (body r st).
  Proof.
    unfold located. intros S0 L. rewrite body_s, body_level, pow2_S. pose proof (pow2_pos (ts_level st)).
    destruct (Rlt_dec _ _); lra.
  Qed.
  Lemma located_run (n : nat) (r : R) : forall st, 0 <= ts_s st -> located r st -> 0 <= ts_s (run n r st) /\ located r (run n r st).
  Proof. induction n; intros; cbn; auto. destruct (located_body r st); auto. Qed.

  (** The left end is a multiple of the length. *)
  Definition aligned (st : tree_state V) : Prop := exists i, ts_s st = INR i * pow2 (ts_level st).
  Lemma aligned_body (r : R) (st : tree_state V) : aligned st -> aligned (body r st).
  Proof.
    intros [i Hi]. unfold aligned. rewrite body_s, body_level, pow2_S.
    destruct (Rlt_dec _ _); [exists (2 * i + 1)%nat|exists (2 * i)%nat];
      rewrite ?plus_INR, mult_INR, Hi; simpl; lra.
  Qed.
  Lemma aligned_run (n : nat) (r : R) : forall st, aligned st -> aligned (run n r st).
  Proof. induction n; intros; cbn; auto. apply IHn, aligned_body; auto. Qed.
End Loop.

Section Path.
  Context (smp : sampler R) (la : levy_area) (spl : spline) (eps : R).
  Hypothesis deg : degenerate_is_mean real_ops smp.
  Notation body := (tree_body real_ops smp la).
  Notation leaf := (tree_leaf real_ops smp la spl eps).
  Notation run := (run real_ops smp la).

  (** The values at both ends and over the interval fit together. *)
  Definition chen (st : tree_state R) : Prop :=
    let s := ts_s st in
    let u := s + pow2 (ts_level st) in
    let '(w_s, w_u, w_su) := ts_w st in
    let '(h_s, h_u, h_su) := ts_bhh st in
    let '(k_s, k_u, k_su) := ts_bkk st in
    w_u = w_s + w_su /\
    (la <> BM -> h_u = h_s + h_su + 1 / 2 * (u * w_s - s * w_u)) /\
    (la = STT -> k_u = k_s + k_su + (u - s) / 2 * h_s - s / 2 * h_su + (u - 2 * s) / 12 * (u * w_s - s * w_u)).

  Definition right_end (st : tree_state R) : R * R * R :=
    (snd (fst (ts_w st)), match la with BM => 0 | _ => snd (fst (ts_bhh st)) end, match la with STT => snd (fst (ts_bkk st)) | _ => 0 end).
  Definition left_end (st : tree_state R) : R * R * R :=
    (fst (fst (ts_w st)), match la with BM => 0 | _ => fst (fst (ts_bhh st)) end, match la with STT => fst (fst (ts_bkk st)) | _ => 0 end).

  Lemma chen_body (r : R) (st : tree_state R) : chen st -> chen (body r st).
  Proof.
    destruct st as [l s [[ws wu] wsu] k [[hs hu] hsu] [[ks ku] ksu]].
    unfold chen, tree_body, brownian_arch. cbn [ts_level ts_s ts_w ts_bhh ts_bkk ts_key].
    pose proof (pow2_pos l) as P. set (p := pow2 l) in *.
    intros (A & B & C).
    destruct la; cbn; destruct (Rlt_dec _ _); cbn; fold p; rewrite ?pow2_S; fold p;
      (repeat split; try congruence; try (intros _);
       try specialize (B ltac:(discriminate)); try specialize (C eq_refl); subst; try (unfold Rminus; field; lra); try lra).
  Qed.
  Lemma chen_run (n : nat) (r : R) : forall st, chen st -> chen (run n r st).
  Proof. induction n; intros; cbn; auto. apply IHn, chen_body; auto. Qed.

  Lemma right_end_body (r : R) (st : tree_state R) : r = ts_s st + pow2 (ts_level st) -> right_end (body r st) = right_end st.
  Proof.
    destruct st as [l s [[ws wu] wsu] k [[hs hu] hsu] [[ks ku] ksu]]. cbn [ts_s ts_level]. intros ->.
    pose proof (pow2_pos l) as P.
    unfold right_end, tree_body, brownian_arch. destruct la; cbn -[pow2]; destruct (Rlt_dec _ _); cbn; try reflexivity; exfalso; lra.
  Qed.
  Lemma left_end_body (r : R) (st : tree_state R) : r = ts_s st -> left_end (body r st) = left_end st.
  Proof.
    destruct st as [l s [[ws wu] wsu] k [[hs hu] hsu] [[ks ku] ksu]]. cbn [ts_s ts_level]. intros ->.
    pose proof (pow2_pos l) as P.
    unfold left_end, tree_body, brownian_arch. destruct la; cbn -[pow2]; destruct (Rlt_dec _ _); cbn; try reflexivity; exfalso; lra.
  Qed.
  Lemma right_time_body (r : R) (st : tree_state R) : r = ts_s st + pow2 (ts_level st) ->
    r = ts_s (body r st) + pow2 (ts_level (body r st)).
  Proof.
    intros E. rewrite body_s, body_level, pow2_S. pose proof (pow2_pos (ts_level st)). destruct (Rlt_dec _ _); lra.
  Qed.
  Lemma left_time_body (r : R) (st : tree_state R) : r = ts_s st -> r = ts_s (body r st).
  Proof.
    intros E. rewrite body_s. pose proof (pow2_pos (ts_level st)). destruct (Rlt_dec _ _); lra.
  Qed.

  Lemma relu_pos (x : R) : 0 <= x -> relu x = x.
  Proof. intros. unfold relu. rewrite Rmax_right; lra. Qed.

  (** The dummies stay zero. *)
  Definition no_dummies (st : tree_state R) : Prop :=
    (la = BM -> ts_bhh st = (0, 0, 0)) /\ (la <> STT -> ts_bkk st = (0, 0, 0)).
  Lemma no_dummies_body (r : R) (st : tree_state R) : no_dummies st -> no_dummies (body r st).
  Proof.
    destruct st as [l s [[ws wu] wsu] k [[hs hu] hsu] [[ks ku] ksu]].
    unfold no_dummies, tree_body, brownian_arch. cbn [ts_bhh ts_bkk].
    intros [A B]. destruct la; split; intros Q; try congruence;
      try specialize (A eq_refl); try specialize (B ltac:(discriminate)); cbn; destruct (Rlt_dec _ _); cbn; congruence.
  Qed.

  Definition value_at (r : R) (x : R * R * R) : levy_val R :=
    let '(w, h, k) := x in
    match la with
    | BM => LevyVal r w 0 0 0 0
    | ST => LevyVal r w (guarded_inverse eps r r * h) h 0 0
    | STT => LevyVal r w (guarded_inverse eps (r * r) r * h) h (guarded_inverse eps (r * r) r ^ 2 * k) k
    end.

  Lemma leaf_right (r : R) (st : tree_state R) : chen st -> r = ts_s st + pow2 (ts_level st) ->
    leaf r st = value_at r (right_end st).
  Proof.
    destruct st as [l s [[ws wu] wsu] k [[hs hu] hsu] [[ks ku] ksu]].
    unfold chen, tree_leaf, right_end, value_at. cbn [ts_level ts_s ts_w ts_bhh ts_bkk ts_key fst snd].
    pose proof (pow2_pos l) as P. set (p := pow2 l) in *. intros (A & B & C) Er.
    rewrite (relu_pos (r - s)) by lra. rewrite (relu_pos (p - (r - s))) by lra.
    replace (r - s) with p by lra. replace (p - p) with 0 by lra.
    assert (D : p / p = 1) by (field; lra).
    destruct la.
    - rewrite D. cbn. replace (p * 0 / p) with 0 by (field; lra). rewrite sqrt_0. f_equal. destruct spl; lra.
    - specialize (B ltac:(discriminate)). rewrite D.
      replace (p * 0) with 0 by ring. rewrite sqrt_0.
      replace (3 * p ^ 3 * 0 ^ 3) with 0 by ring. rewrite sqrt_0.
      assert (D3 : p ^ 3 / p ^ 3 = 1) by (field; lra). rewrite D3.
      assert (E0 : 6 * p * 0 / p ^ 3 = 0) by (unfold Rdiv; ring). rewrite E0.
      assert (Ez : forall q, q * p ^ 3 * 0 = 0) by (intros; ring).
      assert (Ez' : forall q, q * 0 ^ 3 * 0 = 0) by (intros; ring).
      assert (G : forall x1 x2 : R,
        LevyVal r (ws + (1 * wsu + 0 * hsu + 2 * (0 + 0) / p * x1))
          (guarded_inverse eps r r * (hs + (1 * hsu - 0 * x1 + 0 / (6 * sqrt (p ^ 3 + 0 ^ 3)) * x2) + 1 / 2 * (r * ws - s * (ws + (1 * wsu + 0 * hsu + 2 * (0 + 0) / p * x1)))))
          (hs + (1 * hsu - 0 * x1 + 0 / (6 * sqrt (p ^ 3 + 0 ^ 3)) * x2) + 1 / 2 * (r * ws - s * (ws + (1 * wsu + 0 * hsu + 2 * (0 + 0) / p * x1)))) 0 0
        = LevyVal r wu (guarded_inverse eps r r * hu) hu 0 0).
      { intros. assert (W : ws + (1 * wsu + 0 * hsu + 2 * (0 + 0) / p * x1) = wu) by (rewrite A; unfold Rdiv; ring).
        rewrite W.
        assert (Hh : hs + (1 * hsu - 0 * x1 + 0 / (6 * sqrt (p ^ 3 + 0 ^ 3)) * x2) + 1 / 2 * (r * ws - s * wu) = hu)
          by (rewrite B, Er; unfold Rdiv; ring).
        rewrite Hh. reflexivity. }
      destruct spl; cbn [op_zero op_plus op_minus op_scale real_ops]; rewrite ?Ez, ?Ez'; apply G.
    - specialize (B ltac:(discriminate)). specialize (C eq_refl). rewrite D.
      replace (0 / p) with 0 by (unfold Rdiv; ring).
      assert (M : multivariate_normal smp k
           (Matrix3 (1 * 0 * ((p - 0) ^ 4 + 4 * (p ^ 2 * 0 ^ 2)) / p ^ 3) (- (1 ^ 3 * 0 * (p ^ 2 - 3 * p * 0 + 6 * 0 ^ 2)) / (2 * p))
              (1 ^ 4 * 0 * (p - 0) / 12) (p / 12 * (1 - 1 ^ 3 * (p ^ 2 + 2 * p * 0 + 16 * 0 ^ 2) / p ^ 2)) (- (0 / 24) * 1 ^ 5) (p / 720 * (1 - 1 ^ 5)))
           = (0, 0, 0)).
      { transitivity (multivariate_normal smp k (Matrix3 0 0 0 0 0 0)); [|apply deg]. f_equal. f_equal; try (unfold Rdiv; ring); field; lra. }
      assert (G : LevyVal r wu (guarded_inverse eps (r * r) r * hu) hu (guarded_inverse eps (r * r) r ^ 2 * ku) ku =
                  LevyVal r wu (guarded_inverse eps (r * r) r * hu) hu (guarded_inverse eps (r * r) r ^ 2 * ku) ku) by reflexivity.
      destruct spl; rewrite ?M; cbn [op_zero op_plus op_minus op_scale real_ops];
        (match goal with |- LevyVal r ?w (?i * ?h) ?h _ ?kk = _ =>
           assert (W : w = wu) by (rewrite A; field; lra);
           rewrite W;
           assert (Hh : h = hu) by (rewrite W, B, Er; field; lra);
           rewrite W in Hh; rewrite Hh
         end);
        (match goal with |- LevyVal r _ _ _ _ ?kk = _ =>
           assert (Hk : kk = ku) by (rewrite C; replace (r - 2 * s) with (s + p - 2 * s) by lra; rewrite Er; field; lra);
           rewrite Hk end); reflexivity.
  Qed.

  Lemma leaf_left (r : R) (st : tree_state R) : r = 0 -> ts_s st = 0 -> leaf r st = value_at r (left_end st).
  Proof.
    destruct st as [l s [[ws wu] wsu] k [[hs hu] hsu] [[ks ku] ksu]].
    unfold tree_leaf, left_end, value_at. cbn [ts_level ts_s ts_w ts_bhh ts_bkk ts_key fst snd].
    pose proof (pow2_pos l) as P. set (p := pow2 l) in *. intros -> ->.
    rewrite (relu_pos (0 - 0)) by lra. rewrite (relu_pos (p - (0 - 0))) by lra.
    replace (0 - 0) with 0 by lra. replace (p - 0) with p by lra.
    assert (D : p / p = 1) by (field; lra).
    assert (D0 : 0 / p = 0) by (field; lra).
    destruct la.
    - rewrite D0. cbn. replace (0 * p / p) with 0 by (field; lra). rewrite sqrt_0. f_equal. destruct spl; lra.
    - rewrite D0. replace (0 * p) with 0 by ring. rewrite sqrt_0.
      replace (3 * 0 ^ 3 * p ^ 3) with 0 by ring. rewrite sqrt_0.
      destruct spl; rewrite ?deg; cbn [op_zero op_plus op_minus op_scale real_ops];
        match goal with |- LevyVal _ ?w (_ * ?h) ?h _ _ = _ =>
          assert (W : w = ws) by (unfold Rdiv; ring);
          assert (Hh : h = hs) by (unfold Rdiv; ring); rewrite Hh, W end; reflexivity.
    - rewrite D, D0.
      match goal with |- context [Matrix3 ?a ?b ?c ?d ?e ?f] =>
        replace (Matrix3 a b c d e f) with (Matrix3 0 0 0 0 0 0) by (f_equal; field; lra) end.
      rewrite ?deg.
      destruct spl; rewrite ?deg; cbn [op_zero op_plus op_minus op_scale real_ops];
        (f_equal; [unfold Rdiv; ring|apply f_equal; unfold Rdiv; ring|unfold Rdiv; ring|apply f_equal; unfold Rdiv; ring|unfold Rdiv; ring]).
  Qed.

  Lemma run_right (n : nat) (r : R) : forall st, chen st -> r = ts_s st + pow2 (ts_level st) ->
    leaf r (run n r st) = value_at r (right_end st).
  Proof.
    induction n; intros st C E; cbn; [now apply leaf_right|].
    rewrite IHn; [now rewrite right_end_body|now apply chen_body|now apply right_time_body].
  Qed.
  Lemma run_left (n : nat) (r : R) : forall st, r = 0 -> ts_s st = 0 -> leaf r (run n r st) = value_at r (left_end st).
  Proof.
    induction n; intros st E0 E; cbn; [now apply leaf_left|].
    rewrite IHn; [now rewrite left_end_body by (now rewrite E)|easy|].
    rewrite <- (left_time_body r st); [exact E0|now rewrite E].
  Qed.

  Lemma chen_init (k : key) : chen (init_tree real_ops smp la k).
  Proof.
    unfold chen, init_tree. cbn [ts_level ts_s ts_w ts_bhh ts_bkk op_zero real_ops].
    assert (P1 : pow2 0 = 1) by reflexivity. rewrite P1.
    destruct la; repeat split; try congruence; intros; lra.
  Qed.

  (** A dyadic time ends up at an end of an interval. *)
  Lemma dyadic_run (n : nat) (kk : nat) (r : R) (k : key) : r = INR kk * pow2 n -> INR kk * pow2 n <= 1 ->
    let st := run n r (init_tree real_ops smp la k) in
    r = ts_s st + pow2 (ts_level st) \/ (r = 0 /\ ts_s st = 0).
  Proof.
    intros Er Hk st. set (i0 := init_tree real_ops smp la k) in *.
    assert (L0 : located r i0).
    { unfold located, i0, init_tree; cbn [ts_s ts_level]. unfold pow2 at 1. simpl.
      assert (0 <= r). { rewrite Er. pose proof (pos_INR kk). pose proof (pow2_pos n). nra. }
      destruct (Req_EM_T r 0); [right; auto|left; lra]. }
    assert (A0 : aligned i0). { exists 0%nat. unfold i0, init_tree; cbn. lra. }
    destruct (located_run real_ops smp la n r i0) as [S0 L]; [cbn; lra|auto|]. fold st in L, S0.
    pose proof (aligned_run real_ops smp la n r i0 A0) as [i Hi]. fold st in Hi.
    assert (Lv : ts_level st = n) by (unfold st; rewrite run_level; reflexivity). rewrite Lv in *.
    destruct L as [L|L]; [left|right; exact L]. rewrite Lv in L.
    rewrite Hi in L |- *. rewrite Er in L |- *. pose proof (pow2_pos n) as P.
    assert (INR i < INR kk) by nra. assert (INR kk <= INR i + 1) by nra.
    assert (i < kk)%nat by (now apply INR_lt). assert (kk <= i + 1)%nat by (apply INR_le; rewrite plus_INR; simpl; lra).
    assert (kk = (i + 1)%nat) as -> by lia. rewrite plus_INR. simpl. lra.
  Qed.

  Lemma dyadic_value (n m : nat) (kk : nat) (r : R) (k : key) : r = INR kk * pow2 n -> INR kk * pow2 n <= 1 ->
    leaf r (run (n + m) r (init_tree real_ops smp la k)) = leaf r (run n r (init_tree real_ops smp la k)).
  Proof.
    intros Er Hk. rewrite run_add. destruct (dyadic_run n kk r k Er Hk) as [E|[E0 E]].
    - rewrite run_right; auto; [|apply chen_run, chen_init]. rewrite leaf_right; auto. apply chen_run, chen_init.
    - rewrite run_left; auto. rewrite leaf_left; auto.
  Qed.

  Lemma leaf_dyadic (n kk : nat) (r tol : R) (k : key) (fuel : nat) (x : levy_val R) :
    r = INR kk * pow2 n -> tol <= pow2 n ->
    evaluate_leaf real_ops smp la spl eps tol k fuel r = Some x ->
    x = leaf r (run n r (init_tree real_ops smp la k)).
  Proof.
    intros Er Ht. unfold evaluate_leaf. destruct (Rlt_dec r 0); [discriminate|]. destruct (Rlt_dec 1 r); [discriminate|].
    destruct (tree_loop _ _ _ _ _ _ _) as [f|] eqn:F; [|discriminate]. intros [= <-].
    apply loop_run in F. destruct F as (N & -> & HN & HB). cbn [ts_level init_tree Nat.add] in HN, HB.
    assert (n <= N)%nat.
    { destruct (Nat.le_gt_cases n N) as [|G]; [auto|exfalso].
      pose proof (pow2_anti N (n - 1) ltac:(lia)). pose proof (pow2_S (n - 1)) as Q.
      replace (n - 1 + 1)%nat with n in Q by lia. pose proof (pow2_pos (n - 1)).
      assert (pow2 (n-1) <= pow2 N) by (apply pow2_anti; lia). lra. }
    replace N with (n + (N - n))%nat by lia. apply (dyadic_value n (N - n) kk); [auto|lra].
  Qed.

  Lemma leaf_dt (r : R) (st : tree_state R) : lv_dt (leaf r st) = r.
  Proof.
    destruct st as [l s [[ws wu] wsu] k [[hs hu] hsu] [[ks ku] ksu]]. unfold tree_leaf. cbn [ts_w ts_bhh ts_bkk].
    destruct la; [destruct spl; reflexivity| |].
    - destruct spl; reflexivity.
    - cbn [ts_level ts_s ts_key]. destruct (match spl with Zero => _ | _ => _ end) as [[? ?] ?]. reflexivity.
  Qed.
  (** The normalised single-time values are the guarded ones of the integrals. *)
  Lemma leaf_HK (r : R) (st : tree_state R) :
    lv_H (leaf r st) = match la with BM => 0 | ST => guarded_inverse eps r r * lv_bH (leaf r st)
                       | STT => guarded_inverse eps (r * r) r * lv_bH (leaf r st) end /\
    lv_K (leaf r st) = match la with STT => guarded_inverse eps (r * r) r ^ 2 * lv_bK (leaf r st) | _ => 0 end.
  Proof.
    destruct st as [l s [[ws wu] wsu] k [[hs hu] hsu] [[ks ku] ksu]]. unfold tree_leaf. cbn [ts_w ts_bhh ts_bkk].
    destruct la; [destruct spl; split; reflexivity| |].
    - destruct spl; split; reflexivity.
    - cbn [ts_level ts_s ts_key]. destruct (match spl with Zero => _ | _ => _ end) as [[? ?] ?]. split; reflexivity.
  Qed.
  Lemma evaluate_leaf_inv (tol r : R) (k : key) (fuel : nat) (x : levy_val R) :
    evaluate_leaf real_ops smp la spl eps tol k fuel r = Some x ->
    0 <= r <= 1 /\ exists n, x = leaf r (run n r (init_tree real_ops smp la k)) /\ pow2 n <= tol /\ (forall j, (j < n)%nat -> tol < pow2 j).
  Proof.
    unfold evaluate_leaf. destruct (Rlt_dec r 0); [discriminate|]. destruct (Rlt_dec 1 r); [discriminate|].
    destruct (tree_loop _ _ _ _ _ _ _) as [f|] eqn:F; [|discriminate]. intros [= <-].
    apply loop_run in F. destruct F as (N & -> & HN & HB). split; [lra|]. exists N. auto.
  Qed.
End Path.

Lemma linear_rescale_in (vt : tree) (t : R) : vt_t0 vt < vt_t1 vt ->
  linear_rescale (vt_t0 vt) t (vt_t1 vt) = (t - vt_t0 vt) / length vt.
Proof. intros. unfold linear_rescale, length. destruct (Req_EM_T _ _); [lra|reflexivity]. Qed.

Lemma pf_C44_terminates (V : Type) (o : ops V) (smp : sampler V) (la : levy_area) (spl : spline) (eps : R) (vt : tree) :
  proper vt -> exists enough, forall fuel t0 t1, (enough <= fuel)%nat -> within vt t0 ->
  match t1 with Some t1 => within vt t1 | None => True end ->
  evaluate o smp la spl eps vt fuel t0 t1 <> None.
Proof.
  intros [P T].
  assert (LP : 0 < length vt) by (unfold length; lra).
  assert (S0 : 0 < scaled_tol vt) by (apply Rdiv_lt_0_compat; auto).
  destruct (pow_lt_1_zero (/ 2) ltac:(rewrite Rabs_right; lra) (scaled_tol vt) S0) as [N HN].
  specialize (HN N ltac:(lia)). rewrite Rabs_right in HN by (apply Rle_ge, Rlt_le, pow_lt; lra).
  assert (L : forall fuel t, (N <= fuel)%nat -> within vt t ->
    exists x, evaluate_leaf o smp la spl eps (scaled_tol vt) (vt_key vt) fuel (linear_rescale (vt_t0 vt) t (vt_t1 vt)) = Some x).
  { intros fuel t F [W1 W2]. rewrite linear_rescale_in by auto. unfold evaluate_leaf.
    assert (0 <= (t - vt_t0 vt) / length vt) by (apply Rmult_le_pos; [lra|left; apply Rinv_0_lt_compat; lra]).
    assert ((t - vt_t0 vt) / length vt <= 1) by (apply Rmult_le_reg_r with (length vt); [auto|unfold Rdiv; rewrite Rmult_assoc, Rinv_l by lra; unfold length; lra]).
    destruct (Rlt_dec _ 0); [lra|]. destruct (Rlt_dec 1 _); [lra|].
    destruct (loop_some o smp la (scaled_tol vt) ((t - vt_t0 vt) / length vt) N fuel (init_tree o smp la (vt_key vt)) F) as [f E].
    { cbn [ts_level init_tree Nat.add]. unfold pow2. lra. }
    rewrite E. eauto. }
  exists N. intros fuel t0 t1 F W0 W1. unfold evaluate.
  destruct (L fuel t0 F W0) as [x0 ->]. destruct t1 as [t1|]; [|discriminate].
  destruct (L fuel t1 F W1) as [x1 ->]. discriminate.
Qed.

Lemma pf_C44_start (smp : sampler R) (la : levy_area) (spl : spline) (eps : R) (vt : tree) (fuel : nat) (x : increment R) :
  degenerate_is_mean real_ops smp -> proper vt ->
  evaluate real_ops smp la spl eps vt fuel (vt_t0 vt) None = Some x ->
  inc_dt x = 0 /\ inc_W x = 0 /\ inc_H x = 0 /\ inc_K x = 0.
Proof.
  intros D [P T]. unfold evaluate. rewrite linear_rescale_in by auto.
  replace ((vt_t0 vt - vt_t0 vt) / length vt) with 0 by (unfold length; field; lra).
  destruct (evaluate_leaf _ _ _ _ _ _ _ _ _) as [v|] eqn:Ev; [|discriminate]. intros [= <-].
  apply evaluate_leaf_inv in Ev. destruct Ev as (_ & n & -> & _).
  rewrite run_left; auto.
  unfold value_at, left_end, init_tree, denormalise, make_levy_val; destruct la; cbn; repeat split; try lra.
Qed.

Lemma pf_C44_end (smp : sampler R) (la : levy_area) (spl : spline) (eps : R) (vt : tree) (fuel : nat) (x : increment R) :
  degenerate_is_mean real_ops smp -> proper vt ->
  evaluate real_ops smp la spl eps vt fuel (vt_t1 vt) None = Some x ->
  inc_dt x = length vt /\ inc_W x = sqrt (length vt) * normal smp (split (vt_key vt) 1).
Proof.
  intros D [P T]. unfold evaluate. rewrite linear_rescale_in by auto.
  replace ((vt_t1 vt - vt_t0 vt) / length vt) with 1 by (unfold length; field; lra).
  destruct (evaluate_leaf _ _ _ _ _ _ _ _ _) as [v|] eqn:Ev; [|discriminate]. intros [= <-].
  apply evaluate_leaf_inv in Ev. destruct Ev as (_ & n & -> & _).
  rewrite run_right; auto; [|apply chen_init|cbn; unfold pow2; simpl; lra].
  unfold value_at, right_end, init_tree, denormalise, make_levy_val, length; destruct la; cbn; split; lra.
Qed.

Lemma pf_C44_additive (smp : sampler R) (la : levy_area) (spl : spline) (eps : R) (vt : tree) (fuel : nat) (s t u : R)
  (x y z : increment R) :
  evaluate real_ops smp la spl eps vt fuel s (Some t) = Some x ->
  evaluate real_ops smp la spl eps vt fuel t (Some u) = Some y ->
  evaluate real_ops smp la spl eps vt fuel s (Some u) = Some z ->
  inc_dt z = inc_dt x + inc_dt y /\ inc_W z = inc_W x + inc_W y.
Proof.
  unfold evaluate.
  destruct (evaluate_leaf _ _ _ _ _ _ _ _ (linear_rescale _ s _)) as [a|]; [|discriminate].
  destruct (evaluate_leaf _ _ _ _ _ _ _ _ (linear_rescale _ t _)) as [b|]; [|discriminate].
  destruct (evaluate_leaf _ _ _ _ _ _ _ _ (linear_rescale _ u _)) as [c|]; [|discriminate].
  intros [= <-] [= <-] [= <-]. unfold levy_diff, denormalise; destruct la; cbn; split; ring.
Qed.

Lemma pf_C44_increment (smp : sampler R) (la : levy_area) (spl : spline) (eps : R) (vt : tree) (fuel : nat) (s t : R)
  (x y z : increment R) :
  evaluate real_ops smp la spl eps vt fuel s None = Some x ->
  evaluate real_ops smp la spl eps vt fuel t None = Some y ->
  evaluate real_ops smp la spl eps vt fuel s (Some t) = Some z ->
  inc_dt z = inc_dt y - inc_dt x /\ inc_W z = inc_W y - inc_W x.
Proof.
  unfold evaluate.
  destruct (evaluate_leaf _ _ _ _ _ _ _ _ (linear_rescale _ s _)) as [a|]; [|discriminate].
  destruct (evaluate_leaf _ _ _ _ _ _ _ _ (linear_rescale _ t _)) as [b|]; [|discriminate].
  intros [= <-] [= <-] [= <-]. unfold levy_diff, denormalise, make_levy_val; destruct la; cbn; split; ring.
Qed.

Lemma pf_C44_tolerance (smp : sampler R) (la : levy_area) (spl : spline) (eps : R) (vt : tree) (tol : R) (fuel fuel' n k : nat)
  (t0 : R) (t1 : option R) (x x' : increment R) :
  degenerate_is_mean real_ops smp -> proper vt ->
  resolves vt n -> resolves (with_tol vt tol) n ->
  dyadic vt n k t0 -> match t1 with Some t1 => exists k', dyadic vt n k' t1 | None => True end ->
  evaluate real_ops smp la spl eps vt fuel t0 t1 = Some x ->
  evaluate real_ops smp la spl eps (with_tol vt tol) fuel' t0 t1 = Some x' -> x = x'.
Proof.
  intros D [P T] R1 R2 D0 D1. unfold evaluate. cbn [vt_t0 vt_t1 vt_key with_tol].
  assert (LP : 0 < length vt) by (unfold length; lra).
  assert (L : forall t k, dyadic vt n k t -> linear_rescale (vt_t0 vt) t (vt_t1 vt) = INR k * pow2 n).
  { intros t kk [_ ->]. rewrite linear_rescale_in by auto. rewrite pow2_inv. field. split; [apply pow_nonzero|]; lra. }
  assert (Q : forall tl, tl <= length vt / 2 ^ n -> tl / length vt <= pow2 n).
  { intros tl Ht. rewrite pow2_inv. apply Rmult_le_reg_r with (length vt); [auto|].
    unfold Rdiv at 1. rewrite Rmult_assoc, Rinv_l by lra. unfold Rdiv in Ht. lra. }
  assert (S1 : scaled_tol vt <= pow2 n) by (apply Q; exact R1).
  assert (S2 : scaled_tol (with_tol vt tol) <= pow2 n) by (apply (Q tol); exact R2).
  rewrite (L _ _ D0).
  destruct (evaluate_leaf _ _ _ _ _ (scaled_tol vt) _ _ _) as [a|] eqn:Ea; [|discriminate].
  destruct (evaluate_leaf _ _ _ _ _ (scaled_tol (with_tol vt tol)) _ _ _) as [a'|] eqn:Ea'; [|discriminate].
  apply (leaf_dyadic smp la spl eps D n k) in Ea; auto. apply (leaf_dyadic smp la spl eps D n k) in Ea'; auto.
  rewrite <- Ea in Ea'. subst a'. clear Ea.
  destruct t1 as [t1|]; [|intros [= <-] [= <-]; reflexivity].
  destruct D1 as [k' D1]. rewrite (L _ _ D1).
  destruct (evaluate_leaf _ _ _ _ _ (scaled_tol vt) _ _ _) as [b|] eqn:Eb; [|discriminate].
  destruct (evaluate_leaf _ _ _ _ _ (scaled_tol (with_tol vt tol)) _ _ _) as [b'|] eqn:Eb'; [|discriminate].
  apply (leaf_dyadic smp la spl eps D n k') in Eb; auto. apply (leaf_dyadic smp la spl eps D n k') in Eb'; auto.
  rewrite <- Eb in Eb'. subst b'. intros [= <-] [= <-]. reflexivity.
Qed.
