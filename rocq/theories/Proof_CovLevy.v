(** Proofs about the Brownian tree: the covariance of its values and Levy areas at arbitrary times. *)
From Coq Require Import Reals List Bool Lra Lia Psatz.
From Verif Require Import Model_Brownian Spec_Brownian Proof_Brownian Proof_Covariance Proof_CovLeaf Proof_CovPath.
Import ListNotations.
Open Scope R_scope.

(** The value and the two areas over [[0, s + a]] in terms of those over [[0, s]] and those over [[s, s + a]] *)
Definition chen (s a : R) (j : nat) : list R :=
  nth j [[1; 0; 0; 1; 0; 0];
         [a / 2; 1; 0; - s / 2; 1; 0];
         [(a - s) / 12 * a; a / 2; 1; - ((a - s) / 12 * s); - s / 2; 1]] [].
(** Those over the first [a] of an interval of length [p], as expected from those over all of it *)
Definition expected (p a : R) (i : nat) : list R :=
  let q := a / p in
  nth i [[q; 6 * q * (1 - q) / p; 120 * q * (1 - q) * (1 / 2 - q) / p ^ 2];
         [0; q ^ 3; q ^ 3 * (30 * (1 - q) / p)];
         [0; 0; q ^ 5]] [].
Definition dot3 (c : list R) (f : nat -> R) : R := nth 0 c 0 * f 0%nat + nth 1 c 0 * f 1%nat + nth 2 c 0 * f 2%nat.
Definition dot3' (c : list R) (f : nat -> R) : R := nth 3 c 0 * f 0%nat + nth 4 c 0 * f 1%nat + nth 5 c 0 * f 2%nat.

Section CovLevy.
  Context {V : Type} (o : ops V) (smp : sampler V) (cov : V -> V -> R).
  Hypothesis HC : is_covariance o cov.
  Hypothesis HI : independent_samples smp cov.
  Hypothesis HD : degenerate_is_mean o smp.
  Context (la : levy_area) (eps : R).
  Notation body := (tree_body o smp la).
  Notation leaf := (tree_leaf o smp la Sqrt eps).
  Notation run := (run o smp la).
  Notation good := (good o smp cov la).
  Notation six := (six o).
  Notation fresh := (fresh smp cov).
  Notation noise := (noise o smp la).
  Local Notation "0v" := (op_zero o).
  Ltac covs := repeat first [rewrite (cov_plus _ _ HC) | rewrite (cov_minus _ _ HC) | rewrite (cov_scale _ _ HC) | rewrite (cov_zero _ _ HC)].

  Definition val (j : nat) (x : levy_val V) : V := nth j [lv_W x; lv_bH x; lv_bK x] 0v.
  Definition avail (j : nat) : bool := nth j (match la with BM => [true; false; false] | ST => [true; true; false] | STT => [true; true; true] end) false.
  Definition var3 (a : R) (i : nat) : R := nth i [a; eH la * a ^ 3 / 12; eK la * a ^ 5 / 720] 0.

  Definition lmean (i : nat) (x : V) (r : R) (st : tree_state V) : R :=
    dot3 (expected (pow2 (ts_level st)) (r - ts_s st) i) (fun m => cov x (six st (3 + m))).
  Definition jmean (j : nat) (x : V) (r : R) (st : tree_state V) : R :=
    let c := chen (ts_s st) (r - ts_s st) j in
    if avail j then dot3 c (fun m => cov x (six st m)) + dot3' c (fun m => lmean m x r st) else 0.

  Definition st_a (p a b : R) : R := 1 / (2 * p * sqrt (a ^ 3 + b ^ 3)) * a ^ 3 * sqrt (a * b).
  Definition st_b (p a b : R) : R := 1 / (2 * p * sqrt (a ^ 3 + b ^ 3)) * b ^ 3 * sqrt (a * b).
  Definition st_c (p a b : R) : R := sqrt (3 * a ^ 3 * b ^ 3) / (6 * sqrt (a ^ 3 + b ^ 3)).
  (** The noise added within the final interval to the value and the areas since its start *)
  Definition nz (i : nat) (r : R) (st : tree_state V) : V :=
    let p := pow2 (ts_level st) in
    let sr := r - ts_s st in
    let ru := p - sr in
    match la with
    | BM => nth i [op_scale o (sqrt (sr * ru / p)) (normal smp (ts_key st)); 0v; 0v] 0v
    | ST => let x1 := normal smp (split (ts_key st) 0) in let x2 := normal smp (split (ts_key st) 1) in
        nth i [op_scale o (2 * (st_a p sr ru + st_b p sr ru) / p) x1;
               op_minus o (op_scale o (st_c p sr ru) x2) (op_scale o (st_a p sr ru) x1); 0v] 0v
    | STT => let '(w, h, k) := multivariate_normal smp (ts_key st) (leaf_matrix p sr ru) in
        nth i [w; op_scale o sr h; op_scale o (sr ^ 2) k] 0v
    end.
  Definition noise_mean (j : nat) (x : V) (r : R) (st : tree_state V) : R :=
    if avail j then dot3' (chen (ts_s st) (r - ts_s st) j) (fun m => cov x (nz m r st)) else 0.

  Lemma leaf_val (j : nat) (x : V) (r : R) (st : tree_state V) : good st -> located r st -> (j < 3)%nat ->
    cov x (val j (leaf r st)) = jmean j x r st + noise_mean j x r st.
  Proof.
    intros G L Hj. pose proof (g_dummy_H _ _ _ _ _ G) as DH. pose proof (g_dummy_K _ _ _ _ _ G) as DK. clear G.
    destruct st as [l s [[ws wu] wsu] k [[hs hu] hsu] [[ks ku] ksu]]. unfold located in L.
    cbn [ts_bhh ts_bkk ts_s ts_level] in *. pose proof (pow2_pos l) as P.
    unfold jmean, noise_mean, lmean, nz, tree_leaf, Proof_Covariance.six, dot3, dot3', expected, chen, avail, val.
    cbn [ts_level ts_s ts_key ts_w ts_bhh ts_bkk nth Nat.add].
    set (p := pow2 l) in *. clearbody p.
    rewrite (relu_pos (r - s)) by lra. rewrite (relu_pos (p - (r - s))) by lra.
    destruct la.
    - injection (DH eq_refl) as -> -> ->. injection (DK ltac:(discriminate)) as -> -> ->.
      destruct j as [|[|[|j]]]; [..|lia]; cbn [nth lv_W lv_bH lv_bK]; covs; field; lra.
    - injection (DK ltac:(discriminate)) as -> -> ->. fold (st_a p (r - s) (p - (r - s))). fold (st_b p (r - s) (p - (r - s))).
      fold (st_c p (r - s) (p - (r - s))).
      generalize (st_a p (r - s) (p - (r - s))) (st_b p (r - s) (p - (r - s))) (st_c p (r - s) (p - (r - s))). intros a b c.
      destruct j as [|[|[|j]]]; [..|lia]; cbn [nth lv_W lv_bH lv_bK]; covs; field; lra.
    - unfold leaf_matrix. destruct (multivariate_normal _ _ _) as [[a b] c].
      destruct j as [|[|[|j]]]; [..|lia]; cbn [nth lv_W lv_bH lv_bK]; covs; field; lra.
  Qed.

  Lemma nz_fresh (i : nat) (x : V) (r : R) (st : tree_state V) : fresh x (ts_key st) -> cov x (nz i r st) = 0.
  Proof.
    intros [A B]. unfold nz. destruct la.
    - pose proof (A []) as A0; cbn [app] in A0. destruct i as [|[|[|[|i]]]]; cbn [nth]; covs; rewrite ?A0; ring.
    - pose proof (A [0%nat]) as A0; cbn [app] in A0. pose proof (A [1%nat]) as A1; cbn [app] in A1. unfold split.
      destruct i as [|[|[|[|i]]]]; cbn [nth]; covs; rewrite ?A0, ?A1; ring.
    - specialize (B [] (leaf_matrix (pow2 (ts_level st)) (r - ts_s st) (pow2 (ts_level st) - (r - ts_s st)))). cbn [app] in B.
      destruct (multivariate_normal _ _ _) as [[a b] c]. destruct B as (B1 & B2 & B3).
      destruct i as [|[|[|[|i]]]]; cbn [nth]; covs; rewrite ?B1, ?B2, ?B3; ring.
  Qed.
  Lemma noise_mean_fresh (j : nat) (x : V) (r : R) (st : tree_state V) : fresh x (ts_key st) -> noise_mean j x r st = 0.
  Proof. intros F. unfold noise_mean, dot3'. rewrite !nz_fresh by auto. destruct (avail j); ring. Qed.

  Lemma nz_end (i : nat) (x : V) (r : R) (st : tree_state V) : r = ts_s st + pow2 (ts_level st) \/ r = ts_s st -> cov x (nz i r st) = 0.
  Proof.
    intros E. unfold nz. pose proof (pow2_pos (ts_level st)) as P.
    set (p := pow2 (ts_level st)) in *. set (s := ts_s st) in *. clearbody p s.
    destruct la.
    - replace ((r - s) * (p - (r - s)) / p) with 0 by (destruct E; subst; field; lra). rewrite sqrt_0.
      destruct i as [|[|[|[|i]]]]; cbn [nth]; covs; ring.
    - unfold st_a, st_b, st_c. replace ((r - s) * (p - (r - s))) with 0 by (destruct E; subst; ring).
      replace (3 * (r - s) ^ 3 * (p - (r - s)) ^ 3) with 0 by (destruct E; subst; ring).
      rewrite sqrt_0. destruct i as [|[|[|[|i]]]]; cbn [nth]; covs; unfold Rdiv; ring.
    - assert (Z : leaf_matrix p (r - s) (p - (r - s)) = Matrix3 0 0 0 0 0 0).
      { destruct E as [-> | ->]; [replace (s + p - s) with p by ring; replace (p - p) with 0 by ring; apply leaf_matrix_zero; auto|].
        replace (s - s) with 0 by ring. replace (p - 0) with p by ring. apply leaf_matrix_zero; auto. }
      rewrite Z, HD. destruct i as [|[|[|[|i]]]]; cbn [nth]; covs; ring.
  Qed.
  Lemma noise_mean_end (j : nat) (x : V) (r : R) (st : tree_state V) : r = ts_s st + pow2 (ts_level st) \/ r = ts_s st ->
    noise_mean j x r st = 0.
  Proof. intros F. unfold noise_mean, dot3'. rewrite !nz_end by auto. destruct (avail j); ring. Qed.

  (** The covariance of the noise *)
  Definition nz_var (p a b : R) (i j : nat) : R :=
    match la with
    | BM => nth j (nth i [[a * b / p; 0; 0]; [0; 0; 0]; [0; 0; 0]] []) 0
    | ST =>
        let wh := - (a ^ 4 * b / (2 * p ^ 3)) in
        nth j (nth i [[(a ^ 3 + b ^ 3) * a * b / p ^ 4; wh; 0];
                      [wh; (a ^ 7 * b / (4 * p ^ 2) + a ^ 3 * b ^ 3 / 12) / (a ^ 3 + b ^ 3); 0]; [0; 0; 0]] []) 0
    | STT =>
        let m := leaf_matrix p a b in
        nth j (nth i [[m_ww m; a * m_wh m; a ^ 2 * m_wk m]; [a * m_wh m; a ^ 2 * m_hh m; a ^ 3 * m_hk m];
                      [a ^ 2 * m_wk m; a ^ 3 * m_hk m; a ^ 4 * m_kk m]] []) 0
    end.
  Lemma nz_gram (i j : nat) (r : R) (st : tree_state V) : located r st -> (i < 3)%nat -> (j < 3)%nat ->
    cov (nz i r st) (nz j r st) = nz_var (pow2 (ts_level st)) (r - ts_s st) (pow2 (ts_level st) - (r - ts_s st)) i j.
  Proof.
    intros L Hi Hj. unfold located in L. pose proof (pow2_pos (ts_level st)) as P.
    unfold nz, nz_var. set (p := pow2 (ts_level st)) in *. set (s := ts_s st) in *.
    assert (S1 : 0 <= r - s) by lra. assert (S2 : 0 <= p - (r - s)) by lra.
    set (a := r - s) in *. set (b := p - a) in *. assert (Ep : p = a + b) by (unfold b; ring). clearbody b a p s.
    assert (AB : 0 <= a * b) by nra.
    assert (Cm : forall x y z, cov (op_minus o x y) z = cov x z - cov y z).
    { intros x y z. rewrite (cov_sym _ _ HC), (cov_minus _ _ HC), !(cov_sym _ _ HC z). reflexivity. }
    destruct la.
    - assert (0 <= a * b / p) by (apply Rmult_le_pos; [auto|left; now apply Rinv_0_lt_compat]).
      destruct i as [|[|[|i]]]; [..|lia]; (destruct j as [|[|[|j]]]; [..|lia]); cbn [nth];
        rewrite ?(cov_zero_l o cov HC), ?(cov_zero _ _ HC); try ring.
      rewrite (cov_scale_l o cov HC), (cov_scale _ _ HC), (normal_var _ _ HI).
      rewrite <- (sqrt_sqrt (a * b / p)) at 3 by auto. ring.
    - assert (A3 : 0 <= a ^ 3) by (now apply pow_le). assert (B3 : 0 <= b ^ 3) by (now apply pow_le).
      assert (D : 0 < a ^ 3 + b ^ 3).
      { destruct (Rle_lt_or_eq_dec 0 a S1) as [A|A]; [assert (0 < a ^ 3) by (now apply pow_lt); lra|].
        assert (0 < b ^ 3) by (apply pow_lt; lra). lra. }
      assert (Q : 0 < sqrt (a ^ 3 + b ^ 3)) by (now apply sqrt_lt_R0).
      assert (N01 : cov (normal smp (split (ts_key st) 0)) (normal smp (split (ts_key st) 1)) = 0)
        by (apply (normal_indep _ _ HI); unfold split; congruence).
      assert (N10 : cov (normal smp (split (ts_key st) 1)) (normal smp (split (ts_key st) 0)) = 0)
        by (apply (normal_indep _ _ HI); unfold split; congruence).
      set (d := sqrt (a ^ 3 + b ^ 3)) in *.
      assert (Ed : a ^ 3 + b ^ 3 = d * d) by (unfold d; rewrite sqrt_sqrt; lra).
      set (e := sqrt (a * b)). assert (Ee : a * b = e * e) by (unfold e; rewrite sqrt_sqrt; lra).
      set (f := sqrt (3 * a ^ 3 * b ^ 3)).
      assert (Ef : f * f = 3 * a ^ 3 * b ^ 3) by (unfold f; apply sqrt_sqrt; apply Rmult_le_pos; lra).
      assert (Ea : st_a p a b = a ^ 3 * e / (2 * p * d)) by (unfold st_a; fold d e; field; lra).
      assert (Eb : st_b p a b = b ^ 3 * e / (2 * p * d)) by (unfold st_b; fold d e; field; lra).
      assert (Ec : st_c p a b = f / (6 * d)) by (unfold st_c; fold d f; reflexivity).
      assert (Eab : st_a p a b + st_b p a b = d * e / (2 * p)).
      { rewrite Ea, Eb. replace (d * e / (2 * p)) with (d * d * e / (2 * p * d)) by (field; lra). rewrite <- Ed. field; lra. }
      destruct i as [|[|[|i]]]; [..|lia]; (destruct j as [|[|[|j]]]; [..|lia]); cbn [nth];
        rewrite ?(cov_zero_l o cov HC), ?(cov_zero _ _ HC); try ring;
        rewrite ?Cm, ?(cov_scale_l o cov HC); covs; rewrite ?Cm, ?(cov_scale_l o cov HC);
        rewrite ?(normal_var _ _ HI), ?N01, ?N10, ?Eab, ?Ea, ?Ec.
      + rewrite Ed. replace (d * d * a * b) with (d * d * (a * b)) by ring. rewrite Ee. field; lra.
      + replace (a ^ 4 * b) with (a ^ 3 * (a * b)) by ring. rewrite Ee. field; lra.
      + replace (a ^ 4 * b) with (a ^ 3 * (a * b)) by ring. rewrite Ee. field; lra.
      + rewrite Ed. replace (a ^ 3 * b ^ 3 / 12) with (3 * a ^ 3 * b ^ 3 / 36) by field. rewrite <- Ef.
        replace (a ^ 7 * b) with (a ^ 6 * (a * b)) by ring. rewrite Ee. field; lra.
    - pose proof (mvn_cov _ _ HI (ts_key st) (leaf_matrix p a b)) as M.
      destruct (multivariate_normal _ _ _) as [[w h] kk].
      destruct M as (M1 & M2 & M3 & M4 & M5 & M6); [rewrite Ep; apply leaf_matrix_psd; lra|].
      destruct i as [|[|[|i]]]; [..|lia]; (destruct j as [|[|[|j]]]; [..|lia]); cbn [nth];
        rewrite ?(cov_scale_l o cov HC), ?(cov_scale _ _ HC), ?M1, ?M2, ?M3, ?M4, ?M5, ?M6; try ring;
        rewrite (cov_sym _ _ HC), ?M2, ?M3, ?M5; ring.
  Qed.

  (** At one time in the final interval *)
  Lemma gram_leaf (i j : nat) (r : R) (st : tree_state V) : good st -> located r st -> (i < 3)%nat -> (j < 3)%nat ->
    cov (val i (leaf r st)) (val j (leaf r st)) = if Nat.eqb i j then var3 r i else 0.
  Proof.
    intros G L Hi Hj. rewrite leaf_val by auto. unfold jmean, noise_mean, lmean, dot3, dot3'.
    rewrite !(cov_sym _ _ HC (val i (leaf r st))), !leaf_val by auto.
    rewrite !noise_mean_fresh by (apply (g_fresh _ _ _ _ _ G); cbn [Nat.add]; lia).
    unfold noise_mean, dot3'. rewrite !nz_gram by (auto; lia).
    unfold jmean, lmean, dot3, dot3'.
    rewrite !(cov_sym _ _ HC (nz _ r st) (six st _)).
    rewrite !nz_fresh by (apply (g_fresh _ _ _ _ _ G); cbn [Nat.add]; lia).
    rewrite !(g_gram _ _ _ _ _ G) by (cbn [Nat.add]; lia). cbn [Nat.eqb Nat.add].
    assert (D : 0 < (r - ts_s st) ^ 3 + (pow2 (ts_level st) - (r - ts_s st)) ^ 3).
    { unfold located in L. pose proof (pow2_pos (ts_level st)).
      assert (S1 : 0 <= r - ts_s st) by lra. assert (S2 : 0 <= pow2 (ts_level st) - (r - ts_s st)) by lra.
      pose proof (pow_le _ 3 S1) as A3. pose proof (pow_le _ 3 S2) as B3.
      destruct (Rle_lt_or_eq_dec _ _ S1) as [A|A]; [pose proof (pow_lt _ 3 A); lra|].
      rewrite <- A in *. assert (0 < (pow2 (ts_level st) - 0) ^ 3) by (apply pow_lt; lra). lra. }
    unfold var6, var3, avail, chen, expected, nz_var, eH, eK. cbn [nth].
    pose proof (pow2_pos (ts_level st)) as P. set (p := pow2 (ts_level st)) in *. set (s := ts_s st) in *.
    replace r with (s + (r - s)) by ring. replace (s + (r - s) - s) with (r - s) by ring.
    set (a := r - s) in *. clearbody p s a. clear L G.
    unfold leaf_matrix.
    destruct la; destruct i as [|[|[|i]]]; try lia; (destruct j as [|[|[|j]]]; try lia); cbn [nth Nat.eqb m_ww m_wh m_wk m_hh m_hk m_kk];
      try ring; field; lra.
  Qed.
End CovLevy.
