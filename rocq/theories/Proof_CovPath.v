(** Proofs about the Brownian tree: the covariance of its values at arbitrary times. *)
From Coq Require Import Reals List Bool Lra Lia Psatz.
From Verif Require Import Model_Brownian Spec_Brownian Proof_Brownian Proof_Covariance Proof_CovLeaf.
Import ListNotations.
Open Scope R_scope.

Section CovPath.
  Context {V : Type} (o : ops V) (smp : sampler V) (cov : V -> V -> R).
  Hypothesis HC : is_covariance o cov.
  Hypothesis HI : independent_samples smp cov.
  Hypothesis HD : degenerate_is_mean o smp.
  Context (la : levy_area) (eps : R).
  Notation body := (tree_body o smp la).
  Notation leaf := (tree_leaf o smp la Sqrt eps).
  Notation run := (run o smp la).
  Notation good := (good o smp cov la).
  Notation six := (six o).
  Notation fresh := (fresh smp cov).
  Notation noise := (noise o smp la).
  Local Notation "0v" := (op_zero o).
  Ltac covs := repeat first [rewrite (cov_plus _ _ HC) | rewrite (cov_minus _ _ HC) | rewrite (cov_scale _ _ HC) | rewrite (cov_zero _ _ HC)].

  Lemma good_run (n : nat) (r : R) : forall st, good st -> good (run n r st).
  Proof. induction n; intros; cbn; auto. apply IHn, (good_body o smp cov HC HI); auto. Qed.

  Definition mean (x : V) (r : R) (st : tree_state V) : R :=
    let p := pow2 (ts_level st) in
    let q := (r - ts_s st) / p in
    cov x (six st 0) + q * cov x (six st 3) + 6 * q * (1 - q) / p * cov x (six st 4)
    + 120 * q * (1 - q) * (1 / 2 - q) / p ^ 2 * cov x (six st 5).

  Definition leaf_noise (r : R) (st : tree_state V) : V :=
    let p := pow2 (ts_level st) in
    let sr := r - ts_s st in
    let ru := p - sr in
    match la with
    | BM => op_scale o (sqrt (sr * ru / p)) (normal smp (ts_key st))
    | ST => op_scale o (2 * (1 / (2 * p * sqrt (sr ^ 3 + ru ^ 3)) * sr ^ 3 * sqrt (sr * ru) + 1 / (2 * p * sqrt (sr ^ 3 + ru ^ 3)) * ru ^ 3 * sqrt (sr * ru)) / p)
              (normal smp (split (ts_key st) 0))
    | STT => fst (fst (multivariate_normal smp (ts_key st) (leaf_matrix p sr ru)))
    end.

  Lemma leaf_W (x : V) (r : R) (st : tree_state V) : good st -> located r st ->
    cov x (lv_W (leaf r st)) = mean x r st + cov x (leaf_noise r st).
  Proof.
    intros G L. pose proof (g_dummy_H _ _ _ _ _ G) as DH. pose proof (g_dummy_K _ _ _ _ _ G) as DK. clear G.
    destruct st as [l s [[ws wu] wsu] k [[hs hu] hsu] [[ks ku] ksu]]. unfold located in L.
    cbn [ts_bhh ts_bkk ts_s ts_level] in *. pose proof (pow2_pos l) as P.
    unfold mean, leaf_noise, tree_leaf, Proof_Covariance.six. cbn [ts_level ts_s ts_key ts_w ts_bhh ts_bkk nth].
    set (p := pow2 l) in *. clearbody p.
    rewrite (relu_pos (r - s)) by lra. rewrite (relu_pos (p - (r - s))) by lra.
    destruct la.
    - injection (DH eq_refl) as -> -> ->. injection (DK ltac:(discriminate)) as -> -> ->. cbn [lv_W]. covs. ring.
    - injection (DK ltac:(discriminate)) as -> -> ->. cbn [lv_W]. covs.
      set (c := 2 * _ / p). clearbody c. field. lra.
    - unfold leaf_matrix. destruct (multivariate_normal _ _ _) as [[a b] c]. cbn [lv_W fst]. covs. field. lra.
  Qed.

  Lemma leaf_noise_fresh (x : V) (r : R) (st : tree_state V) : fresh x (ts_key st) -> cov x (leaf_noise r st) = 0.
  Proof.
    intros [A B]. unfold leaf_noise. destruct la.
    - covs. pose proof (A []) as A0; cbn [app] in A0; rewrite A0. ring.
    - covs. pose proof (A [0%nat]) as A0; cbn [app] in A0; unfold split; rewrite A0. ring.
    - specialize (B [] (leaf_matrix (pow2 (ts_level st)) (r - ts_s st) (pow2 (ts_level st) - (r - ts_s st)))). cbn [app] in B.
      destruct (multivariate_normal _ _ _) as [[a b] c]. cbn. tauto.
  Qed.

  (** What is outside sees only the mean. *)
  Lemma mean_body (x : V) (r : R) (st : tree_state V) : good st -> fresh x (ts_key st) -> mean x r (body r st) = mean x r st.
  Proof.
    intros G [F _]. unfold mean.
    rewrite !(child_comb o smp cov HC la r st _ G) by lia.
    rewrite body_s, body_level, pow2_S. unfold goes_right.
    assert (N : forall i, cov x (noise st i) = 0).
    { intros i. apply (noise_orth o smp cov HC). intros l. specialize (F (l ++ [1%nat])). now rewrite <- app_assoc in F. }
    pose proof (pow2_pos (ts_level st)) as P.
    assert (K : la <> STT -> cov x (six st 5) = 0).
    { intros Q. unfold Proof_Covariance.six. destruct (ts_w st) as [[? ?] ?], (ts_bhh st) as [[? ?] ?].
      rewrite (g_dummy_K _ _ _ _ _ G Q). cbn. apply (cov_zero _ _ HC). }
    assert (H : la = BM -> cov x (six st 4) = 0).
    { intros Q. unfold Proof_Covariance.six. destruct (ts_w st) as [[? ?] ?]. rewrite (g_dummy_H _ _ _ _ _ G Q).
      destruct (ts_bkk st) as [[? ?] ?]. cbn. apply (cov_zero _ _ HC). }
    clear G F.
    unfold nine. cbv [dot9 Nat.ltb Nat.leb Nat.sub]. rewrite !N.
    generalize dependent (pow2 (ts_level st)). generalize (ts_s st). intros s p P.
    set (x0 := cov x (six st 0)) in *. set (x1 := cov x (six st 1)) in *. set (x2 := cov x (six st 2)) in *.
    set (x3 := cov x (six st 3)) in *. set (x4 := cov x (six st 4)) in *. set (x5 := cov x (six st 5)) in *. clearbody x0 x1 x2 x3 x4 x5.
    destruct la; try specialize (K ltac:(discriminate)); try specialize (H eq_refl); subst; 
      destruct (Rlt_dec _ _) as [_|_];
      cbv [coefs c_t c_st c_tu lin unit9 map seq fold_right fst snd nth Nat.eqb]; field; lra.
  Qed.

  Lemma cov_outside (n : nat) (x : V) (r : R) : forall st, good st -> 0 <= ts_s st -> located r st -> fresh x (ts_key st) ->
    cov x (lv_W (leaf r (run n r st))) = mean x r st.
  Proof.
    induction n; intros st G S L F; cbn.
    - rewrite leaf_W, leaf_noise_fresh by auto. ring.
    - rewrite IHn.
      + apply mean_body; auto.
      + apply (good_body o smp cov HC HI); auto.
      + apply located_body; auto.
      + apply located_body; auto.
      + rewrite body_key. apply fresh_below; auto.
  Qed.

  Lemma leaf_noise_var (r : R) (st : tree_state V) : located r st ->
    let p := pow2 (ts_level st) in let sr := r - ts_s st in let ru := p - sr in
    cov (leaf_noise r st) (leaf_noise r st) =
    match la with BM => sr * ru / p | ST => (sr ^ 3 + ru ^ 3) * sr * ru / p ^ 4 | STT => m_ww (leaf_matrix p sr ru) end.
  Proof.
    intros L. cbv zeta. unfold located in L. pose proof (pow2_pos (ts_level st)) as P.
    unfold leaf_noise. set (p := pow2 (ts_level st)) in *. set (s := ts_s st) in *.
    assert (S1 : 0 <= r - s) by lra. assert (S2 : 0 <= p - (r - s)) by lra.
    set (a := r - s) in *. set (b := p - a) in *. assert (Ep : p = a + b) by (unfold b; ring). clearbody b a p s.
    assert (AB : 0 <= a * b) by nra.
    destruct la.
    - rewrite (cov_scale_l o cov HC), (cov_scale _ _ HC), (normal_var _ _ HI).
      assert (0 <= a * b / p) by (apply Rmult_le_pos; [auto|left; now apply Rinv_0_lt_compat]).
      rewrite <- (sqrt_sqrt (a * b / p)) at 3 by auto. ring.
    - rewrite (cov_scale_l o cov HC), (cov_scale _ _ HC), (normal_var _ _ HI).
      assert (D : 0 < a ^ 3 + b ^ 3).
      { assert (0 <= a ^ 3) by (now apply pow_le). assert (0 <= b ^ 3) by (now apply pow_le).
        destruct (Rle_lt_or_eq_dec 0 a S1) as [A|A]; [assert (0 < a ^ 3) by (now apply pow_lt); lra|].
        assert (0 < b ^ 3) by (apply pow_lt; lra). lra. }
      assert (Q : 0 < sqrt (a ^ 3 + b ^ 3)) by (now apply sqrt_lt_R0).
      replace ((a ^ 3 + b ^ 3) * a * b / p ^ 4) with
        ((a ^ 3 + b ^ 3) ^ 2 * (sqrt (a * b) * sqrt (a * b)) / (p ^ 4 * (sqrt (a ^ 3 + b ^ 3) * sqrt (a ^ 3 + b ^ 3))))
        by (rewrite !sqrt_sqrt by lra; field; lra).
      field. lra.
    - pose proof (mvn_cov _ _ HI (ts_key st) (leaf_matrix p a b)) as M.
      destruct (multivariate_normal _ _ _) as [[w h] kk]. cbn [fst].
      apply M. rewrite Ep. apply leaf_matrix_psd; lra.
  Qed.

  Lemma var_leaf (r : R) (st : tree_state V) : good st -> located r st -> cov (lv_W (leaf r st)) (lv_W (leaf r st)) = r.
  Proof.
    intros G L. rewrite leaf_W by auto. unfold mean.
    rewrite !(cov_sym _ _ HC (lv_W (leaf r st))), !leaf_W by auto.
    rewrite !leaf_noise_fresh by (apply (g_fresh _ _ _ _ _ G); lia).
    rewrite leaf_noise_var by auto.
    unfold mean. rewrite !(cov_sym _ _ HC (leaf_noise r st)).
    rewrite !leaf_noise_fresh by (apply (g_fresh _ _ _ _ _ G); lia).
    rewrite !(g_gram _ _ _ _ _ G) by lia. cbn [Nat.eqb]. unfold var6. cbn [nth].
    pose proof (pow2_pos (ts_level st)) as P. set (p := pow2 (ts_level st)) in *. set (s := ts_s st) in *. clearbody p s.
    unfold eH, eK, leaf_matrix. destruct la; cbn [m_ww]; field; lra.
  Qed.

  Lemma leaf_noise_end (x : V) (r : R) (st : tree_state V) : r = ts_s st + pow2 (ts_level st) \/ r = ts_s st -> cov x (leaf_noise r st) = 0.
  Proof.
    intros E. unfold leaf_noise. pose proof (pow2_pos (ts_level st)) as P.
    set (p := pow2 (ts_level st)) in *. set (s := ts_s st) in *. clearbody p s.
    destruct la.
    - replace ((r - s) * (p - (r - s)) / p) with 0 by (destruct E; subst; field; lra). rewrite sqrt_0. covs. ring.
    - replace ((r - s) * (p - (r - s))) with 0 by (destruct E; subst; ring). rewrite sqrt_0. covs. unfold Rdiv. ring.
    - assert (Z : leaf_matrix p (r - s) (p - (r - s)) = Matrix3 0 0 0 0 0 0).
      { destruct E as [-> | ->]; [replace (s + p - s) with p by ring; replace (p - p) with 0 by ring; apply leaf_matrix_zero; auto|].
        replace (s - s) with 0 by ring. replace (p - 0) with p by ring. apply leaf_matrix_zero; auto. }
      rewrite Z, HD. cbn. apply (cov_zero _ _ HC).
  Qed.

  Lemma cov_right_leaf (r : R) (st : tree_state V) : good st -> located r st ->
    let u := ts_s st + pow2 (ts_level st) in cov (lv_W (leaf r st)) (lv_W (leaf u st)) = r.
  Proof.
    intros G L u. assert (Lu : located u st) by (unfold located, u; pose proof (pow2_pos (ts_level st)); left; lra).
    rewrite leaf_W by auto. rewrite leaf_noise_end by (left; reflexivity). unfold mean.
    rewrite !(cov_sym _ _ HC (lv_W (leaf r st))), !leaf_W by auto.
    rewrite !leaf_noise_fresh by (apply (g_fresh _ _ _ _ _ G); lia).
    unfold mean. rewrite !(g_gram _ _ _ _ _ G) by lia. cbn [Nat.eqb]. unfold var6. cbn [nth].
    pose proof (pow2_pos (ts_level st)) as P. unfold u. set (p := pow2 (ts_level st)) in *. set (s := ts_s st) in *. clearbody p s.
    unfold eH, eK. destruct la; field; lra.
  Qed.

  (** Two times that go apart here *)
  Lemma gram_apart (r r' : R) (st : tree_state V) (i j : nat) : good st -> goes_right r st = false -> goes_right r' st = true ->
    (i < 6)%nat -> (j < 6)%nat ->
    cov (six (body r st) i) (six (body r' st) j) =
    dot9 (fun n => nth n (coefs la (ts_s st) (pow2 (ts_level st)) false i) 0 *
                   nth n (coefs la (ts_s st) (pow2 (ts_level st)) true j) 0) (var9 la st).
  Proof.
    intros G E E' Hi Hj.
    pose proof (child_comb o smp cov HC la r st i G Hi) as A. rewrite E in A.
    pose proof (child_comb o smp cov HC la r' st j G Hj) as B. rewrite E' in B.
    apply (comb_cov o cov HC _ _ _ _ _ _ (nine_orth o smp cov HC HI la st G) A B).
  Qed.

  Lemma six_fresh_other (r : R) (st : tree_state V) (i c : nat) : good st -> (i < 6)%nat -> c <> 1%nat ->
    fresh (six (body r st) i) (c :: ts_key st).
  Proof.
    intros G Hi C1.
    assert (N : forall l l', l ++ c :: ts_key st <> l' ++ 1%nat :: ts_key st) by (intros l l' E; now apply key_branch in E).
    split.
    - intros l. rewrite (cov_sym _ _ HC). apply (comb_zero _ _ _ _ _ (child_comb o smp cov HC la r st i G Hi)).
      intros j Hj. unfold nine. destruct (Nat.ltb_spec j 6) as [H|H].
      + rewrite (cov_sym _ _ HC). destruct (fresh_below _ _ _ _ c (g_fresh _ _ _ _ st G j H)) as [F _]. apply F.
      + apply (noise_orth o smp cov HC). intros l'. apply (normal_indep _ _ HI). apply N.
    - intros l m. pose proof (fun l' => mvn_indep _ _ HI (l ++ c :: ts_key st) m (l' ++ 1%nat :: ts_key st) (N l l')) as Q.
      assert (F : forall j, (j < 6)%nat -> let '(w, h, kk) := multivariate_normal smp (l ++ c :: ts_key st) m in
         cov (six st j) w = 0 /\ cov (six st j) h = 0 /\ cov (six st j) kk = 0).
      { intros j Hj. destruct (fresh_below _ _ _ _ c (g_fresh _ _ _ _ st G j Hj)) as [_ F]. apply F. }
      destruct (multivariate_normal smp (l ++ c :: ts_key st) m) as [[w h] kk].
      rewrite !(cov_sym _ _ HC (six (body r st) i)).
      repeat split; apply (comb_zero _ _ _ _ _ (child_comb o smp cov HC la r st i G Hi)); intros j Hj; unfold nine;
        (destruct (Nat.ltb_spec j 6) as [Hj6|Hj6]; [rewrite (cov_sym _ _ HC); apply (F j Hj6)|apply (noise_orth o smp cov HC); intros l'; apply (Q l')]).
  Qed.

  (** What is drawn below one key is fresh for another. *)
  Lemma fresh_mvn (j k : key) (m : matrix3) : (forall l, l ++ k <> j) ->
    let '(w, h, kk) := multivariate_normal smp j m in fresh w k /\ fresh h k /\ fresh kk k.
  Proof.
    intros N.
    assert (A : forall l, let '(w, h, kk) := multivariate_normal smp j m in
      cov w (normal smp (l ++ k)) = 0 /\ cov h (normal smp (l ++ k)) = 0 /\ cov kk (normal smp (l ++ k)) = 0).
    { intros l. apply (mvn_indep _ _ HI). intros E. symmetry in E. now apply N in E. }
    assert (B : forall l m', let '(w, h, kk) := multivariate_normal smp j m in
      let '(w', h', kk') := multivariate_normal smp (l ++ k) m' in
      forall x y, In x [w; h; kk] -> In y [w'; h'; kk'] -> cov x y = 0).
    { intros l m'. apply (mvn_mvn_indep _ _ HI). intros E. symmetry in E. now apply N in E. }
    destruct (multivariate_normal smp j m) as [[w h] kk].
    repeat split; try (intros l; apply (A l)); intros l m'; specialize (B l m');
      destruct (multivariate_normal smp (l ++ k) m') as [[w' h'] kk']; repeat split; apply B; cbn; tauto.
  Qed.

  Lemma outside_zero (n : nat) (x : V) (r : R) (st : tree_state V) : good st -> 0 <= ts_s st -> located r st ->
    fresh x (ts_key st) -> (forall i, (i < 6)%nat -> cov (six st i) x = 0) -> cov (lv_W (leaf r (run n r st))) x = 0.
  Proof.
    intros G S L F Z. rewrite (cov_sym _ _ HC), cov_outside by auto. unfold mean.
    rewrite !(cov_sym _ _ HC x), !Z by lia. ring.
  Qed.

  Lemma left_fresh (n : nat) (r : R) (st : tree_state V) (a c : nat) : good st -> 0 <= ts_s st -> located r st ->
    ts_key (body r st) = a :: ts_key st -> a <> c -> c <> 1%nat ->
    fresh (lv_W (leaf r (run n r (body r st)))) (c :: ts_key st).
  Proof.
    intros G S L Ka Nac C1.
    assert (GB : good (body r st)) by (now apply (good_body o smp cov HC HI)).
    destruct (located_body o smp la r st S L) as [S' L'].
    assert (N : forall l l', l ++ a :: ts_key st <> l' ++ c :: ts_key st) by (intros l l' E; now apply key_branch in E).
    assert (F6 : forall i, (i < 6)%nat -> fresh (six (body r st) i) (c :: ts_key st)) by (intros; now apply six_fresh_other).
    split.
    - intros l. apply outside_zero; auto; rewrite ?Ka.
      + apply (fresh_normal o smp cov HC HI). intros l'. apply N.
      + intros i Hi. apply (F6 i Hi).
    - intros l m. pose proof (fresh_mvn (l ++ c :: ts_key st) (a :: ts_key st) m (fun l' => N l' l)) as FM.
      assert (F6' : forall i, (i < 6)%nat -> let '(w, h, kk) := multivariate_normal smp (l ++ c :: ts_key st) m in
         cov (six (body r st) i) w = 0 /\ cov (six (body r st) i) h = 0 /\ cov (six (body r st) i) kk = 0).
      { intros i Hi. apply (F6 i Hi). }
      destruct (multivariate_normal smp (l ++ c :: ts_key st) m) as [[w h] kk]. destruct FM as (F1 & F2 & F3).
      repeat split; apply outside_zero; auto; rewrite ?Ka; auto; intros i Hi; apply (F6' i Hi).
  Qed.

  Lemma cov_apart (n : nat) (r r' : R) (st : tree_state V) : good st -> 0 <= ts_s st -> located r st -> located r' st ->
    goes_right r st = false -> goes_right r' st = true ->
    cov (lv_W (leaf r (run n r (body r st)))) (lv_W (leaf r' (run n r' (body r' st)))) = r.
  Proof.
    intros G S L L' E E'.
    pose proof (body_key o smp la r st) as K. rewrite E in K. pose proof (body_key o smp la r' st) as K'. rewrite E' in K'.
    assert (GB : good (body r st)) by (now apply (good_body o smp cov HC HI)).
    assert (GB' : good (body r' st)) by (now apply (good_body o smp cov HC HI)).
    destruct (located_body o smp la r st S L) as [SB LB]. destruct (located_body o smp la r' st S L') as [SB' LB'].
    rewrite cov_outside; auto; [|rewrite K'; apply (left_fresh n r st 2 0); auto].
    unfold mean at 1. rewrite !(cov_sym _ _ HC (lv_W (leaf r (run n r (body r st))))).
    rewrite !cov_outside; auto; try (rewrite K; apply six_fresh_other; auto; lia).
    unfold mean. rewrite !(cov_sym _ _ HC (six (body r' st) _) (six (body r st) _)).
    rewrite !gram_apart by (auto; lia).
    rewrite !body_s, !body_level, !pow2_S.
    assert (Q : (if Rlt_dec (ts_s st + pow2 (ts_level st) / 2) r then ts_s st + pow2 (ts_level st) / 2 else ts_s st) = ts_s st).
    { revert E. unfold goes_right. destruct (Rlt_dec _ _); [discriminate|reflexivity]. }
    assert (Q' : (if Rlt_dec (ts_s st + pow2 (ts_level st) / 2) r' then ts_s st + pow2 (ts_level st) / 2 else ts_s st) = ts_s st + pow2 (ts_level st) / 2).
    { clear Q. revert E'. unfold goes_right. destruct (Rlt_dec (ts_s st + pow2 (ts_level st) / 2) r'); [reflexivity|discriminate]. }
    rewrite Q, Q'. clear - HC. pose proof (pow2_pos (ts_level st)) as P.
    unfold var9, var6, noise_var.
    generalize dependent (pow2 (ts_level st)). generalize (ts_s st). intros s p P.
    unfold coefs, c_t, c_st, c_tu, eH, eK.
    destruct la; cbv [dot9 lin unit9 map seq fold_right fst snd nth Nat.eqb Nat.ltb Nat.leb Nat.sub]; field; lra.
  Qed.

  Lemma body_same (r r' : R) (st : tree_state V) : goes_right r st = goes_right r' st -> body r st = body r' st.
  Proof.
    destruct st as [l s [[ws wu] wsu] k [[hs hu] hsu] [[ks ku] ksu]].
    unfold goes_right, tree_body, brownian_arch. destruct la; cbn -[pow2];
      destruct (Rlt_dec _ r), (Rlt_dec _ r'); intros E; try discriminate; reflexivity.
  Qed.
  Lemma goes_right_mono (r r' : R) (st : tree_state V) : r <= r' -> goes_right r st = true -> goes_right r' st = true.
  Proof. unfold goes_right. intros L. destruct (Rlt_dec _ r), (Rlt_dec _ r'); intros; try discriminate; auto. lra. Qed.

  Lemma cov_pair (n : nat) (r r' : R) : forall st, good st -> 0 <= ts_s st -> aligned st -> located r st -> located r' st -> r <= r' ->
    (r = r' \/ exists i, r <= INR i * pow2 (ts_level st + n) <= r') ->
    cov (lv_W (leaf r (run n r st))) (lv_W (leaf r' (run n r' st))) = r.
  Proof.
    induction n; intros st G S A L L' Le Gr; cbn.
    - rewrite Nat.add_0_r in Gr. pose proof (pow2_pos (ts_level st)) as P.
      destruct Gr as [<-|[i Hi]]; [apply var_leaf; auto|].
      destruct (Req_EM_T r 0) as [E0|N0].
      + assert (Z : ts_s st = 0) by (unfold located in L; lra).
        rewrite (cov_sym _ _ HC), leaf_W by auto. rewrite leaf_noise_end by (right; lra).
        unfold mean. rewrite E0, Z. rewrite (cov_sym _ _ HC _ (six st 0)), leaf_W by auto.
        rewrite leaf_noise_fresh by (apply (g_fresh _ _ _ _ _ G); lia).
        unfold mean. rewrite !(g_gram _ _ _ _ _ G) by lia. cbn [Nat.eqb]. unfold var6. cbn [nth]. rewrite Z. field. lra.
      + assert (E : r' = ts_s st + pow2 (ts_level st)).
        { destruct A as [j Hj]. unfold located in L, L'. set (p := pow2 (ts_level st)) in *.
          assert (Lr : ts_s st < r <= ts_s st + p) by (destruct L as [|[? ?]]; [auto|contradiction]).
          destruct L' as [L'|[Z _]]; [|lra].
          assert (INR j < INR i) by (apply Rmult_lt_reg_r with p; lra).
          assert (j + 1 <= i)%nat as Q by (apply INR_lt in H; lia).
          apply le_INR in Q. rewrite plus_INR in Q. simpl in Q. nra. }
        rewrite E. apply cov_right_leaf; auto.
    - destruct (goes_right r st) eqn:E; destruct (goes_right r' st) eqn:E'.
      3: apply cov_apart; auto.
      2: rewrite (goes_right_mono r r' st Le E) in E'; discriminate.
      all: destruct (located_body o smp la r st S L) as [SB LB]; destruct (located_body o smp la r' st S L') as [SB' LB'];
        pose proof (body_same r r' st (eq_trans E (eq_sym E'))) as Q; rewrite <- Q in *;
        apply IHn; auto; [now apply (good_body o smp cov HC HI)|now apply aligned_body|];
        rewrite body_level; now replace (ts_level st + 1 + n)%nat with (ts_level st + Datatypes.S n)%nat by lia.
  Qed.

  Lemma good_init (k : key) : good (init_tree o smp la k).
  Proof.
    assert (D : forall i j, i <> j -> cov (normal smp (split k i)) (normal smp (split k j)) = 0).
    { intros i j N. apply (normal_indep _ _ HI). unfold split. congruence. }
    assert (Z : forall x, cov 0v x = 0) by (intros; apply (cov_zero_l o cov HC)).
    assert (F0 : fresh 0v (0%nat :: k)).
    { split; intros; rewrite ?Z; auto. destruct (multivariate_normal _ _ _) as [[? ?] ?]. rewrite !Z. auto. }
    assert (FN : forall i, i <> 0%nat -> fresh (normal smp (split k i)) (0%nat :: k)).
    { intros i Ni. apply (fresh_normal o smp cov HC HI). intros l E. destruct l as [|a l]; unfold split in E; cbn in E; [congruence|].
      injection E as _ E. symmetry in E. now apply key_longer in E. }
    assert (FS : forall c x, fresh x (0%nat :: k) -> fresh (op_scale o c x) (0%nat :: k)).
    { intros c x [A B]. split.
      - intros l. rewrite (cov_scale_l o cov HC), A. ring.
      - intros l m. specialize (B l m). destruct (multivariate_normal _ _ _) as [[? ?] ?].
        rewrite !(cov_scale_l o cov HC). destruct B as (-> & -> & ->). repeat split; ring. }
    assert (Q12 : 1 / sqrt 12 * (1 / sqrt 12) = 1 / 12).
    { rewrite <- (sqrt_sqrt 12) at 3 by lra. field. apply Rgt_not_eq, sqrt_lt_R0; lra. }
    assert (Q720 : 1 / sqrt 720 * (1 / sqrt 720) = 1 / 720).
    { rewrite <- (sqrt_sqrt 720) at 3 by lra. field. apply Rgt_not_eq, sqrt_lt_R0; lra. }
    assert (P1 : pow2 0 = 1) by reflexivity.
    constructor; unfold init_tree; cbn [ts_level ts_s ts_w ts_key ts_bhh ts_bkk]; try rewrite P1.
    - intros i j Hi Hj. unfold Proof_Covariance.six, var6, eH, eK. cbn [ts_level ts_s ts_w ts_key ts_bhh ts_bkk]. rewrite P1.
      destruct la; cbn [ts_level ts_s ts_w ts_key ts_bhh ts_bkk];
        (destruct i as [|[|[|[|[|[|i]]]]]]; [..|lia]); (destruct j as [|[|[|[|[|[|j]]]]]]; [..|lia]); cbn [nth Nat.eqb];
        rewrite ?Z, ?(cov_zero _ _ HC), ?(cov_scale_l o cov HC), ?(cov_scale _ _ HC), ?(normal_var _ _ HI), ?D by lia; lra.
    - intros i Hi. unfold Proof_Covariance.six. destruct la; cbn [ts_level ts_s ts_w ts_key ts_bhh ts_bkk];
        (destruct i as [|[|[|[|[|[|i]]]]]]; [..|lia]); cbn [nth]; auto; try apply FS; apply FN; lia.
    - intros ->. reflexivity.
    - destruct la; congruence.
    - destruct la; intros x; repeat split; try congruence; intros; covs; lra.
  Qed.

  Lemma init_located (k : key) (r : R) : 0 <= r <= 1 -> located r (init_tree o smp la k).
  Proof.
    intros Hr. unfold located, init_tree; cbn [ts_s ts_level]. unfold pow2. simpl.
    destruct (Req_EM_T r 0); [right; auto|left; lra].
  Qed.

  Lemma evaluate_leaf_run (tol r : R) (k : key) (fuel : nat) (x : levy_val V) :
    evaluate_leaf o smp la Sqrt eps tol k fuel r = Some x ->
    0 <= r <= 1 /\ exists n, x = leaf r (run n r (init_tree o smp la k)) /\ pow2 n <= tol /\ (forall j, (j < n)%nat -> tol < pow2 j).
  Proof.
    unfold evaluate_leaf. destruct (Rlt_dec r 0); [discriminate|]. destruct (Rlt_dec 1 r); [discriminate|].
    destruct (tree_loop _ _ _ _ _ _ _) as [f|] eqn:F; [|discriminate]. intros [= <-].
    apply loop_run in F. destruct F as (N & -> & HN & HB). split; [lra|]. exists N. auto.
  Qed.

  Lemma leaf_cov (tol r r' : R) (k : key) (fuel fuel' : nat) (x x' : levy_val V) : r <= r' ->
    (r = r' \/ exists i n, r <= INR i * pow2 n <= r' /\ (n = O \/ tol < 2 * pow2 n)) ->
    evaluate_leaf o smp la Sqrt eps tol k fuel r = Some x ->
    evaluate_leaf o smp la Sqrt eps tol k fuel' r' = Some x' -> cov (lv_W x) (lv_W x') = r.
  Proof.
    intros Le Gr X X'. apply evaluate_leaf_run in X as [Hr (n & -> & N1 & N2)]. apply evaluate_leaf_run in X' as [Hr' (n' & -> & N1' & N2')].
    assert (n' = n) as -> by (apply (depth_unique tol n' n 0); auto).
    apply cov_pair; auto.
    - apply good_init.
    - cbn. lra.
    - exists 0%nat. cbn. lra.
    - now apply init_located.
    - now apply init_located.
    - destruct Gr as [|(i & m & Hi & Hm)]; [auto|right]. cbn [ts_level init_tree Nat.add].
      assert (m <= n)%nat.
      { destruct m as [|m]; [lia|]. destruct Hm as [|Hm]; [lia|].
        replace (Datatypes.S m) with (m + 1)%nat in Hm by lia. rewrite pow2_S in Hm.
        destruct (Nat.le_gt_cases (Datatypes.S m) n); [auto|exfalso].
        pose proof (pow2_anti n m ltac:(lia)). lra. }
      exists (i * 2 ^ (n - m))%nat. rewrite mult_INR, pow_INR. replace (INR 2) with 2 by reflexivity.
      replace (INR i * 2 ^ (n - m) * pow2 n) with (INR i * pow2 m); [auto|].
      rewrite !pow2_inv. replace n with (m + (n - m))%nat at 2 by lia. rewrite pow_add.
      field. split; apply pow_nonzero; lra.
  Qed.
End CovPath.

Lemma grid_rescale (vt : tree) (s t : R) : proper vt -> grid_between vt s t ->
  exists i n, (s - vt_t0 vt) / length vt <= INR i * pow2 n <= (t - vt_t0 vt) / length vt /\ (n = O \/ scaled_tol vt < 2 * pow2 n).
Proof.
  intros [P _] (n & k & H & Hn). cbv zeta in H. exists k, n.
  assert (LP : 0 < length vt) by (unfold length; lra).
  rewrite pow2_inv.
  assert (M : (vt_t0 vt + INR k * (length vt / 2 ^ n) - vt_t0 vt) / length vt = INR k * / 2 ^ n) by (field; split; [apply pow_nonzero|]; lra).
  assert (I : forall a b, a <= b -> (a - vt_t0 vt) / length vt <= (b - vt_t0 vt) / length vt).
  { intros a b AB. apply Rmult_le_compat_r; [left; now apply Rinv_0_lt_compat|lra]. }
  split; [rewrite <- M; split; apply I; tauto|].
  destruct Hn as [|Hn]; [auto|right]. unfold scaled_tol. fold (length vt).
  apply Rmult_lt_reg_r with (length vt); [auto|]. unfold Rdiv at 1. rewrite Rmult_assoc, Rinv_l by lra. lra.
Qed.

Lemma pf_C45_covariance (V : Type) (o : ops V) (smp : sampler V) (cov : V -> V -> R) (la : levy_area) (eps : R) (vt : tree)
  (fuel fuel' : nat) (s t : R) (x y : increment V) :
  is_covariance o cov -> independent_samples smp cov -> degenerate_is_mean o smp -> proper vt ->
  told_apart vt s t ->
  evaluate o smp la Sqrt eps vt fuel s None = Some x ->
  evaluate o smp la Sqrt eps vt fuel' t None = Some y ->
  cov (inc_W x) (inc_W y) = s - vt_t0 vt.
Proof.
  intros HC HI HD P [Le Gr]. pose proof P as [P1 P2]. unfold evaluate. rewrite !linear_rescale_in by auto.
  assert (LP : 0 < length vt) by (unfold length; lra).
  destruct (evaluate_leaf _ _ _ _ _ _ _ _ ((s - _) / _)) as [a|] eqn:A; [|discriminate].
  destruct (evaluate_leaf _ _ _ _ _ _ _ _ ((t - _) / _)) as [b|] eqn:B; [|discriminate].
  intros [= <-] [= <-]. unfold denormalise, make_levy_val. cbn [inc_W]. fold (length vt).
  rewrite (cov_scale_l o cov HC), (cov_scale _ _ HC).
  rewrite (fun H1 H2 => leaf_cov o smp cov HC HI HD la eps _ _ _ _ _ _ _ _ H1 H2 A B).
  - rewrite <- Rmult_assoc, sqrt_sqrt by lra. field. lra.
  - apply Rmult_le_compat_r; [left; now apply Rinv_0_lt_compat|lra].
  - destruct Gr as [->|Gr]; [auto|right; now apply grid_rescale].
Qed.

Lemma told_apart_trans (vt : tree) (a b c : R) : told_apart vt a b -> told_apart vt b c -> told_apart vt a c.
Proof.
  intros [L1 [->|(n & k & H & Hn)]] [L2 B]; [now split|]. split; [lra|right]. exists n, k. cbv zeta in *. split; [lra|auto].
Qed.

Section Increments.
  Context (V : Type) (o : ops V) (smp : sampler V) (cov : V -> V -> R) (la : levy_area) (eps : R) (vt : tree).
  Hypothesis HC : is_covariance o cov.
  Hypothesis HI : independent_samples smp cov.
  Hypothesis HD : degenerate_is_mean o smp.
  Hypothesis P : proper vt.
  Notation ev := (evaluate o smp la Sqrt eps vt).

  Lemma levy_diff_W (a b : levy_val V) : inc_W (levy_diff o la eps a b) = op_minus o (lv_W b) (lv_W a).
  Proof. unfold levy_diff. destruct la; reflexivity. Qed.
  Lemma evaluate_diff (fuel : nat) (s t : R) (x : increment V) : ev fuel s (Some t) = Some x ->
    exists a b, ev fuel s None = Some a /\ ev fuel t None = Some b /\ forall z, cov z (inc_W x) = cov z (inc_W b) - cov z (inc_W a).
  Proof.
    unfold evaluate.
    destruct (evaluate_leaf _ _ _ _ _ _ _ _ (linear_rescale _ s _)) as [a|]; [|discriminate].
    destruct (evaluate_leaf _ _ _ _ _ _ _ _ (linear_rescale _ t _)) as [b|]; [|discriminate].
    intros [= <-]. eexists; eexists; split; [reflexivity|]; split; [reflexivity|].
    intros z. unfold denormalise, make_levy_val. cbn [inc_W]. rewrite levy_diff_W.
    rewrite !(cov_scale _ _ HC), (cov_minus _ _ HC). ring.
  Qed.
End Increments.

Lemma pf_C45_increments (V : Type) (o : ops V) (smp : sampler V) (cov : V -> V -> R) (la : levy_area) (eps : R) (vt : tree)
  (fuel fuel' : nat) (s t s' t' : R) (x y : increment V) :
  is_covariance o cov -> independent_samples smp cov -> degenerate_is_mean o smp -> proper vt ->
  told_apart vt s t -> told_apart vt t s' -> told_apart vt s' t' ->
  evaluate o smp la Sqrt eps vt fuel s (Some t) = Some x ->
  evaluate o smp la Sqrt eps vt fuel' s' (Some t') = Some y ->
  cov (inc_W x) (inc_W x) = t - s /\ cov (inc_W x) (inc_W y) = 0.
Proof.
  intros HC HI HD P A B C X Y.
  pose proof (pf_C45_covariance V o smp cov la eps vt) as K.
  apply (evaluate_diff V o smp cov la eps vt HC) in X as (a & b & Xa & Xb & X).
  apply (evaluate_diff V o smp cov la eps vt HC) in Y as (a' & b' & Ya & Yb & Y).
  assert (Rf : forall r, told_apart vt r r) by (intros; split; [lra|auto]).
  pose proof (told_apart_trans vt _ _ _ A B) as AB. pose proof (told_apart_trans vt _ _ _ B C) as BC.
  pose proof (told_apart_trans vt _ _ _ A BC) as ABC.
  split.
  - rewrite X, !(cov_sym _ _ HC (inc_W x)), !X.
    rewrite (K _ _ _ _ _ _ HC HI HD P (Rf t) Xb Xb), (K _ _ _ _ _ _ HC HI HD P (Rf s) Xa Xa).
    rewrite (cov_sym _ _ HC (inc_W b)). rewrite (K _ _ _ _ _ _ HC HI HD P A Xa Xb). ring.
  - rewrite Y, !(cov_sym _ _ HC (inc_W x)), !X. rewrite !(cov_sym _ _ HC (inc_W b')), !(cov_sym _ _ HC (inc_W a')).
    rewrite (K _ _ _ _ _ _ HC HI HD P BC Xb Yb), (K _ _ _ _ _ _ HC HI HD P ABC Xa Yb).
    rewrite (K _ _ _ _ _ _ HC HI HD P B Xb Ya), (K _ _ _ _ _ _ HC HI HD P AB Xa Ya). ring.
Qed.

(** Times that the tolerance does not tell apart *)
Lemma pf_C45_below_tolerance : exists (vt : tree) (s t : R), proper vt /\ within vt s /\ within vt t /\ s < t /\
  forall (V : Type) (o : ops V) (smp : sampler V) (cov : V -> V -> R) (eps : R) (fuel : nat) (x y : increment V),
  is_covariance o cov -> independent_samples smp cov ->
  evaluate o smp BM Sqrt eps vt fuel s None = Some x ->
  evaluate o smp BM Sqrt eps vt fuel t None = Some y ->
  cov (inc_W x) (inc_W y) <> s - vt_t0 vt.
Proof.
  exists (Tree 0 1 1 []), (/ 4), (/ 2).
  split; [split; cbn; lra|]. split; [split; cbn; lra|]. split; [split; cbn; lra|]. split; [lra|].
  intros V o smp cov eps fuel x y HC HI.
  assert (Tl : scaled_tol (Tree 0 1 1 []) = 1) by (unfold scaled_tol; cbn; field).
  assert (L : forall r, 0 <= r <= 1 -> evaluate_leaf o smp BM Sqrt eps 1 [] fuel ((r - 0) / 1) =
     Some (tree_leaf o smp BM Sqrt eps r (init_tree o smp BM []))).
  { intros r Hr. replace ((r - 0) / 1) with r by field. unfold evaluate_leaf. destruct (Rlt_dec r 0); [lra|]. destruct (Rlt_dec 1 r); [lra|].
    destruct fuel; cbn [tree_loop init_tree ts_level]; unfold pow2; simpl pow; (destruct (Rlt_dec 1 1); [lra|reflexivity]). }
  unfold evaluate. rewrite Tl. cbn [vt_t0 vt_t1 vt_key].
  assert (LR : forall r, linear_rescale 0 r 1 = (r - 0) / 1).
  { intros. unfold linear_rescale. destruct (Req_EM_T _ _); [lra|]. field. }
  rewrite !LR. rewrite !L by lra. intros [= <-] [= <-].
  unfold denormalise, make_levy_val, tree_leaf, init_tree. cbn [inc_W lv_W ts_w ts_bhh ts_bkk ts_s ts_level ts_key vt_t0 vt_t1].
  assert (P1 : pow2 0 = 1) by reflexivity. rewrite P1.
  rewrite (relu_pos (/ 4 - 0)), (relu_pos (/ 2 - 0)) by lra.
  rewrite (relu_pos (1 - (/ 4 - 0))), (relu_pos (1 - (/ 2 - 0))) by lra.
  replace (1 - 0) with 1 by ring. rewrite sqrt_1.
  repeat first [rewrite (cov_plus _ _ HC) | rewrite (cov_scale _ _ HC) | rewrite (cov_zero _ _ HC)
               | rewrite (cov_plus_l o cov HC) | rewrite (cov_scale_l o cov HC) | rewrite (cov_zero_l o cov HC)].
  rewrite !(normal_var _ _ HI). unfold split.
  rewrite (normal_indep _ _ HI [1%nat] [0%nat]), (normal_indep _ _ HI [0%nat] [1%nat]) by discriminate.
  assert (E1 : sqrt ((/ 4 - 0) * (1 - (/ 4 - 0)) / 1) = sqrt 3 / 4).
  { replace ((/ 4 - 0) * (1 - (/ 4 - 0)) / 1) with (3 * (/ 4) ^ 2) by field. rewrite sqrt_mult, sqrt_pow2 by lra. lra. }
  assert (E2 : sqrt ((/ 2 - 0) * (1 - (/ 2 - 0)) / 1) = / 2).
  { replace ((/ 2 - 0) * (1 - (/ 2 - 0)) / 1) with ((/ 2) ^ 2) by field. apply sqrt_pow2. lra. }
  rewrite E1, E2. intros F. assert (Q : sqrt 3 = 1) by lra.
  assert (Q3 : sqrt 3 * sqrt 3 = 3) by (apply sqrt_sqrt; lra). rewrite Q in Q3. lra.
Qed.

Lemma pf_C45_unsafe (V : Type) (o : ops V) (smp : sampler V) (cov : V -> V -> R) (la : levy_area) (k : key) (t0 t1 : R) :
  is_covariance o cov -> independent_samples smp cov -> t0 <= t1 ->
  let x := unsafe_evaluate o smp la k t0 t1 in
  inc_dt x = t1 - t0 /\ cov (inc_W x) (inc_W x) = t1 - t0 /\
  (la <> BM -> cov (inc_H x) (inc_H x) = (t1 - t0) / 12 /\ cov (inc_W x) (inc_H x) = 0) /\
  (la = STT -> cov (inc_K x) (inc_K x) = (t1 - t0) / 720 /\ cov (inc_W x) (inc_K x) = 0 /\ cov (inc_H x) (inc_K x) = 0).
Proof.
  intros HC HI Ht. cbv zeta.
  assert (D : forall i j, i <> j -> cov (normal smp (split k i)) (normal smp (split k j)) = 0).
  { intros i j N. apply (normal_indep _ _ HI). unfold split. congruence. }
  assert (S : forall c, 0 < c -> sqrt (t1 - t0) / sqrt c * (sqrt (t1 - t0) / sqrt c) = (t1 - t0) / c).
  { intros c C. rewrite <- (sqrt_sqrt (t1 - t0)) at 3 by lra. rewrite <- (sqrt_sqrt c) at 3 by lra. field.
    apply Rgt_not_eq, sqrt_lt_R0; lra. }
  assert (S1 : sqrt (t1 - t0) * sqrt (t1 - t0) = t1 - t0) by (apply sqrt_sqrt; lra).
  assert (C : forall a b i, cov (op_scale o a (normal smp i)) (op_scale o b (normal smp i)) = a * b).
  { intros. rewrite (cov_scale_l o cov HC), (cov_scale _ _ HC), (normal_var _ _ HI). ring. }
  assert (N : forall a b i j, i <> j -> cov (op_scale o a (normal smp (split k i))) (op_scale o b (normal smp (split k j))) = 0).
  { intros. rewrite (cov_scale_l o cov HC), (cov_scale _ _ HC), D by auto. ring. }
  unfold unsafe_evaluate. destruct la; cbn [inc_dt inc_W inc_H inc_K]; rewrite ?C, ?S1, ?S by lra;
    repeat split; try congruence; try (apply N; lia).
Qed.
