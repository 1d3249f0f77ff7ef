(** Proofs about the Brownian tree: the covariance of values and Levy areas at two times. *)
From Coq Require Import Reals List Bool Lra Lia Psatz.
From Verif Require Import Model_Brownian Spec_Brownian Proof_Brownian Proof_Covariance Proof_CovLeaf Proof_CovPath Proof_CovLevy.
Import ListNotations.
Open Scope R_scope.

Section CovLevyPath.
  Context {V : Type} (o : ops V) (smp : sampler V) (cov : V -> V -> R).
  Hypothesis HC : is_covariance o cov.
  Hypothesis HI : independent_samples smp cov.
  Hypothesis HD : degenerate_is_mean o smp.
  Context (la : levy_area) (eps : R).
  Notation body := (tree_body o smp la).
  Notation leaf := (tree_leaf o smp la Sqrt eps).
  Notation run := (run o smp la).
  Notation good := (good o smp cov la).
  Notation six := (six o).
  Notation fresh := (fresh smp cov).
  Notation noise := (noise o smp la).
  Notation val := (val o).
  Notation avail := (avail la).
  Notation jmean := (jmean o cov la).
  Notation var3 := (var3 la).
  Local Notation "0v" := (op_zero o).

  Lemma jmean_body (j : nat) (x : V) (r : R) (st : tree_state V) : good st -> fresh x (ts_key st) -> (j < 3)%nat ->
    jmean j x r (body r st) = jmean j x r st.
  Proof.
    intros G [F _] Hj. unfold Proof_CovLevy.jmean, lmean, dot3, dot3'. cbn [Nat.add].
    rewrite !(child_comb o smp cov HC la r st _ G) by lia.
    rewrite body_s, body_level, pow2_S. unfold goes_right.
    assert (N : forall i, cov x (noise st i) = 0).
    { intros i. apply (noise_orth o smp cov HC). intros l. specialize (F (l ++ [1%nat])). now rewrite <- app_assoc in F. }
    pose proof (pow2_pos (ts_level st)) as P.
    assert (K : la <> STT -> cov x (six st 5) = 0).
    { intros Q. unfold Proof_Covariance.six. destruct (ts_w st) as [[? ?] ?], (ts_bhh st) as [[? ?] ?].
      rewrite (g_dummy_K _ _ _ _ _ G Q). cbn. apply (cov_zero _ _ HC). }
    assert (H : la = BM -> cov x (six st 4) = 0).
    { intros Q. unfold Proof_Covariance.six. destruct (ts_w st) as [[? ?] ?]. rewrite (g_dummy_H _ _ _ _ _ G Q).
      destruct (ts_bkk st) as [[? ?] ?]. cbn. apply (cov_zero _ _ HC). }
    clear G F.
    unfold nine. cbv [dot9 Nat.ltb Nat.leb Nat.sub]. rewrite !N.
    generalize dependent (pow2 (ts_level st)). generalize (ts_s st). intros s p P.
    set (x0 := cov x (six st 0)) in *. set (x1 := cov x (six st 1)) in *. set (x2 := cov x (six st 2)) in *.
    set (x3 := cov x (six st 3)) in *. set (x4 := cov x (six st 4)) in *. set (x5 := cov x (six st 5)) in *. clearbody x0 x1 x2 x3 x4 x5.
    unfold Proof_CovLevy.avail, chen, expected.
    destruct la; try specialize (K ltac:(discriminate)); try specialize (H eq_refl); subst;
      destruct (Rlt_dec _ _) as [_|_]; (destruct j as [|[|[|j]]]; [..|lia]);
      cbv [coefs c_t c_st c_tu lin unit9 map seq fold_right fst snd nth Nat.eqb]; try reflexivity; field; lra.
  Qed.

  Lemma outside (n j : nat) (x : V) (r : R) : (j < 3)%nat -> forall st, good st -> 0 <= ts_s st -> located r st -> fresh x (ts_key st) ->
    cov x (val j (leaf r (run n r st))) = jmean j x r st.
  Proof.
    intros Hj. induction n; intros st G S L F; cbn [Proof_Brownian.run].
    - rewrite (leaf_val o smp cov HC), (noise_mean_fresh o smp cov HC) by auto. ring.
    - rewrite IHn.
      + apply jmean_body; auto.
      + apply (good_body o smp cov HC HI); auto.
      + apply located_body; auto.
      + apply located_body; auto.
      + rewrite body_key. apply fresh_below; auto.
  Qed.

  (** The covariance of components [i] at [r] and [j] at [r'] *)
  Definition target (r r' : R) (i j : nat) : R := if avail j then nth i (chen r (r' - r) j) 0 * var3 r i else 0.

  Lemma right_leaf (i j : nat) (r : R) (st : tree_state V) : good st -> located r st -> (i < 3)%nat -> (j < 3)%nat ->
    let u := ts_s st + pow2 (ts_level st) in cov (val i (leaf r st)) (val j (leaf u st)) = target r u i j.
  Proof.
    intros G L Hi Hj u. assert (Lu : located u st) by (unfold located, u; pose proof (pow2_pos (ts_level st)); left; lra).
    rewrite (leaf_val o smp cov HC) by auto. rewrite (noise_mean_end o smp cov HC HD) by (left; reflexivity).
    unfold Proof_CovLevy.jmean, lmean, dot3, dot3'. cbn [Nat.add].
    rewrite !(cov_sym _ _ HC (val i (leaf r st))), !(leaf_val o smp cov HC) by auto.
    rewrite !(noise_mean_fresh o smp cov HC) by (apply (g_fresh _ _ _ _ _ G); lia).
    unfold Proof_CovLevy.jmean, lmean, dot3, dot3'. cbn [Nat.add].
    rewrite !(g_gram _ _ _ _ _ G) by lia. cbn [Nat.eqb].
    pose proof (pow2_pos (ts_level st)) as P. unfold target, u, var6, Proof_CovLevy.var3, Proof_CovLevy.avail, chen, expected, eH, eK. cbn [nth].
    set (p := pow2 (ts_level st)) in *. set (s := ts_s st) in *. clearbody p s. clear L Lu u G.
    destruct la; destruct i as [|[|[|i]]]; try lia; (destruct j as [|[|[|j]]]; try lia); cbn [nth]; try ring; field; lra.
  Qed.

  (** Both halves *)
  Lemma halves (l m : nat) (r r' : R) (st : tree_state V) : good st -> goes_right r st = false -> goes_right r' st = true ->
    (l < 6)%nat -> (m < 6)%nat ->
    cov (six (body r st) l) (six (body r' st) m) =
    if Nat.ltb m 3 then if avail m then nth l (chen (ts_s st) (pow2 (ts_level st) / 2) m) 0 *
      (if Nat.ltb l 3 then var3 (ts_s st) l else var3 (pow2 (ts_level st) / 2) (l - 3)) else 0 else 0.
  Proof.
    intros G E E' Hl Hm. rewrite (gram_apart o smp cov HC HI) by auto. clear - Hl Hm. pose proof (pow2_pos (ts_level st)) as P.
    unfold var9, var6, noise_var.
    generalize dependent (pow2 (ts_level st)). generalize (ts_s st). intros s p P.
    unfold coefs, c_t, c_st, c_tu, eH, eK, Proof_CovLevy.var3, Proof_CovLevy.avail, chen, eH, eK.
    destruct la; (destruct l as [|[|[|[|[|[|l]]]]]]; try lia); (destruct m as [|[|[|[|[|[|m]]]]]]; try lia);
      cbv [dot9 lin unit9 map seq fold_right fst snd nth Nat.eqb Nat.ltb Nat.leb Nat.sub]; try ring; field; lra.
  Qed.

  (** Two times that go apart here *)
  Lemma left_right (n i m : nat) (r r' : R) (st : tree_state V) : good st -> 0 <= ts_s st -> located r st ->
    goes_right r st = false -> goes_right r' st = true -> (i < 3)%nat -> (m < 6)%nat ->
    cov (val i (leaf r (run n r (body r st)))) (six (body r' st) m) =
    if Nat.ltb m 3 then target r (ts_s st + pow2 (ts_level st) / 2) i m else 0.
  Proof.
    intros G S L E E' Hi Hm.
    pose proof (body_key o smp la r st) as K. rewrite E in K.
    assert (GB : good (body r st)) by (now apply (good_body o smp cov HC HI)).
    destruct (located_body o smp la r st S L) as [SB LB].
    rewrite (cov_sym _ _ HC). rewrite outside by (auto; rewrite K; apply (six_fresh_other o smp cov HC HI); auto; lia).
    unfold Proof_CovLevy.jmean, lmean, dot3, dot3'. cbn [Nat.add].
    rewrite !(cov_sym _ _ HC (six (body r' st) m) (six (body r st) _)).
    rewrite !halves by (auto; lia).
    rewrite !body_s, !body_level, !pow2_S.
    assert (Q : (if Rlt_dec (ts_s st + pow2 (ts_level st) / 2) r then ts_s st + pow2 (ts_level st) / 2 else ts_s st) = ts_s st).
    { revert E. unfold goes_right. destruct (Rlt_dec _ _); [discriminate|reflexivity]. }
    rewrite Q. clear - Hi Hm. pose proof (pow2_pos (ts_level st)) as P.
    unfold target.
    generalize dependent (pow2 (ts_level st)). generalize (ts_s st). intros s p P.
    unfold Proof_CovLevy.var3, Proof_CovLevy.avail, chen, expected, eH, eK.
    destruct la; destruct i as [|[|[|i]]]; try lia; (destruct m as [|[|[|[|[|[|m]]]]]]; try lia);
      cbn [nth Nat.eqb Nat.ltb Nat.leb Nat.sub]; try ring; field; lra.
  Qed.

  Lemma left_val_fresh (n i : nat) (r : R) (st : tree_state V) (a c : nat) : good st -> 0 <= ts_s st -> located r st -> (i < 3)%nat ->
    ts_key (body r st) = a :: ts_key st -> a <> c -> c <> 1%nat ->
    fresh (val i (leaf r (run n r (body r st)))) (c :: ts_key st).
  Proof.
    intros G S L Hi Ka Nac C1.
    assert (GB : good (body r st)) by (now apply (good_body o smp cov HC HI)).
    destruct (located_body o smp la r st S L) as [S' L'].
    assert (OZ : forall x, fresh x (ts_key (body r st)) -> (forall i, (i < 6)%nat -> cov (six (body r st) i) x = 0) ->
      cov (val i (leaf r (run n r (body r st)))) x = 0).
    { intros x F Z. rewrite (cov_sym _ _ HC), outside by auto. unfold Proof_CovLevy.jmean, lmean, dot3, dot3'. cbn [Nat.add].
      rewrite !(cov_sym _ _ HC x), !Z by lia. destruct (avail i); ring. }
    assert (N : forall l l', l ++ a :: ts_key st <> l' ++ c :: ts_key st) by (intros l l' E; now apply key_branch in E).
    assert (F6 : forall i, (i < 6)%nat -> fresh (six (body r st) i) (c :: ts_key st)) by (intros; now apply (six_fresh_other o smp cov HC HI)).
    split.
    - intros l. apply OZ; auto; rewrite ?Ka.
      + apply (fresh_normal o smp cov HC HI). intros l'. apply N.
      + intros m Hm. apply (F6 m Hm).
    - intros l m. pose proof (fresh_mvn smp cov HI (l ++ c :: ts_key st) (a :: ts_key st) m (fun l' => N l' l)) as FM.
      assert (F6' : forall i, (i < 6)%nat -> let '(w, h, kk) := multivariate_normal smp (l ++ c :: ts_key st) m in
         cov (six (body r st) i) w = 0 /\ cov (six (body r st) i) h = 0 /\ cov (six (body r st) i) kk = 0).
      { intros m' Hm. apply (F6 m' Hm). }
      destruct (multivariate_normal smp (l ++ c :: ts_key st) m) as [[w h] kk]. destruct FM as (F1 & F2 & F3).
      repeat split; apply OZ; auto; rewrite ?Ka; auto; intros m' Hm; apply (F6' m' Hm).
  Qed.

  Lemma val_apart (n i j : nat) (r r' : R) (st : tree_state V) : good st -> 0 <= ts_s st -> located r st -> located r' st ->
    goes_right r st = false -> goes_right r' st = true -> (i < 3)%nat -> (j < 3)%nat ->
    cov (val i (leaf r (run n r (body r st)))) (val j (leaf r' (run n r' (body r' st)))) = target r r' i j.
  Proof.
    intros G S L L' E E' Hi Hj.
    pose proof (body_key o smp la r st) as K. rewrite E in K. pose proof (body_key o smp la r' st) as K'. rewrite E' in K'.
    assert (GB : good (body r st)) by (now apply (good_body o smp cov HC HI)).
    assert (GB' : good (body r' st)) by (now apply (good_body o smp cov HC HI)).
    destruct (located_body o smp la r st S L) as [SB LB]. destruct (located_body o smp la r' st S L') as [SB' LB'].
    rewrite outside; auto; [|rewrite K'; apply (left_val_fresh n i r st 2 0); auto].
    unfold Proof_CovLevy.jmean, lmean, dot3, dot3'. cbn [Nat.add].
    rewrite !left_right by (auto; lia). cbn [Nat.ltb Nat.leb].
    assert (Q' : ts_s (body r' st) = ts_s st + pow2 (ts_level st) / 2).
    { rewrite body_s. revert E'. unfold goes_right. destruct (Rlt_dec (ts_s st + pow2 (ts_level st) / 2) r'); [reflexivity|discriminate]. }
    rewrite Q'. generalize (ts_s st + pow2 (ts_level st) / 2). intros t.
    unfold target, Proof_CovLevy.var3, Proof_CovLevy.avail, chen, eH, eK.
    destruct la; destruct i as [|[|[|i]]]; try lia; (destruct j as [|[|[|j]]]; try lia); cbn [nth]; try ring; field.
  Qed.

  Lemma val_pair (n i j : nat) (r r' : R) : (i < 3)%nat -> (j < 3)%nat ->
    forall st, good st -> 0 <= ts_s st -> aligned st -> located r st -> located r' st -> r <= r' ->
    (r = r' \/ exists i, r <= INR i * pow2 (ts_level st + n) <= r') ->
    cov (val i (leaf r (run n r st))) (val j (leaf r' (run n r' st))) = target r r' i j.
  Proof.
    intros Hi Hj. induction n; intros st G S A L L' Le Gr; cbn [Proof_Brownian.run].
    - rewrite Nat.add_0_r in Gr. pose proof (pow2_pos (ts_level st)) as P.
      destruct Gr as [<-|[k Hk]].
      { rewrite (gram_leaf o smp cov HC HI) by auto. unfold target, Proof_CovLevy.avail, Proof_CovLevy.var3, chen, eH, eK.
        destruct la; destruct i as [|[|[|i]]]; try lia; (destruct j as [|[|[|j]]]; try lia); cbn [nth Nat.eqb]; field. }
      destruct (Req_EM_T r 0) as [E0|N0].
      + assert (Z : ts_s st = 0) by (unfold located in L; lra).
        rewrite (cov_sym _ _ HC), (leaf_val o smp cov HC) by auto. rewrite (noise_mean_end o smp cov HC HD) by (right; lra).
        assert (V0 : forall m, (m < 3)%nat -> var3 r m = 0).
        { intros m Hm. rewrite E0. unfold Proof_CovLevy.var3. destruct m as [|[|[|m]]]; try lia; cbn [nth]; field. }
        unfold target. rewrite V0 by auto.
        unfold Proof_CovLevy.jmean, lmean, dot3, dot3', expected. rewrite Z, E0. cbn [Nat.add].
        rewrite !(cov_sym _ _ HC _ (six st _)), !(leaf_val o smp cov HC) by auto.
        rewrite !(noise_mean_fresh o smp cov HC) by (apply (g_fresh _ _ _ _ _ G); lia).
        unfold Proof_CovLevy.jmean, lmean, dot3, dot3'. cbn [Nat.add].
        rewrite !(g_gram _ _ _ _ _ G) by lia. cbn [Nat.eqb]. unfold var6. cbn [nth]. rewrite Z.
        destruct (avail i), (avail j), i as [|[|[|i]]]; try lia; unfold chen; cbn [nth]; field; lra.
      + assert (E : r' = ts_s st + pow2 (ts_level st)).
        { destruct A as [q Hq]. unfold located in L, L'. set (p := pow2 (ts_level st)) in *.
          assert (Lr : ts_s st < r <= ts_s st + p) by (destruct L as [|[? ?]]; [auto|contradiction]).
          destruct L' as [L'|[Z _]]; [|lra].
          assert (INR q < INR k) as H by (apply Rmult_lt_reg_r with p; lra).
          assert (q + 1 <= k)%nat as Q by (apply INR_lt in H; lia).
          apply le_INR in Q. rewrite plus_INR in Q. simpl in Q. nra. }
        rewrite E. apply right_leaf; auto.
    - destruct (goes_right r st) eqn:E; destruct (goes_right r' st) eqn:E'.
      3: apply val_apart; auto.
      2: rewrite (goes_right_mono r r' st Le E) in E'; discriminate.
      all: destruct (located_body o smp la r st S L) as [SB LB]; destruct (located_body o smp la r' st S L') as [SB' LB'];
        pose proof (body_same o smp la r r' st (eq_trans E (eq_sym E'))) as Q; rewrite <- Q in *;
        apply IHn; auto; [now apply (good_body o smp cov HC HI)|now apply aligned_body|];
        rewrite body_level; now replace (ts_level st + 1 + n)%nat with (ts_level st + Datatypes.S n)%nat by lia.
  Qed.

  Lemma leaf_val_cov (tol r r' : R) (k : key) (fuel fuel' i j : nat) (x x' : levy_val V) : (i < 3)%nat -> (j < 3)%nat -> r <= r' ->
    (r = r' \/ exists i n, r <= INR i * pow2 n <= r' /\ (n = O \/ tol < 2 * pow2 n)) ->
    evaluate_leaf o smp la Sqrt eps tol k fuel r = Some x ->
    evaluate_leaf o smp la Sqrt eps tol k fuel' r' = Some x' -> cov (val i x) (val j x') = target r r' i j.
  Proof.
    intros Hi Hj Le Gr X X'. apply evaluate_leaf_run in X as [Hr (n & -> & N1 & N2)]. apply evaluate_leaf_run in X' as [Hr' (n' & -> & N1' & N2')].
    assert (n' = n) as -> by (apply (depth_unique tol n' n 0); auto).
    apply val_pair; auto.
    - apply (good_init o smp cov HC HI).
    - cbn. lra.
    - exists 0%nat. cbn. lra.
    - now apply init_located.
    - now apply init_located.
    - destruct Gr as [|(q & m & Hq & Hm)]; [auto|right]. cbn [ts_level init_tree Nat.add].
      assert (m <= n)%nat.
      { destruct m as [|m]; [lia|]. destruct Hm as [|Hm]; [lia|].
        replace (Datatypes.S m) with (m + 1)%nat in Hm by lia. rewrite pow2_S in Hm.
        destruct (Nat.le_gt_cases (Datatypes.S m) n); [auto|exfalso].
        pose proof (pow2_anti n m ltac:(lia)). lra. }
      exists (q * 2 ^ (n - m))%nat. rewrite mult_INR, pow_INR. replace (INR 2) with 2 by reflexivity.
      replace (INR q * 2 ^ (n - m) * pow2 n) with (INR q * pow2 m); [auto|].
      rewrite !pow2_inv. replace n with (m + (n - m))%nat at 2 by lia. rewrite pow_add.
      field. split; apply pow_nonzero; lra.
  Qed.
End CovLevyPath.
