(** Proofs about the Brownian tree: the covariance of its values. *)
From Coq Require Import Reals List Bool Lra Lia Psatz.
From Verif Require Import Model_Brownian Spec_Brownian Proof_Brownian.
Import ListNotations.
Open Scope R_scope.

(** ** Keys *)
Lemma key_branch (a b : nat) (k : key) : forall l l', l ++ a :: k = l' ++ b :: k -> a = b.
Proof.
  intros l l' H. assert (L : List.length l = List.length l').
  { apply (f_equal (@List.length nat)) in H. rewrite !app_length in H. cbn in H. lia. }
  revert l' L H. induction l; intros [|c l'] L H; cbn in *; try discriminate; [congruence|].
  injection H as _ H. apply (IHl l'); auto.
Qed.
Lemma key_longer (a : nat) (k : key) : forall l, k <> l ++ a :: k.
Proof. intros l H. apply (f_equal (@List.length nat)) in H. rewrite app_length in H. cbn in H. lia. Qed.

Section Covariance.
  Context {V : Type} (o : ops V) (smp : sampler V) (cov : V -> V -> R).
  Hypothesis HC : is_covariance o cov.
  Hypothesis HI : independent_samples smp cov.
  Hypothesis HD : degenerate_is_mean o smp.
  Local Notation "0v" := (op_zero o).

  Definition fresh (x : V) (k : key) : Prop :=
    (forall l, cov x (normal smp (l ++ k)) = 0) /\
    (forall l m, let '(w, h, kk) := multivariate_normal smp (l ++ k) m in cov x w = 0 /\ cov x h = 0 /\ cov x kk = 0).

  Lemma fresh_below (x : V) (k : key) (i : nat) : fresh x k -> fresh x (i :: k).
  Proof.
    intros [A B]. split.
    - intros l. specialize (A (l ++ [i])). now rewrite <- app_assoc in A.
    - intros l m. specialize (B (l ++ [i]) m). now rewrite <- app_assoc in B.
  Qed.
  Lemma fresh_normal (j : key) (k : key) : (forall l, l ++ k <> j) -> fresh (normal smp j) k.
  Proof.
    intros N. split.
    - intros l. apply (normal_indep _ _ HI). intros E. symmetry in E. now apply N in E.
    - intros l m. pose proof (mvn_indep _ _ HI (l ++ k) m j) as Q.
      destruct (multivariate_normal smp (l ++ k) m) as [[w h] kk]. destruct (Q (N l)) as (A & B & C).
      rewrite !(cov_sym _ _ HC (normal smp j)). auto.
  Qed.

  (** Combinations of nine vectors *)
  Definition dot9 (c f : nat -> R) : R :=
    c 0%nat * f 0%nat + c 1%nat * f 1%nat + c 2%nat * f 2%nat + c 3%nat * f 3%nat + c 4%nat * f 4%nat
    + c 5%nat * f 5%nat + c 6%nat * f 6%nat + c 7%nat * f 7%nat + c 8%nat * f 8%nat.
  Definition comb (e : nat -> V) (c : list R) (a : V) : Prop :=
    forall x, cov x a = dot9 (fun i => nth i c 0) (fun i => cov x (e i)).
  Definition orthogonal (e : nat -> V) (d : nat -> R) : Prop :=
    forall i j, (i < 9)%nat -> (j < 9)%nat -> cov (e i) (e j) = if Nat.eqb i j then d i else 0.
  Lemma comb_cov (e : nat -> V) (d : nat -> R) (c c' : list R) (a b : V) : orthogonal e d -> comb e c a -> comb e c' b ->
    cov a b = dot9 (fun i => nth i c 0 * nth i c' 0) d.
  Proof.
    intros O A B. rewrite (B a).
    assert (Q : forall i, (i < 9)%nat -> cov a (e i) = nth i c 0 * d i).
    { intros i Hi. rewrite (cov_sym _ _ HC), (A (e i)). unfold dot9. rewrite !O by lia.
      do 9 (destruct i as [|i]; [cbn [Nat.eqb]; ring|]). lia. }
    unfold dot9. rewrite !Q by lia. ring.
  Qed.
  Lemma comb_zero (e : nat -> V) (c : list R) (a x : V) : comb e c a -> (forall i, (i < 9)%nat -> cov x (e i) = 0) -> cov x a = 0.
  Proof. intros A Z. rewrite (A x). unfold dot9. rewrite !Z by lia. ring. Qed.

  Lemma cov_plus_l (x y z : V) : cov (op_plus o x y) z = cov x z + cov y z.
  Proof. rewrite (cov_sym _ _ HC), (cov_plus _ _ HC), !(cov_sym _ _ HC z). reflexivity. Qed.
  Lemma cov_scale_l (a : R) (x z : V) : cov (op_scale o a x) z = a * cov x z.
  Proof. rewrite (cov_sym _ _ HC), (cov_scale _ _ HC), !(cov_sym _ _ HC z). reflexivity. Qed.

  Ltac covs := repeat first [rewrite (cov_plus _ _ HC) | rewrite (cov_minus _ _ HC) | rewrite (cov_scale _ _ HC) | rewrite (cov_zero _ _ HC)].

  Section Tree.
    Context (la : levy_area) (eps : R).
    Notation body := (tree_body o smp la).
    Notation leaf := (tree_leaf o smp la Sqrt eps).
    Notation run := (run o smp la).

    Definition six (st : tree_state V) (i : nat) : V :=
      let '(w_s, _, w_su) := ts_w st in let '(h_s, _, h_su) := ts_bhh st in let '(k_s, _, k_su) := ts_bkk st in
      nth i [w_s; h_s; k_s; w_su; h_su; k_su] 0v.
    Definition eH : R := match la with BM => 0 | _ => 1 end.
    Definition eK : R := match la with STT => 1 | _ => 0 end.
    Definition var6 (st : tree_state V) (i : nat) : R :=
      let s := ts_s st in let su := pow2 (ts_level st) in
      nth i [s; eH * s ^ 3 / 12; eK * s ^ 5 / 720; su; eH * su ^ 3 / 12; eK * su ^ 5 / 720] 0.

    (** The joint distribution of the values of a state *)
    Record good (st : tree_state V) : Prop := {
      g_gram : forall i j, (i < 6)%nat -> (j < 6)%nat -> cov (six st i) (six st j) = if Nat.eqb i j then var6 st i else 0;
      g_fresh : forall i, (i < 6)%nat -> fresh (six st i) (ts_key st);
      g_dummy_H : la = BM -> ts_bhh st = (0v, 0v, 0v);
      g_dummy_K : la <> STT -> ts_bkk st = (0v, 0v, 0v);
      g_chen : let s := ts_s st in let u := s + pow2 (ts_level st) in
        let '(w_s, w_u, w_su) := ts_w st in
        let '(h_s, h_u, h_su) := ts_bhh st in
        let '(k_s, k_u, k_su) := ts_bkk st in
        forall x, cov x w_u = cov x w_s + cov x w_su /\
        (la <> BM -> cov x h_u = cov x h_s + cov x h_su + 1 / 2 * (u * cov x w_s - s * cov x w_u)) /\
        (la = STT -> cov x k_u = cov x k_s + cov x k_su + (u - s) / 2 * cov x h_s - s / 2 * cov x h_su
                                + (u - 2 * s) / 12 * (u * cov x w_s - s * cov x w_u))
    }.

    (** The noise added at the midpoint, with its variance *)
    Definition noise (st : tree_state V) (i : nat) : V :=
      let su := pow2 (ts_level st) in
      let k1 := split (ts_key st) 1 in
      match la with
      | BM => nth i [op_scale o (sqrt su / 2) (normal smp k1); 0v; 0v] 0v
      | ST => nth i [op_scale o (sqrt su / 4) (normal smp (split k1 0)); op_scale o (sqrt (su / 12)) (normal smp (split k1 1)); 0v] 0v
      | STT => nth i [op_scale o (sqrt (su / 16)) (normal smp (split k1 0)); op_scale o (sqrt (su / 768)) (normal smp (split k1 1));
                      op_scale o (sqrt (su / 2880)) (normal smp (split k1 2))] 0v
      end.
    Definition noise_var (st : tree_state V) (i : nat) : R :=
      let su := pow2 (ts_level st) in
      match la with
      | BM => nth i [su / 4; 0; 0] 0
      | ST => nth i [su / 16; su / 12; 0] 0
      | STT => nth i [su / 16; su / 768; su / 2880] 0
      end.
    Definition nine (st : tree_state V) (i : nat) : V := if Nat.ltb i 6 then six st i else noise st (i - 6).
    Definition var9 (st : tree_state V) (i : nat) : R := if Nat.ltb i 6 then var6 st i else noise_var st (i - 6).

    Lemma cov_zero_l (x : V) : cov 0v x = 0.
    Proof. rewrite (cov_sym _ _ HC). apply (cov_zero _ _ HC). Qed.

    (** The noise comes from below the first split. *)
    Lemma noise_orth (st : tree_state V) (x : V) (i : nat) : (forall l, cov x (normal smp (l ++ 1%nat :: ts_key st)) = 0) -> cov x (noise st i) = 0.
    Proof.
      intros F. unfold noise, split.
      assert (Z : cov x 0v = 0) by apply (cov_zero _ _ HC).
      pose proof (F []) as F0. pose proof (F [0%nat]) as F1. pose proof (F [1%nat]) as F2. pose proof (F [2%nat]) as F3. cbn in F0, F1, F2, F3.
      destruct la; destruct i as [|[|[|i]]]; cbn [nth]; rewrite ?(cov_scale _ _ HC), ?F0, ?F1, ?F2, ?F3; auto; try ring;
        destruct i; auto.
    Qed.
    Lemma noise_gram (st : tree_state V) (i j : nat) : (i < 3)%nat -> (j < 3)%nat ->
      cov (noise st i) (noise st j) = if Nat.eqb i j then noise_var st i else 0.
    Proof.
      intros Hi Hj. pose proof (pow2_pos (ts_level st)) as P. unfold noise, noise_var.
      set (p := pow2 (ts_level st)) in *. set (k1 := split (ts_key st) 1).
      assert (D : forall a b, a <> b -> cov (normal smp (split k1 a)) (normal smp (split k1 b)) = 0).
      { intros a b N. apply (normal_indep _ _ HI). unfold split. congruence. }
      assert (S : forall c v k, c * c = v -> cov (op_scale o c (normal smp k)) (op_scale o c (normal smp k)) = v).
      { intros c v k E. rewrite cov_scale_l, (cov_scale _ _ HC), (normal_var _ _ HI). lra. }
      assert (Q : forall x, 0 <= x -> sqrt x * sqrt x = x) by (intros; now apply sqrt_sqrt).
      assert (Q4 : forall x c, 0 <= x -> sqrt x / c * (sqrt x / c) = x / (c * c)).
      { intros x c X. unfold Rdiv. replace (sqrt x * / c * (sqrt x * / c)) with (sqrt x * sqrt x * (/ c * / c)) by ring.
        rewrite Q by auto. rewrite Rinv_mult. reflexivity. }
      destruct i as [|[|[|i]]]; try lia; (destruct j as [|[|[|j]]]; try lia); destruct la; cbn [nth Nat.eqb];
        rewrite ?cov_zero_l, ?(cov_zero _ _ HC); try reflexivity;
        try (rewrite cov_scale_l, (cov_scale _ _ HC), D by lia; ring);
        apply S; first [rewrite Q by lra; reflexivity|rewrite Q4 by lra; lra].
    Qed.

    Lemma nine_orth (st : tree_state V) : good st -> orthogonal (nine st) (var9 st).
    Proof.
      intros G i j Hi Hj. unfold nine, var9.
      assert (C : forall i j, (i < 6)%nat -> cov (six st i) (noise st j) = 0).
      { intros i' j' Hi'. apply noise_orth. intros l. destruct (g_fresh st G i' Hi') as [F _].
        specialize (F (l ++ [1%nat])). now rewrite <- app_assoc in F. }
      destruct (Nat.ltb_spec i 6); destruct (Nat.ltb_spec j 6).
      - apply (g_gram st G); auto.
      - rewrite C by auto. destruct (Nat.eqb_spec i j); [lia|auto].
      - rewrite (cov_sym _ _ HC), C by auto. destruct (Nat.eqb_spec i j); [lia|auto].
      - rewrite noise_gram by lia.
        destruct (Nat.eqb_spec (i - 6) (j - 6)), (Nat.eqb_spec i j); try lia; reflexivity.
    Qed.

    (** The values of both halves in terms of the nine vectors *)
    Definition unit9 (i : nat) : list R := map (fun j => if Nat.eqb i j then 1 else 0) (seq 0 9).
    Definition lin (l : list (R * list R)) : list R :=
      map (fun j => fold_right (fun c acc => fst c * nth j (snd c) 0 + acc) 0 l) (seq 0 9).
    Definition c_st (p : R) (i : nat) : list R :=
      match la with
      | BM => nth i [[0; 0; 0; 1 / 2; 0; 0; 1; 0; 0]; []; []] []
      | ST => nth i [[0; 0; 0; 1 / 2; 3 / (2 * p); 0; 1; 0; 0]; [0; 0; 0; 0; 1 / 8; 0; - p / 4; p / 4; 0]; []] []
      | STT => nth i [[0; 0; 0; 1 / 2; 3 / (2 * p); 0; 1; 0; 0];
                      [0; 0; 0; 0; 1 / 8; 15 / (8 * p); - p / 4; p / 2; 0];
                      [0; 0; 0; 0; 0; 1 / 32; 0; - p ^ 2 / 8; p ^ 2 / 4]] []
      end.
    Definition c_tu (p : R) (i : nat) : list R :=
      match la with
      | BM => nth i [[0; 0; 0; 1 / 2; 0; 0; - 1; 0; 0]; []; []] []
      | ST => nth i [[0; 0; 0; 1 / 2; - (3 / (2 * p)); 0; - 1; 0; 0]; [0; 0; 0; 0; 1 / 8; 0; - p / 4; - p / 4; 0]; []] []
      | STT => nth i [[0; 0; 0; 1 / 2; - (3 / (2 * p)); 0; - 1; 0; 0];
                      [0; 0; 0; 0; 1 / 8; - (15 / (8 * p)); - p / 4; - p / 2; 0];
                      [0; 0; 0; 0; 0; 1 / 32; 0; - p ^ 2 / 8; - p ^ 2 / 4]] []
      end.
    Definition c_t (s p : R) (i : nat) : list R :=
      let w := [(1, unit9 0); (1, c_st p 0)] in
      let h := [(1, unit9 1); (1, c_st p 1); (p / 4, unit9 0); (- s / 2, c_st p 0)] in
      let k := [(1, unit9 2); (1, c_st p 2); (p / 4, unit9 1); (- s / 2, c_st p 1);
                ((p / 2 - s) / 12 * (p / 2), unit9 0); (- (p / 2 - s) / 12 * s, c_st p 0)] in
      match la with
      | BM => nth i [lin w; []; []] []
      | ST => nth i [lin w; lin h; []] []
      | STT => nth i [lin w; lin h; lin k] []
      end.
    Definition coefs (s p : R) (right : bool) (i : nat) : list R :=
      if right then nth i [c_t s p 0; c_t s p 1; c_t s p 2; c_tu p 0; c_tu p 1; c_tu p 2] []
      else nth i [unit9 0; unit9 1; unit9 2; c_st p 0; c_st p 1; c_st p 2] [].
    Definition goes_right (r : R) (st : tree_state V) : bool := if Rlt_dec (ts_s st + pow2 (ts_level st) / 2) r then true else false.

    Lemma child_comb (r : R) (st : tree_state V) (i : nat) : good st -> (i < 6)%nat ->
      comb (nine st) (coefs (ts_s st) (pow2 (ts_level st)) (goes_right r st) i) (six (body r st) i).
    Proof.
      intros G Hi x. pose proof (g_dummy_H st G) as DH. pose proof (g_dummy_K st G) as DK.
      destruct st as [l s [[ws wu] wsu] k [[hs hu] hsu] [[ks ku] ksu]]. cbn [ts_bhh ts_bkk] in DH, DK.
      pose proof (pow2_pos l) as P.
      unfold goes_right, dot9, tree_body, brownian_arch.
      cbn [ts_level ts_s ts_key ts_w ts_bhh ts_bkk].
      unfold coefs, c_t, c_st, c_tu, nine, six, noise.
      destruct la; cbn [ts_level ts_s ts_key ts_w ts_bhh ts_bkk];
        try (injection (DH eq_refl) as -> -> ->); try (injection (DK ltac:(discriminate)) as -> -> ->);
        (destruct (Rlt_dec _ _); cbn [split_interval]);
        (destruct i as [|[|[|[|[|[|i]]]]]]; [..|lia]; cbn -[pow2 pow]);
        covs;
        try ring; field; lra.
    Qed.

    Lemma body_key (r : R) (st : tree_state V) : ts_key (body r st) = (if goes_right r st then 0%nat else 2%nat) :: ts_key st.
    Proof.
      destruct st as [l s [[ws wu] wsu] k [[hs hu] hsu] [[ks ku] ksu]].
      unfold goes_right, tree_body, brownian_arch. destruct la; cbn -[pow2]; destruct (Rlt_dec _ _); reflexivity.
    Qed.

    Lemma child_gram (r : R) (st : tree_state V) (i j : nat) : (i <= j)%nat -> (j < 6)%nat ->
      dot9 (fun n => nth n (coefs (ts_s st) (pow2 (ts_level st)) (goes_right r st) i) 0 *
                     nth n (coefs (ts_s st) (pow2 (ts_level st)) (goes_right r st) j) 0) (var9 st) =
      if Nat.eqb i j then var6 (body r st) i else 0.
    Proof.
      intros Hij Hj. unfold var6 at 1. rewrite body_s, body_level, pow2_S. unfold goes_right. pose proof (pow2_pos (ts_level st)) as P.
      unfold var9, var6, noise_var.
      generalize dependent (pow2 (ts_level st)). generalize (ts_s st). intros s p P.
      unfold coefs, c_t, c_st, c_tu, eH, eK. clear HC HI HD.
      destruct la; (destruct (Rlt_dec _ _) as [_|_]); (destruct i as [|[|[|[|[|[|i]]]]]]; [..|lia]); (destruct j as [|[|[|[|[|[|j]]]]]]; [..|lia]);
        try (exfalso; lia); clear Hij Hj;
        cbv [dot9 lin unit9 map seq fold_right fst snd nth Nat.eqb Nat.ltb Nat.leb Nat.sub]; field; lra.
    Qed.

    Lemma good_body (r : R) (st : tree_state V) : good st -> good (body r st).
    Proof.
      intros G. pose proof (nine_orth st G) as O. constructor.
      - cut (forall i j, (i <= j)%nat -> (j < 6)%nat ->
          cov (six (body r st) i) (six (body r st) j) = if Nat.eqb i j then var6 (body r st) i else 0).
        { intros K i j Hi Hj. destruct (Nat.le_gt_cases i j) as [L|L]; [now apply K|].
          rewrite (cov_sym _ _ HC), K by lia. destruct (Nat.eqb_spec j i), (Nat.eqb_spec i j); try lia; reflexivity. }
        intros i j Hij Hj. assert (Hi : (i < 6)%nat) by lia.
        rewrite (comb_cov _ _ _ _ _ _ O (child_comb r st i G Hi) (child_comb r st j G Hj)).
        apply child_gram; auto.
      - intros i Hi. rewrite body_key. set (c := if goes_right r st then 0%nat else 2%nat).
        assert (C1 : c <> 1%nat) by (unfold c; destruct (goes_right r st); discriminate).
        assert (N : forall l l', l ++ c :: ts_key st <> l' ++ 1%nat :: ts_key st) by (intros l l' E; now apply key_branch in E).
        split.
        + intros l. rewrite (cov_sym _ _ HC). apply (comb_zero _ _ _ _ (child_comb r st i G Hi)).
          intros j Hj. unfold nine. destruct (Nat.ltb_spec j 6).
          * rewrite (cov_sym _ _ HC). destruct (fresh_below _ _ c (g_fresh st G j H)) as [F _]. apply F.
          * apply noise_orth. intros l'. apply (normal_indep _ _ HI). apply N.
        + intros l m. pose proof (fun l' => mvn_indep _ _ HI (l ++ c :: ts_key st) m (l' ++ 1%nat :: ts_key st) (N l l')) as Q.
          assert (F : forall j, (j < 6)%nat -> let '(w, h, kk) := multivariate_normal smp (l ++ c :: ts_key st) m in
             cov (six st j) w = 0 /\ cov (six st j) h = 0 /\ cov (six st j) kk = 0).
          { intros j Hj. destruct (fresh_below _ _ c (g_fresh st G j Hj)) as [_ F]. apply F. }
          destruct (multivariate_normal smp (l ++ c :: ts_key st) m) as [[w h] kk].
          rewrite !(cov_sym _ _ HC (six (body r st) i)).
          repeat split; apply (comb_zero _ _ _ _ (child_comb r st i G Hi)); intros j Hj; unfold nine;
            (destruct (Nat.ltb_spec j 6) as [Hj6|Hj6]; [rewrite (cov_sym _ _ HC); apply (F j Hj6)|apply noise_orth; intros l'; apply (Q l')]).
      - intros L. destruct st as [l s [[ws wu] wsu] k [[hs hu] hsu] [[ks ku] ksu]].
        unfold tree_body, brownian_arch. destruct la; try discriminate. cbn -[pow2]. destruct (Rlt_dec _ _); reflexivity.
      - intros L. destruct st as [l s [[ws wu] wsu] k [[hs hu] hsu] [[ks ku] ksu]].
        unfold tree_body, brownian_arch. destruct la; try congruence; cbn -[pow2]; destruct (Rlt_dec _ _); reflexivity.
      - pose proof (g_chen st G) as Ch. clear G O.
        destruct st as [l s [[ws wu] wsu] k [[hs hu] hsu] [[ks ku] ksu]].
        cbn [ts_level ts_s ts_w ts_bhh ts_bkk] in Ch.
        unfold tree_body, brownian_arch. cbn [ts_level ts_s ts_w ts_bhh ts_bkk ts_key].
        pose proof (pow2_pos l) as P.
        destruct la; cbn -[pow2 pow]; destruct (Rlt_dec _ _); cbn -[pow2 pow]; rewrite ?pow2_S;
          (set (p := pow2 l) in *; clearbody p);
          intros x; destruct (Ch x) as (A & B & C);
          repeat split; try congruence; try (intros _);
          try specialize (B ltac:(discriminate)); try specialize (C eq_refl);
          covs; try rewrite C; try rewrite B; try rewrite A; covs; try ring; field; lra.
    Qed.
  End Tree.
End Covariance.
