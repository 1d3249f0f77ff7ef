(** The equations of the stages have solutions for small steps and Lipschitz vector fields; how they depend on the
    initial value. *)
From Coq Require Import Reals QArith Qreals List Bool Arith Lia Lra.
From Verif Require Import Model_Result Model_RK Model_Terms Spec_RK Spec_Order Spec_Lipschitz
  Proof_RKStep Proof_RKProp Proof_OrderStep Proof_StageLipschitz.
Import ListNotations.
Open Scope R_scope.

Lemma half_pow_pos n : 0 < (1 / 2) ^ n.
Proof. apply pow_lt. lra. Qed.

(** Sequences with geometrically decreasing steps converge. *)
Lemma geo_limit (u : nat -> R) (B : R) : 0 <= B -> (forall n, Rabs (u (S n) - u n) <= B * (1 / 2) ^ n) ->
  { l : R | forall n, Rabs (l - u n) <= 2 * B * (1 / 2) ^ n }.
Proof.
  intros HB H.
  assert (ST : forall n k, Rabs (u (n + k)%nat - u n) <= 2 * B * (1 / 2) ^ n - 2 * B * (1 / 2) ^ (n + k)).
  { intros n k. induction k as [|k IH]; [rewrite Nat.add_0_r, Rminus_diag_eq, Rabs_R0 by reflexivity; lra|].
    replace (n + S k)%nat with (S (n + k)) by lia. specialize (H (n + k)%nat).
    replace (u (S (n + k)) - u n) with ((u (S (n + k)) - u (n + k)%nat) + (u (n + k)%nat - u n)) by ring.
    eapply Rle_trans; [apply Rabs_triang|]. cbn [pow]. lra. }
  assert (ST' : forall n k, Rabs (u (n + k)%nat - u n) <= 2 * B * (1 / 2) ^ n).
  { intros n k. specialize (ST n k). pose proof (half_pow_pos (n + k)). assert (0 <= 2 * B * (1 / 2) ^ (n + k)) by (apply Rmult_le_pos; lra). lra. }
  assert (SM : forall eps, 0 < eps -> exists n, 2 * B * (1 / 2) ^ n < eps).
  { intros eps He. destruct (pow_lt_1_zero (1 / 2) ltac:(rewrite Rabs_pos_eq; lra) (eps / (2 * B + 1)) ltac:(apply Rdiv_lt_0_compat; lra)) as (n & Hn).
    exists n. specialize (Hn n (le_n n)). rewrite Rabs_pos_eq in Hn by (left; apply half_pow_pos).
    apply Rle_lt_trans with ((2 * B + 1) * (1 / 2) ^ n); [apply Rmult_le_compat_r; [left; apply half_pow_pos|lra]|].
    apply Rlt_le_trans with ((2 * B + 1) * (eps / (2 * B + 1))); [apply Rmult_lt_compat_l; lra|right; field; lra]. }
  destruct (R_complete u) as (l & Hl).
  { intros eps He. destruct (SM (eps / 2) ltac:(lra)) as (N & HN). exists N. intros n m Hn Hm. unfold R_dist.
    pose proof (ST' N (n - N)%nat) as H1. pose proof (ST' N (m - N)%nat) as H2.
    replace (N + (n - N))%nat with n in H1 by lia. replace (N + (m - N))%nat with m in H2 by lia.
    replace (u n - u m) with ((u n - u N) - (u m - u N)) by ring.
    eapply Rle_lt_trans; [apply Rabs_triang|]. rewrite Rabs_Ropp. lra. }
  exists l. intros n. destruct (Rle_lt_dec (Rabs (l - u n)) (2 * B * (1 / 2) ^ n)) as [Hle|Hlt]; [exact Hle|exfalso].
  destruct (Hl (Rabs (l - u n) - 2 * B * (1 / 2) ^ n) ltac:(lra)) as (N & HN). specialize (HN (n + N)%nat ltac:(lia)). unfold R_dist in HN.
  specialize (ST' n N). pose proof (Rabs_triang (l - u (n + N)%nat) (u (n + N)%nat - u n)) as TR.
  replace (l - u (n + N)%nat + (u (n + N)%nat - u n)) with (l - u n) in TR by ring. rewrite (Rabs_minus_sym l (u (n + N)%nat)) in TR. lra.
Qed.

Section Exist.
  Context {I : Type}.
  Notation Y := (I -> R).
  Variable FI : finite_type I.
  Variable s : nat.
  Variable ps : list (tableau * (R -> Y -> Y)).
  Variable L : R.
  Hypothesis LIP : forall tab f, In (tab, f) ps -> lipschitz L f.
  Hypothesis L0 : 0 <= L.
  Variable A : R.
  Hypothesis HA : 0 <= A.
  Hypothesis HC : forall m tab f i j, nth_error ps m = Some (tab, f) -> (i < s)%nat -> (j < s)%nat -> Rabs (coef_a tab i j) <= A.
  Variable h : R.
  Hypothesis Hh : 0 < h.
  Hypothesis HF : h * (L * (INR (length ps) * (INR s * A))) <= 1 / 2.

  Definition next_stages (t : R) (y0 : Y) (k : nat -> nat -> Y) (m i : nat) : Y := fun x =>
    if (i <? s)%nat then
      match nth_error ps m with
      | Some (tab, f) => h * f (t + coef_c tab i * h) (stage_value s (ode_parts ps) y0 k i) x
      | None => 0
      end
    else 0.

  (** The states at the stages from two initial values. *)
  Lemma stage_diff2 (k k' : nat -> nat -> Y) (u v : Y) E N i : 0 <= N -> bounded (fun x => u x - v x) E ->
    (forall m j x, (m < length ps)%nat -> (j < s)%nat -> Rabs (k m j x - k' m j x) <= N) -> (i < s)%nat ->
    bounded (fun x => stage_value s (ode_parts ps) u k i x - stage_value s (ode_parts ps) v k' i x)
            (E + INR (length ps) * (INR s * (A * N))).
  Proof.
    intros HN HE HK Hi x. pose proof (stage_diff s ps k k' v A N i HA HN HC HK Hi x) as SD. cbv beta in SD.
    replace (stage_value s (ode_parts ps) u k i x - stage_value s (ode_parts ps) v k' i x)
      with ((u x - v x) + (stage_value s (ode_parts ps) v k i x - stage_value s (ode_parts ps) v k' i x)) by (unfold stage_value; ring).
    eapply Rle_trans; [apply Rabs_triang|]. apply Rplus_le_compat; [apply HE|exact SD].
  Qed.

  Lemma next_diff t (u v : Y) (k k' : nat -> nat -> Y) E N m i x : 0 <= N -> bounded (fun x => u x - v x) E ->
    (forall m j x, (m < length ps)%nat -> (j < s)%nat -> Rabs (k m j x - k' m j x) <= N) ->
    (m < length ps)%nat -> (i < s)%nat ->
    Rabs (next_stages t u k m i x - next_stages t v k' m i x) <= h * L * E + 1 / 2 * N.
  Proof.
    intros HN HE HK Hm Hi. unfold next_stages. destruct (Nat.ltb_spec i s) as [_|]; [|lia].
    destruct (nth_error_lt ps m Hm) as ((tab & f) & Hp). rewrite Hp.
    pose proof (LIP tab f (nth_error_In _ _ Hp) (t + coef_c tab i * h) _ _ _ (stage_diff2 k k' u v E N i HN HE HK Hi) x) as LX. cbv beta in LX.
    rewrite <- Rmult_minus_distr_l, Rabs_mult, (Rabs_pos_eq h) by lra.
    eapply Rle_trans; [apply Rmult_le_compat_l; [lra|exact LX]|].
    replace (h * (L * (E + INR (length ps) * (INR s * (A * N))))) with (h * L * E + h * (L * (INR (length ps) * (INR s * A))) * N) by ring.
    apply Rplus_le_compat_l. apply Rmult_le_compat_r; assumption.
  Qed.

  Lemma equations_next t y0 k : rk_equations s (ode_parts ps) t (t + h) y0 k <->
    forall m i x, (m < length ps)%nat -> (i < s)%nat -> k m i x = next_stages t y0 k m i x.
  Proof.
    unfold next_stages. split.
    - intros E m i x Hm Hi. destruct (Nat.ltb_spec i s) as [_|]; [|lia]. destruct (nth_error_lt ps m Hm) as ((tab & f) & Hp). rewrite Hp.
      assert (Hp' : nth_error (ode_parts ps) m = Some (tab, ode_term f)) by (rewrite parts_nth, Hp; reflexivity).
      rewrite (E m tab _ i Hp' Hi x). cbn [ode_term with_default_vf_prod t_prod t_vf t_contr]. replace (t + h - t) with h by ring. reflexivity.
    - intros E m tab trm i Hp Hi x. rewrite parts_nth in Hp. destruct (nth_error ps m) as [(tab' & f)|] eqn:Hp'; [|discriminate].
      injection Hp as <- <-. assert (Hm : (m < length ps)%nat) by (apply nth_error_Some; congruence).
      specialize (E m i x Hm Hi). rewrite Hp' in E. destruct (Nat.ltb_spec i s) as [_|]; [|lia]. rewrite E.
      cbn [ode_term with_default_vf_prod t_prod t_vf t_contr]. replace (t + h - t) with h by ring. reflexivity.
  Qed.

  (** Iterating converges. *)
  Lemma stages_exist t y0 : { k | rk_equations s (ode_parts ps) t (t + h) y0 k }.
  Proof.
    set (it := fun n => Nat.iter n (next_stages t y0) (fun _ _ _ => 0)).
    assert (Z : bounded (fun x : I => y0 x - y0 x) 0) by (intros x; rewrite Rminus_diag_eq, Rabs_R0 by reflexivity; lra).
    assert (OUT : forall n m i x, (length ps <= m)%nat \/ (s <= i)%nat -> it n m i x = 0).
    { intros n m i x Ho. destruct n as [|n]; [reflexivity|]. cbn. unfold next_stages. destruct (Nat.ltb_spec i s); [|reflexivity].
      destruct Ho as [Ho|Ho]; [|lia]. rewrite (proj2 (nth_error_None ps m) Ho). reflexivity. }
    assert (GEO : exists B, 0 <= B /\ forall n m i x, Rabs (it (S n) m i x - it n m i x) <= B * (1 / 2) ^ n).
    { destruct (max_stages FI (length ps) s (it 1%nat)) as (B & B0 & BU & _). exists B. split; [exact B0|]. induction n as [|n IH]; intros m i x.
      - cbn [pow]. rewrite Rmult_1_r. replace (it 0%nat m i x) with 0 by reflexivity. rewrite Rminus_0_r.
        destruct (le_lt_dec (length ps) m); [rewrite OUT, Rabs_R0 by (left; assumption); exact B0|].
        destruct (le_lt_dec s i); [rewrite OUT, Rabs_R0 by (right; assumption); exact B0|]. apply BU; assumption.
      - assert (P : 0 <= B * (1 / 2) ^ n) by (apply Rmult_le_pos; [exact B0|left; apply half_pow_pos]).
        destruct (le_lt_dec (length ps) m) as [Hm|Hm]; [rewrite !OUT, Rminus_0_r, Rabs_R0 by (left; assumption); cbn [pow]; lra|].
        destruct (le_lt_dec s i) as [Hi|Hi]; [rewrite !OUT, Rminus_0_r, Rabs_R0 by (right; assumption); cbn [pow]; lra|].
        eapply Rle_trans; [apply (next_diff t y0 y0 (it (S n)) (it n) 0 _ m i x P Z (fun m j x _ _ => IH m j x) Hm Hi)|]. cbn [pow]. lra. }
    assert (LIM : forall m i x, { l : R | exists B, 0 <= B /\ (forall n m i x, Rabs (it (S n) m i x - it n m i x) <= B * (1 / 2) ^ n)
      /\ forall n, Rabs (l - it n m i x) <= 2 * B * (1 / 2) ^ n }).
    { intros m i x. destruct (R_complete (fun n => it n m i x)) as (l & Hl).
      - destruct GEO as (B & B0 & HB). destruct (geo_limit (fun n => it n m i x) B B0 (fun n => HB n m i x)) as (l & Hl).
        apply CV_Cauchy. exists l. intros eps He.
        destruct (pow_lt_1_zero (1 / 2) ltac:(rewrite Rabs_pos_eq; lra) (eps / (2 * B + 1)) ltac:(apply Rdiv_lt_0_compat; lra)) as (N & HN).
        exists N. intros n Hn. specialize (HN n Hn). rewrite Rabs_pos_eq in HN by (left; apply half_pow_pos). unfold R_dist. rewrite Rabs_minus_sym.
        eapply Rle_lt_trans; [apply Hl|]. apply Rle_lt_trans with ((2 * B + 1) * (1 / 2) ^ n); [apply Rmult_le_compat_r; [left; apply half_pow_pos|lra]|].
        apply Rlt_le_trans with ((2 * B + 1) * (eps / (2 * B + 1))); [apply Rmult_lt_compat_l; lra|right; field; lra].
      - exists l. destruct GEO as (B & B0 & HB). exists B. split; [exact B0|]. split; [exact HB|].
        destruct (geo_limit (fun n => it n m i x) B B0 (fun n => HB n m i x)) as (l' & Hl').
        replace l with l'; [exact Hl'|]. symmetry. apply (UL_sequence (fun n => it n m i x)); [exact Hl|]. intros eps He.
        destruct (pow_lt_1_zero (1 / 2) ltac:(rewrite Rabs_pos_eq; lra) (eps / (2 * B + 1)) ltac:(apply Rdiv_lt_0_compat; lra)) as (N & HN).
        exists N. intros n Hn. specialize (HN n Hn). rewrite Rabs_pos_eq in HN by (left; apply half_pow_pos). unfold R_dist. rewrite Rabs_minus_sym.
        eapply Rle_lt_trans; [apply Hl'|]. apply Rle_lt_trans with ((2 * B + 1) * (1 / 2) ^ n); [apply Rmult_le_compat_r; [left; apply half_pow_pos|lra]|].
        apply Rlt_le_trans with ((2 * B + 1) * (eps / (2 * B + 1))); [apply Rmult_lt_compat_l; lra|right; field; lra]. }
    set (k := fun m i x => proj1_sig (LIM m i x)). exists k. apply equations_next. intros m i x Hm Hi.
    destruct (GEO) as (B0 & HB0 & G0).
    assert (KL : forall n m i x, Rabs (k m i x - it n m i x) <= 2 * B0 * (1 / 2) ^ n).
    { intros n m' i' x'. unfold k. destruct (LIM m' i' x') as (l & B & HB & G & Hl). cbn [proj1_sig].
      destruct (geo_limit (fun n => it n m' i' x') B0 HB0 (fun n => G0 n m' i' x')) as (l' & Hl').
      replace l with l'; [apply Hl'|]. apply cond_eq. intros eps He.
      destruct (pow_lt_1_zero (1 / 2) ltac:(rewrite Rabs_pos_eq; lra) (eps / (2 * B0 + 2 * B + 1)) ltac:(apply Rdiv_lt_0_compat; lra)) as (N & HN).
      specialize (HN N (le_n N)). rewrite Rabs_pos_eq in HN by (left; apply half_pow_pos). specialize (Hl N). specialize (Hl' N). cbv beta in Hl, Hl'.
      replace (l' - l) with ((l' - it N m' i' x') - (l - it N m' i' x')) by ring.
      eapply Rle_lt_trans; [apply Rabs_triang|]. rewrite Rabs_Ropp.
      apply Rle_lt_trans with ((2 * B0 + 2 * B + 1) * (1 / 2) ^ N); [pose proof (half_pow_pos N); lra|].
      apply Rlt_le_trans with ((2 * B0 + 2 * B + 1) * (eps / (2 * B0 + 2 * B + 1))); [apply Rmult_lt_compat_l; lra|right; field; lra]. }
    apply cond_eq. intros eps He.
    destruct (pow_lt_1_zero (1 / 2) ltac:(rewrite Rabs_pos_eq; lra) (eps / (2 * B0 + 1)) ltac:(apply Rdiv_lt_0_compat; lra)) as (N & HN).
    specialize (HN N (le_n N)). rewrite Rabs_pos_eq in HN by (left; apply half_pow_pos).
    assert (P : 0 <= 2 * B0 * (1 / 2) ^ N) by (apply Rmult_le_pos; [lra|left; apply half_pow_pos]).
    pose proof (next_diff t y0 y0 (it N) k 0 _ m i x P Z (fun m j x _ _ => eq_ind_r (fun z => z <= _) (KL N m j x) (Rabs_minus_sym (it N m j x) (k m j x))) Hm Hi) as ND.
    change (next_stages t y0 (it N)) with (it (S N)) in ND. pose proof (KL (S N) m i x) as KS. cbn [pow] in KS.
    replace (k m i x - next_stages t y0 k m i x) with ((k m i x - it (S N) m i x) + (it (S N) m i x - next_stages t y0 k m i x)) by ring.
    eapply Rle_lt_trans; [apply Rabs_triang|].
    apply Rle_lt_trans with ((2 * B0 + 1) * (1 / 2) ^ N); [pose proof (half_pow_pos N); lra|].
    apply Rlt_le_trans with ((2 * B0 + 1) * (eps / (2 * B0 + 1))); [apply Rmult_lt_compat_l; lra|right; field; lra].
  Qed.

  (** Dependence of the stages on the initial value *)
  Lemma stages_lipschitz t u v k k' E : 0 <= E -> bounded (fun x => u x - v x) E ->
    rk_equations s (ode_parts ps) t (t + h) u k -> rk_equations s (ode_parts ps) t (t + h) v k' ->
    forall m i x, (m < length ps)%nat -> (i < s)%nat -> Rabs (k m i x - k' m i x) <= 2 * h * L * E.
  Proof.
    intros E0 HE K K'. pose proof (proj1 (equations_next t u k) K) as K1. pose proof (proj1 (equations_next t v k') K') as K1'. clear K K'. rename K1 into K, K1' into K'.
    destruct (max_stages FI (length ps) s (fun m i x => k m i x - k' m i x)) as (N & N0 & NU & NL). cbv beta in NU, NL.
    assert (P : 0 <= h * L * E) by (repeat apply Rmult_le_pos; lra).
    assert (NB : N <= h * L * E + 1 / 2 * N).
    { apply NL; [lra|]. intros m i x Hm Hi. rewrite (K m i x Hm Hi), (K' m i x Hm Hi). apply next_diff; assumption. }
    intros m i x Hm Hi. specialize (NU m i x Hm Hi). lra.
  Qed.

  (** The size of the stages *)
  Lemma stages_small t y0 k M : 0 <= M -> rk_equations s (ode_parts ps) t (t + h) y0 k ->
    (forall m tab f i, nth_error ps m = Some (tab, f) -> (i < s)%nat -> bounded (f (t + coef_c tab i * h) y0) M) ->
    forall m i x, (m < length ps)%nat -> (i < s)%nat -> Rabs (k m i x) <= 2 * h * M.
  Proof.
    intros M0 K HM. pose proof (proj1 (equations_next t y0 k) K) as K1. clear K. rename K1 into K. destruct (max_stages FI (length ps) s k) as (N & N0 & NU & NL).
    assert (Z : bounded (fun x : I => y0 x - y0 x) 0) by (intros x; rewrite Rminus_diag_eq, Rabs_R0 by reflexivity; lra).
    assert (P : 0 <= h * M) by (apply Rmult_le_pos; lra).
    assert (NB : N <= h * M + 1 / 2 * N).
    { apply NL; [lra|]. intros m i x Hm Hi. rewrite (K m i x Hm Hi).
      pose proof (next_diff t y0 y0 k (fun _ _ _ => 0) 0 N m i x N0 Z) as ND.
      specialize (ND ltac:(intros m' j z Hm' Hj; rewrite Rminus_0_r; apply NU; assumption) Hm Hi). rewrite Rmult_0_r, Rplus_0_l in ND.
      assert (B : Rabs (next_stages t y0 (fun _ _ _ => 0) m i x) <= h * M).
      { unfold next_stages. destruct (Nat.ltb_spec i s) as [_|]; [|lia]. destruct (nth_error_lt ps m Hm) as ((tab & f) & Hp). rewrite Hp.
        rewrite Rabs_mult, (Rabs_pos_eq h) by lra. apply Rmult_le_compat_l; [lra|].
        replace (stage_value s (ode_parts ps) y0 (fun _ _ _ => 0) i) with y0; [apply (HM m tab f i Hp Hi x)|].
        apply FunctionalExtensionality.functional_extensionality. intros z. unfold stage_value. rewrite sum_n_0; [ring|].
        intros m' _. destruct (nth_error (ode_parts ps) m') as [(tab' & trm)|]; [|reflexivity]. apply sum_n_0. intros j _. ring. }
      replace (next_stages t y0 k m i x) with ((next_stages t y0 k m i x - next_stages t y0 (fun _ _ _ => 0) m i x) + next_stages t y0 (fun _ _ _ => 0) m i x) by ring.
      eapply Rle_trans; [apply Rabs_triang|]. lra. }
    intros m i x Hm Hi. specialize (NU m i x Hm Hi). lra.
  Qed.

  (** A step does not increase differences by much. *)
  Lemma combination_diff (coef : tableau -> nat -> R) Bc (k k' : nat -> nat -> Y) N x : 0 <= Bc -> 0 <= N ->
    (forall m tab f i, nth_error ps m = Some (tab, f) -> (i < s)%nat -> Rabs (coef tab i) <= Bc) ->
    (forall m i x, (m < length ps)%nat -> (i < s)%nat -> Rabs (k m i x - k' m i x) <= N) ->
    Rabs (combination coef s (ode_parts ps) k x - combination coef s (ode_parts ps) k' x) <= INR (length ps) * (INR s * (Bc * N)).
  Proof.
    intros B0 N0 HB HN. unfold combination.
    match goal with |- Rabs (?u - ?v) <= _ => replace (u - v) with (u + (-1) * v) by ring end.
    rewrite <- sum_n_scal, <- sum_n_plus. unfold ode_parts at 1. rewrite map_length. apply sum_n_bound. intros m Hm. rewrite parts_nth.
    destruct (nth_error_lt ps m Hm) as ((tab & f) & Hp). rewrite Hp. rewrite <- sum_n_scal, <- sum_n_plus. apply sum_n_bound. intros j Hj.
    replace (coef tab j * k m j x + -1 * (coef tab j * k' m j x)) with (coef tab j * (k m j x - k' m j x)) by ring.
    rewrite Rabs_mult. apply Rmult_le_compat; [apply Rabs_pos|apply Rabs_pos|apply (HB m tab f j Hp Hj)|apply HN; assumption].
  Qed.

  Lemma step_stable t u v k k' E Bb : 0 <= E -> bounded (fun x => u x - v x) E -> 0 <= Bb ->
    (forall m tab f i, nth_error ps m = Some (tab, f) -> (i < s)%nat -> Rabs (coef_b tab i) <= Bb) ->
    rk_equations s (ode_parts ps) t (t + h) u k -> rk_equations s (ode_parts ps) t (t + h) v k' ->
    bounded (fun x => rk_solution s (ode_parts ps) u k x - rk_solution s (ode_parts ps) v k' x)
            ((1 + 2 * INR (length ps) * INR s * Bb * L * h) * E).
  Proof.
    intros E0 HE B0 HB K K' x. pose proof (stages_lipschitz t u v k k' E E0 HE K K') as SL.
    assert (P : 0 <= 2 * h * L * E) by (repeat apply Rmult_le_pos; lra).
    pose proof (combination_diff coef_b Bb k k' _ x B0 P HB SL) as CD. unfold rk_solution.
    match goal with |- Rabs ?w <= _ => replace w with ((u x - v x) + (combination coef_b s (ode_parts ps) k x - combination coef_b s (ode_parts ps) k' x)) by ring end.
    eapply Rle_trans; [apply Rabs_triang|]. specialize (HE x). cbv beta in HE.
    eapply Rle_trans; [apply Rplus_le_compat; [exact HE|exact CD]|]. right. ring.
  Qed.
End Exist.
