(** The equations of the stages for Lipschitz vector fields. *)
From Coq Require Import Reals QArith Qreals List Bool Arith Lia Lra.
From Verif Require Import Model_Result Model_RK Model_Terms Spec_RK Spec_Order Spec_Lipschitz Proof_RKStep Proof_RKProp Proof_OrderStep Proof_BSeries.
Import ListNotations.
Open Scope R_scope.

Lemma max_list (l : list R) : exists N, 0 <= N /\ (forall a, In a l -> a <= N) /\ (forall B, 0 <= B -> (forall a, In a l -> a <= B) -> N <= B).
Proof.
  induction l as [|a l (N & H0 & H1 & H2)].
  - exists 0. split; [lra|]. split; [intros a []|]. intros B HB _. exact HB.
  - exists (Rmax a N). pose proof (Rmax_l a N). pose proof (Rmax_r a N). split; [lra|]. split.
    + intros b [<-|Hb]; [assumption|]. specialize (H1 b Hb). lra.
    + intros B HB H9. apply Rmax_lub; [apply H9; left; reflexivity|]. apply H2; [exact HB|]. intros b Hb. apply H9. right. exact Hb.
Qed.

Section Stages.
  Context {I : Type}.
  Notation Y := (I -> R).
  Variable FI : finite_type I.

  (** The largest absolute value of a family *)
  Lemma max_stages (M s : nat) (k : nat -> nat -> Y) : exists N, 0 <= N /\
    (forall m i x, (m < M)%nat -> (i < s)%nat -> Rabs (k m i x) <= N) /\
    (forall B, 0 <= B -> (forall m i x, (m < M)%nat -> (i < s)%nat -> Rabs (k m i x) <= B) -> N <= B).
  Proof.
    destruct FI as (l & Hl).
    destruct (max_list (flat_map (fun m => flat_map (fun i => map (fun x => Rabs (k m i x)) l) (seq 0 s)) (seq 0 M))) as (N & H0 & H1 & H2).
    exists N. split; [exact H0|]. split.
    - intros m i x Hm Hi. apply H1. apply in_flat_map. exists m. split; [apply in_seq; lia|]. apply in_flat_map. exists i.
      split; [apply in_seq; lia|]. apply in_map_iff. exists x. split; [reflexivity|apply Hl].
    - intros B HB H. apply H2; [exact HB|]. intros a Ha. apply in_flat_map in Ha as (m & Hm & Ha). apply in_flat_map in Ha as (i & Hi & Ha).
      apply in_map_iff in Ha as (x & <- & _). apply in_seq in Hm, Hi. apply H; lia.
  Qed.

  Lemma sum_n_bound n f B : (forall i, (i < n)%nat -> Rabs (f i) <= B) -> Rabs (sum_n n f) <= INR n * B.
  Proof.
    induction n as [|n IH]; intros H; [cbn; rewrite Rabs_R0; lra|]. rewrite S_INR. cbn [sum_n].
    eapply Rle_trans; [apply Rabs_triang|]. assert (Rabs (sum_n n f) <= INR n * B) by (apply IH; intros i Hi; apply H; lia).
    assert (Rabs (f n) <= B) by (apply H; lia). lra.
  Qed.

  (** A bound for the coefficients *)
  Lemma coef_bound (s : nat) (ps : list (tableau * (R -> Y -> Y))) : exists A, 0 <= A /\
    forall m tab f i j, nth_error ps m = Some (tab, f) -> (i < s)%nat -> (j < s)%nat -> Rabs (coef_a tab i j) <= A.
  Proof.
    destruct (max_list (flat_map (fun p => flat_map (fun i => map (fun j => Rabs (coef_a (fst p) i j)) (seq 0 s)) (seq 0 s)) ps)) as (A & H0 & H1 & _).
    exists A. split; [exact H0|]. intros m tab f i j Hm Hi Hj. apply H1. apply in_flat_map. exists (tab, f). split; [eapply nth_error_In, Hm|].
    apply in_flat_map. exists i. split; [apply in_seq; lia|]. apply in_map_iff. exists j. split; [reflexivity|apply in_seq; lia].
  Qed.

  Lemma parts_nth (ps : list (tableau * (R -> Y -> Y))) m : nth_error (ode_parts ps) m =
    match nth_error ps m with Some (tab, f) => Some (tab, ode_term f) | None => None end.
  Proof. unfold ode_parts. rewrite nth_error_map. destruct (nth_error ps m) as [(tab & f)|]; reflexivity. Qed.

  (** The states at the stages of two families of increments *)
  Lemma stage_diff s ps (k k' : nat -> nat -> Y) (y0 : Y) A N i : 0 <= A -> 0 <= N ->
    (forall m tab f i j, nth_error ps m = Some (tab, f) -> (i < s)%nat -> (j < s)%nat -> Rabs (coef_a tab i j) <= A) ->
    (forall m j x, (m < length ps)%nat -> (j < s)%nat -> Rabs (k m j x - k' m j x) <= N) -> (i < s)%nat ->
    bounded (fun x => stage_value s (ode_parts ps) y0 k i x - stage_value s (ode_parts ps) y0 k' i x) (INR (length ps) * (INR s * (A * N))).
  Proof.
    intros HA HN HC HK Hi x. unfold stage_value.
    match goal with |- Rabs (?y + ?a - (?y + ?b)) <= _ => replace (y + a - (y + b)) with (a + (-1) * b) by ring end.
    rewrite <- sum_n_scal, <- sum_n_plus. unfold ode_parts at 1. rewrite map_length. apply sum_n_bound. intros m Hm. rewrite parts_nth.
    destruct (nth_error ps m) as [(tab & f)|] eqn:E.
    - rewrite <- sum_n_scal, <- sum_n_plus. apply sum_n_bound. intros j Hj.
      replace (coef_a tab i j * k m j x + -1 * (coef_a tab i j * k' m j x)) with (coef_a tab i j * (k m j x - k' m j x)) by ring.
      rewrite Rabs_mult. apply Rmult_le_compat; [apply Rabs_pos|apply Rabs_pos|eapply HC; eauto|apply HK; assumption].
    - replace (0 + -1 * 0) with 0 by ring. rewrite Rabs_R0. apply Rmult_le_pos; [apply pos_INR|]. apply Rmult_le_pos; assumption.
  Qed.

  Variable s : nat.
  Variable ps : list (tableau * (R -> Y -> Y)).
  Variable L : R.
  Hypothesis LIP : forall tab f, In (tab, f) ps -> lipschitz L f.
  Hypothesis L0 : 0 <= L.

  Lemma small_factor A : 0 <= A -> exists h1, 0 < h1 /\ forall h, 0 < h <= h1 -> h * (L * (INR (length ps) * (INR s * A))) <= 1 / 2.
  Proof.
    intros HA. set (F := L * (INR (length ps) * (INR s * A))).
    assert (HF : 0 <= F) by (repeat apply Rmult_le_pos; auto using pos_INR).
    exists (/ (2 * (F + 1))). split; [apply Rinv_0_lt_compat; lra|]. intros h (Hh & Hh1).
    apply Rle_trans with (/ (2 * (F + 1)) * F); [apply Rmult_le_compat_r; assumption|].
    apply Rmult_le_reg_l with (2 * (F + 1)); [lra|]. field_simplify; lra.
  Qed.

  (** The solution is unique for small steps. *)
  Lemma stages_unique t0 y0 : exists h1, 0 < h1 /\ forall h k k', 0 < h <= h1 ->
    rk_equations s (ode_parts ps) t0 (t0 + h) y0 k -> rk_equations s (ode_parts ps) t0 (t0 + h) y0 k' ->
    forall m i x, (m < length ps)%nat -> (i < s)%nat -> k m i x = k' m i x.
  Proof.
    destruct (coef_bound s ps) as (A & HA & HC). destruct (small_factor A HA) as (h1 & H1 & HF).
    exists h1. split; [exact H1|]. intros h k k' Hh E E'.
    destruct (max_stages (length ps) s (fun m i x => k m i x - k' m i x)) as (N & N0 & NU & NL). cbv beta in NU, NL.
    assert (NB : N <= 1 / 2 * N).
    { apply NL; [lra|]. intros m i x Hm Hi. destruct (nth_error_lt ps m Hm) as ((tab & f) & Hp).
      assert (Hp' : nth_error (ode_parts ps) m = Some (tab, ode_term f)) by (rewrite parts_nth, Hp; reflexivity).
      rewrite (E m tab _ i Hp' Hi x), (E' m tab _ i Hp' Hi x). cbn [ode_term with_default_vf_prod t_prod t_vf t_contr].
      replace (t0 + h - t0) with h by ring.
      pose proof (stage_diff s ps k k' y0 A N i HA N0 HC NU Hi) as SD.
      pose proof (LIP tab f (nth_error_In _ _ Hp) (t0 + coef_c tab i * h) _ _ _ SD x) as LX. cbv beta in LX.
      match goal with |- Rabs ?w <= _ => match type of LX with Rabs ?z <= _ => replace w with (h * z) by (cbn; ring) end end.
      rewrite Rabs_mult, (Rabs_pos_eq h) by lra.
      apply Rle_trans with (h * (L * (INR (length ps) * (INR s * A))) * N); [|apply Rmult_le_compat_r; [exact N0|apply HF; lra]].
      apply Rle_trans with (h * (L * (INR (length ps) * (INR s * (A * N))))); [apply Rmult_le_compat_l; [lra|exact LX]|]. right. ring. }
    intros m i x Hm Hi. specialize (NU m i x Hm Hi). assert (N = 0) by lra. subst N.
    assert (Rabs (k m i x - k' m i x) = 0) by (pose proof (Rabs_pos (k m i x - k' m i x)); lra).
    destruct (Req_dec (k m i x - k' m i x) 0) as [Z|Z]; [lra|]. apply Rabs_no_R0 in Z. contradiction.
  Qed.

  (** The stages of every family of solutions tend to the initial value. *)
  Lemma stages_vanish p t0 y0 T k : (forall tab f, In (tab, f) ps -> smooth (S p) f t0 y0) -> 0 < T ->
    (forall h, 0 < h <= T -> rk_equations s (ode_parts ps) t0 (t0 + h) y0 (k h)) ->
    forall eps, 0 < eps -> exists h0, 0 < h0 /\ forall h i, 0 < h <= h0 -> (i < s)%nat ->
      bounded (fun x => stage_value s (ode_parts ps) y0 (k h) i x - y0 x) eps.
  Proof.
    intros SM HT EQ eps He.
    destruct (coef_bound s ps) as (A & HA & HC). destruct (small_factor A HA) as (h1 & H1 & HF).
    assert (CB : exists c, 0 <= c /\ forall m tab f i, nth_error ps m = Some (tab, f) -> (i < s)%nat -> Rabs (coef_c tab i) <= c).
    { destruct (max_list (flat_map (fun q => map (fun i => Rabs (coef_c (fst q) i)) (seq 0 s)) ps)) as (c & C0 & C1 & _).
      exists c. split; [exact C0|]. intros m tab f i Hm Hi. apply C1. apply in_flat_map. exists (tab, f). split; [eapply nth_error_In, Hm|].
      apply in_map_iff. exists i. split; [reflexivity|apply in_seq; lia]. }
    destruct CB as (c & C0 & HCC).
    assert (FB : exists d M, 0 < d /\ 0 <= M /\ forall tab f dt, In (tab, f) ps -> Rabs dt <= d -> bounded (f (t0 + dt) y0) M).
    { clear LIP HC HF HCC EQ. revert SM. generalize ps as l. induction l as [|(tab & f) l IH]; intros SM.
      - exists 1, 0. split; [lra|]. split; [lra|]. intros tab f dt [].
      - destruct IH as (d & M & Hd & HM & H); [intros tab' f' Hin; apply (SM tab' f'); right; exact Hin|].
        destruct (SM tab f (or_introl eq_refl)) as (D & ML & BM & delta & M1 & Hdelta & HM1 & TA).
        destruct (smooth_le (S p) 1 f t0 y0 ltac:(lia) (ex_intro _ D (conj ML (conj BM (ex_intro _ delta (ex_intro _ M1 (conj Hdelta (conj HM1 TA)))))))) as
          (D' & _ & BM' & d' & M' & Hd' & HM' & TA').
        destruct (BM' 0%nat) as (M0 & B0). specialize (B0 [] [] eq_refl ltac:(constructor)). cbn [fold_right] in B0.
        exists (Rmin d d'), (M + (Rabs M0 + M' * d')). pose proof (Rmin_l d d'). pose proof (Rmin_r d d').
        split; [apply Rmin_pos; lra|]. split; [pose proof (Rabs_pos M0); pose proof (Rmult_le_pos M' d' HM' ltac:(lra)); lra|].
        intros tab' f' dt [E|Hin] Hdt x.
        + injection E as <- <-.
          specialize (TA' (fun o => match o with None => dt | Some _ => 0 end) d' ltac:(lra)).
          specialize (TA' ltac:(intros [z|]; [rewrite Rabs_R0; lra|lra]) x). cbn [sum_n repeat pow] in TA'. specialize (B0 x).
          replace (fun x => y0 x + 0) with y0 in TA' by (apply FunctionalExtensionality.functional_extensionality; intros; ring).
          rewrite Rmult_1_r in B0, TA'. rewrite Rplus_0_l in TA'.
          pose proof (Rabs_triang (f (t0 + dt) y0 x - D' [] x) (D' [] x)) as TR. replace (f (t0 + dt) y0 x - D' [] x + D' [] x) with (f (t0 + dt) y0 x) in TR by ring.
          pose proof (Rle_abs M0). lra.
        + eapply Rle_trans; [apply (H tab' f' dt Hin ltac:(lra) x)|]. pose proof (Rabs_pos M0). pose proof (Rmult_le_pos M' d' HM' ltac:(lra)). lra. }
    destruct FB as (d & M & Hd & HM & FB).
    set (S0 := INR (length ps) * (INR s * A)).
    assert (HS0 : 0 <= S0) by (unfold S0; repeat apply Rmult_le_pos; auto using pos_INR).
    set (h2 := Rmin T (Rmin h1 (Rmin (d / (c + 1)) (eps / (S0 * (2 * M) + 1))))).
    assert (HX : 0 <= S0 * (2 * M)) by (apply Rmult_le_pos; lra).
    assert (P2 : 0 < h2) by (repeat apply Rmin_pos; auto; apply Rdiv_lt_0_compat; lra).
    exists h2. split; [exact P2|]. intros h i Hh Hi.
    assert (B : h <= T /\ h <= h1 /\ h <= d / (c + 1) /\ h <= eps / (S0 * (2 * M) + 1)).
    { destruct Hh as (_ & Hh). unfold h2 in Hh. repeat split; (eapply Rle_trans; [exact Hh|]).
      - apply Rmin_l.
      - eapply Rle_trans; [apply Rmin_r|apply Rmin_l].
      - eapply Rle_trans; [apply Rmin_r|]. eapply Rle_trans; [apply Rmin_r|apply Rmin_l].
      - eapply Rle_trans; [apply Rmin_r|]. eapply Rle_trans; [apply Rmin_r|apply Rmin_r]. }
    destruct B as (B1 & B2 & B3 & B4). specialize (EQ h ltac:(lra)).
    destruct (max_stages (length ps) s (k h)) as (N & N0 & NU & NL).
    assert (SV : forall i, (i < s)%nat -> bounded (fun x => stage_value s (ode_parts ps) y0 (k h) i x - y0 x) (S0 * N)).
    { intros i' Hi' x. pose proof (stage_diff s ps (k h) (fun _ _ _ => 0) y0 A N i' HA N0 HC) as SD.
      specialize (SD ltac:(intros m j z Hm Hj; rewrite Rminus_0_r; apply NU; assumption) Hi' x). cbv beta in SD.
      replace (stage_value s (ode_parts ps) y0 (fun _ _ _ => 0) i' x) with (y0 x) in SD.
      - unfold S0. eapply Rle_trans; [exact SD|]. right. ring.
      - unfold stage_value. rewrite sum_n_0; [ring|]. intros m _. destruct (nth_error (ode_parts ps) m) as [(tab & trm)|]; [|reflexivity].
        apply sum_n_0. intros j _. ring. }
    assert (NB : N <= h * M + 1 / 2 * N).
    { apply NL; [apply Rplus_le_le_0_compat; [apply Rmult_le_pos; lra|lra]|].
      intros m i' x Hm Hi'. destruct (nth_error_lt ps m Hm) as ((tab & f) & Hp).
      assert (Hp' : nth_error (ode_parts ps) m = Some (tab, ode_term f)) by (rewrite parts_nth, Hp; reflexivity).
      rewrite (EQ m tab _ i' Hp' Hi' x). cbn [ode_term with_default_vf_prod t_prod t_vf t_contr]. replace (t0 + h - t0) with h by ring.
      pose proof (LIP tab f (nth_error_In _ _ Hp) (t0 + coef_c tab i' * h) _ _ _ (SV i' Hi') x) as LX. cbv beta in LX.
      assert (DT : Rabs (coef_c tab i' * h) <= d).
      { rewrite Rabs_mult, (Rabs_pos_eq h) by lra. apply Rle_trans with ((c + 1) * (d / (c + 1))); [|right; field; lra].
        apply Rmult_le_compat; [apply Rabs_pos|lra| |exact B3]. pose proof (HCC m tab f i' Hp Hi'). lra. }
      pose proof (FB tab f _ (nth_error_In _ _ Hp) DT x) as FX.
      match goal with |- Rabs ?u <= _ => match u with context [f ?a ?b x] => replace u with (h * f a b x) by ring;
        pose proof (Rabs_triang (f a b x - f a y0 x) (f a y0 x)) as TR; replace (f a b x - f a y0 x + f a y0 x) with (f a b x) in TR by ring end end.
      rewrite Rabs_mult, (Rabs_pos_eq h) by lra.
      apply Rle_trans with (h * (L * (S0 * N) + M)); [apply Rmult_le_compat_l; lra|].
      replace (h * (L * (S0 * N) + M)) with (h * (L * S0) * N + h * M) by ring.
      pose proof (HF h ltac:(lra)) as HF'. fold S0 in HF'. pose proof (Rmult_le_compat_r N _ _ N0 HF'). lra. }
    intros x. eapply Rle_trans; [apply (SV i Hi x)|].
    apply Rle_trans with (S0 * (2 * (h * M))); [apply Rmult_le_compat_l; lra|].
    apply Rle_trans with ((S0 * (2 * M) + 1) * (eps / (S0 * (2 * M) + 1))); [|right; field; lra].
    replace (S0 * (2 * (h * M))) with ((S0 * (2 * M)) * h) by ring. apply Rmult_le_compat; lra.
  Qed.
End Stages.

Lemma pf_C36_unique : forall (I : Type) (L : R) (ps : list (tableau * (R -> (I -> R) -> I -> R))) (s : nat) (t0 : R) (y0 : I -> R),
  finite_type I -> 0 <= L -> (forall tab f, In (tab, f) ps -> lipschitz L f) ->
  exists h1, 0 < h1 /\ forall (h : R) (sv sv' : solver I I R) (others others' : bool) (state state' : solver_state I) (made_jump made_jump' : bool),
    0 < h <= h1 -> sv_parts sv = ode_parts ps -> sv_parts sv' = ode_parts ps ->
    valid_parts s (ode_parts ps) -> fsal_at_ends (ode_parts ps) ->
    exact_root_finder (sv_root_finder sv) -> exact_root_finder (sv_root_finder sv') ->
    coherent (ode_parts ps) t0 y0 made_jump state -> coherent (ode_parts ps) t0 y0 made_jump' state' ->
    let out := rk_step sv t0 (t0 + h) y0 others state made_jump in
    let out' := rk_step sv' t0 (t0 + h) y0 others' state' made_jump' in
    is_okay (ro_result out) = true -> is_okay (ro_result out') = true ->
    (forall x, ro_y out x = ro_y out' x) /\
    (exists e e', ro_error out = Some e /\ ro_error out' = Some e' /\ forall x, e x = e' x).
Proof.
  intros I L ps s t0 y0 FI L0 LIP. destruct (stages_unique FI s ps L LIP L0 t0 y0) as (h1 & H1 & U).
  exists h1. split; [exact H1|]. intros h sv sv' others others' state state' mj mj' Hh PS PS' VP FE RF RF' CO CO' out out' OK OK'.
  assert (LP : length (ode_parts ps) = length ps) by (unfold ode_parts; apply map_length).
  destruct (pf_C36_stages sv s t0 (t0 + h) y0 others state mj) as (S1 & _); try (rewrite PS); auto.
  destruct (pf_C36_stages sv' s t0 (t0 + h) y0 others' state' mj') as (S2 & _); try (rewrite PS'); auto.
  destruct (S1 OK) as (k & E & Hy & (e & He1 & He2) & _). destruct (S2 OK') as (k' & E' & Hy' & (e' & He1' & He2') & _).
  rewrite PS in E, Hy, He2. rewrite PS' in E', Hy', He2'. fold out in Hy, He1. fold out' in Hy', He1'.
  assert (KK : forall m i x, (m < length (ode_parts ps))%nat -> (i < s)%nat -> k m i x = k' m i x) by (rewrite LP; apply (U h k k' Hh E E')).
  split.
  - intros x. rewrite Hy, Hy'. unfold rk_solution. f_equal. apply Proof_OrderStep.combination_ext, KK.
  - exists e, e'. repeat split; auto. intros x. rewrite He2, He2'. apply Proof_OrderStep.combination_ext, KK.
Qed.

Lemma pf_C36_stages_near : forall (I : Type) (L : R) (ps : list (tableau * (R -> (I -> R) -> I -> R))) (s : nat) (t0 : R) (y0 : I -> R) (T : R)
    (sv : solver I I R) (others : R -> bool) (state : R -> solver_state I) (made_jump : R -> bool),
  finite_type I -> 0 <= L -> (forall tab f, In (tab, f) ps -> lipschitz L f) -> (forall tab f, In (tab, f) ps -> smooth 1 f t0 y0) ->
  0 < T -> sv_parts sv = ode_parts ps -> valid_parts s (sv_parts sv) -> exact_root_finder (sv_root_finder sv) -> fsal_at_ends (sv_parts sv) ->
  let out h := rk_step sv t0 (t0 + h) y0 (others h) (state h) (made_jump h) in
  (forall h, 0 < h <= T -> coherent (sv_parts sv) t0 y0 (made_jump h) (state h) /\ is_okay (ro_result (out h)) = true) ->
  forall d, 0 < d -> exists h1, 0 < h1 /\ forall h i, 0 < h <= h1 -> (i < s)%nat ->
    bounded (fun x => stage_value s (sv_parts sv) y0 (stages_of (out h)) i x - y0 x) d.
Proof.
  intros I L ps s t0 y0 T sv others state mj FI L0 LIP SM HT PS VP RF FE out OK.
  assert (EQ : forall h, 0 < h <= T -> rk_equations s (ode_parts ps) t0 (t0 + h) y0 (stages_of (out h))).
  { intros h Hh. rewrite <- PS. destruct (OK h Hh) as (CO & OKh).
    destruct (pf_C36_stages sv s t0 (t0 + h) y0 (others h) (state h) (mj h) VP RF FE CO) as (H & _).
    destruct (H OKh) as (k' & E & _ & _ & Hk). fold (out h) in *.
    eapply equations_ext; [|exact E]. intros m i x Hm Hi. symmetry. apply Hk; assumption. }
  rewrite PS. exact (stages_vanish FI s ps L LIP L0 0 t0 y0 T (fun h => stages_of (out h)) SM HT EQ).
Qed.

Lemma pf_C30_implicit_lipschitz : forall (I : Type) (L : R) (fs : list (R -> (I -> R) -> I -> R)) (p q : nat) (t0 : R) (y0 : I -> R) (T : R) (y : R -> I -> R),
  finite_type I -> 0 <= L -> (forall f, In f fs -> lipschitz L f) -> (1 <= p)%nat -> (q <= p)%nat ->
  0 < T -> (forall f, In f fs -> smooth p f t0 y0) -> exact_solution fs t0 y0 T y ->
  exists K, forall (sv : solver I I R) (tabs : list tableau) (s : nat) (eps : R)
      (others : R -> bool) (state : R -> solver_state I) (made_jump : R -> bool),
    length tabs = length fs -> sv_parts sv = ode_parts (combine tabs fs) ->
    valid_parts s (sv_parts sv) -> exact_root_finder (sv_root_finder sv) -> fsal_at_ends (sv_parts sv) ->
    0 <= eps -> has_order_up_to tabs s eps p -> error_has_order_up_to tabs s eps q ->
    let out h := rk_step sv t0 (t0 + h) y0 (others h) (state h) (made_jump h) in
    (forall h, 0 < h <= T -> coherent (sv_parts sv) t0 y0 (made_jump h) (state h) /\ is_okay (ro_result (out h)) = true) ->
    exists C h0, 0 < h0 /\ forall h, 0 < h <= h0 ->
      bounded (fun x => ro_y (out h) x - y (t0 + h) x) (K * eps * h + C * h ^ S p) /\
      exists e, ro_error (out h) = Some e /\ bounded e (K * eps * h + C * h ^ S q).
Proof.
  intros I L fs p q t0 y0 T y FI L0 LIP Hp Hq HT SM EX.
  destruct (pf_C30_implicit_step fs p q t0 y0 T y Hq HT SM EX) as (K & H). exists K.
  intros sv tabs s eps others state mj LE PS VP RF FE He HO HE out OK. apply (H sv tabs s eps others state mj); try assumption.
  apply (pf_C36_stages_near I L (combine tabs fs) s t0 y0 T sv others state mj); try assumption.
  - intros tab f Hin. apply LIP. apply in_combine_r in Hin. exact Hin.
  - intros tab f Hin. apply (smooth_le p 1); [exact Hp|]. apply SM. apply in_combine_r in Hin. exact Hin.
Qed.
