(** The order of the steps of Runge--Kutta solvers. *)
From Coq Require Import Reals QArith Qreals List Bool Arith Lia Lra FunctionalExtensionality.
From Verif Require Import Model_Result Model_RK Model_Terms Spec_RK Spec_Order Proof_Terms Proof_BSeries Proof_BSeries2 Proof_Order Proof_RKProp.
Import ListNotations.
Open Scope R_scope.

Section OrderStep.
  Context {I : Type}.
  Notation Y := (I -> R).
  Notation V := (option I -> R).
  Notation zero_f := (fun (_ : R) (_ : Y) (_ : I) => 0).

  Lemma explicit_vanish p s tabs (fs : list (R -> Y -> Y)) t0 y0 h0 k :
    0 < h0 -> length tabs = length fs -> (forall f, In f fs -> smooth p f t0 y0) ->
    (forall c i j, (i <= j)%nat -> coef_a (part_tableau tabs c) i j = 0) ->
    (forall h, 0 < h <= h0 -> rk_equations s (ode_parts (combine tabs fs)) t0 (t0 + h) y0 (k h)) ->
    forall eps, 0 < eps -> exists h1, 0 < h1 /\ forall h i, 0 < h <= h1 -> (i < s)%nat ->
      bounded (fun x => stage_value s (ode_parts (combine tabs fs)) y0 (k h) i x - y0 x) eps.
  Proof.
    intros H0 LE SM EXP EQ. destruct (choose_D p fs t0 y0 SM) as (D & ML & BM & TA).
    set (N := length fs) in *. set (f := fun c => nth c fs zero_f).
    pose proof (EQ' s tabs fs t0 y0 h0 LE k EQ) as EQ2. fold N in EQ2.
    destruct (f_bounded N p f t0 y0 D BM TA) as (B & delta & HB & Hd & HF).
    assert (ST : forall i, (forall j c, (j < i)%nat -> (j < s)%nat -> (c < N)%nat -> bigO 1 (fun h => k h c j)) ->
      bigO 1 (fun h x => stage_sum N s tabs k h i x)).
    { intros i IH. unfold stage_sum.
      apply (bigO_sum_n 1 N (fun p h x => sum_n s (fun j => coef_a (part_tableau tabs p) i j * k h p j x))). intros q Hq.
      apply (bigO_sum_n 1 s (fun j h x => coef_a (part_tableau tabs q) i j * k h q j x)). intros j Hj.
      destruct (lt_dec j i) as [Hji|Hji]; [apply bigO_scale, IH; assumption|].
      apply (bigO_eq _ (fun _ _ => 0)); [intros h x; rewrite EXP by lia; ring|apply bigO_0]. }
    assert (KO : forall n j c, (j < n)%nat -> (j < s)%nat -> (c < N)%nat -> bigO 1 (fun h => k h c j)).
    { induction n as [|n IH]; intros j c Hj Hs Hc; [lia|].
      destruct (bigO_small 0 _ delta (ST j ltac:(intros j' c' ? ? ?; apply IH; lia)) Hd) as (h1 & H1 & HV).
      destruct (time_small tabs c j delta Hd) as (h2 & H2 & HT).
      exists B, (Rmin h0 (Rmin h1 h2)). split; [exact HB|]. split; [repeat apply Rmin_pos; assumption|].
      intros h Hh x. pose proof (Rmin_l h0 (Rmin h1 h2)). pose proof (Rmin_r h0 (Rmin h1 h2)).
      pose proof (Rmin_l h1 h2). pose proof (Rmin_r h1 h2).
      rewrite EQ2 by (auto; lra). rewrite Rabs_mult, Rabs_pos_eq by lra. cbn. rewrite Rmult_1_r, Rmult_comm.
      apply Rmult_le_compat_r; [lra|]. apply (HF c (zv N s tabs k c j h) Hc). intros [x'|]; cbn; [apply HV|apply HT]; lra. }
    intros eps He.
    assert (VA : forall n, (n <= s)%nat -> exists h1, 0 < h1 /\ forall h i, 0 < h <= h1 -> (i < n)%nat ->
      bounded (fun x => stage_value s (ode_parts (combine tabs fs)) y0 (k h) i x - y0 x) eps).
    { induction n as [|n IH]; intros Hn; [exists 1; split; [lra|intros; lia]|].
      destruct (IH ltac:(lia)) as (h1 & H1 & HV).
      destruct (bigO_small 0 _ eps (ST n ltac:(intros j' c' ? ? ?; apply (KO s); lia)) He) as (h2 & H2 & HW).
      exists (Rmin h1 h2). split; [apply Rmin_pos; lra|]. intros h i Hh Hi x. pose proof (Rmin_l h1 h2). pose proof (Rmin_r h1 h2).
      destruct (Nat.eq_dec i n) as [->|]; [|apply (HV h i); [lra|lia]].
      rewrite (stage_value_eq s tabs fs LE). fold N. specialize (HW h ltac:(lra) x). unfold stage_sum in HW.
      match goal with |- Rabs ?u <= _ => match type of HW with Rabs ?v <= _ => replace u with v by ring end end. exact HW. }
    apply (VA s (le_n s)).
  Qed.

  Lemma coef_a_explicit (ps : list (tableau * (R -> Y -> Y))) c i j :
    explicit_parts (ode_parts ps) -> (i <= j)%nat -> coef_a (part_tableau (map fst ps) c) i j = 0.
  Proof.
    intros EX Hij. unfold part_tableau, coef_a. destruct (Nat.ltb_spec j i); [lia|].
    destruct (Nat.eqb_spec j i); [|reflexivity].
    destruct (nth_in_or_default c (map fst ps) no_tableau) as [Hin| ->]; [|reflexivity].
    apply in_map_iff in Hin as ((tab & g) & E & Hin). cbn in E. rewrite <- E.
    assert (IM : implicit tab = false).
    { apply (EX tab (ode_term g)). unfold ode_parts. apply in_map_iff. exists (tab, g). auto. }
    unfold implicit in IM. destruct (tab_a_diagonal tab); [discriminate|reflexivity].
  Qed.


  Lemma taylor_le p q (f : R -> Y -> Y) t0 y0 D : (q <= p)%nat -> taylor p f t0 y0 D -> taylor q f t0 y0 D.
  Proof.
    intros Hq (ML & BM & d & M & Hd & HM & H). split; [exact ML|]. split; [exact BM|].
    set (dd := Rmin d 1). assert (Hdd : 0 < dd <= 1) by (split; [apply Rmin_pos; lra|apply Rmin_r]).
    assert (E : exists M', 0 <= M' /\ forall v B, 0 <= B <= dd -> bounded v B ->
      bounded (fun x => sum_n p (fun m => D (repeat v m) x) - sum_n q (fun m => D (repeat v m) x)) (M' * B ^ q)).
    { clear H. induction Hq as [|p Hp IH].
      - exists 0. split; [lra|]. intros v B _ _ x. rewrite Rminus_eq_0, Rabs_R0. lra.
      - destruct IH as (M' & HM' & IH). destruct (BM p) as (Mp & HMp). exists (M' + Rabs Mp).
        split; [pose proof (Rabs_pos Mp); lra|]. intros v B HB Hv x. cbn.
        replace (sum_n p (fun m => D (repeat v m) x) + D (repeat v p) x - sum_n q (fun m => D (repeat v m) x))
          with ((sum_n p (fun m => D (repeat v m) x) - sum_n q (fun m => D (repeat v m) x)) + D (repeat v p) x) by ring.
        eapply Rle_trans; [apply Rabs_triang|]. rewrite Rmult_plus_distr_r. apply Rplus_le_compat; [apply IH; auto|].
        eapply Rle_trans; [apply (HMp (repeat v p) (repeat B p)); [apply repeat_length|apply Forall2_repeat, Hv]|].
        rewrite prod_repeat. apply Rle_trans with (Rabs Mp * B ^ p).
        + apply Rmult_le_compat_r; [apply pow_le; lra|apply Rle_abs].
        + apply Rmult_le_compat_l; [apply Rabs_pos|]. replace p with (q + (p - q))%nat by lia. rewrite pow_add.
          rewrite <- (Rmult_1_r (B ^ q)) at 2. apply Rmult_le_compat_l; [apply pow_le; lra|]. apply pow_le_1. lra. }
    destruct E as (M' & HM' & E). exists dd, (M + M'). split; [lra|]. split; [lra|]. intros v B HB Hv x.
    assert (HB' : 0 <= B <= d) by (split; [lra|]; eapply Rle_trans; [apply HB|apply Rmin_l]).
    specialize (H v B HB' Hv x). specialize (E v B HB Hv x). cbn beta in H, E.
    match goal with |- Rabs ?a <= _ => match type of H with Rabs ?b <= _ => match type of E with Rabs ?c <= _ => replace a with (b + c) by ring end end end.
    eapply Rle_trans; [apply Rabs_triang|]. rewrite Rmult_plus_distr_r. apply Rplus_le_compat; [|exact E].
    eapply Rle_trans; [exact H|]. apply Rmult_le_compat_l; [exact HM|]. replace p with (q + (p - q))%nat by lia. rewrite pow_add.
    rewrite <- (Rmult_1_r (B ^ q)) at 2. apply Rmult_le_compat_l; [apply pow_le; lra|]. apply pow_le_1. lra.
  Qed.
  Lemma smooth_le p q (f : R -> Y -> Y) t0 y0 : (q <= p)%nat -> smooth p f t0 y0 -> smooth q f t0 y0.
  Proof. intros Hq (D & H). exists D. eapply taylor_le; eauto. Qed.

  Lemma equations_ext {J C} s (ps : list (tableau * term I J C)) t0 t1 y0 k k' :
    (forall m i x, (m < length ps)%nat -> (i < s)%nat -> k m i x = k' m i x) ->
    rk_equations s ps t0 t1 y0 k -> rk_equations s ps t0 t1 y0 k'.
  Proof.
    intros E H m tab trm i Hm Hi x. assert (Hm' : (m < length ps)%nat) by (apply nth_error_Some; congruence).
    rewrite <- (E m i x Hm' Hi), (H m tab trm i Hm Hi x). f_equal. f_equal. extensionality z.
    unfold stage_value. f_equal. apply sum_n_ext. intros m' Hm2. destruct (nth_error ps m') as [[tab' ?]|]; [|reflexivity].
    apply sum_n_ext. intros j Hj. rewrite (E m' j z Hm2 Hj). reflexivity.
  Qed.
  Lemma combination_ext {J C} coef s (ps : list (tableau * term I J C)) k k' x :
    (forall m i x, (m < length ps)%nat -> (i < s)%nat -> k m i x = k' m i x) ->
    combination coef s ps k x = combination coef s ps k' x.
  Proof.
    intros E. unfold combination. apply sum_n_ext. intros m' Hm2. destruct (nth_error ps m') as [[tab' ?]|]; [|reflexivity].
    apply sum_n_ext. intros j Hj. rewrite (E m' j x Hm2 Hj). reflexivity.
  Qed.

  (** Explicit methods, with rounded coefficients *)
  Lemma pf_C30_rounded_step : forall (fs : list (R -> Y -> Y)) (p q : nat) (t0 : R) (y0 : Y) (T : R) (y : R -> Y),
    (q <= p)%nat ->
    0 < T -> (forall f, In f fs -> smooth p f t0 y0) -> exact_solution fs t0 y0 T y ->
    exists K, forall (sv : solver I I R) (tabs : list tableau) (s : nat) (eps : R),
      length tabs = length fs -> sv_parts sv = ode_parts (combine tabs fs) ->
      valid_parts s (sv_parts sv) -> explicit_parts (sv_parts sv) -> fsal_at_ends (sv_parts sv) ->
      0 <= eps -> has_order_up_to tabs s eps p -> error_has_order_up_to tabs s eps q ->
      exists C h0, 0 < h0 /\ forall h others state made_jump, 0 < h <= h0 ->
        coherent (sv_parts sv) t0 y0 made_jump state ->
        let out := rk_step sv t0 (t0 + h) y0 others state made_jump in
        bounded (fun x => ro_y out x - y (t0 + h) x) (K * eps * h + C * h ^ S p) /\
        exists e, ro_error out = Some e /\ bounded e (K * eps * h + C * h ^ S q).
  Proof.
    intros fs p q t0 y0 T y Hqp HT SM EX.
    destruct (order_up_to p fs t0 y0 T y HT SM EX) as (K1 & HK1 & O1).
    destruct (order_up_to q fs t0 y0 T y HT (fun f Hf => smooth_le p q f t0 y0 Hqp (SM f Hf)) EX) as (K2 & HK2 & O2).
    exists (K1 + K2). intros sv tabs s eps LE PS VP XP FE He HO HE.
    set (k := fun h => stages_of (rk_step sv t0 (t0 + h) y0 false None false)).
    assert (KQ : forall h, rk_equations s (sv_parts sv) t0 (t0 + h) y0 (k h)).
    { intros h. destruct (pf_C28_step sv s t0 (t0 + h) y0 false None false VP XP FE Logic.I) as ((k' & Hk') & H).
      destruct (H k' Hk') as (_ & _ & Hk & _). eapply equations_ext; [|exact Hk']. intros m i x Hm Hi. symmetry. apply Hk; assumption. }
    assert (FAM : rk_family s (combine tabs fs) t0 y0 T k).
    { split.
      - intros h _. rewrite <- PS. apply KQ.
      - apply (explicit_vanish p s tabs fs t0 y0 T k HT LE SM).
        + intros c i j Hij. rewrite <- (combine_fst tabs fs LE). apply coef_a_explicit; [rewrite <- PS; exact XP|exact Hij].
        + intros h _. rewrite <- PS. apply KQ. }
    destruct (O1 tabs s k LE FAM) as (O1' & _). destruct (O2 tabs s k LE FAM) as (_ & O2').
    destruct (O1' eps He HO) as (C1 & h1 & HC1 & H1 & B1). destruct (O2' eps He HE) as (C2 & h2 & HC2 & H2 & B2).
    exists (C1 + C2), (Rmin h1 h2). split; [apply Rmin_pos; lra|]. intros h others state mj Hh CO out.
    pose proof (Rmin_l h1 h2). pose proof (Rmin_r h1 h2).
    destruct (pf_C28_step sv s t0 (t0 + h) y0 others state mj VP XP FE CO) as (_ & HS).
    destruct (HS (k h) (KQ h)) as (Hy & (e & He1 & He2) & _). fold out in Hy, He1. rewrite PS in Hy, He2. split.
    - intros x. rewrite Hy. eapply Rle_trans; [apply (B1 h ltac:(lra) x)|].
      apply Rplus_le_compat; [apply Rmult_le_compat_r; [lra|]; apply Rmult_le_compat_r; lra|].
      apply Rmult_le_compat_r; [apply pow_le; lra|lra].
    - exists e. split; [exact He1|]. intros x. rewrite He2. eapply Rle_trans; [apply (B2 h ltac:(lra) x)|].
      apply Rplus_le_compat; [apply Rmult_le_compat_r; [lra|]; apply Rmult_le_compat_r; lra|].
      apply Rmult_le_compat_r; [apply pow_le; lra|lra].
  Qed.

  Lemma up_to_0 tabs s p : has_order tabs s p -> has_order_up_to tabs s 0 p.
  Proof. intros H t a b c. rewrite (H t a b c), Rabs_R0. lra. Qed.
  Lemma error_up_to_0 tabs s p : error_has_order tabs s p -> error_has_order_up_to tabs s 0 p.
  Proof. intros H t a b c. rewrite (H t a b c), Rabs_R0. lra. Qed.

  Lemma pf_C30_step : forall (sv : solver I I R) (ps : list (tableau * (R -> Y -> Y))) (s p q : nat) (t0 : R) (y0 : Y) (T : R) (y : R -> Y),
    sv_parts sv = ode_parts ps ->
    valid_parts s (sv_parts sv) -> explicit_parts (sv_parts sv) -> fsal_at_ends (sv_parts sv) ->
    has_order (map fst ps) s p -> error_has_order (map fst ps) s q -> (q <= p)%nat ->
    0 < T -> (forall f, In f (map snd ps) -> smooth p f t0 y0) -> exact_solution (map snd ps) t0 y0 T y ->
    exists C h0, 0 < h0 /\ forall h others state made_jump, 0 < h <= h0 ->
      coherent (sv_parts sv) t0 y0 made_jump state ->
      let out := rk_step sv t0 (t0 + h) y0 others state made_jump in
      bounded (fun x => ro_y out x - y (t0 + h) x) (C * h ^ S p) /\
      exists e, ro_error out = Some e /\ bounded e (C * h ^ S q).
  Proof.
    intros sv ps s p q t0 y0 T y PS VP XP FE HO HE Hqp HT SM EX.
    destruct (pf_C30_rounded_step (map snd ps) p q t0 y0 T y Hqp HT SM EX) as (K & H).
    destruct (H sv (map fst ps) s 0) as (C & h0 & H0 & HB); auto.
    - rewrite !map_length. reflexivity.
    - rewrite combine_map. exact PS.
    - lra.
    - apply up_to_0, HO.
    - apply error_up_to_0, HE.
    - exists C, h0. split; [exact H0|]. intros h others state mj Hh CO. specialize (HB h others state mj Hh CO).
      replace (K * 0 * h) with 0 in HB by ring. rewrite !Rplus_0_l in HB. exact HB.
  Qed.

  (** Implicit and mixed methods, provided the roots found are the ones near the guess *)
  Lemma pf_C30_implicit_step : forall (fs : list (R -> Y -> Y)) (p q : nat) (t0 : R) (y0 : Y) (T : R) (y : R -> Y),
    (q <= p)%nat ->
    0 < T -> (forall f, In f fs -> smooth p f t0 y0) -> exact_solution fs t0 y0 T y ->
    exists K, forall (sv : solver I I R) (tabs : list tableau) (s : nat) (eps : R)
        (others : R -> bool) (state : R -> solver_state I) (made_jump : R -> bool),
      length tabs = length fs -> sv_parts sv = ode_parts (combine tabs fs) ->
      valid_parts s (sv_parts sv) -> exact_root_finder (sv_root_finder sv) -> fsal_at_ends (sv_parts sv) ->
      0 <= eps -> has_order_up_to tabs s eps p -> error_has_order_up_to tabs s eps q ->
      let out h := rk_step sv t0 (t0 + h) y0 (others h) (state h) (made_jump h) in
      (forall h, 0 < h <= T -> coherent (sv_parts sv) t0 y0 (made_jump h) (state h) /\ is_okay (ro_result (out h)) = true) ->
      (forall d, 0 < d -> exists h1, 0 < h1 /\ forall h i, 0 < h <= h1 -> (i < s)%nat ->
         bounded (fun x => stage_value s (sv_parts sv) y0 (stages_of (out h)) i x - y0 x) d) ->
      exists C h0, 0 < h0 /\ forall h, 0 < h <= h0 ->
        bounded (fun x => ro_y (out h) x - y (t0 + h) x) (K * eps * h + C * h ^ S p) /\
        exists e, ro_error (out h) = Some e /\ bounded e (K * eps * h + C * h ^ S q).
  Proof.
    intros fs p q t0 y0 T y Hqp HT SM EX.
    destruct (order_up_to p fs t0 y0 T y HT SM EX) as (K1 & HK1 & O1).
    destruct (order_up_to q fs t0 y0 T y HT (fun f Hf => smooth_le p q f t0 y0 Hqp (SM f Hf)) EX) as (K2 & HK2 & O2).
    exists (K1 + K2). intros sv tabs s eps others state mj LE PS VP RF FE He HO HE out OK VAN.
    set (k := fun h => stages_of (out h)).
    assert (ST : forall h, 0 < h <= T -> rk_equations s (sv_parts sv) t0 (t0 + h) y0 (k h) /\
      (forall x, ro_y (out h) x = rk_solution s (sv_parts sv) y0 (k h) x) /\
      exists e, ro_error (out h) = Some e /\ forall x, e x = rk_error s (sv_parts sv) (k h) x).
    { intros h Hh. destruct (OK h Hh) as (CO & OKh).
      destruct (pf_C36_stages sv s t0 (t0 + h) y0 (others h) (state h) (mj h) VP RF FE CO) as (H & _).
      destruct (H OKh) as (k' & E & Hy & (e & He1 & He2) & Hk). fold (out h) in *.
      assert (Hk' : forall m i x, (m < length (sv_parts sv))%nat -> (i < s)%nat -> k' m i x = k h m i x)
        by (intros m i x Hm Hi; symmetry; apply Hk; assumption).
      split; [eapply equations_ext; [exact Hk'|exact E]|]. split.
      - intros x. rewrite Hy. unfold rk_solution. f_equal. apply combination_ext, Hk'.
      - exists e. split; [exact He1|]. intros x. rewrite He2. apply combination_ext, Hk'. }
    assert (FAM : rk_family s (combine tabs fs) t0 y0 T k).
    { split; [intros h Hh; rewrite <- PS; apply ST, Hh|]. rewrite <- PS. exact VAN. }
    destruct (O1 tabs s k LE FAM) as (O1' & _). destruct (O2 tabs s k LE FAM) as (_ & O2').
    destruct (O1' eps He HO) as (C1 & h1 & HC1 & H1 & B1). destruct (O2' eps He HE) as (C2 & h2 & HC2 & H2 & B2).
    exists (C1 + C2), (Rmin T (Rmin h1 h2)). split; [repeat apply Rmin_pos; lra|]. intros h Hh.
    pose proof (Rmin_l T (Rmin h1 h2)). pose proof (Rmin_r T (Rmin h1 h2)).
    pose proof (Rmin_l h1 h2). pose proof (Rmin_r h1 h2).
    destruct (ST h ltac:(lra)) as (_ & Hy & e & He1 & He2). rewrite PS in Hy, He2. split.
    - intros x. rewrite Hy. eapply Rle_trans; [apply (B1 h ltac:(lra) x)|].
      apply Rplus_le_compat; [apply Rmult_le_compat_r; [lra|]; apply Rmult_le_compat_r; lra|].
      apply Rmult_le_compat_r; [apply pow_le; lra|lra].
    - exists e. split; [exact He1|]. intros x. rewrite He2. eapply Rle_trans; [apply (B2 h ltac:(lra) x)|].
      apply Rplus_le_compat; [apply Rmult_le_compat_r; [lra|]; apply Rmult_le_compat_r; lra|].
      apply Rmult_le_compat_r; [apply pow_le; lra|lra].
  Qed.
End OrderStep.
