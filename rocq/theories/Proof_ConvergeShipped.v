(** Whole solves by the shipped solvers: C59. *)
From Coq Require Import ZArith Reals QArith Qreals List Bool Arith Lia Lra.
From Verif Require Import Model_Result Model_Loop Model_RK Model_Tableaus Model_Terms Model_Orders Model_Interp Model_DenseOutput.
From Verif Require Import Spec_Loop Spec_RK Spec_RKLoop Spec_Order Spec_DenseOrder Spec_Lipschitz Spec_Convergence
  Proof_LoopBasic Proof_PropLoop Proof_RKStep Proof_RK Proof_RKCache Proof_RKProp Proof_RKLoop Proof_Order Proof_OrderStep Proof_OrderShipped Proof_OrderDopri8
  Proof_DenseOrder Proof_DenseMethods Proof_DenseSolvers Proof_DenseStep
  Proof_StageLipschitz Proof_StageExist Proof_Product Proof_Convergence Proof_ConvergeLoop.
Import ListNotations.
Open Scope R_scope.

Lemma entries_bounded (g : tableau -> nat -> R) tabs s :
  exists B, 0 <= B /\ forall tab i, In tab tabs -> (i < s)%nat -> Rabs (g tab i) <= B.
Proof.
  destruct (max_list (flat_map (fun tab => map (fun i => Rabs (g tab i)) (seq 0 s)) tabs)) as (B & B0 & BU & _).
  exists B. split; [exact B0|]. intros tab i Ht Hi. apply BU. apply in_flat_map. exists tab. split; [exact Ht|].
  apply in_map_iff. exists i. split; [reflexivity|]. apply in_seq. lia.
Qed.

Lemma poly_weight_bound W d th i : 0 <= th <= 1 -> Rabs (poly_weight W d th i) <= sum_n d (fun j => Rabs (W j i)).
Proof.
  intros Ht. unfold poly_weight. induction d as [|d IH]; cbn [sum_n]; [rewrite Rabs_R0; lra|].
  eapply Rle_trans; [apply Rabs_triang|]. apply Rplus_le_compat; [exact IH|]. rewrite Rabs_mult.
  rewrite <- (Rmult_1_l (Rabs (W d i))) at 2. apply Rmult_le_compat_r; [apply Rabs_pos|].
  rewrite Rabs_pos_eq by (apply pow_le; lra). rewrite <- (pow1 d). apply pow_incr. exact Ht.
Qed.

Lemma pow_le_min H p q n : 0 <= H <= 1 -> (n <= p)%nat -> (n <= q)%nat -> H ^ p + H ^ q <= 2 * H ^ n.
Proof.
  intros HH Hp Hq.
  assert (X : forall m, (n <= m)%nat -> H ^ m <= H ^ n).
  { intros m Hm. replace m with (n + (m - n))%nat by lia. rewrite pow_add. rewrite <- (Rmult_1_r (H ^ n)) at 2.
    apply Rmult_le_compat_l; [apply pow_le; lra|]. rewrite <- (pow1 (m - n)). apply pow_incr. lra. }
  pose proof (X p Hp). pose proof (X q Hq). lra.
Qed.

Lemma list_eq_nil_dec {A} (l : list A) : {l = []} + {l <> []}.
Proof. destruct l; [left; reflexivity|right; discriminate]. Qed.
Lemma exp_le x y : x <= y -> exp x <= exp y.
Proof. intros [H| ->]; [left; apply exp_increasing; exact H|lra]. Qed.

Section Whole.
  Context {I CS V MS : Type}.
  Notation Y := (I -> R).
  Notation DI := (Y * Y * list (list Y))%type.
  Notation config := (config Y (solver_state I) CS DI (option Y) V MS).
  Notation initial := (initial Y (solver_state I) CS MS).
  Notation outcome := (outcome Y (solver_state I) CS DI V MS).
  Variables (FI : finite_type I) (L : R) (fs : list (R -> Y -> Y)) (p : nat) (t0 b T : R) (y0 : Y) (y : R -> Y).
  Hypothesis L0 : 0 <= L.
  Hypothesis LIP : forall f, In f fs -> lipschitz L f.
  Hypothesis P1 : (1 <= p)%nat.
  Hypothesis AB : t0 <= b.
  Hypothesis BT : b < t0 + T.
  Hypothesis SM : forall f, In f fs -> uniformly_smooth p f t0 (t0 + T) y.
  Hypothesis EX : exact_solution fs t0 y0 T y.
  (** The dense output of a step from a nearby point *)
  Lemma dense_near tabs s W deg e2 q A h0 Bw C2 K2 : small_steps L s (combine tabs fs) A h0 -> 0 <= Bw -> 0 <= C2 -> 0 <= K2 ->
    (forall tab i th, In tab tabs -> (i < s)%nat -> 0 <= th <= 1 -> Rabs (poly_weight (W tab) deg th i) <= Bw) ->
    (forall t h k th, t0 <= t <= b -> 0 < h <= h0 -> 0 <= th <= 1 -> rk_equations s (ode_parts (combine tabs fs)) t (t + h) (y t) k ->
      bounded (fun x => y t x + combination (fun tab => poly_weight (W tab) deg th) s (ode_parts (combine tabs fs)) k x - y (t + th * h) x) (K2 * e2 * h + C2 * h ^ S q)) ->
    forall t h u k th E, t0 <= t <= b -> 0 < h <= h0 -> 0 <= th <= 1 -> 0 <= E -> bounded (fun x => u x - y t x) E ->
      rk_equations s (ode_parts (combine tabs fs)) t (t + h) u k ->
      bounded (fun x => u x + combination (fun tab => poly_weight (W tab) deg th) s (ode_parts (combine tabs fs)) k x - y (t + th * h) x)
              ((1 + 2 * INR (length (combine tabs fs)) * INR s * Bw * L * h) * E + (K2 * e2 * h + C2 * h ^ S q)).
  Proof.
    intros (A0 & H0 & HC & HF) HBw HC2 HK2 PW LD t h u k th E Ht Hh Hth HE UE K x. specialize (HF h Hh).
    assert (LIPP : forall tab f, In (tab, f) (combine tabs fs) -> lipschitz L f) by (intros tab f Hin; apply LIP; eapply in_combine_r; exact Hin).
    destruct (stages_exist FI s (combine tabs fs) L LIPP A A0 HC h (proj1 Hh) HF t (y t)) as (k' & K').
    pose proof (LD t h k' th Ht Hh Hth K' x) as D. cbv beta in D.
    pose proof (stages_lipschitz FI s (combine tabs fs) L LIPP L0 A A0 HC h (proj1 Hh) HF t u (y t) k k' E HE UE K K') as SL.
    assert (P : 0 <= 2 * h * L * E) by (repeat apply Rmult_le_pos; lra).
    assert (PB : forall m tab f i, nth_error (combine tabs fs) m = Some (tab, f) -> (i < s)%nat -> Rabs (poly_weight (W tab) deg th i) <= Bw).
    { intros m tab f i Hm Hi. apply PW; try assumption. apply nth_error_In in Hm. eapply in_combine_l. exact Hm. }
    pose proof (combination_diff s (combine tabs fs) (fun tab => poly_weight (W tab) deg th) Bw k k' _ x HBw P PB SL) as CD.
    specialize (UE x). cbv beta in UE.
    match type of CD with Rabs (?m - ?n) <= _ => match goal with |- Rabs ?w <= _ => replace w with ((u x - y t x) + (m - n) + (y t x + n - y (t + th * h) x)) by ring end end.
    eapply Rle_trans; [apply Rabs_triang|]. apply Rplus_le_compat; [|exact D].
    eapply Rle_trans; [apply Rabs_triang|]. eapply Rle_trans; [apply Rplus_le_compat; [exact UE|exact CD]|]. right. ring.
  Qed.

  Lemma whole_solve q : (q <= p)%nat -> exists K, 0 <= K /\ forall (tabs : list tableau) (s : nat) (interp : interpolation) (e1 e2 B : R),
    length tabs = length fs -> valid_parts s (ode_parts (combine tabs fs)) -> fsal_at_ends (ode_parts (combine tabs fs)) ->
    0 <= e1 -> 0 <= e2 -> has_order_up_to tabs s e1 p -> dense_order interp tabs s e2 q -> weights_bounded tabs s B ->
    exists C h0, 0 <= C /\ 0 < h0 /\
    forall (c : config) (i : initial) (h : list (attempt Y)) (o : outcome) (sv : solver I I R) (time : Z -> R) (H : R),
    rk_run c i h o sv time t0 y0 -> sv_parts sv = ode_parts (combine tabs fs) -> 0 < H <= h0 -> steps_within time H b h ->
    (forall a, In a (accepted h) ->
       bounded (fun x => at_y a x - y (time (at_to a)) x) ((K * e1 + C * H ^ p) * growth (length fs) s B L (time (at_to a) - t0))) /\
    (interpolate c = rk_interpolate interp time -> forall a t, In a (accepted h) -> time (at_from a) <= time t <= time (at_to a) ->
       bounded (fun x => at_interp a t x - y (time t) x)
               (2 * (K * e1 + C * H ^ p) * growth (length fs) s B L (time t - t0) + K * e2 * H + C * H ^ (q + 1))) /\
    (stepto_len c = None -> results_ok c -> rf_results_ok c -> out_result o = successful ->
       out_tfinal o = cfg_t1 c /\
       bounded (fun x => out_yfinal o x - y (time (cfg_t1 c)) x) ((K * e1 + C * H ^ p) * growth (length fs) s B L (time (cfg_t1 c) - t0))).
  Proof.
    intros QP.
    destruct (@run_bound I CS V MS FI L fs p t0 b T y0 y L0 LIP P1 AB BT SM EX) as (K1 & HK1 & RB).
    destruct (uniform_dense FI L fs p t0 b T y0 y L0 LIP P1 AB BT SM EX q QP) as (K2 & HK2 & UD).
    exists (K1 + K2). split; [lra|]. intros tabs s interp e1 e2 B LE VP0 FE0 E1 E2 HO (W & deg & IN & DC) WB.
    destruct (entries_bounded (fun tab i => sum_n deg (fun j => Rabs (W tab j i))) tabs s) as (Bw & Bw0 & HBw).
    destruct (RB tabs s e1 B LE E1 HO WB) as (C1 & A & h1 & HC1 & SMALL & RB'). clear RB.
    destruct (UD tabs s W deg e2 LE E2 DC) as (C2 & h2 & HC2 & H2 & LD). clear UD.
    assert (LC : length (combine tabs fs) = length fs) by (rewrite combine_length; lia).
    set (gr := growth (length fs) s B L).
    assert (Lam0 : 0 <= 2 * INR (length fs) * INR s * B * L).
    { pose proof (pos_INR (length fs)). pose proof (pos_INR s). destruct WB as (B0 & _). repeat apply Rmult_le_pos; lra. }
    assert (GR0 : forall t, 0 <= t -> 0 <= gr t) by (intros t Ht; unfold gr, growth; apply Rmult_le_pos; [lra|left; apply exp_pos]).
    assert (GRM : forall t u, 0 <= t <= u -> gr t <= gr u).
    { intros t u Ht. unfold gr, growth. apply Rmult_le_compat; [lra|left; apply exp_pos|lra|]. apply exp_le. apply Rmult_le_compat_l; lra. }
    set (Z := 2 * INR (length fs) * INR s * Bw * L).
    assert (Z0 : 0 <= Z) by (pose proof (pos_INR (length fs)); pose proof (pos_INR s); unfold Z; repeat apply Rmult_le_pos; lra).
    set (h3 := / (1 + Z)). assert (H3 : 0 < h3) by (apply Rinv_0_lt_compat; lra).
    assert (ZH : forall h, 0 <= h <= h3 -> Z * h <= 1).
    { intros h Hh. apply Rle_trans with ((1 + Z) * h3); [|unfold h3; rewrite Rinv_r; lra].
      apply Rmult_le_compat; lra. }
    exists (C1 + C2), (Rmin h3 (Rmin h1 h2)). split; [lra|]. destruct SMALL as (A0 & H1 & HC & HF).
    split; [repeat apply Rmin_pos; lra|].
    intros c i h o sv time H RR PS HH SW.
    pose proof (Rmin_l h3 (Rmin h1 h2)). pose proof (Rmin_r h3 (Rmin h1 h2)). pose proof (Rmin_l h1 h2). pose proof (Rmin_r h1 h2).
    assert (Hle : H <= h3 /\ H <= h1 /\ H <= h2) by lra.
    assert (VP := VP0). assert (FE := FE0). rewrite <- PS in VP, FE.
    pose proof (RB' c i h o sv time H RR PS VP FE ltac:(lra) SW) as BND. cbv zeta in BND.
    assert (HP0 : 0 <= H ^ p) by (apply pow_le; lra). assert (HQ0 : 0 <= H ^ (q + 1)) by (apply pow_le; lra).
    assert (P1' : 0 <= K1 * e1) by (apply Rmult_le_pos; lra). assert (P2' : 0 <= C1 * H ^ p) by (apply Rmult_le_pos; lra).
    assert (P3' : 0 <= K2 * e1) by (apply Rmult_le_pos; lra). assert (P4' : 0 <= C2 * H ^ p) by (apply Rmult_le_pos; lra).
    set (U := (K1 + K2) * e1 + (C1 + C2) * H ^ p).
    assert (U0 : K1 * e1 + C1 * H ^ p <= U) by (unfold U; rewrite !Rmult_plus_distr_r; lra).
    assert (ERR : forall t, t0 <= t -> (K1 * e1 + C1 * H ^ p) * (t - t0) * exp (2 * INR (length fs) * INR s * B * L * (t - t0)) <= U * gr (t - t0)).
    { intros t Ht. rewrite Rmult_assoc. apply Rmult_le_compat_r; [apply (GR0 (t - t0)); lra|exact U0]. }
    assert (INA : forall a, In a (accepted h) -> In a h /\ at_keep a = true) by (intros a' Ha'; apply filter_In in Ha'; exact Ha').
    assert (STEPS : forall a, In a (accepted h) -> bounded (fun x => at_y a x - y (time (at_to a)) x) (U * gr (time (at_to a) - t0))).
    { intros a Ha x. destruct (INA a Ha) as (Ha1 & Ha2). destruct (SW a Ha1 Ha2) as (OK & END & ST & LEb).
      destruct (BND a Ha) as (F0 & _ & BY). eapply Rle_trans; [apply (BY x)|]. apply ERR. lra. }
    split; [exact STEPS|]. split.
    - intros INT a t Ha Ht x. destruct (INA a Ha) as (Ha1 & Ha2). destruct (SW a Ha1 Ha2) as (OK & END & ST & LEb).
      destruct (run_outs c i h o sv time t0 y0 s RR VP FE a Ha OK) as (oth & ss & mj & CO & OKr & _ & ->).
      destruct (BND a Ha) as (F0 & BF & _).
      set (dt := time (at_to a) - time (at_from a)) in *.
      set (th := (time t - time (at_from a)) / dt).
      assert (Eto : time (at_to a) = time (at_from a) + dt) by (unfold dt; ring).
      assert (Et : time t = time (at_from a) + th * dt) by (unfold th; field; lra).
      assert (Hth : 0 <= th <= 1).
      { unfold th. split; [apply Rmult_le_pos; [lra|left; apply Rinv_0_lt_compat; lra]|].
        apply Rmult_le_reg_r with dt; [lra|]. unfold Rdiv. rewrite Rmult_assoc, Rinv_l by lra. unfold dt. lra. }
      assert (UE : bounded (fun x => at_yprev a x - y (time (at_from a)) x) (U * gr (time t - t0))).
      { intros z. eapply Rle_trans; [apply (BF z)|]. eapply Rle_trans; [apply ERR; exact F0|]. apply Rmult_le_compat_l; [lra|]. apply GRM. lra. }
      assert (HE : 0 <= U * gr (time t - t0)) by (apply Rmult_le_pos; [lra|apply GR0; lra]).
      set (E := U * gr (time t - t0)) in *.
      match goal with |- _ <= ?r => replace r with (2 * E + ((K1 + K2) * e2 * H + (C1 + C2) * H ^ (q + 1))) by (unfold E, U; ring) end. clearbody E.
      rewrite INT. unfold rk_interpolate. rewrite Et. rewrite Eto in OKr |- *.
      assert (RF : exact_root_finder (sv_root_finder sv) \/ implicit_index sv = None).
      { destruct RR as (_ & _ & [RF|RF] & _); [left; exact RF|right; apply explicit_none, RF]. }
      set (out := rk_step sv (time (at_from a)) (time (at_from a) + dt) (at_yprev a) oth ss mj) in *.
      change (interp _ _ _ _ _ _) with (dense_value interp (time (at_from a)) (time (at_from a) + dt) (at_yprev a) out (time (at_from a) + th * dt) x).
      unfold out. rewrite (dense_step_value sv s tabs fs interp _ (time (at_from a)) dt (at_yprev a) oth ss mj LE PS VP FE IN ltac:(lra) CO RF OKr th x).
      fold out.
      rewrite <- (combination_eq s tabs fs LE (fun tab => poly_weight (W tab) deg th) (fun c i => stages_of out c i)).
      assert (KEQ : rk_equations s (ode_parts (combine tabs fs)) (time (at_from a)) (time (at_from a) + dt) (at_yprev a) (fun c i => stages_of out c i)).
      { rewrite <- PS.
        destruct (step_correct sv s VP (time (at_from a)) (time (at_from a) + dt) (at_yprev a) oth ss mj CO (fsal_ends _ FE) OKr RF) as (k & EQ & _ & _ & (_ & L2) & _).
        eapply equations_ext; [|exact EQ]. intros m j z Hm Hj. symmetry. unfold stages_of. destruct (L2 m Hm) as (_ & HKk). specialize (HKk j Hj). unfold vzero in HKk.
        fold out in HKk. rewrite HKk. reflexivity. }
      assert (SMALL2 : small_steps L s (combine tabs fs) A (Rmin h1 h2)).
      { split; [exact A0|]. split; [apply Rmin_pos; lra|]. split; [exact HC|]. intros h' Hh'. apply HF. lra. }
      assert (LD2 : forall t h k th, t0 <= t <= b -> 0 < h <= Rmin h1 h2 -> 0 <= th <= 1 -> rk_equations s (ode_parts (combine tabs fs)) t (t + h) (y t) k ->
        bounded (fun x => y t x + combination (fun tab => poly_weight (W tab) deg th) s (ode_parts (combine tabs fs)) k x - y (t + th * h) x) (K2 * e2 * h + C2 * h ^ S q)).
      { intros t' h' k' th' Ht' Hh' Hth' EQ'. apply LD; try assumption. lra. }
      assert (PW : forall tab i th, In tab tabs -> (i < s)%nat -> 0 <= th <= 1 -> Rabs (poly_weight (W tab) deg th i) <= Bw).
      { intros tab j th' Ht' Hj Hth'. eapply Rle_trans; [apply poly_weight_bound; exact Hth'|]. eapply Rle_trans; [apply Rle_abs|]. apply HBw; assumption. }
      eapply Rle_trans; [apply (dense_near tabs s W deg e2 q A (Rmin h1 h2) Bw C2 K2 SMALL2 Bw0 HC2 HK2 PW LD2 (time (at_from a)) dt (at_yprev a) _ th E ltac:(lra) ltac:(lra) Hth HE UE KEQ x)|].
      rewrite LC. fold Z.
      assert (T1 : (1 + Z * dt) * E <= 2 * E) by (apply Rmult_le_compat_r; [exact HE|]; pose proof (ZH dt ltac:(lra)); lra).
      assert (T2 : K2 * e2 * dt <= (K1 + K2) * e2 * H).
      { assert (0 <= K1 * e2) by (apply Rmult_le_pos; lra). assert (0 <= K2 * e2) by (apply Rmult_le_pos; lra).
        apply Rmult_le_compat; [lra|lra|rewrite Rmult_plus_distr_r; lra|lra]. }
      assert (T3 : C2 * dt ^ S q <= (C1 + C2) * H ^ (q + 1)).
      { replace (q + 1)%nat with (S q) by lia. apply Rmult_le_compat; [lra|apply pow_le; lra|lra|apply pow_incr; lra]. }
      lra.
    - intros ST RO RFO OK.
      destruct RR as (RUN & STEP & RF & (Inv & CC & HI) & AJ & MID & Ht & Ht' & CO & TI & YI).
      destruct (pf_C02_times_in_interval c i h o Inv RUN CC MID Ht Ht' HI) as (_ & _ & RIP).
      destruct (pf_C03_success_reaches_t1 c i h o RUN ST Ht RO RFO OK) as (TF & CUR). specialize (CUR RIP).
      split; [exact TF|]. intros x. fold U gr.
      unfold current in CUR. destruct (list_eq_nil_dec (accepted h)) as [Z'|Z'].
      + rewrite Z' in CUR. cbn in CUR. injection CUR as CT CY. rewrite CY, <- TF, CT, TI, YI. destruct EX as (EX0 & _). rewrite EX0.
        rewrite Rminus_diag_eq, Rabs_R0 by reflexivity. rewrite Rminus_diag_eq by reflexivity. unfold gr, growth. lra.
      + destruct (exists_last Z') as (accs & a & EA).
        assert (Ha : In a (accepted h)) by (rewrite EA; apply in_or_app; right; left; reflexivity).
        rewrite EA, map_app in CUR. cbn [map] in CUR. rewrite last_last in CUR. injection CUR as CT CY.
        destruct (INA a Ha) as (Ha1 & Ha2). destruct (SW a Ha1 Ha2) as (_ & END & _).
        rewrite CY, <- TF, CT, END. apply (STEPS a Ha x).
  Qed.
End Whole.

Lemma order_0 tabs s p : has_order tabs s p -> has_order_up_to tabs s 0 p.
Proof. intros H t A B C. rewrite (H t A B C), Rabs_R0. lra. Qed.

Section Shipped.
  Context {I CS V MS : Type}.
  Notation Y := (I -> R).
  Notation DI := (Y * Y * list (list Y))%type.
  Notation config := (config Y (solver_state I) CS DI (option Y) V MS).
  Notation initial := (initial Y (solver_state I) CS MS).
  Notation outcome := (outcome Y (solver_state I) CS DI V MS).

  Lemma pf_C59_solve :
    forall (FI : finite_type I) (L : R) (fs : list (R -> Y -> Y)) (p q : nat) (t0 b T : R) (y0 : Y) (y : R -> Y),
    0 <= L -> (forall f, In f fs -> lipschitz L f) -> (1 <= p)%nat -> (q <= p)%nat -> t0 <= b -> b < t0 + T ->
    (forall f, In f fs -> uniformly_smooth p f t0 (t0 + T) y) -> exact_solution fs t0 y0 T y ->
    exists K, 0 <= K /\ forall (tabs : list tableau) (s : nat) (interp : interpolation) (e1 e2 B : R),
    length tabs = length fs -> valid_parts s (ode_parts (combine tabs fs)) -> fsal_at_ends (ode_parts (combine tabs fs)) ->
    0 <= e1 -> 0 <= e2 -> has_order_up_to tabs s e1 p -> dense_order interp tabs s e2 q -> weights_bounded tabs s B ->
    exists C h0, 0 <= C /\ 0 < h0 /\
    forall (c : config) (i : initial) (h : list (attempt Y)) (o : outcome) (sv : solver I I R) (time : Z -> R) (H : R),
    rk_run c i h o sv time t0 y0 -> sv_parts sv = ode_parts (combine tabs fs) -> 0 < H <= h0 -> steps_within time H b h ->
    (forall a, In a (accepted h) ->
       bounded (fun x => at_y a x - y (time (at_to a)) x) ((K * e1 + C * H ^ p) * growth (length fs) s B L (time (at_to a) - t0))) /\
    (interpolate c = rk_interpolate interp time -> forall a t, In a (accepted h) -> time (at_from a) <= time t <= time (at_to a) ->
       bounded (fun x => at_interp a t x - y (time t) x)
               (2 * (K * e1 + C * H ^ p) * growth (length fs) s B L (time t - t0) + K * e2 * H + C * H ^ (q + 1))) /\
    (stepto_len c = None -> results_ok c -> rf_results_ok c -> out_result o = successful ->
       out_tfinal o = cfg_t1 c /\
       bounded (fun x => out_yfinal o x - y (time (cfg_t1 c)) x) ((K * e1 + C * H ^ p) * growth (length fs) s B L (time (cfg_t1 c) - t0))).
  Proof. intros. eapply whole_solve; eassumption. Qed.

  Lemma pf_C59_exact_solvers :
    forall (d : dense_method) (q : nat) (FI : finite_type I) (L : R) (fs : list (R -> Y -> Y)) (t0 b T : R) (y0 : Y) (y : R -> Y),
    In (d, q)
       [(heun_dense, 2%nat); (midpoint_dense, 1%nat); (ralston_dense, 1%nat); (bosh3_dense, 3%nat); (dopri5_dense, 4%nat);
        (kvaerno3_dense, 3%nat); (kvaerno4_dense, 3%nat); (sil3_dense, 2%nat)] ->
    let tabs := m_tableaus (dm_method d) in
    let p := m_order (dm_method d) in
    length tabs = length fs ->
    0 <= L -> (forall f, In f fs -> lipschitz L f) -> t0 <= b -> b < t0 + T ->
    (forall f, In f fs -> uniformly_smooth p f t0 (t0 + T) y) -> exact_solution fs t0 y0 T y ->
    exists C h0, 0 <= C /\ 0 < h0 /\
    forall (c : config) (i : initial) (h : list (attempt Y)) (o : outcome) (sv : solver I I R) (time : Z -> R) (H : R),
    rk_run c i h o sv time t0 y0 -> sv_parts sv = ode_parts (combine tabs fs) -> 0 < H <= h0 -> steps_within time H b h ->
    (forall a, In a (accepted h) -> bounded (fun x => at_y a x - y (time (at_to a)) x) (C * H ^ p)) /\
    (interpolate c = rk_interpolate (dm_interpolation d) time -> forall a t, In a (accepted h) -> time (at_from a) <= time t <= time (at_to a) ->
       bounded (fun x => at_interp a t x - y (time t) x) (C * H ^ p)) /\
    (stepto_len c = None -> results_ok c -> rf_results_ok c -> out_result o = successful ->
       out_tfinal o = cfg_t1 c /\ bounded (fun x => out_yfinal o x - y (time (cfg_t1 c)) x) (C * H ^ p)).
  Proof.
    intros d q FI L fs t0 b T y0 y Hd tabs p LE L0 LIP AB BT SM EX.
    assert (X : good d q 0 /\ valid_tabsb (stages d) (tabs_of d) = true /\
                has_order (m_tableaus (dm_method d)) (m_stages (dm_method d)) (m_order (dm_method d)) /\
                (1 <= m_order (dm_method d))%nat /\ (q <= m_order (dm_method d))%nat /\ (m_order (dm_method d) <= q + 1)%nat).
    { clear - Hd. pose proof pf_C30_exact_methods as EXM.
      repeat (destruct Hd as [Hd|Hd]; [injection Hd as <- <-;
        (split; [first [exact good_heun|exact good_midpoint|exact good_ralston|exact good_bosh3|exact good_dopri5
                       |exact good_kvaerno3|exact good_kvaerno4|exact good_sil3]|]);
        (split; [vm_compute; reflexivity|]); (split; [|split; [|split]; cbn; lia])|]); [..|destruct Hd].
      all: cbn [dm_method heun_dense midpoint_dense ralston_dense bosh3_dense dopri5_dense kvaerno3_dense kvaerno4_dense sil3_dense].
      all: apply EXM; cbn; tauto. }
    destruct X as (GD & VT & HO & P1 & QP & PQ). apply good_order in GD. apply order_0 in HO.
    change (has_order_up_to tabs (stages d) 0 p) in HO. change (dense_order (dm_interpolation d) tabs (stages d) 0 q) in GD.
    change (1 <= p)%nat in P1. change (q <= p)%nat in QP. change (p <= q + 1)%nat in PQ.
    destruct (entries_bounded coef_b tabs (stages d)) as (B & WB).
    destruct (pf_C59_solve FI L fs p q t0 b T y0 y L0 LIP P1 QP AB BT SM EX) as (K & HK & S).
    destruct (valid_tabs (stages d) tabs fs LE VT) as (VP & FE).
    destruct (S tabs (stages d) (dm_interpolation d) 0 0 B LE VP FE ltac:(lra) ltac:(lra) HO GD WB) as (C & h0 & HC & H0 & R).
    set (gr := growth (length fs) (stages d) B L) in *.
    assert (Lam0 : 0 <= 2 * INR (length fs) * INR (stages d) * B * L).
    { pose proof (pos_INR (length fs)). pose proof (pos_INR (stages d)). destruct WB as (B0 & _). repeat apply Rmult_le_pos; lra. }
    assert (GRM : forall t, 0 <= t <= b - t0 -> 0 <= gr t <= gr (b - t0)).
    { intros t Ht. unfold gr, growth. split; [apply Rmult_le_pos; [lra|left; apply exp_pos]|].
      apply Rmult_le_compat; [lra|left; apply exp_pos|lra|]. apply exp_le. apply Rmult_le_compat_l; lra. }
    destruct (GRM (b - t0) ltac:(lra)) as (G0 & _). set (G := gr (b - t0)) in *. clearbody G gr.
    exists (2 * C * G + C), (Rmin 1 h0). split; [apply Rplus_le_le_0_compat; [repeat apply Rmult_le_pos; lra|lra]|]. split; [apply Rmin_pos; lra|].
    intros c i h o sv time H RR PS HH SW. pose proof (Rmin_l 1 h0). pose proof (Rmin_r 1 h0).
    destruct (R c i h o sv time H RR PS ltac:(lra) SW) as (R1 & R2 & R3). clear R S.
    assert (HP0 : 0 <= H ^ p) by (apply pow_le; lra). assert (CG : 0 <= C * G) by (apply Rmult_le_pos; lra).
    assert (CP : 0 <= C * H ^ p) by (apply Rmult_le_pos; lra).
    assert (W1 : forall t, 0 <= t <= b - t0 -> (K * 0 + C * H ^ p) * gr t <= (2 * C * G + C) * H ^ p).
    { intros t Ht. destruct (GRM t Ht) as (g0 & g1). rewrite Rmult_0_r, Rplus_0_l. apply Rle_trans with (C * H ^ p * G); [apply Rmult_le_compat_l; lra|].
      pose proof (Rmult_le_pos _ _ CG HP0). replace ((2 * C * G + C) * H ^ p) with (C * H ^ p * G + (C * G * H ^ p + C * H ^ p)) by ring. lra. }
    destruct (run_times c i h o sv time t0 y0 H b RR SW AB) as (TIMES & TFIN).
    split; [|split].
    - intros a Ha x. destruct (TIMES a Ha). eapply Rle_trans; [apply (R1 a Ha x)|]. apply W1. lra.
    - intros INT a t Ha Ht x. destruct (TIMES a Ha). eapply Rle_trans; [apply (R2 INT a t Ha Ht x)|].
      assert (E : H ^ (q + 1) <= H ^ p).
      { replace (q + 1)%nat with (p + (q + 1 - p))%nat by lia. rewrite pow_add. rewrite <- (Rmult_1_r (H ^ p)) at 2.
        apply Rmult_le_compat_l; [lra|]. rewrite <- (pow1 (q + 1 - p)). apply pow_incr. lra. }
      destruct (GRM (time t - t0) ltac:(lra)) as (g0 & g1).
      assert (C * H ^ (q + 1) <= C * H ^ p) by (apply Rmult_le_compat_l; lra).
      assert (C * H ^ p * gr (time t - t0) <= C * H ^ p * G) by (apply Rmult_le_compat_l; lra).
      rewrite Rmult_0_r, Rplus_0_l. replace ((2 * C * G + C) * H ^ p) with (2 * (C * H ^ p * G) + C * H ^ p) by ring. lra.
    - intros ST RO RFO OK. destruct (R3 ST RO RFO OK) as (TF & BD). split; [exact TF|]. intros x. eapply Rle_trans; [apply (BD x)|]. apply W1. specialize (TFIN ST RO RFO OK). lra.
  Qed.

  Lemma pf_C59_conditions :
    forall (d : dense_method) (q : nat) (e1 e2 : R) (fs : list (R -> Y -> Y)),
    In (d, q, e1, e2)
       [(heun_dense, 2%nat, 0, 0); (midpoint_dense, 1%nat, 0, 0); (ralston_dense, 1%nat, 0, 0); (bosh3_dense, 3%nat, 0, 0);
        (dopri5_dense, 4%nat, 0, 0); (tsit5_dense, 4%nat, / IZR (10 ^ 30), / IZR (10 ^ 15));
        (dopri8_dense, 5%nat, / IZR (10 ^ 16), / IZR (10 ^ 13)); (kvaerno3_dense, 3%nat, 0, 0); (kvaerno4_dense, 3%nat, 0, 0);
        (kvaerno5_dense, 3%nat, / IZR (10 ^ 16), / IZR (10 ^ 15)); (sil3_dense, 2%nat, 0, 0);
        (kencarp3_dense, 2%nat, / IZR (10 ^ 24), / IZR (10 ^ 23)); (kencarp4_dense, 3%nat, / IZR (10 ^ 24), / IZR (10 ^ 23));
        (kencarp5_dense, 3%nat, / IZR (10 ^ 11), / IZR (10 ^ 9))] ->
    let tabs := m_tableaus (dm_method d) in
    let s := m_stages (dm_method d) in
    let p := m_order (dm_method d) in
    length tabs = length fs ->
    valid_parts s (ode_parts (combine tabs fs)) /\ fsal_at_ends (ode_parts (combine tabs fs)) /\
    (1 <= p)%nat /\ (q <= p)%nat /\ 0 <= e1 /\ 0 <= e2 /\
    has_order_up_to tabs s e1 p /\ dense_order (dm_interpolation d) tabs s e2 q /\ exists B, weights_bounded tabs s B.
  Proof.
    intros d q e1 e2 fs Hd tabs s p LE.
    assert (X : valid_tabsb (stages d) (tabs_of d) = true /\ (1 <= m_order (dm_method d))%nat /\ (q <= m_order (dm_method d))%nat /\
                has_order_up_to (m_tableaus (dm_method d)) (m_stages (dm_method d)) e1 (m_order (dm_method d)) /\
                dense_order (dm_interpolation d) (m_tableaus (dm_method d)) (m_stages (dm_method d)) e2 q /\ 0 <= e1 /\ 0 <= e2).
    { clear - Hd. assert (PI : forall n, (0 <= n)%Z -> 0 <= / IZR (10 ^ n)).
      { intros n Hn. left. apply Rinv_0_lt_compat. apply (IZR_lt 0). apply Z.pow_pos_nonneg; lia. }
      assert (EX : forall n m, nth_error [heun; midpoint; ralston; bosh3; dopri5; kvaerno3; kvaerno4; sil3] n = Some m ->
                has_order_up_to (m_tableaus m) (m_stages m) 0 (m_order m)).
      { intros n m E. apply order_0, pf_C30_exact_methods, (nth_error_In _ n E). }
      pose proof pf_C30_rounded_methods as RM. pose proof pf_C58_conditions as DC.
      destruct Hd as [Hd|Hd]; [injection Hd as <- <- <- <-|].
      { split; [vm_compute; reflexivity|]. split; [cbn; lia|]. split; [cbn; lia|]. split; [apply (EX 0%nat); reflexivity|].
        split; [apply DC, (nth_error_In _ 0); reflexivity|]. split; (apply PI; lia) || lra. }
      destruct Hd as [Hd|Hd]; [injection Hd as <- <- <- <-|].
      { split; [vm_compute; reflexivity|]. split; [cbn; lia|]. split; [cbn; lia|]. split; [apply (EX 1%nat); reflexivity|].
        split; [apply DC, (nth_error_In _ 1); reflexivity|]. split; (apply PI; lia) || lra. }
      destruct Hd as [Hd|Hd]; [injection Hd as <- <- <- <-|].
      { split; [vm_compute; reflexivity|]. split; [cbn; lia|]. split; [cbn; lia|]. split; [apply (EX 2%nat); reflexivity|].
        split; [apply DC, (nth_error_In _ 2); reflexivity|]. split; (apply PI; lia) || lra. }
      destruct Hd as [Hd|Hd]; [injection Hd as <- <- <- <-|].
      { split; [vm_compute; reflexivity|]. split; [cbn; lia|]. split; [cbn; lia|]. split; [apply (EX 3%nat); reflexivity|].
        split; [apply DC, (nth_error_In _ 3); reflexivity|]. split; (apply PI; lia) || lra. }
      destruct Hd as [Hd|Hd]; [injection Hd as <- <- <- <-|].
      { split; [vm_compute; reflexivity|]. split; [cbn; lia|]. split; [cbn; lia|]. split; [apply (EX 4%nat); reflexivity|].
        split; [apply DC, (nth_error_In _ 4); reflexivity|]. split; (apply PI; lia) || lra. }
      destruct Hd as [Hd|Hd]; [injection Hd as <- <- <- <-|].
      { split; [vm_compute; reflexivity|]. split; [cbn; lia|]. split; [cbn; lia|]. split; [apply (RM tsit5 30%Z), (nth_error_In _ 0); reflexivity|].
        split; [apply DC, (nth_error_In _ 5); reflexivity|]. split; (apply PI; lia) || lra. }
      destruct Hd as [Hd|Hd]; [injection Hd as <- <- <- <-|].
      { split; [vm_compute; reflexivity|]. split; [cbn; lia|]. split; [cbn; lia|]. split; [exact pf_C30_dopri8|].
        split; [apply DC, (nth_error_In _ 6); reflexivity|]. split; (apply PI; lia) || lra. }
      destruct Hd as [Hd|Hd]; [injection Hd as <- <- <- <-|].
      { split; [vm_compute; reflexivity|]. split; [cbn; lia|]. split; [cbn; lia|]. split; [apply (EX 5%nat); reflexivity|].
        split; [apply DC, (nth_error_In _ 7); reflexivity|]. split; (apply PI; lia) || lra. }
      destruct Hd as [Hd|Hd]; [injection Hd as <- <- <- <-|].
      { split; [vm_compute; reflexivity|]. split; [cbn; lia|]. split; [cbn; lia|]. split; [apply (EX 6%nat); reflexivity|].
        split; [apply DC, (nth_error_In _ 8); reflexivity|]. split; (apply PI; lia) || lra. }
      destruct Hd as [Hd|Hd]; [injection Hd as <- <- <- <-|].
      { split; [vm_compute; reflexivity|]. split; [cbn; lia|]. split; [cbn; lia|]. split; [apply (RM kvaerno5 16%Z), (nth_error_In _ 1); reflexivity|].
        split; [apply DC, (nth_error_In _ 9); reflexivity|]. split; (apply PI; lia) || lra. }
      destruct Hd as [Hd|Hd]; [injection Hd as <- <- <- <-|].
      { split; [vm_compute; reflexivity|]. split; [cbn; lia|]. split; [cbn; lia|]. split; [apply (EX 7%nat); reflexivity|].
        split; [apply DC, (nth_error_In _ 10); reflexivity|]. split; (apply PI; lia) || lra. }
      destruct Hd as [Hd|Hd]; [injection Hd as <- <- <- <-|].
      { split; [vm_compute; reflexivity|]. split; [cbn; lia|]. split; [cbn; lia|]. split; [apply (RM kencarp3 24%Z), (nth_error_In _ 2); reflexivity|].
        split; [apply DC, (nth_error_In _ 11); reflexivity|]. split; (apply PI; lia) || lra. }
      destruct Hd as [Hd|Hd]; [injection Hd as <- <- <- <-|].
      { split; [vm_compute; reflexivity|]. split; [cbn; lia|]. split; [cbn; lia|]. split; [apply (RM kencarp4 24%Z), (nth_error_In _ 3); reflexivity|].
        split; [apply DC, (nth_error_In _ 12); reflexivity|]. split; (apply PI; lia) || lra. }
      destruct Hd as [Hd|Hd]; [injection Hd as <- <- <- <-|].
      { split; [vm_compute; reflexivity|]. split; [cbn; lia|]. split; [cbn; lia|]. split; [apply (RM kencarp5 11%Z), (nth_error_In _ 4); reflexivity|].
        split; [apply DC, (nth_error_In _ 13); reflexivity|]. split; (apply PI; lia) || lra. }
      destruct Hd. }
    destruct X as (VT & P1 & QP & HO & DO & E1 & E2). destruct (valid_tabs (stages d) tabs fs LE VT) as (VP & FE).
    do 8 (split; [assumption|]). destruct (entries_bounded coef_b tabs s) as (B & WB). exists B. exact WB.
  Qed.
End Shipped.
