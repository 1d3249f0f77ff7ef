(** Linear stability of the shipped implicit solvers: C60. *)
From Coq Require Import ZArith Reals QArith Qreals List Bool Arith Lia Lra FunctionalExtensionality.
From Coquelicot Require Import Complex.
From Verif Require Import Model_Result Model_Loop Model_RK Model_Tableaus Model_Terms Model_Orders Model_Solvers Spec_Loop Spec_RK Spec_RKLoop Spec_Order Spec_Convergence
  Spec_Stability Proof_LoopBasic Proof_PropLoop Proof_RKStep Proof_RKProp Proof_RKLoop Proof_OrderCheck Proof_DenseStep Proof_ConvergeLoop Proof_Poly Proof_PolyBall Proof_StabilityPoly Proof_Stability Proof_Solvers Spec_Solvers.
Import ListNotations.
Open Scope R_scope.

(** ** The shipped solvers *)
Definition stable_facts (m : rk_method) (ea el : Q) : Prop :=
  exists tabs0 tab g prec cert, m_tableaus m = tabs0 ++ [tab] /\ valid_tabsb (m_stages m) (m_tableaus m) = true /\
    esdirk tab (m_stages m) g = true /\ Qle_bool 0 ea = true /\
    a_stable prec tab (m_stages m) g ea cert = true /\ l_stable prec tab (m_stages m) g el = true.
Ltac facts t0 t g p c := exists t0, t, g, p, c; split; [reflexivity|]; do 4 (split; [vm_compute; reflexivity|]); vm_compute; reflexivity.
Lemma kvaerno3_stable : stable_facts kvaerno3 0 (1 # 10 ^ 10).
Proof. facts (@nil tableau) kvaerno3_tableau (871733043 # 2000000000)%Q (@None positive) (@nil (Q * bool * list Q)). Qed.
Lemma kvaerno4_stable : stable_facts kvaerno4 0 (1 # 10 ^ 10).
Proof. facts (@nil tableau) kvaerno4_tableau (9165057 # 16000000)%Q (@None positive) (@nil (Q * bool * list Q)). Qed.
Lemma kvaerno5_stable : stable_facts kvaerno5 0 (1 # 10 ^ 15).
Proof. facts (@nil tableau) kvaerno5_tableau (13 # 50)%Q (Some (2 ^ 90)%positive) (@nil (Q * bool * list Q)). Qed.
Lemma kencarp3_stable : stable_facts kencarp3 (1 # 10 ^ 25) (1 # 10 ^ 26).
Proof. facts [kencarp3_explicit_tableau] kencarp3_implicit_tableau (1767732205903 # 4055673282236)%Q (Some (2 ^ 95)%positive) (@nil (Q * bool * list Q)). Qed.
Lemma kencarp4_stable : stable_facts kencarp4 0 0.
Proof. facts [kencarp4_explicit_tableau] kencarp4_implicit_tableau (1 # 4)%Q (@None positive) [((54 # 10 ^ 6)%Q, true, [0%Q; 1%Q; (-1 # 10)%Q])]. Qed.
Lemma kencarp5_stable : stable_facts kencarp5 (1 # 10 ^ 15) (1 # 10 ^ 10).
Proof.
  facts [kencarp5_explicit_tableau] kencarp5_implicit_tableau (41 # 200)%Q (Some (2 ^ 80)%positive)
    [((23 # 10 ^ 5)%Q, true, [(-7 # 10 ^ 5)%Q; 1%Q]); ((32197 # 10 ^ 12)%Q, false, [(-7 # 10 ^ 5)%Q; 1%Q])].
Qed.

Lemma Q2R_inv p : Q2R (1 # p) = / IZR (Zpos p).
Proof. unfold Q2R. cbn [Qnum Qden]. ring. Qed.
Lemma Q2R_pow p : Q2R (1 # 10 ^ p) = / IZR (10 ^ Zpos p).
Proof. rewrite Q2R_inv. rewrite <- Pos2Z.inj_pow. reflexivity. Qed.
Lemma shipped_stable m ea el :
  In (m, ea, el) [(kvaerno3, 0, / IZR (10 ^ 10)); (kvaerno4, 0, / IZR (10 ^ 10)); (kvaerno5, 0, / IZR (10 ^ 15));
                  (kencarp3, / IZR (10 ^ 25), / IZR (10 ^ 26)); (kencarp4, 0, 0); (kencarp5, / IZR (10 ^ 15), / IZR (10 ^ 10))] ->
  exists qa ql, stable_facts m qa ql /\ Q2R qa = ea /\ Q2R ql = el.
Proof.
  intros [E|[E|[E|[E|[E|[E|[]]]]]]]; injection E as <- <- <-.
  - exists 0%Q, (1 # 10 ^ 10)%Q. split; [exact kvaerno3_stable|]. split; [apply RMicromega.Q2R_0|apply Q2R_pow].
  - exists 0%Q, (1 # 10 ^ 10)%Q. split; [exact kvaerno4_stable|]. split; [apply RMicromega.Q2R_0|apply Q2R_pow].
  - exists 0%Q, (1 # 10 ^ 15)%Q. split; [exact kvaerno5_stable|]. split; [apply RMicromega.Q2R_0|apply Q2R_pow].
  - exists (1 # 10 ^ 25)%Q, (1 # 10 ^ 26)%Q. split; [exact kencarp3_stable|]. split; [apply Q2R_pow|apply Q2R_pow].
  - exists 0%Q, 0%Q. split; [exact kencarp4_stable|]. split; apply RMicromega.Q2R_0.
  - exists (1 # 10 ^ 15)%Q, (1 # 10 ^ 10)%Q. split; [exact kencarp5_stable|]. split; apply Q2R_pow.
Qed.

Section Shipped.
  Context {K : Type}.
  Notation Y := (K * bool -> R).
  Notation parts_of m re im := (ode_parts (combine (m_tableaus m) (last_field (length (m_tableaus m)) (modes re im)))).

  Lemma last_field_length {I : Type} (f : R -> (I -> R) -> I -> R) n : (0 < n)%nat -> length (last_field n f) = n.
  Proof. intros H. unfold last_field. rewrite app_length, repeat_length. cbn. lia. Qed.
  Lemma shipped_valid m qa ql (re im : K -> R) : stable_facts m qa ql ->
    valid_parts (m_stages m) (parts_of m re im) /\ fsal_at_ends (parts_of m re im).
  Proof.
    intros (tabs0 & tab & g & prec & cert & ET & VT & _). apply valid_tabs; [|exact VT].
    symmetry. apply last_field_length. rewrite ET, app_length. cbn. lia.
  Qed.

  Lemma pf_C60_a_stable : forall (m : rk_method) (ea el : R) (re im : K -> R) (sv : solver (K * bool) (K * bool) R)
      (t0 t1 : R) (y0 : Y) (others : bool) (state : solver_state (K * bool)) (made_jump : bool) (k : K),
    In (m, ea, el) [(kvaerno3, 0, / IZR (10 ^ 10)); (kvaerno4, 0, / IZR (10 ^ 10)); (kvaerno5, 0, / IZR (10 ^ 15));
                    (kencarp3, / IZR (10 ^ 25), / IZR (10 ^ 26)); (kencarp4, 0, 0); (kencarp5, / IZR (10 ^ 15), / IZR (10 ^ 10))] ->
    sv_parts sv = ode_parts (combine (m_tableaus m) (last_field (length (m_tableaus m)) (modes re im))) ->
    exact_root_finder (sv_root_finder sv) -> coherent (sv_parts sv) t0 y0 made_jump state ->
    re k <= 0 -> t0 <= t1 ->
    let out := rk_step sv t0 t1 y0 others state made_jump in
    is_okay (ro_result out) = true -> amplitude (ro_y out) k <= (1 + ea) * amplitude y0 k.
  Proof.
    intros m ea el re im sv t0 t1 y0 others state mj q Hm PS RF CO Hre Ht out OK.
    destruct (shipped_stable m ea el Hm) as (qa & ql & SF & EA & EL). destruct (shipped_valid m qa ql re im SF) as (VP & FE). rewrite <- PS in VP, FE.
    destruct (pf_C36_stages sv (m_stages m) t0 t1 y0 others state mj VP RF FE CO) as (H & _). destruct (H OK) as (k & EQ & SOL & _). fold out in SOL.
    destruct SF as (tabs0 & tab & g & prec & cert & ET & _ & ES & HA & AS & _). rewrite PS in EQ, SOL. rewrite ET in EQ, SOL.
    replace (amplitude (ro_y out) q) with (amplitude (rk_solution (m_stages m) (ode_parts (combine (tabs0 ++ [tab]) (last_field (length (tabs0 ++ [tab])) (modes re im)))) y0 k) q)
      by (unfold amplitude; rewrite !SOL; reflexivity).
    rewrite <- EA. apply (step_a tabs0 tab (m_stages m) g re im ES t0 t1 y0 k EQ q Hre Ht prec qa cert AS).
    apply Qle_bool_iff, Qle_Rle in HA. rewrite RMicromega.Q2R_0 in HA. exact HA.
  Qed.

  Lemma pf_C60_l_stable : forall (m : rk_method) (ea el : R),
    In (m, ea, el) [(kvaerno3, 0, / IZR (10 ^ 10)); (kvaerno4, 0, / IZR (10 ^ 10)); (kvaerno5, 0, / IZR (10 ^ 15));
                    (kencarp3, / IZR (10 ^ 25), / IZR (10 ^ 26)); (kencarp4, 0, 0); (kencarp5, / IZR (10 ^ 15), / IZR (10 ^ 10))] ->
    exists M, forall (re im : K -> R) (sv : solver (K * bool) (K * bool) R)
      (t0 t1 : R) (y0 : Y) (others : bool) (state : solver_state (K * bool)) (made_jump : bool) (k : K),
    sv_parts sv = ode_parts (combine (m_tableaus m) (last_field (length (m_tableaus m)) (modes re im))) ->
    exact_root_finder (sv_root_finder sv) -> coherent (sv_parts sv) t0 y0 made_jump state ->
    re k <= 0 -> t0 <= t1 -> 1 <= (t1 - t0) * rate re im k ->
    let out := rk_step sv t0 t1 y0 others state made_jump in
    is_okay (ro_result out) = true -> amplitude (ro_y out) k <= (el + M / ((t1 - t0) * rate re im k)) * amplitude y0 k.
  Proof.
    intros m ea el Hm. destruct (shipped_stable m ea el Hm) as (qa & ql & SF & EA & EL).
    pose proof SF as (tabs0 & tab & g & prec & cert & ET & _ & ES & HA & _ & LS).
    exists (size_sum (numerR tab (m_stages m) g) / Q2R g ^ (m_stages m - 1)).
    intros re im sv t0 t1 y0 others state mj q PS RF CO Hre Ht HZ out OK.
    destruct (shipped_valid m qa ql re im SF) as (VP & FE). rewrite <- PS in VP, FE.
    destruct (pf_C36_stages sv (m_stages m) t0 t1 y0 others state mj VP RF FE CO) as (H & _). destruct (H OK) as (k & EQ & SOL & _). fold out in SOL.
    rewrite PS in EQ, SOL. rewrite ET in EQ, SOL.
    replace (amplitude (ro_y out) q) with (amplitude (rk_solution (m_stages m) (ode_parts (combine (tabs0 ++ [tab]) (last_field (length (tabs0 ++ [tab])) (modes re im)))) y0 k) q)
      by (unfold amplitude; rewrite !SOL; reflexivity).
    rewrite <- EL. apply (step_l tabs0 tab (m_stages m) g re im ES t0 t1 y0 k EQ q Hre Ht prec ql LS HZ).
  Qed.
End Shipped.

Section Solve.
  Context {K CS V MS : Type}.
  Notation Y := (K * bool -> R).
  Notation DI := (Y * Y * list (list Y))%type.
  Notation config := (config Y (solver_state (K * bool)) CS DI (option Y) V MS).
  Notation initial := (initial Y (solver_state (K * bool)) CS MS).
  Notation outcome := (outcome Y (solver_state (K * bool)) CS DI V MS).

  Lemma stable_chain (c : config) (q : K) e accs : 0 <= e -> forall t u ss j, solver_run c t u ss j accs ->
    (forall a, In a accs -> amplitude (at_y a) q <= (1 + e) * amplitude (at_yprev a) q) ->
    (forall n a, nth_error accs n = Some a -> amplitude (at_y a) q <= (1 + e) ^ S n * amplitude u q).
  Proof.
    intros He. induction accs as [|a accs IH]; intros t u ss j RUN ST n a' Hn; [destruct n; discriminate|].
    inversion RUN; subst. pose proof (ST a (or_introl eq_refl)) as A. destruct n as [|n]; cbn in Hn; [injection Hn as <-; rewrite pow_1; exact A|].
    match goal with R : solver_run c (at_end a) _ _ _ accs |- _ => pose proof (IH _ _ _ _ R (fun a H => ST a (or_intror H)) n a' Hn) as B end.
    eapply Rle_trans; [exact B|]. replace ((1 + e) ^ S (S n) * amplitude (at_yprev a) q) with ((1 + e) ^ S n * ((1 + e) * amplitude (at_yprev a) q)) by (cbn; ring).
    apply Rmult_le_compat_l; [apply pow_le; lra|exact A].
  Qed.

  Lemma pf_C60_solve : forall (m : rk_method) (ea el : R) (re im : K -> R) (sv : solver (K * bool) (K * bool) R)
      (c : config) (i : initial) (h : list (attempt Y)) (o : outcome) (time : Z -> R) (t0 : R) (y0 : Y) (k : K),
    In (m, ea, el) [(kvaerno3, 0, / IZR (10 ^ 10)); (kvaerno4, 0, / IZR (10 ^ 10)); (kvaerno5, 0, / IZR (10 ^ 15));
                    (kencarp3, / IZR (10 ^ 25), / IZR (10 ^ 26)); (kencarp4, 0, 0); (kencarp5, / IZR (10 ^ 15), / IZR (10 ^ 10))] ->
    sv_parts sv = ode_parts (combine (m_tableaus m) (last_field (length (m_tableaus m)) (modes re im))) ->
    rk_run c i h o sv time t0 y0 ->
    (forall a, In a h -> at_keep a = true -> is_okay (at_solver_result a) = true /\ time (at_from a) <= time (at_to a)) ->
    re k <= 0 ->
    (forall n a, nth_error (accepted h) n = Some a -> amplitude (at_y a) k <= (1 + ea) ^ S n * amplitude y0 k) /\
    (stepto_len c = None -> results_ok c -> rf_results_ok c -> out_result o = successful ->
       amplitude (out_yfinal o) k <= (1 + ea) ^ length (accepted h) * amplitude y0 k).
  Proof.
    intros m ea el re im sv c i h o time t0 y0 q Hm PS RR OKS Hre.
    destruct (shipped_stable m ea el Hm) as (qa & ql & SF & EA & EL). destruct (shipped_valid m qa ql re im SF) as (VP & FE).
    assert (E0 : 0 <= ea).
    { destruct SF as (tabs0 & tab & g & prec & cert & ET & _ & ES & HA & _). apply Qle_bool_iff, Qle_Rle in HA. rewrite RMicromega.Q2R_0, EA in HA. exact HA. }
    destruct RR as (RUN & (others & STEP) & RF & (Inv & CC & HI) & AJ & MID & Ht & Ht' & CO & TI & YI).
    destruct (pf_C02_times_in_interval c i h o Inv RUN CC MID Ht Ht' HI) as (_ & _ & RIP).
    pose proof (pf_C08_accepted_steps_run c i h o RUN RIP) as SR. rewrite <- PS in VP, FE.
    pose proof (pf_C28_solve c i h o sv (m_stages m) time others Inv RUN STEP VP FE RF CC AJ MID Ht Ht' HI CO) as EQS.
    assert (ST : forall a, In a (accepted h) -> amplitude (at_y a) q <= (1 + ea) * amplitude (at_yprev a) q).
    { intros a Ha. apply filter_In in Ha as (Ha & KP). destruct (OKS a Ha KP) as (OK & LE). destruct (EQS a Ha KP OK) as (k & EQ & SOL).
      destruct SF as (tabs0 & tab & g & prec & cert & ET & _ & ES & HA & AS & _). rewrite PS in EQ, SOL. rewrite ET in EQ, SOL.
      replace (amplitude (at_y a) q) with (amplitude (rk_solution (m_stages m) (ode_parts (combine (tabs0 ++ [tab]) (last_field (length (tabs0 ++ [tab])) (modes re im)))) (at_yprev a) k) q)
        by (unfold amplitude; rewrite !SOL; reflexivity).
      rewrite <- EA in *. apply (step_a tabs0 tab (m_stages m) g re im ES _ _ _ k EQ q Hre LE prec qa cert AS E0). }
    pose proof (stable_chain c q ea (accepted h) E0 _ _ _ _ SR ST) as CH. rewrite YI in CH. split; [exact CH|].
    intros STL RO RFO OK. destruct (pf_C03_success_reaches_t1 c i h o RUN STL Ht RO RFO OK) as (TF & CUR). specialize (CUR RIP). unfold current in CUR.
    destruct (accepted h) as [|a0 accs0] eqn:EH.
    - cbn in CUR |- *. injection CUR as _ CY. rewrite CY, YI. lra.
    - destruct (@exists_last _ (a0 :: accs0)) as (accs & a & EA'); [discriminate|]. rewrite EA', map_app in CUR. cbn [map] in CUR. rewrite last_last in CUR. injection CUR as _ CY.
      rewrite CY, EA', app_length, Nat.add_1_r. apply CH. rewrite EA', nth_error_app2, Nat.sub_diag by lia. reflexivity.
  Qed.
End Solve.

(** ** Implicit Euler *)
Section ImplicitEuler.
  Context {K : Type}.
  Notation Y := (K * bool -> R).
  Lemma pf_C60_implicit_euler : forall (root_find : (Y -> Y) -> Y -> Y * RESULTS) (re im : K -> R) (t0 t1 : R) (y0 : Y) (made_jump : bool) (k : K),
    finds_roots root_find -> re k <= 0 -> t0 <= t1 ->
    let out := me_step (implicit_euler root_find (ode_term (modes re im))) t0 t1 y0 tt made_jump in
    is_okay (so_result out) = true ->
    amplitude (so_y out) k <= amplitude y0 k /\
    (t1 - t0) * rate re im k * amplitude (so_y out) k <= amplitude y0 k.
  Proof.
    intros rf re im t0 t1 y0 mj q Hr Hre Ht out OK. destruct (pf_C36_implicit_euler rf (ode_term (modes re im)) t0 t1 y0 mj Hr OK) as (E & _). fold out in E. clearbody out.
    pose proof (E (q, false)) as E1. pose proof (E (q, true)) as E2. cbn in E1, E2. unfold vscale, modes in E1, E2. cbn [fst snd] in E1, E2.
    unfold amplitude, rate. set (a := so_y out (q, false)) in *. set (b := so_y out (q, true)) in *. set (h := t1 - t0) in *.
    assert (H0 : 0 <= h) by (unfold h; lra). clearbody a b h.
    assert (A : y0 (q, false) = a - h * (re q * a - im q * b)) by lra. assert (B : y0 (q, true) = b - h * (im q * a + re q * b)) by lra. rewrite A, B.
    set (r := re q) in *. set (w := im q) in *. clearbody r w.
    assert (N : 0 <= a ^ 2 + b ^ 2) by (apply Rplus_le_le_0_compat; apply pow2_ge_0).
    assert (X : 0 <= (h * - r) * (a ^ 2 + b ^ 2)) by (apply Rmult_le_pos; [apply Rmult_le_pos; lra|exact N]).
    assert (Z : 0 <= (h ^ 2 * (r ^ 2 + w ^ 2)) * (a ^ 2 + b ^ 2)).
    { apply Rmult_le_pos; [apply Rmult_le_pos; [apply pow2_ge_0|apply Rplus_le_le_0_compat; apply pow2_ge_0]|exact N]. }
    assert (F : (a - h * (r * a - w * b)) ^ 2 + (b - h * (w * a + r * b)) ^ 2 = (a ^ 2 + b ^ 2) + 2 * ((h * - r) * (a ^ 2 + b ^ 2)) + (h ^ 2 * (r ^ 2 + w ^ 2)) * (a ^ 2 + b ^ 2)) by ring.
    rewrite F. split.
    - apply sqrt_le_1; lra.
    - rewrite <- (sqrt_pow2 h) at 1 by exact H0. rewrite <- !sqrt_mult; try apply pow2_ge_0; try exact N; try (apply Rplus_le_le_0_compat; apply pow2_ge_0).
      + apply sqrt_le_1; lra.
      + apply Rmult_le_pos; [apply pow2_ge_0|apply Rplus_le_le_0_compat; apply pow2_ge_0].
  Qed.
End ImplicitEuler.
