(** Stochastic Runge--Kutta methods on a linear equation with additive noise; the two Milstein methods. *)
From Coq Require Import Reals List Bool Arith Lia Lra Psatz FunctionalExtensionality.
From Coquelicot Require Import Coquelicot.
From Verif Require Import Model_Result Model_Loop Model_RK Model_Terms Model_Solvers Model_SRK Spec_SRK Proof_SRKTest.
From Verif Require Import Model_Brownian Ex_Levy.
Import ListNotations.
Open Scope R_scope.

Section OU.
  Context (lambda g : R) (X y : R -> R) (t0 t1 : R).
  Hypothesis L : t0 < t1.
  Hypothesis CX : forall u, continuous X u.
  Hypothesis Cy : forall u, continuous y u.
  Hypothesis EQ : forall t, t0 <= t <= t1 -> y t = y t0 + lambda * RInt y t0 t + g * (X t - X t0).
  Context (rho : R).
  Hypothesis Hr : 0 <= rho <= 1.
  Hypothesis Hx : Rabs (lambda * (t1 - t0)) <= rho ^ 2.
  Hypothesis Hu : forall t, t0 <= t <= t1 -> Rabs (g * (X t - X t0)) <= rho.
  Let h := t1 - t0.
  Let x := lambda * h.
  Let u := g * (X t1 - X t0).
  Let v := g * inc_H (levy_of X t0 t1).
  Let Y t := y t0 + lambda * RInt y t0 t.
  Let D t := g * (X t - X t0).
  Let p := lambda * RInt D t0 t1.

  Lemma CD t : continuous D t.
  Proof.
    apply (continuous_scal_r (V := R_NormedModule) g (fun t => X t - X t0)).
    apply (continuous_minus (V := R_NormedModule) X (fun _ => X t0)); [apply CX|apply continuous_const].
  Qed.
  Lemma exD a b : ex_RInt D a b.
  Proof. apply (ex_RInt_continuous (V := R_CompleteNormedModule)). intros. apply CD. Qed.
  Lemma dY t : is_derive Y t (lambda * y t).
  Proof.
    unfold Y. apply (is_derive_ext (fun t => plus (y t0) (scal lambda (RInt y t0 t)))); [reflexivity|].
    replace (lambda * y t) with (plus zero (scal lambda (y t))) by (unfold plus, zero, scal; cbn; unfold mult; cbn; ring).
    apply (is_derive_plus (K := R_AbsRing) (V := R_NormedModule)); [apply (is_derive_const (K := R_AbsRing) (V := R_NormedModule))|].
    apply (is_derive_scal (fun t => RInt y t0 t)). apply (is_derive_RInt (V := R_NormedModule) y _ t0).
    - apply filter_forall. intros b. apply (RInt_correct (V := R_CompleteNormedModule)), (ex_RInt_continuous (V := R_CompleteNormedModule)). auto.
    - apply Cy.
  Qed.
  Lemma CY t : continuous Y t.
  Proof. apply (ex_derive_continuous (K := R_AbsRing) (V := R_NormedModule)). eexists. apply dY. Qed.
  Let e t := exp (- lambda * (t - t0)).
  Lemma de t : is_derive e t (- lambda * e t).
  Proof. unfold e. auto_derive; [auto|]. unfold Rminus. ring. Qed.
  Lemma Ce t : continuous e t.
  Proof. apply (ex_derive_continuous (K := R_AbsRing) (V := R_NormedModule)). eexists. apply de. Qed.
  Lemma int_m : is_RInt (fun t => e t * lambda * (y t - Y t)) t0 t1 (e t1 * Y t1 - y t0).
  Proof.
    replace (e t1 * Y t1 - y t0) with (minus (e t1 * Y t1) (e t0 * Y t0)).
    2: { unfold minus, plus, opp. cbn. unfold e at 2, Y at 2. rewrite Rminus_eq_0, Rmult_0_r, exp_0.
         rewrite RInt_point. unfold zero. cbn. ring. }
    apply (is_RInt_derive (V := R_CompleteNormedModule) (fun t => e t * Y t)).
    - intros t _. replace (e t * lambda * (y t - Y t)) with (plus (mult (- lambda * e t) (Y t)) (mult (e t) (lambda * y t)))
        by (unfold plus, mult; cbn; ring).
      apply (is_derive_mult e Y); [apply de|apply dY|intros; apply Rmult_comm].
    - intros t _. apply (continuous_mult (K := R_AbsRing) (fun t => e t * lambda) (fun t => y t - Y t)).
      + apply (continuous_mult (K := R_AbsRing) e (fun _ => lambda)); [apply Ce|apply continuous_const].
      + apply (continuous_minus (V := R_NormedModule) y Y); [apply Cy|apply CY].
  Qed.
  Lemma yY t : t0 <= t <= t1 -> y t - Y t = D t.
  Proof. intros H. rewrite (EQ t H). unfold Y, D. ring. Qed.
  Lemma hpos : 0 < h. Proof. unfold h. lra. Qed.
  Lemma absx : Rabs x = Rabs lambda * h.
  Proof. unfold x. rewrite Rabs_mult, (Rabs_pos_eq h); [reflexivity|]. left. apply hpos. Qed.
  Lemma absx' : Rabs lambda * h <= rho ^ 2.
  Proof. rewrite <- absx. exact Hx. Qed.
  Lemma absx1 : Rabs lambda * h <= 1.
  Proof. pose proof absx'. nra. Qed.

  Lemma delta_bound : Rabs (e t1 * Y t1 - y t0 - p) <= exp 1 * rho ^ 5.
  Proof.
    pose proof hpos as hp. pose proof absx' as X2. pose proof absx1 as X1. pose proof (Rabs_pos lambda) as Pl.
    assert (I1 : is_RInt (fun t => lambda * D t) t0 t1 p).
    { apply (is_RInt_scal (V := R_NormedModule)), (RInt_correct (V := R_CompleteNormedModule)), exD. }
    pose proof (is_RInt_minus (V := R_NormedModule) _ _ _ _ _ _ int_m I1) as I2.
    assert (E : e t1 * Y t1 - y t0 - p = RInt (fun t => minus (e t * lambda * (y t - Y t)) (lambda * D t)) t0 t1).
    { symmetry. apply is_RInt_unique. exact I2. }
    rewrite E. eapply Rle_trans.
    { apply (abs_RInt_le_const _ _ _ (Rabs lambda * (exp 1 * (Rabs lambda * h)) * rho)); [lra|eexists; exact I2|].
      intros t Ht. rewrite (yY t Ht). unfold minus, plus, opp. cbn.
      replace (e t * lambda * D t + - (lambda * D t)) with (lambda * (e t - 1) * D t) by ring.
      rewrite !Rabs_mult. apply Rmult_le_compat.
      - apply Rmult_le_pos; apply Rabs_pos.
      - apply Rabs_pos.
      - apply Rmult_le_compat_l; [exact Pl|].
        assert (B : Rabs (- lambda * (t - t0)) <= Rabs lambda * h).
        { rewrite Rabs_mult, Rabs_Ropp. apply Rmult_le_compat_l; [exact Pl|]. rewrite Rabs_pos_eq by lra. unfold h. lra. }
        pose proof (exp_taylor 1 1 (- lambda * (t - t0)) ltac:(lra)) as T. cbn [taylor pow] in T. fold (e t) in T.
        replace (e t - (0 + 1 / INR (fact 0))) with (e t - 1) in T by (cbn; field).
        eapply Rle_trans; [exact T|]. apply Rmult_le_compat_l; [left; apply exp_pos|]. rewrite Rmult_1_r. exact B.
      - apply Hu. exact Ht. }
    fold h. replace (h * (Rabs lambda * (exp 1 * (Rabs lambda * h)) * rho)) with (exp 1 * ((Rabs lambda * h) * (Rabs lambda * h) * rho)) by ring.
    replace (rho ^ 5) with (rho ^ 2 * rho ^ 2 * rho) by ring.
    apply Rmult_le_compat_l; [left; apply exp_pos|].
    assert (0 <= Rabs lambda * h) by (apply Rmult_le_pos; lra).
    apply Rmult_le_compat_r; [lra|]. apply Rmult_le_compat; assumption.
  Qed.

  Lemma intD : @eq R (RInt D t0 t1) (h * (u / 2 + v)).
  Proof.
    assert (E : RInt D t0 t1 = g * (RInt X t0 t1 - h * X t0)).
    { apply is_RInt_unique. unfold D.
      replace (g * (RInt X t0 t1 - h * X t0)) with (scal g (minus (RInt X t0 t1) (scal (t1 - t0) (X t0)))) by reflexivity.
      apply (is_RInt_scal (V := R_NormedModule)). apply (is_RInt_minus (V := R_NormedModule)).
      - apply (RInt_correct (V := R_CompleteNormedModule)), (ex_RInt_continuous (V := R_CompleteNormedModule)). auto.
      - apply (is_RInt_const (V := R_NormedModule)). }
    pose proof (levy_H X CX t0 t1 L) as EH. rewrite E. unfold v, u. fold h in EH.
    set (IX := RInt X t0 t1) in *. assert (EI : @eq R IX (h * inc_H (levy_of X t0 t1) + h * (X t0 + X t1) / 2)).
    { change (@eq R (h * inc_H (levy_of X t0 t1)) (IX - h * (X t0 + X t1) / 2)) in EH. lra. }
    rewrite EI. match goal with |- @eq _ ?a ?b => change (@eq R a b) end. field.
  Qed.
  Lemma p_val : p = x * (u / 2 + v).
  Proof. unfold p. rewrite intD. unfold x. ring. Qed.
  Lemma absD : Rabs (RInt D t0 t1) <= h * rho.
  Proof. apply abs_RInt_le_const; [lra|apply exD|exact Hu]. Qed.
  Lemma absp : Rabs p <= rho ^ 3.
  Proof.
    unfold p. rewrite Rabs_mult. pose proof absD. pose proof absx'. pose proof (Rabs_pos lambda). pose proof hpos.
    apply Rle_trans with (Rabs lambda * (h * rho)); [apply Rmult_le_compat_l; assumption|]. nra.
  Qed.
  Lemma absu : Rabs u <= rho.
  Proof. apply Hu. lra. Qed.
  Lemma absv : Rabs v <= 2 * rho.
  Proof.
    assert (E : v = RInt D t0 t1 / h - u / 2) by (rewrite intD; field; pose proof hpos; lra).
    rewrite E. eapply Rle_trans; [apply Rabs_triang|]. rewrite Rabs_Ropp. unfold Rdiv. rewrite !Rabs_mult, (Rabs_pos_eq (/ 2)) by lra.
    rewrite (Rabs_pos_eq (/ h)) by (left; apply Rinv_0_lt_compat, hpos).
    pose proof absD as AD. pose proof absu. pose proof hpos.
    assert (Rabs (RInt D t0 t1) * / h <= rho).
    { apply Rmult_le_reg_r with h; [assumption|]. rewrite Rmult_assoc, Rinv_l, Rmult_1_r by lra. lra. }
    lra.
  Qed.
  Lemma y_end : y t1 = exp x * (y t0 + p + (e t1 * Y t1 - y t0 - p)) + u.
  Proof.
    replace (y t0 + p + (e t1 * Y t1 - y t0 - p)) with (e t1 * Y t1) by ring.
    assert (E : exp x * e t1 = 1).
    { unfold e. rewrite <- exp_plus. replace (x + - lambda * (t1 - t0)) with 0 by (unfold x, h; ring). apply exp_0. }
    rewrite <- Rmult_assoc, E. pose proof (yY t1 ltac:(lra)) as Q. unfold D in Q. unfold u. lra.
  Qed.

  Lemma ou_bound (w : nat) (q a b c y1 : R) : (w = 5%nat /\ q = 1 / 2) \/ (w = 4%nat /\ q = 0) ->
    y1 = y t0 * (1 + x + q * x ^ 2) + u + x * (u / 2 + v) + x ^ 2 * (y t0 * x * a + u * b + v * c) ->
    Rabs (y1 - y t1) <= (exp 1 + Rabs a + Rabs b + 2 * Rabs c + exp 1 + exp 1 * exp 1) * rho ^ w * (Rabs (y t0) + 1).
  Proof.
    intros Hw E. rewrite y_end, E, <- p_val. set (d := e t1 * Y t1 - y t0 - p). pose proof delta_bound as DB. fold d in DB.
    pose proof absp as AP. pose proof absu as AU. pose proof absv as AV. set (y0 := y t0) in *.
    assert (AX : Rabs x <= rho ^ 2) by exact Hx. assert (AX1 : Rabs x <= 1) by nra.
    assert (T1 : Rabs (exp x - 1) <= exp 1 * Rabs x).
    { pose proof (exp_taylor 1 1 x AX1) as T. cbn [taylor pow] in T. replace (exp x - (0 + 1 / INR (fact 0))) with (exp x - 1) in T by (cbn; field). lra. }
    assert (Rw : rho ^ 5 <= rho ^ w).
    { destruct Hw as [[-> _]|[-> _]]; [lra|]. replace (rho ^ 5) with (rho * rho ^ 4) by ring. pose proof (pow_le rho 4 ltac:(lra)). nra. }
    assert (P5 : 0 <= rho ^ 5) by (apply pow_le; lra).
    assert (Tq : Rabs (1 + x + q * x ^ 2 - exp x) <= exp 1 * rho ^ w).
    { rewrite Rabs_minus_sym. destruct Hw as [[-> ->]|[-> ->]].
      - pose proof (exp_taylor 1 3 x AX1) as T. cbn [taylor] in T.
        replace (0 + x ^ 0 / INR (fact 0) + x ^ 1 / INR (fact 1) + x ^ 2 / INR (fact 2)) with (1 + x + 1 / 2 * x ^ 2) in T by (cbn; field).
        eapply Rle_trans; [exact T|]. apply Rmult_le_compat_l; [left; apply exp_pos|].
        apply Rle_trans with ((rho ^ 2) ^ 3); [apply pow_incr; split; [apply Rabs_pos|exact AX]|].
        replace ((rho ^ 2) ^ 3) with (rho * rho ^ 5) by ring. nra.
      - pose proof (exp_taylor 1 2 x AX1) as T. cbn [taylor] in T.
        replace (0 + x ^ 0 / INR (fact 0) + x ^ 1 / INR (fact 1)) with (1 + x + 0 * x ^ 2) in T by (cbn; field).
        eapply Rle_trans; [exact T|]. apply Rmult_le_compat_l; [left; apply exp_pos|].
        replace (rho ^ 4) with ((rho ^ 2) ^ 2) by ring. apply pow_incr; split; [apply Rabs_pos|exact AX]. }
    set (m := Rabs y0 + 1). assert (Pm : 1 <= m) by (unfold m; pose proof (Rabs_pos y0); lra).
    assert (My : Rabs y0 <= m) by (unfold m; lra).
    replace (y0 * (1 + x + q * x ^ 2) + u + p + x ^ 2 * (y0 * x * a + u * b + v * c) - (exp x * (y0 + p + d) + u))
      with (y0 * (1 + x + q * x ^ 2 - exp x) + x ^ 2 * (y0 * x * a + u * b + v * c) + - ((exp x - 1) * p) + - (exp x * d)) by ring.
    assert (B1 : Rabs (y0 * (1 + x + q * x ^ 2 - exp x)) <= exp 1 * rho ^ w * m).
    { rewrite Rabs_mult, Rmult_comm. apply Rmult_le_compat; try apply Rabs_pos; assumption. }
    assert (R2 : rho ^ 2 <= rho) by nra.
    assert (B2 : Rabs (x ^ 2 * (y0 * x * a + u * b + v * c)) <= (Rabs a + Rabs b + 2 * Rabs c) * rho ^ w * m).
    { rewrite Rabs_mult, <- RPow_abs.
      assert (S1 : Rabs (y0 * x * a + u * b + v * c) <= (Rabs a + Rabs b + 2 * Rabs c) * (rho * m)).
      { eapply Rle_trans; [apply Rabs_triang|]. eapply Rle_trans; [apply Rplus_le_compat_r, Rabs_triang|].
        rewrite !Rabs_mult. pose proof (Rabs_pos a). pose proof (Rabs_pos b). pose proof (Rabs_pos c). pose proof (Rabs_pos y0). pose proof (Rabs_pos x).
        assert (Rabs y0 * Rabs x <= m * rho) by (apply Rmult_le_compat; try assumption; lra).
        assert (rho * 1 <= rho * m) by (apply Rmult_le_compat_l; lra).
        assert (Rabs y0 * Rabs x * Rabs a <= m * rho * Rabs a) by (apply Rmult_le_compat_r; assumption).
        assert (Rabs u * Rabs b <= rho * m * Rabs b) by (apply Rmult_le_compat_r; lra).
        assert (Rabs v * Rabs c <= 2 * (rho * m) * Rabs c) by (apply Rmult_le_compat_r; lra).
        lra. }
      assert (S2 : Rabs x ^ 2 <= (rho ^ 2) ^ 2) by (apply pow_incr; split; [apply Rabs_pos|exact AX]).
      apply Rle_trans with ((rho ^ 2) ^ 2 * ((Rabs a + Rabs b + 2 * Rabs c) * (rho * m))).
      { apply Rmult_le_compat; try assumption; [apply pow_le, Rabs_pos|apply Rabs_pos]. }
      replace ((rho ^ 2) ^ 2 * ((Rabs a + Rabs b + 2 * Rabs c) * (rho * m))) with ((Rabs a + Rabs b + 2 * Rabs c) * rho ^ 5 * m) by ring.
      apply Rmult_le_compat_r; [lra|]. apply Rmult_le_compat_l; [|exact Rw].
      pose proof (Rabs_pos a). pose proof (Rabs_pos b). pose proof (Rabs_pos c). lra. }
    assert (B3 : Rabs (- ((exp x - 1) * p)) <= exp 1 * rho ^ w * m).
    { rewrite Rabs_Ropp, Rabs_mult. apply Rle_trans with (exp 1 * rho ^ 2 * rho ^ 3).
      - apply Rmult_le_compat; try apply Rabs_pos; [|exact AP]. eapply Rle_trans; [exact T1|].
        apply Rmult_le_compat_l; [left; apply exp_pos|exact AX].
      - replace (exp 1 * rho ^ 2 * rho ^ 3) with (exp 1 * rho ^ 5 * 1) by ring. pose proof (exp_pos 1).
        apply Rmult_le_compat; [apply Rmult_le_pos; lra|lra| |exact Pm]. apply Rmult_le_compat_l; lra. }
    assert (B4 : Rabs (- (exp x * d)) <= exp 1 * exp 1 * rho ^ w * m).
    { rewrite Rabs_Ropp, Rabs_mult. pose proof (exp_pos 1) as E1.
      assert (EX : Rabs (exp x) <= exp 1).
      { pose proof (exp_taylor 1 0 x AX1) as T. cbn [taylor pow] in T. rewrite Rminus_0_r, Rmult_1_r in T. exact T. }
      apply Rle_trans with (exp 1 * (exp 1 * rho ^ 5)).
      - apply Rmult_le_compat; try apply Rabs_pos; assumption.
      - replace (exp 1 * (exp 1 * rho ^ 5)) with (exp 1 * exp 1 * rho ^ 5 * 1) by ring.
        assert (0 <= exp 1 * exp 1) by (apply Rmult_le_pos; lra).
        apply Rmult_le_compat; [apply Rmult_le_pos; lra|lra| |exact Pm]. apply Rmult_le_compat_l; lra. }
    eapply Rle_trans; [apply Rabs_triang|]. eapply Rle_trans; [apply Rplus_le_compat_r, Rabs_triang|].
    eapply Rle_trans; [apply Rplus_le_compat_r, Rplus_le_compat_r, Rabs_triang|].
    replace ((exp 1 + Rabs a + Rabs b + 2 * Rabs c + exp 1 + exp 1 * exp 1) * rho ^ w * m)
      with (exp 1 * rho ^ w * m + (Rabs a + Rabs b + 2 * Rabs c) * rho ^ w * m + exp 1 * rho ^ w * m + exp 1 * exp 1 * rho ^ w * m) by ring.
    lra.
  Qed.
End OU.

Definition ou_step (tab : stableau) (lambda g : R) (W H K t0 t1 y0 : R) (jump : bool) : R :=
  so_y (me_step (srk tab (scalar_drift (fun _ y => lambda * y)) (scalar_diffusion (fun _ _ => g) (fun _ _ => W)) (scalar_levy W H K))
          t0 t1 (scalar y0) tt jump) tt.
Definition ou_form (tab : stableau) (q a b c : R) : Prop := forall lambda g W H K t0 t1 y0 jump,
  let x := lambda * (t1 - t0) in let u := g * W in let v := g * H in
  ou_step tab lambda g W H K t0 t1 y0 jump
  = y0 * (1 + x + q * x ^ 2) + u + x * (u / 2 + v) + x ^ 2 * (y0 * x * a + u * b + v * c).
Lemma ou_sra1 : ou_form sra1 (1 / 2) 0 0 0.
Proof. unfold ou_form, ou_step. intros. step_simpl. field. Qed.
Lemma ou_shark : ou_form shark (1 / 2) 0 0 (1 / 2).
Proof. unfold ou_form, ou_step. intros. step_simpl. field. Qed.
Lemma ou_sea : ou_form sea 0 0 0 0.
Proof. unfold ou_form, ou_step. intros. step_simpl. field. Qed.
Lemma ou_spark : ou_form spark (1 / 2) (1 / 4 - sqrt 3 / 12) (1 / 4 - sqrt 3 / 12) (- 1 / 2 + sqrt 3 / 2).
Proof.
  assert (S3 : sqrt 3 * sqrt 3 = 3) by (apply sqrt_sqrt; lra).
  unfold ou_form, ou_step. intros. step_simpl. set (s := sqrt 3) in *. field [S3].
Qed.
Lemma ou_general_shark : ou_form general_shark (1 / 2) 0 0 (1 / 2).
Proof. unfold ou_form, ou_step. intros. step_simpl. field. Qed.
Lemma ou_slowrk : ou_form slowrk (1 / 2) 0 0 0.
Proof. unfold ou_form, ou_step. intros. step_simpl. field. Qed.

Lemma pf_C54_additive_noise (tab : stableau) (w : nat) :
  In (tab, w) [(sra1, 5%nat); (shark, 5%nat); (sea, 4%nat); (spark, 5%nat); (general_shark, 5%nat); (slowrk, 5%nat)] ->
  exists C, forall lambda g (X y : R -> R) t0 t1 K rho jump,
    t0 < t1 -> (forall u, continuous X u) -> (forall u, continuous y u) ->
    (forall t, t0 <= t <= t1 -> y t = y t0 + lambda * RInt y t0 t + g * (X t - X t0)) ->
    0 <= rho <= 1 -> Rabs (lambda * (t1 - t0)) <= rho ^ 2 ->
    (forall t, t0 <= t <= t1 -> Rabs (g * (X t - X t0)) <= rho) ->
    let drift := scalar_drift (fun _ y => lambda * y) in
    let diffusion := scalar_diffusion (fun _ _ => g) (fun s t => X t - X s) in
    let levy s t := BMInc (scalar (inc_W (levy_of X s t))) (scalar (inc_H (levy_of X s t))) (scalar K) in
    let out := me_step (srk tab drift diffusion levy) t0 t1 (scalar (y t0)) tt jump in
    Rabs (so_y out tt - y t1) <= C * rho ^ w * (Rabs (y t0) + 1).
Proof.
  intros Ht.
  assert (F : exists q a b c, ou_form tab q a b c /\ ((w = 5%nat /\ q = 1 / 2) \/ (w = 4%nat /\ q = 0))).
  { cbn [In] in Ht. repeat destruct Ht as [E|Ht]; try contradiction Ht; injection E as <- <-; do 4 eexists;
      (split; [first [exact ou_sra1|exact ou_shark|exact ou_sea|exact ou_spark|exact ou_general_shark|exact ou_slowrk]|]); auto. }
  destruct F as (q & a & b & c & F & Hw). eexists. intros lambda g X y t0 t1 K rho jump L CX Cy EQ Hr Hx Hu. cbv zeta.
  apply (ou_bound lambda g X y t0 t1 L CX Cy EQ rho Hr Hx Hu w q a b c); [exact Hw|].
  rewrite <- (F lambda g (X t1 - X t0) (inc_H (levy_of X t0 t1)) K t0 t1 (y t0) jump).
  reflexivity.
Qed.

(** The two Milstein methods *)
Section Milstein.
  Context {K : Type}.
  Lemma sum_over_ext (l : list K) f g : (forall k, In k l -> f k = g k) -> sum_over l f = sum_over l g.
  Proof.
    induction l; cbn; intros H; [reflexivity|]. rewrite H by (left; reflexivity). f_equal. apply IHl. intros. apply H. right. assumption.
  Qed.
  Lemma sum_over_plus (l : list K) f g : sum_over l (fun k => f k + g k) = sum_over l f + sum_over l g.
  Proof. induction l; cbn; [ring|]. unfold sum_over in *. rewrite IHl. ring. Qed.
  Lemma sum_over_scal (l : list K) a f : sum_over l (fun k => a * f k) = a * sum_over l f.
  Proof. induction l; cbn; [ring|]. unfold sum_over in *. rewrite IHl. ring. Qed.
  Lemma sum_over_0 (l : list K) f : (forall k, In k l -> f k = 0) -> sum_over l f = 0.
  Proof.
    induction l; cbn; intros H; [reflexivity|]. rewrite H by (left; reflexivity). unfold sum_over in IHl. rewrite IHl; [ring|]. intros. apply H. right. assumption.
  Qed.
  Lemma sum_over_swap (l m : list K) (f : K -> K -> R) :
    sum_over l (fun k => sum_over m (f k)) = sum_over m (fun j => sum_over l (fun k => f k j)).
  Proof.
    induction l as [|a l IH].
    - cbn. symmetry. apply sum_over_0. reflexivity.
    - change (sum_over (a :: l) (fun k => sum_over m (f k))) with (sum_over m (f a) + sum_over l (fun k => sum_over m (f k))).
      rewrite IH, <- sum_over_plus. reflexivity.
  Qed.
  Context (eqb : K -> K -> bool).
  Hypothesis EQB : forall a b, eqb a b = true <-> a = b.
  Lemma sum_over_pick (l : list K) k f : NoDup l -> In k l -> sum_over l (fun k' => f k' * (if eqb k k' then 1 else 0)) = f k.
  Proof.
    induction l as [|a l IH]; cbn; intros N H; [contradiction|]. inversion N as [|? ? N1 N2]; subst.
    destruct H as [->|H].
    - replace (eqb k k) with true by (symmetry; apply EQB; reflexivity).
      change (fold_right (fun x acc => f x * (if eqb k x then 1 else 0) + acc) 0 l) with (sum_over l (fun x => f x * (if eqb k x then 1 else 0))).
      rewrite sum_over_0; [ring|]. intros k' Hk. destruct (eqb k k') eqn:E; [|ring]. apply EQB in E. subst k'. contradiction.
    - destruct (eqb k a) eqn:E; [apply EQB in E; subst a; contradiction|].
      change (fold_right (fun x acc => f x * (if eqb k x then 1 else 0) + acc) 0 l) with (sum_over l (fun x => f x * (if eqb k x then 1 else 0))).
      rewrite IH by assumption. ring.
  Qed.

  Context {I : Type} (ks : list K) (N : NoDup ks).
  Lemma contract_sum (g : I * K -> R) c i : contract ks g c i = sum_over ks (fun k => g (i, k) * c k).
  Proof. reflexivity. Qed.
  Lemma contract_unit (g : I * K -> R) k i : In k ks -> contract ks g (unit_control eqb k) i = g (i, k).
  Proof. intros H. rewrite contract_sum. apply (sum_over_pick ks k (fun k => g (i, k))); assumption. Qed.

  Lemma contract_directional (g : (I -> R) -> I * K -> R) y v d c :
    directional g y v d -> directional (fun z => contract ks (g z) c) y v (contract ks d c).
  Proof.
    intros H cu Ec Hc i. clear N. unfold contract. induction ks as [|k l IH]; cbn [fold_right].
    - apply is_derive_Reals. apply (is_derive_const (K := R_AbsRing) (V := R_NormedModule)).
    - apply (derivable_pt_lim_plus (fun s => g (cu s) (i, k) * c k)); [|exact IH].
      apply is_derive_Reals. pose proof (H cu Ec Hc (i, k)) as Q. apply is_derive_Reals in Q.
      apply (is_derive_ext (fun s => c k * g (cu s) (i, k))); [intros; apply Rmult_comm|].
      rewrite (Rmult_comm (d (i, k))). exact (is_derive_scal (fun s => g (cu s) (i, k)) 0 (c k) (d (i, k)) Q).
  Qed.
  Lemma linear_sum (D : (I -> R) -> I * K -> R) (col : K -> I -> R) (c : K -> R) (l : list K) p :
    (forall a b v w p, D (fun i => a * v i + b * w i) p = a * D v p + b * D w p) ->
    D (fun i => sum_over l (fun k => col k i * c k)) p = sum_over l (fun k => D (col k) p * c k).
  Proof.
    intros LD. induction l as [|k l IH].
    - cbn. pose proof (LD 0 0 (fun _ => 0) (fun _ => 0) p) as Q.
      transitivity (D (fun _ => 0 * 0 + 0 * 0) p); [f_equal; extensionality i; ring|]. rewrite Q. ring.
    - change (D (fun i => col k i * c k + sum_over l (fun k => col k i * c k)) p = D (col k) p * c k + sum_over l (fun k => D (col k) p * c k)).
      rewrite <- IH. pose proof (LD (c k) 1 (col k) (fun i => sum_over l (fun k => col k i * c k)) p) as Q.
      transitivity (D (fun i => c k * col k i + 1 * sum_over l (fun k => col k i * c k)) p); [f_equal; extensionality i; ring|].
      rewrite Q. ring.
  Qed.
End Milstein.

Lemma pf_C54_ito_stratonovich (I K : Type) (eqb : K -> K -> bool) (ks : list K) (f : R -> (I -> R) -> I -> R)
      (g : R -> (I -> R) -> I * K -> R) (Dg : R -> (I -> R) -> (I -> R) -> I * K -> R) (path : R -> R -> K -> R)
      (jvp : ((I -> R) -> I -> R) -> (I -> R) -> (I -> R) -> I -> R)
      (jvp' : ((I -> R) -> I * K -> R) -> (I -> R) -> (I -> R) -> I * K -> R) (t0 t1 : R) (y0 : I -> R) (jump : bool) :
  (forall a b, eqb a b = true <-> a = b) -> NoDup ks ->
  (forall t y v, directional (g t) y v (Dg t y v)) ->
  (forall t y a b v w p, Dg t y (fun i => a * v i + b * w i) p = a * Dg t y v p + b * Dg t y w p) ->
  correct_jvp jvp -> correct_jvp jvp' ->
  let column t y k := fun i => g t y (i, k) in
  let corrected t y := fun i => f t y i - 1 / 2 * sum_over ks (fun k => Dg t y (column t y k) (i, k)) in
  forall x, so_y (me_step (ito_milstein eqb ks jvp' (ode_term f) (control_term ks g path)) t0 t1 y0 tt jump) x
          = so_y (me_step (stratonovich_milstein jvp (ode_term corrected) (control_term ks g path)) t0 t1 y0 tt jump) x.
Proof.
  intros EQB N HD LD JV JV'. cbv zeta. intros x.
  unfold ito_milstein, stratonovich_milstein. cbn [me_step so_y]. unfold vadd, vscale.
  cbn [t_vf t_prod t_contr t_vf_prod ode_term control_term with_default_vf_prod].
  set (dw := path t0 t1). set (dt := t1 - t0).
  erewrite JV; [|apply (contract_directional ks (g t0)); apply HD].
  assert (S1 : sum_over ks (fun k1 => sum_over ks (fun k2 =>
                 contract ks (jvp' (fun y => g t0 y) y0 (contract ks (g t0 y0) (unit_control eqb k1))) (unit_control eqb k2) x
                 * (dw k1 * dw k2 - (if eqb k1 k2 then dt else 0))))
             = sum_over ks (fun k1 => sum_over ks (fun k2 => Dg t0 y0 (fun i => g t0 y0 (i, k1)) (x, k2) * dw k1 * dw k2))
               - dt * sum_over ks (fun k => Dg t0 y0 (fun i => g t0 y0 (i, k)) (x, k))).
  { transitivity (sum_over ks (fun k1 => sum_over ks (fun k2 => Dg t0 y0 (fun i => g t0 y0 (i, k1)) (x, k2) * dw k1 * dw k2)
                                         + - dt * Dg t0 y0 (fun i => g t0 y0 (i, k1)) (x, k1))).
    - apply sum_over_ext. intros k1 H1.
      replace (contract ks (g t0 y0) (unit_control eqb k1)) with (fun i => g t0 y0 (i, k1))
        by (extensionality i; symmetry; apply contract_unit; assumption).
      rewrite (JV' (fun y => g t0 y) y0 _ _ (HD t0 y0 _)).
      set (G := Dg t0 y0 (fun i => g t0 y0 (i, k1))).
      transitivity (sum_over ks (fun k2 => G (x, k2) * dw k1 * dw k2 + - dt * (G (x, k2) * (if eqb k1 k2 then 1 else 0)))).
      + apply sum_over_ext. intros k2 H2. rewrite contract_unit by assumption. destruct (eqb k1 k2); ring.
      + rewrite sum_over_plus, sum_over_scal. rewrite (sum_over_pick eqb EQB ks k1 (fun k => G (x, k)) N H1). reflexivity.
    - rewrite sum_over_plus, sum_over_scal. ring. }
  rewrite S1.
  assert (S2 : contract ks (Dg t0 y0 (contract ks (g t0 y0) dw)) dw x
             = sum_over ks (fun k1 => sum_over ks (fun k2 => Dg t0 y0 (fun i => g t0 y0 (i, k1)) (x, k2) * dw k1 * dw k2))).
  { rewrite contract_sum, sum_over_swap. apply sum_over_ext. intros k2 _.
    pose proof (linear_sum (Dg t0 y0) (fun k i => g t0 y0 (i, k)) dw ks (x, k2) (LD t0 y0)) as Q.
    change (contract ks (g t0 y0) dw) with (fun i : I => sum_over ks (fun k => g t0 y0 (i, k) * dw k)). rewrite Q.
    rewrite Rmult_comm, <- sum_over_scal. apply sum_over_ext. intros k1 _. ring. }
  rewrite S2. field.
Qed.
