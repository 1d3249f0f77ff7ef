(** Stochastic Runge--Kutta and Milstein methods on linear equations with known solutions. *)
From Coq Require Import Reals List Bool Arith Lia Lra Psatz FunctionalExtensionality.
From Coquelicot Require Import Coquelicot.
From Verif Require Import Model_Result Model_Loop Model_RK Model_Terms Model_Solvers Model_SRK Spec_SRK Proof_RKStep.
From Verif Require Import Model_Brownian Ex_Levy.
Import ListNotations.
Open Scope R_scope.

(** The exponential and its Taylor polynomials *)
Fixpoint taylor (k : nat) (z : R) : R := match k with O => 0 | S k => taylor k z + z ^ k / INR (fact k) end.
Lemma taylor_0 k : taylor (S k) 0 = 1.
Proof.
  induction k; [cbn; field|]. cbn [taylor] in *. rewrite IHk. rewrite pow_i by lia. unfold Rdiv. ring.
Qed.
Lemma taylor_derive k z : is_derive (taylor (S k)) z (taylor k z).
Proof.
  induction k.
  - apply (is_derive_ext (fun _ => 1)); [intros; cbn; field|]. cbn [taylor]. apply (is_derive_const (K := R_AbsRing) (V := R_NormedModule)).
  - cbn [taylor] in *.
    apply (is_derive_plus (K := R_AbsRing) (V := R_NormedModule) (fun z => taylor k z + z ^ k / INR (fact k)) (fun z => z ^ S k / INR (fact (S k)))).
    { exact IHk. }
    auto_derive; [auto|]. change (match k with 0%nat => 1 | S _ => INR k + 1 end) with (INR (S k)).
    change (fact k + k * fact k)%nat with (S k * fact k)%nat. rewrite mult_INR.
    assert (INR (fact k) <> 0) by apply INR_fact_neq_0. assert (INR (S k) <> 0) by (apply not_0_INR; lia).
    field. split; assumption.
Qed.
Lemma exp_taylor (B : R) (k : nat) : forall z, Rabs z <= B -> Rabs (exp z - taylor k z) <= exp B * Rabs z ^ k.
Proof.
  induction k; intros z Hz.
  - cbn [taylor pow]. rewrite Rminus_0_r, Rmult_1_r, Rabs_pos_eq by (left; apply exp_pos).
    assert (z <= B) by (pose proof (Rle_abs z); lra).
    destruct (Req_dec z B) as [->|]; [lra|]. left. apply exp_increasing. lra.
  - destruct (MVT_gen (fun z => exp z - taylor (S k) z) 0 z (fun z => exp z - taylor k z)) as (c & Hc & E).
    + intros x _. apply (is_derive_minus (K := R_AbsRing) (V := R_NormedModule)); [apply is_derive_exp|apply taylor_derive].
    + intros x _. apply derivable_continuous_pt. exists (exp x - taylor k x).
      apply is_derive_Reals. apply (is_derive_minus (K := R_AbsRing) (V := R_NormedModule)); [apply is_derive_exp|apply taylor_derive].
    + rewrite exp_0, taylor_0 in E. replace (exp z - taylor (S k) z) with ((exp c - taylor k c) * (z - 0)) by lra.
      assert (Rabs c <= Rabs z).
      { unfold Rmin, Rmax in Hc. destruct (Rle_dec 0 z); unfold Rabs; destruct (Rcase_abs c), (Rcase_abs z); lra. }
      rewrite Rabs_mult, Rminus_0_r. cbn [pow].
      replace (exp B * (Rabs z * Rabs z ^ k)) with (exp B * Rabs z ^ k * Rabs z) by ring.
      apply Rmult_le_compat_r; [apply Rabs_pos|].
      eapply Rle_trans; [apply IHk; lra|]. apply Rmult_le_compat_l; [left; apply exp_pos|].
      apply pow_incr. split; [apply Rabs_pos|assumption].
Qed.

(** Sums of monomials in [x] (of weight 2), [u] and [v] (of weight 1) *)
Definition monomial := (R * (nat * nat * nat))%type.
Definition mono_val (x u v : R) (m : monomial) : R := let '(c, (i, j, k)) := m in c * (x ^ i * u ^ j * v ^ k).
Definition weight (m : monomial) : nat := let '(c, (i, j, k)) := m in (2 * i + j + k)%nat.
Fixpoint poly_val (x u v : R) (l : list monomial) : R := match l with [] => 0 | m :: l => mono_val x u v m + poly_val x u v l end.
Fixpoint poly_norm (l : list monomial) : R := match l with [] => 0 | (c, (i, j, k)) :: l => Rabs c * (2 ^ i * 2 ^ k) + poly_norm l end.
Lemma poly_bound w l x u v rho : 0 <= rho <= 1 -> Rabs x <= 2 * rho ^ 2 -> Rabs u <= rho -> Rabs v <= 2 * rho ->
  forallb (fun m => Nat.leb w (weight m)) l = true -> Rabs (poly_val x u v l) <= poly_norm l * rho ^ w.
Proof.
  intros Hr Hx Hu Hv. induction l as [|[c [[i j] k]] l IH]; intros Hw; cbn [poly_val poly_norm forallb] in *.
  - rewrite Rabs_R0. lra.
  - apply andb_true_iff in Hw as [H1 H2]. apply Nat.leb_le in H1. cbn [weight] in H1.
    eapply Rle_trans; [apply Rabs_triang|]. rewrite Rmult_plus_distr_r. apply Rplus_le_compat; [|apply IH; exact H2].
    cbn [mono_val]. rewrite !Rabs_mult, <- !RPow_abs. rewrite (Rmult_assoc (Rabs c) (2 ^ i * 2 ^ k)). apply Rmult_le_compat_l; [apply Rabs_pos|].
    assert (Px := Rabs_pos x). assert (Pu := Rabs_pos u). assert (Pv := Rabs_pos v).
    apply Rle_trans with (2 ^ i * 2 ^ k * rho ^ (2 * i + j + k)).
    + replace (2 ^ i * 2 ^ k * rho ^ (2 * i + j + k)) with ((2 * rho ^ 2) ^ i * rho ^ j * (2 * rho) ^ k)
        by (rewrite !Rpow_mult_distr, !pow_add, pow_mult; ring).
      apply Rmult_le_compat.
      * apply Rmult_le_pos; apply pow_le; assumption.
      * apply pow_le; assumption.
      * apply Rmult_le_compat; try (apply pow_le; assumption); apply pow_incr; split; assumption.
      * apply pow_incr; split; assumption.
    + apply Rmult_le_compat_l; [apply Rmult_le_pos; apply pow_le; lra|].
      replace (2 * i + j + k)%nat with (w + (2 * i + j + k - w))%nat by lia. rewrite pow_add.
      rewrite <- (Rmult_1_r (rho ^ w)) at 2. apply Rmult_le_compat_l; [apply pow_le; lra|].
      rewrite <- (pow1 (2 * i + j + k - w)). apply pow_incr. lra.
Qed.

(** A method that multiplies by a polynomial agreeing with the exponential to the given weight *)
Lemma test_bound (w : nat) (l : list monomial) : forallb (fun m => Nat.leb w (weight m)) l = true ->
  exists C, forall x u v rho y0 y1, 0 <= rho <= 1 -> Rabs x <= 2 * rho ^ 2 -> Rabs u <= rho -> Rabs v <= 2 * rho ->
    y1 = y0 * (taylor w (x + u) + poly_val x u v l) ->
    Rabs (y1 - y0 * exp (x + u)) <= C * rho ^ w * Rabs y0.
Proof.
  intros Hw. exists (exp 3 * 3 ^ w + poly_norm l). intros x u v rho y0 y1 Hr Hx Hu Hv ->.
  replace (y0 * (taylor w (x + u) + poly_val x u v l) - y0 * exp (x + u))
    with ((poly_val x u v l - (exp (x + u) - taylor w (x + u))) * y0) by ring.
  rewrite Rabs_mult. apply Rmult_le_compat_r; [apply Rabs_pos|].
  eapply Rle_trans; [apply Rabs_triang|]. rewrite Rabs_Ropp.
  assert (Z : Rabs (x + u) <= 3 * rho).
  { eapply Rle_trans; [apply Rabs_triang|]. assert (rho ^ 2 <= rho) by nra. lra. }
  pose proof (poly_bound w l x u v rho Hr Hx Hu Hv Hw) as P.
  assert (E : Rabs (exp (x + u) - taylor w (x + u)) <= exp 3 * 3 ^ w * rho ^ w).
  { eapply Rle_trans; [apply (exp_taylor 3); lra|]. rewrite Rmult_assoc, <- Rpow_mult_distr.
    apply Rmult_le_compat_l; [left; apply exp_pos|]. apply pow_incr. split; [apply Rabs_pos|exact Z]. }
  lra.
Qed.

Definition spark_rest : list monomial :=
  [(-1 * sqrt 3, (0, 1, 2)%nat); (-1 + 1 / 2 * sqrt 3, (0, 2, 1)%nat); (1 / 4 + -1 / 12 * sqrt 3, (0, 3, 0)%nat); (-1 * sqrt 3, (1, 0, 2)%nat); (-2 + 1 * sqrt 3, (1, 1, 1)%nat); (3 / 4 + -1 / 4 * sqrt 3, (1, 2, 0)%nat); (-1 + 1 / 2 * sqrt 3, (2, 0, 1)%nat); (3 / 4 + -1 / 4 * sqrt 3, (2, 1, 0)%nat); (1 / 4 + -1 / 12 * sqrt 3, (3, 0, 0)%nat)].
Definition general_shark_rest : list monomial :=
  [(-1, (0, 1, 2)%nat); (1 / 2, (0, 2, 1)%nat); (-1, (1, 0, 2)%nat); (1, (1, 1, 1)%nat); (1 / 2, (2, 0, 1)%nat)].
Definition slowrk_rest : list monomial :=
  [(1 / 24, (0, 4, 0)%nat); (1 / 2, (1, 1, 1)%nat); (1 / 4, (1, 2, 1)%nat); (5 / 24, (1, 3, 0)%nat); (1 / 48, (1, 4, 0)%nat); (1 / 2, (2, 0, 1)%nat); (-1 / 4, (2, 1, 0)%nat); (1 / 4, (2, 1, 1)%nat); (1 / 8, (2, 2, 0)%nat); (1 / 8, (2, 2, 1)%nat); (1 / 16, (2, 3, 0)%nat); (-1 / 6, (3, 0, 0)%nat)].

Definition gbm_step (tab : stableau) (lambda sigma : R) (W H K t0 t1 y0 : R) (jump : bool) : R :=
  so_y (me_step (srk tab (scalar_drift (fun _ y => lambda * y)) (scalar_diffusion (fun _ y => sigma * y) (fun _ _ => W)) (scalar_levy W H K))
          t0 t1 (scalar y0) tt jump) tt.

Ltac step_simpl :=
  cbv -[Rplus Rmult Rminus Rdiv Ropp Rinv IZR sqrt].
Lemma spark_gbm lambda sigma W H K t0 t1 y0 jump :
  gbm_step spark lambda sigma W H K t0 t1 y0 jump
  = y0 * (taylor 3 (lambda * (t1 - t0) + sigma * W) + poly_val (lambda * (t1 - t0)) (sigma * W) (sigma * H) spark_rest).
Proof.
  assert (S3 : sqrt 3 * sqrt 3 = 3) by (apply sqrt_sqrt; lra).
  unfold gbm_step. step_simpl. set (s := sqrt 3) in *. field [S3].
Qed.
Lemma general_shark_gbm lambda sigma W H K t0 t1 y0 jump :
  gbm_step general_shark lambda sigma W H K t0 t1 y0 jump
  = y0 * (taylor 3 (lambda * (t1 - t0) + sigma * W) + poly_val (lambda * (t1 - t0)) (sigma * W) (sigma * H) general_shark_rest).
Proof. unfold gbm_step. step_simpl. field. Qed.
Lemma slowrk_gbm lambda sigma W H K t0 t1 y0 jump :
  gbm_step slowrk lambda sigma W H K t0 t1 y0 jump
  = y0 * (taylor 4 (lambda * (t1 - t0) + sigma * W) + poly_val (lambda * (t1 - t0)) (sigma * W) (sigma * H) slowrk_rest).
Proof. unfold gbm_step. step_simpl. field. Qed.

Lemma pf_C54_multiplicative_noise (tab : stableau) (w : nat) : In (tab, w) [(spark, 3%nat); (general_shark, 3%nat); (slowrk, 4%nat)] ->
  exists C, forall lambda sigma W H K t0 t1 y0 rho jump,
    0 <= rho <= 1 -> Rabs (lambda * (t1 - t0)) <= rho ^ 2 -> Rabs (sigma * W) <= rho -> Rabs (sigma * H) <= rho ->
    let drift := scalar_drift (fun _ y => lambda * y) in
    let diffusion := scalar_diffusion (fun _ y => sigma * y) (fun _ _ => W) in
    let out := me_step (srk tab drift diffusion (scalar_levy W H K)) t0 t1 (scalar y0) tt jump in
    Rabs (so_y out tt - y0 * exp (lambda * (t1 - t0) + sigma * W)) <= C * rho ^ w * Rabs y0.
Proof.
  intros [E|[E|[E|[]]]]; injection E as <- <-.
  - destruct (test_bound 3 spark_rest eq_refl) as [C HC]. exists C. intros. cbv zeta.
    refine (HC _ _ (sigma * H) rho y0 _ H0 _ H2 _ (spark_gbm lambda sigma W H K t0 t1 y0 jump)); [pose proof (pow2_ge_0 rho)|]; lra.
  - destruct (test_bound 3 general_shark_rest eq_refl) as [C HC]. exists C. intros. cbv zeta.
    refine (HC _ _ (sigma * H) rho y0 _ H0 _ H2 _ (general_shark_gbm lambda sigma W H K t0 t1 y0 jump)); [pose proof (pow2_ge_0 rho)|]; lra.
  - destruct (test_bound 4 slowrk_rest eq_refl) as [C HC]. exists C. intros. cbv zeta.
    refine (HC _ _ (sigma * H) rho y0 _ H0 _ H2 _ (slowrk_gbm lambda sigma W H K t0 t1 y0 jump)); [pose proof (pow2_ge_0 rho)|]; lra.
Qed.

(** The Milstein methods and Euler--Heun *)
Lemma linear_directional (a b : R) (y v : unit -> R) :
  directional (fun z (_ : unit) => a * z tt * b + 0) y v (fun _ => a * v tt * b).
Proof.
  intros c Ec Hc j. specialize (Hc tt). apply is_derive_Reals. apply is_derive_Reals in Hc.
  apply (is_derive_ext (fun s => scal (a * b) (c s tt))).
  { intros s. unfold scal. cbn. unfold mult. cbn. ring. }
  replace (a * v tt * b) with (scal (a * b) (v tt)) by (unfold scal; cbn; unfold mult; cbn; ring).
  exact (is_derive_scal (fun s => c s tt) 0 (a * b) (v tt) Hc).
Qed.
Lemma linear_directional' (a : R) (J : Type) (y v : unit -> R) :
  directional (fun z (_ : J) => a * z tt) y v (fun _ => a * v tt).
Proof.
  intros c Ec Hc j. specialize (Hc tt). apply is_derive_Reals. apply is_derive_Reals in Hc.
  exact (is_derive_scal (fun s => c s tt) 0 a (v tt) Hc).
Qed.

Lemma pf_C54_milstein (jvp : ((unit -> R) -> unit -> R) -> (unit -> R) -> (unit -> R) -> unit -> R)
      (jvp' : ((unit -> R) -> unit * unit -> R) -> (unit -> R) -> (unit -> R) -> unit * unit -> R) :
  correct_jvp jvp -> correct_jvp jvp' ->
  exists C, forall lambda sigma W t0 t1 y0 rho jump,
    0 <= rho <= 1 -> Rabs (lambda * (t1 - t0)) <= rho ^ 2 -> Rabs (sigma * W) <= rho ->
    let drift := scalar_drift (fun _ y => lambda * y) in
    let diffusion := scalar_diffusion (fun _ y => sigma * y) (fun _ _ => W) in
    let euler := so_y (me_step (euler_heun drift diffusion) t0 t1 (scalar y0) tt jump) tt in
    let strat := so_y (me_step (stratonovich_milstein jvp drift diffusion) t0 t1 (scalar y0) tt jump) tt in
    let ito := so_y (me_step (ito_milstein (fun _ _ => true) [tt] jvp' drift diffusion) t0 t1 (scalar y0) tt jump) tt in
    Rabs (euler - y0 * exp (lambda * (t1 - t0) + sigma * W)) <= C * rho ^ 3 * Rabs y0 /\
    Rabs (strat - y0 * exp (lambda * (t1 - t0) + sigma * W)) <= C * rho ^ 3 * Rabs y0 /\
    (sigma ^ 2 * Rabs (t1 - t0) <= rho ^ 2 ->
     Rabs (ito - y0 * exp ((lambda - sigma ^ 2 / 2) * (t1 - t0) + sigma * W)) <= C * rho ^ 3 * Rabs y0).
Proof.
  intros JV JV'.
  set (l := [(-1 / 2, (2, 0, 0)%nat); (-1, (1, 1, 0)%nat)]).
  destruct (test_bound 3 l eq_refl) as [C HC]. exists C. intros lambda sigma W t0 t1 y0 rho jump Hr Hx Hu. cbv zeta.
  assert (Z : Rabs 0 <= 2 * rho) by (rewrite Rabs_R0; lra).
  assert (Hx2 : Rabs (lambda * (t1 - t0)) <= 2 * rho ^ 2) by (pose proof (pow2_ge_0 rho); lra).
  split; [|split].
  - apply (HC _ _ 0); try assumption. step_simpl. field.
  - apply (HC _ _ 0); try assumption.
    unfold stratonovich_milstein. cbn [me_step so_y]. unfold vadd, vscale.
    erewrite JV; [|apply (linear_directional sigma W)]. step_simpl. field.
  - intros Hs. apply (HC _ _ 0); try assumption.
    + replace ((lambda - sigma ^ 2 / 2) * (t1 - t0)) with (lambda * (t1 - t0) - sigma ^ 2 / 2 * (t1 - t0)) by ring.
      eapply Rle_trans; [apply Rabs_triang|]. rewrite Rabs_Ropp, (Rabs_mult (sigma ^ 2 / 2)), (Rabs_pos_eq (sigma ^ 2 / 2)) by (pose proof (pow2_ge_0 sigma); lra).
      pose proof (pow2_ge_0 rho). lra.
    + unfold ito_milstein. cbn [me_step so_y]. unfold vadd, vscale. cbn [sum_over fold_right].
      erewrite JV'; [|apply (linear_directional' sigma (unit * unit))]. step_simpl. field.
Qed.
