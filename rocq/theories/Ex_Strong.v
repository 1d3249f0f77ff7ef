(** Examples for the theorems about strong convergence: two tosses of a coin, at the times 1 and 2, and the equation
    [dy = y dW]. *)
From Coq Require Import ZArith Reals List Bool Lra Lia.
From Verif Require Import Model_Result Model_Loop Model_RK Model_Terms Model_Solvers Spec_Loop Spec_Solvers Spec_Strong Spec_StrongEuler Ex_Loop.
Import ListNotations.
Open Scope R_scope.

Definition coins : Type := bool * bool.
Definition sgn (b : bool) : R := if b then 1 else -1.
Definition walk (w : coins) (t : R) (_ : unit) : R :=
  if Rlt_dec t 1 then 0 else if Rlt_dec t 2 then sgn (fst w) else sgn (fst w) + sgn (snd w).
Definition coin_times (t : R) : Prop := t = 0 \/ t = 1 \/ t = 2.
Definition coin_space : space coins := Space (fun _ => True)
  (fun F => (F (true, true) + F (true, false) + F (false, true) + F (false, false)) / 4)
  (fun t F => (t < 1 -> forall w w', F w = F w') /\ (t < 2 -> forall a b b', F (a, b) = F (a, b'))).

Lemma coin_probability : probability coin_space.
Proof.
  constructor; cbn [integrable mean known coin_space].
  - auto.
  - auto.
  - intros a b f g _ _. field.
  - intros f g _ _ H. pose proof (H (true, true)). pose proof (H (true, false)). pose proof (H (false, true)). pose proof (H (false, false)). lra.
  - field.
  - intros t f g [H1 H2] E. split; intros Ht; [intros w w'|intros a b b']; rewrite <- !E; auto.
  - intros t c. split; auto.
  - intros t a b f g [F1 F2] [G1 G2]. split; intros Ht; [intros w w'; now rewrite (F1 Ht w w'), (G1 Ht w w')|].
    intros c d d'. now rewrite (F2 Ht c d d'), (G2 Ht c d d').
  - intros s t f Hst [H1 H2]. split; intros Ht; [apply H1|apply H2]; lra.
  - intros t A l X phi L HX Hphi.
    assert (same : forall x y, (forall a, In a l -> x a = y a) -> phi x = phi y).
    { intros x y E. assert (Z : total l (fun a => (x a - y a) ^ 2) = 0).
      { clear - E. induction l as [|a l IH]; [reflexivity|]. unfold total in *. cbn [fold_right]. rewrite IH by (intros; apply E; now right).
        rewrite (E a) by now left. ring. }
      pose proof (Hphi x y) as H. rewrite Z, Rmult_0_r in H. assert (H' : (phi x - phi y) * (phi x - phi y) <= 0) by lra.
      pose proof (Rle_0_sqr (phi x - phi y)) as H0. unfold Rsqr in H0.
      assert (H1 : (phi x - phi y) * (phi x - phi y) = 0) by lra. apply Rmult_integral in H1. lra. }
    split; intros Ht; [intros w w'|intros a b b']; apply same; intros c Hc; destruct (HX c Hc) as [H1 H2]; auto.
  - auto.
Qed.
Lemma walk0 w k : walk w 0 k = 0.
Proof. unfold walk. destruct (Rlt_dec 0 1); [reflexivity|lra]. Qed.
Lemma walk1 w k : walk w 1 k = sgn (fst w).
Proof. unfold walk. destruct (Rlt_dec 1 1); [lra|]. destruct (Rlt_dec 1 2); [reflexivity|lra]. Qed.
Lemma walk2 w k : walk w 2 k = sgn (fst w) + sgn (snd w).
Proof. unfold walk. destruct (Rlt_dec 2 1); [lra|]. destruct (Rlt_dec 2 2); [lra|reflexivity]. Qed.

Lemma coin_pairs s t : coin_times s -> coin_times t -> s < t -> (s = 0 /\ t = 1) \/ (s = 0 /\ t = 2) \/ (s = 1 /\ t = 2).
Proof. intros [ -> | [ -> | -> ]] [ -> | [ -> | -> ]] H; try lra; auto. Qed.
Lemma coin_brownian : brownian coin_space [tt] coin_times walk.
Proof.
  constructor; cbn.
  - intros s t k f Ts Tt Hst _ [F1 F2]. destruct (coin_pairs s t Ts Tt Hst) as [[ -> -> ]|[[ -> -> ]|[ -> -> ]]].
    + split; [intros; lra|]. intros _ a b b'. rewrite !walk0, !walk1. cbn. now rewrite (F1 ltac:(lra) (a, b) (a, b')).
    + split; intros; lra.
    + split; intros; lra.
  - intros s t k f g Ts Tt Hst _ [F1 F2] [G1 G2]. destruct (coin_pairs s t Ts Tt Hst) as [[ -> -> ]|[[ -> -> ]|[ -> -> ]]]; rewrite ?walk0, ?walk1, ?walk2; cbn.
    + rewrite !(F1 ltac:(lra) (true, _) (false, false)), !(G1 ltac:(lra) (true, _) (false, false)), !(F1 ltac:(lra) (false, true) (false, false)), !(G1 ltac:(lra) (false, true) (false, false)). field.
    + rewrite !(F1 ltac:(lra) (true, _) (false, false)), !(G1 ltac:(lra) (true, _) (false, false)), !(F1 ltac:(lra) (false, true) (false, false)), !(G1 ltac:(lra) (false, true) (false, false)). field.
    + rewrite !(F2 ltac:(lra) _ true false), !(G2 ltac:(lra) _ true false). field.
  - intros s t k f g Ts Tt Hst _ [F1 F2] [G1 G2]. destruct (coin_pairs s t Ts Tt Hst) as [[ -> -> ]|[[ -> -> ]|[ -> -> ]]]; rewrite ?walk0, ?walk1, ?walk2; cbn.
    + rewrite !(F1 ltac:(lra) (true, _) (false, false)), !(G1 ltac:(lra) (true, _) (false, false)), !(F1 ltac:(lra) (false, true) (false, false)), !(G1 ltac:(lra) (false, true) (false, false)). field.
    + rewrite !(F1 ltac:(lra) (true, _) (false, false)), !(G1 ltac:(lra) (true, _) (false, false)), !(F1 ltac:(lra) (false, true) (false, false)), !(G1 ltac:(lra) (false, true) (false, false)). field.
    + rewrite !(F2 ltac:(lra) _ true false), !(G2 ltac:(lra) _ true false). field.
  - intros s t [] [] f g _ _ _ _ _ H. now destruct H.
Qed.

(** [dy = y dW] *)
Definition gbm_f (t : R) (y : unit -> R) : unit -> R := fun _ => 0.
Definition gbm_g (t : R) (y : unit -> R) : unit * unit -> R := fun p => y (fst p).
Lemma gbm_lipschitz t0 t1 : ito_lipschitz [tt] [tt] t0 t1 1 gbm_f gbm_g.
Proof.
  intros s t x y _ _. cbn. unfold gbm_f, gbm_g. pose proof (Rabs_pos (t - s)). cbn. lra.
Qed.
(** The product of [1 + dW] over the tosses made *)
Definition gbm_x (t : R) (w : coins) (_ : unit) : R :=
  if Rlt_dec t 1 then 1 else if Rlt_dec t 2 then 1 + sgn (fst w) else (1 + sgn (fst w)) * (1 + sgn (snd w)).
Lemma gbm_x0 w k : gbm_x 0 w k = 1.
Proof. unfold gbm_x. destruct (Rlt_dec 0 1); [reflexivity|lra]. Qed.
Lemma gbm_x1 w k : gbm_x 1 w k = 1 + sgn (fst w).
Proof. unfold gbm_x. destruct (Rlt_dec 1 1); [lra|]. destruct (Rlt_dec 1 2); [reflexivity|lra]. Qed.
Lemma gbm_x2 w k : gbm_x 2 w k = (1 + sgn (fst w)) * (1 + sgn (snd w)).
Proof. unfold gbm_x. destruct (Rlt_dec 2 1); [lra|]. destruct (Rlt_dec 2 2); [lra|reflexivity]. Qed.
Lemma gbm_solution : ito_solution coin_space [tt] [tt] coin_times gbm_f gbm_g walk gbm_x 1.
Proof.
  split.
  - intros t Tt [] _. destruct Tt as [ -> | [ -> | -> ]]; cbn; split; intros Ht; try lra.
    + intros w w'. now rewrite !gbm_x0.
    + intros a b b'. now rewrite !gbm_x0.
    + intros a b b'. now rewrite !gbm_x1.
  - intros s t Ts Tt Hst. unfold mean_square, ito_rest, gbm_f, gbm_g.
    destruct (coin_pairs s t Ts Tt Hst) as [[ -> -> ]|[[ -> -> ]|[ -> -> ]]]; cbn [total fold_right mean coin_space];
      (split; [|intros phi Hphi; destruct (Hphi tt (or_introl eq_refl)) as [P1 P2]]); rewrite ?walk0, ?walk1, ?walk2, ?gbm_x0, ?gbm_x1, ?gbm_x2; cbn [fst snd sgn].
    + lra.
    + match goal with |- ?a <= ?b => assert (Ea : a = 0) by field; rewrite Ea end.
      repeat apply Rmult_le_pos; try lra; try (apply pow_le; lra).
      pose proof (pow2_ge_0 (phi (true, true) tt)). pose proof (pow2_ge_0 (phi (true, false) tt)).
      pose proof (pow2_ge_0 (phi (false, true) tt)). pose proof (pow2_ge_0 (phi (false, false) tt)). lra.
    + lra.
    + rewrite !(P1 ltac:(lra) (true, _) (false, false)), !(P1 ltac:(lra) (false, true) (false, false)).
      match goal with |- ?a <= ?b => assert (Ea : a = 0) by field; rewrite Ea end.
      repeat apply Rmult_le_pos; try lra; try (apply pow_le; lra).
      pose proof (pow2_ge_0 (phi (false, false) tt)). lra.
    + lra.
    + match goal with |- ?a <= ?b => assert (Ea : a = 0) by field; rewrite Ea end.
      repeat apply Rmult_le_pos; try lra; try (apply pow_le; lra).
      pose proof (pow2_ge_0 (phi (true, true) tt)). pose proof (pow2_ge_0 (phi (true, false) tt)).
      pose proof (pow2_ge_0 (phi (false, true) tt)). pose proof (pow2_ge_0 (phi (false, false) tt)). lra.
Qed.

(** [Euler] in the loop, with constant steps of 500 time units, one of which is [1/500] *)
Definition coin_time (t : Z) : R := IZR t / 500.
Definition coin_adapt (a b : Z) (y y1 : unit -> R) (e : option (unit -> R)) (n : nat) : adapt_out nat :=
  AdaptOut true b (b + 500) false (S n) successful.
Definition coin_cfg (w : coins) : config (unit -> R) unit nat ((unit -> R) * (unit -> R)) (option (unit -> R)) (unit -> R) unit :=
  Config (fun tprev tnext => me_step (euler (sde_term [tt] gbm_f gbm_g (walk w))) (coin_time tprev) (coin_time tnext)) (fun e => e)
    (fun a b d t => fst d) coin_adapt None (fun a b => (a + b) / 2)%Z (fun m _ => m)
    [SubSaveAt false true None 0 (fun _ y => y)] false None 0 1000 (Some 20%nat).
Definition coin_initial (w : coins) : initial (unit -> R) unit nat unit := Initial (gbm_x 0 w) 500%Z false tt 0%nat tt PInf.
Lemma coin_run w : exists h o, euler_run (coin_cfg w) (coin_initial w) h o [tt] gbm_f gbm_g (walk w) coin_time 0 [1; 2] (gbm_x 0 w).
Proof.
  assert (X : exists h o, solve_run (coin_cfg w) (coin_initial w) h o /\
    map (fun a => (at_from a, at_to a, at_end a, at_keep a)) h = [(0, 500, 500, true); (500, 1000, 1000, true)]%Z /\
    out_result o = successful).
  { apply runs. vm_compute. auto. }
  destruct X as (h & o & RUN & E & OK). exists h, o.
  destruct h as [|a [|b [|]]]; try discriminate E. cbn in E. injection E as A1 A2 A3 A4 B1 B2 B3 B4.
  split; [exact RUN|]. split; [exact OK|]. split; [reflexivity|].
  split; [repeat constructor; cbn; congruence|]. split; [repeat constructor; cbn; congruence|].
  split; [reflexivity|]. split; [cbn; lia|].
  split; [split; intros; cbn; split; discriminate|]. split; [intros e rf fn lo hi st r H; discriminate H|].
  split; [unfold coin_time; cbn; lra|]. split; [reflexivity|].
  unfold accepted. cbn [filter]. rewrite A4, B4. cbn [map]. rewrite A2, B2. unfold coin_time. repeat f_equal; lra.
Qed.
