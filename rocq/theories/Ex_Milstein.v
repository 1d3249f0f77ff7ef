(** Examples for the theorems about strong order one, on two tosses of a coin. *)
From Coq Require Import ZArith Reals List Bool Lra Lia FunctionalExtensionality.
From Verif Require Import Model_Result Model_Loop Model_RK Model_Terms Model_Solvers Model_SRK Spec_Loop Spec_Solvers Spec_SRK Spec_Strong Spec_StrongEuler
  Spec_Milstein Ex_Loop Ex_Strong Ex_SRK.
Import ListNotations.
Open Scope R_scope.

Lemma coin_moments : fourth_moments coin_space [tt] coin_times walk.
Proof.
  intros s t k l f Ts Tt Hst _ _ [F1 F2]. cbn [known mean coin_space].
  destruct (coin_pairs s t Ts Tt Hst) as [[ -> -> ]|[[ -> -> ]|[ -> -> ]]]; split.
  - split; [intros; lra|]. intros _ a b b'. rewrite !walk0, !walk1. cbn. now rewrite (F1 ltac:(lra) (a, b) (a, b')).
  - rewrite !walk0, !walk1. cbn [fst snd sgn]. pose proof (pow2_ge_0 (f (true, true))). pose proof (pow2_ge_0 (f (true, false))).
    pose proof (pow2_ge_0 (f (false, true))). pose proof (pow2_ge_0 (f (false, false))). cbn in *. lra.
  - split; intros; lra.
  - rewrite !walk0, !walk2. cbn [fst snd sgn].
    rewrite !(F1 ltac:(lra) (true, _) (false, false)), !(F1 ltac:(lra) (false, true) (false, false)).
    pose proof (pow2_ge_0 (f (false, false))). cbn in *. lra.
  - split; intros; lra.
  - rewrite !walk1, !walk2. cbn [fst snd sgn]. pose proof (pow2_ge_0 (f (true, true))). pose proof (pow2_ge_0 (f (true, false))).
    pose proof (pow2_ge_0 (f (false, true))). pose proof (pow2_ge_0 (f (false, false))). cbn in *. lra.
Qed.

Definition gbm_Dg (t : R) (y v : unit -> R) : unit * unit -> R := fun p => v (fst p).
Lemma gbm_differential : differential gbm_g gbm_Dg.
Proof.
  split; [|reflexivity]. intros s y v c C0 Cd p. apply (Cd (fst p)).
Qed.
Lemma gbm_commutative : commutative [tt] gbm_g gbm_Dg.
Proof. intros s y [] [] i _ _. reflexivity. Qed.
Lemma gbm_milstein_lipschitz t0 t1 : milstein_lipschitz [tt] [tt] t0 t1 2 gbm_f gbm_g gbm_Dg.
Proof. intros s x y _. cbn. unfold gbm_f, along, gbm_Dg, gbm_g. cbn. pose proof (pow2_ge_0 (x tt - y tt)). cbn in *. lra. Qed.

Definition ito_J (w : coins) (s t : R) (k l : unit) : R := ((walk w t k - walk w s k) * (walk w t l - walk w s l) - (t - s)) / 2.
Definition stratonovich_J (w : coins) (s t : R) (k l : unit) : R := (walk w t k - walk w s k) * (walk w t l - walk w s l) / 2.
Lemma ito_J_ok : ito_integrals [tt] coin_times walk ito_J.
Proof. intros w s t [] [] _ _ _ _ _. split; [|easy]. intros _. unfold ito_J. field. Qed.
Lemma stratonovich_J_ok : stratonovich_integrals [tt] coin_times walk stratonovich_J.
Proof. intros w s t [] [] _ _ _ _ _. unfold stratonovich_J. field. Qed.

(** Ito: the product of [1 + dW] again *)
Lemma squares4 a b c d : 0 <= (a ^ 2 + b ^ 2 + c ^ 2 + d ^ 2) / 4.
Proof. pose proof (pow2_ge_0 a). pose proof (pow2_ge_0 b). pose proof (pow2_ge_0 c). pose proof (pow2_ge_0 d). lra. Qed.
Lemma gbm_taylor : taylor_solution coin_space [tt] [tt] coin_times gbm_f gbm_g gbm_Dg walk ito_J gbm_x 1.
Proof.
  split; [apply gbm_solution|]. intros s t Ts Tt Hst.
  assert (Z : forall w, taylor_rest [tt] gbm_f gbm_g gbm_Dg walk ito_J gbm_x s t w tt = 0).
  { intros [a b]. unfold taylor_rest, along, gbm_f, gbm_g, gbm_Dg, ito_J. cbn [total fold_right fst snd].
    destruct (coin_pairs s t Ts Tt Hst) as [[ -> -> ]|[[ -> -> ]|[ -> -> ]]]; rewrite ?walk0, ?walk1, ?walk2, ?gbm_x0, ?gbm_x1, ?gbm_x2; cbn [fst snd];
      destruct a, b; cbn [sgn]; field. }
  unfold mean_square. cbn [total fold_right mean coin_space]. rewrite !Z. split.
  - assert (0 <= (t - s) ^ 3) by (apply pow_le; lra). cbn in *. lra.
  - intros phi _.
    match goal with |- ?a <= ?b => assert (Ea : a = 0) by field; rewrite Ea end.
    pose proof (squares4 (phi (true, true) tt) (phi (true, false) tt) (phi (false, true) tt) (phi (false, false) tt)).
    assert (0 <= (t - s) ^ 4) by (apply pow_le; lra). apply Rmult_le_pos; lra.
Qed.

(** Stratonovich: the product of [1 + dW + 1/2 (dW)^2 = 3/2 + dW], from which two steps at once differ *)
Definition strat_x (t : R) (w : coins) (_ : unit) : R :=
  if Rlt_dec t 1 then 1 else if Rlt_dec t 2 then 3 / 2 + sgn (fst w) else (3 / 2 + sgn (fst w)) * (3 / 2 + sgn (snd w)).
Lemma strat_x0 w k : strat_x 0 w k = 1.
Proof. unfold strat_x. destruct (Rlt_dec 0 1); [reflexivity|lra]. Qed.
Lemma strat_x1 w k : strat_x 1 w k = 3 / 2 + sgn (fst w).
Proof. unfold strat_x. destruct (Rlt_dec 1 1); [lra|]. destruct (Rlt_dec 1 2); [reflexivity|lra]. Qed.
Lemma strat_x2 w k : strat_x 2 w k = (3 / 2 + sgn (fst w)) * (3 / 2 + sgn (snd w)).
Proof. unfold strat_x. destruct (Rlt_dec 2 1); [lra|]. destruct (Rlt_dec 2 2); [lra|reflexivity]. Qed.
Lemma strat_rest s t w : coin_times s -> coin_times t -> s < t ->
  taylor_rest [tt] gbm_f gbm_g gbm_Dg walk stratonovich_J strat_x s t w tt
  = (if Rlt_dec (t - s) 2 then 0 else 1 / 4 + (sgn (fst w) + sgn (snd w)) / 2).
Proof.
  intros Ts Tt Hst. destruct w as [a b]. unfold taylor_rest, along, gbm_f, gbm_g, gbm_Dg, stratonovich_J. cbn [total fold_right fst snd].
  destruct (coin_pairs s t Ts Tt Hst) as [[ -> -> ]|[[ -> -> ]|[ -> -> ]]]; rewrite ?walk0, ?walk1, ?walk2, ?strat_x0, ?strat_x1, ?strat_x2; cbn [fst snd];
    destruct (Rlt_dec _ 2); try lra; destruct a, b; cbn [sgn]; field.
Qed.
Lemma strat_taylor : taylor_solution coin_space [tt] [tt] coin_times gbm_f gbm_g gbm_Dg walk stratonovich_J strat_x 1.
Proof.
  split.
  - intros t Tt [] _. destruct Tt as [ -> | [ -> | -> ]]; cbn; split; intros Ht; try lra.
    + intros w w'. now rewrite !strat_x0.
    + intros a b b'. now rewrite !strat_x0.
    + intros a b b'. now rewrite !strat_x1.
  - intros s t Ts Tt Hst. unfold mean_square. cbn [total fold_right mean coin_space]. rewrite !strat_rest by auto.
    destruct (Rlt_dec (t - s) 2) as [Hlt|Hge].
    + split.
      * assert (0 <= (t - s) ^ 3) by (apply pow_le; lra). cbn in *. lra.
      * intros phi _.
        match goal with |- ?a <= ?b => assert (Ea : a = 0) by field; rewrite Ea end.
        pose proof (squares4 (phi (true, true) tt) (phi (true, false) tt) (phi (false, true) tt) (phi (false, false) tt)).
        assert (0 <= (t - s) ^ 4) by (apply pow_le; lra). apply Rmult_le_pos; lra.
    + assert (E : s = 0 /\ t = 2) by (destruct (coin_pairs s t Ts Tt Hst) as [[ -> -> ]|[[ -> -> ]|[ -> -> ]]]; lra). destruct E as [-> ->].
      cbn [fst snd sgn]. split; [lra|]. intros phi Hphi. destruct (Hphi tt (or_introl eq_refl)) as [P1 P2].
      rewrite !(P1 ltac:(lra) (true, _) (false, false)), !(P1 ltac:(lra) (false, true) (false, false)).
      pose proof (pow2_ge_0 (phi (false, false) tt)). cbn in *. lra.
Qed.

(** Additive noise: [dy = dW] *)
Lemma additive_taylor :
  taylor_solution coin_space [tt] [tt] coin_times gbm_f (fun _ _ _ => 1) (fun _ _ _ _ => 0) walk (fun _ _ _ _ _ => 0) (fun t w k => walk w t k) 1.
Proof.
  split.
  - intros t Tt [] _. destruct Tt as [ -> | [ -> | -> ]]; cbn; split; intros Ht; try lra.
    + intros w w'. now rewrite !walk0.
    + intros a b b'. now rewrite !walk0.
    + intros a b b'. now rewrite !walk1.
  - intros s t Ts Tt Hst.
    assert (Z : forall w, taylor_rest [tt] gbm_f (fun _ _ _ => 1) (fun _ _ _ _ => 0) walk (fun _ _ _ _ _ => 0) (fun t w k => walk w t k) s t w tt = 0).
    { intros w. unfold taylor_rest, along, gbm_f. cbn [total fold_right]. ring. }
    unfold mean_square. cbn [total fold_right mean coin_space]. rewrite !Z. split.
    + assert (0 <= (t - s) ^ 3) by (apply pow_le; lra). cbn in *. lra.
    + intros phi _.
      match goal with |- ?a <= ?b => assert (Ea : a = 0) by field; rewrite Ea end.
      pose proof (squares4 (phi (true, true) tt) (phi (true, false) tt) (phi (false, true) tt) (phi (false, false) tt)).
      assert (0 <= (t - s) ^ 4) by (apply pow_le; lra). apply Rmult_le_pos; lra.
Qed.

(** Diagonal noise with two components is commutative. *)
Definition diagonal_g (t : R) (y : bool -> R) : bool * bool -> R := fun p => if Bool.eqb (fst p) (snd p) then y (fst p) else 0.
Definition diagonal_Dg (t : R) (y v : bool -> R) : bool * bool -> R := fun p => if Bool.eqb (fst p) (snd p) then v (fst p) else 0.
Lemma diagonal_noise : differential diagonal_g diagonal_Dg /\ commutative [true; false] diagonal_g diagonal_Dg /\
  milstein_lipschitz [true; false] [true; false] 0 1 2 (fun _ _ _ => 0) diagonal_g diagonal_Dg.
Proof.
  split; [split|split].
  - intros s y v c C0 Cd [i k]. unfold diagonal_g, diagonal_Dg. cbn [fst snd]. destruct (Bool.eqb i k); [apply Cd|apply derivable_pt_lim_const].
  - intros s y a v b v' [i k]. unfold diagonal_Dg. cbn [fst snd]. destruct (Bool.eqb i k); ring.
  - intros s y k l i _ _. unfold along, diagonal_g, diagonal_Dg. destruct k, l, i; reflexivity.
  - intros s x y _. unfold along, diagonal_g, diagonal_Dg. cbn.
    pose proof (pow2_ge_0 (x true - y true)). pose proof (pow2_ge_0 (x false - y false)). cbn in *. lra.
Qed.

(** The Milstein methods in the loop *)
Definition coin_ito (w : coins) : method (unit -> R) unit ((unit -> R) * (unit -> R)) :=
  ito_milstein (fun _ _ => true) [tt] ex_jvp (ode_term gbm_f) (dW_term [tt] gbm_g (walk w)).
Definition coin_strat (w : coins) : method (unit -> R) unit ((unit -> R) * (unit -> R)) :=
  stratonovich_milstein ex_jvp (ode_term gbm_f) (dW_term [tt] gbm_g (walk w)).
Definition method_cfg (m : method (unit -> R) unit ((unit -> R) * (unit -> R)))
  : config (unit -> R) unit nat ((unit -> R) * (unit -> R)) (option (unit -> R)) (unit -> R) unit :=
  Config (fun tprev tnext => me_step m (coin_time tprev) (coin_time tnext)) (fun e => e)
    (fun a b d t => fst d) coin_adapt None (fun a b => (a + b) / 2)%Z (fun m _ => m)
    [SubSaveAt false true None 0 (fun _ y => y)] false None 0 1000 (Some 20%nat).
Lemma method_run_ok m y0 : (forall t0 t1 y s j, so_result (me_step m t0 t1 y s j) = successful) ->
  (exists h o, solve_run (method_cfg m) (Initial y0 500%Z false tt 0%nat tt PInf) h o /\
    map (fun a => (at_from a, at_to a, at_end a, at_keep a)) h = [(0, 500, 500, true); (500, 1000, 1000, true)]%Z /\
    out_result o = successful) ->
  exists h o, method_run (method_cfg m) (Initial y0 500%Z false tt 0%nat tt PInf) h o m coin_time 0 [1; 2] y0.
Proof.
  intros HR (h & o & RUN & E & OK). exists h, o.
  destruct h as [|a [|b [|]]]; try discriminate E. cbn in E. injection E as A1 A2 A3 A4 B1 B2 B3 B4.
  split; [exact RUN|]. split; [exact OK|]. split; [reflexivity|].
  split; [repeat constructor; cbn; congruence|]. split; [repeat constructor; cbn; congruence|].
  split; [reflexivity|]. split; [cbn; lia|].
  split; [split; [intros ta tb y s j; cbn [solver_step method_cfg]; rewrite (HR (coin_time ta) (coin_time tb) y s j)|intros; cbn]; split; discriminate|]. split; [intros e rf fn lo hi st r H; discriminate H|].
  split; [unfold coin_time; cbn; lra|]. split; [reflexivity|].
  unfold accepted. cbn [filter]. rewrite A4, B4. cbn [map]. rewrite A2, B2. unfold coin_time. repeat f_equal; lra.
Qed.
Lemma ito_run w y0 : exists h o, method_run (method_cfg (coin_ito w)) (Initial y0 500%Z false tt 0%nat tt PInf) h o (coin_ito w) coin_time 0 [1; 2] y0.
Proof. apply method_run_ok; [reflexivity|]. apply runs. vm_compute. auto. Qed.
Lemma strat_run w y0 : exists h o, method_run (method_cfg (coin_strat w)) (Initial y0 500%Z false tt 0%nat tt PInf) h o (coin_strat w) coin_time 0 [1; 2] y0.
Proof. apply method_run_ok; [reflexivity|]. apply runs. vm_compute. auto. Qed.
