(** An adaptive solve of [y' = y / 10000] by the Euler method. *)
From Coq Require Import QArith Qabs Qround ZArith Reals Qreals List Bool Arith Lia.
From Verif Require Import Model_Result Model_Loop Spec_Loop Proof_LoopBasic Model_Float Model_PID
  Spec_PID Proof_PID Ex_Loop Ex_PID Spec_PidEnd Proof_PidEnd Ex_PidEnd Spec_Tolerance.
From Coq Require Lqa Lra.
Import ListNotations.
Open Scope R_scope.

(** The maximum norm controls all entries. *)
Lemma max_norm_controls l : xlt (max_norm l) (QFin 1) = true -> bounded_tree 1 l.
Proof.
  unfold max_norm, bounded_tree. intros H.
  assert (G : List.Forall (fun x => exists r, x = QFin r /\ (Qabs r <= 1)%Q) (concat l)).
  { induction (concat l) as [|x k IH]; [constructor|]. cbn [fold_right] in H.
    set (m := fold_right _ _ k) in *.
    assert (Hm : m = QNaN \/ nonneg m).
    { unfold m. clear. induction k as [|x k IH]; cbn [fold_right].
      - right. right. exists 0%Q. split; [reflexivity|Lqa.lra].
      - apply max_nonneg; [apply abs_nonneg|exact IH]. }
    clearbody m. destruct Hm as [-> |[-> |(q & -> & Hq)]].
    - destruct x; discriminate H.
    - destruct x; discriminate H.
    - destruct x as [| | |r]; try discriminate H. cbn [xabs] in H.
      destruct (xmax_fin (Qabs r) q) as (z & Ez & Z1 & Z2 & _). rewrite Ez in H.
      assert (Hz : (z < 1)%Q).
      { cbn in H. destruct (Qle_bool 1 z) eqn:E1; [discriminate|]. apply qle_false in E1. exact E1. }
      constructor; [exists r; split; [reflexivity|Lqa.lra]|]. apply IH. cbn.
      destruct (Qle_bool 1 q) eqn:E1; [apply qle_spec in E1; Lqa.lra|reflexivity]. }
  clear H. induction l as [|leaf l IH]; [constructor|]. cbn [concat] in G. apply List.Forall_app in G.
  constructor; [apply G|apply IH, G].
Qed.

Definition tol_pid : pid_controller :=
  PIDController (1#100) (1#100) max_norm ex_power (1#2) (1#2) 0 None None true (1#5) 10 (9#10) 2.
Lemma tol_pid_ok : pid_ok tol_pid.
Proof.
  constructor; cbn; try Lqa.lra; try (intros; discriminate).
  - apply ex_power_pos.
  - apply ex_power_nonneg.
  - apply max_norm_nonneg.
Qed.

Definition frac (a b : Z) : Q := ((inject_Z b - inject_Z a) / 10000)%Q.
(** The error estimate is the difference to the Taylor method of second order. *)
Definition tol_cfg : config tree nat pid_state unit tree Z nat :=
  Config (fun a b y ss (j : bool) =>
            match y with
            | [[QFin q]] => StepOut [[QFin (Qred (q * (1 + frac a b)))]] [[QFin (Qred (q * frac a b * frac a b / 2))]] tt (S ss) successful
            | _ => StepOut y y tt (S ss) successful
            end)
         (fun e => map (map nan_inf) e) (fun a b _ t => []) (pid_loop_adapt inject_Z Qfloor tol_pid)
         None (fun a b => (a + (b - a) / 2)%Z) (fun n _ => S n) [] false None 0 10000 None.
Definition tol_init (dt0 : Z) : initial tree nat pid_state nat :=
  Initial [[QFin 1]] dt0 false 0%nat (PidState (QFin 1) (QFin 1) false) 0%nat PInf.
Definition tol_emb (y : tree) : R := match y with [[QFin q]] => Q2R q | _ => 0 end.
Definition tol_flow (s t x : R) : R := x * exp ((t - s) / 10000).
Definition tol_dist (x y : R) : R := Rabs (x - y).

Lemma exp_small x : 0 <= x <= 1 -> 1 + x <= exp x <= 1 + x + 2 * x ^ 2.
Proof.
  intros [H0 H1]. split; [apply exp_ineq1_le|].
  assert (E1 : exp x = exp (x / 2) * exp (x / 2)) by (rewrite <- exp_plus; f_equal; Lra.lra).
  pose proof (exp_ineq1_le (- (x / 2))) as H. rewrite exp_Ropp in H.
  pose proof (exp_pos (x / 2)) as HP. set (e := exp (x / 2)) in *. clearbody e.
  assert (EI : e * / e = 1) by (apply Rinv_r; Lra.lra).
  assert (HU : e * (1 - x / 2) <= 1).
  { rewrite <- EI. apply Rmult_le_compat_l; Lra.lra. }
  rewrite E1.
  assert (U2 : (e * (1 - x / 2)) * (e * (1 - x / 2)) <= 1).
  { assert (0 <= e * (1 - x / 2)) by (apply Rmult_le_pos; Lra.lra).
    rewrite <- (Rmult_1_l 1) at 3. apply Rmult_le_compat; assumption. }
  assert (P : 1 <= (1 + x + 2 * x ^ 2) * ((1 - x / 2) * (1 - x / 2))).
  { assert (0 <= x ^ 2 * ((1 - x) * (5 / 4 - x / 2))).
    { apply Rmult_le_pos; [apply pow2_ge_0|apply Rmult_le_pos; Lra.lra]. }
    Lra.nra. }
  apply (Rmult_le_reg_r ((1 - x / 2) * (1 - x / 2))); [apply Rmult_lt_0_compat; Lra.lra|]. Lra.lra.
Qed.

Lemma tol_exact : exact_flow tol_dist tol_flow (1 / 10000).
Proof.
  unfold tol_dist, tol_flow. constructor.
  - intros x y z. replace (x - z) with ((x - y) + (y - z)) by ring. apply Rabs_triang.
  - intros x. rewrite Rminus_diag_eq by reflexivity. apply Rabs_R0.
  - intros t x. replace ((t - t) / 10000) with 0 by (unfold Rdiv; ring). rewrite exp_0. ring.
  - intros r s t x _ _. rewrite Rmult_assoc, <- exp_plus. do 2 f_equal. Lra.lra.
  - intros s t x y _. rewrite <- Rmult_minus_distr_r, Rabs_mult, (Rabs_pos_eq (exp _)) by (left; apply exp_pos).
    replace (1 / 10000 * (t - s)) with ((t - s) / 10000) by Lra.lra. Lra.lra.
Qed.

Lemma tol_reliable : reliable tol_cfg tol_emb (fun z => Q2R (inject_Z z)) tol_dist tol_flow 4 3.
Proof.
  intros a b y ss j q Ha Hab Hb Hq. cbn [cfg_t0 cfg_t1 tol_cfg] in Ha, Hb.
  assert (Q0 : 0 <= Q2R q) by (rewrite <- RMicromega.Q2R_0; apply Qle_Rle, Hq).
  cbn [solver_step tol_cfg nan_to_inf]. cbv zeta.
  assert (DEF : forall z : R, z = 0 -> tol_dist z (tol_flow (Q2R (inject_Z a)) (Q2R (inject_Z b)) z) <= 4 * Q2R q).
  { intros z ->. unfold tol_dist, tol_flow. rewrite Rmult_0_l, Rminus_0_r, Rabs_R0. Lra.lra. }
  destruct y as [|[|[| | |r] [|? ?]] [|? ?]]; try (intros _ _ _; apply DEF; reflexivity).
  intros _ _ HE. cbn [so_error so_y] in *. cbn [map nan_inf] in HE.
  inversion HE as [|? ? HL _]. subst. inversion HL as [|? ? (e & Ee & He) _]. subst. injection Ee as <-. clear HE HL.
  pose proof (Qabs_wd _ _ (Qred_correct (r * frac a b * frac a b / 2))) as HW. rewrite HW in He. clear HW. cbn [tol_emb].
  assert (EF : Q2R (frac a b) = (Q2R (inject_Z b) - Q2R (inject_Z a)) / 10000).
  { unfold frac. rewrite Q2R_div by discriminate. rewrite Q2R_minus. f_equal. change 10000%Q with (inject_Z 10000). unfold Q2R. cbn. Lra.lra. }
  assert (X01 : 0 <= Q2R (frac a b) <= 1).
  { rewrite <- RMicromega.Q2R_0, <- RMicromega.Q2R_1. unfold frac. split; apply Qle_Rle.
    - apply Qle_shift_div_l; [reflexivity|]. rewrite Zle_Qle in Hab. Lqa.lra.
    - apply Qle_shift_div_r; [reflexivity|]. rewrite Zle_Qle in Ha, Hb. change (inject_Z 0) with 0%Q in Ha. change (inject_Z 10000) with 10000%Q in Hb. Lqa.lra. }
  assert (EQ : Q2R (Qred (r * (1 + frac a b))) = Q2R r * (1 + Q2R (frac a b))).
  { rewrite (Qeq_eqR _ _ (Qred_correct _)), Q2R_mult, Q2R_plus, RMicromega.Q2R_1. reflexivity. }
  assert (HE : Rabs (Q2R r) * Q2R (frac a b) ^ 2 / 2 <= Q2R q).
  { apply Qle_Rle in He.
    assert (E2 : Q2R (Qabs (r * frac a b * frac a b / 2)) = Rabs (Q2R r) * Q2R (frac a b) ^ 2 / 2).
    { assert (GA : forall z, Q2R (Qabs z) = Rabs (Q2R z)).
      { intros z. destruct (Qlt_le_dec z 0) as [Hz|Hz].
        - rewrite (Qeq_eqR _ _ (Qabs_neg z (Qlt_le_weak _ _ Hz))), Q2R_opp, Rabs_left1; [reflexivity|].
          rewrite <- RMicromega.Q2R_0. apply Qle_Rle, Qlt_le_weak, Hz.
        - rewrite (Qeq_eqR _ _ (Qabs_pos z Hz)), Rabs_pos_eq; [reflexivity|]. rewrite <- RMicromega.Q2R_0. apply Qle_Rle, Hz. }
      rewrite GA, Q2R_div by discriminate. rewrite !Q2R_mult.
      replace (Q2R 2) with 2 by (unfold Q2R; cbn; Lra.lra).
      unfold Rdiv. rewrite !Rabs_mult, (Rabs_pos_eq (Q2R (frac a b))), (Rabs_pos_eq (/ 2)) by Lra.lra. ring. }
    rewrite E2 in He. exact He. }
  rewrite EQ. unfold tol_dist, tol_flow. rewrite <- EF. set (x := Q2R (frac a b)) in *. clearbody x.
  destruct (exp_small x X01) as [X1 X2].
  rewrite <- Rmult_minus_distr_l, Rabs_mult, (Rabs_left1 (1 + x - exp x)) by Lra.lra.
  pose proof (Rabs_pos (Q2R r)) as RP. set (y := Rabs (Q2R r)) in *. clearbody y.
  assert (y * - (1 + x - exp x) <= y * (2 * x ^ 2)) by (apply Rmult_le_compat_l; Lra.lra). Lra.lra.
Qed.
Lemma tol_shape : keeps_shape tol_cfg.
Proof.
  intros a b y ss j. cbn [solver_step tol_cfg nan_to_inf]. cbv zeta.
  assert (DEF : forall l : tree, shape (map (map nan_inf) l) = shape l).
  { intros l. unfold shape. rewrite map_map. apply map_ext. intros x. apply map_length. }
  destruct y as [|[|[| | |r] [|? ?]] [|? ?]]; cbn [so_y so_error]; (split; [reflexivity|]); try apply DEF; reflexivity.
Qed.
Lemma tol_run : pid_run inject_Z Qfloor tol_pid tol_cfg (tol_init 5000).
Proof.
  split; [reflexivity|]. split; [reflexivity|]. split; [apply ex_state_ok; Lqa.lra|]. split; reflexivity.
Qed.
Lemma tol_midpoint : midpoint_ok tol_cfg.
Proof.
  intros a b H. cbn.
  assert (0 <= (b - a) / 2 <= b - a)%Z; [|lia].
  split; [apply Z.div_pos; lia|]. apply Z.div_le_upper_bound; lia.
Qed.
