(** Adaptive solves without [dtmin]. *)
From Coq Require Import QArith Qabs Qround ZArith List Bool Arith Lia Lqa.
From Verif Require Import Model_Result Model_Loop Spec_Loop Proof_LoopBasic Model_Float Model_PID
  Spec_PID Proof_PID Ex_Loop Ex_PID Spec_PidEnd Proof_PidEnd.
Import ListNotations.
Open Scope Q_scope.

(** The maximum norm is at most itself. *)
Lemma max_norm_below l q : 0 <= q -> bounded_tree q l -> exists r, max_norm l = QFin r /\ r <= q.
Proof.
  intros Hq H. unfold max_norm.
  assert (G : forall k, Forall (fun x => exists r, x = QFin r /\ Qabs r <= q) k ->
            exists r, fold_right (fun x m => xmax (xabs x) m) (QFin 0) k = QFin r /\ r <= q).
  { induction 1 as [|x k (r & -> & Hr) _ (m & Hm & Hmq)]; [exists 0; split; [reflexivity|exact Hq]|].
    cbn [fold_right]. rewrite Hm. cbn [xabs]. destruct (xmax_fin (Qabs r) m) as (z & -> & _ & _ & Hz).
    exists z. split; [reflexivity|]. destruct Hz as [-> | ->]; assumption. }
  apply G. induction H as [|leaf l Hl _ IH]; [constructor|]. cbn [concat]. apply Forall_app. auto.
Qed.

(** Tolerances [rtol], [atol] and the maximum norm, which is NaN if an entry is. *)
Definition pe_pid (M : option Q) : pid_controller :=
  PIDController (1#10) 1 max_norm ex_power (1#2) (1#2) 0 None M true (1#5) 10 (9#10) 2.
Lemma pe_pid_ok M : 0 < M -> pid_ok (pe_pid (Some M)).
Proof.
  intros HM. constructor; cbn; try lra; try (intros; discriminate).
  - intros m H. injection H as <-. exact HM.
  - apply ex_power_pos.
  - apply ex_power_nonneg.
  - apply max_norm_nonneg.
Qed.

(** A solver that does not move and estimates the error [err]. *)
Definition pe_cfg (err : Z -> Z -> Q) (t1 : Z) : config tree nat pid_state unit tree Z nat :=
  Config (fun a b y ss (j : bool) => StepOut y [[QFin (err a b)]] tt (S ss) successful)
         (fun e => map (map nan_inf) e) (fun a b _ t => []) (pid_loop_adapt inject_Z Qfloor (pe_pid (Some 3000)))
         None (fun a b => (a + (b - a) / 2)%Z) (fun n _ => S n) [] false None 0 t1 None.
Definition proportional (a b : Z) : Q := (1#2041) * (inject_Z b - inject_Z a).

Lemma pe_run err t1 dt0 : (0 < dt0)%Z -> (0 < t1)%Z ->
  pid_run inject_Z Qfloor (pe_pid (Some 3000)) (pe_cfg err t1) (ex_pid_init dt0).
Proof.
  intros H1 H2. split; [reflexivity|]. split; [reflexivity|]. split; [apply ex_state_ok; lra|].
  split; [exact H1|exact H2].
Qed.
Lemma pe_midpoint err t1 : midpoint_ok (pe_cfg err t1).
Proof.
  intros a b H. cbn.
  assert (0 <= (b - a) / 2 <= b - a)%Z; [|lia].
  split; [apply Z.div_pos; lia|]. apply Z.div_le_upper_bound; lia.
Qed.
Lemma pe_rounding_error a b : rounding_error inject_Z Qfloor a b 1.
Proof.
  intros x _ _. apply Qabs_Qle_condition. pose proof (Qfloor_le x) as H0. pose proof (Qlt_floor x) as H.
  rewrite inject_Z_plus in H. change (inject_Z 1) with 1 in H. split; lra.
Qed.
Lemma pe_midpoint_error err t1 a b : midpoint_error inject_Z (midpoint (pe_cfg err t1)) a b 1.
Proof.
  intros x Hx. cbn [midpoint pe_cfg]. apply Qabs_Qle_condition.
  pose proof (Z.div_mod (b - x) 2 ltac:(lia)) as H. pose proof (Z.mod_pos_bound (b - x) 2 ltac:(lia)) as H'.
  set (d := ((b - x) / 2)%Z) in *. set (m := ((b - x) mod 2)%Z) in *. clearbody d m.
  assert (Hb : inject_Z b == inject_Z x + 2 * inject_Z d + inject_Z m).
  { change 2 with (inject_Z 2). rewrite <- inject_Z_mult, <- !inject_Z_plus. replace b with (x + 2 * d + m)%Z by lia. reflexivity. }
  rewrite inject_Z_plus.
  assert (Hm : 0 <= inject_Z m /\ inject_Z m <= 1).
  { change 0 with (inject_Z 0). change 1 with (inject_Z 1). rewrite <- !Zle_Qle. lia. }
  assert (Hh : (inject_Z x + inject_Z b) / 2 * 2 == inject_Z x + inject_Z b) by field.
  set (hf := (inject_Z x + inject_Z b) / 2) in *. clearbody hf. split; lra.
Qed.
Lemma pe_negligible : negligible (pe_pid (Some 3000)) (inject_Z 10000 - inject_Z 0) 2040 100 1.
Proof.
  constructor; cbn [factormin safety dtmax pe_pid]; try (vm_compute; congruence).
  intros M H. injection H as <-. vm_compute. congruence.
Qed.
Lemma pe_error : error_at_most inject_Z (pe_cfg proportional 10000) (1#2041).
Proof.
  intros a b y ss j _ Hab _ Hy. cbn [solver_step pe_cfg so_y so_error nan_to_inf].
  split; [exact Hy|]. split; [|reflexivity].
  repeat constructor. eexists. split; [reflexivity|]. unfold proportional.
  rewrite Qabs_pos; [lra|]. rewrite Zle_Qle in Hab. lra.
Qed.
Lemma pe_start : finite_tree (in_y (ex_pid_init 5000)).
Proof. repeat constructor. eexists. reflexivity. Qed.

(** An error that never gets small: the steps shrink to nothing. *)
Definition pe_stuck (s : state tree nat pid_state unit Z nat) : Prop :=
  st_tprev s = 0%Z /\ (st_tnext s = 1%Z \/ st_tnext s = 0%Z) /\ st_y s = [[QFin 0]] /\
  st_controller_state s = PidState (QFin 1) (QFin 1) false /\ st_result s = successful.
Lemma pe_stuck_body s : pe_stuck s ->
  let c := pe_cfg (fun _ _ => 2) 10000 in
  cond_fun c s = true /\ at_keep (attempt_of c s) = false /\ pe_stuck (body_fun c s).
Proof.
  intros (H1 & H2 & H3 & H4 & H5). split; [|split].
  - unfold cond_fun. cbn [stepto_len pe_cfg]. rewrite H1, H5. reflexivity.
  - rewrite attempt_of_eq. cbn [at_keep]. unfold do_adapt, do_step. rewrite H1, H3, H4.
    destruct H2 as [-> | ->]; vm_compute; reflexivity.
  - unfold pe_stuck. rewrite body_tprev, body_tnext, body_y, body_controller_state, body_result_no_event, attempt_of_eq by reflexivity.
    cbn [at_keep at_end at_y]. unfold pre_result; rewrite ?attempt_of_eq; cbn [at_keep]; unfold do_adapt, do_step; rewrite ?H1, ?H3, ?H4, ?H5.
    destruct H2 as [-> | ->]; (split; [vm_compute; reflexivity|]; split; [right; vm_compute; reflexivity|]; repeat split; vm_compute; reflexivity).
Qed.

Lemma pe_attempts s0 : init_state (pe_cfg proportional 10000) (ex_pid_init 5000) = Some s0 ->
  no_nan_error (pe_pid (Some 3000)) (pe_cfg proportional 10000) s0 /\
  short_accepted inject_Z (pe_cfg proportional 10000) s0 2040.
Proof.
  intros Hi. apply (small_errors_accepted inject_Z Qfloor (pe_pid (Some 3000)) _ (ex_pid_init 5000) s0 (1#2041) 2040);
    [exact ex_rounding|apply pe_pid_ok; lra|reflexivity|apply pe_run; lia|apply pe_midpoint|exact Hi
    |exact max_norm_below|cbn; lra|exact pe_start|lra|exact pe_error|lra|cbn; lra].
Qed.
