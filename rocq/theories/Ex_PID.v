(** Concrete PID controllers and solves. *)
From Coq Require Import QArith Qround Qabs ZArith List Bool Arith Lia Lqa.
From Verif Require Import Model_Result Model_Loop Spec_Loop Proof_LoopBasic Model_Float Model_PID
  Spec_PID Proof_PID Ex_Loop.
Import ListNotations.
Open Scope Q_scope.

(** The maximum norm, and a coarse exponentiation: [x], [1/x] or [1]. *)
Definition max_norm (l : tree) : xq := fold_right (fun x m => xmax (xabs x) m) (QFin 0) (concat l).
Definition ex_power (x : xq) (c : Q) : xq :=
  if Qeq_bool c 0 then QFin 1 else if Qle_bool 0 c then x else xdiv (QFin 1) x.
Definition ex_pid (m M : option Q) : pid_controller :=
  PIDController (1#10) 1 max_norm ex_power (1#2) (1#2) 0 m M true (1#5) 10 (9#10) 2.
(** Integral control only, absolute tolerance only, a norm that is never NaN. *)
Definition ex_pid_i (m : option Q) : pid_controller :=
  PIDController 0 1 (fun l => nan_inf (max_norm l)) ex_power 0 1 0 m None true (1#5) 10 (9#10) 1.

Lemma abs_nonneg x : xabs x = QNaN \/ nonneg (xabs x).
Proof.
  destruct x as [| | |q]; cbn; auto; try (right; left; reflexivity).
  right. right. exists (Qabs q). split; [reflexivity|apply Qabs_nonneg].
Qed.
Lemma max_nonneg x y : x = QNaN \/ nonneg x -> y = QNaN \/ nonneg y -> xmax x y = QNaN \/ nonneg (xmax x y).
Proof.
  intros [->|Hx]; [left; reflexivity|]. intros [->|Hy]; [left; destruct x; reflexivity|].
  right. unfold xmax. destruct x; try (destruct Hx as [?|(? & ? & ?)]; discriminate);
    destruct y; try (destruct Hy as [?|(? & ? & ?)]; discriminate); destruct (xle _ _); assumption.
Qed.
Lemma max_norm_nonneg l : max_norm l = QNaN \/ nonneg (max_norm l).
Proof.
  unfold max_norm. induction (concat l) as [|x k IH]; cbn [fold_right].
  - right. right. exists 0. split; [reflexivity|lra].
  - apply max_nonneg; [apply abs_nonneg|exact IH].
Qed.
Lemma max_norm_detects_x x l : In x (concat l) -> is_nan x || is_inf x = true ->
  max_norm l = QPInf \/ max_norm l = QNaN.
Proof.
  unfold max_norm. intros Hin Hx. induction (concat l) as [|y k IH]; [destruct Hin|]. cbn [fold_right].
  assert (Hk : let mk := fold_right (fun x m => xmax (xabs x) m) (QFin 0) k in mk = QNaN \/ nonneg mk).
  { clear. induction k as [|x k IH]; cbn [fold_right].
    - right. right. exists 0. split; [reflexivity|lra].
    - apply max_nonneg; [apply abs_nonneg|exact IH]. }
  cbv zeta in Hk. destruct Hin as [->|Hin].
  - destruct x as [| | |q]; try discriminate; cbn; auto;
      destruct Hk as [->|[->|(q & -> & _)]]; cbn; auto.
  - specialize (IH Hin). destruct IH as [-> | ->]; destruct y; cbn; auto.
Qed.
Lemma max_norm_detects : forall l leaf x, In leaf l -> In x leaf -> is_nan x || is_inf x = true ->
  max_norm l = QPInf \/ max_norm l = QNaN.
Proof.
  intros l leaf x Hl Hx Hb. apply (max_norm_detects_x x); [|exact Hb]. apply in_concat. eauto.
Qed.

Lemma ex_power_pos x c : positive x -> positive (ex_power x c).
Proof.
  intros (q & -> & Hq). unfold ex_power. destruct (Qeq_bool c 0); [exists 1; split; [reflexivity|lra]|].
  destruct (Qle_bool 0 c); [exists q; auto|]. cbn. destruct (Qeq_bool q 0) eqn:He.
  - apply Qeq_bool_iff in He. lra.
  - exists (1 / q). split; [reflexivity|]. apply Qlt_shift_div_l; lra.
Qed.
Lemma ex_power_nonneg x c : nonneg x -> nonneg (ex_power x c).
Proof.
  intros Hx. unfold ex_power. destruct (Qeq_bool c 0); [right; exists 1; split; [reflexivity|lra]|].
  destruct (Qle_bool 0 c); [exact Hx|]. apply inv_nonneg, Hx.
Qed.
Lemma ex_pid_ok m M : 0 < m -> m <= M -> pid_ok (ex_pid (Some m) (Some M)).
Proof.
  intros Hm HM. constructor; cbn; try lra; try (intros; discriminate).
  - intros m' H. injection H as <-. exact Hm.
  - intros m' H. injection H as <-. lra.
  - intros m' M' H H'. injection H as <-. injection H' as <-. exact HM.
  - apply ex_power_pos.
  - apply ex_power_nonneg.
  - apply max_norm_nonneg.
Qed.
Lemma ex_pid_ok_none : pid_ok (ex_pid None None).
Proof.
  constructor; cbn; try lra; try (intros; discriminate).
  - apply ex_power_pos.
  - apply ex_power_nonneg.
  - apply max_norm_nonneg.
Qed.
Lemma ex_pid_i_ok m : 0 < m -> pid_ok (ex_pid_i (Some m)).
Proof.
  intros Hm. constructor; cbn; try lra; try (intros; discriminate).
  - intros m' H. injection H as <-. exact Hm.
  - apply ex_power_pos.
  - apply ex_power_nonneg.
  - intros l. right. destruct (max_norm_nonneg l) as [-> | H]; [left; reflexivity|].
    destruct H as [-> | (q & -> & Hq)]; [left; reflexivity|right; exists q; auto].
Qed.
Lemma ex_pid_i_norm m l : norm (ex_pid_i m) l <> QNaN.
Proof. cbn. destruct (max_norm l); discriminate. Qed.
Lemma ex_state_ok a b f : 0 < a -> 0 < b -> pid_state_ok (PidState (QFin a) (QFin b) f).
Proof. intros Ha Hb. split; [exists a|exists b]; auto. Qed.

(** Times are integers, rounding is down. *)
Lemma ex_rounding : rounding inject_Z Qfloor.
Proof.
  constructor.
  - intros a b H. rewrite <- Zle_Qle. exact H.
  - intros x y H. apply Qfloor_resp_le, H.
  - apply Qfloor_Z.
Qed.

(** A solver that does not move and makes an error proportional to the length of the step. *)
Definition ex_pid_cfg (rate m : Q) (t1 : Z) : config tree nat pid_state unit tree Z nat :=
  Config (fun a b y ss (j : bool) =>
            StepOut y [[QFin (rate * (inject_Z b - inject_Z a))]] tt (S ss) successful)
         (fun e => map (map nan_inf) e) (fun a b _ t => []) (pid_loop_adapt inject_Z Qfloor (ex_pid_i (Some m)))
         None (fun a b => (a + (b - a) / 2)%Z) (fun n _ => S n) [] false None 0 t1 (Some 40%nat).
Definition ex_pid_init (dt0 : Z) : initial tree nat pid_state nat :=
  Initial [[QFin 0]] dt0 false 0%nat (PidState (QFin 1) (QFin 1) false) 0%nat PInf.
Lemma ex_pid_solve rate m t1 dt0 : (0 < dt0)%Z -> (0 < t1)%Z ->
  pid_solve inject_Z Qfloor (ex_pid_i (Some m)) (ex_pid_cfg rate m t1) (ex_pid_init dt0).
Proof.
  intros H1 H2. split; [reflexivity|]. split; [reflexivity|]. split; [apply ex_state_ok; lra|].
  split; [exact H1|]. split; [exact H2|]. apply ex_pid_i_norm.
Qed.
Lemma ex_pid_midpoint rate m t1 : midpoint_ok (ex_pid_cfg rate m t1).
Proof.
  intros a b H. cbn.
  assert (0 <= (b - a) / 2 <= b - a)%Z; [|lia].
  split; [apply Z.div_pos; lia|]. apply Z.div_le_upper_bound; lia.
Qed.
Lemma ex_pid_resolved rate m t1 : (100 <= m)%Z ->
  dtmin_resolved inject_Z Qfloor (ex_pid_i (Some (inject_Z m))) (ex_pid_cfg rate (inject_Z m) t1) (inject_Z m).
Proof.
  intros Hm a Ha. cbn [cfg_t0 cfg_t1 ex_pid_cfg midpoint safety ex_pid_i] in *.
  assert (Hlt : forall x y z, inject_Z x < inject_Z y - inject_Z z -> (x < y - z)%Z).
  { intros x y z H. rewrite Zlt_Qlt. unfold Z.sub. rewrite inject_Z_plus, inject_Z_opp. exact H. }
  split; [|split; [|split]].
  - rewrite <- inject_Z_plus, Qfloor_Z. lia.
  - intros b Hb Hlong. apply Hlt in Hlong.
    destruct (Z.lt_ge_cases (Qfloor (inject_Z a + (9#10) * (inject_Z b - inject_Z a))) b) as [|Hge]; [assumption|].
    exfalso. rewrite Zle_Qle in Hge.
    pose proof (Qfloor_le (inject_Z a + (9#10) * (inject_Z b - inject_Z a))).
    assert (Hab : inject_Z a < inject_Z b) by (rewrite <- Zlt_Qlt; lia). lra.
  - intros Hlong. apply Hlt in Hlong.
    assert (1 <= (t1 - a) / 2)%Z by (apply Z.div_le_lower_bound; lia). lia.
  - intros Hlong. apply Hlt in Hlong.
    pose proof (Z.mul_div_le (t1 - a) 2 ltac:(lia)). lia.
Qed.

(** A solve that never ends: each state is like the one before. *)
Definition stuck (s : state tree nat pid_state unit Z nat) : Prop :=
  st_tprev s = 0%Z /\ st_tnext s = 75%Z /\ st_y s = [[QFin 0]] /\
  st_controller_state s = PidState (QFin 1) (QFin 1) false /\ st_result s = successful.
Lemma stuck_body s : stuck s ->
  let c := ex_pid_cfg (21#1500) 1 150 in
  cond_fun c s = true /\ at_keep (attempt_of c s) = false /\ stuck (body_fun c s).
Proof.
  intros (H1 & H2 & H3 & H4 & H5). split; [|split].
  - unfold cond_fun. cbn [stepto_len ex_pid_cfg]. rewrite H1, H5. reflexivity.
  - rewrite attempt_of_eq. cbn [at_keep]. unfold do_adapt, do_step. rewrite H1, H2, H3, H4.
    vm_compute. reflexivity.
  - unfold stuck. rewrite body_tprev, body_tnext, body_y, body_controller_state, body_result_no_event, attempt_of_eq by reflexivity.
    cbn [at_keep at_end at_y]. unfold pre_result; rewrite ?attempt_of_eq; cbn [at_keep]; unfold do_adapt, do_step; rewrite ?H1, ?H2, ?H3, ?H4, ?H5.
    repeat split; vm_compute; reflexivity.
Qed.

(** Overflow: the first attempt gives an infinite solution and an infinite error; from then on the
    controller proposes NaN, so that solution and error are NaN. *)
Fixpoint overflow (n : nat) : pid_out :=
  match n with
  | O => pid_adapt (ex_pid (Some (1#100)) (Some 10)) (QFin 0) (QFin 1) [[QFin 0]] [[QPInf]]
                   (map (map nan_inf) [[QNaN]]) (PidState (QFin 1) (QFin 1) false)
  | S n' => let r := overflow n' in
            pid_adapt (ex_pid (Some (1#100)) (Some 10)) (QFin 0) (po_t1 r) [[QFin 0]] [[QNaN]]
                      (map (map nan_inf) [[QNaN]]) (po_state r)
  end.
Lemma overflow_stuck n : po_t1 (overflow n) = QNaN /\ po_keep (overflow n) = false /\
  po_result (overflow n) = successful /\ po_state (overflow n) = PidState (QFin 1) (QFin 1) false.
Proof.
  induction n as [|n IH].
  - vm_compute. auto.
  - destruct IH as (H1 & H2 & H3 & H4). cbn [overflow]. cbv zeta. rewrite H1, H4. vm_compute. auto.
Qed.

(** The maximum norm does not introduce NaN; a controller that reports when [dtmin] is reached. *)
Lemma max_norm_no_nan l : (forall leaf x, In leaf l -> In x leaf -> x <> QNaN) -> max_norm l <> QNaN.
Proof.
  intros H. assert (G : forall x, In x (concat l) -> x <> QNaN).
  { intros x Hx. apply in_concat in Hx. destruct Hx as (leaf & H1 & H2). eauto. }
  unfold max_norm. induction (concat l) as [|x k IH]; [discriminate|]. cbn [fold_right].
  assert (Hk := IH (fun y Hy => G y (or_intror Hy))). pose proof (G x (or_introl eq_refl)) as Hx.
  set (m := fold_right _ _ k) in *. clearbody m. unfold xmax.
  destruct x; try congruence; destruct m; try congruence; cbn [xabs]; destruct (xle _ _); discriminate.
Qed.
Definition ex_pid_report : pid_controller :=
  PIDController 0 1 (fun l => nan_inf (max_norm l)) ex_power 0 1 0 (Some (1#2)) None false (1#5) 10 (9#10) 1.
Lemma ex_pid_report_ok : pid_ok ex_pid_report.
Proof.
  destruct (ex_pid_i_ok (1#2) ltac:(lra)). constructor; assumption.
Qed.
