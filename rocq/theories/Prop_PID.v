(** Theorems about [PIDController]: C22 to C24, and C02 for solves with it. *)
From Coq Require Import QArith Qround ZArith List Bool Arith Lia Lqa.
From Verif Require Import Model_Result Model_Loop Spec_Loop Model_Float Model_PID Spec_PID Proof_PID
  Proof_LoopBasic Ex_Loop Ex_PID.
Import ListNotations.
Open Scope Q_scope.

(** C22: without [dtmin] and [dtmax], an accepted step is followed by one whose length is larger by
    a factor in [[1, factormax]], a rejected step is retried with a length smaller by a factor in
    [[factormin, safety]].  This includes errors that are zero or infinite.  Partial: the scaled
    error must not be NaN. *)
  Theorem C22_step_size_change_partial :
    forall (p : pid_controller) (t0 t1 : Q) (y0 y1 err : tree) (s : pid_state),
    pid_ok p -> pid_state_ok s -> t0 < t1 -> scaled_error p y0 y1 err <> QNaN ->
  dtmin p = None -> dtmax p = None ->
  let r := pid_adapt p (QFin t0) (QFin t1) y0 y1 err s in
  pid_state_ok (po_state r) /\
  exists dt, po_t0 r = QFin (if po_keep r then t1 else t0) /\
    po_t1 r = QFin ((if po_keep r then t1 else t0) + dt) /\ 0 < dt /\
    (po_keep r = true -> t1 - t0 <= dt /\ dt <= factormax p * (t1 - t0)) /\
    (po_keep r = false -> factormin p * (t1 - t0) <= dt /\ dt <= safety p * (t1 - t0)).
  Proof. exact pf_C22_step_size_change_partial. Qed.
(** C22: with [dtmin] and [dtmax], the proposed length is between them, and the above bounds hold
    except where these force otherwise. *)
  Theorem C22_dtmin_dtmax_partial :
    forall (p : pid_controller) (t0 t1 : Q) (y0 y1 err : tree) (s : pid_state),
    pid_ok p -> pid_state_ok s -> t0 < t1 -> scaled_error p y0 y1 err <> QNaN ->
  let r := pid_adapt p (QFin t0) (QFin t1) y0 y1 err s in
  pid_state_ok (po_state r) /\
  exists dt, po_t0 r = QFin (if po_keep r then t1 else t0) /\
    po_t1 r = QFin ((if po_keep r then t1 else t0) + dt) /\ 0 < dt /\
    (forall m, dtmin p = Some m -> m <= dt) /\
    (forall M, dtmax p = Some M -> dt <= M) /\
    (dt <= (if po_keep r then factormax p else safety p) * (t1 - t0) \/ dtmin p = Some dt) /\
    ((if po_keep r then 1 else factormin p) * (t1 - t0) <= dt \/ (exists M, dtmax p = Some M /\ M <= dt) \/
     (at_dtmin s = true /\ dtmin p = Some dt)).
  Proof. exact pf_C22_dtmin_dtmax_partial. Qed.
(** C22: the first step. *)
  Theorem C22_initial :
    forall (p : pid_controller) (t0 dt0 : Q),
    pid_ok p -> 0 < dt0 ->
  pid_state_ok (snd (pid_init p (QFin t0) (QFin dt0))) /\
  exists dt, fst (pid_init p (QFin t0) (QFin dt0)) = QFin (t0 + dt) /\ 0 < dt /\
    (forall m, dtmin p = Some m -> m <= dt) /\ (forall M, dtmax p = Some M -> dt <= M).
  Proof. exact pf_C22_initial. Qed.
(** A rejected step with error three times too large; an accepted step of a [dtmax] controller. *)
Example C22_instance :
  pid_ok (ex_pid None None) /\ pid_ok (ex_pid (Some (1#100)) (Some 2)) /\
  pid_state_ok (PidState (QFin 2) (QFin 1) false) /\
  scaled_error (ex_pid None None) [[QFin 0]] [[QFin 0]] [[QFin 3]] <> QNaN /\
  (let r := pid_adapt (ex_pid None None) (QFin 0) (QFin 1) [[QFin 0]] [[QFin 0]] [[QFin 3]]
                      (PidState (QFin 2) (QFin 1) false) in
   po_keep r = false /\ exists q, po_t1 r = QFin q /\ q == (1#5)) /\
  (let r := pid_adapt (ex_pid (Some (1#100)) (Some 2)) (QFin 0) (QFin 1) [[QFin 0]] [[QFin 0]] [[QFin (1#8)]]
                      (PidState (QFin 2) (QFin 1) false) in
   po_keep r = true /\ exists q, po_t1 r = QFin q /\ q == 3).
Proof.
  split; [exact ex_pid_ok_none|]. split; [apply ex_pid_ok; lra|]. split; [apply ex_state_ok; lra|].
  split; [vm_compute; discriminate|].
  split; (split; [vm_compute; reflexivity|]); eexists; split; vm_compute; reflexivity.
Qed.

(** C23: a step is accepted iff the scaled error is below one, or it follows one for which [dtmin]
    was reached; a rejected step leaves the stored errors unchanged. *)
  Theorem C23_accept_iff :
    forall (p : pid_controller) (t0 t1 : xq) (y0 y1 err : tree) (s : pid_state),
    pid_ok p ->
  let r := pid_adapt p t0 t1 y0 y1 err s in
  (po_keep r = true <->
   (exists q, scaled_error p y0 y1 err = QFin q /\ q < 1) \/ (dtmin p <> None /\ at_dtmin s = true)) /\
  (po_keep r = false ->
   po_t0 r = t0 /\ prev_inv_scaled_error (po_state r) = prev_inv_scaled_error s /\
   prev_prev_inv_scaled_error (po_state r) = prev_prev_inv_scaled_error s) /\
  (po_keep r = true -> po_t0 r = t1).
  Proof. exact pf_C23_accept_iff. Qed.
(** C23: if a component of the error estimate is infinite or NaN, the step is rejected, unless
    [dtmin] was reached. *)
  Theorem C23_bad_error_rejected :
    forall (p : pid_controller) (t0 t1 : xq) (y0 y1 err : tree) (s : pid_state) (leaf0 leaf1 leaf : list xq) (i j : nat) (x a b : xq),
    norm_detects p -> (dtmin p = None \/ at_dtmin s = false) ->
  nth_error y0 i = Some leaf0 -> nth_error y1 i = Some leaf1 -> nth_error err i = Some leaf ->
  nth_error leaf0 j = Some a -> nth_error leaf1 j = Some b -> nth_error leaf j = Some x ->
  length leaf1 = length leaf0 ->
  is_nan x || is_inf x = true ->
  po_keep (pid_adapt p t0 t1 y0 y1 (map (map nan_inf) err) s) = false.
  Proof. exact pf_C23_bad_error_rejected. Qed.
(** C22 to C24: the scaled error is not NaN, as these theorems assume, if the norm does not introduce NaN, the state is
    finite, and each leaf of the candidate is finite or contains a NaN (as after a failed implicit step). *)
  Theorem C23_scaled_error_not_nan :
    forall (p : pid_controller) (y0 y1 err : tree),
    0 < atol p -> 0 <= rtol p ->
  (forall l, (forall leaf x, In leaf l -> In x leaf -> x <> QNaN) -> norm p l <> QNaN) ->
  (forall leaf x, In leaf y0 -> In x leaf -> exists q, x = QFin q) ->
  (forall leaf, In leaf y1 -> In QNaN leaf \/ forall x, In x leaf -> exists q, x = QFin q) ->
  scaled_error p y0 y1 (map (map nan_inf) err) <> QNaN.
  Proof. exact pf_C23_scaled_error_not_nan. Qed.
Example C23_scaled_error_not_nan_instance :
  (forall l, (forall leaf x, In leaf l -> In x leaf -> x <> QNaN) -> norm (ex_pid None None) l <> QNaN) /\
  scaled_error (ex_pid None None) [[QFin 1; QFin 2]; [QFin 0]] [[QPInf; QNaN]; [QFin 3]] (map (map nan_inf) [[QFin 1; QNaN]; [QFin 0]])
    = QPInf.
Proof. split; [exact max_norm_no_nan|vm_compute; reflexivity]. Qed.
Example C23_instance :
  pid_ok (ex_pid None None) /\ norm_detects (ex_pid None None) /\
  po_keep (pid_adapt (ex_pid None None) (QFin 0) (QFin 1) [[QFin 0; QFin 4]] [[QFin 0; QFin 4]]
                     [[QFin (9#10); QFin (13#10)]] (PidState (QFin 1) (QFin 1) false)) = true /\
  po_keep (pid_adapt (ex_pid None None) (QFin 0) (QFin 1) [[QFin 0; QFin 4]] [[QFin 0; QFin 4]]
                     (map (map nan_inf) [[QFin (9#10); QNaN]]) (PidState (QFin 1) (QFin 1) false)) = false.
Proof.
  split; [exact ex_pid_ok_none|]. split; [exact max_norm_detects|]. split; vm_compute; reflexivity.
Qed.

(** C24: with [dtmin] set, if [safety^k * dt <= dtmin] then at most [k + 1] successive attempts are
    rejected before one is accepted or the solve fails.  Each retry may also be shorter than proposed.
    Partial: no scaled error is NaN. *)
  Theorem C24_rejections_bounded_partial :
    forall (p : pid_controller) (m t0 t1 : Q) (s : pid_state) (n k : nat),
    pid_ok p -> pid_state_ok s -> dtmin p = Some m -> t0 < t1 ->
  safety p ^ Z.of_nat k * (t1 - t0) <= m ->
  rejections p t0 t1 s n -> (n <= k + 1)%nat.
  Proof. exact pf_C24_rejections_bounded_partial. Qed.
Example C24_instance :
  pid_ok (ex_pid_i (Some (1#2))) /\ pid_state_ok (PidState (QFin 1) (QFin 1) false) /\
  (9#10) ^ Z.of_nat 7 * (1 - 0) <= 1#2 /\
  rejections (ex_pid_i (Some (1#2))) 0 1 (PidState (QFin 1) (QFin 1) false) 2.
Proof.
  split; [apply ex_pid_i_ok; lra|]. split; [apply ex_state_ok; lra|]. split; [vm_compute; discriminate|].
  apply (rej_cons _ _ _ _ [[QFin 0]] [[QFin 0]] [[QFin (12#10)]] 1 (3#4) (90#120));
    [apply ex_pid_i_norm|vm_compute; reflexivity|vm_compute; reflexivity|vm_compute; reflexivity
    |vm_compute; reflexivity|vm_compute; discriminate|].
  eapply (rej_cons _ _ _ _ [[QFin 0]] [[QFin 0]] [[QPInf]] 0 (1#2));
    [apply ex_pid_i_norm|vm_compute; reflexivity|vm_compute; reflexivity|vm_compute; reflexivity
    |vm_compute; reflexivity|vm_compute; discriminate|].
  constructor.
Qed.

(** C24: with [force_dtmin=False], reaching [dtmin] is reported exactly if the length asked for is below it; if it is not
    reported, [dtmin] did not lengthen the step.  With [force_dtmin=True] it is never reported. *)
  Theorem C24_dtmin_reported :
    forall (p : pid_controller) (t0 t1 : Q) (y0 y1 err : tree) (s : pid_state),
    pid_ok p -> pid_state_ok s -> t0 < t1 -> scaled_error p y0 y1 err <> QNaN ->
  let r := pid_adapt p (QFin t0) (QFin t1) y0 y1 err s in
  (po_result r = successful \/ po_result r = dt_min_reached) /\
  (po_result r = dt_min_reached ->
     force_dtmin p = false /\ exists m, dtmin p = Some m /\
     po_t1 r = QFin ((if po_keep r then t1 else t0) + m)) /\
  (po_result r = successful -> force_dtmin p = false \/ dtmin p = None ->
     exists dt, po_t1 r = QFin ((if po_keep r then t1 else t0) + dt) /\
       dt <= (if po_keep r then factormax p else safety p) * (t1 - t0)) /\
  (forall m, force_dtmin p = false -> dtmin p = Some m ->
     (if po_keep r then factormax p else safety p) * (t1 - t0) < m -> po_result r = dt_min_reached).
  Proof. exact pf_C24_dtmin_reported. Qed.
Example C24_dtmin_reported_instance :
  pid_ok ex_pid_report /\ pid_state_ok (PidState (QFin 1) (QFin 1) false) /\
  scaled_error ex_pid_report [[QFin 0]] [[QFin 0]] [[QFin 4]] <> QNaN /\
  force_dtmin ex_pid_report = false /\ dtmin ex_pid_report = Some (1#2) /\
  po_result (pid_adapt ex_pid_report (QFin 0) (QFin 1) [[QFin 0]] [[QFin 0]] [[QFin 4]] (PidState (QFin 1) (QFin 1) false))
    = dt_min_reached /\
  po_result (pid_adapt ex_pid_report (QFin 0) (QFin 1) [[QFin 0]] [[QFin 0]] [[QFin (5#4)]] (PidState (QFin 1) (QFin 1) false))
    = successful.
Proof.
  split; [exact ex_pid_report_ok|]. split; [apply ex_state_ok; lra|]. split; [vm_compute; discriminate|].
  repeat split; vm_compute; reflexivity.
Qed.

(** C22, C24: the restriction to errors that are not NaN is needed.  If a step overflows, so that
    the solution is infinite and the error estimate is NaN (turned into infinity), then the scaled
    error is NaN and so is the next step size, and all further attempts are rejected, even though
    [dtmin] is set. *)
Theorem C24_overflow_refuted :
  exists (p : pid_controller) (s : pid_state) (f : nat -> pid_out),
    pid_ok p /\ pid_state_ok s /\ dtmin p = Some (1#100) /\ dtmax p = Some 10 /\
    f 0%nat = pid_adapt p (QFin 0) (QFin 1) [[QFin 0]] [[QPInf]] (map (map nan_inf) [[QNaN]]) s /\
    (forall n, f (S n) = pid_adapt p (QFin 0) (po_t1 (f n)) [[QFin 0]] [[QNaN]]
                                   (map (map nan_inf) [[QNaN]]) (po_state (f n))) /\
    forall n, po_keep (f n) = false /\ po_result (f n) = successful /\ po_t1 (f n) = QNaN.
Proof.
  exists (ex_pid (Some (1#100)) (Some 10)), (PidState (QFin 1) (QFin 1) false), overflow.
  split; [apply ex_pid_ok; lra|]. split; [apply ex_state_ok; lra|].
  split; [reflexivity|]. split; [reflexivity|]. split; [reflexivity|]. split; [reflexivity|].
  intros n. destruct (overflow_stuck n) as (H1 & H2 & H3 & _). auto.
Qed.

Section PidLoop.
  Context {SS DI V MS : Type}.
  Notation config := (config tree SS pid_state DI tree V MS).
  Notation initial := (initial tree SS pid_state MS).
  Notation state := (state tree SS pid_state DI V MS).
  Notation attempt := (attempt tree).
  Notation outcome := (outcome tree SS pid_state DI V MS).

  (** C02: a solve with a PID controller. *)
  Theorem C02_pid_times :
    forall (val : Z -> Q) (rnd : Q -> Z) (p : pid_controller) (c : config) (i : initial) (h : list attempt) (o : outcome),
    rounding val rnd -> pid_ok p -> pid_solve val rnd p c i -> midpoint_ok c -> solve_run c i h o ->
    (forall a, In a h -> (cfg_t0 c <= at_from a /\ at_from a <= at_to a /\ at_to a <= cfg_t1 c)%Z) /\
    (forall h1 a b h2, h = h1 ++ a :: b :: h2 ->
       at_from b = if at_keep a then at_to a else at_from a).
  Proof. exact pf_C02_pid_times. Qed.
  (** C24: a solve with a PID controller that has a [dtmin] terminates, whatever solver, errors and
      events do.  Partial: [dtmin] is large in comparison with the spacing of floats, and the norm
      is never NaN. *)
  Theorem C24_solve_terminates_partial :
    forall (val : Z -> Q) (rnd : Q -> Z) (p : pid_controller) (m : Q) (c : config) (i : initial) (s0 : state),
    rounding val rnd -> pid_ok p -> pid_solve val rnd p c i -> dtmin p = Some m -> midpoint_ok c ->
    dtmin_resolved val rnd p c m -> init_state c i = Some s0 ->
    exists n, cond_fun c (while_loop c n s0) = false.
  Proof. exact pf_C24_solve_terminates_partial. Qed.
End PidLoop.

(** A solve with rejections. *)
Example C02_pid_instance :
  rounding inject_Z Qfloor /\ pid_ok (ex_pid_i (Some (inject_Z 100))) /\
  pid_solve inject_Z Qfloor (ex_pid_i (Some (inject_Z 100))) (ex_pid_cfg (1#200) (inject_Z 100) 1000) (ex_pid_init 500) /\
  midpoint_ok (ex_pid_cfg (1#200) (inject_Z 100) 1000) /\
  dtmin_resolved inject_Z Qfloor (ex_pid_i (Some (inject_Z 100))) (ex_pid_cfg (1#200) (inject_Z 100) 1000) (inject_Z 100) /\
  exists h o, solve_run (ex_pid_cfg (1#200) (inject_Z 100) 1000) (ex_pid_init 500) h o /\
    map (fun a => (at_from a, at_to a, at_keep a)) h =
    [(0, 500, false); (0, 180, true); (180, 360, true); (360, 540, true); (540, 720, true);
     (720, 900, true); (900, 1000, true)]%Z.
Proof.
  split; [exact ex_rounding|]. split; [apply ex_pid_i_ok; vm_compute; reflexivity|].
  split; [apply ex_pid_solve; lia|]. split; [apply ex_pid_midpoint|]. split; [apply ex_pid_resolved; lia|].
  apply runs. vm_compute. reflexivity.
Qed.

(** C24: that restriction is needed.  In the last 200 floats before [t1] the loop replaces whatever a
    controller proposes after a rejection by the midpoint; the same step is rejected for ever. *)
Theorem C24_near_t1_refuted :
  exists p c i s0, pid_ok p /\ dtmin p = Some 1 /\ pid_solve inject_Z Qfloor p c i /\ midpoint_ok c /\
    @init_state tree nat pid_state unit tree Z nat c i = Some s0 /\
    forall n, cond_fun c (while_loop c n s0) = true /\
              at_keep (attempt_of c (while_loop c n s0)) = false /\
              st_tprev (while_loop c n s0) = cfg_t0 c.
Proof.
  exists (ex_pid_i (Some 1)), (ex_pid_cfg (21#1500) 1 150), (ex_pid_init 75).
  eexists. split; [apply ex_pid_i_ok; lra|]. split; [reflexivity|]. split; [apply ex_pid_solve; lia|].
  split; [apply ex_pid_midpoint|]. split; [reflexivity|]. intros n.
  assert (Hw : forall n s, stuck s -> stuck (while_loop (ex_pid_cfg (21#1500) 1 150) n s)).
  { clear n. induction n as [|n IH]; intros s Hs; [exact Hs|]. cbn [while_loop].
    destruct (stuck_body s Hs) as (-> & _ & Hb). apply IH, Hb. }
  match goal with |- cond_fun _ (while_loop _ _ ?s) = true /\ _ => set (s0 := s) end.
  assert (Hs : stuck s0) by (unfold stuck; auto). specialize (Hw n s0 Hs).
  destruct (stuck_body _ Hw) as (H1 & H2 & _). split; [exact H1|]. split; [exact H2|]. apply Hw.
Qed.

Print Assumptions C22_step_size_change_partial.
Print Assumptions C22_dtmin_dtmax_partial.
Print Assumptions C22_initial.
Print Assumptions C23_accept_iff.
Print Assumptions C23_bad_error_rejected.
Print Assumptions C23_scaled_error_not_nan.
Print Assumptions C24_rejections_bounded_partial.
Print Assumptions C24_dtmin_reported.
Print Assumptions C24_overflow_refuted.
Print Assumptions C02_pid_times.
Print Assumptions C24_solve_terminates_partial.
Print Assumptions C24_near_t1_refuted.
