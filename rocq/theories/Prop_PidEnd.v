(** Theorems about the termination of adaptive solves: C73. *)
From Coq Require Import QArith Qabs Qround ZArith List Bool Arith Lia Lqa.
From Verif Require Import Model_Result Model_Loop Spec_Loop Model_Float Model_PID Spec_PID Proof_PID Spec_PidEnd Proof_PidEnd
  Ex_Loop Ex_PID Ex_PidEnd.
Import ListNotations.
Open Scope Q_scope.

Section PidEnd.
  Context {SS DI V MS : Type}.
  Notation config := (config tree SS pid_state DI tree V MS).
  Notation initial := (initial tree SS pid_state MS).
  Notation state := (state tree SS pid_state DI V MS).

  (** C73: an adaptive solve over an interval of length [T], without [dtmin] and without a limit on
      the number of steps, ends, if every attempt of length at most [h] is accepted; a bound on the
      number of attempts, accepted and rejected, is given.  Rounding of times is allowed for. *)
  Theorem C73_ends :
    forall (val : Z -> Q) (rnd : Q -> Z) (p : pid_controller) (c : config) (i : initial) (s0 : state) (h delta u : Q),
    rounding val rnd -> pid_ok p -> dtmin p = None -> pid_run val rnd p c i -> midpoint_ok c ->
    rounding_error val rnd (cfg_t0 c) (cfg_t1 c) u ->
    midpoint_error val (midpoint c) (cfg_t0 c) (cfg_t1 c) u ->
    let T := val (cfg_t1 c) - val (cfg_t0 c) in
    negligible p T h delta u -> first_step_at_least val c i (2 * delta) ->
    init_state c i = Some s0 -> no_nan_error p c s0 -> short_accepted val c s0 h ->
    ends_within c s0 ((T / delta + 1) * (2 * T / ((1 - safety p) * h) + 1)).
  Proof. exact pf_C73_ends. Qed.
  (** C73: that is so if the error estimate is at most [k] times the length of the step and
      [k * h < atol]. *)
  Theorem C73_proportional_error :
    forall (val : Z -> Q) (rnd : Q -> Z) (p : pid_controller) (c : config) (i : initial) (s0 : state) (k h delta u : Q),
    rounding val rnd -> pid_ok p -> dtmin p = None -> pid_run val rnd p c i -> midpoint_ok c ->
    rounding_error val rnd (cfg_t0 c) (cfg_t1 c) u ->
    midpoint_error val (midpoint c) (cfg_t0 c) (cfg_t1 c) u ->
    let T := val (cfg_t1 c) - val (cfg_t0 c) in
    negligible p T h delta u -> first_step_at_least val c i (2 * delta) ->
    init_state c i = Some s0 ->
    norm_below_max p -> 0 <= rtol p -> finite_tree (in_y i) ->
    0 <= k -> error_at_most val c k -> k * h < atol p ->
    ends_within c s0 ((T / delta + 1) * (2 * T / ((1 - safety p) * h) + 1)).
  Proof. exact pf_C73_proportional_error. Qed.
End PidEnd.

(** A solve in which the first step is rejected.  The bound is about 10000 attempts; the solve takes
    seven. *)
Example C73_instance :
  rounding inject_Z Qfloor /\ pid_ok (pe_pid (Some 3000)) /\ dtmin (pe_pid (Some 3000)) = None /\
  pid_run inject_Z Qfloor (pe_pid (Some 3000)) (pe_cfg proportional 10000) (ex_pid_init 5000) /\
  midpoint_ok (pe_cfg proportional 10000) /\
  rounding_error inject_Z Qfloor 0 10000 1 /\
  midpoint_error inject_Z (midpoint (pe_cfg proportional 10000)) 0 10000 1 /\
  negligible (pe_pid (Some 3000)) (inject_Z 10000 - inject_Z 0) 2040 100 1 /\
  first_step_at_least inject_Z (pe_cfg proportional 10000) (ex_pid_init 5000) (2 * 100) /\
  norm_below_max (pe_pid (Some 3000)) /\ 0 <= rtol (pe_pid (Some 3000)) /\ finite_tree (in_y (ex_pid_init 5000)) /\
  error_at_most inject_Z (pe_cfg proportional 10000) (1#2041) /\ (1#2041) * 2040 < atol (pe_pid (Some 3000)) /\
  exists s0, init_state (pe_cfg proportional 10000) (ex_pid_init 5000) = Some s0 /\
    no_nan_error (pe_pid (Some 3000)) (pe_cfg proportional 10000) s0 /\
    short_accepted inject_Z (pe_cfg proportional 10000) s0 2040 /\
    map (fun a => (at_from a, at_to a, at_keep a)) (history (pe_cfg proportional 10000) 40 s0) =
    [(0, 5000, false); (0, 1836, true); (1836, 3672, true); (3672, 5508, true); (5508, 7344, true);
     (7344, 9180, true); (9180, 10000, true)]%Z.
Proof.
  split; [exact ex_rounding|]. split; [apply pe_pid_ok; lra|]. split; [reflexivity|].
  split; [apply pe_run; lia|]. split; [apply pe_midpoint|]. split; [apply pe_rounding_error|].
  split; [apply pe_midpoint_error|]. split; [exact pe_negligible|]. split; [intros _; vm_compute; congruence|].
  split; [exact max_norm_below|]. split; [cbn; lra|]. split; [exact pe_start|]. split; [exact pe_error|].
  split; [vm_compute; reflexivity|].
  eexists. split; [reflexivity|].
  match goal with |- no_nan_error _ _ ?s /\ _ => destruct (pe_attempts s eq_refl) as [A B] end.
  split; [exact A|]. split; [exact B|]. vm_compute. reflexivity.
Qed.

(** C73: some such condition is needed: a solve whose error estimates never get small goes on for
    ever, with steps that shrink to nothing. *)
Theorem C73_condition_needed :
  exists p c i s0, pid_ok p /\ dtmin p = None /\ pid_run inject_Z Qfloor p c i /\ midpoint_ok c /\
    @init_state tree nat pid_state unit tree Z nat c i = Some s0 /\ no_nan_error p c s0 /\
    forall n, cond_fun c (while_loop c n s0) = true /\
              at_keep (attempt_of c (while_loop c n s0)) = false /\
              st_tprev (while_loop c n s0) = cfg_t0 c.
Proof.
  exists (pe_pid (Some 3000)), (pe_cfg (fun _ _ => 2) 10000), (ex_pid_init 1).
  eexists. split; [apply pe_pid_ok; lra|]. split; [reflexivity|]. split; [apply pe_run; lia|].
  split; [apply pe_midpoint|]. split; [reflexivity|].
  match goal with |- no_nan_error _ _ ?s /\ _ => set (s0 := s) end.
  assert (Hw : forall n, pe_stuck (while_loop (pe_cfg (fun _ _ => 2) 10000) n s0)).
  { assert (Hs : pe_stuck s0) by (unfold pe_stuck; auto 10). clearbody s0.
    intros n. revert s0 Hs. induction n as [|n IH]; intros s Hs; [exact Hs|]. cbn [while_loop].
    destruct (pe_stuck_body s Hs) as (-> & _ & Hb). apply IH, Hb. }
  split.
  - intros n _. destruct (Hw n) as (H1 & H2 & H3 & H4 & H5). unfold attempt_error. rewrite H3. vm_compute. discriminate.
  - intros n. destruct (pe_stuck_body _ (Hw n)) as (H1 & H2 & _). split; [exact H1|]. split; [exact H2|]. apply Hw.
Qed.

Print Assumptions C73_ends.
Print Assumptions C73_proportional_error.
Print Assumptions C73_condition_needed.
