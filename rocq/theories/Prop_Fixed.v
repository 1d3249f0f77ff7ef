(** Theorems about solves with [ConstantStepSize] and [StepTo]: C25 to C27, and C02 for [StepTo]. *)
From Coq Require Import ZArith List Bool Arith Lia Sorting.Sorted QArith Qround Lqa.
From Verif Require Import Model_Result Model_Loop Spec_Loop Model_Fixed Spec_Fixed Proof_Fixed
  Proof_FixedQ Ex_Loop Ex_Fixed.
Import ListNotations.
Open Scope Z_scope.

Section StepTo.
  Context {Y SS DI E V MS : Type}.
  Notation config := (config Y SS nat DI E V MS).
  Notation initial := (initial Y SS nat MS).
  Notation outcome := (outcome Y SS nat DI V MS).
  Notation attempt := (attempt Y).

  (** C02: with [StepTo] all steps lie in [[t0, t1]] and follow each other. *)
  Theorem C02_stepto_times :
    forall (ts : list Z) (c : config) (i : initial) (h : list attempt) (o : outcome),
    stepto_solve ts c i -> solve_run c i h o ->
    (forall a, In a h -> cfg_t0 c <= at_from a /\ at_from a <= at_to a /\ at_to a <= cfg_t1 c) /\
    (forall h1 a b h2, h = h1 ++ a :: b :: h2 -> at_from b = at_to a).
  Proof. exact pf_C02_stepto_times. Qed.
  (** C26: the steps made are those prescribed, in order, and all of them if the solve succeeds.
      Partial: no prescribed time but the last is in the last 100 floats before [t1] (refuted
      otherwise). *)
  Theorem C26_steps_partial :
    forall (ts : list Z) (c : config) (i : initial) (h : list attempt) (o : outcome),
    stepto_solve ts c i -> (forall x, In x ts -> x < cfg_t1 c -> x <= cfg_t1 c - 100) ->
    solve_run c i h o -> results_ok c -> rf_results_ok c ->
    map (fun a => (at_from a, at_to a)) h = firstn (length h) (combine ts (tl ts)) /\
    Forall (fun a => at_keep a = true /\ at_end a = at_to a) h /\
    (length h <= length ts - 1)%nat /\
    (out_result o = successful ->
     map (fun a => (at_from a, at_to a)) h = combine ts (tl ts)).
  Proof. exact pf_C26_steps_partial. Qed.
  (** C27: with [StepTo], if nothing fails, the loop ends after exactly [len(ts) - 1] steps, and
      [max_steps_reached] is reported iff [max_steps] is less than that. *)
  Theorem C27_stepto :
    forall (ts : list Z) (c : config) (i : initial) (s0 : state Y SS nat DI V MS),
    stepto_solve ts c i -> cfg_event c = None ->
    (forall a b y ss j, so_result (solver_step c a b y ss j) = successful) ->
    (init_state c i = Some s0 -> cond_fun c (while_loop c (length ts - 1) s0) = false) /\
    (forall (h : list attempt) (o : outcome), solve_run c i h o ->
      match cfg_max_steps c with
      | Some m => length h = Nat.min m (length ts - 1) /\
                  (out_result o = max_steps_reached <-> (m < length ts - 1)%nat) /\
                  (out_result o = successful <-> (length ts - 1 <= m)%nat)
      | None => length h = (length ts - 1)%nat /\ out_result o = successful
      end).
  Proof. exact pf_C27_stepto. Qed.
End StepTo.

Section Const.
  Context {Y SS DI E V MS : Type}.
  Notation config := (config Y SS (const_state Z) DI E V MS).
  Notation initial := (initial Y SS (const_state Z) MS).
  Notation outcome := (outcome Y SS (const_state Z) DI V MS).
  Notation attempt := (attempt Y).

  (** C25: the steps lead from one point of the schedule to the next, none is rejected, and the
      solve succeeds upon reaching [t1]. *)
  Theorem C25_steps :
    forall (o : time_ops Z) (dt0 : Z) (c : config) (i : initial) (h : list attempt) (out : outcome),
    const_solve o dt0 c i -> 0 <= intended_steps o (cfg_t0 c) (cfg_t1 c) dt0 ->
    solve_run c i h out -> results_ok c -> rf_results_ok c ->
    let p := const_point o (cfg_t0 c) (cfg_t1 c) dt0 in
    map (fun a => (at_from a, at_to a)) h = map (fun k => (p k, p (S k))) (seq 0 (length h)) /\
    Forall (fun a => at_keep a = true /\ at_end a = at_to a) h /\
    (forall k, (k < length h)%nat -> p k < cfg_t1 c) /\
    (out_result out = successful -> p (length h) = cfg_t1 c).
  Proof. exact pf_C25_steps. Qed.
  (** C25: with monotone floating point arithmetic a successful solve takes the intended number
      of steps, the last ending at [t1] exactly, if the last but one point is not in the last 100
      floats before [t1] and the first step does not miss [t1] by rounding. *)
  Theorem C25_number_of_steps :
    forall (o : time_ops Z) (dt0 : Z) (c : config) (i : initial) (h : list attempt) (out : outcome),
    const_solve o dt0 c i -> ops_ok o -> solve_run c i h out -> results_ok c -> rf_results_ok c ->
    let t0 := cfg_t0 c in let t1 := cfg_t1 c in
    let n := intended_steps o t0 t1 dt0 in
    (n = 1 /\ t1 <= t_add o t0 dt0) \/ (2 <= n /\ t_add o t0 dt0 < t1) ->
    (3 <= n -> fraction o t0 t1 (n - 1) n <= t1 - 100) ->
    out_result out = successful ->
    length h = Z.to_nat n /\
    (forall k a, nth_error h k = Some a ->
       at_from a = (if (k =? 0)%nat then t0 else if (k =? 1)%nat then t_add o t0 dt0
                    else fraction o t0 t1 (Z.of_nat k) n) /\
       at_to a = (if (S k =? Z.to_nat n)%nat then t1 else if (k =? 0)%nat then t_add o t0 dt0
                  else fraction o t0 t1 (Z.of_nat (S k)) n)).
  Proof. exact pf_C25_number_of_steps. Qed.
  (** C27: with [ConstantStepSize], if nothing fails, the loop ends after exactly that number of
      steps, and [max_steps_reached] is reported iff [max_steps] is less than that. *)
  Theorem C27_const :
    forall (o : time_ops Z) (dt0 : Z) (c : config) (i : initial) (s0 : state Y SS (const_state Z) DI V MS),
    const_solve o dt0 c i -> ops_ok o -> cfg_event c = None ->
    (forall a b y ss j, so_result (solver_step c a b y ss j) = successful) ->
    let t0 := cfg_t0 c in let t1 := cfg_t1 c in
    let n := intended_steps o t0 t1 dt0 in
    (n = 1 /\ t1 <= t_add o t0 dt0) \/ (2 <= n /\ t_add o t0 dt0 < t1) ->
    (3 <= n -> fraction o t0 t1 (n - 1) n <= t1 - 100) ->
    (init_state c i = Some s0 -> cond_fun c (while_loop c (Z.to_nat n) s0) = false) /\
    (forall (h : list attempt) (out : outcome), solve_run c i h out ->
      match cfg_max_steps c with
      | Some m => length h = Nat.min m (Z.to_nat n) /\
                  (out_result out = max_steps_reached <-> (m < Z.to_nat n)%nat) /\
                  (out_result out = successful <-> (Z.to_nat n <= m)%nat)
      | None => length h = Z.to_nat n /\ out_result out = successful
      end).
  Proof. exact pf_C27_const. Qed.
End Const.

Open Scope Q_scope.
(** C25: in exact arithmetic (where [next] is any function that does not decrease [dt0]) the ends
    of the steps are strictly increasing and the [n]-th is [t1]. *)
  Theorem C25_exact :
    forall (next : Q -> Q) (t0 t1 dt0 : Q),
    t0 < t1 -> 0 < dt0 -> dt0 <= next dt0 ->
  let n := Qceiling ((t1 - t0) / next dt0) in
  let ends k := fst (exact_end next t0 t1 dt0 k) in
  (0 < n)%Z /\
  t0 < ends 0%nat /\
  (forall k, (Z.of_nat k + 1 < n)%Z -> ends k < ends (S k)) /\
  ((2 <= n)%Z -> ends (Z.to_nat n - 1)%nat = t1) /\
  (n = 1%Z -> t1 <= t0 + next dt0).
  Proof. exact pf_C25_exact. Qed.
(** C25: if [dt0] divides [t1 - t0] all steps have length [dt0]. *)
  Theorem C25_equal_steps :
    forall (next : Q -> Q) (t0 t1 dt0 : Q) (m : Z),
    t0 < t1 -> 0 < dt0 -> dt0 <= next dt0 ->
  t1 - t0 == inject_Z m * dt0 -> inject_Z (m - 1) * next dt0 < t1 - t0 ->
  Qceiling ((t1 - t0) / next dt0) = m /\
  (forall k, (Z.of_nat k < m)%Z ->
     fst (exact_end next t0 t1 dt0 k) == t0 + inject_Z (Z.of_nat k + 1) * dt0).
  Proof. exact pf_C25_equal_steps. Qed.
Close Scope Q_scope.

(** Five prescribed times. *)
Definition ts5 : list Z := [0; 100; 350; 360; 1000].
Example C26_instance :
  stepto_solve ts5 (ex_stepto_cfg ts5 (Some 9%nat) [sub_of true true None 0]) (ex_stepto_init ts5) /\
  (forall x, In x ts5 -> x < 1000 -> x <= 1000 - 100) /\
  exists h o, solve_run (ex_stepto_cfg ts5 (Some 9%nat) [sub_of true true None 0]) (ex_stepto_init ts5) h o /\
    (out_result o = successful /\
     map (fun a => (at_from a, at_to a)) h = [(0, 100); (100, 350); (350, 360); (360, 1000)]).
Proof.
  split. { repeat split; cbn; auto; try lia. repeat constructor; lia. }
  split. { intros x. cbn. lia. }
  apply runs. vm_compute. auto.
Qed.

(** Only three of the four steps are allowed. *)
Example C27_instance :
  exists h o, solve_run (ex_stepto_cfg ts5 (Some 3%nat) []) (ex_stepto_init ts5) h o /\
    (out_result o = max_steps_reached /\ length h = 3%nat).
Proof. apply runs. vm_compute. auto. Qed.

(** 100.0 in steps of 30.0: four steps are intended, the second is shorter than the others. *)
Example C25_instance :
  const_solve fix_ops 30000 (ex_const_cfg 100000 (Some 9%nat) []) (ex_const_init 100000 30000) /\
  ops_ok fix_ops /\ intended_steps fix_ops 0 100000 30000 = 4 /\
  t_add fix_ops 0 30000 < 100000 /\ fraction fix_ops 0 100000 3 4 <= 100000 - 100 /\
  exists h o, solve_run (ex_const_cfg 100000 (Some 9%nat) []) (ex_const_init 100000 30000) h o /\
    (out_result o = successful /\
     map (fun a => (at_from a, at_to a)) h
     = [(0, 30000); (30000, 50000); (50000, 75000); (75000, 100000)]).
Proof.
  split; [apply ex_const_solve; lia|]. split; [apply fix_ops_ok|]. split; [reflexivity|].
  split; [reflexivity|]. split; [discriminate|].
  apply runs. vm_compute. auto.
Qed.

(** C26 in full is false: a prescribed time in the last 100 floats before [t1] is skipped, and a step
    of length zero is made at the end. *)
Theorem C26_skipped_refuted :
  exists ts (c : config Z nat nat (Z * Z) unit Z nat) i h o,
    stepto_solve ts c i /\ solve_run c i h o /\ out_result o = successful /\
    map (fun a => (at_from a, at_to a)) h <> combine ts (tl ts) /\
    exists a, In a h /\ at_from a = at_to a.
Proof.
  set (ts := [0; 500; 950; 1000]).
  assert (H : exists h o, solve_run (ex_stepto_cfg ts (Some 9%nat) []) (ex_stepto_init ts) h o /\
    (out_result o = successful /\
     map (fun a => (at_from a, at_to a)) h = [(0, 500); (500, 1000); (1000, 1000)] /\
     exists a, nth_error h 2 = Some a /\ at_from a = at_to a)).
  { apply runs. vm_compute. split; [reflexivity|]. split; [reflexivity|]. eexists. split; reflexivity. }
  destruct H as (h & o & Hr & Ho & Hm & a & Ha & He).
  exists ts, (ex_stepto_cfg ts (Some 9%nat) []), (ex_stepto_init ts), h, o.
  split. { repeat split; cbn; auto; try lia. repeat constructor; lia. }
  split; [exact Hr|]. split; [exact Ho|]. split; [rewrite Hm; discriminate|].
  exists a. split; [eapply nth_error_In; exact Ha|exact He].
Qed.

(** C25: one step too many, as the number of steps is computed from [nextafter(dt0)]: one step is
    intended, it ends one float before [t1], and a second step over one float follows. *)
Theorem C25_extra_step_refuted :
  exists o dt0 (c : config Z nat (const_state Z) (Z * Z) unit Z nat) i h out,
    ops_ok o /\ const_solve o dt0 c i /\ solve_run c i h out /\ out_result out = successful /\
    intended_steps o (cfg_t0 c) (cfg_t1 c) dt0 = 1 /\ length h = 2%nat.
Proof.
  assert (H : exists h o, solve_run (ex_const_cfg 100000 (Some 9%nat) []) (ex_const_init 100000 99999) h o /\
    (out_result o = successful /\ length h = 2%nat)).
  { apply runs. vm_compute. auto. }
  destruct H as (h & o & Hr & Ho & Hl).
  exists fix_ops, 99999, (ex_const_cfg 100000 (Some 9%nat) []), (ex_const_init 100000 99999), h, o.
  split; [apply fix_ops_ok|]. split; [apply ex_const_solve; lia|]. split; [exact Hr|].
  split; [exact Ho|]. split; [reflexivity|exact Hl].
Qed.

(** C25: if [dt0] does not divide [t1 - t0] the step size is not constant, even in exact arithmetic:
    from 0 to 1 in steps of 2/5 the ends are 2/5, 2/3 and 1. *)
Theorem C25_not_constant_refuted :
  exists (t0 t1 dt0 : Q), (t0 < t1)%Q /\ (0 < dt0)%Q /\
    let ends k := fst (exact_end (fun x => x) t0 t1 dt0 k) in
    ~ (ends 1%nat - ends 0%nat == dt0)%Q /\ ~ (ends 2%nat - ends 1%nat == ends 1%nat - ends 0%nat)%Q /\
    (ends 2%nat == t1)%Q.
Proof.
  exists 0%Q, 1%Q, (2 # 5)%Q. split; [reflexivity|]. split; [reflexivity|]. cbv zeta.
  split; [vm_compute; discriminate|]. split; [vm_compute; discriminate|vm_compute; reflexivity].
Qed.
Example C25_exact_instance :
  (0 < 1)%Q /\ (0 < 2 # 5)%Q /\ Qceiling ((1 - 0) / (2 # 5)) = 3 /\
  (fst (exact_end (fun x => x) 0 1 (1 # 4) 2) == 3 # 4)%Q.
Proof. vm_compute. auto. Qed.

Print Assumptions C02_stepto_times.
Print Assumptions C26_steps_partial.
Print Assumptions C27_stepto.
Print Assumptions C25_steps.
Print Assumptions C25_number_of_steps.
Print Assumptions C27_const.
Print Assumptions C25_exact.
Print Assumptions C25_equal_steps.
Print Assumptions C26_skipped_refuted.
Print Assumptions C25_extra_step_refuted.
Print Assumptions C25_not_constant_refuted.
