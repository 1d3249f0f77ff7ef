(** Theorems about the error of whole solves and the tolerances: C74. *)
From Coq Require Import QArith Qabs Qround ZArith Reals Qreals List Bool Arith Lia.
From Verif Require Import Model_Result Model_Loop Spec_Loop Model_Float Model_PID Spec_PID Spec_PidEnd Spec_Tolerance
  Proof_Tolerance Ex_Loop Ex_PID Ex_PidEnd Ex_Tolerance.
From Coq Require Lqa Lra.
Import ListNotations.
Open Scope R_scope.

Section Accumulate.
  Context {Y SS CS DI E V MS W : Type}.
  Notation config := (config Y SS CS DI E V MS).
  Notation initial := (initial Y SS CS MS).
  Notation attempt := (attempt Y).
  Notation outcome := (outcome Y SS CS DI V MS).

  (** C74: for every solver and controller, the error after each accepted step is at most the sum of
      the local errors so far, grown at the rate at which solutions move apart. *)
  Theorem C74_accumulate :
    forall (c : config) (i : initial) (h : list attempt) (o : outcome) (emb : Y -> W) (time : Z -> R) (d : W -> W -> R) (flow : R -> R -> W -> W) (L : R),
    solve_run c i h o -> exact_flow d flow L -> rejects_in_place h -> no_time_jumps h ->
    (forall a, In a h -> at_keep a = true -> time (at_from a) <= time (at_to a)) ->
    let exact := fun t => flow (time (cfg_t0 c)) t (emb (in_y i)) in
    (forall l1 a l2, accepted h = l1 ++ a :: l2 ->
       d (emb (at_y a)) (exact (time (at_to a))) <= grown_errors emb time d flow L (time (at_to a)) (l1 ++ [a])) /\
    (stepto_len c = None -> (cfg_t0 c <= cfg_t1 c)%Z -> results_ok c -> rf_results_ok c -> out_result o = successful ->
       d (emb (out_yfinal o)) (exact (time (cfg_t1 c))) <= grown_errors emb time d flow L (time (cfg_t1 c)) (accepted h)).
  Proof. exact pf_C74_accumulate. Qed.
End Accumulate.

Section Tolerance.
  Context {SS DI V MS W : Type}.
  Notation config := (config tree SS pid_state DI tree V MS).
  Notation initial := (initial tree SS pid_state MS).
  Notation attempt := (attempt tree).
  Notation outcome := (outcome tree SS pid_state DI V MS).

  (** C74: with the PID controller, and an error estimate that is reliable up to a factor [kappa], the
      local error of every accepted step is at most a constant times [atol + rtol * B]; so is the error
      of the solve, times the number of accepted steps. *)
  Theorem C74_tolerance :
    forall (val : Z -> Q) (rnd : Q -> Z) (p : pid_controller) (c : config) (i : initial) (h : list attempt) (o : outcome) (emb : tree -> W) (d : W -> W -> R) (flow : R -> R -> W -> W) (L kappa : R) (w B : Q),
    let time := fun z => Q2R (val z) in
    rounding val rnd -> pid_ok p -> dtmin p = None -> pid_run val rnd p c i -> midpoint_ok c -> solve_run c i h o ->
    (0 < atol p)%Q -> (0 <= rtol p)%Q -> (0 <= w)%Q -> norm_controls p w -> keeps_shape c ->
    exact_flow d flow L -> 0 <= L -> 0 <= kappa -> reliable c emb time d flow kappa B -> (0 <= B)%Q ->
    (forall a, In a (accepted h) -> bounded_tree B (at_yprev a) /\ bounded_tree B (at_y a)) ->
    let exact := fun t => flow (time (cfg_t0 c)) t (emb (in_y i)) in
    let tolerance := Q2R (atol p + rtol p * B)%Q in
    (forall a, In a (accepted h) -> local_error emb time d flow a <= kappa * Q2R w * tolerance) /\
    (forall l1 a l2, accepted h = l1 ++ a :: l2 ->
       d (emb (at_y a)) (exact (time (at_to a))) <=
       exp (L * (time (at_to a) - time (cfg_t0 c))) * (kappa * Q2R w * tolerance) * INR (length (l1 ++ [a]))) /\
    (results_ok c -> rf_results_ok c -> out_result o = successful ->
       d (emb (out_yfinal o)) (exact (time (cfg_t1 c))) <=
       exp (L * (time (cfg_t1 c) - time (cfg_t0 c))) * (kappa * Q2R w * tolerance) * INR (length (accepted h))).
  Proof. exact pf_C74_tolerance. Qed.
End Tolerance.

(** An adaptive solve of [y' = y / 10000] over [[0, 10000]] with [rtol = atol = 1/100], in which two of twelve
    attempts are rejected. *)
Example C74_instance :
  let time := fun z => Q2R (inject_Z z) in
  rounding inject_Z Qfloor /\ pid_ok tol_pid /\ dtmin tol_pid = None /\
  pid_run inject_Z Qfloor tol_pid tol_cfg (tol_init 5000) /\ midpoint_ok tol_cfg /\
  (0 < atol tol_pid)%Q /\ (0 <= rtol tol_pid)%Q /\ norm_controls tol_pid 1 /\ keeps_shape tol_cfg /\
  exact_flow tol_dist tol_flow (1 / 10000) /\ reliable tol_cfg tol_emb time tol_dist tol_flow 4 3 /\
  exists h o, solve_run tol_cfg (tol_init 5000) h o /\
    (forall a, In a (accepted h) -> bounded_tree 3 (at_yprev a) /\ bounded_tree 3 (at_y a)) /\
    out_result o = successful /\ length (accepted h) = 10%nat /\ length h = 12%nat.
Proof.
  split; [exact ex_rounding|]. split; [exact tol_pid_ok|]. split; [reflexivity|]. split; [exact tol_run|].
  split; [exact tol_midpoint|]. split; [reflexivity|]. split; [vm_compute; congruence|].
  split; [exact max_norm_controls|]. split; [exact tol_shape|]. split; [exact tol_exact|]. split; [exact tol_reliable|].
  eexists. eexists. split; [|split; [|split; [|split]]].
  - eexists. exists 20%nat. split; [reflexivity|]. split; [vm_compute; reflexivity|]. split; [reflexivity|]. vm_compute. reflexivity.
  - assert (G : forall l : list (attempt tree),
      forallb (fun a => forallb (forallb (fun x => match x with QFin r => Qle_bool (Qabs r) 3 | _ => false end)) (at_yprev a) &&
                 forallb (forallb (fun x => match x with QFin r => Qle_bool (Qabs r) 3 | _ => false end)) (at_y a)) l = true ->
      forall a, In a l -> bounded_tree 3 (at_yprev a) /\ bounded_tree 3 (at_y a)).
    { intros l Hl a Ha. rewrite forallb_forall in Hl. apply Hl, andb_prop in Ha.
      assert (B : forall t, forallb (forallb (fun x => match x with QFin r => Qle_bool (Qabs r) 3 | _ => false end)) t = true -> bounded_tree 3 t).
      { intros t Ht. apply List.Forall_forall. intros x Hx. apply List.Forall_forall. intros z Hz. rewrite forallb_forall in Ht.
        specialize (Ht x Hx). rewrite forallb_forall in Ht. specialize (Ht z Hz). destruct z; try discriminate.
        eexists. split; [reflexivity|]. apply Qle_bool_iff, Ht. }
      split; apply B, Ha. }
    apply G. vm_compute. reflexivity.
  - reflexivity.
  - vm_compute. reflexivity.
  - vm_compute. reflexivity.
Qed.

Print Assumptions C74_accumulate.
Print Assumptions C74_tolerance.
