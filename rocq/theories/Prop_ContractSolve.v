(** Theorems about whole solves of dissipative equations by [ImplicitEuler]: C36. *)
From Coq Require Import ZArith Reals List Bool Arith Lia Lra.
From Verif Require Import Model_Result Model_Loop Model_Fixed Model_RK Model_Terms Model_Solvers Spec_Loop Spec_Fixed Spec_Solvers Proof_ContractSolve
  Ex_Loop Ex_Fixed Ex_MethodOrder Ex_MethodSolve Ex_ContractSolve.
Import ListNotations.
Open Scope R_scope.

Section Contract.
  Context {I CS V MS : Type}.
  Notation Y := (I -> R).
  Notation DI := (Y * Y)%type.
  Notation config := (config Y unit CS DI (option Y) V MS).
  Notation initial := (initial Y unit CS MS).
  Notation outcome := (outcome Y unit CS DI V MS).

  (** C36: in a successful solve of a dissipative equation, with any step size controller and steps of any length, the (squared)
      distance to an equilibrium grows in no accepted step. *)
  Theorem C36_solve_towards_equilibrium :
    forall (root_find : (Y -> Y) -> Y -> Y * RESULTS) (f : R -> Y -> Y) (is : list I) (z : Y) (c : config) (i : initial) (h : list (attempt Y)) (o : outcome) (time : Z -> R),
    finds_roots root_find -> dissipative is f -> (forall t x, f t z x = 0) ->
    (forall a b y s j, solver_step c a b y s j = me_step (implicit_euler root_find (ode_term f)) (time a) (time b) y s j) ->
    solve_run c i h o -> cfg_event c = None -> out_result o = successful -> rejects_in_place h ->
    (forall a, In a (accepted h) -> time (at_from a) <= time (at_to a)) ->
    let distance := fun y : Y => inner is (fun x => y x - z x) (fun x => y x - z x) in
    (forall a, In a (accepted h) -> distance (at_y a) <= distance (at_yprev a) /\ distance (at_y a) <= distance (in_y i)) /\
    (stepto_len c = None -> (cfg_t0 c <= cfg_t1 c)%Z -> results_ok c -> rf_results_ok c -> distance (out_yfinal o) <= distance (in_y i)).
  Proof. exact pf_C36_solve_towards_equilibrium. Qed.
  (** C36: two successful solves from different initial values that take the same steps move closer together in every step. *)
  Theorem C36_solves_contract :
    forall (root_find : (Y -> Y) -> Y -> Y * RESULTS) (f : R -> Y -> Y) (is : list I) (c c' : config) (i i' : initial) (h h' : list (attempt Y)) (o o' : outcome) (time : Z -> R),
    finds_roots root_find -> dissipative is f ->
    (forall a b y s j, solver_step c a b y s j = me_step (implicit_euler root_find (ode_term f)) (time a) (time b) y s j) ->
    (forall a b y s j, solver_step c' a b y s j = me_step (implicit_euler root_find (ode_term f)) (time a) (time b) y s j) ->
    solve_run c i h o -> cfg_event c = None -> out_result o = successful -> rejects_in_place h ->
    solve_run c' i' h' o' -> cfg_event c' = None -> out_result o' = successful -> rejects_in_place h' ->
    (forall a, In a (accepted h) -> time (at_from a) <= time (at_to a)) ->
    map (fun a => (time (at_from a), time (at_to a))) (accepted h) = map (fun a => (time (at_from a), time (at_to a))) (accepted h') ->
    let distance := fun y y' : Y => inner is (fun x => y x - y' x) (fun x => y x - y' x) in
    (forall k a b, nth_error (accepted h) k = Some a -> nth_error (accepted h') k = Some b ->
       distance (at_y a) (at_y b) <= distance (at_yprev a) (at_yprev b) /\ distance (at_y a) (at_y b) <= distance (in_y i) (in_y i')) /\
    (stepto_len c = None -> (cfg_t0 c <= cfg_t1 c)%Z -> results_ok c -> rf_results_ok c ->
     stepto_len c' = None -> (cfg_t0 c' <= cfg_t1 c')%Z -> results_ok c' -> rf_results_ok c' ->
     distance (out_yfinal o) (out_yfinal o') <= distance (in_y i) (in_y i')).
  Proof. exact pf_C36_solves_contract. Qed.
End Contract.

(** [y' = -3 y] from 1 and from 5 in four steps: the values move towards 0 and towards each other. *)
Example C36_contract_instance :
  exists h o h' o', solve_run (quarter_cfg triple_method) (triple_initial 1) h o /\ solve_run (quarter_cfg triple_method) (triple_initial 5) h' o' /\
    length (accepted h) = 4%nat /\ length (accepted h') = 4%nat /\
    out_yfinal o tt * out_yfinal o tt <= 1 /\ (out_yfinal o tt - out_yfinal o' tt) * (out_yfinal o tt - out_yfinal o' tt) <= 16.
Proof.
  set (c := quarter_cfg triple_method).
  pose (Q := fun (h : list (attempt (unit -> R))) (o : outcome (unit -> R) unit (const_state Z) ((unit -> R) * (unit -> R)) (unit -> R) unit) =>
         out_result o = successful /\ length (accepted h) = 4%nat /\ map (fun a => (at_from a, at_to a)) (accepted h) = [(0, 250); (250, 500); (500, 750); (750, 1000)]%Z /\
         map at_keep h = [true; true; true; true]).
  destruct (runs c (triple_initial 1) Q) as (h & o & RUN & OK & LN & TS & KP); [vm_compute; auto|].
  destruct (runs c (triple_initial 5) Q) as (h' & o' & RUN' & OK' & LN' & TS' & KP'); [vm_compute; auto|]. clear Q.
  exists h, o, h', o'. do 4 (split; [assumption|]).
  destruct (quarter_results triple_method) as (RO & RFO); [intros a b y s j; destruct s, j; reflexivity|]. fold c in RO, RFO.
  assert (RIP : forall l : list (attempt (unit -> R)), map at_keep l = [true; true; true; true] -> rejects_in_place l).
  { intros l KL. unfold rejects_in_place. rewrite Forall_forall. intros a Ha E. apply (in_map at_keep) in Ha. rewrite KL, E in Ha.
    cbn in Ha. decompose [or] Ha; discriminate || contradiction. }
  assert (FW : forall a, In a (accepted h) -> thousandths (at_from a) <= thousandths (at_to a)).
  { intros a Ha. apply (in_map (fun a => (at_from a, at_to a))) in Ha. rewrite TS in Ha. unfold thousandths.
    cbn [In] in Ha. decompose [or] Ha; try contradiction; match goal with E : _ = (at_from a, at_to a) |- _ => injection E as <- <- end; lra. }
  assert (TE : forall l : list (attempt (unit -> R)), map (fun a => (thousandths (at_from a), thousandths (at_to a))) l
                 = map (fun p => (thousandths (fst p), thousandths (snd p))) (map (fun a => (at_from a, at_to a)) l)) by (intros l; rewrite map_map; reflexivity).
  destruct (C36_solve_towards_equilibrium linear_root triple_decay [tt] (fun _ => 0) c (triple_initial 1) h o thousandths linear_finds triple_dissipative
              ltac:(intros t x; unfold triple_decay; ring) triple_steps RUN eq_refl OK (RIP h KP) FW) as (_ & E).
  destruct (C36_solves_contract linear_root triple_decay [tt] c c (triple_initial 1) (triple_initial 5) h h' o o' thousandths linear_finds triple_dissipative
              triple_steps triple_steps RUN eq_refl OK (RIP h KP) RUN' eq_refl OK' (RIP h' KP') FW ltac:(rewrite !TE, TS, TS'; reflexivity)) as (_ & E').
  specialize (E eq_refl ltac:(cbn; lia) RO RFO). specialize (E' eq_refl ltac:(cbn; lia) RO RFO eq_refl ltac:(cbn; lia) RO RFO).
  cbn [inner fold_right triple_initial in_y] in E, E'. split; lra.
Qed.

Print Assumptions C36_solve_towards_equilibrium.
Print Assumptions C36_solves_contract.
