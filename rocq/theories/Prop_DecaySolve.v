(** The rate of decay in whole solves of strongly dissipative equations by [ImplicitEuler]: C36. *)
From Coq Require Import ZArith Reals List Bool Arith Lia Lra.
From Verif Require Import Model_Result Model_Loop Model_Fixed Model_RK Model_Terms Model_Solvers Spec_Loop Spec_Fixed Spec_Solvers Proof_DecaySolve
  Ex_Loop Ex_Fixed Ex_MethodOrder Ex_MethodSolve Ex_ContractSolve.
Import ListNotations.
Open Scope R_scope.

Section Decay.
  Context {I CS V MS : Type}.
  Notation Y := (I -> R).
  Notation DI := (Y * Y)%type.
  Notation config := (config Y unit CS DI (option Y) V MS).
  Notation initial := (initial Y unit CS MS).
  Notation outcome := (outcome Y unit CS DI V MS).

  (** C36: if the vector field drives solutions together at the rate [mu], then in a successful solve, with any step size controller
      and steps of any length, the (squared) distance to an equilibrium decays with time at least like 1 / (1 + 2 mu t). *)
  Theorem C36_solve_decays :
    forall (root_find : (Y -> Y) -> Y -> Y * RESULTS) (f : R -> Y -> Y) (is : list I) (mu : R) (z : Y) (c : config) (i : initial) (h : list (attempt Y)) (o : outcome) (time : Z -> R),
    finds_roots root_find -> 0 <= mu ->
    (forall t y y', inner is (fun x => f t y x - f t y' x) (fun x => y x - y' x) <= - mu * inner is (fun x => y x - y' x) (fun x => y x - y' x)) ->
    (forall t x, f t z x = 0) ->
    (forall a b y s j, solver_step c a b y s j = me_step (implicit_euler root_find (ode_term f)) (time a) (time b) y s j) ->
    solve_run c i h o -> cfg_event c = None -> out_result o = successful -> rejects_in_place h -> no_time_jumps h ->
    (forall a, In a (accepted h) -> time (at_from a) <= time (at_to a)) ->
    let distance := fun y : Y => inner is (fun x => y x - z x) (fun x => y x - z x) in
    (forall a, In a (accepted h) -> (1 + 2 * mu * (time (at_to a) - time (cfg_t0 c))) * distance (at_y a) <= distance (in_y i)) /\
    (stepto_len c = None -> (cfg_t0 c <= cfg_t1 c)%Z -> results_ok c -> rf_results_ok c ->
     (1 + 2 * mu * (time (cfg_t1 c) - time (cfg_t0 c))) * distance (out_yfinal o) <= distance (in_y i)).
  Proof. exact pf_C36_solve_decays. Qed.
End Decay.

(** [y' = -3 y] from 1 in four steps. *)
Example C36_decay_instance :
  exists h o, solve_run (quarter_cfg triple_method) (triple_initial 1) h o /\ length (accepted h) = 4%nat /\ 7 * (out_yfinal o tt * out_yfinal o tt) <= 1.
Proof.
  set (c := quarter_cfg triple_method).
  destruct (runs c (triple_initial 1) (fun h o => out_result o = successful /\ length (accepted h) = 4%nat /\
              map (fun a => (at_from a, at_to a)) (accepted h) = [(0, 250); (250, 500); (500, 750); (750, 1000)]%Z /\
              map (fun a => (at_keep a, (at_end a =? at_to a)%Z)) h = [(true, true); (true, true); (true, true); (true, true)]))
    as (h & o & RUN & OK & LN & TS & KP); [vm_compute; auto|].
  exists h, o. do 2 (split; [assumption|]).
  destruct (quarter_results triple_method) as (RO & RFO); [intros a b y s j; destruct s, j; reflexivity|]. fold c in RO, RFO.
  assert (KE : forall a, In a h -> at_keep a = true /\ at_end a = at_to a).
  { intros a Ha. apply (in_map (fun a => (at_keep a, (at_end a =? at_to a)%Z))) in Ha. rewrite KP in Ha. cbv beta in Ha.
    assert (E : (true, true) = (at_keep a, (at_end a =? at_to a)%Z)) by (cbn [In] in Ha; tauto).
    injection E as <- E. split; [reflexivity|]. apply Z.eqb_eq. auto. }
  assert (RIP : rejects_in_place h).
  { unfold rejects_in_place. rewrite Forall_forall. intros a Ha E. destruct (KE a Ha). congruence. }
  assert (NTJ : no_time_jumps h).
  { unfold no_time_jumps. rewrite Forall_forall. intros a Ha _. apply (KE a Ha). }
  assert (FW : forall a, In a (accepted h) -> thousandths (at_from a) <= thousandths (at_to a)).
  { intros a Ha. apply (in_map (fun a => (at_from a, at_to a))) in Ha. rewrite TS in Ha. unfold thousandths.
    cbn [In] in Ha. decompose [or] Ha; try contradiction; match goal with E : _ = (at_from a, at_to a) |- _ => injection E as <- <- end; lra. }
  destruct (C36_solve_decays linear_root triple_decay [tt] 3 (fun _ => 0) c (triple_initial 1) h o thousandths linear_finds ltac:(lra)
              ltac:(intros t y y'; unfold triple_decay; cbn [inner fold_right]; lra)
              ltac:(intros t x; unfold triple_decay; ring) triple_steps RUN eq_refl OK RIP NTJ FW) as (_ & E).
  specialize (E eq_refl ltac:(cbn; lia) RO RFO).
  cbn [inner fold_right triple_initial in_y c quarter_cfg cfg_t0 cfg_t1] in E. unfold thousandths in E. lra.
Qed.

Print Assumptions C36_solve_decays.
