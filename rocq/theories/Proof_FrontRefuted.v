(** Calls that are treated differently from what the documentation of [HalfSolver] says. *)
From Coq Require Import ZArith List Bool Arith Reals QArith Lia.
From Verif Require Import Model_Result Model_Loop Model_Fixed Model_Dense Model_Direction Model_Front.
From Verif Require Import Spec_Loop Spec_Front Ex_Loop Ex_Front.
Import ListNotations.
Open Scope Z_scope.

Lemma pf_C62_isinstance_refuted :
  exists (c : solver_class) (s : solver Z), isinstance c s = true /\ isinstance c (Half s) = false.
Proof. exists CEuler, (Half (Base euler_i)). split; reflexivity. Qed.

Lemma pf_C62_nested_euler_refuted :
  exists (a : call Z nat nat (Z * Z) unit Z nat Z Z) s,
    brownian_somewhere a /\ adaptive (ca_controller a) /\ has_class CEuler (innermost (ca_solver a)) /\
    check_call z_ops a = Ok s.
Proof.
  exists (f_call sde_tree (Half (Half (Base euler_i))) 0 1000 (Some 100) save_t1 f_pid RecursiveCheckpointAdjoint).
  eexists. split; [|split; [constructor|split; [left; reflexivity|reflexivity]]].
  unfold brownian_somewhere, f_call, sde_tree. cbn [ca_terms].
  eapply occurs_below; [right; left; reflexivity|]. eapply occurs_below; [right; left; reflexivity|].
  apply occurs_here. eexists. left. reflexivity.
Qed.

Lemma pf_C62_half_scan_kind_refuted :
  exists i (call_with : solver Z -> call Z nat nat (Z * Z) unit Z nat Z Z),
    (forall s, ca_solver (call_with s) = s /\ ca_adjoint (call_with s) = DirectAdjoint) /\
    (exists s, check_call z_ops (call_with (Base i)) = Ok s) /\
    check_call z_ops (call_with (Half (Base i))) = Raise AttributeMissing.
Proof.
  exists tsit5_i, (fun s => f_call ode_tree s 0 1000 (Some 100) save_t1 f_pid DirectAdjoint).
  split; [intros s; split; reflexivity|]. split; [eexists; reflexivity|reflexivity].
Qed.

Lemma pf_C63_half_implicit_refuted :
  exists i (call_with : solver Z -> call Z nat nat (Z * Z) unit Z nat Z Z),
    (forall s, ca_solver (call_with s) = s) /\
    (exists s, check_call z_ops (call_with (Base i)) = Ok s) /\
    check_call z_ops (call_with (Half (Base i))) = Raise AttributeMissing.
Proof.
  exists kvaerno5_i, (fun s => f_call ode_tree s 0 1000 (Some 100) save_t1 f_pid RecursiveCheckpointAdjoint).
  split; [intros s; reflexivity|]. split; [eexists; reflexivity|reflexivity].
Qed.

Lemma pf_C63_nested_tolerances_refuted :
  exists (a : call Z nat nat (Z * Z) unit Z nat Z Z) s,
    adaptive (ca_controller a) /\ has_class CImplicit (innermost (ca_solver a)) /\ check_call z_ops a = Ok s /\
    si_root (innermost s) = Some (RootTols None None None).
Proof.
  exists (f_call ode_tree (Half (Half (Base kvaerno5_i))) 0 1000 (Some 100) save_t1 f_pid RecursiveCheckpointAdjoint).
  eexists. split; [constructor|]. split; [right; right; left; reflexivity|]. split; reflexivity.
Qed.
