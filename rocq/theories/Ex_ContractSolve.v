(** A dissipative equation solved by [ImplicitEuler] with a constant step size. *)
From Coq Require Import ZArith Reals List Bool Arith Lia Lra.
From Verif Require Import Model_Result Model_Loop Model_Fixed Model_RK Model_Terms Model_Solvers Spec_Loop Spec_Fixed Spec_Solvers Ex_Fixed Ex_MethodOrder Ex_MethodSolve.
Import ListNotations.
Open Scope R_scope.

(** [y' = -3 y] *)
Definition triple_decay (_ : R) (y : unit -> R) : unit -> R := fun x => -3 * y x.
(** [linear_root] without the check of the result. *)
Definition secant (g : (unit -> R) -> unit -> R) (_ : unit -> R) : (unit -> R) * RESULTS :=
  let g0 := g (fun _ => 0) tt in let g1 := g (fun _ => 1) tt in
  (fun _ : unit => - (g0 / (g1 - g0)), successful).
Definition triple_method := implicit_euler secant (ode_term triple_decay).
Definition triple_initial (y : R) : initial (unit -> R) unit (const_state Z) unit :=
  Initial (fun _ => y) (fst (const_init fix_ops 0 1000 250)%Z) false tt (snd (const_init fix_ops 0 1000 250)%Z) tt PInf.

Lemma linear_finds : finds_roots linear_root.
Proof. intros g z. unfold linear_root. cbv zeta. destruct (Req_EM_T _ 0) as [E|N]; [intros _ []; exact E|discriminate]. Qed.
Lemma triple_dissipative : dissipative [tt] triple_decay.
Proof. intros t y z. cbn. unfold triple_decay. pose proof (Rle_0_sqr (y tt - z tt)). unfold Rsqr in *. lra. Qed.
Lemma triple_steps : forall a b y s j,
  solver_step (quarter_cfg triple_method) a b y s j = me_step (implicit_euler linear_root (ode_term triple_decay)) (thousandths a) (thousandths b) y s j.
Proof.
  intros a b y s j. cbn [quarter_cfg solver_step triple_method implicit_euler me_step]. unfold secant, linear_root. cbv zeta.
  match goal with |- context [Req_EM_T ?e 0] => assert (Z : e = 0) end; [|destruct (Req_EM_T _ 0) as [_|N]; [reflexivity|contradiction]].
  cbv [implicit_relation ode_term with_default_vf_prod t_contr t_vf_prod t_prod t_vf triple_decay vsub vadd vscale thousandths].
  assert (NZ : 1000 + 3 * (IZR b - IZR a) <> 0).
  { rewrite <- minus_IZR, <- mult_IZR, <- plus_IZR. apply not_0_IZR. lia. }
  field. intros E. apply NZ. lra.
Qed.
