(** Concrete calls of [diffeqsolve], used by the non-vacuity examples. *)
From Coq Require Import ZArith List Bool Arith Reals QArith Lia Lra FunctionalExtensionality.
From Verif Require Import Model_Result Model_Loop Model_Fixed Model_Dense Model_Direction Model_Front.
From Verif Require Import Spec_Loop Spec_Front Ex_Loop.
Import ListNotations.
Open Scope Z_scope.

Definition z_ops : time_ops Z :=
  TimeOps Z Z.add Z.sub Z.mul Z.div (fun n => n) (fun n => n) (fun n => n) (fun _ => true).
Lemma z_signs : signs_ok z_ops.
Proof. split; reflexivity. Qed.

Definition z_norm (y : Z) : R := IZR (Z.abs y).
Definition f_tols : tols Z := Tols 3 2 z_norm.
Definition f_pid : controller (pid_params Z) := CPID (PidParams f_tols None).
Definition f_clip : controller (pid_params Z) := CClip (CClip f_pid None (Some [500]) None) (Some [400]) None (Some 9%nat).

(** [Tsit5], [Euler] and [Kvaerno5] with the default root finder. *)
Definition tsit5_i : solver_info Z :=
  SolverInfo [CAdaptive; CRungeKuttaOrSRK] None true true (Some 5%Q) None (Some 5%Q) true.
Definition euler_i : solver_info Z :=
  SolverInfo [CEuler; CIto] None false false (Some 1%Q) (Some (1 # 2)) (Some 1%Q) true.
Definition kvaerno5_i : solver_info Z :=
  SolverInfo [CAdaptive; CRungeKuttaOrSRK; CImplicit] (Some with_stepsize_controller_tols) true true
             (Some 5%Q) None (Some 5%Q) true.
(** With [VeryChord(rtol=1/2, atol=<that of the controller>, norm=<that of the controller>)]. *)
Definition kvaerno5_rtol_i : solver_info Z :=
  SolverInfo [CAdaptive; CRungeKuttaOrSRK; CImplicit] (Some (RootTols (Some (/ 2)%R) None None)) true true
             (Some 5%Q) None (Some 5%Q) true.

(** [MultiTerm(ODETerm(...), ControlTerm(..., VirtualBrownianTree(...)))]; the same with [UnsafeBrownianPath]. *)
Definition ode_tree : pytree := Node KTerm [Node KBox [Leaf]].
Definition sde_tree : pytree := Node KMulti [Node KTerm [Leaf]; Node KTerm [Leaf; Node KBrownian [Leaf; Leaf]]].
Definition unsafe_tree : pytree := Node KMulti [Node KTerm [Leaf]; Node KTerm [Leaf; Node KUnsafe [Leaf]]].
(** [ControlTerm(..., CubicInterpolation(...))] *)
Definition cde_tree : pytree := Node KTerm [Leaf; Node KPath [Leaf; Leaf]].

Definition f_term : term Z Z Z := Term (fun t y => if t <? 300 then 1 else 2) (fun a b => b - a) Z.mul.
Definition f_problem (s : solver Z) : problem Z nat nat (Z * Z) unit Z nat Z Z (pid_params Z) :=
  Problem f_term (fun _ _ _ _ => 0%nat)
          (fun T a b y ss j => StepOut (y + term_prod T (term_vf T a y) (term_contr T a b)) tt (a, y) (S ss) successful)
          ex_interp CConstant
          (fun k _ t0 t1 y dt0 => match k with
                                  | CStepTo ts => match stepto_init ts with Some q => q | None => (t1, 0%nat) end
                                  | _ => (t0 + 250, 0%nat)
                                  end)
          (fun k => match k with CStepTo ts => stepto_adapt ts | _ => ex_adapt end) (fun e => e)
          (fun a b => a + (b - a) / 2) (fun _ _ n _ => S n) 0%nat [] false None 0 0 None None false 10.

Definition z_save (t y : Z) : Z := y.
(** [SaveAt(t1=True)] and [SaveAt(subs=[SubSaveAt(t0=True, ts=...), [SubSaveAt(steps=2, fn=...)]], dense=True)] *)
Definition save_t1 : saveat Z Z := SaveAt (SubLeaf (SubObj (SubSaveAt false true None 0 z_save) true)) false false false false.
Definition save_tree (ts : list Z) : saveat Z Z :=
  SaveAt (SubNode [SubLeaf (SubObj (SubSaveAt true false (Some ts) 0 z_save) true);
                   SubNode [SubLeaf (SubObj (SubSaveAt false false None 2 (fun t y => t + y)) false)]])
         true false false false.
Lemma save_t1_made : make_saveat z_save (SubArgs false true None (inl false) None) None false false false false = Ok save_t1.
Proof. reflexivity. Qed.
Lemma save_tree_made t ts : Forall (constructed z_save) (sub_leaves (sv_subs (save_tree (t :: ts)))).
Proof.
  repeat constructor.
  - exists (SubArgs true false (Some (t :: ts)) (inl false) None). reflexivity.
  - exists (SubArgs false false None (inr 2%nat) (Some (fun t y => t + y))). reflexivity.
Qed.

Definition f_call (terms : pytree) (s : solver Z) (t0 t1 : Z) (dt0 : option Z) (v : saveat Z Z)
           (k : controller (pid_params Z)) (adj : adjoint) : call Z nat nat (Z * Z) unit Z nat Z Z :=
  Call f_problem terms s t0 t1 dt0 v k adj (Some 20%nat) true false false false.

(** Steady states: the event stops once [|vf| < 2 + 3 |y|]. *)
Definition s_func (t y : Z) : Z := 4000 - y.
Definition s_event (t y : Z) : bool := Z.abs (s_func t y) <? 2 + 3 * Z.abs y.
Lemma s_event_made :
  steady_state_event (fun n v => n v) None (Some 2%R) None f_clip s_func = Ok s_event.
Proof.
  unfold steady_state_event. cbn. f_equal. apply functional_extensionality. intros t.
  apply functional_extensionality. intros y. unfold s_event, z_norm.
  assert (H : (2 + 3 * IZR (Z.abs y))%R = IZR (2 + 3 * Z.abs y)) by (rewrite plus_IZR, mult_IZR; reflexivity).
  destruct (Rlt_dec _ _) as [h|h]; rewrite H in h; symmetry.
  - apply Z.ltb_lt. apply lt_IZR. exact h.
  - apply Z.ltb_ge. apply le_IZR. apply Rnot_lt_le. exact h.
Qed.
