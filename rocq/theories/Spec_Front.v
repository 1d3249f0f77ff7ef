(** Specification vocabulary for the checks made by [diffeqsolve]: which calls are acceptable, in the user's
    time. *)
From Coq Require Import ZArith List Bool Arith Reals QArith Sorting.Sorted.
From Verif Require Import Model_Result Model_Loop Model_Fixed Model_Dense Model_Direction Model_Front.
Import ListNotations.
Open Scope Z_scope.

(** Some node satisfies [p], at any depth. *)
Inductive occurs (p : pytree -> Prop) : pytree -> Prop :=
| occurs_here x : p x -> occurs p x
| occurs_below k children x : In x children -> occurs p x -> occurs p (Node k children).
(** Some node satisfies [p] that is not inside a node satisfying [q]. *)
Inductive occurs_outside (q p : pytree -> Prop) : pytree -> Prop :=
| outside_here x : p x -> occurs_outside q p x
| outside_below k children x : ~ q (Node k children) -> In x children -> occurs_outside q p x ->
    occurs_outside q p (Node k children).

Definition a_brownian_path (x : pytree) : Prop := exists l, x = Node KBrownian l \/ x = Node KUnsafe l.
Definition an_unsafe_path (x : pytree) : Prop := exists l, x = Node KUnsafe l.
Definition a_path (x : pytree) : Prop :=
  exists k l, x = Node k l /\ (k = KPath \/ k = KBrownian \/ k = KUnsafe).

(** Times ordered from [t0] towards [t1]. *)
Definition towards (t0 t1 : Z) (ts : list Z) : Prop :=
  if t0 <? t1 then StronglySorted Z.le ts else StronglySorted Z.ge ts.
Definition strictly_towards (t0 t1 : Z) (ts : list Z) : Prop :=
  if t0 <? t1 then StronglySorted Z.lt ts else StronglySorted Z.gt ts.
Definition between (t0 t1 t : Z) : Prop := Z.min t0 t1 <= t <= Z.max t0 t1.

(** [dt0] points away from [t1]. *)
Definition points_away (t0 t1 dt0 : Z) : Prop := (t0 < t1 /\ dt0 < 0) \/ (t1 < t0 /\ 0 < dt0).

(** Subtraction and multiplication have the right sign: no underflow. *)
Definition signs_ok (o : time_ops Z) : Prop :=
  (forall a b, Z.sgn (t_sub o a b) = Z.sgn (a - b)) /\ (forall a b, Z.sgn (t_mul o a b) = Z.sgn (a * b)).

Section SpecFront.
  Context {Y : Type}.
  Notation controller := (controller (pid_params Y)).
  Notation solver := (solver Y).

  (** The controllers that adapt, and those that can be made. *)
  Inductive adaptive : controller -> Prop :=
  | adaptive_pid p : adaptive (CPID p)
  | adaptive_clip inner a b c : adaptive (CClip inner a b c).
  Inductive valid_controller : controller -> Prop :=
  | valid_constant : valid_controller CConstant
  | valid_stepto ts : (2 <= length ts)%nat -> valid_controller (CStepTo ts)
  | valid_pid p : valid_controller (CPID p)
  | valid_clip inner a b c : valid_controller inner -> adaptive inner -> c <> Some 0%nat ->
      valid_controller (CClip inner a b c).
  (** The [PIDController] inside any number of [ClipStepSizeController]s. *)
  Inductive pid_inside (p : pid_params Y) : controller -> Prop :=
  | inside_pid : pid_inside p (CPID p)
  | inside_clip inner a b c : pid_inside p inner -> pid_inside p (CClip inner a b c).

  Definition has_class (c : solver_class) (i : solver_info Y) : Prop := In c (si_classes i).
  (** A solver that is not a wrapper, or [HalfSolver] of one. *)
  Definition base_of (s : solver) : option (solver_info Y) :=
    match s with Base i => Some i | Half (Base i) => Some i | Half (Half _) => None end.
  (** The solver, or the one that it wraps directly, has the class. *)
  Definition direct_class (c : solver_class) (s : solver) : Prop :=
    exists i, base_of s = Some i /\ has_class c i.
  (** The solver at the bottom of any number of [HalfSolver]s. *)
  Fixpoint innermost (s : solver) : solver_info Y :=
    match s with Base i => i | Half s => innermost s end.
  Definition all_set (r : root_tols Y) : Prop :=
    rf_rtol r <> None /\ rf_atol r <> None /\ rf_norm r <> None.
End SpecFront.

Section SpecCall.
  Context {Y SS CS DI E V MS VF C : Type}.
  Notation call := (call Y SS CS DI E V MS VF C).

  Definition brownian_somewhere (a : call) : Prop := occurs a_brownian_path (ca_terms a).
  Definition unsafe_somewhere (a : call) : Prop := occurs an_unsafe_path (ca_terms a).
  Definition saves_only_t1 (v : saveat Y V) : Prop :=
    exists f, v = SaveAt (SubLeaf (SubObj (SubSaveAt false true None 0 f) true)) false false false false.
  Definition one_plain_sub (v : saveat Y V) : Prop :=
    exists s, sv_subs v = SubLeaf s /\ sv_dense v = false /\ sub_steps (so_sub s) = 0%nat /\
              so_default_fn s = true.

  (** What each adjoint method supports. *)
  Definition adjoint_supports (a : call) : Prop :=
    match ca_adjoint a with
    | RecursiveCheckpointAdjoint => ~ unsafe_somewhere a
    | DirectAdjoint | ForwardMode =>
        direct_class CRungeKuttaOrSRK (ca_solver a) ->
        exists i, ca_solver a = Base i /\ si_scan_kind i = true
    | ImplicitAdjoint => saves_only_t1 (ca_saveat a)
    | BacksolveAdjoint =>
        one_plain_sub (ca_saveat a) /\ ~ unsafe_somewhere a /\
        (brownian_somewhere a -> ~ direct_class CIto (ca_solver a)) /\
        si_single_term (innermost (ca_solver a)) = true /\ ca_event a = false /\ ca_old_event a = false
    end.

  (** The error order that an adaptive controller is to use: its own, or half more than the strong order for
      a stochastic equation, or that of the solver. *)
  Definition error_order_known (a : call) : Prop :=
    (exists p, pid_inside p (ca_controller a) /\ pp_error_order p <> None) \/
    (brownian_somewhere a /\ si_strong_order (innermost (ca_solver a)) <> None) \/
    (~ brownian_somewhere a /\ match ca_solver a with
                               | Base i => si_error_order i <> None
                               | Half s => si_order (innermost s) <> None
                               end).

  (** A call that [diffeqsolve] is to accept. *)
  Record acceptable (a : call) : Prop := {
    acc_controller : valid_controller (ca_controller a);
    acc_one_event : ca_event a = false \/ ca_old_event a = false;
    acc_dt0 : forall d, ca_dt0 a = Some d -> ~ points_away (ca_t0 a) (ca_t1 a) d;
    acc_compatible : ca_compatible a = true;
    acc_euler : brownian_somewhere a -> adaptive (ca_controller a) -> ~ direct_class CEuler (ca_solver a);
    acc_unsafe : unsafe_somewhere a -> ~ adaptive (ca_controller a);
    acc_stepto : forall ts, ca_controller a = CStepTo ts ->
      strictly_towards (ca_t0 a) (ca_t1 a) ts /\
      ((ca_controller_state a = true /\ ca_dt0 a <> None) \/
       (ca_dt0 a = None /\ nth_error ts 0 = Some (ca_t0 a) /\
        nth_error ts (length ts - 1) = Some (ca_t1 a)));
    acc_constant : ca_controller a = CConstant -> ca_dt0 a <> None;
    acc_tols : direct_class CImplicit (ca_solver a) ->
      exists i r, ca_solver a = Base i /\ si_root i = Some r /\ (adaptive (ca_controller a) \/ all_set r);
    acc_ts : forall sub ts, In sub (call_subs a) -> sub_ts sub = Some ts ->
      towards (ca_t0 a) (ca_t1 a) ts /\ Forall (between (ca_t0 a) (ca_t1 a)) ts;
    acc_steps : forall sub, In sub (call_subs a) -> sub_steps sub <> 0%nat -> ca_max_steps a <> None;
    acc_dense : sv_dense (ca_saveat a) = true -> ca_max_steps a <> None;
    acc_adjoint : adjoint_supports a;
    acc_error : adaptive (ca_controller a) ->
      (forall i, ca_solver a = Base i -> si_error i = true) /\ error_order_known a
  }.
End SpecCall.

Section SpecSaveAt.
  Context {Y V : Type} (save_y : Z -> Y -> V).
  (** Something is to be saved. *)
  Definition asks_for_output (a : sub_args Y V) : Prop :=
    sa_t0 a = true \/ sa_t1 a = true \/ (exists t l, sa_ts a = Some (t :: l)) \/
    sa_steps a = inl true \/ (exists n, sa_steps a = inr (S n)).
  (** [t0], [t1], [ts] and [steps] of [SaveAt] are left at their defaults. *)
  Definition nothing_given (a : sub_args Y V) : Prop :=
    sa_t0 a = false /\ sa_t1 a = false /\ sa_ts a = None /\ (sa_steps a = inl false \/ sa_steps a = inr 0%nat).
  (** A [SubSaveAt] that the user can construct. *)
  Definition constructed (s : sub_obj Y V) : Prop := exists a, make_sub save_y a = Ok s.
End SpecSaveAt.

Section SpecTols.
  Context {Y : Type}.
  (** A tolerance left unspecified is that of the [PIDController]. *)
  Definition chosen {A} (x : option A) (get : tols Y -> A) (k : controller (pid_params Y)) (v : A) : Prop :=
    x = Some v \/ (x = None /\ exists p, pid_inside p k /\ v = get (pp_tols p)).
  (** The root finder has the tolerances [rtol], [atol] and [norm]. *)
  Definition has_tols (s : solver Y) (rtol atol : R) (norm : Y -> R) : Prop :=
    exists i, s = Base i /\ si_root i = Some (RootTols (Some rtol) (Some atol) (Some norm)).
  (** The same solver but for its root finder. *)
  Definition same_but_root (s s' : solver Y) : Prop :=
    exists i r, s = Base i /\ s' = Base (SolverInfo (si_classes i) (Some r) (si_scan_kind i) (si_error i) (si_order i)
                                           (si_strong_order i) (si_error_order i) (si_single_term i)).
  (** The error order used by the controller. *)
  Definition error_order_used (p : pid_params Y) (sde : Prop) (s : solver Y) (x : Q) : Prop :=
    pp_error_order p = Some x \/
    (pp_error_order p = None /\ sde /\ exists q, si_strong_order (innermost s) = Some q /\ x = (q + (1 # 2))%Q) \/
    (pp_error_order p = None /\ ~ sde /\
     match s with
     | Base i => si_error_order i = Some x
     | Half _ => exists q, si_order (innermost s) = Some q /\ x = (q + 1)%Q
     end).
End SpecTols.
