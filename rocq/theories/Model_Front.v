(** The checks that [diffeqsolve] makes before it starts.  Models [/repo/diffrax/_heuristics.py],
    [_saveat.py], the constructors of the step size controllers, [isinstance] on solvers
    ([_solver/base.py]), [_root_finder/_with_tols.py], [_integrate.py] [diffeqsolve] up to the loop, and
    the guards at the top of the [loop] methods in [_adjoint.py].
    Types and shapes are not modelled, nor are warnings.  An exception is a value; if several checks fail
    the model raises the first in program order ([eqx.error_if] in fact raises after all others). *)
From Coq Require Import ZArith List Bool Arith Reals QArith.
From Verif Require Import Model_Result Model_Loop Model_Fixed Model_Dense Model_Direction.
Import ListNotations.
Open Scope Z_scope.

(** The exceptions. *)
Inductive exn : Set :=
| EmptySaveAt            (* [_saveat.py:46-48] *)
| SubsAndTimes           (* [_saveat.py:95-100] *)
| StepToTooShort         (* [constant.py:121-122] *)
| ClipNotAdaptive        (* [clip.py:213-217] *)
| ClipStoreRejected      (* [clip.py:221-224] *)
| TwoEvents              (* [_integrate.py:1029-1033] *)
| WrongSignOfDt0         (* [_integrate.py:1036-1045] *)
| TermsIncompatible      (* [_integrate.py:118-212] *)
| EulerWithAdaptive      (* [_integrate.py:1142-1149] *)
| UnsafeWithAdaptive     (* [_integrate.py:1150-1154] *)
| StepToNotMonotone      (* [constant.py:127-132] *)
| AttributeMissing       (* Python's [AttributeError] *)
| MissingTolerances      (* [_integrate.py:1195-1219] *)
| TsNotMonotone          (* [_integrate.py:1223-1227] *)
| TsOutside              (* [_integrate.py:1228-1232] *)
| ConstantWithoutDt0     (* [constant.py:42-46] *)
| StepToWithDt0          (* [constant.py:147-151] *)
| StepToWrongEnds        (* [constant.py:152-156] *)
| UnboundedSteps         (* [_integrate.py:1283-1286] *)
| UnboundedDense         (* [_integrate.py:1316-1319] *)
| NoErrorEstimate        (* [pid.py:461-470] *)
| NoErrorOrder           (* [pid.py:573-581] *)
| AdjointRefused.        (* [_adjoint.py:277-282, 501-505, 811-853] *)

Inductive res (A : Type) : Type := Ok (a : A) | Raise (e : exn).
Arguments Ok {A}. Arguments Raise {A}.
Definition rbind {A B} (x : res A) (f : A -> res B) : res B :=
  match x with Ok a => f a | Raise e => Raise e end.
(** [if b: raise e] *)
Definition raise_if (b : bool) (e : exn) : res unit := if b then Raise e else Ok tt.

(** PyTrees, as far as [isinstance] distinguishes their nodes: a container or some other module; a term; a
    [MultiTerm]; a path ([_path.py:20]); a Brownian path ([_brownian/base.py:19]); an
    [UnsafeBrownianPath] ([_brownian/path.py:30]).  The children are the dynamic fields.  Objects that are both
    term and path are not modelled. *)
Inductive kind : Set := KBox | KTerm | KMulti | KPath | KBrownian | KUnsafe.
Inductive pytree : Set := Leaf | Node (k : kind) (children : list pytree).

(** [_heuristics.py:20-29] *)
Definition is_brownian (x : pytree) : bool :=
  match x with Node KBrownian _ | Node KUnsafe _ => true | _ => false end.
Definition is_unsafe_brownian (x : pytree) : bool :=
  match x with Node KUnsafe _ => true | _ => false end.
Definition is_path (x : pytree) : bool :=
  match x with Node KPath _ | Node KBrownian _ | Node KUnsafe _ => true | _ => false end.

(** [jtu.tree_flatten(x, is_leaf)]: the leaves, from left to right. *)
Fixpoint flatten (is_leaf : pytree -> bool) (x : pytree) : list pytree :=
  if is_leaf x then [x]
  else match x with Leaf => [Leaf] | Node _ children => flat_map (flatten is_leaf) children end.

(** [_heuristics.py:32-44] *)
Definition is_sde (terms : pytree) : bool := existsb is_brownian (flatten is_brownian terms).
Definition is_unsafe_sde (terms : pytree) : bool :=
  existsb is_unsafe_brownian (flatten is_unsafe_brownian terms).
Definition is_cde (terms : pytree) : bool :=
  existsb (fun x => is_path x && negb (is_brownian x)) (flatten is_path terms).

(** [_integrate.py:1167-1176]: every term that is not a [MultiTerm] becomes [WrapTerm(term, direction)].  Other
    leaves fail an assertion and are left as they are. *)
Fixpoint wrap_pytree (x : pytree) : pytree :=
  match x with
  | Node KTerm children => Node KTerm [Node KTerm children; Leaf]
  | Node k children => Node k (map wrap_pytree children)
  | Leaf => Leaf
  end.

Section Tolerances.
  Context {Y : Type}.
  (** [rtol], [atol] and [norm] of an adaptive step size controller. *)
  Record tols := Tols { tol_rtol : R; tol_atol : R; tol_norm : Y -> R }.
  (** The same of a root finder; [None] is [use_stepsize_tol] ([_with_tols.py:9-14]). *)
  Record root_tols := RootTols { rf_rtol : option R; rf_atol : option R; rf_norm : option (Y -> R) }.

  (** [_with_tols.py:69-81] [with_stepsize_controller_tols] *)
  Definition with_stepsize_controller_tols : root_tols := RootTols None None None.

  Definition default {A} (o : option A) (d : A) : option A := match o with Some a => Some a | None => Some d end.
  Definition is_none {A} (o : option A) : bool := match o with Some _ => false | None => true end.

  (** [_integrate.py:1180-1193]: the attributes that are [use_stepsize_tol] are copied from the
      controller. *)
  Definition copy_tols (t : tols) (r : root_tols) : root_tols :=
    RootTols (default (rf_rtol r) (tol_rtol t)) (default (rf_atol r) (tol_atol t))
             (default (rf_norm r) (tol_norm t)).
  (** [len(_get_tols(solver.root_finder)) > 0] *)
  Definition unset_tols (r : root_tols) : bool :=
    is_none (rf_rtol r) || is_none (rf_atol r) || is_none (rf_norm r).

  (** Solver classes that are tested for; [CRungeKuttaOrSRK] stands for the tuple of the two. *)
  Inductive solver_class : Set :=
  | CEuler | CIto | CStratonovich | CImplicit | CAdaptive | CRungeKuttaOrSRK | CWrapped | CHalf.
  Definition class_eqb (a b : solver_class) : bool :=
    match a, b with
    | CEuler, CEuler | CIto, CIto | CStratonovich, CStratonovich | CImplicit, CImplicit
    | CAdaptive, CAdaptive | CRungeKuttaOrSRK, CRungeKuttaOrSRK | CWrapped, CWrapped | CHalf, CHalf => true
    | _, _ => false
    end.

  (** A solver that is not a wrapper: its classes; the tolerances of [root_finder] (if it has that attribute);
      whether it has the attribute [scan_kind]; whether its steps return an error estimate; [order],
      [strong_order] and [error_order] for ordinary equations; whether it takes a single term. *)
  Record solver_info := SolverInfo {
    si_classes : list solver_class;
    si_root : option root_tols;
    si_scan_kind : bool;
    si_error : bool;
    si_order : option Q;
    si_strong_order : option Q;
    si_error_order : option Q;
    si_single_term : bool
  }.
  (** [HalfSolver] is the only [AbstractWrappedSolver] shipped. *)
  Inductive solver := Base (i : solver_info) | Half (s : solver).

  (** [type.__instancecheck__]; [base.py:250-252] for [HalfSolver]. *)
  Definition plain_instance (c : solver_class) (s : solver) : bool :=
    existsb (class_eqb c) match s with Base i => si_classes i | Half _ => [CAdaptive; CWrapped; CHalf] end.

  (** [base.py:44-52] [_MetaAbstractSolver.__instancecheck__] *)
  Definition isinstance (c : solver_class) (s : solver) : bool :=
    if plain_instance CWrapped s
    then plain_instance c s || match s with Half s' => plain_instance c s' | Base _ => false end
    else plain_instance c s.

  (** [solver.root_finder] and [solver.scan_kind]: [HalfSolver] ([base.py:250-349]) has neither. *)
  Definition root_attr (s : solver) : option root_tols := match s with Base i => si_root i | Half _ => None end.
  Definition scan_kind_attr (s : solver) : bool := match s with Base i => si_scan_kind i | Half _ => false end.
  Definition set_root (s : solver) (r : root_tols) : solver :=
    match s with
    | Base i => Base (SolverInfo (si_classes i) (Some r) (si_scan_kind i) (si_error i) (si_order i)
                                 (si_strong_order i) (si_error_order i) (si_single_term i))
    | Half s => Half s
    end.

  (** [base.py:89-120, 286-302]; [error_order] of a solver that is not a wrapper for an SDE is the default, which
      is also [None] for [ImplicitEuler] ([implicit_euler.py:49-53]). *)
  Fixpoint order (s : solver) : option Q := match s with Base i => si_order i | Half s => order s end.
  Fixpoint strong_order (s : solver) : option Q :=
    match s with Base i => si_strong_order i | Half s => strong_order s end.
  Definition error_order (s : solver) (terms : pytree) : option Q :=
    if is_sde terms then option_map (fun x => x + (1 # 2))%Q (strong_order s)
    else match s with
         | Base i => si_error_order i
         | Half s => option_map (fun x => x + 1)%Q (order s)
         end.
  Definition returns_error (s : solver) : bool := match s with Base i => si_error i | Half _ => true end.
  Fixpoint single_term (s : solver) : bool :=
    match s with Base i => si_single_term i | Half s => single_term s end.
End Tolerances.
Arguments tols : clear implicits.
Arguments root_tols : clear implicits.
Arguments solver_info : clear implicits.
Arguments solver : clear implicits.

(** The parameters of a [PIDController] that the checks look at. *)
Record pid_params (Y : Type) := PidParams { pp_tols : tols Y; pp_error_order : option Q }.
Arguments PidParams {Y}. Arguments pp_tols {Y}. Arguments pp_error_order {Y}.

Section Controllers.
  Context {Y : Type}.
  Notation controller := (controller (pid_params Y)).

  (** [isinstance(controller, AbstractAdaptiveStepSizeController)] *)
  Definition is_adaptive (k : controller) : bool :=
    match k with CConstant | CStepTo _ => false | CPID _ | CClip _ _ _ _ => true end.

  (** [controller.rtol] etc.; [clip.py:175-185]: those of the controller inside. *)
  Fixpoint controller_tols (k : controller) : option (tols Y) :=
    match k with
    | CConstant | CStepTo _ => None
    | CPID p => Some (pp_tols p)
    | CClip inner _ _ _ => controller_tols inner
    end.
  (** [pid.py:569-572] [_get_error_order] *)
  Fixpoint controller_error_order (k : controller) (eo : option Q) : option Q :=
    match k with
    | CConstant | CStepTo _ => eo
    | CPID p => match pp_error_order p with Some x => Some x | None => eo end
    | CClip inner _ _ _ => controller_error_order inner eo
    end.

  (** The constructors: [StepTo.__check_init__] ([constant.py:118-122]) and [ClipStepSizeController.__init__]
      ([clip.py:187-226]). *)
  Fixpoint make_controller (k : controller) : res controller :=
    match k with
    | CConstant => Ok CConstant
    | CStepTo ts => if (length ts <? 2)%nat then Raise StepToTooShort else Ok (CStepTo ts)
    | CPID p => Ok (CPID p)
    | CClip inner sts jts st =>
        rbind (make_controller inner) (fun inner =>
        if negb (is_adaptive inner) then Raise ClipNotAdaptive
        else if match st with Some n => (n =? 0)%nat | None => false end then Raise ClipStoreRejected
        else Ok (CClip inner sts jts st))
    end.

  (** [init] of the controllers, as far as it raises: [constant.py:42-46, 147-156]. *)
  Fixpoint check_init (k : controller) (t0 t1 : Z) (dt0 : option Z) : res unit :=
    match k with
    | CConstant => raise_if (is_none dt0) ConstantWithoutDt0
    | CStepTo ts =>
        rbind (raise_if (negb (is_none dt0)) StepToWithDt0) (fun _ =>
        raise_if (negb (hd t0 ts =? t0) || negb (last ts t1 =? t1)) StepToWrongEnds)
    | CPID _ => Ok tt
    | CClip inner _ _ _ => check_init inner t0 t1 dt0
    end.
End Controllers.

Section SaveAt.
  Context {Y V : Type} (save_y : Z -> Y -> V).

  (** The arguments of [SubSaveAt]; [fn = None] is the default [save_y].  A negative [steps] is not modelled. *)
  Record sub_args := SubArgs {
    sa_t0 : bool; sa_t1 : bool; sa_ts : option (list Z); sa_steps : bool + nat; sa_fn : option (Z -> Y -> V)
  }.
  (** A [SubSaveAt], and whether its [fn] is [save_y]. *)
  Record sub_obj := SubObj { so_sub : subsaveat Y V; so_default_fn : bool }.

  Definition steps_of (s : bool + nat) : nat :=
    match s with inl true => 1%nat | inl false => 0%nat | inr n => n end.

  (** [_saveat.py:28-48] [SubSaveAt] *)
  Definition make_sub (a : sub_args) : res sub_obj :=
    let ts := match sa_ts a with Some (t :: l) => Some (t :: l) | _ => None end in
    let steps := steps_of (sa_steps a) in
    if negb (sa_t0 a) && negb (sa_t1 a) && is_none ts && (steps =? 0)%nat then Raise EmptySaveAt
    else Ok (SubObj (SubSaveAt (sa_t0 a) (sa_t1 a) ts steps match sa_fn a with Some f => f | None => save_y end)
                    (is_none (sa_fn a))).

  (** A PyTree of [SubSaveAt]s. *)
  Inductive subs_tree := SubLeaf (s : sub_obj) | SubNode (children : list subs_tree).
  Fixpoint sub_leaves (x : subs_tree) : list sub_obj :=
    match x with SubLeaf s => [s] | SubNode children => flat_map sub_leaves children end.

  Record saveat := SaveAt {
    sv_subs : subs_tree; sv_dense : bool; sv_solver_state : bool; sv_controller_state : bool; sv_made_jump : bool
  }.

  (** [_saveat.py:78-105] [SaveAt].  [subs = None] is an empty node. *)
  Definition make_saveat (a : sub_args) (subs : option subs_tree) (dense ss cs mj : bool) : res saveat :=
    let some := sa_t0 a || sa_t1 a || negb (is_none (sa_ts a)) || negb (steps_of (sa_steps a) =? 0)%nat in
    match subs with
    | None => if some
              then rbind (make_sub a) (fun s => Ok (SaveAt (SubLeaf s) dense ss cs mj))
              else Ok (SaveAt (SubNode []) dense ss cs mj)
    | Some subs => if some then Raise SubsAndTimes else Ok (SaveAt subs dense ss cs mj)
    end.
End SaveAt.
Arguments sub_args : clear implicits.
Arguments sub_obj : clear implicits.
Arguments subs_tree : clear implicits.
Arguments saveat : clear implicits.

Inductive adjoint : Set :=
| RecursiveCheckpointAdjoint | DirectAdjoint | ForwardMode | ImplicitAdjoint | BacksolveAdjoint.

Section Front.
  Context {Y SS CS DI E V MS VF C : Type} (cneg : C -> C) (o : time_ops Z).
  Notation P := (pid_params Y).
  Notation problem := (problem Y SS CS DI E V MS VF C P).

  (** The arguments of [diffeqsolve].  [ca_problem] is the problem, given the solver once its tolerances are
      known; its [pb_subs] and [pb_dense] are replaced by what [ca_saveat] says.  [ca_compatible] is the outcome
      of [_assert_term_compatible].  The last three say whether an event was passed, whether an old-style event was
      passed, and whether a controller state was passed. *)
  Record call := Call {
    ca_problem : solver Y -> problem;
    ca_terms : pytree;
    ca_solver : solver Y;
    ca_t0 : Z; ca_t1 : Z; ca_dt0 : option Z;
    ca_saveat : saveat Y V;
    ca_controller : controller P;
    ca_adjoint : adjoint;
    ca_max_steps : option nat;
    ca_compatible : bool;
    ca_event : bool;
    ca_old_event : bool;
    ca_controller_state : bool
  }.

  Definition call_subs (a : call) : list (subsaveat Y V) := map so_sub (sub_leaves (sv_subs (ca_saveat a))).

  (** [_integrate.py:1036-1045] *)
  Definition wrong_sign (t0 t1 : Z) (dt0 : option Z) : bool :=
    match dt0 with Some d => t_mul o (t_sub o t1 t0) d <? 0 | None => false end.

  (** [_integrate.py:1136-1154] *)
  Definition check_classes (a : call) : res unit :=
    rbind (raise_if (is_sde (ca_terms a) && is_adaptive (ca_controller a) && isinstance CEuler (ca_solver a))
                    EulerWithAdaptive) (fun _ =>
    raise_if (is_unsafe_sde (ca_terms a) && is_adaptive (ca_controller a)) UnsafeWithAdaptive).

  (** [_integrate.py:1177-1219] *)
  Definition resolve_tols (k : controller P) (s : solver Y) : res (solver Y) :=
    if isinstance CImplicit s
    then match root_attr s with
         | None => Raise AttributeMissing
         | Some r =>
             match controller_tols k with
             | Some t => if is_adaptive k then Ok (set_root s (copy_tols t r))
                         else if unset_tols r then Raise MissingTolerances else Ok s
             | None => if is_adaptive k then Raise AttributeMissing
                       else if unset_tols r then Raise MissingTolerances else Ok s
             end
         end
    else Ok s.

  (** [_integrate.py:1222-1234], in normalised time. *)
  Definition check_ts (t0 t1 : Z) (sub : subsaveat Y V) : res unit :=
    match sub_ts sub with
    | None => Ok tt
    | Some ts => rbind (raise_if (existsb (fun p => snd p <? fst p) (combine ts (tl ts))) TsNotMonotone) (fun _ =>
                 raise_if (existsb (fun t => (t1 <? t) || (t <? t0)) ts) TsOutside)
    end.
  Fixpoint check_all {A} (f : A -> res unit) (l : list A) : res unit :=
    match l with [] => Ok tt | x :: l => rbind (f x) (fun _ => check_all f l) end.

  (** The guards of the adjoint methods, which are given the wrapped terms: [_adjoint.py:277-282, 383-389, 501-505, 811-853, 906-911]. *)
  Definition check_adjoint (a : call) : res unit :=
    let sv := ca_saveat a in
    let terms := wrap_pytree (ca_terms a) in
    match ca_adjoint a with
    | RecursiveCheckpointAdjoint => raise_if (is_unsafe_sde terms) AdjointRefused
    | DirectAdjoint | ForwardMode =>
        raise_if (isinstance CRungeKuttaOrSRK (ca_solver a) && negb (scan_kind_attr (ca_solver a)))
                 AttributeMissing
    | ImplicitAdjoint =>
        raise_if (negb match sv_subs sv with
                       | SubLeaf s => so_default_fn s && sub_t1 (so_sub s) && negb (sub_t0 (so_sub s))
                                      && is_none (sub_ts (so_sub s)) && (sub_steps (so_sub s) =? 0)%nat
                                      && negb (sv_dense sv) && negb (sv_solver_state sv)
                                      && negb (sv_controller_state sv) && negb (sv_made_jump sv)
                       | SubNode _ => false
                       end) AdjointRefused
    | BacksolveAdjoint =>
        raise_if (negb match sv_subs sv with
                       | SubLeaf s => negb (sv_dense sv) && (sub_steps (so_sub s) =? 0)%nat && so_default_fn s
                       | SubNode _ => false
                       end
                  || is_unsafe_sde terms
                  || (is_sde terms && isinstance CIto (ca_solver a))
                  || negb (single_term (ca_solver a))
                  || ca_event a || ca_old_event a) AdjointRefused
    end.

  (** [pid.py:461-470, 569-581]: raised when the first step is traced. *)
  Definition check_error (k : controller P) (s : solver Y) (terms : pytree) : res unit :=
    rbind (raise_if (is_adaptive k && negb (returns_error s)) NoErrorEstimate) (fun _ =>
    raise_if (is_adaptive k && is_none (controller_error_order k (error_order s terms))) NoErrorOrder).

  (** [_integrate.py:890-1330]: the solver that is used, or the exception. *)
  Definition check_call (a : call) : res (solver Y) :=
    rbind (make_controller (ca_controller a)) (fun _ =>
    rbind (raise_if (ca_event a && ca_old_event a) TwoEvents) (fun _ =>
    rbind (raise_if (wrong_sign (ca_t0 a) (ca_t1 a) (ca_dt0 a)) WrongSignOfDt0) (fun _ =>
    rbind (raise_if (negb (ca_compatible a)) TermsIncompatible) (fun _ =>
    rbind (check_classes a) (fun _ =>
    let d := if ca_t0 a <? ca_t1 a then 1 else -1 in
    let t0 := ca_t0 a * d in
    let t1 := ca_t1 a * d in
    let dt0 := option_map (fun x => x * d) (ca_dt0 a) in
    let subs := map (wrap_sub d) (call_subs a) in
    rbind (match wrap_controller d (ca_controller a) with
           | Some k => Ok k | None => Raise StepToNotMonotone end) (fun k =>
    rbind (resolve_tols k (ca_solver a)) (fun s =>
    rbind (check_all (check_ts t0 t1) subs) (fun _ =>
    rbind (if ca_controller_state a && negb (is_none dt0) then Ok tt else check_init k t0 t1 dt0) (fun _ =>
    rbind (raise_if (existsb (fun sub => negb (sub_steps sub =? 0)%nat) subs && is_none (ca_max_steps a))
                    UnboundedSteps) (fun _ =>
    rbind (raise_if (sv_dense (ca_saveat a) && is_none (ca_max_steps a)) UnboundedDense) (fun _ =>
    rbind (check_adjoint a) (fun _ =>
    rbind (check_error k s (wrap_pytree (ca_terms a))) (fun _ => Ok s))))))))))))).

  (** The problem that is then solved. *)
  Definition call_problem (a : call) (s : solver Y) : problem :=
    let p := ca_problem a s in
    Problem (pb_term p) (pb_solver_init p) (pb_solver_step p) (pb_interpolate p) (ca_controller a)
            (pb_controller_init p) (pb_adapt p) (pb_nan_to_inf p) (pb_midpoint p) (pb_meter p) (pb_meter_init p)
            (call_subs a) (sv_dense (ca_saveat a)) (pb_event p) (ca_t0 a) (ca_t1 a) (ca_dt0 a) (ca_max_steps a)
            (pb_made_jump p) (pb_y0 p).

  (** [diffeqsolve(..., throw=False)] *)
  Definition diffeqsolve_call (a : call) (r : res (solution Y SS CS V)) : Prop :=
    match check_call a with
    | Raise e => r = Raise e
    | Ok s => exists sol, diffeqsolve cneg (call_problem a s) sol /\ r = Ok sol
    end.
End Front.
Arguments call : clear implicits.

Section Steady.
  Context {Y VF : Type}.
  (** [_event.py:121-172] [steady_state_event]: the condition function it returns, given the keyword arguments
      that [diffeqsolve] passes; [func] is [solver.func(terms, ., .)].  Norms are exact reals; that of a vector field
      is [vnorm], which for the usual [VF = Y] is the same function. *)
  Definition steady_state_event (vnorm : (Y -> R) -> VF -> R) (rtol atol : option R) (norm : option (Y -> R))
             (k : controller (pid_params Y)) (func : Z -> Y -> VF) : res (Z -> Y -> bool) :=
    let pick {A} (x : option A) (get : tols Y -> A) : res A :=
      match x with
      | Some v => Ok v
      | None => if is_adaptive k
                then match controller_tols k with Some t => Ok (get t) | None => Raise AttributeMissing end
                else Raise MissingTolerances
      end in
    rbind (pick rtol tol_rtol) (fun rtol =>
    rbind (pick atol tol_atol) (fun atol =>
    rbind (pick norm tol_norm) (fun norm =>
    Ok (fun t y => if Rlt_dec (vnorm norm (func t y)) (atol + rtol * norm y) then true else false)))).
End Steady.
