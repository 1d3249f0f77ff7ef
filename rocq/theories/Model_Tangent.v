(** Forward-mode automatic differentiation of a solve ([adjoint=ForwardMode()], [DirectAdjoint()]): the loop of
    [diffrax/_integrate.py] and the step size controllers, each quantity carrying its tangent.  Real arithmetic. *)
From Coq Require Import Reals List Bool.
From Coquelicot Require Import Coquelicot.
Import ListNotations.
Open Scope R_scope.

(** A value and its tangent. *)
Definition dual (U : Type) : Type := U * U.
Definition const (x : R) : dual R := (x, 0).
(** [lax.stop_gradient]. *)
Definition stop (x : dual R) : dual R := (fst x, 0).
Definition dadd (x y : dual R) : dual R := (fst x + fst y, snd x + snd y).
Definition dsub (x y : dual R) : dual R := (fst x - fst y, snd x - snd y).
Definition dmul (x y : dual R) : dual R := (fst x * fst y, fst x * snd y + snd x * fst y).
(** [jnp.minimum] and [jnp.maximum]; the derivative of JAX takes the mean of the tangents at ties. *)
Definition dmin (x y : dual R) : dual R :=
  if Rlt_dec (fst x) (fst y) then x else if Rlt_dec (fst y) (fst x) then y else (fst x, (snd x + snd y) / 2).
Definition dmax (x y : dual R) : dual R :=
  if Rlt_dec (fst x) (fst y) then y else if Rlt_dec (fst y) (fst x) then x else (fst x, (snd x + snd y) / 2).
(** Comparisons look at the values only. *)
Definition ltb (x y : R) : bool := if Rlt_dec x y then true else false.
Definition leb (x y : R) : bool := if Rle_dec x y then true else false.
Definition eqb (x y : R) : bool := if Req_EM_T x y then true else false.

(** The rule for a function of one number, with derivative [df]. *)
Definition dlift (f df : R -> R) (x : dual R) : dual R := (f (fst x), df (fst x) * snd x).

Section Tangent.
  (** [P]: what is differentiable in [terms] and [args]; [W]: the state [y] together with the [solver_state];
      [O]: what [SubSaveAt.fn] returns; [Er]: error estimates. *)
  Context {P W O Er : NormedModule R_AbsRing}.

  (** What a solver does: the state after a step, the error estimate of a step and the saved value at a time in a step
      ([_integrate.py:373-386], [444-446], [464-471]), as functions of the parameters, the ends of the step and the state before
      it.  The fields [jvp_] are what JAX's differentiation rules give for them: the tangent of the result, at a point, for
      tangents of the parameters, the ends of the step and the state.  Simplification: no jumps. *)
  Record solver := Solver {
    step : P -> R -> R -> W -> W;
    error : P -> R -> R -> W -> Er;
    out : R -> P -> R -> R -> W -> O;
    jvp_step : P -> R -> R -> W -> P -> R -> R -> W -> W;
    jvp_error : P -> R -> R -> W -> P -> R -> R -> W -> Er;
    jvp_out : R -> P -> R -> R -> W -> P -> R -> R -> W -> O
  }.

  Definition dapp {U : Type} (f : P -> R -> R -> W -> U) (jvp : P -> R -> R -> W -> P -> R -> R -> W -> U)
             (p : dual P) (a b : dual R) (w : dual W) : dual U :=
    (f (fst p) (fst a) (fst b) (fst w), jvp (fst p) (fst a) (fst b) (fst w) (snd p) (snd a) (snd b) (snd w)).

  (** [pid.py:299-310] [PIDController].  [scaled_error]: lines 483-492, of the state before and after the step and the
      error estimate; [inverse x], [power x c]: the values of [1 / x] and [x ** c], which need not be those of the real numbers if they
      are not finite; the fields [jvp_], [d_]: their differentiation rules; [degenerate]: the test of line 537. *)
  Record pid := PID {
    scaled_error : W -> W -> Er -> R; jvp_scaled : W -> W -> Er -> W -> W -> Er -> R;
    inverse : R -> R; d_inverse : R -> R; power : R -> R -> R; d_power : R -> R -> R; degenerate : R -> bool;
    pcoeff : R; icoeff : R; dcoeff : R; dtmin : option R; dtmax : option R;
    factormin : R; factormax : R; safety : R; error_order : R
  }.
  (** [pid.py:84] *)
  Record pid_state := PidState { prev_inv : dual R; prev_prev_inv : dual R; at_dtmin : bool }.

  (** The step size controllers: [pid.py], and [constant.py] with finite [t1]. *)
  Inductive controller := CPid (c : pid) | CConstant | CStepTo (ts : list R).
  Inductive cstate :=
  | SPid (s : pid_state)
  | SConstant (steps_completed num_steps : nat) (t0_sim t1_sim : dual R)
  | SStepTo (idx : nat).

  (** [pid.py:512-525]: the factor before [stop_gradient]. *)
  Definition pid_factor (c : pid) (keep : bool) (inv prev prev_prev : dual R) : dual R :=
    let coeff1 := (icoeff c + pcoeff c + dcoeff c) / error_order c in
    let coeff2 := - (pcoeff c + 2 * dcoeff c) / error_order c in
    let coeff3 := dcoeff c / error_order c in
    let pow cf x := dlift (fun z => power c z cf) (fun z => d_power c z cf) x in
    let lo := if keep then 1 else factormin c in
    let hi := if keep then factormax c else safety c in
    dmin (dmax (dmul (dmul (dmul (const (safety c)) (pow coeff1 inv)) (pow coeff2 prev)) (pow coeff3 prev_prev)) (const lo))
         (const hi).

  (** [pid.py:394-567] [adapt_step_size], without [result]. *)
  Definition pid_adapt (c : pid) (t0 t1 : dual R) (w0 w1 : dual W) (err : dual Er) (s : pid_state)
    : bool * dual R * dual R * pid_state :=
    let prev_dt := dsub t1 t0 in
    let scaled := (scaled_error c (fst w0) (fst w1) (fst err),
                   jvp_scaled c (fst w0) (fst w1) (fst err) (snd w0) (snd w1) (snd err)) in
    let keep := ltb (fst scaled) 1 in
    let keep := match dtmin c with Some _ => keep || at_dtmin s | None => keep end in
    let inv := stop (dlift (inverse c) (d_inverse c) scaled) in
    let factor := stop (pid_factor c keep inv (prev_inv s) (prev_prev_inv s)) in
    let dt := dmul prev_dt factor in
    let inv := if degenerate c (fst inv) then const 1 else inv in
    let dt := match dtmax c with Some m => dmin dt (const m) | None => dt end in
    let '(dt, at_min) :=
      match dtmin c with
      | None => (dt, at_dtmin s)
      | Some m =>
          let dt := if at_dtmin s && eqb (fst factor) 1 then const m else dt in
          (dmax dt (const m), leb (fst dt) m)
      end in
    let next_t0 := if keep then t1 else t0 in
    (keep, next_t0, dadd next_t0 dt,
     PidState (if keep then inv else prev_inv s) (if keep then prev_inv s else prev_prev_inv s) at_min).

  (** [constant.py:57-104] *)
  Definition constant_adapt (t1 : dual R) (k n : nat) (t0_sim t1_sim : dual R) : bool * dual R * dual R * cstate :=
    let k := S k in
    let t1_next :=
      if Nat.eqb k n then t1_sim else dadd t0_sim (dmul (dsub t1_sim t0_sim) (const (INR k / INR n))) in
    (true, t1, t1_next, SConstant k n t0_sim t1_sim).

  (** [constant.py:159-178]: [StepTo].  An index past the end is clamped, as JAX does. *)
  Definition stepto_adapt (ts : list R) (t1 : dual R) (i : nat) : bool * dual R * dual R * cstate :=
    (true, t1, const (nth (Nat.min i (length ts - 1)) ts 0), SStepTo (S i)).

  Definition adapt (c : controller) (t0 t1 : dual R) (w0 w1 : dual W) (err : dual Er) (s : cstate)
    : bool * dual R * dual R * cstate :=
    match c, s with
    | CPid c, SPid s => let '(k, a, b, s) := pid_adapt c t0 t1 w0 w1 err s in (k, a, b, SPid s)
    | CConstant, SConstant k n a b => constant_adapt t1 k n a b
    | CStepTo ts, SStepTo i => stepto_adapt ts t1 i
    | _, s => (true, t1, t1, s)
    end.

  (** [init]: [pid.py:375-392] with a given [dt0], or one chosen by [_select_initial_step] and passed through [stop_gradient]
      (line 374); [constant.py:30-55]; [constant.py:135-157].  [num_steps]: the number of steps of [ConstantStepSize]. *)
  Definition init (c : controller) (num_steps : nat) (t0 t1 dt0 : dual R) : dual R * cstate :=
    match c with
    | CPid c =>
        let dt0 := match dtmax c with Some m => dmin dt0 (const m) | None => dt0 end in
        let dt0 := match dtmin c with Some m => dmax dt0 (const m) | None => dt0 end in
        (dadd t0 dt0, SPid (PidState (const 1) (const 1) false))
    | CConstant => (dadd t0 dt0, SConstant 1 num_steps t0 t1)
    | CStepTo ts => (const (nth 1 ts 0), SStepTo 2)
    end.

  (** [_integrate.py:278-284] [_clip_to_end]. *)
  Definition clip_to_end (tprev tnext t1 : dual R) (floor : R) (keep : bool) : dual R :=
    if ltb floor (fst tnext)
    then if keep then t1 else dadd tprev (dmul (const (1 / 2)) (dsub t1 tprev))
    else tnext.

  (** The state of the loop; [saved]: the values saved by [SaveAt(ts=...)], [pending]: the times not yet saved; [trace] is not in
      the code: it lists the steps attempted, with their ends, the end of the next step proposed by the controller and whether the step was
      kept. *)
  Record lstate := LState {
    tprev : dual R; tnext : dual R; st : dual W; cst : cstate; saved : list (dual O); pending : list R;
    trace : list (dual R * dual R * R * bool)
  }.

  (** [_integrate.py:456-487]: the times up to the end of a kept step are saved. *)
  Fixpoint save (f : R -> dual O) (upto : R) (ts : list R) : list (dual O) * list R :=
    match ts with
    | [] => ([], [])
    | t :: ts => if leb t upto then let '(l, r) := save f upto ts in (f t :: l, r) else ([], t :: ts)
    end.

  (** [_integrate.py:365-487] [body_fun_aux]. *)
  Definition body (sv : solver) (c : controller) (p : dual P) (t1 : dual R) (floor : R) (s : lstate) : lstate :=
    let w1 := dapp (step sv) (jvp_step sv) p (tprev s) (tnext s) (st s) in
    let err := dapp (error sv) (jvp_error sv) p (tprev s) (tnext s) (st s) in
    let '(keep, tp, tn, cs) := adapt c (tprev s) (tnext s) (st s) w1 err (cst s) in
    let tp' := dmin tp t1 in
    let tn' := clip_to_end tp' tn t1 floor keep in
    let '(new, pend) :=
      if keep
      then save (fun t => dapp (out sv t) (jvp_out sv t) p (tprev s) (tnext s) (st s)) (fst (tnext s)) (pending s)
      else ([], pending s) in
    LState tp' tn' (if keep then w1 else st s) cs (saved s ++ new) pend
           (trace s ++ [(tprev s, tnext s, fst tn, keep)]).

  (** [_integrate.py:355-363] [cond_fun], and at most [n] steps.  (For [StepTo] the code counts steps, which stops at the same step, as the
      last of the times is [t1].) *)
  Fixpoint run (n : nat) (sv : solver) (c : controller) (p : dual P) (t1 : dual R) (floor : R) (s : lstate) : lstate :=
    match n with
    | 0%nat => s
    | S n => if ltb (fst (tprev s)) (fst t1) then run n sv c p t1 floor (body sv c p t1 floor s) else s
    end.

  (** A whole solve ([_integrate.py:1248-1265]).  [w0]: the initial [y] and the [solver_state] of [solver.init], with their
      tangents. *)
  Definition solve (n : nat) (sv : solver) (c : controller) (num_steps : nat) (ts : list R) (floor : R)
             (p : dual P) (w0 : dual W) (t0 t1 dt0 : dual R) : lstate :=
    let '(tn, cs) := init c num_steps t0 t1 dt0 in
    run n sv c p t1 floor (LState t0 (dmin tn t1) w0 cs [] ts []).
End Tangent.
Arguments solver : clear implicits.
Arguments pid : clear implicits.
Arguments controller : clear implicits.
Arguments lstate : clear implicits.
