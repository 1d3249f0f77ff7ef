(** From [diffeqsolve]'s arguments to the loop and back: the direction of time.  Models the parts of
    [/repo/diffrax/_integrate.py] [diffeqsolve] that normalise time (lines 1157-1303 and 1478-1543),
    [_term.py] [WrapTerm], and the [wrap] methods of the step size controllers.
    Negating a floating point number negates its ordinal. *)
From Coq Require Import ZArith List Bool Arith.
From Verif Require Import Model_Result Model_Loop Model_Clip Model_Dense.
Import ListNotations.
Open Scope Z_scope.

Section Direction.
  (** VF: vector fields; C: controls, with negation [cneg]. *)
  Context {Y SS CS DI E V MS VF C P : Type} (cneg : C -> C).

  (** [_term.py:26-140] [AbstractTerm]: [vf(t, y)], [contr(t0, t1)] and [prod]; [args] is constant.
      [vf_prod] is [prod] of [vf] unless overridden (see Model_Term). *)
  Record term := Term {
    term_vf : Z -> Y -> VF;
    term_contr : Z -> Z -> C;
    term_prod : VF -> C -> Y
  }.

  (** [_term.py:738-745] [WrapTerm]; [direction] is 1 or -1. *)
  Definition wrap_term (direction : Z) (T : term) : term :=
    Term (fun t y => term_vf T (t * direction) y)
         (fun t0 t1 =>
            let t0' := if direction =? 1 then t0 else - t1 in
            let t1' := if direction =? 1 then t1 else - t0 in
            let u := term_contr T t0' t1' in
            if direction =? 1 then u else cneg u)
         (term_prod T).

  (** The step size controllers; [P] are the parameters of a [PIDController] (or of a user's own
      controller that does not depend on the direction). *)
  Inductive controller :=
  | CConstant
  | CStepTo (ts : list Z)
  | CPID (p : P)
  | CClip (inner : controller) (step_ts jump_ts : option (list Z)) (store_rejected : option nat).

  (** [jnp.any(ts[1:] <= ts[:-1])] *)
  Definition not_increasing (ts : list Z) : bool :=
    existsb (fun p => snd p <=? fst p) (combine ts (tl ts)).

  (** [constant.py:27, 124-133], [pid.py:313], [clip.py:236-245]; [None] is a runtime error. *)
  Fixpoint wrap_controller (direction : Z) (k : controller) : option controller :=
    match k with
    | CConstant => Some CConstant
    | CStepTo ts => let ts := map (fun t => t * direction) ts in
                    if not_increasing ts then None else Some (CStepTo ts)
    | CPID p => Some (CPID p)
    | CClip inner sts jts st =>
        option_map (fun inner =>
          CClip inner (option_map (fun l => sort (map (fun t => t * direction) l)) sts)
                (option_map (fun l => sort (map (fun t => t * direction) l)) jts) st)
          (wrap_controller direction inner)
    end.

  (** The arguments of [diffeqsolve], in the user's time.  The solver and controller are functions of
      the terms they are given; [pb_solver_init] and [pb_controller_init] also cover states passed
      by the user. *)
  Record problem := Problem {
    pb_term : term;
    pb_solver_init : term -> Z -> Z -> Y -> SS;
    pb_solver_step : term -> Z -> Z -> Y -> SS -> bool -> step_out Y SS DI E;
    pb_interpolate : Z -> Z -> DI -> Z -> Y;
    pb_controller : controller;
    pb_controller_init : controller -> term -> Z -> Z -> Y -> option Z -> Z * CS;
    pb_adapt : controller -> Z -> Z -> Y -> Y -> E -> CS -> adapt_out CS;
    pb_nan_to_inf : E -> E;
    pb_midpoint : Z -> Z -> Z;
    pb_meter : Z -> Z -> MS -> Z -> MS;   (* first two arguments: [t0], [t1] *)
    pb_meter_init : MS;
    pb_subs : list (subsaveat Y V);
    pb_dense : bool;
    pb_event : option (event Y);
    pb_t0 : Z; pb_t1 : Z; pb_dt0 : option Z;
    pb_max_steps : option nat;
    pb_made_jump : bool;
    pb_y0 : Y
  }.

  (** [_integrate.py:1157] *)
  Definition direction_of (p : problem) : Z := if pb_t0 p <? pb_t1 p then 1 else -1.

  (** [_integrate.py:1162-1164, 1237-1247].  [save_y], the default [fn], ignores the time. *)
  Definition wrap_sub (direction : Z) (sub : subsaveat Y V) : subsaveat Y V :=
    SubSaveAt (sub_t0 sub) (sub_t1 sub) (option_map (map (fun t => t * direction)) (sub_ts sub))
              (sub_steps sub) (fun t y => sub_fn sub (direction * t) y).

  (** [_integrate.py:1222-1234]: the runtime checks on [saveat.ts]. *)
  Definition bad_sub (t0 t1 : Z) (sub : subsaveat Y V) : bool :=
    match sub_ts sub with
    | None => false
    | Some ts => existsb (fun p => snd p <? fst p) (combine ts (tl ts))
                 || existsb (fun t => (t1 <? t) || (t <? t0)) ts
    end.

  Definition is_stepto (k : controller) : option nat :=
    match k with CStepTo ts => Some (length ts) | _ => None end.

  (** [_integrate.py:1157-1303]: the configuration and initial values of the loop; [None] is a runtime
      error.  The event is passed on unchanged. *)
  Definition normalise (p : problem)
    : option (config Y SS CS DI E V MS * initial Y SS CS MS) :=
    let d := direction_of p in
    let t0 := pb_t0 p * d in
    let t1 := pb_t1 p * d in
    let dt0 := option_map (fun x => x * d) (pb_dt0 p) in
    let subs := map (wrap_sub d) (pb_subs p) in
    obind (wrap_controller d (pb_controller p)) (fun k =>
    if existsb (bad_sub t0 t1) subs then None else
    let T := wrap_term d (pb_term p) in
    let '(tnext, cs) := pb_controller_init p k T t0 t1 (pb_y0 p) dt0 in
    let tnext := Z.min tnext t1 in
    let ss := pb_solver_init p T t0 tnext (pb_y0 p) in
    Some (Config (pb_solver_step p T) (pb_nan_to_inf p) (pb_interpolate p) (pb_adapt p k)
                 (is_stepto k) (pb_midpoint p) (pb_meter p t0 t1) subs (pb_dense p) (pb_event p)
                 t0 t1 (pb_max_steps p),
          Initial (pb_y0 p) tnext (pb_made_jump p) ss cs (pb_meter_init p)
                  (if d =? 1 then PInf else NInf))).

  (** [ts * direction] *)
  Definition xmul (d : Z) (x : xtime) : xtime :=
    match x with
    | Fin t => Fin (t * d)
    | PInf => if d =? 1 then PInf else NInf
    | NInf => if d =? 1 then NInf else PInf
    end.

  (** [_integrate.py:1517-1543] [Solution], with [interpolation.evaluate]. *)
  Record solution := Solution {
    sol_t0 : Z; sol_t1 : Z;
    sol_ts : list (list xtime);
    sol_ys : list (list (option V));
    sol_evaluate : Z -> bool -> option Y;
    sol_num_steps : nat; sol_num_accepted : nat; sol_num_rejected : nat;
    sol_result : RESULTS;
    sol_solver_state : SS; sol_controller_state : CS; sol_made_jump : bool;
    sol_event_mask : list bool
  }.

  (** [_integrate.py:1478-1543]; [evaluate] is [_global_interpolation.py:348]. *)
  Definition to_solution (d : Z) (c : config Y SS CS DI E V MS) (i : initial Y SS CS MS)
             (o : outcome Y SS CS DI V MS) : solution :=
    let s := out_state o in
    Solution (cfg_t0 c * d) (cfg_t1 c * d)
      (map (fun sv => map (xmul d) (ss_ts sv)) (out_save o)) (map ss_ys (out_save o))
      (fun t left => dense_evaluate (sol_interpolation c i o) (t * d) left)
      (st_num_steps s) (st_num_accepted s) (st_num_rejected s) (out_result o)
      (st_solver_state s) (st_controller_state s) (st_made_jump s) (st_event_mask s).

  (** [diffeqsolve(..., throw=False)] returns [sol]. *)
  Definition diffeqsolve (p : problem) (sol : solution) : Prop :=
    exists c i o, normalise p = Some (c, i) /\ solves c i o /\ sol = to_solution (direction_of p) c i o.
End Direction.
Arguments term : clear implicits.
Arguments controller : clear implicits.
Arguments problem : clear implicits.
Arguments solution : clear implicits.

Section Batch.
  Context {Y SS CS DI E V MS : Type}.
  Notation state := (state Y SS CS DI V MS).
  (** A [lax.while_loop] under [vmap]: the body is applied while some element is not finished, and
      finished elements keep their state ([select] on the batched predicate). *)
  Fixpoint batched_while (cs : list (config Y SS CS DI E V MS)) (fuel : nat) (ss : list state)
    : list state :=
    match fuel with
    | O => ss
    | S fuel' =>
        if existsb (fun b => b) (map2 cond_fun cs ss)
        then batched_while cs fuel' (map2 (fun c s => if cond_fun c s then body_fun c s else s) cs ss)
        else ss
    end.
  (** After the loop: [unvmap_any(event_mask)], [_integrate.py:791-795], is shared by the batch. *)
  Definition batched_finish (cs : list (config Y SS CS DI E V MS)) (ss : list state)
    : list (option (outcome Y SS CS DI V MS)) :=
    let any := existsb (fun s => existsb (fun b => b) (st_event_mask s)) ss in
    map2 (fun c s => finish_batched c any s) cs ss.
End Batch.
