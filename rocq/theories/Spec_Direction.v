(** Specification vocabulary for the direction of time: the problem and the solution with time
    reflected. *)
From Coq Require Import ZArith List Bool Arith.
From Verif Require Import Model_Result Model_Loop Model_Direction.
Import ListNotations.
Open Scope Z_scope.

Section SpecDirection.
  Context {Y SS CS DI E V MS VF C P : Type} (cneg : C -> C).
  Notation problem := (problem Y SS CS DI E V MS VF C P).

  (** If [y] solves [dy = f(t, y) dx(t)] then [s |-> y(-s)] solves [dy = f(-s, y) dx(-s)]: the control
      over [[a, b]] becomes minus the control over [[-b, -a]]. *)
  Definition reflect_term (T : term Y VF C) : term Y VF C :=
    Term (fun t y => term_vf T (- t) y) (fun a b => cneg (term_contr T (- b) (- a))) (term_prod T).
  Fixpoint reflect_controller (k : controller P) : controller P :=
    match k with
    | CConstant => CConstant
    | CStepTo ts => CStepTo (map Z.opp ts)
    | CPID p => CPID p
    | CClip inner sts jts st =>
        CClip (reflect_controller inner) (option_map (map Z.opp) sts) (option_map (map Z.opp) jts) st
    end.
  Definition reflect_sub (sub : subsaveat Y V) : subsaveat Y V :=
    SubSaveAt (sub_t0 sub) (sub_t1 sub) (option_map (map Z.opp) (sub_ts sub)) (sub_steps sub)
              (fun t y => sub_fn sub (- t) y).
  Definition reflect_cond (cf : cond_fn Y) : cond_fn Y :=
    match cf with
    | BoolCond f => BoolCond (fun t y => f (- t) y)
    | RealCond f d => RealCond (fun t y => f (- t) y) d
    end.
  Definition reflect_event (e : event Y) : event Y :=
    Event (map reflect_cond (ev_cond_fn e)) (ev_root_finder e).
  (** The solver, the controller's rules and everything that does not involve time stay the same. *)
  Definition reflect (p : problem) : problem :=
    Problem (reflect_term (pb_term p)) (pb_solver_init p) (pb_solver_step p) (pb_interpolate p)
            (reflect_controller (pb_controller p)) (pb_controller_init p) (pb_adapt p)
            (pb_nan_to_inf p) (pb_midpoint p) (pb_meter p) (pb_meter_init p)
            (map reflect_sub (pb_subs p)) (pb_dense p) (option_map reflect_event (pb_event p))
            (- pb_t0 p) (- pb_t1 p) (option_map Z.opp (pb_dt0 p)) (pb_max_steps p)
            (pb_made_jump p) (pb_y0 p).

  (** The solution with its times negated; padding stays. *)
  Definition mirror_time (x : xtime) : xtime := match x with Fin t => Fin (- t) | x => x end.
  Definition mirror (s : solution Y SS CS V) : solution Y SS CS V :=
    Solution (- sol_t0 s) (- sol_t1 s) (map (map mirror_time) (sol_ts s)) (sol_ys s)
             (fun t left => sol_evaluate s (- t) left)
             (sol_num_steps s) (sol_num_accepted s) (sol_num_rejected s) (sol_result s)
             (sol_solver_state s) (sol_controller_state s) (sol_made_jump s) (sol_event_mask s).

  (** No event, or events that do not look at the time and are not located by a root finder. *)
  Definition event_ignores_time (p : problem) : Prop :=
    match pb_event p with
    | None => True
    | Some e => ev_root_finder e = None /\
                Forall (fun cf => match cf with
                                  | BoolCond f => forall t t' y, f t y = f t' y
                                  | RealCond f _ => forall t t' y, f t y = f t' y
                                  end) (ev_cond_fn e)
    end.
  Definition pb_root_finder (p : problem) : bool :=
    match pb_event p with
    | Some e => match ev_root_finder e with Some _ => true | None => false end
    | None => false
    end.
End SpecDirection.

Section SpecBatch.
  Context {Y SS CS DI E V MS : Type}.
  (** A root finder that leaves its starting point alone if that is a root. *)
  Definition keeps_roots (rf : root_finder) : Prop :=
    forall f lo hi start, Forall (fun v => v = Some 0) (f start) -> rf f lo hi start = (start, None).
  (** No two consecutive values of an element's loop interfere: the outcome of element [k]. *)
  Definition alone (c : config Y SS CS DI E V MS) (m : nat) (s : state Y SS CS DI V MS)
    : option (outcome Y SS CS DI V MS) := finish c (while_loop c m s).
End SpecBatch.
