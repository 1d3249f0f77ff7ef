(** Running a Runge--Kutta method in the integration loop. *)
From Coq Require Import ZArith Reals List Bool.
From Verif Require Import Model_Result Model_Loop Model_RK Spec_RK.
Import ListNotations.

(** [config] with another solver. *)
Definition set_step {Y SS CS DI E V MS : Type} (c : config Y SS CS DI E V MS)
  (f : Z -> Z -> Y -> SS -> bool -> step_out Y SS DI E) : config Y SS CS DI E V MS :=
  Config f (nan_to_inf c) (interpolate c) (adapt c) (stepto_len c) (midpoint c) (meter_step c)
    (cfg_subs c) (cfg_dense c) (cfg_event c) (cfg_t0 c) (cfg_t1 c) (cfg_max_steps c).

Section Spec.
  Context {I J C : Type}.
  Notation Y := (I -> R).

  (** What the loop sees of [AbstractRungeKutta.step].  [time] gives the real number a time of the loop
      stands for; [others] says when the other elements of a batch want their first stage evaluated. *)
  Definition rk_solver_step (sv : solver I J C) (time : Z -> R)
             (others : Z -> Z -> Y -> solver_state J -> bool -> bool)
             (tprev tnext : Z) (y : Y) (state : solver_state J) (made_jump : bool)
    : step_out Y (solver_state J) (Y * Y * list (list Y)) (option Y) :=
    let out := rk_step sv (time tprev) (time tnext) y (others tprev tnext y state made_jump) state made_jump in
    StepOut (ro_y out) (ro_error out) (y, ro_y out, ro_k out) (ro_state out) (ro_result out).

  (** The root finder solves a problem that is already solved, [f = c]. *)
  Definition solves_explicit (rf : root_finder I J) : Prop :=
    forall j stage g guess c, (forall f x, g f x = (f x - c x)%R) ->
      snd (rf_f rf j stage g guess) = successful.
End Spec.

(** A controller moves on to the end of an accepted step unless it announces a jump. *)
Definition announces_jumps {Y SS CS DI E V MS : Type} (c : config Y SS CS DI E V MS) : Prop :=
  forall tprev tnext y y1 err cs,
    let ao := adapt c tprev tnext y y1 err cs in
    ao_keep ao = true -> ao_jump ao = false -> ao_tprev ao = tnext.
