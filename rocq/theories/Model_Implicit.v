(** Model of [ImplicitAdjoint] in [diffrax/_adjoint.py], and of what [steady_state_event] tests if there are
    several terms. *)
From Coq Require Import Reals List.
From Coquelicot Require Import Coquelicot.
Import ListNotations.
Open Scope R_scope.

Section Implicit.
  (** [P]: the parameters, that is everything differentiable in [args] and [terms]; [Y]: states. *)
  Context {P Y : NormedModule R_AbsRing}.

  (** Vector fields: of parameters, time and state.  Either one [ODETerm], or a [MultiTerm] of them
      (simplification: [MultiTerm]s are not nested). *)
  Definition vfield : Type := P -> R -> Y -> Y.
  Inductive terms := One (f : vfield) | Multi (fs : list vfield).

  (** [_term.py:734-740] [WrapTerm]: [vf] multiplies time by the direction; [_integrate.py:1167-1174] wraps
      each component of a [MultiTerm]. *)
  Definition wrap (direction : R) (f : vfield) : vfield := fun p t y => f p (t * direction) y.
  Definition wrap_terms (direction : R) (tm : terms) : terms :=
    match tm with One f => One (wrap direction f) | Multi fs => Multi (map (wrap direction) fs) end.

  (** [solver.func(terms, t, y, args)], which for the solvers of one term is [terms.vf]:
      [_solver/runge_kutta.py:406-413], [_solver/euler.py:63-70], [_term.py:692-693].  A [MultiTerm] gives
      the tuple of the vector fields. *)
  Definition func (tm : terms) (p : P) (t : R) (y : Y) : list Y :=
    match tm with One f => [f p t y] | Multi fs => map (fun f => f p t y) fs end.

  (** [_adjoint.py:410-420] [_vf]: the function whose root [y] is taken to be.  [t] is [tprev] of the final state. *)
  Definition implicit_vf (tm : terms) (tprev : R) (p : P) (y : Y) : list Y := func tm p tprev y.

  (** [_adjoint.py:509-512] [optxi.implicit_jvp(_solve, _vf, inputs, tags, linear_solver)]: with the derivatives [D]
      of the parts of [_vf], as functions of the change of parameters and state, the tangent of the output is
      the solution of [d_vf/dy . tangent = - d_vf/dp . dp] found by the linear solver.  What [_solve] depends on
      besides the parameters, such as [y0], does not enter. *)
  Definition tangent (linear_solve : (Y -> list Y) -> list Y -> Y) (D : list (P * Y -> Y)) (dp : P) : Y :=
    linear_solve (fun dy => map (fun L => L (zero, dy)) D) (map (fun L => opp (L (dp, zero))) D).

  (** [_event.py:172-175] the condition of [steady_state_event] once tolerances and norms are known.  [vnorm]: the norm of
      what [solver.func] returns. *)
  Definition steady_cond (vnorm : list Y -> R) (ynorm : Y -> R) (rtol atol : R) (tm : terms) (p : P) (t : R) (y : Y)
    : Prop :=
    vnorm (func tm p t y) < atol + rtol * ynorm y.
End Implicit.
Arguments vfield : clear implicits.
Arguments terms : clear implicits.
