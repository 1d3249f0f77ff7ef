(** The size of the first step.  Models [_select_initial_step] and [PIDController.init] in
    [/repo/diffrax/_step_size_controller/pid.py], and the part of [diffeqsolve] in [/repo/diffrax/_integrate.py]
    that calls it.  Numbers are exact reals; [args] is fixed; [lax.stop_gradient] and dtypes are left out. *)
From Coq Require Import Reals ZArith List.
Import ListNotations.
Open Scope R_scope.

Section InitialStep.
  Context {I : Type}.
  Notation Y := (I -> R).

  (** A PyTree of terms, as far as [isinstance] tells them apart: [ODETerm] with its vector field, [WrapTerm]
      ([_term.py:734-764]), the tuple inside a [MultiTerm] and any other container, and all other terms. *)
  Inductive pyterm : Type :=
  | ODETerm (vector_field : R -> Y -> Y)
  | WrapTerm (trm : pyterm) (direction : Z)
  | Terms (terms : list pyterm)
  | OtherTerm (vf : R -> Y -> Y).

  (** [solver.func(terms, t, y, args)] of the solvers that evaluate the vector field of one term, e.g.
      [runge_kutta.py:406-413]; [WrapTerm.vf] is [_term.py:738-740].  Containers have no vector field here. *)
  Fixpoint vf_func (terms : pyterm) (t : R) (y : Y) : Y :=
    match terms with
    | ODETerm f => f t y
    | WrapTerm trm d => vf_func trm (t * IZR d) y
    | OtherTerm f => f t y
    | Terms _ => fun _ => 0
    end.

  (** [isinstance(terms, ODETerm)] *)
  Definition is_ode_term (trm : pyterm) : bool := match trm with ODETerm _ => true | _ => false end.

  (** [pid.py:49-80] [_select_initial_step] after the test of the type of the term; [func] is [solver.func] at
      the terms ([scan_trick] evaluates it twice). *)
  Definition select_for (norm : Y -> R) (error_order rtol atol : R) (func : R -> Y -> Y) (t0 : R) (y0 : Y) : R :=
    let scale := fun i => atol + Rabs (y0 i) * rtol in
    let f0 := func t0 y0 in
    let d0 := norm (fun i => y0 i / scale i) in
    let d1 := norm (fun i => f0 i / scale i) in
    let cond := if Rlt_dec d0 (1 / 100000) then true else if Rlt_dec d1 (1 / 100000) then true else false in
    let d1' := if cond then 1 else d1 in
    let h0 := if cond then 1 / 1000000 else (1 / 100) * (d0 / d1') in
    let t1 := t0 + h0 in
    let y1 := fun i => y0 i + h0 * f0 i in
    let f1 := func t1 y1 in
    let d2 := norm (fun i => (f1 i - f0 i) / scale i) / h0 in
    let max_d := Rmax d1 d2 in
    let h1 := if Rle_dec max_d (1 / 10 ^ 15) then Rmax (1 / 1000000) (h0 * (1 / 1000))
              else Rpower (1 / 100 / max_d) (1 / error_order) in
    Rmin (100 * h0) h1.

  (** [pid.py:33-80] [_select_initial_step] *)
  Definition select_initial_step (norm : Y -> R) (error_order rtol atol : R) (terms : pyterm)
             (func : R -> Y -> Y) (t0 : R) (y0 : Y) : R :=
    if is_ode_term terms then select_for norm error_order rtol atol func t0 y0 else 1 / 100.

  (** [pid.py:310-392] [PIDController.init]: the end of the first step. *)
  Definition pid_first_end (norm : Y -> R) (error_order rtol atol : R) (dtmin dtmax : option R) (terms : pyterm)
             (func : R -> Y -> Y) (t0 : R) (y0 : Y) (dt0 : option R) : R :=
    let dt0 := match dt0 with
               | None => select_initial_step norm error_order rtol atol terms func t0 y0
               | Some dt0 => dt0
               end in
    let dt0 := match dtmax with Some m => Rmin dt0 m | None => dt0 end in
    let dt0 := match dtmin with Some m => Rmax dt0 m | None => dt0 end in
    t0 + dt0.

  (** [_integrate.py:1165-1174]: [jtu.tree_map(_wrap, terms)].  The leaves are the terms that are not
      [MultiTerm]s. *)
  Fixpoint wrap_terms (direction : Z) (terms : pyterm) : pyterm :=
    match terms with
    | Terms ts => Terms (map (wrap_terms direction) ts)
    | trm => WrapTerm trm direction
    end.

  (** [_integrate.py:1156-1175], [1253-1265]: the first step that [diffeqsolve] attempts, in normalised time, when
      it is given no [controller_state].  [func] evaluates [solver.func] for a PyTree of terms. *)
  Definition diffeqsolve_first_end (norm : Y -> R) (error_order rtol atol : R) (dtmin dtmax : option R)
             (func : pyterm -> R -> Y -> Y) (terms : pyterm) (t0 t1 : R) (y0 : Y) (dt0 : option R) : R :=
    let direction := if Rlt_dec t0 t1 then 1%Z else (-1)%Z in
    let t0 := t0 * IZR direction in
    let t1 := t1 * IZR direction in
    let dt0 := option_map (fun dt0 => dt0 * IZR direction) dt0 in
    let terms := wrap_terms direction terms in
    Rmin (pid_first_end norm error_order rtol atol dtmin dtmax terms (func terms) t0 y0 dt0) t1.
End InitialStep.
Arguments pyterm : clear implicits.
