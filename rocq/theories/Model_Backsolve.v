(** [BacksolveAdjoint]: [diffrax/_adjoint.py:572-734] [_loop_backsolve_bwd], and the vector field of
    [AdjointTerm], [diffrax/_term.py]. *)
From Coq Require Import List Bool Arith Reals.
Import ListNotations.

Section Backsolve.
  (** Times, solutions, cotangents of the solution, cotangents of [args] and [terms] together, and
      the states of solver and controller together. *)
  Context {T Y A P S : Type}.
  (** [_a_y0**ω + _grad_y0**ω] and the two zeros, lines 613-615. *)
  Variables (add : A -> A -> A) (zero : A) (zero_p : P).
  (** The call of [diffeqsolve] on the augmented system, lines 653-662: integrates from the second time to
      the first, starting from solution and cotangents, with [made_jump] and the states of the
      previous call; returns the cotangents at the end and the states.  That the
      augmented solution at the end is also returned, and dropped on line 669, is left out. *)
  Variable solve : T -> T -> bool -> option S -> Y -> A -> P -> A * P * S.

  (** The values scanned over: [(_t1, _t0, _y0, _grad_y0)], line 647. *)
  Definition vals := (T * T * Y * A)%type.
  Definition carry := (A * P * option S)%type.

  (** [_scan_fun], lines 646-674. *)
  Definition scan_fun (first : bool) (state : carry) (v : vals) : carry :=
    let '(t1, t0, y0, grad_y0) := v in
    let '(a_y0, a_p0, st) := state in
    let a_y0 := add a_y0 grad_y0 in
    let '(a_y1, a_p1, st') := solve t0 t1 (negb first) st y0 a_y0 a_p0 in
    (a_y1, a_p1, Some st').

  (** [lax.scan(_scan_fun, state, vals, reverse=True)] *)
  Definition scan_reverse (state : carry) (vs : list vals) : carry :=
    fold_left (scan_fun false) (rev vs) state.

  (** [x[:-1]], [x[:-2]], [x[1:-1]], [x[-1]], [x[-2]] *)
  Definition init1 {X} (l : list X) : list X := removelast l.
  Definition init2 {X} (l : list X) : list X := removelast (removelast l).
  Definition inner {X} (l : list X) : list X := removelast (tl l).
  Definition at_last {X} (l : list X) : option X := nth_error l (length l - 1).
  Definition at_last2 {X} (l : list X) : option X :=
    if (length l <? 2)%nat then None else nth_error l (length l - 2).

  (** A batch of values from its four arrays. *)
  Fixpoint zip4 (a b : list T) (c : list Y) (d : list A) : list vals :=
    match a, b, c, d with
    | x :: a', y :: b', z :: c', w :: d' => (x, y, z, w) :: zip4 a' b' c' d'
    | _, _, _, _ => []
    end.
  Definition val_of (a b : option T) (c : option Y) (d : option A) : option vals :=
    match a, b, c, d with
    | Some x, Some y, Some z, Some w => Some (x, y, z, w)
    | _, _, _, _ => None
    end.

  (** Lines 676-734.  [None]: an assertion fails or an index is out of range. *)
  Definition loop_backsolve_bwd (saveat_t0 : bool) (t0 : T) (ts : list T) (ys : list Y) (grad_ys : list A)
    : option (A * P) :=
    let state : carry := (zero, zero_p, None) in
    if saveat_t0 then
      let final :=
        if (2 <? length ts)%nat then
          match val_of (at_last2 ts) (at_last ts) (at_last ys) (at_last grad_ys) with
          | None => None
          | Some val0 =>
              let state := scan_fun true state val0 in
              Some (scan_reverse state (zip4 (init2 ts) (inner ts) (inner ys) (inner grad_ys)))
          end
        else if (length ts =? 1)%nat then Some state
        else if (length ts =? 2)%nat then
          match val_of (nth_error ts 0) (nth_error ts 1) (nth_error ys 1) (nth_error grad_ys 1) with
          | None => None
          | Some val => Some (scan_fun true state val)
          end
        else None in
      match final, nth_error grad_ys 0 with
      | Some (a_y1, a_p1, _), Some g => Some (add a_y1 g, a_p1)
      | _, _ => None
      end
    else
      let final :=
        if (1 <? length ts)%nat then
          match val_of (at_last2 ts) (at_last ts) (at_last ys) (at_last grad_ys) with
          | None => None
          | Some val0 =>
              let state := scan_fun true state val0 in
              Some (scan_reverse state (zip4 (t0 :: init2 ts) (init1 ts) (init1 ys) (init1 grad_ys)))
          end
        else if (length ts =? 1)%nat then
          match val_of (Some t0) (nth_error ts 0) (nth_error ys 0) (nth_error grad_ys 0) with
          | None => None
          | Some val => Some (scan_fun true state val)
          end
        else None in
      match final with
      | Some (a_y1, a_p1, _) => Some (a_y1, a_p1)
      | None => None
      end.
End Backsolve.

(** [AdjointTerm.vf_prod], [_term.py:886-911], of an ODE (the control is the time step, here of unit
    length), for a state with [n] and parameters with [q] real components.  The augmented state is
    (solution, its cotangent, cotangent of the parameters); [args] and the parameters inside the
    term are treated together.  [vjp] is [jax.vjp(_to_vjp, ...)], line 909. *)
Definition vec := nat -> R.
Definition adjoint_vf_prod (f : R -> vec -> vec -> vec) (vjp : R -> vec -> vec -> vec -> vec * vec)
    (theta : vec) (t : R) (aug : vec * vec * vec) : vec * vec * vec :=
  let '(y, a_y, _) := aug in
  let '(da_y, da_p) := vjp t y theta (fun i => (- a_y i)%R) in
  (f t y theta, da_y, da_p).
