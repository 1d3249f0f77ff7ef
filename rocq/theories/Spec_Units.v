(** Vocabulary for a change of units with adaptive step sizes. *)
From Coq Require Import QArith ZArith List Bool.
From Verif Require Import Model_Result Model_Loop Model_Float Model_PID Model_Clip Spec_PID.
Import ListNotations.
Open Scope Q_scope.

(** [b] is [k] times [a] ([k] is positive); NaN and infinities correspond to themselves. *)
Definition times (k : Q) (a b : xq) : Prop :=
  match a, b with
  | QFin x, QFin y => y == k * x
  | QNaN, QNaN | QPInf, QPInf | QNInf, QNInf => True
  | _, _ => False
  end.
(** The same number. *)
Definition same_number (a b : xq) : Prop := times 1 a b.
Definition tree_times (k : Q) (l m : tree) : Prop := Forall2 (Forall2 (times k)) l m.
Definition option_times (k : Q) (a b : option Q) : Prop :=
  match a, b with Some x, Some y => y == k * x | None, None => True | _, _ => False end.

(** The norm and exponentiation depend on the numbers only, not on their representation as fractions. *)
Definition numeric (p : pid_controller) : Prop :=
  (forall l m, tree_times 1 l m -> same_number (norm p l) (norm p m)) /\
  (forall a b c, same_number a b -> same_number (power p a c) (power p b c)).

(** The controller in new units: [atol] is multiplied by [k], the minimal and maximal step size by [c]; nothing else changes. *)
Definition in_units (k c : Q) (p p' : pid_controller) : Prop :=
  atol p' == k * atol p /\ option_times c (dtmin p) (dtmin p') /\ option_times c (dtmax p) (dtmax p') /\
  rtol p' = rtol p /\ norm p' = norm p /\ power p' = power p /\ pcoeff p' = pcoeff p /\ icoeff p' = icoeff p /\ dcoeff p' = dcoeff p /\
  force_dtmin p' = force_dtmin p /\ factormin p' = factormin p /\ factormax p' = factormax p /\ safety p' = safety p /\
  error_order p' = error_order p.
(** The stored inverse errors have no units. *)
Definition same_state (s s' : pid_state) : Prop :=
  same_number (prev_inv_scaled_error s) (prev_inv_scaled_error s') /\
  same_number (prev_prev_inv_scaled_error s) (prev_prev_inv_scaled_error s') /\ at_dtmin s = at_dtmin s'.

(** Floating point times in new units: the floats correspond to each other, and rounding does not depend on the units (as for
    powers of two without overflow and underflow). *)
Definition clocks (c : Q) (val val' : Z -> Q) (rnd rnd' : Q -> Z) : Prop :=
  (forall a, val' a == c * val a) /\ (forall x x', x' == c * x -> rnd' x' = rnd x).

(** States of [ClipStepSizeController]: the same positions in the lists of times, related inner states. *)
Definition same_clip {IS IS' : Type} (RI : IS -> IS' -> Prop) (s : clip_state IS) (s' : clip_state IS') : Prop :=
  step_info s = step_info s' /\ jump_info s = jump_info s' /\ reject_info s = reject_info s' /\ RI (inner_state s) (inner_state s').
