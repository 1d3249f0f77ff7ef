(** Results of a solve.  Models [/repo/diffrax/_solution.py]. *)
From Coq Require Import Bool.

(** [_solution.py:13-32] class [RESULTS].  It subclasses [optx.RESULTS] (which itself
    subclasses [lx.RESULTS]); the inherited error members (linear solve failed, nonlinear
    divergence, ...) are collapsed into the family [other_error n]. *)
Inductive RESULTS : Set :=
| successful
| max_steps_reached
| dt_min_reached
| event_occurred
| max_steps_rejected
| internal_error
| other_error (n : nat).

(** [_solution.py:57-58] *)
Definition is_successful (r : RESULTS) : bool :=
  match r with successful => true | _ => false end.

(** [_solution.py:61-62] *)
Definition is_event (r : RESULTS) : bool :=
  match r with event_occurred => true | _ => false end.

(** [_solution.py:52-54] *)
Definition is_okay (r : RESULTS) : bool := is_successful r || is_event r.

(** [RESULTS.where] (equinox enumeration select), used throughout. *)
Definition where_ {A : Type} (p : bool) (a b : A) : A := if p then a else b.

(** [_solution.py:65-79] *)
Definition update_result (old_result new_result : RESULTS) : RESULTS :=
  let out_result := where_ (is_okay old_result) new_result old_result in
  let pred := is_okay new_result && is_event old_result in
  where_ pred old_result out_result.
