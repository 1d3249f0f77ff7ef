(** Vocabulary for the convergence of solvers other than Runge--Kutta methods. *)
From Coq Require Import Reals List.
From Verif Require Import Model_Solvers Spec_Order.
Import ListNotations.
Open Scope R_scope.

(** [n] times after [t], at distance [h]. *)
Fixpoint grid (t h : R) (n : nat) : list R :=
  match n with O => [] | S n => t + h :: grid (t + h) h n end.

(** [u'] is the derivative of [u] in the time interval [t0, t0 + T], and has itself a derivative, at most [M2]. *)
Definition smooth2 {I : Type} (t0 T M2 : R) (u u' : R -> I -> R) : Prop :=
  exists u'' : R -> I -> R, forall t x, t0 <= t <= t0 + T ->
    derivable_pt_lim (fun t => u t x) t (u' t x) /\ derivable_pt_lim (fun t => u' t x) t (u'' t x) /\ Rabs (u'' t x) <= M2.

(** And the second derivative has the Lipschitz constant [M3], as it has if a third derivative is at most [M3]. *)
Definition smooth3 {I : Type} (t0 T M2 M3 : R) (u u' : R -> I -> R) : Prop :=
  exists u'' : R -> I -> R, forall t x, t0 <= t <= t0 + T ->
    derivable_pt_lim (fun t => u t x) t (u' t x) /\ derivable_pt_lim (fun t => u' t x) t (u'' t x) /\ Rabs (u'' t x) <= M2 /\
    forall s, t0 <= s <= t0 + T -> Rabs (u'' s x - u'' t x) <= M3 * Rabs (s - t).

(** One half of the equations for the symplectic Euler method, as a term: [f] gives the derivative of one half in terms of the
    other. *)
Definition half_ode {I I' : Type} (f : R -> (I -> R) -> (I' -> R)) : half_term (I -> R) (I' -> R) R :=
  HalfTerm (fun t0 t1 => t1 - t0) (fun t y control i => control * f t y i).
Definition half_lipschitz {I I' : Type} (L : R) (f : R -> (I -> R) -> (I' -> R)) : Prop :=
  forall t y z B, bounded (fun x => y x - z x) B -> bounded (fun x => f t y x - f t z x) (L * B).
