(** Specification for [ImplicitAdjoint]. *)
From Coq Require Import Reals List.
From Coquelicot Require Import Coquelicot.
Import ListNotations.
Open Scope R_scope.

Section SpecImplicit.
  Context {P Y : NormedModule R_AbsRing}.

  (** Squared distance of two lists of vectors. *)
  Fixpoint sqdist (a b : list Y) : R :=
    match a, b with
    | x :: a, y :: b => norm (minus x y) ^ 2 + sqdist a b
    | _, _ => 0
    end.

  (** Solutions of a linear system in the sense of least squares. *)
  Definition least_squares (A : Y -> list Y) (b : list Y) (x : Y) : Prop :=
    forall x', sqdist (A x) b <= sqdist (A x') b.

  (** A linear solver finds the solution if there is just one ([lineax.AutoLinearSolver(well_posed=None)]). *)
  Definition solves (linear_solve : (Y -> list Y) -> list Y -> Y) : Prop :=
    forall A b x, least_squares A b x -> (forall x', least_squares A b x' -> x' = x) -> linear_solve A b = x.

  (** [L] is the derivative of [F], a function of parameters and state, at a point. *)
  Definition derivative_at (F : P -> Y -> Y) (p0 : P) (y0 : Y) (L : P * Y -> Y) : Prop :=
    filterdiff (fun q : P * Y => F (fst q) (snd q)) (locally (p0, y0)) L.

  (** The same for a function with a list of results. *)
  Definition derivatives_at (F : P -> Y -> list Y) (p0 : P) (y0 : Y) (D : list (P * Y -> Y)) : Prop :=
    length D = length (F p0 y0) /\
    forall i L, nth_error D i = Some L -> derivative_at (fun p y => nth i (F p y) zero) p0 y0 L.

  (** The Jacobian with respect to the state is invertible. *)
  Definition invertible (A : Y -> Y) : Prop :=
    exists B : Y -> Y, is_linear B /\ (forall y, A (B y) = y) /\ (forall y, B (A y) = y).
End SpecImplicit.

(** Root mean square. *)
Definition rms (l : list R) : R := sqrt (fold_right (fun x s => x ^ 2 + s) 0 l / INR (length l)).
