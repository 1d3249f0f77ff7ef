(** Specification vocabulary: Lipschitz vector fields. *)
From Coq Require Import Reals List.
From Verif Require Import Spec_Order.
Open Scope R_scope.

(** A type with finitely many elements, such as the numbers in a PyTree. *)
Definition finite_type (I : Type) : Prop := exists l, forall x : I, In x l.

(** The vector field is Lipschitz in the state, uniformly in time. *)
Definition lipschitz {I : Type} (L : R) (f : R -> (I -> R) -> (I -> R)) : Prop :=
  forall t y z B, bounded (fun x => y x - z x) B -> bounded (fun x => f t y x - f t z x) (L * B).
