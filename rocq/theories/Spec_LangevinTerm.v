(** What is expected of the terms of the underdamped Langevin equation: equations for each element. *)
From Coq Require Import Reals List Bool Arith.
From Verif Require Import Model_PyTree.
Import ListNotations.
Open Scope R_scope.

(** The array at the end of a path down a PyTree.  Nothing is below an array, so the path may be longer. *)
Fixpoint leaf_at {A} (t : pytree A) (path : list nat) : option A :=
  match t, path with
  | Leaf a, _ => Some a
  | Node _ l, i :: path => match nth_error l i with Some t => leaf_at t path | None => None end
  | Node _ _, [] => None
  end.
(** The element of an array with the given indices *)
Fixpoint position (s idx : list nat) : nat :=
  match s, idx with _ :: s, i :: idx => (i * size s + position s idx)%nat | _, _ => 0%nat end.
Definition element (a : array) (idx : list nat) : R := nth (position (shape a) idx) (data a) 0.
(** The indices in an array of shape [s] for the indices [idx] in one it is broadcast to: only the last axes count, and
    those of length 1 have one index. *)
Definition aligned (s idx : list nat) : list nat :=
  map2 (fun n i => if Nat.eqb n 1 then 0%nat else i) s (skipn (length idx - length s) idx).
(** The value of a PyTree (or of a prefix of it, broadcast) at a position *)
Definition value (t : pytree array) (path idx : list nat) : R :=
  match leaf_at t path with Some a => element a (aligned (shape a) idx) | None => 0 end.
(** The positions of a PyTree *)
Definition position_of (t : pytree array) (path idx : list nat) : Prop :=
  exists a, leaf_at t path = Some a /\ Forall2 lt idx (shape a).

(** numpy's condition for broadcasting an array of shape [s] to the shape [t] *)
Definition broadcastable (s t : list nat) : Prop :=
  (length s <= length t)%nat /\
  Forall2 (fun n m => n = m \/ n = 1%nat) s (skipn (length t - length s) t).
(** [arg] is a prefix of [t], with arrays of shapes that can be broadcast *)
Inductive covers : pytree array -> pytree array -> Prop :=
| covers_leaf a t : well_formed a -> Forall (fun b => broadcastable (shape a) (shape b)) (tree_leaves t) -> covers (Leaf a) t
| covers_node g l l' : Forall2 covers l l' -> covers (Node g l) (Node g l').
(** Only the structures *)
Inductive prefix {A B} : pytree A -> pytree B -> Prop :=
| prefix_leaf a t : prefix (Leaf a) t
| prefix_node g l l' : Forall2 prefix l l' -> prefix (Node g l) (Node g l').
