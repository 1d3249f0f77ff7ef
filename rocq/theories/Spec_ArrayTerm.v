(** Vocabulary for the shapes and entries of arrays in terms. *)
From Coq Require Import Reals List Arith.
From Verif Require Import Model_PyTree Model_ArrayTerm.
Import ListNotations.
Open Scope R_scope.

(** PyTrees of one structure, whose corresponding leaves are related. *)
Definition leaves2 (P : carray -> carray -> Prop) (a b : pytree carray) : Prop :=
  tree_structure a = tree_structure b /\
  forall n x y, nth_error (tree_leaves a) n = Some x -> nth_error (tree_leaves b) n = Some y -> P x y.
Definition leaves3 (P : carray -> carray -> carray -> Prop) (a b c : pytree carray) : Prop :=
  tree_structure a = tree_structure b /\ tree_structure a = tree_structure c /\
  forall n x y z, nth_error (tree_leaves a) n = Some x -> nth_error (tree_leaves b) n = Some y -> nth_error (tree_leaves c) n = Some z -> P x y z.
Definition same_shape (x y : carray) : Prop := ca_shape x = ca_shape y.

(** NumPy's rule: [s] can be broadcast to [t] if each dimension is that of [t], aligned at the end, or one. *)
Definition broadcastable (s t : list nat) : Prop :=
  exists p q, t = p ++ q /\ Forall2 (fun a b => a = b \/ a = 1%nat) s q.
(** The index read in an array of shape [s] for the (last part of) index [i]. *)
Fixpoint read_index (s i : list nat) : list nat :=
  match s, i with a :: s, k :: i => (if Nat.eqb a 1 then 0%nat else k) :: read_index s i | _, _ => [] end.

(** All entries are real. *)
Definition real_entries (x : carray) : Prop := forall i, In i (indices (ca_shape x)) -> snd (ca_at x i) = 0.
Definition all_real (t : pytree carray) : Prop := forall x, In x (tree_leaves t) -> real_entries x.
(** The same shape and entries. *)
Definition same_entries (x y : carray) : Prop :=
  ca_shape x = ca_shape y /\ forall i, In i (indices (ca_shape x)) -> ca_at x i = ca_at y i.

(** The array [m] is the matrix with diagonal [d] (rows and columns are numbered by the indices of [d]). *)
Definition diagonal_matrix (d m : carray) : Prop :=
  ca_shape m = ca_shape d ++ ca_shape d /\
  forall i k, In i (indices (ca_shape d)) -> In k (indices (ca_shape d)) ->
    (i = k -> ca_at m (i ++ k) = ca_at d i) /\ (i <> k -> ca_at m (i ++ k) = czero).
