(** PyTrees of arrays, and what [/repo/diffrax/_term.py] uses of [jax.tree_util] and [jax.numpy] on them.  Numbers are
    real; dtypes are not modelled. *)
From Coq Require Import Reals List Bool Arith.
Import ListNotations.
Open Scope R_scope.

(** A PyTree.  [tag] is the type of a node with what belongs to it (such as the keys of a dictionary). *)
Inductive pytree (A : Type) := Leaf (a : A) | Node (tag : nat) (children : list (pytree A)).
Arguments Leaf {A}.
Arguments Node {A}.
(** [None] is a node without children. *)
Definition tag_None : nat := 0.
Definition tree_None {A} : pytree A := Node tag_None [].

(** The errors that are distinguished: by [jax.tree_util] and by broadcasting ([ValueError]), by operators on what is not an
    array ([TypeError]), by an [assert], and those that [_term.py] raises itself. *)
Inductive error := ValueError | TypeError | AssertionError | NotImplementedError | RuntimeError.
Inductive result (A : Type) := Ok (a : A) | Raise (e : error).
Arguments Ok {A}.
Arguments Raise {A}.
Definition rbind {A B} (x : result A) (f : A -> result B) : result B := match x with Ok a => f a | Raise e => Raise e end.
Definition rmap {A B} (f : A -> B) (x : result A) : result B := rbind x (fun a => Ok (f a)).

(** [jtu.tree_leaves], [jtu.tree_structure], [num_leaves] *)
Fixpoint tree_leaves {A} (t : pytree A) : list A :=
  match t with Leaf a => [a] | Node _ l => flat_map tree_leaves l end.
Fixpoint tree_map {A B} (f : A -> B) (t : pytree A) : pytree B :=
  match t with Leaf a => Leaf (f a) | Node g l => Node g (map (tree_map f) l) end.
Definition tree_structure {A} (t : pytree A) : pytree unit := tree_map (fun _ => tt) t.
Definition num_leaves {A} (t : pytree A) : nat := length (tree_leaves t).

(** Equality of structures *)
Fixpoint same_structure (s t : pytree unit) : bool :=
  match s, t with
  | Leaf _, Leaf _ => true
  | Node g l, Node g' l' =>
      Nat.eqb g g' &&
      (fix all (l l' : list (pytree unit)) : bool :=
         match l, l' with [], [] => true | s :: l, t :: l' => same_structure s t && all l l' | _, _ => false end) l l'
  | _, _ => false
  end.

(** [jtu.tree_unflatten]: the leaves in order; too few or too many are a [ValueError]. *)
Fixpoint fill {A} (s : pytree unit) (xs : list A) : option (pytree A * list A) :=
  match s with
  | Leaf _ => match xs with x :: xs => Some (Leaf x, xs) | [] => None end
  | Node g l =>
      match (fix fills (l : list (pytree unit)) (xs : list A) : option (list (pytree A) * list A) :=
               match l with
               | [] => Some ([], xs)
               | s :: l => match fill s xs with
                           | Some (t, xs) => match fills l xs with Some (ts, xs) => Some (t :: ts, xs) | None => None end
                           | None => None
                           end
               end) l xs with
      | Some (ts, xs) => Some (Node g ts, xs)
      | None => None
      end
  end.
Definition tree_unflatten {A} (s : pytree unit) (xs : list A) : result (pytree A) :=
  match fill s xs with Some (t, []) => Ok t | _ => Raise ValueError end.

(** [jtu.tree_map(f, source, target)]: the leaves of [source] with the subtrees of [target] in their place; a [ValueError] if
    [source] is not a prefix of [target]. *)
Fixpoint tree_map2 {A B C} (f : A -> pytree B -> result C) (s : pytree A) (t : pytree B) : result (pytree C) :=
  match s with
  | Leaf a => rmap Leaf (f a t)
  | Node g l =>
      match t with
      | Leaf _ => Raise ValueError
      | Node g' l' =>
          if Nat.eqb g g' then
            rmap (Node g)
              ((fix go (l : list (pytree A)) (l' : list (pytree B)) : result (list (pytree C)) :=
                  match l, l' with
                  | [], [] => Ok []
                  | s :: l, t :: l' => rbind (tree_map2 f s t) (fun c => rmap (cons c) (go l l'))
                  | _, _ => Raise ValueError
                  end) l l')
          else Raise ValueError
      end
  end.

(** [zip] of lists of equal length *)
Fixpoint transpose {A} (n : nat) (rows : list (list A)) : list (list A) :=
  match n with
  | O => []
  | S n => flat_map (fun r => match r with x :: _ => [x] | [] => [] end) rows :: transpose n (map (fun r => tl r) rows)
  end.
Fixpoint chunks {A} (size : nat) (count : nat) (xs : list A) : list (list A) :=
  match count with O => [] | S count => firstn size xs :: chunks size count (skipn size xs) end.
Fixpoint result_list {A} (l : list (result A)) : result (list A) :=
  match l with [] => Ok [] | x :: l => rbind x (fun a => rmap (cons a) (result_list l)) end.
(** A PyTree of PyTrees is a PyTree. *)
Fixpoint tree_join {A} (t : pytree (pytree A)) : pytree A :=
  match t with Leaf s => s | Node g l => Node g (map tree_join l) end.
(** [jtu.tree_transpose(outer, inner, tree)]: only the numbers of leaves are checked (a [TypeError]).  [zip] of no rows at
    all is empty. *)
Definition tree_transpose {A} (outer inner : pytree unit) (t : pytree A) : result (pytree A) :=
  let flat := tree_leaves t in
  if Nat.eqb (length flat) (num_leaves outer * num_leaves inner) then
    let lol := chunks (num_leaves inner) (num_leaves outer) flat in
    let transposed_lol := match lol with [] => [] | _ => transpose (num_leaves inner) lol end in
    rbind (result_list (map (tree_unflatten outer) transposed_lol)) (fun subtrees =>
    rmap tree_join (tree_unflatten inner subtrees))
  else Raise TypeError.

(** Arrays: the elements in row-major order. *)
Record array := Array { shape : list nat; data : list R }.
Definition size (s : list nat) : nat := fold_right Nat.mul 1%nat s.
Definition well_formed (a : array) : Prop := length (data a) = size (shape a).

Fixpoint map2 {A B C} (f : A -> B -> C) (l : list A) (l' : list B) : list C :=
  match l, l' with x :: l, y :: l' => f x y :: map2 f l l' | _, _ => [] end.
Definition dot (v w : list R) : R := fold_right Rplus 0 (map2 Rmult v w).
Fixpoint shape_eqb (s s' : list nat) : bool :=
  match s, s' with [], [] => true | a :: s, b :: s' => Nat.eqb a b && shape_eqb s s' | _, _ => false end.
