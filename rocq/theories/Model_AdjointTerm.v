(** [AdjointTerm] of [/repo/diffrax/_term.py:768-910].  The time, the state and [args] are fixed; [self.vf_prod] as a function
    of the control is given, with its derivatives; whether it raises is left open.  Numbers are real, so [jnp.conj] in [_prod]
    does nothing. *)
From Coq Require Import Reals List Bool Arith.
From Verif Require Import Model_PyTree.
Import ListNotations.
Open Scope R_scope.

(** [_term.py:267-268] [_prod]: [jnp.tensordot(vf, control, axes=jnp.ndim(control))] *)
Definition tensordot (v c : array) : result array :=
  let n := (length (shape v) - length (shape c))%nat in
  if (length (shape c) <=? length (shape v))%nat && shape_eqb (skipn n (shape v)) (shape c) then
    let s := firstn n (shape v) in
    Ok (Array s (map (fun row => dot row (data c)) (chunks (size (shape c)) (size s) (data v))))
  else Raise TypeError.

(** [+] of arrays; simplification: arrays that are not of the same shape are not broadcast. *)
Definition array_add (a b : array) : result array :=
  if shape_eqb (shape a) (shape b) then Ok (Array (shape a) (map2 Rplus (data a) (data b))) else Raise ValueError.
(** [sum(arrays, 0)]; [0 + a] is [a]. *)
Fixpoint sum_from (acc : array) (l : list array) : result array :=
  match l with [] => Ok acc | a :: l => rbind (array_add acc a) (fun acc => sum_from acc l) end.
Definition sum_arrays (l : list array) : result array :=
  match l with [] => Ok (Array [] [0]) | a :: l => sum_from a l end.

(** All elements in order, and back: [jax.flatten_util], as used by [jax.jacfwd] and [jax.jacrev]. *)
Definition ravel (t : pytree array) : list R := flat_map data (tree_leaves t).
Fixpoint split_arrays (shapes : list (list nat)) (xs : list R) : list array :=
  match shapes with [] => [] | s :: shapes => Array s (firstn (size s) xs) :: split_arrays shapes (skipn (size s) xs) end.
Definition unravel (t : pytree array) (xs : list R) : result (pytree array) :=
  tree_unflatten (tree_structure t) (split_arrays (map shape (tree_leaves t)) xs).
(** A row of [jnp.eye(n)] *)
Definition eye (n k : nat) : list R := map (fun j => if Nat.eqb j k then 1 else 0) (seq 0 n).
Definition tree_size (t : pytree array) : nat := fold_right Nat.add 0%nat (map (fun a => size (shape a)) (tree_leaves t)).

(** The shapes of the leaves with the positions of their first elements among all *)
Fixpoint offsets (off : nat) (shapes : list (list nat)) : list (nat * list nat) :=
  match shapes with [] => [] | s :: shapes => (off, s) :: offsets (off + size s)%nat shapes end.
(** The Jacobian matrix [m], cut into a PyTree like the output of PyTrees like the input; the shape of a leaf is that of the
    output's leaf followed by that of the input's. *)
Definition jac_piece (m : nat -> nat -> R) (o l : nat * list nat) : array :=
  Array (snd o ++ snd l)
    (flat_map (fun i => map (fun k => m (fst o + i)%nat (fst l + k)%nat) (seq 0 (size (snd l)))) (seq 0 (size (snd o)))).
Definition jac_tree (m : nat -> nat -> R) (input output : pytree array) : result (pytree array) :=
  let pieces := map (fun o => map (jac_piece m o) (offsets 0 (map shape (tree_leaves input)))) (offsets 0 (map shape (tree_leaves output))) in
  rbind (result_list (map (tree_unflatten (tree_structure input)) pieces)) (fun subtrees =>
  rmap tree_join (tree_unflatten (tree_structure output) subtrees)).

Section AdjointTerm.
  (** [self.vf_prod(t, y, args, .)]; [jvp c d] is its derivative at [c] in the direction [d], and [vjp c w] the transpose. *)
  Context (vf_prod : pytree array -> result (pytree array)) (jvp vjp : pytree array -> pytree array -> result (pytree array)).

  (** [jax.jacfwd(_fn)(control)] and [jax.jacrev(_fn)(control)], with the output of [_fn]; [jax] cannot form a basis for a
      PyTree without arrays. *)
  Definition jacfwd (control : pytree array) : result (pytree array * pytree array) :=
    rbind (vf_prod control) (fun out =>
    if Nat.eqb (num_leaves control) 0 then Raise ValueError else
    let n := tree_size control in
    rbind (result_list (map (fun k => rbind (unravel control (eye n k)) (jvp control)) (seq 0 n))) (fun columns =>
    rmap (pair out) (jac_tree (fun i k => nth i (ravel (nth k columns tree_None)) 0) control out))).
  Definition jacrev (control : pytree array) : result (pytree array * pytree array) :=
    rbind (vf_prod control) (fun out =>
    if Nat.eqb (num_leaves out) 0 then Raise ValueError else
    let n := tree_size out in
    rbind (result_list (map (fun i => rbind (unravel out (eye n i)) (vjp control)) (seq 0 n))) (fun rows =>
    rmap (pair out) (jac_tree (fun i k => nth k (ravel (nth i rows tree_None)) 0) control out))).

  (** [_term.py:786-846] [vf]; [control] is [self.contr(t, t)] and [y_size] the number of elements of the state. *)
  Definition adjoint_vf (y_size : nat) (control : pytree array) : result (pytree array) :=
    let make_jac := if (tree_size control <? y_size)%nat then jacfwd else jacrev in
    rbind (make_jac control) (fun '(out, jac) =>
    let vf_prod_tree := tree_structure out in
    let control_tree := tree_structure control in
    if same_structure tree_None vf_prod_tree || same_structure tree_None control_tree then Raise NotImplementedError
    else tree_transpose vf_prod_tree control_tree jac).
End AdjointTerm.

(** [_term.py:865-866]: the check that all subtrees have the same structure *)
Definition common_structure (l : list (pytree unit)) : result (pytree unit) :=
  match l with
  | [] => Raise AssertionError
  | s :: l => if forallb (same_structure s) l then Ok s else Raise AssertionError
  end.
(** An operation on arrays, applied to what [jtu.tree_map] passes in place of the second: a subtree *)
Definition on_array {A} (f : array -> result A) (t : pytree array) : result A :=
  match t with Leaf a => f a | Node _ _ => Raise TypeError end.
(** [_term.py:851-888] [prod] *)
Definition adjoint_prod (vf control : pytree array) : result (pytree array) :=
  let control_tree := tree_structure control in
  rbind (tree_map2 (fun _ sub => Ok (tree_structure sub)) control vf) (fun structures =>
  rbind (common_structure (tree_leaves structures)) (fun vf_prod_tree =>
  rbind (tree_transpose control_tree vf_prod_tree vf) (fun vf =>
  let contract (_ : unit) (vf_piece : pytree array) :=
    if same_structure (tree_structure vf_piece) control_tree then
      rbind (tree_map2 (fun a => on_array (tensordot a)) vf_piece control) (fun contracted =>
      sum_arrays (tree_leaves contracted))
    else Raise AssertionError in
  tree_map2 contract vf_prod_tree vf))).

(** [_term.py:771-784] [is_vf_expensive] *)
Definition adjoint_is_vf_expensive (control : pytree array) : bool :=
  negb (Nat.eqb (tree_size control) 0 || Nat.eqb (tree_size control) 1).

(** [_term.py:890-910] [vf_prod], for states, controls and parameters as vectors: [term_vf_prod y theta control] is that of the
    term, [vjp y theta control w] its transposed derivative in the state and in the parameters; [args] and the parameters inside
    the term are treated together. *)
Definition vec := nat -> R.
Definition adjoint_vf_prod (term_vf_prod : vec -> vec -> vec -> vec) (vjp : vec -> vec -> vec -> vec -> vec * vec)
    (theta : vec) (aug : vec * vec * vec) (control : vec) : vec * vec * vec :=
  let '(y, a_y, _) := aug in
  let dy := term_vf_prod y theta control in
  let '(da_y, da_args) := vjp y theta control (fun i => - a_y i) in
  (dy, da_y, da_args).
