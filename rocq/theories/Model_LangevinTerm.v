(** The terms of the underdamped Langevin equation, [/repo/diffrax/_term.py:912-1096], on PyTrees of arrays of any shapes.
    Numbers are real; dtypes are not modelled.  The square root of a negative number, NaN in the code, is 0 here. *)
From Coq Require Import Reals List Bool Arith.
From Verif Require Import Model_PyTree.
Import ListNotations.
Open Scope R_scope.

(** [jtu.tree_map(f, tree)] for an [f] that may raise *)
Fixpoint tree_map_r {A B} (f : A -> result B) (t : pytree A) : result (pytree B) :=
  match t with
  | Leaf a => rmap Leaf (f a)
  | Node g l => rmap (Node g) ((fix go (l : list (pytree A)) : result (list (pytree B)) :=
                  match l with [] => Ok [] | t :: l => rbind (tree_map_r f t) (fun b => rmap (cons b) (go l)) end) l)
  end.
(** The first part of [jtu.tree_map(f, tree, rest)]: [jax] compares all structures before it calls [f]. *)
Definition tree_zip {A B} (s : pytree A) (t : pytree B) : result (pytree (A * pytree B)) := tree_map2 (fun a sub => Ok (a, sub)) s t.

(** Broadcasting as in numpy: whether an array of shape [s] can be repeated to the shape [t], and its data then; both with the same
    number of axes *)
Fixpoint compatible (s t : list nat) : bool :=
  match s, t with [], [] => true | a :: s, b :: t => (Nat.eqb a b || Nat.eqb a 1) && compatible s t | _, _ => false end.
Fixpoint bcast (s t : list nat) (xs : list R) : list R :=
  match s, t with
  | a :: s, b :: t =>
      let rows := map (bcast s t) (chunks (size s) a xs) in
      concat (if Nat.eqb a b then rows else concat (repeat rows b))
  | _, _ => xs
  end.
Definition pad (n : nat) (s : list nat) : list nat := repeat 1%nat (n - length s) ++ s.
(** [jnp.broadcast_to] *)
Definition broadcast_to (a : array) (s : list nat) : result array :=
  let s0 := pad (length s) (shape a) in
  if compatible s0 s then Ok (Array s (bcast s0 s (data a))) else Raise ValueError.
(** The common shape of two arrays in an operation *)
Fixpoint join_shapes (s t : list nat) : option (list nat) :=
  match s, t with
  | [], [] => Some []
  | a :: s, b :: t =>
      match join_shapes s t with
      | Some l => if Nat.eqb a b then Some (a :: l) else if Nat.eqb a 1 then Some (b :: l) else if Nat.eqb b 1 then Some (a :: l) else None
      | None => None
      end
  | _, _ => None
  end.
Definition broadcast_shapes (s t : list nat) : option (list nat) := join_shapes (pad (length t) s) (pad (length s) t).

(** [_term.py:923-938] [_broadcast_pytree] *)
Definition broadcast_pytree (source target : pytree array) : result (pytree array) :=
  rmap tree_join (tree_map2 (fun arr sub => tree_map_r (fun leaf => broadcast_to arr (shape leaf)) sub) source target).
(** [except ValueError: raise RuntimeError] *)
Definition value_to_runtime {A} (x : result A) : result A := match x with Raise ValueError => Raise RuntimeError | x => x end.
(** [_term.py:941-953] [broadcast_underdamped_langevin_arg] *)
Definition broadcast_arg (arg x : pytree array) : result (pytree array) := value_to_runtime (broadcast_pytree arg x).

Section Langevin.
  (** Which error an operation on arrays of incompatible shapes raises *)
  Context (incompatible : list nat -> list nat -> error).

  (** An operation such as [a * b] on arrays, with broadcasting *)
  Definition array_op (op : R -> R -> R) (a b : array) : result array :=
    match broadcast_shapes (shape a) (shape b) with
    | Some s => rbind (broadcast_to a s) (fun a => rbind (broadcast_to b s) (fun b => Ok (Array s (map2 op (data a) (data b)))))
    | None => Raise (incompatible (shape a) (shape b))
    end.
  Definition array_map (f : R -> R) (a : array) : array := Array (shape a) (map f (data a)).
  (** An operation on arrays, applied to a subtree that [jtu.tree_map] found in the place of a leaf *)
  Definition with_array {A} (t : pytree array) (f : array -> result A) : result A :=
    match t with Leaf a => f a | Node _ _ => Raise TypeError end.

  (** [_term.py:1062-1087] [UnderdampedLangevinDriftTerm.vf], for the state [(x, v)]; [grad_f] may raise. *)
  Definition drift_vf (gamma u : pytree array) (grad_f : pytree array -> result (pytree array)) (x v : pytree array)
      : result (pytree array * pytree array) :=
    rbind (broadcast_arg gamma v) (fun gamma =>
    rbind (broadcast_arg u v) (fun u =>
    let fun_ (z : (array * pytree array * pytree array) * pytree array) : result array :=
      let '(_gamma, _u, _v, _f_x) := z in
      with_array _v (fun _v => rbind (array_op Rmult (array_map Ropp _gamma) _v) (fun p =>
      with_array _u (fun _u => with_array _f_x (fun _f_x =>
      rbind (array_op Rmult _u _f_x) (fun q => array_op Rminus p q))))) in
    let vf_x := v in
    rmap (pair vf_x) (value_to_runtime (
      rbind (grad_f x) (fun f_x =>
      rbind (tree_zip gamma u) (fun z => rbind (tree_zip z v) (fun z => rbind (tree_zip z f_x) (fun z => tree_map_r fun_ z)))))))).
  (** [_term.py:1092-1096] [prod]: of both components; [control] is [t1 - t0] ([_term.py:1089-1090]). *)
  Definition drift_prod (vf : pytree array * pytree array) (control : R) : pytree array * pytree array :=
    (tree_map (array_map (Rmult control)) (fst vf), tree_map (array_map (Rmult control)) (snd vf)).

  (** [_term.py:997-1012] [UnderdampedLangevinDiffusionTerm.vf] *)
  Definition diffusion_vf (gamma u v : pytree array) : result (pytree array) :=
    rbind (broadcast_arg gamma v) (fun gamma =>
    rbind (broadcast_arg u v) (fun u =>
    let fun_ (z : array * pytree array) : result array :=
      let '(_gamma, _u) := z in
      with_array _u (fun _u => rmap (array_map sqrt) (array_op Rmult (array_map (Rmult 2) _gamma) _u)) in
    rbind (tree_zip gamma u) (tree_map_r fun_))).
  (** [_term.py:1019-1027] [prod] *)
  Definition diffusion_prod (vf control : pytree array) : result (pytree array * pytree array) :=
    let mul (z : array * pytree array) : result array := let '(_vf, dw) := z in with_array dw (array_op Rmult _vf) in
    rbind (rbind (tree_zip vf control) (tree_map_r mul)) (fun v_out =>
    Ok (tree_map (array_map (fun _ => 0)) v_out, v_out)).
End Langevin.
