(** The arrays in terms: shapes, broadcasting, dtypes, complex numbers.  Models [/repo/diffrax/_term.py] [ODETerm] and
    [ControlTerm] with [_prod] and [WeaklyDiagonalControlTerm] (lines 174-226, 264-268, 414-648), and
    [/repo/diffrax/_misc.py] [upcast_or_raise] (lines 157-188).  Entries are exact complex numbers. *)
From Coq Require Import Reals List Bool Arith.
From Verif Require Import Model_PyTree.
Import ListNotations.
Open Scope R_scope.

Definition complex : Type := R * R.
Definition cplus (a b : complex) : complex := (fst a + fst b, snd a + snd b).
Definition cmult (a b : complex) : complex := (fst a * fst b - snd a * snd b, fst a * snd b + snd a * fst b).
Definition cconj (a : complex) : complex := (fst a, - snd a).
Definition czero : complex := (0, 0).
Definition creal (x : R) : complex := (x, 0).

(** An array: its shape and the entry at each index (only used at indices inside the shape). *)
Record carray := CArray { ca_shape : list nat; ca_at : list nat -> complex }.

(** All indices of an array of shape [s], in row-major order. *)
Fixpoint indices (s : list nat) : list (list nat) :=
  match s with [] => [[]] | n :: s => flat_map (fun k => map (cons k) (indices s)) (seq 0 n) end.

(** [jnp.broadcast_to(x, shape)]: dimensions are aligned at the end; the shapes are reversed here. *)
Fixpoint fits (from to : list nat) : bool :=
  match from, to with
  | [], _ => true
  | a :: from, b :: to => (Nat.eqb a b || Nat.eqb a 1) && fits from to
  | _ :: _, [] => false
  end.
Fixpoint source_index (from i : list nat) : list nat :=
  match from, i with a :: from, k :: i => (if Nat.eqb a 1 then 0%nat else k) :: source_index from i | _, _ => [] end.
Definition broadcast_to (x : carray) (s : list nat) : result carray :=
  if fits (rev (ca_shape x)) (rev s) then
    Ok (CArray s (fun i => ca_at x (rev (source_index (rev (ca_shape x)) (rev i)))))
  else Raise ValueError.

(** [_misc.py:157-188] [upcast_or_raise]: the dtype of the result.  [promote] is [jnp.result_type] with standard promotion. *)
Inductive promotion := strict | standard.
Definition upcast_or_raise {D : Type} (eqb : D -> D -> bool) (promote : D -> D -> D) (config_value : promotion)
           (x_dtype target_dtype : D) : result D :=
  let promote_dtype := promote x_dtype target_dtype in
  match config_value with
  | strict => if negb (eqb target_dtype promote_dtype) then Raise ValueError else Ok promote_dtype
  | standard => Ok promote_dtype
  end.

(** [_term.py:192-213] [ODETerm.vf]; [out] is what the vector field returned.  [upcast_or_raise] does not change entries. *)
Definition ode_vf (out y : pytree carray) : result (pytree carray) :=
  if negb (same_structure (tree_structure out) (tree_structure y)) then Raise ValueError
  else tree_map2 (fun oi yi => match yi with Leaf yi => broadcast_to oi (ca_shape yi) | Node _ _ => Raise TypeError end) out y.
(** [_term.py:215-226] [ODETerm.prod]; the control is a real number. *)
Definition ode_prod (vf : pytree carray) (control : R) : pytree carray :=
  tree_map (fun v => CArray (ca_shape v) (fun i => cmult (creal control) (ca_at v i))) vf.
(** [_term.py:113-157] the default [vf_prod] *)
Definition ode_vf_prod (out y : pytree carray) (control : R) : result (pytree carray) :=
  rmap (fun vf => ode_prod vf control) (ode_vf out y).

Definition csum (l : list complex) : complex := fold_right cplus czero l.
(** [_term.py:264-268] [_prod]: [jnp.tensordot(jnp.conj(vf), control, axes=jnp.ndim(control))], a [TypeError] if the shapes
    do not match. *)
Definition prod_leaf (vf control : carray) : result carray :=
  let n := length (ca_shape control) in
  let m := (length (ca_shape vf) - n)%nat in
  if Nat.leb n (length (ca_shape vf)) && shape_eqb (skipn m (ca_shape vf)) (ca_shape control) then
    Ok (CArray (firstn m (ca_shape vf))
          (fun i => csum (map (fun k => cmult (cconj (ca_at vf (i ++ k))) (ca_at control k)) (indices (ca_shape control)))))
  else Raise TypeError.

(** What a vector field in a [ControlTerm] may return: arrays, or [lineax.DiagonalLinearOperator] of arrays (of the [lineax]
    operators only this one is modelled). *)
Inductive vf_value := Arrays (t : pytree carray) | Diagonal (t : pytree carray).
(** [lineax.DiagonalLinearOperator.mv]: entrywise multiplication.  That arrays of other shapes might be broadcast is not
    modelled. *)
Definition diagonal_mv (d control : pytree carray) : result (pytree carray) :=
  tree_map2 (fun di ci =>
    match ci with
    | Leaf ci => if shape_eqb (ca_shape di) (ca_shape ci)
                 then Ok (CArray (ca_shape di) (fun i => cmult (ca_at di i) (ca_at ci i))) else Raise TypeError
    | Node _ _ => Raise TypeError
    end) d control.
(** [_term.py:424-428] [ControlTerm.prod] *)
Definition control_prod (vf : vf_value) (control : pytree carray) : result (pytree carray) :=
  match vf with
  | Diagonal d => diagonal_mv d control
  | Arrays t => tree_map2 (fun v c => match c with Leaf c => prod_leaf v c | Node _ _ => Raise TypeError end) t control
  end.
(** [_term.py:430-543] [ControlTerm.vf_prod]: refuses all but arrays like those of [y]. *)
Definition control_vf_prod (y : pytree carray) (vf : vf_value) (control : pytree carray) : result (pytree carray) :=
  rbind (control_prod vf control) (fun out =>
    if negb (same_structure (tree_structure y) (tree_structure out)) then Raise ValueError
    else rbind (tree_map2 (fun yi oi => match oi with
                                        | Leaf oi => if shape_eqb (ca_shape yi) (ca_shape oi) then Ok tt else Raise ValueError
                                        | Node _ _ => Raise ValueError
                                        end) y out)
               (fun _ => Ok out)).
(** [_term.py:579-648] [WeaklyDiagonalControlTerm]: the new vector field *)
Definition weakly_diagonal (vector_field : pytree carray) : vf_value := Diagonal vector_field.
