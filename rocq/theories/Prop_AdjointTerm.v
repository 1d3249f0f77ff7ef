(** Theorems about [AdjointTerm]: C69. *)
From Coq Require Import Reals List Bool Arith.
From Verif Require Import Model_PyTree Model_AdjointTerm Spec_AdjointTerm Proof_AdjointTerm Ex_AdjointTerm.
Import ListNotations.
Open Scope R_scope.

(** C69: for controls and states that are PyTrees of arrays of any shapes, [prod(vf(t, y, args), control)] is
    [vf_prod(t, y, args, control)], whichever of forward and reverse mode is chosen, if [vf_prod] is linear in the control and the
    derivatives are those of [vf_prod]. *)
  Theorem C69_prod_vf :
    forall (vf_prod : pytree array -> result (pytree array)) (jvp vjp : pytree array -> pytree array -> result (pytree array)) (y_size : nat) (control out : pytree array),
    like control control -> linear vf_prod control out -> is_jvp vf_prod control jvp -> is_vjp vf_prod control out vjp ->
  tree_leaves control <> [] -> tree_leaves out <> [] ->
  exists v, adjoint_vf vf_prod jvp vjp y_size control = Ok v /\
  forall c, like control c -> adjoint_prod v c = vf_prod c.
  Proof. exact pf_C69_prod_vf. Qed.
Example C69_prod_vf_instance : like ex_control ex_control /\ linear ex_vf_prod ex_control ex_out /\
  is_jvp ex_vf_prod ex_control (fun _ => ex_vf_prod) /\
  is_vjp ex_vf_prod ex_control ex_out ex_vjp /\ tree_leaves ex_control <> [] /\ tree_leaves ex_out <> [].
Proof. exact ex_prod_vf. Qed.

(** C69: it is linear in the control, if the product of the original term is. *)
  Theorem C69_linear :
    forall (n q : nat) (f : vec -> vec -> vec -> vec) (vjp : vec -> vec -> vec -> vec -> vec * vec) (theta : vec) (aug : vec * vec * vec) (a b : R) (c d : vec),
    linear_in_control n f ->
  (forall y theta c w, transposed_derivative n q (fun y theta => f y theta c) y theta w (vjp y theta c w)) ->
  let z := adjoint_vf_prod f vjp theta aug in
  let s := z (fun k => a * c k + b * d k) in
  (forall i, (i < n)%nat -> fst (fst s) i = a * fst (fst (z c)) i + b * fst (fst (z d)) i) /\
  (forall i, (i < n)%nat -> snd (fst s) i = a * snd (fst (z c)) i + b * snd (fst (z d)) i) /\
  (forall i, (i < q)%nat -> snd s i = a * snd (z c) i + b * snd (z d) i).
  Proof. exact pf_C69_linear. Qed.
Example C69_linear_instance : linear_in_control 2 ex_f /\
  forall y theta c w, transposed_derivative 2 1 (fun y theta => ex_f y theta c) y theta w (ex_f_vjp y theta c w).
Proof. exact ex_linear. Qed.

(** C69: the state moves as by the original term, and the adjoints by minus the derivative of the original term, transposed:
    the derivative of [<a_y, vf_prod>] in any direction of the state and of the parameters is minus the pairing with what is returned. *)
  Theorem C69_adjoint :
    forall (n q : nat) (f : vec -> vec -> vec -> vec) (vjp : vec -> vec -> vec -> vec -> vec * vec) (theta y a_y a_args control d e : vec),
    (forall y theta c w, transposed_derivative n q (fun y theta => f y theta c) y theta w (vjp y theta c w)) ->
  let z := adjoint_vf_prod f vjp theta (y, a_y, a_args) control in
  (forall i, fst (fst z) i = f y theta control i) /\
  derivable_pt_lim (fun h => inner n a_y (f (along y d h) (along theta e h) control)) 0 (- (inner n (snd (fst z)) d + inner q (snd z) e)).
  Proof. exact pf_C69_adjoint. Qed.

(** C69: the vector field is called expensive exactly if the control has at least two elements. *)
  Theorem C69_expensive :
    forall (control : pytree array),
    like control control ->
  adjoint_is_vf_expensive control = true <-> (2 <= length (ravel control))%nat.
  Proof. exact pf_C69_expensive. Qed.
Example C69_expensive_instance : like ex_control ex_control /\ adjoint_is_vf_expensive ex_control = true.
Proof. split; [exact (proj1 ex_prod_vf)|reflexivity]. Qed.

(** C69: without any array in the control, [prod] raises an error. *)
  Theorem C69_no_leaves :
    forall (v control : pytree array),
    tree_leaves control = [] -> exists e, adjoint_prod v control = Raise e.
  Proof. exact pf_C69_no_leaves. Qed.
Example C69_no_leaves_instance : tree_leaves (@tree_None array) = [].
Proof. reflexivity. Qed.

Print Assumptions C69_prod_vf.
Print Assumptions C69_linear.
Print Assumptions C69_adjoint.
Print Assumptions C69_expensive.
Print Assumptions C69_no_leaves.
