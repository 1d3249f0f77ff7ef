(** Shapes, broadcasting, complex values and dtypes of the arrays in terms.  See Model_ArrayTerm and Spec_ArrayTerm. *)
From Coq Require Import Reals List Bool Arith Lia Lra.
From Verif Require Import Model_PyTree Model_ArrayTerm Spec_ArrayTerm Ex_ArrayTerm Proof_ArrayTerm.
Import ListNotations.
Open Scope R_scope.

(** C78: [ODETerm] accepts a vector field exactly if its structure is that of the state and each array can be broadcast to
    the corresponding one of the state. *)
  Theorem C78_ode_accepts :
    forall (f y : pytree carray) (control : R),
    (exists out, ode_vf_prod f y control = Ok out) <-> leaves2 (fun fn yn => broadcastable (ca_shape fn) (ca_shape yn)) f y.
  Proof. exact pf_C78_ode_accepts. Qed.
(** C78: what [ODETerm] returns has the shapes of the state, and the entries are the control times the entries of the vector
    field, broadcast. *)
  Theorem C78_ode_value :
    forall (f y : pytree carray) (control : R) (out : pytree carray),
    ode_vf_prod f y control = Ok out ->
  leaves2 same_shape y out /\
  leaves2 (fun fn on => forall p i, length i = length (ca_shape fn) ->
             ca_at on (p ++ i) = (control * fst (ca_at fn (read_index (ca_shape fn) i)), control * snd (ca_at fn (read_index (ca_shape fn) i)))) f out.
  Proof. exact pf_C78_ode_value. Qed.
(** C78: [ControlTerm] accepts a vector field exactly if state, vector field and control have one structure and each array
    of the vector field has the shape of the state's followed by that of the control's: nothing is broadcast. *)
  Theorem C78_control_accepts :
    forall (y f c : pytree carray),
    (exists out, control_vf_prod y (Arrays f) c = Ok out) <->
  leaves3 (fun yn fn cn => ca_shape fn = ca_shape yn ++ ca_shape cn) y f c.
  Proof. exact pf_C78_control_accepts. Qed.
(** C78: what [ControlTerm] returns has the shapes of the state; the entries are sums over the indices of the control, with
    the vector field conjugated. *)
  Theorem C78_control_value :
    forall (y f c out : pytree carray),
    control_vf_prod y (Arrays f) c = Ok out ->
  leaves2 same_shape y out /\
  leaves3 (fun fn cn on => forall i, ca_at on i =
             csum (map (fun k => cmult (cconj (ca_at fn (i ++ k))) (ca_at cn k)) (indices (ca_shape cn)))) f c out.
  Proof. exact pf_C78_control_value. Qed.
(** C78: for real vector fields it is the matrix-vector product. *)
  Theorem C78_control_real :
    forall (y f c out : pytree carray),
    all_real f -> control_vf_prod y (Arrays f) c = Ok out ->
  leaves3 (fun fn cn on => forall i, In i (indices (ca_shape on)) ->
             ca_at on i = csum (map (fun k => cmult (ca_at fn (i ++ k)) (ca_at cn k)) (indices (ca_shape cn)))) f c out.
  Proof. exact pf_C78_control_real. Qed.
(** C78: ... and, with a number as control, what [ODETerm] returns. *)
  Theorem C78_control_is_ode :
    forall (y f : pytree carray) (control : R) (out out' : pytree carray),
    all_real f -> leaves2 same_shape f y ->
  control_vf_prod y (Arrays f) (tree_map (fun _ => CArray [] (fun _ => creal control)) f) = Ok out -> ode_vf_prod f y control = Ok out' ->
  leaves2 same_entries out out'.
  Proof. exact pf_C78_control_is_ode. Qed.
(** C78: for complex vector fields both are false: the vector field is conjugated. *)
  Theorem C78_complex_refuted :
    exists (f y out out' : pytree carray) (control : R), leaves2 same_shape f y /\
    control_vf_prod y (Arrays f) (tree_map (fun _ => CArray [] (fun _ => creal control)) f) = Ok out /\ ode_vf_prod f y control = Ok out' /\
    ~ leaves2 same_entries out out'.
  Proof. exact pf_C78_complex_refuted. Qed.
(** C78: a real [WeaklyDiagonalControlTerm] is a [ControlTerm] with the diagonal matrices. *)
  Theorem C78_diagonal :
    forall (y d m c out : pytree carray),
    all_real d -> leaves2 diagonal_matrix d m -> control_vf_prod y (weakly_diagonal d) c = Ok out ->
  exists out', control_vf_prod y (Arrays m) c = Ok out' /\ leaves2 same_entries out out'.
  Proof. exact pf_C78_diagonal. Qed.
(** C78: this too is false for complex vector fields. *)
  Theorem C78_complex_diagonal_refuted :
    exists (y d m c out out' : pytree carray), leaves2 diagonal_matrix d m /\
    control_vf_prod y (weakly_diagonal d) c = Ok out /\ control_vf_prod y (Arrays m) c = Ok out' /\ ~ leaves2 same_entries out out'.
  Proof. exact pf_C78_complex_diagonal_refuted. Qed.
(** C78: the dtype of the arrays to which others are added up does not change, or there is an error. *)
  Theorem C78_dtype :
    forall (D : Type) (eqb : D -> D -> bool) (promote : D -> D -> D) (x target out : D),
    (forall a b, eqb a b = true <-> a = b) ->
  (upcast_or_raise eqb promote strict x target = Ok out <-> out = target /\ promote x target = target) /\
  (upcast_or_raise eqb promote standard x target = Ok out <-> out = promote x target).
  Proof. exact pf_C78_dtype. Qed.

(** C78: arrays of shapes (1, 3) and () for a state of arrays of shapes (2, 3) and (2,): accepted. *)
Example C78_narrow : exists out, ode_vf_prod narrow two_arrays 2 = Ok out.
Proof.
  apply C78_ode_accepts. split; [reflexivity|]. intros [|[|[|n]]] x z Hx Hz; try discriminate; injection Hx as <-; injection Hz as <-.
  - exists [], [2; 3]%nat. split; [reflexivity|]. constructor; [right; reflexivity|]. constructor; [left; reflexivity|constructor].
  - exists [2]%nat, []. split; [reflexivity|constructor].
Qed.
(** C78: an array of shape (3, 1) for a state of shape (2, 3): refused. *)
Example C78_wrong : ~ exists out, ode_vf_prod wrong two_arrays 2 = Ok out.
Proof.
  intros H. apply C78_ode_accepts in H as (_ & H). destruct (H 0%nat _ _ eq_refl eq_refl) as (p & q & E & F). cbn in F.
  inversion F as [|a b l m F1 F2]; subst. inversion F2 as [|a' b' l' m' F3 F4]; subst. inversion F4; subst.
  destruct p as [|? [|? [|? ?]]]; try discriminate; injection E as <- <-; destruct F1; discriminate.
Qed.
(** C78: the example in the error message of [ControlTerm]: a diffusion of shape (2,) is refused, the matrix accepted. *)
Example C78_message : (~ exists out, control_vf_prod state_2 (Arrays diffusion_2) noise_2 = Ok out) /\
  exists out, control_vf_prod state_2 (Arrays matrix_2) noise_2 = Ok out.
Proof.
  split.
  - intros H. apply C78_control_accepts in H as (_ & _ & H). specialize (H 0%nat _ _ _ eq_refl eq_refl eq_refl). discriminate.
  - apply C78_control_accepts. split; [reflexivity|]. split; [reflexivity|]. intros [|[|n]] x z w Hx Hz Hw; try discriminate.
    injection Hx as <-. injection Hz as <-. injection Hw as <-. reflexivity.
Qed.
(** C78: as diagonal it is accepted, and gives what the matrix gives. *)
Example C78_message_diagonal : exists out out', control_vf_prod state_2 (weakly_diagonal diffusion_2) noise_2 = Ok out /\
  control_vf_prod state_2 (Arrays matrix_2) noise_2 = Ok out' /\ leaves2 same_entries out out' /\
  exists x, out = Leaf x /\ ca_at x [1]%nat = (2, 0).
Proof.
  eexists. edestruct (C78_diagonal state_2 diffusion_2 matrix_2 noise_2) as (out' & H1 & H2);
    [intros z [<-|[]]; apply real_array_real|exact matrix_2_diagonal|reflexivity|].
  exists out'. split; [reflexivity|]. split; [exact H1|]. split; [exact H2|]. eexists. split; [reflexivity|].
  cbn. unfold cmult, creal. cbn. f_equal; field.
Qed.
(** C78: floats of 16, 32 or 64 bits, promoted to the longer one. *)
Example C78_floats : upcast_or_raise Nat.eqb Nat.max strict 32%nat 64%nat = Ok 64%nat /\
  (forall out, upcast_or_raise Nat.eqb Nat.max strict 64%nat 32%nat <> Ok out) /\
  upcast_or_raise Nat.eqb Nat.max standard 64%nat 32%nat = Ok 64%nat.
Proof. repeat split. intros out H. apply (C78_dtype _ _ _ _ _ _ Nat.eqb_eq) in H as (_ & H). discriminate. Qed.

Print Assumptions C78_ode_accepts.
Print Assumptions C78_ode_value.
Print Assumptions C78_control_accepts.
Print Assumptions C78_control_value.
Print Assumptions C78_control_real.
Print Assumptions C78_control_is_ode.
Print Assumptions C78_complex_refuted.
Print Assumptions C78_diagonal.
Print Assumptions C78_complex_diagonal_refuted.
Print Assumptions C78_dtype.
