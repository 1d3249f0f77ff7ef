(** What is expected of the vector field and the product of [AdjointTerm]. *)
From Coq Require Import Reals List Bool.
From Verif Require Import Model_PyTree Model_AdjointTerm.
Import ListNotations.
Open Scope R_scope.

(** A PyTree of the same structure and shapes *)
Definition like (example t : pytree array) : Prop :=
  tree_map shape t = tree_map shape example /\ Forall well_formed (tree_leaves t).
(** [z] is [a * x + b * y], element by element. *)
Definition combination (a : R) (x : pytree array) (b : R) (y z : pytree array) : Prop :=
  ravel z = map2 (fun u v => a * u + b * v) (ravel x) (ravel y).

(** A function of PyTrees like [input] to PyTrees like [output] that is linear *)
Record linear (f : pytree array -> result (pytree array)) (input output : pytree array) : Prop := {
  lin_total : forall c, like input c -> exists z, f c = Ok z /\ like output z;
  lin_combination : forall a b c d e x y z, like input c -> like input d -> like input e ->
    f c = Ok x -> f d = Ok y -> f e = Ok z -> combination a c b d e -> combination a x b y z
}.
(** Its derivatives: the derivative of a linear function is itself, and the transpose is with respect to the inner product. *)
Definition is_jvp (f : pytree array -> result (pytree array)) (input : pytree array)
    (jvp : pytree array -> pytree array -> result (pytree array)) : Prop :=
  forall c d, like input c -> like input d -> jvp c d = f d.
Definition is_vjp (f : pytree array -> result (pytree array)) (input output : pytree array)
    (vjp : pytree array -> pytree array -> result (pytree array)) : Prop :=
  forall c w, like input c -> like output w -> exists g, vjp c w = Ok g /\ like input g /\
  forall d z, like input d -> f d = Ok z -> dot (ravel g) (ravel d) = dot (ravel w) (ravel z).

(** Vectors of [n] elements: the inner product, and transposed derivatives *)
Definition inner (n : nat) (v w : vec) : R := fold_right Rplus 0 (map (fun i => v i * w i) (seq 0 n)).
Definition along (y d : vec) (h : R) : vec := fun i => y i + h * d i.
Definition transposed_derivative (n q : nat) (f : vec -> vec -> vec) (y theta : vec) (w : vec) (g : vec * vec) : Prop :=
  forall d e : vec, derivable_pt_lim (fun h => inner n w (f (along y d h) (along theta e h))) 0 (inner n (fst g) d + inner q (snd g) e).
(** Linear in the last argument *)
Definition linear_in_control (n : nat) (f : vec -> vec -> vec -> vec) : Prop :=
  forall y theta a b c d i, (i < n)%nat -> f y theta (fun k => a * c k + b * d k) i = a * f y theta c i + b * f y theta d i.
