(** Arrays for the examples of C78. *)
From Coq Require Import Reals List Arith Lia.
From Verif Require Import Model_PyTree Model_ArrayTerm Spec_ArrayTerm.
Import ListNotations.
Open Scope R_scope.

(** An array with real entries: the entry at [i] is [g i]. *)
Definition real_array (s : list nat) (g : list nat -> R) : carray := CArray s (fun i => creal (g i)).
Definition first_index (i : list nat) : nat := match i with k :: _ => k | [] => 0%nat end.
(** A state of two arrays, of shapes (2, 3) and (2,). *)
Definition two_arrays : pytree carray := Node 0 [Leaf (real_array [2; 3]%nat (fun _ => 0)); Leaf (real_array [2]%nat (fun _ => 0))].
(** A vector field with arrays of shapes (1, 3) and (), and one of shape (3, 1). *)
Definition narrow : pytree carray := Node 0 [Leaf (real_array [1; 3]%nat (fun i => INR (length i))); Leaf (real_array [] (fun _ => 5))].
Definition wrong : pytree carray := Node 0 [Leaf (real_array [3; 1]%nat (fun _ => 1)); Leaf (real_array [] (fun _ => 5))].

(** The example of the error message of [ControlTerm]: a state and a control of shape (2,), a diffusion of shape (2,) (not
    accepted), the same as diagonal, and the full matrix. *)
Definition weights_2 (i : list nat) : R := match i with [0%nat] => 1 | _ => 1 / 2 end.
Definition state_2 : pytree carray := Leaf (real_array [2]%nat (fun _ => 0)).
Definition noise_2 : pytree carray := Leaf (real_array [2]%nat (fun i => INR (first_index i) + 3)).
Definition diffusion_2 : pytree carray := Leaf (real_array [2]%nat weights_2).
Definition matrix_2 : pytree carray :=
  Leaf (real_array [2; 2]%nat (fun i => match i with [a; b] => if Nat.eqb a b then weights_2 [a] else 0 | _ => 0 end)).

Lemma leaf_only (P : carray -> Prop) x : P x -> forall z, In z (tree_leaves (Leaf x)) -> P z.
Proof. intros H z [<-|[]]. exact H. Qed.
Lemma real_array_real s g : real_entries (real_array s g).
Proof. intros i _. reflexivity. Qed.
Lemma matrix_2_diagonal : leaves2 diagonal_matrix diffusion_2 matrix_2.
Proof.
  split; [reflexivity|]. intros [|[|n]] x z Hx Hz; try discriminate. injection Hx as <-. injection Hz as <-. split; [reflexivity|].
  intros i k Hi Hk. cbn in Hi, Hk. destruct Hi as [<-|[<-|[]]], Hk as [<-|[<-|[]]]; split; intros H; try reflexivity; try discriminate; destruct (H eq_refl).
Qed.
