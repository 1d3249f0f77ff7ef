(** Instances for the theorems about the terms of the underdamped Langevin equation. *)
From Coq Require Import Reals List Bool Arith Lia Lra.
From Verif Require Import Model_PyTree Model_AdjointTerm Model_LangevinTerm Spec_AdjointTerm Spec_LangevinTerm Proof_PyTree Proof_LangevinTerm.
Import ListNotations.
Open Scope R_scope.

(** A velocity of two arrays of different shapes; friction for each, one of them to be broadcast, and one damping for all *)
Definition ex_v : pytree array := Node 1 [Leaf (Array [2%nat] [1; 2]); Node 2 [Leaf (Array [2%nat; 2%nat] [1; 2; 3; 4])]].
Definition ex_gamma : pytree array := Node 1 [Leaf (Array [] [3]); Leaf (Array [2%nat] [1; 2])].
Definition ex_u : pytree array := Leaf (Array [] [5]).
Lemma ex_langevin : like ex_v ex_v /\ covers ex_gamma ex_v /\ covers ex_u ex_v.
Proof.
  split; [split; [reflexivity|repeat constructor]|]. split.
  - constructor. constructor; [|constructor; [|constructor]]; constructor; try reflexivity; repeat constructor.
  - constructor; [reflexivity|]. repeat constructor.
Qed.
Lemma ex_element : position_of ex_v [1%nat; 0%nat] [1%nat; 0%nat] /\ value ex_v [1%nat; 0%nat] [1%nat; 0%nat] = 3 /\
  value ex_gamma [1%nat; 0%nat] [1%nat; 0%nat] = 1 /\ value ex_u [1%nat; 0%nat] [1%nat; 0%nat] = 5.
Proof. split; [eexists; split; [reflexivity|repeat constructor]|]. repeat split. Qed.
Lemma ex_rejects : Forall well_formed (tree_leaves ex_gamma) /\ ~ covers ex_gamma (Leaf (Array [2%nat] [1; 2])).
Proof. split; [repeat constructor|]. intros C. inversion C. Qed.
Lemma ex_grad_structure : ~ prefix ex_v (Leaf (Array [2%nat] [1; 2])).
Proof. intros C. inversion C. Qed.
