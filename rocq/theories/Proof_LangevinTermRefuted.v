(** Counterexamples for the terms of the underdamped Langevin equation. *)
From Coq Require Import Reals List Bool Arith Lia Lra.
From Verif Require Import Model_PyTree Model_AdjointTerm Model_LangevinTerm Spec_AdjointTerm Spec_LangevinTerm Proof_PyTree Proof_LangevinTerm.
Import ListNotations.
Open Scope R_scope.

Definition vec2 (a b : R) : pytree array := Leaf (Array [2%nat] [a; b]).
Definition scal (a : R) : pytree array := Leaf (Array [] [a]).
Lemma pf_C70_grad_shape_refuted : exists (gamma u x v g w : pytree array) (grad_f : pytree array -> result (pytree array)), forall incompatible : list nat -> list nat -> error,
  like v v /\ covers gamma v /\ covers u v /\ grad_f x = Ok g /\ tree_structure g = tree_structure v /\ ~ like v g /\
  drift_vf incompatible gamma u grad_f x v = Ok (v, w) /\ ~ like v w.
Proof.
  exists (scal 1), (scal 1), (vec2 1 2), (vec2 1 2), (Leaf (Array [2%nat; 2%nat] [1; 2; 3; 4])).
  eexists. exists (fun _ => Ok (Leaf (Array [2%nat; 2%nat] [1; 2; 3; 4]))). intros inc.
  split; [split; [reflexivity|repeat constructor]|]. split; [constructor; [reflexivity|]; repeat constructor|].
  split; [constructor; [reflexivity|]; repeat constructor|]. split; [reflexivity|]. split; [reflexivity|]. split; [intros [H _]; discriminate H|].
  split; [reflexivity|]. intros [H _]. discriminate H.
Qed.
Lemma pf_C70_shared_noise_refuted : exists (gamma u v : pytree array), forall (incompatible : list nat -> list nat -> error) (z : R),
  like v v /\ covers gamma v /\ covers u v /\
  exists w dx dv, diffusion_vf incompatible gamma u v = Ok w /\ diffusion_prod incompatible w (Leaf (Array [] [z])) = Ok (dx, dv) /\ like v dv /\
  position_of v [] [0%nat] /\ position_of v [] [1%nat] /\
  value dv [] [0%nat] = sqrt 2 * z /\ value dv [] [1%nat] = sqrt 2 * z.
Proof.
  exists (scal 1), (scal 1), (vec2 1 2). intros inc z.
  split; [split; [reflexivity|repeat constructor]|]. split; [constructor; [reflexivity|]; repeat constructor|].
  split; [constructor; [reflexivity|]; repeat constructor|]. do 3 eexists. split; [reflexivity|]. split; [reflexivity|].
  split; [split; [reflexivity|repeat constructor]|]. split; [eexists; split; [reflexivity|repeat constructor]|]. split; [eexists; split; [reflexivity|repeat constructor]|].
  cbn. replace (2 * 1 * 1) with 2 by ring. auto.
Qed.
