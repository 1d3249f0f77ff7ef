(** Theorems about the terms of the underdamped Langevin equation: C70. *)
From Coq Require Import Reals List Bool Arith.
From Verif Require Import Model_PyTree Model_AdjointTerm Model_LangevinTerm Spec_AdjointTerm Spec_LangevinTerm Proof_LangevinTerm Proof_LangevinTermRefuted Ex_LangevinTerm.
Import ListNotations.
Open Scope R_scope.

(** C70: the drift over a time [dt], for each element of each array, with [gamma] and [u] any prefixes that can be broadcast:
    [dx = v dt] and [dv = (- gamma v - u grad_f(x)) dt]. *)
  Theorem C70_drift :
    forall (incompatible : list nat -> list nat -> error) (gamma u : pytree array) (grad_f : pytree array -> result (pytree array)) (x v g : pytree array) (dt : R),
    like v v -> covers gamma v -> covers u v -> grad_f x = Ok g -> like v g ->
  exists w, drift_vf incompatible gamma u grad_f x v = Ok w /\
  let dx := fst (drift_prod w dt) in let dv := snd (drift_prod w dt) in
  like v dx /\ like v dv /\
  forall path idx, position_of v path idx ->
    value dx path idx = dt * value v path idx /\
    value dv path idx = dt * (- value gamma path idx * value v path idx - value u path idx * value g path idx).
  Proof. exact pf_C70_drift. Qed.
(** C70: the diffusion: [dx = 0] and [dv = sqrt(2 gamma u) dw]. (A square root of a negative number is NaN in the code.) *)
  Theorem C70_diffusion :
    forall (incompatible : list nat -> list nat -> error) (gamma u v dw : pytree array),
    like v v -> covers gamma v -> covers u v -> like v dw ->
  exists w, diffusion_vf incompatible gamma u v = Ok w /\
  exists dx dv, diffusion_prod incompatible w dw = Ok (dx, dv) /\ like v dx /\ like v dv /\
  forall path idx, position_of v path idx ->
    value dx path idx = 0 /\
    (0 <= value gamma path idx * value u path idx -> value dv path idx = sqrt (2 * value gamma path idx * value u path idx) * value dw path idx).
  Proof. exact pf_C70_diffusion. Qed.
Example C70_instance : like ex_v ex_v /\ covers ex_gamma ex_v /\ covers ex_u ex_v.
Proof. exact ex_langevin. Qed.
Example C70_element : position_of ex_v [1%nat; 0%nat] [1%nat; 0%nat] /\ value ex_v [1%nat; 0%nat] [1%nat; 0%nat] = 3 /\
  value ex_gamma [1%nat; 0%nat] [1%nat; 0%nat] = 1 /\ value ex_u [1%nat; 0%nat] [1%nat; 0%nat] = 5.
Proof. exact ex_element. Qed.

(** C70: [gamma] and [u] that are not prefixes, or have arrays of shapes that cannot be broadcast, raise [RuntimeError]. *)
  Theorem C70_rejects :
    forall (incompatible : list nat -> list nat -> error) (gamma u : pytree array) (grad_f : pytree array -> result (pytree array)) (x v : pytree array),
    Forall well_formed (tree_leaves gamma) -> Forall well_formed (tree_leaves u) -> ~ (covers gamma v /\ covers u v) ->
  drift_vf incompatible gamma u grad_f x v = Raise RuntimeError /\ diffusion_vf incompatible gamma u v = Raise RuntimeError.
  Proof. exact pf_C70_rejects. Qed.
Example C70_rejects_instance : Forall well_formed (tree_leaves ex_gamma) /\ ~ covers ex_gamma (Leaf (Array [2%nat] [1; 2])).
Proof. exact ex_rejects. Qed.
(** C70: so does a [grad_f] that returns another PyTree structure... *)
  Theorem C70_grad_structure :
    forall (incompatible : list nat -> list nat -> error) (gamma u : pytree array) (grad_f : pytree array -> result (pytree array)) (x v g : pytree array),
    like v v -> covers gamma v -> covers u v -> grad_f x = Ok g -> ~ prefix v g ->
  drift_vf incompatible gamma u grad_f x v = Raise RuntimeError.
  Proof. exact pf_C70_grad_structure. Qed.
Example C70_grad_structure_instance : ~ prefix ex_v (Leaf (Array [2%nat] [1; 2])).
Proof. exact ex_grad_structure. Qed.
(** ... but not one that returns arrays of other shapes, although the error says that the shapes must be the same: here the
    vector field has another shape than the state. *)
  Theorem C70_grad_shape_refuted :
    exists (gamma u x v g w : pytree array) (grad_f : pytree array -> result (pytree array)), forall incompatible : list nat -> list nat -> error,
  like v v /\ covers gamma v /\ covers u v /\ grad_f x = Ok g /\ tree_structure g = tree_structure v /\ ~ like v g /\
  drift_vf incompatible gamma u grad_f x v = Ok (v, w) /\ ~ like v w.
  Proof. exact pf_C70_grad_shape_refuted. Qed.
(** C70: a Brownian motion with one element is accepted for a velocity with two, which then have the same noise. *)
  Theorem C70_shared_noise_refuted :
    exists (gamma u v : pytree array), forall (incompatible : list nat -> list nat -> error) (z : R),
  like v v /\ covers gamma v /\ covers u v /\
  exists w dx dv, diffusion_vf incompatible gamma u v = Ok w /\ diffusion_prod incompatible w (Leaf (Array [] [z])) = Ok (dx, dv) /\ like v dv /\
  position_of v [] [0%nat] /\ position_of v [] [1%nat] /\
  value dv [] [0%nat] = sqrt 2 * z /\ value dv [] [1%nat] = sqrt 2 * z.
  Proof. exact pf_C70_shared_noise_refuted. Qed.

Print Assumptions C70_drift.
Print Assumptions C70_diffusion.
Print Assumptions C70_rejects.
Print Assumptions C70_grad_structure.
Print Assumptions C70_grad_shape_refuted.
Print Assumptions C70_shared_noise_refuted.
