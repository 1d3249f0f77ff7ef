(** Theorems about [ImplicitAdjoint]: C66. *)
From Coq Require Import Reals List Lra.
From Coquelicot Require Import Coquelicot.
From Verif Require Import Model_Implicit Spec_Implicit Proof_Implicit Ex_Implicit.
Import ListNotations.
Open Scope R_scope.

Section Implicit.
  Context {P Y : NormedModule R_AbsRing}.
  (** C66: the derivative is that of the states at which the vector field has the value it has at the result. *)
  Theorem C66_gradient :
    forall (linear_solve : (Y -> list Y) -> list Y -> Y) (f : vfield P Y) (direction tprev : R) (p0 : P) (g : P -> Y) (D : list (P * Y -> Y)),
    solves linear_solve ->
    derivatives_at (implicit_vf (wrap_terms direction (One f)) tprev) p0 (g p0) D ->
    (forall L, In L D -> invertible (fun dy => L (zero, dy))) ->
    filterlim g (locally p0) (locally (g p0)) ->
    locally p0 (fun p => f p (tprev * direction) (g p) = f p0 (tprev * direction) (g p0)) ->
    filterdiff g (locally p0) (tangent linear_solve D).
  Proof. exact pf_C66_gradient. Qed.
  (** C66: in particular that of the steady states. *)
  Theorem C66_steady :
    forall (linear_solve : (Y -> list Y) -> list Y -> Y) (f : vfield P Y) (direction tprev : R) (p0 : P) (g : P -> Y) (D : list (P * Y -> Y)),
    solves linear_solve ->
    derivatives_at (implicit_vf (wrap_terms direction (One f)) tprev) p0 (g p0) D ->
    (forall L, In L D -> invertible (fun dy => L (zero, dy))) ->
    filterlim g (locally p0) (locally (g p0)) ->
    locally p0 (fun p => f p (tprev * direction) (g p) = zero) ->
    filterdiff g (locally p0) (tangent linear_solve D).
  Proof. exact pf_C66_steady. Qed.
End Implicit.

(** C66: with several terms the derivative is wrong. *)
  Theorem C66_split_refuted :
    exists (fs : list (vfield R_NormedModule R_NormedModule)) (tprev : R) (p0 : R) (g : R -> R)
         (D : list (R * R -> R)),
    derivatives_at (implicit_vf (wrap_terms 1 (Multi fs)) tprev) p0 (g p0) D /\
    (forall p, fold_right Rplus 0 (map (fun f : vfield R_NormedModule R_NormedModule => f p tprev (g p)) fs) = 0) /\
    is_derive g p0 1 /\
    forall linear_solve, solves linear_solve -> forall dp, tangent linear_solve D dp = 0.
  Proof. exact pf_C66_split_refuted. Qed.
(** C66: what [steady_state_event] tests with one term. *)
  Theorem C66_steady_one :
    forall (rtol atol : R) (f : vfield R_NormedModule R_NormedModule) (p t y : R),
    steady_cond rms (fun x => rms [x]) rtol atol (One f) p t y <-> Rabs (f p t y) < atol + rtol * Rabs y.
  Proof. exact pf_C66_steady_one. Qed.
(** C66: with several terms, it stops only near a steady state. *)
  Theorem C66_steady_sound :
    forall (rtol atol : R) (fs : list (vfield R_NormedModule R_NormedModule)) (p t y : R),
    fs <> [] -> steady_cond rms (fun x => rms [x]) rtol atol (Multi fs) p t y ->
  Rabs (fold_right Rplus 0 (map (fun f : vfield R_NormedModule R_NormedModule => f p t y) fs))
    < INR (length fs) * (atol + rtol * Rabs y).
  Proof. exact pf_C66_steady_sound. Qed.
(** C66: with several terms, it may not stop at a steady state. *)
  Theorem C66_steady_split_refuted :
    exists (fs : list (vfield R_NormedModule R_NormedModule)) (p t y : R),
    fold_right Rplus 0 (map (fun f : vfield R_NormedModule R_NormedModule => f p t y) fs) = 0 /\
    forall rtol atol, 0 < atol < 1 / 2 -> 0 < rtol < 1 / 2 ->
    ~ steady_cond rms (fun x => rms [x]) rtol atol (Multi fs) p t y.
  Proof. exact pf_C66_steady_split_refuted. Qed.

(** The steady state [y = p^2] of [dy/dt = p^2 - y]; its derivative at 3 is 6. *)
Example C66_instance :
  (exists linear_solve : (R_NormedModule -> list R_NormedModule) -> list R_NormedModule -> R_NormedModule, solves linear_solve) /\
  derivatives_at (implicit_vf (wrap_terms (-1) (One ex_f)) 5) 3 (ex_g 3) [ex_L] /\
  (forall L, In L [ex_L] -> @invertible R_NormedModule (fun dy => L (zero, dy))) /\
  filterlim ex_g (locally (3 : R_NormedModule)) (locally (ex_g 3 : R_NormedModule)) /\
  (forall p, ex_f p (5 * -1) (ex_g p) = 0) /\
  (forall linear_solve, @solves R_NormedModule linear_solve -> @tangent R_NormedModule R_NormedModule linear_solve [ex_L] 1 = 6).
Proof.
  split; [exact solves_exists|]. split.
  { split; [reflexivity|]. intros [|[|i]] L HL; cbn in HL; try (destruct i; discriminate); try discriminate. injection HL as <-.
    replace (ex_g 3) with 9 by (unfold ex_g; ring). exact (ex_derivative (5 * -1)). }
  split; [intros L [<-|[]]; exact ex_invertible|]. split; [exact ex_continuous|].
  split; [intros p; change (@eq R (p * p - p * p) 0); ring|].
  intros ls Hs. destruct ex_invertible as (B & HB & HAB & HBA).
  refine (eq_trans (solves_one ls _ B _ Hs HAB HBA) _).
  refine (eq_trans (f_equal B _) (HBA 6)). change (@eq R (- (6 * 1 - 0)) (6 * 0 - 6)). ring.
Qed.

Print Assumptions C66_gradient.
Print Assumptions C66_steady.
Print Assumptions C66_split_refuted.
Print Assumptions C66_steady_one.
Print Assumptions C66_steady_sound.
Print Assumptions C66_steady_split_refuted.
