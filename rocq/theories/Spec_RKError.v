(** Vocabulary for the size of the error estimate of a Runge--Kutta step. *)
From Coq Require Import Reals QArith Qreals List Bool Arith.
From Verif Require Import Model_Result Model_RK Spec_RK.
Import ListNotations.
Open Scope R_scope.

Section Spec.
  Context {I J C : Type}.
  (** All terms are bounded: over a step from [t0] to [t1] they contribute at most [M * (t1 - t0)], as
      do ODE terms whose vector field is bounded by [M]. *)
  Definition bounded_terms (ps : list (tableau * term I J C)) (M : R) : Prop :=
    forall tab m t y t0 t1 x, In (tab, m) ps -> t0 <= t1 ->
      Rabs (t_prod m (t_vf m t y) (t_contr m t0 t1) x) <= M * (t1 - t0).
  (** The sum of the absolute values of the coefficients of the error estimate. *)
  Definition error_weight (s : nat) (ps : list (tableau * term I J C)) : R :=
    sum_n (length ps) (fun m =>
      match nth_error ps m with
      | Some (tab, _) => sum_n s (fun i => Rabs (coef_e tab i)) | None => 0 end).
End Spec.
