(** Specification vocabulary for terms. *)
From Coq Require Import ZArith Reals List.
From Verif Require Import Model_RK Spec_RK.
Import ListNotations.
Open Scope R_scope.

Section Spec.
  Context {I J C : Type}.
  Notation term := (term I J C).

  (** What term number [m] contributes, for its entry of [controls]. *)
  Definition contribution (terms : list term) (controls : list C) (t : R) (y : I -> R) (m : nat) (x : I) : R :=
    match nth_error terms m, nth_error controls m with
    | Some trm, Some c => t_prod trm (t_vf trm t y) c x
    | _, _ => 0
    end.

  (** [prod] is linear in the control. *)
  Definition linear_control (add : C -> C -> C) (scale : R -> C -> C) (trm : term) : Prop :=
    forall a b f c c' x,
      t_prod trm f (add (scale a c) (scale b c')) x = a * t_prod trm f c x + b * t_prod trm f c' x.

  (** With the vector field held fixed, the effects of adjacent intervals add. *)
  Definition additive_term (trm : term) : Prop :=
    forall f t0 t1 t2 x,
      t_prod trm f (t_contr trm t0 t1) x + t_prod trm f (t_contr trm t1 t2) x
      = t_prod trm f (t_contr trm t0 t2) x.

  (** Two terms are the same. *)
  Definition same_term (u v : term) : Prop :=
    (forall t y j, t_vf u t y j = t_vf v t y j) /\
    (forall t0 t1, t_contr u t0 t1 = t_contr v t0 t1) /\
    (forall f c x, t_prod u f c x = t_prod v f c x) /\
    (forall t y c x, t_vf_prod u t y c x = t_vf_prod v t y c x).
End Spec.

(** The increments of a path. *)
Definition increments {K : Type} (X : R -> K -> R) : R -> R -> (K -> R) :=
  fun t0 t1 k => X t1 k - X t0 k.

(** An explicit tableau, as the solvers demand. *)
Definition good_explicit (tab : tableau) : Prop :=
  post_init_ok tab = true /\ implicit tab = false /\ (fsal tab = true -> ends_at_ends tab).

(** Two steps return the same. *)
Definition same_result {I J J' : Type} (out : @rk_out I J) (out' : @rk_out I J') : Prop :=
  (forall x, ro_y out x = ro_y out' x) /\
  (exists e e', ro_error out = Some e /\ ro_error out' = Some e' /\ forall x, e x = e' x) /\
  ro_result out = ro_result out'.
