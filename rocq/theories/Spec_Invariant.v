(** Vocabulary for quantities that the equation conserves. *)
From Coq Require Import Reals List.
From Verif Require Import Model_Result Model_RK Model_Terms Spec_RK.
Import ListNotations.
Open Scope R_scope.

(** The weighted sum of components of [y] with the weights [w]: the total mass, charge or probability. *)
Definition total {I : Type} (w : list (I * R)) (y : I -> R) : R := fold_right (fun e r => snd e * y (fst e) + r) 0 w.

(** No term changes this sum: the weighted sum of its increments is zero, whatever the time, the state and the control. *)
Definition conserves {I J C : Type} (w : list (I * R)) (ps : list (tableau * term I J C)) : Prop :=
  forall tab trm, In (tab, trm) ps -> forall t y t0 t1, total w (t_prod trm (t_vf trm t y) (t_contr trm t0 t1)) = 0.
