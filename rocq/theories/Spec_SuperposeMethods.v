(** Vocabulary for superposition with solvers other than Runge--Kutta methods. *)
From Coq Require Import ZArith Reals List.
From Verif Require Import Model_Result Model_Loop Model_RK Model_Solvers Spec_RK Spec_Superpose.
Import ListNotations.
Open Scope R_scope.

(** The term does not tell mixtures from their parts, whatever the control. *)
Definition superposing {I J C : Type} (a b : R) (trm : term I J C) : Prop :=
  consistent_term trm /\ forall t y z c, t_prod trm (t_vf trm t (mix a b y z)) c = mix a b (t_prod trm (t_vf trm t y) c) (t_prod trm (t_vf trm t z) c).

(** Nor does a solver: from three initial states on, those it passes on (they are [good] together) let it do so again. *)
Definition method_superposes {I SS : Type} (a b : R) (me : method (I -> R) SS ((I -> R) * (I -> R))) : Prop :=
  exists good : SS -> SS -> SS -> Prop,
    (forall t0 t1 y z, good (me_init me t0 t1 y) (me_init me t0 t1 z) (me_init me t0 t1 (mix a b y z))) /\
    forall t0 t1 y z s1 s2 s3 j, good s1 s2 s3 ->
      let o1 := me_step me t0 t1 y s1 j in
      let o2 := me_step me t0 t1 z s2 j in
      let o3 := me_step me t0 t1 (mix a b y z) s3 j in
      so_y o3 = mix a b (so_y o1) (so_y o2) /\ good (so_state o1) (so_state o2) (so_state o3) /\
      fst (so_dense o3) = mix a b (fst (so_dense o1)) (fst (so_dense o2)) /\ snd (so_dense o3) = mix a b (snd (so_dense o1)) (snd (so_dense o2)) /\
      so_result o1 = so_result o3 /\ so_result o2 = so_result o3.
