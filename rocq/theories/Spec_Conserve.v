(** Vocabulary for quantities that solvers other than Runge--Kutta methods conserve. *)
From Coq Require Import ZArith Reals List.
From Verif Require Import Model_Result Model_Loop Model_RK Model_Terms Model_Solvers Model_Interp Spec_RK Spec_Invariant.
Import ListNotations.
Open Scope R_scope.

(** The term never changes the weighted sum: that of its increments is zero, whatever the time, the state and the control. *)
Definition conserving {I J C : Type} (w : list (I * R)) (trm : term I J C) : Prop :=
  consistent_term trm /\ forall t y c, total w (t_prod trm (t_vf trm t y) c) = 0.

(** A solver does not change the weighted sum, whatever the number and sizes of its steps, with or without jumps:
    from its initial state on, the states it passes on (they are [good]) let it do so again. *)
Definition method_conserves {I SS : Type} (w : list (I * R)) (me : method (I -> R) SS ((I -> R) * (I -> R))) : Prop :=
  exists good : R -> SS -> Prop,
    (forall t0 t1 y, good (total w y) (me_init me t0 t1 y)) /\
    forall t0 t1 y s j, good (total w y) s ->
      let out := me_step me t0 t1 y s j in
      total w (so_y out) = total w y /\ good (total w y) (so_state out) /\
      total w (fst (so_dense out)) = total w y /\ total w (snd (so_dense out)) = total w y.

(** A solve with such a solver and [LocalLinearInterpolation], started as [diffeqsolve] starts it; [time] gives the
    real number that a time of the loop stands for. *)
Definition method_solve {I SS CS V MS : Type}
           (c : config (I -> R) SS CS ((I -> R) * (I -> R)) (option (I -> R)) V MS) (i : initial (I -> R) SS CS MS)
           (me : method (I -> R) SS ((I -> R) * (I -> R))) (time : Z -> R) : Prop :=
  solver_step c = (fun a b => me_step me (time a) (time b)) /\
  interpolate c = (fun a b d t x => local_linear (time a) (time b) (fst d x) (snd d x) (time t)) /\
  in_solver_state i = me_init me (time (cfg_t0 c)) (time (in_tnext i)) (in_y i).
