(** Specification vocabulary: the solver [Euler] on a stochastic differential equation. *)
From Coq Require Import ZArith Reals List.
From Verif Require Import Model_Result Model_Loop Model_RK Model_Terms Model_Solvers Spec_Loop Spec_Solvers.
Import ListNotations.
Open Scope R_scope.

Section Spec.
  Context {Omega I K : Type}.
  Notation Y := (I -> R).

  (** [MultiTerm(ODETerm(f), ControlTerm(g, path))], where the path has the values [W] *)
  Definition sde_term (ks : list K) (f : R -> Y -> Y) (g : R -> Y -> (I * K -> R)) (W : R -> K -> R)
    : term I (nat * (I + I * K)) (list (R + (K -> R))) :=
    multi_term [left_term (ode_term f); right_term (control_term ks g (fun t0 t1 k => W t1 k - W t0 k))].

  (** The value after steps of [Euler] from [(t0, y0)] along the times [ts], for every sample *)
  Definition euler_value (ks : list K) (f : R -> Y -> Y) (g : R -> Y -> (I * K -> R)) (W : Omega -> R -> K -> R)
             (t0 : R) (ts : list R) (y0 : Omega -> Y) (w : Omega) : Y :=
    fst (steps (euler (sde_term ks f g (W w))) t0 ts (y0 w) tt).

  (** A complete, successful solve from [y0] by [Euler], of one sample, with any step size controller and event: its
      accepted steps end at the times [ts].  [time] gives the real number a time of the loop stands for. *)
  Definition euler_run {CS V MS : Type} (c : config Y unit CS (Y * Y) (option Y) V MS) (i : initial Y unit CS MS)
             (h : list (attempt Y)) (o : outcome Y unit CS (Y * Y) V MS) (ks : list K) (f : R -> Y -> Y) (g : R -> Y -> (I * K -> R))
             (W : R -> K -> R) (time : Z -> R) (t0 : R) (ts : list R) (y0 : Y) : Prop :=
    solve_run c i h o /\ out_result o = successful /\
    solver_step c = (fun tprev tnext => me_step (euler (sde_term ks f g W)) (time tprev) (time tnext)) /\
    rejects_in_place h /\ no_time_jumps h /\ stepto_len c = None /\ (cfg_t0 c <= cfg_t1 c)%Z /\ results_ok c /\ rf_results_ok c /\
    time (cfg_t0 c) = t0 /\ in_y i = y0 /\ map (fun a => time (at_to a)) (accepted h) = ts.
End Spec.
