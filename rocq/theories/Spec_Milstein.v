(** Specification vocabulary: strong order one for stochastic differential equations with commutative noise. *)
From Coq Require Import ZArith Reals List.
From Verif Require Import Model_Result Model_Loop Model_RK Model_Terms Model_Solvers Model_SRK Spec_Loop Spec_Solvers Spec_SRK Spec_Strong.
Import ListNotations.
Open Scope R_scope.

Section Equation.
  Context {Omega I K : Type}.
  Notation Y := (I -> R).

  (** Products of two increments are square integrable, as if the fourth moments of the increments were those of a
      Brownian motion (which has [3 (t - s)^2] for equal components and [(t - s)^2] for different ones). *)
  Definition fourth_moments (P : space Omega) (ks : list K) (times : R -> Prop) (W : Omega -> R -> K -> R) : Prop :=
    forall s t k l f, times s -> times t -> s < t -> In k ks -> In l ks -> known P s f ->
      known P t (fun w => f w * ((W w t k - W w s k) * (W w t l - W w s l))) /\
      mean P (fun w => (f w * ((W w t k - W w s k) * (W w t l - W w s l))) ^ 2) <= 3 * (t - s) ^ 2 * mean P (fun w => f w ^ 2).

  (** [Dg] is the differential of the diffusion [g] with respect to the state. *)
  Definition differential (g : R -> Y -> (I * K -> R)) (Dg : R -> Y -> Y -> (I * K -> R)) : Prop :=
    (forall s y v, directional (g s) y v (Dg s y v)) /\
    (forall s y a v b v' p, Dg s y (fun i => a * v i + b * v' i) p = a * Dg s y v p + b * Dg s y v' p).
  (** The derivative of the column [l] of the diffusion in the direction of its column [k] *)
  Definition along (g : R -> Y -> (I * K -> R)) (Dg : R -> Y -> Y -> (I * K -> R)) (s : R) (y : Y) (k l : K) (i : I) : R :=
    Dg s y (fun j => g s y (j, k)) (i, l).
  (** The noise is commutative. *)
  Definition commutative (ks : list K) (g : R -> Y -> (I * K -> R)) (Dg : R -> Y -> Y -> (I * K -> R)) : Prop :=
    forall s y k l i, In k ks -> In l ks -> along g Dg s y k l i = along g Dg s y l k i.

  (** Drift, diffusion and these derivatives are Lipschitz in the state, between [t0] and [t1]. *)
  Definition milstein_lipschitz (is : list I) (ks : list K) (t0 t1 L : R) (f : R -> Y -> Y) (g : R -> Y -> (I * K -> R))
             (Dg : R -> Y -> Y -> (I * K -> R)) : Prop :=
    forall s x y, t0 <= s <= t1 ->
      total is (fun i => (f s x i - f s y i) ^ 2) + total ks (fun k => total is (fun i => (g s x (i, k) - g s y (i, k)) ^ 2))
      + total ks (fun k => total ks (fun l => total is (fun i => (along g Dg s x k l i - along g Dg s y k l i) ^ 2)))
      <= L * total is (fun i => (x i - y i) ^ 2).

  (** [J w s t k l] is the integral from [s] to [t] of [W_k - W_k(s)] with respect to [dW_l]: all that is used is the product rule, which
      has an additional term for Ito's integral. *)
  Definition ito_integrals (ks : list K) (times : R -> Prop) (W : Omega -> R -> K -> R) (J : Omega -> R -> R -> K -> K -> R) : Prop :=
    forall w s t k l, times s -> times t -> s < t -> In k ks -> In l ks ->
      (k = l -> J w s t k l + J w s t l k = (W w t k - W w s k) * (W w t l - W w s l) - (t - s)) /\
      (k <> l -> J w s t k l + J w s t l k = (W w t k - W w s k) * (W w t l - W w s l)).
  Definition stratonovich_integrals (ks : list K) (times : R -> Prop) (W : Omega -> R -> K -> R) (J : Omega -> R -> R -> K -> K -> R) : Prop :=
    forall w s t k l, times s -> times t -> s < t -> In k ks -> In l ks ->
      J w s t k l + J w s t l k = (W w t k - W w s k) * (W w t l - W w s l).

  (** [x] solves [dx = f dt + g dW], in the sense of the integrals [J]: over a short time [h] it moves by
      [f h + g dW + sum_kl (Dg_l g_k) J_kl], up to a rest whose mean square is [O(h^3)] and whose mean, given the past, is [O(h^2)]: the
      stochastic Taylor expansion of order one. *)
  Definition taylor_rest (ks : list K) (f : R -> Y -> Y) (g : R -> Y -> (I * K -> R)) (Dg : R -> Y -> Y -> (I * K -> R)) (W : Omega -> R -> K -> R)
             (J : Omega -> R -> R -> K -> K -> R) (x : R -> Omega -> Y) (s t : R) (w : Omega) : Y :=
    fun i => x t w i - (x s w i + f s (x s w) i * (t - s) + total ks (fun k => g s (x s w) (i, k) * (W w t k - W w s k))
                        + total ks (fun k => total ks (fun l => along g Dg s (x s w) k l i * J w s t k l))).
  Definition taylor_solution (P : space Omega) (is : list I) (ks : list K) (times : R -> Prop) (f : R -> Y -> Y) (g : R -> Y -> (I * K -> R))
             (Dg : R -> Y -> Y -> (I * K -> R)) (W : Omega -> R -> K -> R) (J : Omega -> R -> R -> K -> K -> R) (x : R -> Omega -> Y) (M : R) : Prop :=
    (forall t, times t -> known_vector P is t (x t)) /\
    forall s t, times s -> times t -> s < t ->
      mean_square P is (taylor_rest ks f g Dg W J x s t) <= M * (t - s) ^ 3 /\
      forall phi, known_vector P is s phi ->
        total is (fun i => mean P (fun w => phi w i * taylor_rest ks f g Dg W J x s t w i)) ^ 2 <= M * (t - s) ^ 4 * mean_square P is phi.
End Equation.

Section Solvers.
  Context {Omega I K : Type}.
  Notation Y := (I -> R).

  Definition dW_term (ks : list K) (g : R -> Y -> (I * K -> R)) (W : R -> K -> R) : term I (I * K) (K -> R) :=
    control_term ks g (fun t0 t1 k => W t1 k - W t0 k).
  (** The value after steps of a method, that may depend on the sample, from [(t0, y0)] along the times [ts] *)
  Definition value (m : Omega -> method Y unit (Y * Y)) (t0 : R) (ts : list R) (y0 : Omega -> Y) (w : Omega) : Y :=
    fst (steps (m w) t0 ts (y0 w) tt).
  (** A complete, successful solve from [y0] by the method [m], of one sample, with any step size controller and event: its
      accepted steps end at the times [ts].  [time] gives the real number a time of the loop stands for. *)
  Definition method_run {CS V MS : Type} (c : config Y unit CS (Y * Y) (option Y) V MS) (i : initial Y unit CS MS)
             (h : list (attempt Y)) (o : outcome Y unit CS (Y * Y) V MS) (m : method Y unit (Y * Y)) (time : Z -> R) (t0 : R) (ts : list R)
             (y0 : Y) : Prop :=
    solve_run c i h o /\ out_result o = successful /\
    solver_step c = (fun tprev tnext => me_step m (time tprev) (time tnext)) /\
    rejects_in_place h /\ no_time_jumps h /\ stepto_len c = None /\ (cfg_t0 c <= cfg_t1 c)%Z /\ results_ok c /\ rf_results_ok c /\
    time (cfg_t0 c) = t0 /\ in_y i = y0 /\ map (fun a => time (at_to a)) (accepted h) = ts.
End Solvers.
