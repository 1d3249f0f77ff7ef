(** Specification vocabulary: smoothness along a solution. *)
From Coq Require Import ZArith Reals List.
From Verif Require Import Model_Result Model_Loop Model_RK Model_DenseOutput Spec_Loop Spec_RK Spec_RKLoop Spec_Order.
Import ListNotations.
Open Scope R_scope.

(** [f] has Taylor expansions as in [taylor], with remainder of order [p], at all points [(t, y t)] with
    [a <= t <= b], with the same constants everywhere. *)
Definition uniformly_smooth {I : Type} (p : nat) (f : R -> (I -> R) -> (I -> R)) (a b : R) (y : R -> I -> R) : Prop :=
  exists D : R -> list (option I -> R) -> I -> R,
    (forall t, a <= t <= b -> multilinear (D t)) /\
    (forall m, exists M, forall t l Bs, a <= t <= b -> length l = m -> Forall2 bounded l Bs ->
       bounded (D t l) (M * fold_right Rmult 1 Bs)) /\
    exists delta M, 0 < delta /\ 0 <= M /\
      forall t v B, a <= t <= b -> 0 <= B <= delta -> bounded v B ->
        bounded (fun x => f (t + v None) (fun x => y t x + v (Some x)) x - sum_n p (fun m => D t (repeat v m) x)) (M * B ^ p).

(** The weights of all tableaus are at most [B]. *)
Definition weights_bounded (tabs : list tableau) (s : nat) (B : R) : Prop :=
  0 <= B /\ forall tab i, In tab tabs -> (i < s)%nat -> Rabs (coef_b tab i) <= B.

(** How far a perturbation of size 1 per unit of time can grow within a time [t], by steps of a method with [n]
    vector fields with Lipschitz constant [L], [s] stages and weights at most [B]. *)
Definition growth (n s : nat) (B L t : R) : R := t * exp (2 * INR n * INR s * B * L * t).

(** Every accepted step succeeds, goes forward by at most [H] and ends at [b] at the latest, and the next
    one begins there. *)
Definition steps_within {Y : Type} (time : Z -> R) (H b : R) (h : list (attempt Y)) : Prop :=
  forall a, In a h -> at_keep a = true ->
    is_okay (at_solver_result a) = true /\ at_end a = at_to a /\
    0 < time (at_to a) - time (at_from a) <= H /\ time (at_to a) <= b.

Section Run.
  Context {I CS V MS : Type}.
  Notation Y := (I -> R).
  Notation DI := (Y * Y * list (list Y))%type.
  Notation config := (config Y (solver_state I) CS DI (option Y) V MS).

  (** A complete solve from [(t0, y0)] by a Runge--Kutta solver, explicit or with exact root finder, and any
      step size controller that fulfils the contract. *)
  Definition rk_run (c : config) (i : initial Y (solver_state I) CS MS) (h : list (attempt Y))
             (o : outcome Y (solver_state I) CS DI V MS) (sv : solver I I R) (time : Z -> R) (t0 : R) (y0 : Y) : Prop :=
    solve_run c i h o /\
    (exists others, solver_step c = rk_solver_step sv time others) /\
    (exact_root_finder (sv_root_finder sv) \/ explicit_parts (sv_parts sv)) /\
    (exists Inv, controller_contract c Inv /\
       Inv (cfg_t0 c) (Z.min (in_tnext i) (cfg_t1 c)) (in_controller_state i)) /\
    announces_jumps c /\ midpoint_ok c /\
    (cfg_t0 c <= cfg_t1 c)%Z /\ (cfg_t0 c <= in_tnext i)%Z /\
    coherent (sv_parts sv) (time (cfg_t0 c)) (in_y i) (in_made_jump i) (in_solver_state i) /\
    time (cfg_t0 c) = t0 /\ in_y i = y0.

  (** What the loop sees of [interpolation_cls]. *)
  Definition rk_interpolate (interp : interpolation) (time : Z -> R) (tprev tnext : Z) (dense : DI) (t : Z) : Y :=
    let '(y0, y1, k) := dense in
    fun x => interp (time tprev) (time tnext) (y0 x) (y1 x) (map (map (fun k => k x)) k) (time t).
End Run.
