(** Theorems about gradients of a solve: C67. *)
From Coq Require Import Reals List Bool Lra Lia Sorted.
From Coquelicot Require Import Coquelicot.
From Verif Require Import Model_Tangent Spec_Tangent Proof_Tangent Proof_TangentProps Ex_Tangent Proof_TangentRefuted.
Import ListNotations.
Open Scope R_scope.

Section Tangent.
  Context {P W O Er : NormedModule R_AbsRing}.
  (** C67: the tangent of the final value is the derivative of solving on the steps that were kept. *)
  Theorem C67_gradient :
    forall (sv : @solver P W O Er) (c : @controller W Er) (n num_steps : nat) (ts : list R) (floor : R) (p : P) (w0 : W) (t0 t1 dt0 : R),
    exists grid : list (R * R),
      (forall (dp : P) (dw : W),
         let r := solve n sv c num_steps ts floor (p, dp) (w0, dw) (const t0) (const t1) (const dt0) in
         values (kept (trace r)) = grid /\ fst (st r) = solve_on (step sv) grid p w0) /\
      (right_rules (step sv) (step sv) (jvp_step sv) grid p w0 ->
       gradient_at (solve_on (step sv) grid) p w0
         (fun dp dw => snd (st (solve n sv c num_steps ts floor (p, dp) (w0, dw) (const t0) (const t1) (const dt0))))).
  Proof. exact pf_C67_gradient. Qed.
  (** C67: with fixed steps, it is the derivative of the solve. *)
  Theorem C67_fixed :
    forall (sv : @solver P W O Er) (c : @controller W Er) (n num_steps : nat) (ts : list R) (floor : R) (p : P) (w0 : W) (t0 t1 dt0 : R),
    (c = CConstant \/ exists l, c = CStepTo l) ->
    (forall p a b w, step_derivative (step sv) p a b w (jvp_step sv p a b w)) ->
    gradient_at (fun p w => fst (st (solve n sv c num_steps ts floor (p, zero) (w, zero) (const t0) (const t1) (const dt0)))) p w0
      (fun dp dw => snd (st (solve n sv c num_steps ts floor (p, dp) (w0, dw) (const t0) (const t1) (const dt0)))).
  Proof. exact pf_C67_fixed. Qed.
  (** C67: the same for the values at requested times. *)
  Theorem C67_saved :
    forall (sv : @solver P W O Er) (c : @controller W Er) (n num_steps : nat) (ts : list R) (floor : R) (p : P) (w0 : W) (t0 t1 dt0 : R) (i : nat) (o : O),
    StronglySorted Rle ts ->
    let r := fun (dp : P) (dw : W) => solve n sv c num_steps ts floor (p, dp) (w0, dw) (const t0) (const t1) (const dt0) in
    let grid := values (kept (trace (r zero zero))) in
    nth_error (map fst (saved (r zero zero))) i = Some o ->
    exists t before a b after,
      nth_error ts i = Some t /\ grid = before ++ (a, b) :: after /\ List.Forall (fun ab => snd ab < t) before /\ t <= b /\
      o = out sv t p a b (solve_on (step sv) before p w0) /\
      (right_rules (step sv) (step sv) (jvp_step sv) before p w0 ->
       step_derivative (out sv t) p a b (solve_on (step sv) before p w0) (jvp_out sv t p a b (solve_on (step sv) before p w0)) ->
       gradient_at (fun p w => out sv t p a b (solve_on (step sv) before p w)) p w0
         (fun dp dw => snd (nth i (saved (r dp dw)) (zero, zero)))).
  Proof. exact pf_C67_saved. Qed.
  (** C67: gradients with respect to the ends of the interval. *)
  Theorem C67_ends :
    forall (sv : @solver P W O Er) (c : @pid W Er) (n num_steps : nat) (ts : list R) (floor : R) (p : P) (w0 : W) (t0 t1 dt0 : R) (before : list (R * R * R * bool)) (a' b' q' a b q : R) (k : bool),
    t0 < t1 -> floor < t1 ->
    let r := fun (dp : P) (dw : W) (ds dt : R) =>
               solve n sv (CPid c) num_steps ts floor (p, dp) (w0, dw) (t0, ds) (t1, dt) (const dt0) in
    (* the steps attempted: the end of only the last one is [t1] *)
    map (fun x => (fst (fst (fst (fst x))), fst (snd (fst (fst x))), snd (fst x), snd x)) (trace (r zero zero 0 0))
      = before ++ [(a', b', q', true); (a, b, q, true)] ->
    List.Forall (fun x => snd (fst x) <= floor /\ snd (fst (fst x)) < t1) before -> b' < t1 -> floor < q' ->
    let grid := kept (before ++ [(a', b', q', true)]) in
    right_rules (step sv) (step sv) (jvp_step sv) (grid ++ [(a, b)]) p w0 ->
    @gradient_at P (prod_NormedModule R_AbsRing W (prod_NormedModule R_AbsRing R_NormedModule R_NormedModule)) W
      (fun p q => step sv p (a + fst (snd q)) (b + snd (snd q))
                    (solve_on (step sv) (map (fun ab => (fst ab + fst (snd q), snd ab + fst (snd q))) grid) p (fst q)))
      p (w0, (0, 0)) (fun dp dq => snd (st (r dp (fst dq) (fst (snd dq)) (snd (snd dq))))).
  Proof. exact pf_C67_ends. Qed.
End Tangent.
(** C67: with adaptive steps, it is not the derivative of the solve. *)
  Theorem C67_adaptive_refuted :
    exists (sv : @solver R_NormedModule R_NormedModule R_NormedModule R_NormedModule) (c : @pid R_NormedModule R_NormedModule)
    (n num_steps : nat) (ts : list R) (floor p w0 t0 t1 dt0 l : R),
    (forall p a b w, step_derivative (step sv) p a b w (jvp_step sv p a b w)) /\
    is_derive (fun w => fst (st (solve n sv (CPid c) num_steps ts floor (p, 0) (w, 0) (const t0) (const t1) (const dt0)))) w0 l /\
    snd (st (solve n sv (CPid c) num_steps ts floor (p, 0) (w0, 1) (const t0) (const t1) (const dt0))) <> l.
  Proof. exact pf_C67_adaptive_refuted. Qed.

(** Heun's method for [dy/dt = p - y] with [PIDController]: three steps, the second end depending on the initial value. *)
Example C67_instance :
  (forall p a b w, step_derivative (step ex_sv) p a b w (jvp_step ex_sv p a b w)) /\
  (forall t p a b w, step_derivative (out ex_sv t) p a b w (jvp_out ex_sv t p a b w)) /\
  snd (st (ex_solve (0, 0) (1, 1) (const 0) (const (3 / 4)))) = q2 (1 / 4) * q2 (3 / 10) * q2 (1 / 5) /\
  exists q3 q4, 3 / 4 < q3 /\
    map (fun x => (fst (fst (fst (fst x))), fst (snd (fst (fst x))), snd (fst x), snd x))
        (trace (ex_solve (0, 0) (1, 0) (const 0) (const (3 / 4)))) =
    [(0, 1 / 4, 1 / 4 + 3 / 10, true); (1 / 4, 1 / 4 + 3 / 10, q3, true); (1 / 4 + 3 / 10, 3 / 4, q4, true)] /\
    1 / 4 + 3 / 10 <= 3 / 4 - 1 / 1000 /\ 1 / 4 < 3 / 4.
Proof.
  split; [exact ex_step_rule|]. split; [exact ex_out_rule|]. split; [exact ex_tangent|].
  destruct (ex_run 0 1 0 ltac:(lra)) as (q3 & q4 & H1 & H2 & _). rewrite h2_1 in H2.
  exists q3, q4. split; [exact H1|]. split; [exact H2|]. lra.
Qed.

(** The requested times of the example are sorted. *)
Example C67_times_instance : StronglySorted Rle [1 / 8; 3 / 4].
Proof. repeat constructor. lra. Qed.

Print Assumptions C67_gradient.
Print Assumptions C67_fixed.
Print Assumptions C67_saved.
Print Assumptions C67_ends.
Print Assumptions C67_adaptive_refuted.
