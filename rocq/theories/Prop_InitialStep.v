(** Theorems about the size of the first step: C57. *)
From Coq Require Import Reals ZArith List Lra.
From Verif Require Import Model_InitialStep Proof_InitialStep.
Import ListNotations.
Open Scope R_scope.

(** C57: the automatic choice for an [ODETerm].  The step is positive.  In the scaled norm an Euler step of this size
    changes [y0] by at most its own size (or the step is below 1e-4), and the size of the derivative and its
    divided difference along a trial Euler step, times [h ** error_order], is at most 0.01 (or they vanish). *)
  Theorem C57_automatic :
    forall (I : Type) (norm : (I -> R) -> R) (error_order rtol atol : R) (f : R -> (I -> R) -> (I -> R)) (t0 : R) (y0 : I -> R),
    (forall v, 0 <= norm v) -> 0 < error_order ->
  let scaled := fun v : I -> R => norm (fun i => v i / (atol + Rabs (y0 i) * rtol)) in
  let h := select_initial_step norm error_order rtol atol (ODETerm f) f t0 y0 in
  let f0 := f t0 y0 in
  0 < h
  /\ (h <= 1 / 10000 \/ h * scaled f0 <= scaled y0)
  /\ exists e, 0 < e /\ h <= 100 * e
     /\ (e = 1 / 1000000 \/ 100 * e * scaled f0 = scaled y0)
     /\ let f1 := f (t0 + e) (fun i => y0 i + e * f0 i) in
        let m := Rmax (scaled f0) (scaled (fun i => f1 i - f0 i) / e) in
        m <= 1 / 10 ^ 15 \/ Rpower h error_order * m <= 1 / 100.
  Proof. exact pf_C57_automatic. Qed.

(** C57: the choice for [y' = - y] at 1 with tolerances 1/1000. *)
Example C57_automatic_instance :
  let norm := fun v : unit -> R => Rabs (v tt) in
  (forall v, 0 <= norm v) /\ 0 < 5 /\
  norm (fun i => 1 / (1 / 1000 + Rabs 1 * (1 / 1000))) > 1 / 100000.
Proof.
  cbv zeta. split; [intros v; apply Rabs_pos|]. split; [lra|]. rewrite Rabs_R1.
  replace (1 / (1 / 1000 + 1 * (1 / 1000))) with 500 by field. rewrite Rabs_pos_eq; lra.
Qed.

(** C57: a first step that is given is the one taken, in either direction of time. *)
  Theorem C57_first_step_given :
    forall (I : Type) (norm : (I -> R) -> R) (error_order rtol atol : R) (func : pyterm I -> R -> (I -> R) -> (I -> R)) (terms : pyterm I) (t0 t1 dt0 : R) (y0 : I -> R),
    (t0 < t1 -> diffeqsolve_first_end norm error_order rtol atol None None func terms t0 t1 y0 (Some dt0) = Rmin (t0 + dt0) t1)
  /\ (t1 <= t0 -> - diffeqsolve_first_end norm error_order rtol atol None None func terms t0 t1 y0 (Some dt0) = Rmax (t0 + dt0) t1).
  Proof. exact pf_C57_first_step_given. Qed.
(** C57: the first step, of length [h] towards [t1], does not pass [t1], is at most [dtmax], is at least [dtmin]
    unless it ends at [t1], and is [dt0] when that lies within the bounds. *)
  Theorem C57_first_step_bounds :
    forall (I : Type) (norm : (I -> R) -> R) (error_order rtol atol : R) (dtmin dtmax : option R) (func : pyterm I -> R -> (I -> R) -> (I -> R)) (terms : pyterm I) (t0 t1 : R) (dt0 : option R) (y0 : I -> R),
    (forall m M, dtmin = Some m -> dtmax = Some M -> m <= M) ->
  let s := if Rlt_dec t0 t1 then 1 else -1 in
  let h := diffeqsolve_first_end norm error_order rtol atol dtmin dtmax func terms t0 t1 y0 dt0 - s * t0 in
  h <= Rabs (t1 - t0)
  /\ (forall M, dtmax = Some M -> h <= M)
  /\ (forall m, dtmin = Some m -> m <= h \/ h = Rabs (t1 - t0))
  /\ (forall d, dt0 = Some d -> (forall m, dtmin = Some m -> m <= s * d) -> (forall M, dtmax = Some M -> s * d <= M) ->
      h = Rmin (s * d) (Rabs (t1 - t0))).
  Proof. exact pf_C57_first_step_bounds. Qed.
(** C57: leaving [dt0] out is the same as passing 0.01 (towards [t1]), whatever the terms, tolerances, norm, order
    and initial value. *)
  Theorem C57_none_is_a_hundredth :
    forall (I : Type) (norm norm' : (I -> R) -> R) (error_order error_order' rtol rtol' atol atol' : R) (dtmin dtmax : option R) (func func' : pyterm I -> R -> (I -> R) -> (I -> R)) (terms terms' : pyterm I) (t0 t1 : R) (y0 y0' : I -> R),
    diffeqsolve_first_end norm error_order rtol atol dtmin dtmax func terms t0 t1 y0 None
  = diffeqsolve_first_end norm' error_order' rtol' atol' dtmin dtmax func' terms' t0 t1 y0'
      (Some (if Rlt_dec t0 t1 then 1 / 100 else - (1 / 100))).
  Proof. exact pf_C57_none_is_a_hundredth. Qed.
(** C57, refuted for [diffeqsolve]: the first step of [diffeqsolve(ODETerm(f), ..., dt0=None)] exceeds the automatic
    choice by any factor. *)
  Theorem C57_automatic_refuted :
    forall K, 0 < K ->
  exists (f : R -> (unit -> R) -> (unit -> R)) (y0 : unit -> R),
    let norm := fun v : unit -> R => Rabs (v tt) in
    let h := select_initial_step norm 5 (1 / 1000) (1 / 1000) (ODETerm f) f 0 y0 in
    0 < h /\ diffeqsolve_first_end norm 5 (1 / 1000) (1 / 1000) None None vf_func (ODETerm f) 0 1 y0 None >= K * h.
  Proof. exact pf_C57_automatic_refuted. Qed.

(** C57: both directions occur. *)
Example C57_first_step_instance :
  let norm := fun v : unit -> R => Rabs (v tt) in
  let f := ODETerm (fun (t : R) (y : unit -> R) => y) in
  diffeqsolve_first_end norm 5 0 1 None None vf_func f 0 1 (fun _ => 1) (Some (1 / 2)) = 1 / 2 /\
  - diffeqsolve_first_end norm 5 0 1 None None vf_func f 1 0 (fun _ => 1) None = 99 / 100.
Proof.
  cbv zeta. split.
  - destruct (C57_first_step_given unit (fun v : unit -> R => Rabs (v tt)) 5 0 1 vf_func
                (ODETerm (fun (t : R) (y : unit -> R) => y)) 0 1 (1 / 2) (fun _ => 1)) as [A _].
    rewrite A by lra. rewrite Rmin_left; lra.
  - rewrite (C57_none_is_a_hundredth _ _ (fun v : unit -> R => Rabs (v tt)) _ 5 _ 0 _ 1 _ _ _ vf_func _
               (ODETerm (fun (t : R) (y : unit -> R) => y)) _ _ _ (fun _ => 1)).
    destruct (Rlt_dec 1 0); [lra|].
    destruct (C57_first_step_given unit (fun v : unit -> R => Rabs (v tt)) 5 0 1 vf_func
                (ODETerm (fun (t : R) (y : unit -> R) => y)) 1 0 (- (1 / 100)) (fun _ => 1)) as [_ B].
    rewrite B by lra. rewrite Rmax_left; lra.
Qed.

(** C57: both bounds are effective: 1/2 is raised to [dtmin] = 3/5 and cut to [dtmax] = 1/4. *)
Example C57_first_step_bounds_instance :
  let norm := fun v : unit -> R => Rabs (v tt) in
  let f := ODETerm (fun (t : R) (y : unit -> R) => y) in
  (forall m M, Some (3 / 5) = Some m -> Some (4 / 5) = Some M -> m <= M) /\
  diffeqsolve_first_end norm 5 0 1 (Some (3 / 5)) (Some (4 / 5)) vf_func f 0 1 (fun _ => 1) (Some (1 / 2)) = 3 / 5 /\
  diffeqsolve_first_end norm 5 0 1 (Some (1 / 5)) (Some (1 / 4)) vf_func f 0 1 (fun _ => 1) (Some (1 / 2)) = 1 / 4.
Proof.
  cbv zeta. split; [intros m M [= <-] [= <-]; lra|].
  unfold diffeqsolve_first_end, pid_first_end. cbn [option_map].
  destruct (Rlt_dec 0 1); [|lra]. split.
  - rewrite (Rmin_left (1 / 2 * 1) (4 / 5)), (Rmax_right (1 / 2 * 1) (3 / 5)), Rmin_left; lra.
  - rewrite (Rmin_right (1 / 2 * 1) (1 / 4)), (Rmax_left (1 / 4) (1 / 5)), Rmin_left; lra.
Qed.

Print Assumptions C57_automatic.
Print Assumptions C57_first_step_given.
Print Assumptions C57_first_step_bounds.
Print Assumptions C57_none_is_a_hundredth.
Print Assumptions C57_automatic_refuted.
