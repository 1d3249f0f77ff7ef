(** Theorems about the orders of solvers that are not Runge--Kutta methods: C82. *)
From Coq Require Import Reals List Bool Arith Lia Lra.
From Verif Require Import Model_Result Model_Loop Model_RK Model_Terms Model_Solvers Model_MethodOrders Spec_RK Spec_Solvers Spec_Order Spec_Lipschitz Spec_MethodOrder
  Proof_MethodOrder Proof_DeclaredOrder Ex_MethodOrder.
Import ListNotations.
Open Scope R_scope.

Section Orders.
  Context {I : Type}.
  Notation Y := (I -> R).

  (** C82: after any number of steps of length [h] within a time [T], Euler's method and implicit Euler are off by at most a
      constant times [h]. The constants depend on the equation and on [T] only. *)
  Theorem C82_euler :
    forall (f : R -> Y -> Y) (L M2 t0 T h : R) (y : R -> Y) (n : nat),
    0 <= L -> 0 <= M2 -> lipschitz L f -> smooth2 t0 T M2 y (fun t => f t (y t)) -> 0 < h -> INR n * h <= T ->
    let m := euler (ode_term f) in
    bounded (fun x => fst (steps m t0 (grid t0 h n) (y t0) (me_init m t0 (t0 + h) (y t0))) x - y (t0 + INR n * h) x) (M2 * T * exp (L * T) * h).
  Proof. exact pf_C82_euler. Qed.
  Theorem C82_implicit_euler :
    forall (f : R -> Y -> Y) (root_find : (Y -> Y) -> Y -> Y * RESULTS) (L M2 t0 T h : R) (y : R -> Y) (n : nat) (yn : Y),
    finite_type I -> (forall g z, is_okay (snd (root_find g z)) = true -> forall x, g (fst (root_find g z)) x = 0) ->
    0 <= L -> 0 <= M2 -> lipschitz L f -> smooth2 t0 T M2 y (fun t => f t (y t)) -> 0 < h -> h * L <= 1 / 2 -> INR n * h <= T ->
    let m := implicit_euler root_find (ode_term f) in
    good_steps m t0 (grid t0 h n) (y t0) (me_init m t0 (t0 + h) (y t0)) yn tt ->
    bounded (fun x => yn x - y (t0 + INR n * h) x) (2 * M2 * T * exp (2 * L * T) * h).
  Proof. exact pf_C82_implicit_euler. Qed.
  (** C82: the leapfrog midpoint method and reversible Heun are off by at most a constant times the square of [h]. *)
  Theorem C82_leapfrog :
    forall (f : R -> Y -> Y) (L M2 M3 t0 T h : R) (y : R -> Y) (n : nat),
    0 <= L -> 0 <= M2 -> 0 <= M3 -> lipschitz L f -> smooth3 t0 T M2 M3 y (fun t => f t (y t)) -> 0 < h -> INR n * h <= T ->
    let m := leapfrog_midpoint (ode_term f) in
    bounded (fun x => fst (steps m t0 (grid t0 h n) (y t0) (me_init m t0 (t0 + h) (y t0))) x - y (t0 + INR n * h) x) ((M2 + 2 * M3 * T) * exp (2 * L * T) * h^2).
  Proof. exact pf_C82_leapfrog. Qed.
  Theorem C82_reversible_heun :
    forall (f : R -> Y -> Y) (L M2 M3 t0 T h : R) (y : R -> Y) (n : nat),
    0 <= L -> 0 <= M2 -> 0 <= M3 -> lipschitz L f -> smooth3 t0 T M2 M3 y (fun t => f t (y t)) -> 0 < h <= T -> INR n * h <= T ->
    let m := reversible_heun (ode_term f) in
    let K := (M2 / 4 + T * (L * M2 / 4 + 3 * M3)) * exp (2 * L * T) in
    bounded (fun x => fst (steps m t0 (grid t0 h n) (y t0) (me_init m t0 (t0 + h) (y t0))) x - y (t0 + INR n * h) x) ((K + L * T * (K + M2 / 8)) * h^2).
  Proof. exact pf_C82_reversible_heun. Qed.
  (** C82: so the order that each solver declares is the power of [h] that bounds its error. *)
  Theorem C82_declared :
    forall (f : R -> Y -> Y) (L M2 M3 t0 T : R) (y : R -> Y),
    finite_type I -> 0 <= L -> 0 <= M2 -> 0 <= M3 -> 0 <= T -> lipschitz L f -> smooth3 t0 T M2 M3 y (fun t => f t (y t)) ->
    exists C h0, 0 < h0 /\ forall (h : R) (n : nat), 0 < h <= h0 -> h <= T -> INR n * h <= T ->
    let off {SS DI} (m : method Y SS DI) x := fst (steps m t0 (grid t0 h n) (y t0) (me_init m t0 (t0 + h) (y t0))) x - y (t0 + INR n * h) x in
    bounded (off (euler (ode_term f))) (C * h ^ euler_order) /\
    bounded (off (leapfrog_midpoint (ode_term f))) (C * h ^ leapfrog_midpoint_order) /\
    bounded (off (reversible_heun (ode_term f))) (C * h ^ reversible_heun_order) /\
    (forall (root_find : (Y -> Y) -> Y -> Y * RESULTS) (yn : Y),
       (forall g z, is_okay (snd (root_find g z)) = true -> forall x, g (fst (root_find g z)) x = 0) ->
       good_steps (implicit_euler root_find (ode_term f)) t0 (grid t0 h n) (y t0) tt yn tt ->
       bounded (fun x => yn x - y (t0 + INR n * h) x) (C * h ^ implicit_euler_order)).
  Proof. exact pf_C82_declared. Qed.
End Orders.

(** C82: the symplectic Euler method is off by at most a constant times [h] in both halves. *)
  Theorem C82_semi_implicit_euler :
    forall (I1 I2 : Type) (f : R -> (I2 -> R) -> (I1 -> R)) (g : R -> (I1 -> R) -> (I2 -> R)) (L M1 M2 t0 T h : R) (q : R -> I1 -> R) (p : R -> I2 -> R) (n : nat),
    0 <= L -> 0 <= M1 -> 0 <= M2 -> half_lipschitz L f -> half_lipschitz L g ->
  smooth2 t0 T M2 q (fun t => f t (p t)) -> smooth2 t0 T M2 p (fun t => g t (q t)) ->
  (forall t, t0 <= t <= t0 + T -> bounded (f t (p t)) M1) -> 0 < h -> h * L <= 1 -> INR n * h <= T ->
  let m := semi_implicit_euler (half_ode f) (half_ode g) in
  let yn := fst (steps m t0 (grid t0 h n) (q t0, p t0) (me_init m t0 (t0 + h) (q t0, p t0))) in
  bounded (fun x => fst yn x - q (t0 + INR n * h) x) ((2 * M2 + L * M1) * T * exp (2 * L * T) * h) /\
  bounded (fun x => snd yn x - p (t0 + INR n * h) x) ((2 * M2 + L * M1) * T * exp (2 * L * T) * h).
  Proof. exact pf_C82_semi_implicit_euler. Qed.
  Theorem C82_declared_semi_implicit :
    forall (I1 I2 : Type) (f : R -> (I2 -> R) -> (I1 -> R)) (g : R -> (I1 -> R) -> (I2 -> R)) (L M1 M2 t0 T : R) (q : R -> I1 -> R) (p : R -> I2 -> R),
    0 <= L -> 0 <= M1 -> 0 <= M2 -> half_lipschitz L f -> half_lipschitz L g ->
  smooth2 t0 T M2 q (fun t => f t (p t)) -> smooth2 t0 T M2 p (fun t => g t (q t)) ->
  (forall t, t0 <= t <= t0 + T -> bounded (f t (p t)) M1) ->
  exists C h0, 0 < h0 /\ forall (h : R) (n : nat), 0 < h <= h0 -> INR n * h <= T ->
  let m := semi_implicit_euler (half_ode f) (half_ode g) in
  let yn := fst (steps m t0 (grid t0 h n) (q t0, p t0) (me_init m t0 (t0 + h) (q t0, p t0))) in
  bounded (fun x => fst yn x - q (t0 + INR n * h) x) (C * h ^ semi_implicit_euler_order) /\
  bounded (fun x => snd yn x - p (t0 + INR n * h) x) (C * h ^ semi_implicit_euler_order).
  Proof. exact pf_C82_declared_semi_implicit. Qed.

(** Exponential decay in [n] steps until time one, for every [n]; the harmonic oscillator by the symplectic method. *)
Example C82_decay : forall n, (2 <= n)%nat ->
  let h := / INR n in
  let at_end {SS DI} (m : method (unit -> R) SS DI) := fst (steps m 0 (grid 0 h n) (fun _ => 1) (me_init m 0 (0 + h) (fun _ => 1))) tt in
  Rabs (at_end (euler (ode_term decay_vf)) - exp (-1)) <= exp 1 * h /\
  Rabs (at_end (leapfrog_midpoint (ode_term decay_vf)) - exp (-1)) <= 3 * exp 2 * h^2 /\
  Rabs (at_end (reversible_heun (ode_term decay_vf)) - exp (-1)) <= (7 * exp 2 + 1 / 8) * h^2.
Proof. exact decay_orders. Qed.
Example C82_implicit_decay : forall n, (2 <= n)%nat ->
  let h := / INR n in
  let m := implicit_euler linear_root (ode_term decay_vf) in
  exists yn, good_steps m 0 (grid 0 h n) (fun _ => 1) tt yn tt /\ Rabs (yn tt - exp (-1)) <= 2 * exp 2 * h.
Proof. exact decay_implicit. Qed.
Example C82_oscillator : forall n, (1 <= n)%nat ->
  let h := / INR n in
  let m := semi_implicit_euler (half_ode (fun _ p => p)) (half_ode (fun _ q x => - q x)) in
  let yn := fst (steps m 0 (grid 0 h n) (fun _ : unit => 0, fun _ : unit => 1) (me_init m 0 (0 + h) (fun _ => 0, fun _ => 1))) in
  Rabs (fst yn tt - sin 1) <= 3 * exp 2 * h /\ Rabs (snd yn tt - cos 1) <= 3 * exp 2 * h.
Proof. exact oscillator_order. Qed.
Example C82_declared_decay :
  finite_type unit /\ lipschitz 1 decay_vf /\ smooth3 0 1 1 1 decayed (fun t => decay_vf t (decayed t)) /\ decayed 0 tt = 1 /\ decayed 1 tt <> 1.
Proof.
  split; [exists [tt]; intros []; left; reflexivity|]. split; [exact decay_lipschitz|]. split; [exact decay_smooth3|].
  unfold decayed. split; [rewrite Ropp_0; apply exp_0|]. intros E. rewrite <- exp_0 in E at 2. apply exp_inv in E. lra.
Qed.

Print Assumptions C82_euler.
Print Assumptions C82_implicit_euler.
Print Assumptions C82_leapfrog.
Print Assumptions C82_reversible_heun.
Print Assumptions C82_declared.
Print Assumptions C82_semi_implicit_euler.
Print Assumptions C82_declared_semi_implicit.
