(** A solve with a PID controller in two systems of units. *)
From Coq Require Import QArith Qround Qabs ZArith List Bool Arith Lia Lqa.
From Verif Require Import Model_Result Model_Loop Spec_Loop Model_Float Model_PID Spec_PID Spec_Units Spec_Related Proof_Units Ex_PID.
Import ListNotations.
Open Scope Q_scope.

Definition unit_pid (k c : Q) : pid_controller :=
  PIDController (1#10) (k * 1) max_norm ex_power (1#2) (1#2) 0 (Some (c * 50)) (Some (c * 900)) true (1#5) 10 (9#10) 2.
Lemma unit_pid_numeric k c : numeric (unit_pid k c).
Proof.
  split; cbn [unit_pid norm power].
  - intros l m H. unfold max_norm. assert (Q : Forall2 (times 1) (concat l) (concat m)) by (induction H; [constructor|]; cbn; apply Forall2_app; assumption).
    clear H. induction Q as [|a b l' m' Hab _ IH]; [apply times_refl|]. cbn. apply times_max; [reflexivity|apply times_abs; [reflexivity|exact Hab]|exact IH].
  - intros a b q H. unfold ex_power. destruct (Qeq_bool q 0); [apply times_refl|]. destruct (Qle_bool 0 q); [exact H|].
    apply (times_compat (1 / 1)); [reflexivity|]. apply times_div; [reflexivity|reflexivity|apply times_refl|exact H].
Qed.
Lemma unit_pid_in_units k c : in_units k c (unit_pid 1 1) (unit_pid k c).
Proof. unfold in_units. cbn. repeat split; ring. Qed.

(** A clock with ticks of length [c], rounding down. *)
Definition tick (c : Q) (a : Z) : Q := c * inject_Z a.
Definition round_tick (c : Q) (x : Q) : Z := Qfloor (x / c).
Lemma ticks c : 0 < c -> clocks c (tick 1) (tick c) (round_tick 1) (round_tick c).
Proof.
  intros C. split; [intros a; unfold tick; ring|]. intros x x' H. unfold round_tick. apply Qfloor_comp. rewrite H. field. intros Q. rewrite Q in C. destruct (Qlt_irrefl _ C).
Qed.

(** Exponential decay by Euler's method, with an error estimate of second order; all values after a step are saved. *)
Definition decay_step (c : Q) (a b : Z) (y : tree) (s : nat) (j : bool) : step_out tree nat tree tree :=
  let h := (1#1000) / c * (tick c b - tick c a) in
  StepOut (map (map (fun x => xmul x (QFin (1 - h)))) y) (map (map (fun x => xmul x (QFin (h * h)))) y) y (S s) successful.
Definition decay_cfg (k c : Q) : config tree nat pid_state tree tree tree nat :=
  Config (decay_step c) (map (map nan_inf)) (fun a b d t => d) (pid_loop_adapt (tick c) (round_tick c) (unit_pid k c))
         None (fun a b => (a + (b - a) / 2)%Z) (fun n _ => S n) [SubSaveAt true false None 1 (fun _ y => y)] true None 0 1000 (Some 40%nat).
Definition decay_initial (k : Q) : initial tree nat pid_state nat :=
  Initial [[QFin (k * 100); QFin (k * -10)]] 500 false 0%nat (PidState (QFin 1) (QFin 1) false) 0%nat PInf.

Lemma map_times k q q' y y' : 0 < k -> q' == q -> tree_times k y y' -> tree_times k (map (map (fun x => xmul x (QFin q))) y) (map (map (fun x => xmul x (QFin q'))) y').
Proof.
  intros K E H. induction H as [|l l' m m' Hl _ IH]; [constructor|]. cbn. constructor; [|exact IH].
  induction Hl as [|x x' n n' Hx _ IHl]; [constructor|]. cbn. constructor; [|exact IHl]. apply (times_compat (k * 1)); [ring|].
  apply times_mul; [exact K|reflexivity|exact Hx|cbn; rewrite E; ring].
Qed.
Lemma nan_inf_times k y y' : tree_times k y y' -> tree_times k (map (map nan_inf) y) (map (map nan_inf) y').
Proof.
  intros H. induction H as [|l l' m m' Hl _ IH]; [constructor|]. cbn. constructor; [|exact IH].
  induction Hl as [|x x' n n' Hx _ IHl]; [constructor|]. cbn. constructor; [|exact IHl]. destruct x, x'; cbn in *; try contradiction; exact Hx.
Qed.
Lemma decay_related k c : 0 < k -> 0 < c -> steps_related (tree_times k) eq (tree_times k) (tree_times k) (decay_cfg 1 1) (decay_cfg k c).
Proof.
  intros K C a b y y' s s' j HY <-. cbn [decay_cfg solver_step decay_step so_y so_error so_dense so_state so_result nan_to_inf].
  assert (E : (1#1000) / c * (tick c b - tick c a) == (1#1000) / 1 * (tick 1 b - tick 1 a)).
  { unfold tick. field. intros Q. rewrite Q in C. destruct (Qlt_irrefl _ C). }
  split; [apply map_times; [exact K|rewrite E; reflexivity|exact HY]|]. split; [|auto].
  apply nan_inf_times, map_times; [exact K|rewrite E; reflexivity|exact HY].
Qed.
Lemma decay_initials k : initials_related (tree_times k) eq same_state (decay_initial 1) (decay_initial k).
Proof.
  unfold initials_related. cbn. repeat split; try reflexivity; try apply times_refl. repeat constructor; cbn; ring.
Qed.

(** The same solve with another controller. *)
Definition with_adapt {SS CS CS' DI V MS : Type} (g : config tree SS CS DI tree V MS) (f : Z -> Z -> tree -> tree -> tree -> CS' -> adapt_out CS')
  : config tree SS CS' DI tree V MS :=
  Config (solver_step g) (nan_to_inf g) (interpolate g) f (stepto_len g) (midpoint g) (meter_step g) (cfg_subs g) (cfg_dense g) (cfg_event g)
         (cfg_t0 g) (cfg_t1 g) (cfg_max_steps g).
