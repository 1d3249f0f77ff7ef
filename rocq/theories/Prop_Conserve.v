(** Theorems about quantities that solvers other than Runge--Kutta methods conserve: C77. *)
From Coq Require Import ZArith Reals List Bool Arith Lia Lra FunctionalExtensionality.
From Verif Require Import Model_Result Model_Loop Model_RK Model_Terms Model_Solvers Model_SRK Model_Interp Spec_Loop Spec_RK Spec_SRK
  Spec_Invariant Spec_Conserve Proof_PropLoop Proof_Conserve Ex_Loop Ex_RK Ex_Frame Ex_Related Ex_Conserve.
Import ListNotations.
Open Scope R_scope.

Section Methods.
  Context {I : Type}.
  Variable w : list (I * R).
  Notation Y := (I -> R).

  (** C77: if drift and diffusion conserve a weighted sum of components, then so do the steps of every solver for
      stochastic equations and of the solvers that carry a memory from step to step. *)
  Theorem C77_euler :
    forall (J C : Type) (trm : term I J C),
    conserving w trm -> method_conserves w (euler trm).
  Proof. exact (pf_C77_euler w). Qed.
  Theorem C77_euler_heun :
    forall (J C J' C' : Type) (drift : term I J C) (diffusion : term I J' C'),
    conserving w drift -> conserving w diffusion -> method_conserves w (euler_heun drift diffusion).
  Proof. exact (pf_C77_euler_heun w). Qed.
  Theorem C77_leapfrog :
    forall (J C : Type) (trm : term I J C),
    conserving w trm -> method_conserves w (leapfrog_midpoint trm).
  Proof. exact (pf_C77_leapfrog w). Qed.
  Theorem C77_reversible_heun :
    forall (J C : Type) (trm : term I J C),
    conserving w trm -> linear_term trm -> method_conserves w (reversible_heun trm).
  Proof. exact (pf_C77_reversible_heun w). Qed.
  Theorem C77_srk :
    forall (J J' K : Type) (tab : stableau) (drift : term I J R) (diffusion : term I J' (K -> R)) (levy : R -> R -> bm_inc K),
    conserving w drift -> conserving w diffusion -> is_additive_noise tab = false \/ linear_term diffusion -> method_conserves w (srk tab drift diffusion levy).
  Proof. exact (pf_C77_srk w). Qed.
  Theorem C77_stratonovich_milstein :
    forall (J C J' C' : Type) (jvp : (Y -> Y) -> Y -> Y -> Y) (drift : term I J C) (diffusion : term I J' C'),
    correct_jvp jvp -> (forall t c y v, exists d, directional (fun z => t_vf_prod diffusion t z c) y v d) ->
    conserving w drift -> conserving w diffusion -> method_conserves w (stratonovich_milstein jvp drift diffusion).
  Proof. exact (pf_C77_stratonovich_milstein w). Qed.
  Theorem C77_ito_milstein :
    forall (J K : Type) (eqb : K -> K -> bool) (ks : list K) (jvp : (Y -> I * K -> R) -> Y -> Y -> I * K -> R) (drift : term I J R) (g : R -> Y -> I * K -> R) (path : R -> R -> K -> R),
    correct_jvp jvp -> (forall t y v, exists d, directional (g t) y v d) ->
    conserving w drift -> conserving w (control_term ks g path) -> method_conserves w (ito_milstein eqb ks jvp drift (control_term ks g path)).
  Proof. exact (pf_C77_ito_milstein w). Qed.
  (** C77: so do two half steps with an error estimate if full steps do. *)
  Theorem C77_half :
    forall (SS : Type) (me : method Y SS (Y * Y)),
    method_conserves w me -> method_conserves w (half_solver me).
  Proof. exact (pf_C77_half w). Qed.
  (** C77: implicit Euler, if its root finder succeeds. *)
  Theorem C77_implicit_euler :
    forall (J C : Type) (root_find : (Y -> Y) -> Y -> Y * RESULTS) (trm : term I J C) (t0 t1 : R) (y : Y) (j : bool),
    (forall f z, is_okay (snd (root_find f z)) = true -> forall x, f (fst (root_find f z)) x = 0) -> conserving w trm ->
    let out := me_step (implicit_euler root_find trm) t0 t1 y tt j in
    is_okay (so_result out) = true -> total w (so_y out) = total w y.
  Proof. exact (pf_C77_implicit_euler w). Qed.
End Methods.
  (** C77: the symplectic Euler method conserves what one half of the equations conserves, such as total momentum. *)
  Theorem C77_semi_implicit :
    forall (I1 I2 C1 C2 : Type) (term_1 : half_term (I2 -> R) (I1 -> R) C1) (term_2 : half_term (I1 -> R) (I2 -> R) C2) (w1 : list (I1 * R)) (w2 : list (I2 * R)) (t0 t1 : R) (y : (I1 -> R) * (I2 -> R)) (j : bool),
    let y1 := so_y (me_step (semi_implicit_euler term_1 term_2) t0 t1 y tt j) in
  ((forall t z c, total w1 (ht_vf_prod term_1 t z c) = 0) -> total w1 (fst y1) = total w1 (fst y)) /\
  ((forall t z c, total w2 (ht_vf_prod term_2 t z c) = 0) -> total w2 (snd y1) = total w2 (snd y)).
  Proof. exact pf_C77_semi_implicit. Qed.

Section Whole.
  Context {I SS CS V MS : Type}.
  Notation Y := (I -> R).
  Notation config := (config Y SS CS (Y * Y) (option Y) V MS).
  Notation initial := (initial Y SS CS MS).
  Notation outcome := (outcome Y SS CS (Y * Y) V MS).
  (** C77: and then a whole solve by such a solver conserves it in the final value, the saved values and the dense output. *)
  Theorem C77_methods :
    forall (c : config) (i : initial) (me : method Y SS (Y * Y)) (time : Z -> R) (w : list (I * R)) (Q : V -> Prop) (o : outcome),
    method_solve c i me time -> method_conserves w me ->
    (forall sub t y, In sub (cfg_subs c) -> total w y = total w (in_y i) -> Q (sub_fn sub t y)) ->
    solves c i o ->
    total w (out_yfinal o) = total w (in_y i) /\
    (forall s v, In s (out_save o) -> In (Some v) (ss_ys s) -> Q v) /\
    (forall d a b t, In (Some d) (st_dense_infos (out_state o)) -> total w (interpolate c a b d t) = total w (in_y i)).
  Proof. exact pf_C77_methods. Qed.
End Whole.

(** A random exchange between two places, by EulerHeun, by ReversibleHeun, by SPaRK and by ItoMilstein; by EulerHeun in
    whole, with rejected steps and dense output. *)
Example C77_traffic :
  let me := euler_heun exchange_term traffic_term in
  method_conserves both me /\ method_conserves both (reversible_heun exchange_term) /\
  (forall levy, method_conserves both (srk spark exchange_term traffic_term levy)) /\
  (forall levy, method_conserves both (srk sra1 exchange_term traffic_term levy)) /\
  (forall jvp, correct_jvp jvp -> method_conserves both (ito_milstein (fun _ _ => true) [tt] jvp exchange_term traffic_term)) /\
  ~ method_conserves [(true, 1)] me /\
  exists o, solves (traffic_cfg me) (traffic_initial me) o /\ out_result o = successful /\ st_num_rejected (out_state o) = 1%nat /\
    out_yfinal o true + out_yfinal o false = 3 /\ forall s v, In s (out_save o) -> In (Some v) (ss_ys s) -> v tt = 3.
Proof.
  cbv zeta. set (me := euler_heun exchange_term traffic_term).
  assert (M : method_conserves both me) by exact (C77_euler_heun both _ _ _ _ _ _ exchange_conserving traffic_conserving).
  split; [exact M|]. split; [exact (C77_reversible_heun both _ _ _ exchange_conserving exchange_linear)|].
  split; [intros levy; exact (C77_srk both _ _ _ spark _ _ levy exchange_conserving traffic_conserving (or_introl eq_refl))|].
  split; [intros levy; exact (C77_srk both _ _ _ sra1 _ _ levy exchange_conserving traffic_conserving (or_intror traffic_linear))|].
  split. { intros jvp HJ. apply (C77_ito_milstein both); [exact HJ| |exact exchange_conserving|exact traffic_conserving]. intros t y v. eexists. apply traffic_directional. }
  split.
  { intros (good & G0 & G). specialize (G 0 1 (fun _ => 1) tt false). specialize (G0 0 1 (fun _ => 1)). destruct (G G0) as (H & _). cbn in H.
    unfold exchange, traffic, traffic_path in H. cbn in H. unfold vadd, vscale in H. cbn in H. lra. }
  destruct (runs (traffic_cfg me) (traffic_initial me) (fun _ o => out_result o = successful /\ st_num_rejected (out_state o) = 1%nat)) as (h & o & RUN & OK & RJ);
    [vm_compute; auto|].
  assert (SO : solves (traffic_cfg me) (traffic_initial me) o) by (apply run_solves; exists h; exact RUN).
  exists o. split; [exact SO|]. split; [exact OK|]. split; [exact RJ|].
  assert (T0 : total both (in_y (traffic_initial me)) = 3) by (unfold total, both, traffic_initial; cbn [fold_right fst snd in_y]; lra).
  destruct (C77_methods (traffic_cfg me) (traffic_initial me) me time_of both (fun v => v tt = 3) o (traffic_solve me) M) as (A & B & _).
  - intros sub t y [<-|[]] T. cbn [sub_fn]. rewrite T0 in T. unfold total, both in T. cbn [fold_right fst snd] in T. lra.
  - exact SO.
  - split; [|exact B]. rewrite T0 in A. unfold total, both in A. cbn [fold_right fst snd] in A. lra.
Qed.

Print Assumptions C77_euler.
Print Assumptions C77_euler_heun.
Print Assumptions C77_leapfrog.
Print Assumptions C77_reversible_heun.
Print Assumptions C77_srk.
Print Assumptions C77_stratonovich_milstein.
Print Assumptions C77_ito_milstein.
Print Assumptions C77_half.
Print Assumptions C77_implicit_euler.
Print Assumptions C77_semi_implicit.
Print Assumptions C77_methods.
