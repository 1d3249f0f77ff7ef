(** Theorems about stochastic Runge--Kutta and Milstein methods: C54. *)
From Coq Require Import Reals List Bool Arith Lia Lra.
From Coquelicot Require Import Coquelicot.
From Verif Require Import Model_Brownian Ex_Levy.
From Verif Require Import Model_Result Model_Loop Model_RK Model_Terms Model_Solvers Model_SRK Spec_SRK.
From Verif Require Import Proof_SRKProps Proof_SRKTest Proof_SRKAdd Ex_SRK.
Import ListNotations.
Open Scope R_scope.

(** C54: a step of a stochastic Runge--Kutta method for general noise solves the documented equations, for every
    tableau that does not use the values of stages it says to ignore; so does its error estimate. *)
  Theorem C54_equations :
    forall (I J J' K : Type) (tab : stableau) (drift : term I J R) (diffusion : term I J' (K -> R)) (levy : R -> R -> bm_inc K) (t0 t1 : R) (y0 : I -> R) (jump : bool),
    spost_init_ok tab = true -> ignored_unused tab -> is_additive_noise tab = false ->
  let n := length (st_b_sol tab) in
  let out := me_step (srk tab drift diffusion levy) t0 t1 y0 tt jump in
  exists f w h k : nat -> I -> R,
    srk_equations tab drift diffusion t0 t1 y0 (levy t0 t1) f w h k /\
    (forall x, so_y out x = y0 x + lin n (entry (st_b_sol tab)) f x + lin n (noise_b (Some (st_coeffs_w tab))) w x
       + lin n (noise_b (st_coeffs_hh tab)) h x + lin n (noise_b (st_coeffs_kk tab)) k x) /\
    so_error out = option_map (fun e => fun x => lin n (entry e) f x + lin n (noise_e (Some (st_coeffs_w tab))) w x
       + lin n (noise_e (st_coeffs_hh tab)) h x + lin n (noise_e (st_coeffs_kk tab)) k x) (st_b_error tab).
  Proof. exact pf_C54_equations. Qed.

(** C54: the same for the methods for additive noise. *)
  Theorem C54_additive_equations :
    forall (I J J' K : Type) (tab : stableau) (drift : term I J R) (diffusion : term I J' (K -> R)) (levy : R -> R -> bm_inc K) (t0 t1 : R) (y0 : I -> R) (jump : bool),
    spost_init_ok tab = true -> ignored_unused tab -> is_additive_noise tab = true ->
  let n := length (st_b_sol tab) in
  let out := me_step (srk tab drift diffusion levy) t0 t1 y0 tt jump in
  let g0 := t_vf diffusion t0 y0 in
  let g1 := t_vf diffusion t1 y0 in
  let w := t_prod diffusion g0 (bm_W (levy t0 t1)) in
  let h := t_prod diffusion g0 (bm_H (levy t0 t1)) in
  let k := t_prod diffusion g0 (bm_K (levy t0 t1)) in
  let area := match st_coeffs_hh tab with
              | Some _ => fun k => bm_W (levy t0 t1) k - 2 * bm_H (levy t0 t1) k | None => bm_W (levy t0 t1) end in
  exists f : nat -> I -> R,
    additive_equations tab drift t0 t1 y0 w h k f /\
    (forall x, so_y out x = y0 x + lin n (entry (st_b_sol tab)) f x + noise_b (Some (st_coeffs_w tab)) 0 * w x
       + noise_b (st_coeffs_hh tab) 0 * h x + noise_b (st_coeffs_kk tab) 0 * k x
       + t_prod diffusion (fun j => 1 / 2 * (g1 j - g0 j)) area x) /\
    so_error out = option_map (fun e => lin n (entry e) f) (st_b_error tab).
  Proof. exact pf_C54_additive_equations. Qed.

(** C54: with no noise a step is the Runge--Kutta step of the drift tableau. *)
  Theorem C54_zero_noise :
    forall (I J K : Type) (tab : stableau) (drift : term I J R) (ks : list K) (path : R -> R -> K -> R) (levy : R -> R -> bm_inc K) (t0 t1 : R) (y0 : I -> R) (jump : bool),
    spost_init_ok tab = true -> ignored_unused tab ->
  let n := length (st_b_sol tab) in
  let out := me_step (srk tab drift (control_term ks (fun _ _ _ => 0) path) levy) t0 t1 y0 tt jump in
  exists f : nat -> I -> R,
    drift_stages tab drift t0 t1 y0 f /\
    (forall x, so_y out x = y0 x + lin n (entry (st_b_sol tab)) f x) /\
    so_error out = option_map (fun e => lin n (entry e) f) (st_b_error tab).
  Proof. exact pf_C54_zero_noise. Qed.

(** C54: with no drift and constant noise [g] a step adds exactly [g W]. *)
  Theorem C54_constant_noise :
    forall (I K : Type) (tab : stableau) (ks : list K) (g : I * K -> R) (path : R -> R -> K -> R) (levy : R -> R -> bm_inc K) (t0 t1 : R) (y0 : I -> R) (jump : bool),
    spost_init_ok tab = true -> ignored_unused tab -> consistent_weights tab ->
  let out := me_step (srk tab (ode_term (fun _ _ _ => 0)) (control_term ks (fun _ _ => g) path) levy) t0 t1 y0 tt jump in
  forall x, so_y out x = y0 x + contract ks g (bm_W (levy t0 t1)) x.
  Proof. exact pf_C54_constant_noise. Qed.

(** C54: the methods for additive noise account for noise that depends on time. *)
  Theorem C54_time_dependent_noise :
    forall (I K : Type) (tab : stableau) (ks : list K) (g : R -> (I -> R) -> I * K -> R) (path : R -> R -> K -> R) (levy : R -> R -> bm_inc K) (t0 t1 : R) (y0 : I -> R) (jump : bool),
    spost_init_ok tab = true -> ignored_unused tab -> consistent_weights tab ->
  is_additive_noise tab = true -> st_coeffs_hh tab <> None ->
  let out := me_step (srk tab (ode_term (fun _ _ _ => 0)) (control_term ks g path) levy) t0 t1 y0 tt jump in
  forall x, so_y out x = y0 x + contract ks (g t0 y0) (bm_W (levy t0 t1)) x
    + contract ks (fun p => g t1 y0 p - g t0 y0 p) (fun k => bm_W (levy t0 t1) k / 2 - bm_H (levy t0 t1) k) x.
  Proof. exact pf_C54_time_dependent_noise. Qed.

(** C54: for noise affine in time, and no drift, this gives the exact integral along every smooth path. *)
  Theorem C54_affine_noise_exact :
    forall (tab : stableau) (alpha beta : R) (X X' : R -> R) (t0 t1 y0 : R) (jump : bool),
    spost_init_ok tab = true -> ignored_unused tab -> consistent_weights tab ->
  is_additive_noise tab = true -> st_coeffs_hh tab <> None ->
  (forall u, is_derive X u (X' u)) -> (forall u, continuous X' u) -> t0 < t1 ->
  let levy s t := BMInc (scalar (inc_W (levy_of X s t))) (scalar (inc_H (levy_of X s t))) (scalar (inc_K (levy_of X s t))) in
  let diffusion := scalar_diffusion (fun t _ => alpha + beta * t) (fun s t => X t - X s) in
  let out := me_step (srk tab (ode_term (fun _ _ _ => 0)) diffusion levy) t0 t1 (scalar y0) tt jump in
  so_y out tt = y0 + RInt (fun u => (alpha + beta * u) * X' u) t0 t1.
  Proof. exact pf_C54_affine_noise_exact. Qed.

(** C54: all tableaus that the library defines meet the assumptions made above. *)
  Theorem C54_shipped :
    forall (tab : stableau),
    In tab [sra1; shark; sea; spark; general_shark; slowrk] ->
  spost_init_ok tab = true /\ ignored_unused tab /\ consistent_weights tab.
  Proof. exact pf_C54_shipped. Qed.
Example C54_instances :
  In slowrk [sra1; shark; sea; spark; general_shark; slowrk] /\
  is_additive_noise slowrk = false /\ ignored (st_ignore_stage_f slowrk) 2 = true /\
  is_additive_noise shark = true /\ st_coeffs_hh shark <> None /\
  (forall u, is_derive (fun u => u ^ 2) u (2 * u)) /\ (forall u, continuous (fun u => 2 * u) u).
Proof.
  split; [cbn; auto 10|]. do 4 (split; [reflexivity || discriminate|]). split; intros u.
  - auto_derive; [auto|ring].
  - apply (ex_derive_continuous (K := R_AbsRing) (V := R_NormedModule)). auto_derive. auto.
Qed.

(** C54: on the equation [dy = lambda y dt + g dX] with additive noise the local error of all tableaus is of order 5/2 in
    the step size, [X] being of the order of its square root; that of [SEA] is of order 2. *)
  Theorem C54_additive_noise :
    forall (tab : stableau) (w : nat),
    In (tab, w) [(sra1, 5%nat); (shark, 5%nat); (sea, 4%nat); (spark, 5%nat); (general_shark, 5%nat); (slowrk, 5%nat)] ->
  exists C, forall lambda g (X y : R -> R) t0 t1 K rho jump,
    t0 < t1 -> (forall u, continuous X u) -> (forall u, continuous y u) ->
    (forall t, t0 <= t <= t1 -> y t = y t0 + lambda * RInt y t0 t + g * (X t - X t0)) ->
    0 <= rho <= 1 -> Rabs (lambda * (t1 - t0)) <= rho ^ 2 ->
    (forall t, t0 <= t <= t1 -> Rabs (g * (X t - X t0)) <= rho) ->
    let drift := scalar_drift (fun _ y => lambda * y) in
    let diffusion := scalar_diffusion (fun _ _ => g) (fun s t => X t - X s) in
    let levy s t := BMInc (scalar (inc_W (levy_of X s t))) (scalar (inc_H (levy_of X s t))) (scalar K) in
    let out := me_step (srk tab drift diffusion levy) t0 t1 (scalar (y t0)) tt jump in
    Rabs (so_y out tt - y t1) <= C * rho ^ w * (Rabs (y t0) + 1).
  Proof. exact pf_C54_additive_noise. Qed.
Example C54_additive_noise_instance :
  (forall u, continuous ex_ou u) /\ (forall u : R, continuous (fun t => t) u) /\
  (forall t, 0 <= t <= 1 -> ex_ou t = ex_ou 0 + 1 / 4 * RInt ex_ou 0 t + 1 / 4 * (t - 0)) /\
  Rabs (1 / 4 * (1 - 0)) <= (1 / 2) ^ 2 /\ (forall t, 0 <= t <= 1 -> Rabs (1 / 4 * (t - 0)) <= 1 / 2).
Proof.
  split; [exact ex_ou_continuous|]. split; [intros; apply continuous_id|]. split; [intros; apply ex_ou_solves|].
  split; [rewrite Rabs_pos_eq; lra|]. intros t Ht. rewrite Rabs_pos_eq; lra.
Qed.

(** C54: on the equation [dy = lambda y dt + sigma y o dW] the local error is of order 3/2; that of [SlowRK] is of order 2. *)
  Theorem C54_multiplicative_noise :
    forall (tab : stableau) (w : nat),
    In (tab, w) [(spark, 3%nat); (general_shark, 3%nat); (slowrk, 4%nat)] ->
  exists C, forall lambda sigma W H K t0 t1 y0 rho jump,
    0 <= rho <= 1 -> Rabs (lambda * (t1 - t0)) <= rho ^ 2 -> Rabs (sigma * W) <= rho -> Rabs (sigma * H) <= rho ->
    let drift := scalar_drift (fun _ y => lambda * y) in
    let diffusion := scalar_diffusion (fun _ y => sigma * y) (fun _ _ => W) in
    let out := me_step (srk tab drift diffusion (scalar_levy W H K)) t0 t1 (scalar y0) tt jump in
    Rabs (so_y out tt - y0 * exp (lambda * (t1 - t0) + sigma * W)) <= C * rho ^ w * Rabs y0.
  Proof. exact pf_C54_multiplicative_noise. Qed.

(** C54: the same for [EulerHeun] and [StratonovichMilstein], and for [ItoMilstein] on the Ito equation
    [dy = lambda y dt + sigma y dW]. *)
  Theorem C54_milstein :
    forall (jvp : ((unit -> R) -> unit -> R) -> (unit -> R) -> (unit -> R) -> unit -> R) (jvp' : ((unit -> R) -> unit * unit -> R) -> (unit -> R) -> (unit -> R) -> unit * unit -> R),
    correct_jvp jvp -> correct_jvp jvp' ->
  exists C, forall lambda sigma W t0 t1 y0 rho jump,
    0 <= rho <= 1 -> Rabs (lambda * (t1 - t0)) <= rho ^ 2 -> Rabs (sigma * W) <= rho ->
    let drift := scalar_drift (fun _ y => lambda * y) in
    let diffusion := scalar_diffusion (fun _ y => sigma * y) (fun _ _ => W) in
    let euler := so_y (me_step (euler_heun drift diffusion) t0 t1 (scalar y0) tt jump) tt in
    let strat := so_y (me_step (stratonovich_milstein jvp drift diffusion) t0 t1 (scalar y0) tt jump) tt in
    let ito := so_y (me_step (ito_milstein (fun _ _ => true) [tt] jvp' drift diffusion) t0 t1 (scalar y0) tt jump) tt in
    Rabs (euler - y0 * exp (lambda * (t1 - t0) + sigma * W)) <= C * rho ^ 3 * Rabs y0 /\
    Rabs (strat - y0 * exp (lambda * (t1 - t0) + sigma * W)) <= C * rho ^ 3 * Rabs y0 /\
    (sigma ^ 2 * Rabs (t1 - t0) <= rho ^ 2 ->
     Rabs (ito - y0 * exp ((lambda - sigma ^ 2 / 2) * (t1 - t0) + sigma * W)) <= C * rho ^ 3 * Rabs y0).
  Proof. exact pf_C54_milstein. Qed.

(** C54: [ItoMilstein] is [StratonovichMilstein] with the Ito--Stratonovich correction of the drift, for all vector
    fields in all dimensions. *)
  Theorem C54_ito_stratonovich :
    forall (I K : Type) (eqb : K -> K -> bool) (ks : list K) (f : R -> (I -> R) -> I -> R) (g : R -> (I -> R) -> I * K -> R) (Dg : R -> (I -> R) -> (I -> R) -> I * K -> R) (path : R -> R -> K -> R) (jvp : ((I -> R) -> I -> R) -> (I -> R) -> (I -> R) -> I -> R) (jvp' : ((I -> R) -> I * K -> R) -> (I -> R) -> (I -> R) -> I * K -> R) (t0 t1 : R) (y0 : I -> R) (jump : bool),
    (forall a b, eqb a b = true <-> a = b) -> NoDup ks ->
  (forall t y v, directional (g t) y v (Dg t y v)) ->
  (forall t y a b v w p, Dg t y (fun i => a * v i + b * w i) p = a * Dg t y v p + b * Dg t y w p) ->
  correct_jvp jvp -> correct_jvp jvp' ->
  let column t y k := fun i => g t y (i, k) in
  let corrected t y := fun i => f t y i - 1 / 2 * sum_over ks (fun k => Dg t y (column t y k) (i, k)) in
  forall x, so_y (me_step (ito_milstein eqb ks jvp' (ode_term f) (control_term ks g path)) t0 t1 y0 tt jump) x
          = so_y (me_step (stratonovich_milstein jvp (ode_term corrected) (control_term ks g path)) t0 t1 y0 tt jump) x.
  Proof. exact pf_C54_ito_stratonovich. Qed.
Example C54_milstein_instance :
  correct_jvp (@ex_jvp unit unit) /\ correct_jvp (@ex_jvp unit (unit * unit)) /\
  correct_jvp (@ex_jvp bool bool) /\ correct_jvp (@ex_jvp bool (bool * bool)) /\
  (forall a b, Bool.eqb a b = true <-> a = b) /\ NoDup [true; false] /\
  (forall t y v, directional (ex_g t) y v (ex_Dg t y v)) /\
  (forall t y a b v w p, ex_Dg t y (fun i => a * v i + b * w i) p = a * ex_Dg t y v p + b * ex_Dg t y w p).
Proof.
  do 4 (split; [apply ex_jvp_correct|]). split; [exact Bool.eqb_true_iff|]. split.
  { constructor; [cbn; intros [H|[]]; discriminate|]. constructor; [auto|constructor]. }
  split; [exact ex_Dg_directional|]. intros t y a b v w [[|] [|]]; cbn; ring.
Qed.

Print Assumptions C54_equations.
Print Assumptions C54_additive_equations.
Print Assumptions C54_zero_noise.
Print Assumptions C54_constant_noise.
Print Assumptions C54_time_dependent_noise.
Print Assumptions C54_affine_noise_exact.
Print Assumptions C54_shipped.
Print Assumptions C54_additive_noise.
Print Assumptions C54_multiplicative_noise.
Print Assumptions C54_milstein.
Print Assumptions C54_ito_stratonovich.
