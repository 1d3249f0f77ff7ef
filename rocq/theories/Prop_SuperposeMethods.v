(** Theorems about superposition with solvers other than Runge--Kutta methods: C81. *)
From Coq Require Import ZArith Reals List Bool Arith Lia Lra FunctionalExtensionality.
From Verif Require Import Model_Result Model_Loop Model_RK Model_Terms Model_Solvers Model_SRK Model_Interp Spec_Loop Spec_RK Spec_SRK
  Spec_Conserve Spec_Superpose Spec_SuperposeMethods Proof_PropLoop Proof_SuperposeMethods Ex_Loop Ex_RK Ex_Frame Ex_Related Ex_Conserve Ex_SuperposeMethods.
Import ListNotations.
Open Scope R_scope.

Section Methods.
  Context {I : Type}.
  Variables a b : R.
  Notation Y := (I -> R).

  (** C81: if drift and diffusion are linear, then so are the steps of the solvers for stochastic equations and of those
      that carry a memory from step to step. *)
  Theorem C81_euler :
    forall (J C : Type) (trm : term I J C),
    superposing a b trm -> method_superposes a b (euler trm).
  Proof. exact (pf_C81_euler a b). Qed.
  Theorem C81_euler_heun :
    forall (J C J' C' : Type) (drift : term I J C) (diffusion : term I J' C'),
    superposing a b drift -> superposing a b diffusion -> method_superposes a b (euler_heun drift diffusion).
  Proof. exact (pf_C81_euler_heun a b). Qed.
  Theorem C81_leapfrog :
    forall (J C : Type) (trm : term I J C),
    superposing a b trm -> method_superposes a b (leapfrog_midpoint trm).
  Proof. exact (pf_C81_leapfrog a b). Qed.
  Theorem C81_reversible_heun :
    forall (J C : Type) (trm : term I J C),
    superposing a b trm -> linear_term trm -> method_superposes a b (reversible_heun trm).
  Proof. exact (pf_C81_reversible_heun a b). Qed.
  Theorem C81_srk :
    forall (J J' K : Type) (tab : stableau) (drift : term I J R) (diffusion : term I J' (K -> R)) (levy : R -> R -> bm_inc K),
    superposing a b drift -> superposing a b diffusion -> is_additive_noise tab = false \/ linear_term diffusion -> method_superposes a b (srk tab drift diffusion levy).
  Proof. exact (pf_C81_srk a b). Qed.
  Theorem C81_stratonovich_milstein :
    forall (J C J' C' : Type) (jvp : (Y -> Y) -> Y -> Y -> Y) (drift : term I J C) (diffusion : term I J' C'),
    correct_jvp jvp -> (forall t c y v, exists d, directional (fun z => t_vf_prod diffusion t z c) y v d) ->
    superposing a b drift -> superposing a b diffusion -> method_superposes a b (stratonovich_milstein jvp drift diffusion).
  Proof. exact (pf_C81_stratonovich_milstein a b). Qed.
  Theorem C81_ito_milstein :
    forall (J K : Type) (eqb : K -> K -> bool) (ks : list K) (jvp : (Y -> I * K -> R) -> Y -> Y -> I * K -> R) (drift : term I J R) (g : R -> Y -> I * K -> R) (path : R -> R -> K -> R),
    correct_jvp jvp -> (forall t y v, exists d, directional (g t) y v d) ->
    superposing a b drift -> superposing a b (control_term ks g path) -> method_superposes a b (ito_milstein eqb ks jvp drift (control_term ks g path)).
  Proof. exact (pf_C81_ito_milstein a b). Qed.
  (** C81: so are two half steps with an error estimate if full steps are. *)
  Theorem C81_half :
    forall (SS : Type) (me : method Y SS (Y * Y)),
    method_superposes a b me -> method_superposes a b (half_solver me).
  Proof. exact (pf_C81_half a b). Qed.
End Methods.

Section Whole.
  Context {I SS CS V MS : Type}.
  Notation Y := (I -> R).
  Notation DI := (Y * Y)%type.
  Notation config := (config Y SS CS DI (option Y) V MS).
  Notation initial := (initial Y SS CS MS).
  Notation outcome := (outcome Y SS CS DI V MS).
  (** C81: whole solves with such a solver, on the same path of the noise. *)
  Theorem C81_methods :
    forall (a b : R) (c : config) (i1 i2 i3 : initial) (me : method Y SS DI) (time : Z -> R) (RV : V -> V -> V -> Prop) (o1 : outcome),
    method_solve c i1 me time -> method_solve c i2 me time -> method_solve c i3 me time ->
    method_superposes a b me -> value_free c -> cfg_event c = None ->
    (forall sub t y z, In sub (cfg_subs c) -> RV (sub_fn sub t y) (sub_fn sub t z) (sub_fn sub t (mix a b y z))) ->
    in_y i3 = mix a b (in_y i1) (in_y i2) ->
    (forall i, In i [i1; i2] -> in_tnext i = in_tnext i3 /\ in_made_jump i = in_made_jump i3 /\ in_controller_state i = in_controller_state i3 /\ in_pad i = in_pad i3) ->
    solves c i1 o1 ->
    exists o2 o3, solves c i2 o2 /\ solves c i3 o3 /\ outcomes_mix a b RV c o1 o2 o3.
  Proof. exact pf_C81_methods. Qed.
End Whole.

(** Linear exchange with linear noise, by EulerHeun in whole, with rejected steps; single steps of other methods. With the noise
    of [C77_traffic], which is not linear, the hypothesis fails. *)
Example C81_noise :
  let me := euler_heun exchange_term drain_term in
  (forall a b, method_superposes a b me) /\ (forall a b, method_superposes a b (reversible_heun exchange_term)) /\
  (forall a b levy, method_superposes a b (srk spark exchange_term drain_term levy)) /\
  (forall a b levy, method_superposes a b (srk sra1 exchange_term drain_term levy)) /\
  (forall a b jvp, correct_jvp jvp -> method_superposes a b (ito_milstein (fun _ _ => true) [tt] jvp exchange_term drain_term)) /\
  (exists o1 o2 o3, solves (traffic_cfg me) (drain_initial me 1 0) o1 /\ solves (traffic_cfg me) (drain_initial me 0 1) o2 /\
    solves (traffic_cfg me) (drain_initial me 3 (-2)) o3 /\ out_result o3 = successful /\ st_num_rejected (out_state o1) = 1%nat /\
    forall p, out_yfinal o3 p = 3 * out_yfinal o1 p - 2 * out_yfinal o2 p) /\
  ~ superposing 2 0 traffic_term /\ ~ method_superposes 2 0 (euler traffic_term).
Proof.
  cbv zeta. set (me := euler_heun exchange_term drain_term).
  assert (M : forall a b, method_superposes a b me) by exact (fun a b => C81_euler_heun a b _ _ _ _ _ _ (exchange_superposing a b) (drain_superposing a b)).
  split; [exact M|]. split; [intros a b; exact (C81_reversible_heun a b _ _ _ (exchange_superposing a b) exchange_linear)|].
  split; [intros a b levy; exact (C81_srk a b _ _ _ spark _ _ levy (exchange_superposing a b) (drain_superposing a b) (or_introl eq_refl))|].
  split; [intros a b levy; exact (C81_srk a b _ _ _ sra1 _ _ levy (exchange_superposing a b) (drain_superposing a b) (or_intror drain_linear))|].
  split. { intros a b jvp HJ. apply (C81_ito_milstein a b); [exact HJ| |apply exchange_superposing|apply drain_superposing]. intros t y v. eexists. apply drain_directional. }
  split.
  - destruct (runs (traffic_cfg me) (drain_initial me 1 0) (fun _ o => out_result o = successful /\ st_num_rejected (out_state o) = 1%nat)) as (h & o1 & RUN & OK & RJ);
      [vm_compute; auto|].
    assert (SO : solves (traffic_cfg me) (drain_initial me 1 0) o1) by (apply run_solves; exists h; exact RUN).
    destruct (C81_methods 3 (-2) (traffic_cfg me) (drain_initial me 1 0) (drain_initial me 0 1) (drain_initial me 3 (-2)) me time_of
                (fun v1 v2 v3 => v3 tt = 3 * v1 tt - 2 * v2 tt) o1) as (o2 & o3 & S2 & S3 & YF & _ & _ & SAME).
    + apply drain_solve.
    + apply drain_solve.
    + apply drain_solve.
    + apply M.
    + intros t0 t1 y y' y1 y1' e e' s. reflexivity.
    + reflexivity.
    + intros sub t y z [<-|[]]. cbn [sub_fn]. unfold mix. ring.
    + extensionality p. unfold drain_initial, mix. cbn [in_y]. destruct p; ring.
    + intros j [<-|[<-|[]]]; repeat split; reflexivity.
    + exact SO.
    + exists o1, o2, o3. do 3 (split; [assumption|]). split; [rewrite <- OK; symmetry; apply (SAME o1 (or_introl eq_refl))|]. split; [exact RJ|].
      intros p. rewrite YF. unfold mix. ring.
  - split; [apply traffic_not_superposing|]. intros (good & G0 & G).
    destruct (G 0 1 (fun _ => 1) (fun _ => 1) tt tt tt false (G0 0 1 (fun _ => 1) (fun _ => 1))) as (H & _).
    apply (f_equal (fun f => f true)) in H. unfold mix in H. cbn in H. unfold traffic, traffic_path, mix, vadd in H. cbn in H. lra.
Qed.

Print Assumptions C81_euler.
Print Assumptions C81_euler_heun.
Print Assumptions C81_leapfrog.
Print Assumptions C81_reversible_heun.
Print Assumptions C81_srk.
Print Assumptions C81_stratonovich_milstein.
Print Assumptions C81_ito_milstein.
Print Assumptions C81_half.
Print Assumptions C81_methods.
