(** Theorems about strong order one of the Milstein methods, and of [Euler] for additive noise: C72. *)
From Coq Require Import ZArith Reals List Bool Lra Lia.
From Verif Require Import Model_Result Model_Loop Model_RK Model_Terms Model_Solvers Model_SRK.
From Verif Require Import Spec_Loop Spec_Solvers Spec_SRK Spec_Strong Spec_StrongEuler Spec_Milstein Proof_MilsteinProps Ex_Strong Ex_SRK Ex_Milstein.
Import ListNotations.
Open Scope R_scope.

(** C72: [ItoMilstein], with noise of any dimension that is commutative, to the solution of the Ito equation: after steps of at most [H] the
    mean-square distance is at most a multiple of its value at the start, and of [H^2]. *)
  Theorem C72_ito :
    forall (I K : Type) (is : list I) (ks : list K) (eqb : K -> K -> bool) (jvp : ((I -> R) -> I * K -> R) -> (I -> R) -> (I -> R) -> I * K -> R) (f : R -> (I -> R) -> (I -> R)) (g : R -> (I -> R) -> (I * K -> R)) (Dg : R -> (I -> R) -> (I -> R) -> (I * K -> R)) (t0 t1 L M : R),
    NoDup ks -> (forall k l, eqb k l = true <-> k = l) -> correct_jvp jvp -> differential g Dg -> commutative ks g Dg ->
  t0 <= t1 -> 0 <= L -> 0 <= M -> milstein_lipschitz is ks t0 t1 L f g Dg ->
  exists C, 0 <= C /\
  forall (Omega : Type) (P : space Omega) (times : R -> Prop) (W : Omega -> R -> K -> R) (J : Omega -> R -> R -> K -> K -> R)
         (x : R -> Omega -> I -> R) (y0 : Omega -> I -> R) (ts : list R) (H : R),
  probability P -> brownian P ks times W -> fourth_moments P ks times W -> ito_integrals ks times W J ->
  taylor_solution P is ks times f g Dg W J x M -> known_vector P is t0 y0 ->
  0 <= H -> grid t0 ts H -> last ts t0 <= t1 -> (forall t, In t (t0 :: ts) -> times t) ->
  mean_square P is (fun w i => value (fun w => ito_milstein eqb ks jvp (ode_term f) (dW_term ks g (W w))) t0 ts y0 w i - x (last ts t0) w i)
  <= C * (mean_square P is (fun w i => y0 w i - x t0 w i) + H ^ 2).
  Proof. exact pf_C72_ito. Qed.
Example C72_ito_instance :
  NoDup [tt] /\ correct_jvp (@ex_jvp unit (unit * unit)) /\ differential gbm_g gbm_Dg /\ commutative [tt] gbm_g gbm_Dg /\
  milstein_lipschitz [tt] [tt] 0 2 2 gbm_f gbm_g gbm_Dg /\ probability coin_space /\ brownian coin_space [tt] coin_times walk /\
  fourth_moments coin_space [tt] coin_times walk /\ ito_integrals [tt] coin_times walk ito_J /\
  taylor_solution coin_space [tt] [tt] coin_times gbm_f gbm_g gbm_Dg walk ito_J gbm_x 1 /\
  known_vector coin_space [tt] 0 (fun _ _ => 2) /\ grid 0 [1; 2] 1 /\ (forall t, In t [0; 1; 2] -> coin_times t).
Proof.
  split; [repeat constructor; auto|]. split; [apply ex_jvp_correct|]. split; [exact gbm_differential|]. split; [exact gbm_commutative|].
  split; [apply gbm_milstein_lipschitz|]. split; [exact coin_probability|]. split; [exact coin_brownian|]. split; [exact coin_moments|].
  split; [exact ito_J_ok|]. split; [exact gbm_taylor|]. split; [intros i _; apply (known_const _ coin_probability)|].
  split; [cbn; lra|]. intros t [<-|[<-|[<-|[]]]]; unfold coin_times; auto.
Qed.
(** Diagonal noise with two components meets the hypotheses on the equation. *)
Example C72_commutative_instance :
  differential diagonal_g diagonal_Dg /\ commutative [true; false] diagonal_g diagonal_Dg /\
  milstein_lipschitz [true; false] [true; false] 0 1 2 (fun _ _ _ => 0) diagonal_g diagonal_Dg.
Proof. exact diagonal_noise. Qed.

(** C72: [StratonovichMilstein], to the solution of the Stratonovich equation. *)
  Theorem C72_stratonovich :
    forall (I K : Type) (is : list I) (ks : list K) (eqb : K -> K -> bool) (jvp : ((I -> R) -> I -> R) -> (I -> R) -> (I -> R) -> I -> R) (f : R -> (I -> R) -> (I -> R)) (g : R -> (I -> R) -> (I * K -> R)) (Dg : R -> (I -> R) -> (I -> R) -> (I * K -> R)) (t0 t1 L M : R),
    NoDup ks -> (forall k l, eqb k l = true <-> k = l) -> correct_jvp jvp -> differential g Dg -> commutative ks g Dg ->
  t0 <= t1 -> 0 <= L -> 0 <= M -> milstein_lipschitz is ks t0 t1 L f g Dg ->
  exists C, 0 <= C /\
  forall (Omega : Type) (P : space Omega) (times : R -> Prop) (W : Omega -> R -> K -> R) (J : Omega -> R -> R -> K -> K -> R)
         (x : R -> Omega -> I -> R) (y0 : Omega -> I -> R) (ts : list R) (H : R),
  probability P -> brownian P ks times W -> fourth_moments P ks times W -> stratonovich_integrals ks times W J ->
  taylor_solution P is ks times f g Dg W J x M -> known_vector P is t0 y0 ->
  0 <= H -> grid t0 ts H -> last ts t0 <= t1 -> (forall t, In t (t0 :: ts) -> times t) ->
  mean_square P is (fun w i => value (fun w => stratonovich_milstein jvp (ode_term f) (dW_term ks g (W w))) t0 ts y0 w i - x (last ts t0) w i)
  <= C * (mean_square P is (fun w i => y0 w i - x t0 w i) + H ^ 2).
  Proof. exact pf_C72_stratonovich. Qed.
Example C72_stratonovich_instance :
  NoDup [tt] /\ correct_jvp (@ex_jvp unit unit) /\ differential gbm_g gbm_Dg /\ commutative [tt] gbm_g gbm_Dg /\
  milstein_lipschitz [tt] [tt] 0 2 2 gbm_f gbm_g gbm_Dg /\ probability coin_space /\ brownian coin_space [tt] coin_times walk /\
  fourth_moments coin_space [tt] coin_times walk /\ stratonovich_integrals [tt] coin_times walk stratonovich_J /\
  taylor_solution coin_space [tt] [tt] coin_times gbm_f gbm_g gbm_Dg walk stratonovich_J strat_x 1 /\
  known_vector coin_space [tt] 0 (fun _ _ => 2) /\ grid 0 [1; 2] 1 /\ (forall t, In t [0; 1; 2] -> coin_times t).
Proof.
  split; [repeat constructor; auto|]. split; [apply ex_jvp_correct|]. split; [exact gbm_differential|]. split; [exact gbm_commutative|].
  split; [apply gbm_milstein_lipschitz|]. split; [exact coin_probability|]. split; [exact coin_brownian|]. split; [exact coin_moments|].
  split; [exact stratonovich_J_ok|]. split; [exact strat_taylor|]. split; [intros i _; apply (known_const _ coin_probability)|].
  split; [cbn; lra|]. intros t [<-|[<-|[<-|[]]]]; unfold coin_times; auto.
Qed.

(** C72: [Euler], if the diffusion does not depend on the state. *)
  Theorem C72_additive :
    forall (I K : Type) (is : list I) (ks : list K) (f : R -> (I -> R) -> (I -> R)) (g : R -> I * K -> R) (t0 t1 L M : R),
    t0 <= t1 -> 0 <= L -> 0 <= M ->
  (forall s x y, t0 <= s <= t1 -> total is (fun i => (f s x i - f s y i) ^ 2) <= L * total is (fun i => (x i - y i) ^ 2)) ->
  exists C, 0 <= C /\
  forall (Omega : Type) (P : space Omega) (times : R -> Prop) (W : Omega -> R -> K -> R) (x : R -> Omega -> I -> R) (y0 : Omega -> I -> R)
         (ts : list R) (H : R),
  probability P -> brownian P ks times W ->
  taylor_solution P is ks times f (fun t _ => g t) (fun _ _ _ _ => 0) W (fun _ _ _ _ _ => 0) x M -> known_vector P is t0 y0 ->
  0 <= H -> grid t0 ts H -> last ts t0 <= t1 -> (forall t, In t (t0 :: ts) -> times t) ->
  mean_square P is (fun w i => value (fun w => euler (sde_term ks f (fun t _ => g t) (W w))) t0 ts y0 w i - x (last ts t0) w i)
  <= C * (mean_square P is (fun w i => y0 w i - x t0 w i) + H ^ 2).
  Proof. exact pf_C72_additive. Qed.
Example C72_additive_instance :
  probability coin_space /\ brownian coin_space [tt] coin_times walk /\
  taylor_solution coin_space [tt] [tt] coin_times gbm_f (fun _ _ _ => 1) (fun _ _ _ _ => 0) walk (fun _ _ _ _ _ => 0) (fun t w k => walk w t k) 1 /\
  known_vector coin_space [tt] 0 (fun _ _ => 2) /\ grid 0 [1; 2] 1 /\ (forall t, In t [0; 1; 2] -> coin_times t).
Proof.
  split; [exact coin_probability|]. split; [exact coin_brownian|]. split; [exact additive_taylor|].
  split; [intros i _; apply (known_const _ coin_probability)|].
  split; [cbn; lra|]. intros t [<-|[<-|[<-|[]]]]; unfold coin_times; auto.
Qed.

(** C72: the same for whole solves by the Milstein methods. *)
  Theorem C72_solve :
    forall (I K : Type) (is : list I) (ks : list K) (eqb : K -> K -> bool) (jvp_ito : ((I -> R) -> I * K -> R) -> (I -> R) -> (I -> R) -> I * K -> R) (jvp_stratonovich : ((I -> R) -> I -> R) -> (I -> R) -> (I -> R) -> I -> R) (f : R -> (I -> R) -> (I -> R)) (g : R -> (I -> R) -> (I * K -> R)) (Dg : R -> (I -> R) -> (I -> R) -> (I * K -> R)) (t0 t1 L M : R),
    NoDup ks -> (forall k l, eqb k l = true <-> k = l) -> correct_jvp jvp_ito -> correct_jvp jvp_stratonovich -> differential g Dg -> commutative ks g Dg ->
  t0 <= t1 -> 0 <= L -> 0 <= M -> milstein_lipschitz is ks t0 t1 L f g Dg ->
  exists C, 0 <= C /\
  forall (Omega CS V MS : Type) (P : space Omega) (times : R -> Prop) (W : Omega -> R -> K -> R) (J : Omega -> R -> R -> K -> K -> R)
         (x : R -> Omega -> I -> R) (m : Omega -> method (I -> R) unit ((I -> R) * (I -> R)))
         (c : Omega -> config (I -> R) unit CS ((I -> R) * (I -> R)) (option (I -> R)) V MS) (i : Omega -> initial (I -> R) unit CS MS)
         (h : Omega -> list (attempt (I -> R))) (o : Omega -> outcome (I -> R) unit CS ((I -> R) * (I -> R)) V MS)
         (time : Z -> R) (ts : list R) (H : R),
  probability P -> brownian P ks times W -> fourth_moments P ks times W ->
  ito_integrals ks times W J /\ m = (fun w => ito_milstein eqb ks jvp_ito (ode_term f) (dW_term ks g (W w))) \/
  stratonovich_integrals ks times W J /\ m = (fun w => stratonovich_milstein jvp_stratonovich (ode_term f) (dW_term ks g (W w))) ->
  taylor_solution P is ks times f g Dg W J x M ->
  (forall w, method_run (c w) (i w) (h w) (o w) (m w) time t0 ts (x t0 w)) -> (forall w, time (cfg_t1 (c w)) = t1) ->
  0 <= H -> grid t0 ts H -> (forall t, In t (t0 :: ts) -> times t) ->
  mean_square P is (fun w k => out_yfinal (o w) k - x t1 w k) <= C * H ^ 2.
  Proof. exact pf_C72_solve. Qed.
Example C72_solve_instance :
  (forall w, coin_time (cfg_t1 (method_cfg (coin_ito w))) = 2 /\ coin_time (cfg_t1 (method_cfg (coin_strat w))) = 2) /\
  (forall w, exists h o, method_run (method_cfg (coin_ito w)) (Initial (gbm_x 0 w) 500%Z false tt 0%nat tt PInf) h o (coin_ito w) coin_time 0 [1; 2] (gbm_x 0 w)) /\
  (forall w, exists h o, method_run (method_cfg (coin_strat w)) (Initial (strat_x 0 w) 500%Z false tt 0%nat tt PInf) h o (coin_strat w) coin_time 0 [1; 2] (strat_x 0 w)).
Proof.
  split; [intros w; unfold coin_time; cbn; lra|]. split; intros w; [apply ito_run|apply strat_run].
Qed.

Print Assumptions C72_ito.
Print Assumptions C72_stratonovich.
Print Assumptions C72_additive.
Print Assumptions C72_solve.
