(** Theorems about the mean-square error of [Euler] on stochastic differential equations: C71. *)
From Coq Require Import ZArith Reals List Bool Lra Lia.
From Verif Require Import Model_Result Model_Loop Model_RK Model_Terms Model_Solvers.
From Verif Require Import Spec_Loop Spec_Solvers Spec_Strong Spec_StrongEuler Proof_StrongProps Ex_Strong.
Import ListNotations.
Open Scope R_scope.

(** C71: strong order 1/2, to the solution of the Ito equation: after steps of at most [H] the mean-square distance
    from the solution is at most a multiple of its value at the start, and of [H].  The multiple does not depend on the grid,
    the Brownian motion or the initial value. *)
  Theorem C71_ito :
    forall (I K : Type) (is : list I) (ks : list K) (f : R -> (I -> R) -> (I -> R)) (g : R -> (I -> R) -> (I * K -> R)) (t0 t1 L M : R),
    NoDup ks -> t0 <= t1 -> 0 <= L -> 0 <= M -> ito_lipschitz is ks t0 t1 L f g ->
  exists C, 0 <= C /\
  forall (Omega : Type) (P : space Omega) (times : R -> Prop) (W : Omega -> R -> K -> R) (x : R -> Omega -> I -> R) (y0 : Omega -> I -> R)
         (ts : list R) (H : R),
  probability P -> brownian P ks times W -> ito_solution P is ks times f g W x M -> known_vector P is t0 y0 ->
  0 <= H -> grid t0 ts H -> last ts t0 <= t1 -> (forall t, In t (t0 :: ts) -> times t) ->
  mean_square P is (fun w i => euler_value ks f g W t0 ts y0 w i - x (last ts t0) w i)
  <= C * (mean_square P is (fun w i => y0 w i - x t0 w i) + H).
  Proof. exact pf_C71_ito. Qed.
(** [dy = y dW], driven by two tosses of a coin, and started at the wrong value 2: the first step is one of two *)
Example C71_ito_instance :
  NoDup [tt] /\ ito_lipschitz [tt] [tt] 0 2 1 gbm_f gbm_g /\ probability coin_space /\ brownian coin_space [tt] coin_times walk /\
  ito_solution coin_space [tt] [tt] coin_times gbm_f gbm_g walk gbm_x 1 /\ known_vector coin_space [tt] 0 (fun _ _ => 2) /\
  grid 0 [1; 2] 1 /\ (forall t, In t [0; 1; 2] -> coin_times t) /\
  mean_square coin_space [tt] (fun w i => gbm_x 2 w i - gbm_x 0 w i) = 3.
Proof.
  split; [repeat constructor; auto|]. split; [apply gbm_lipschitz|]. split; [exact coin_probability|]. split; [exact coin_brownian|].
  split; [exact gbm_solution|]. split; [intros i _; apply (known_const _ coin_probability)|].
  split; [cbn; lra|]. split; [intros t [<-|[<-|[<-|[]]]]; unfold coin_times; auto|].
  unfold mean_square. cbn [total fold_right mean coin_space]. rewrite !gbm_x2, !gbm_x0. cbn [fst snd sgn]. field.
Qed.

(** C71: halving (or otherwise refining) the steps changes the result by at most the square root of a multiple of the coarsest step,
    also if nothing is known about the solution: the results of finer and finer grids are Cauchy in mean square. *)
  Theorem C71_refinement :
    forall (I K : Type) (is : list I) (ks : list K) (f : R -> (I -> R) -> (I -> R)) (g : R -> (I -> R) -> (I * K -> R)) (t0 t1 L B : R),
    NoDup ks -> t0 <= t1 -> 0 <= L -> ito_lipschitz is ks t0 t1 L f g ->
  exists C, 0 <= C /\
  forall (Omega : Type) (P : space Omega) (times : R -> Prop) (W : Omega -> R -> K -> R) (y0 : Omega -> I -> R) (coarse fine : list R) (H : R),
  probability P -> brownian P ks times W -> known_vector P is t0 y0 -> mean_square P is y0 <= B ->
  0 <= H -> grid t0 coarse H -> grid t0 fine H -> refines coarse fine -> last fine t0 <= t1 -> (forall t, In t (t0 :: coarse ++ fine) -> times t) ->
  mean_square P is (fun w i => euler_value ks f g W t0 coarse y0 w i - euler_value ks f g W t0 fine y0 w i) <= C * H.
  Proof. exact pf_C71_refinement. Qed.
(** One step of two time units, and two of one *)
Example C71_refinement_instance :
  NoDup [tt] /\ ito_lipschitz [tt] [tt] 0 2 1 gbm_f gbm_g /\ probability coin_space /\ brownian coin_space [tt] coin_times walk /\
  known_vector coin_space [tt] 0 (fun _ _ => 1) /\ mean_square coin_space [tt] (fun _ _ => 1) <= 1 /\
  grid 0 [2] 2 /\ grid 0 [1; 2] 2 /\ refines [2] [1; 2] /\ (forall t, In t [0; 2; 1; 2] -> coin_times t) /\
  mean_square coin_space [tt]
    (fun w i => euler_value [tt] gbm_f gbm_g walk 0 [2] (fun _ _ => 1) w i - euler_value [tt] gbm_f gbm_g walk 0 [1; 2] (fun _ _ => 1) w i) = 1.
Proof.
  split; [repeat constructor; auto|]. split; [apply gbm_lipschitz|]. split; [exact coin_probability|]. split; [exact coin_brownian|].
  split; [intros i _; apply (known_const _ coin_probability)|]. split; [unfold mean_square; cbn; lra|].
  split; [cbn; lra|]. split; [cbn; lra|]. split; [repeat constructor|].
  split; [intros t [<-|[<-|[<-|[<-|[]]]]]; unfold coin_times; auto|].
  unfold mean_square. cbn [total fold_right mean coin_space].
  assert (E1 : forall w, euler_value [tt] gbm_f gbm_g walk 0 [2] (fun _ _ => 1) w tt = 1 + sgn (fst w) + sgn (snd w)).
  { intros w. cbn -[walk]. unfold gbm_f, gbm_g, vadd, contract. cbn -[walk]. rewrite walk0, walk2. ring. }
  assert (E2 : forall w, euler_value [tt] gbm_f gbm_g walk 0 [1; 2] (fun _ _ => 1) w tt = (1 + sgn (fst w)) * (1 + sgn (snd w))).
  { intros w. cbn -[walk]. unfold gbm_f, gbm_g, vadd, contract. cbn -[walk]. rewrite walk0, walk1, walk2. ring. }
  rewrite !E1, !E2. cbn [fst snd sgn]. field.
Qed.

(** C71: the same for whole solves. *)
  Theorem C71_solve :
    forall (I K : Type) (is : list I) (ks : list K) (f : R -> (I -> R) -> (I -> R)) (g : R -> (I -> R) -> (I * K -> R)) (t0 t1 L M : R),
    NoDup ks -> t0 <= t1 -> 0 <= L -> 0 <= M -> ito_lipschitz is ks t0 t1 L f g ->
  exists C, 0 <= C /\
  forall (Omega CS V MS : Type) (P : space Omega) (times : R -> Prop) (W : Omega -> R -> K -> R) (x : R -> Omega -> I -> R)
         (c : Omega -> config (I -> R) unit CS ((I -> R) * (I -> R)) (option (I -> R)) V MS) (i : Omega -> initial (I -> R) unit CS MS)
         (h : Omega -> list (attempt (I -> R))) (o : Omega -> outcome (I -> R) unit CS ((I -> R) * (I -> R)) V MS)
         (time : Z -> R) (ts : list R) (H : R),
  probability P -> brownian P ks times W -> ito_solution P is ks times f g W x M ->
  (forall w, euler_run (c w) (i w) (h w) (o w) ks f g (W w) time t0 ts (x t0 w)) -> (forall w, time (cfg_t1 (c w)) = t1) ->
  0 <= H -> grid t0 ts H -> (forall t, In t (t0 :: ts) -> times t) ->
  mean_square P is (fun w k => out_yfinal (o w) k - x t1 w k) <= C * H.
  Proof. exact pf_C71_solve. Qed.
Example C71_solve_instance :
  NoDup [tt] /\ ito_lipschitz [tt] [tt] 0 2 1 gbm_f gbm_g /\ probability coin_space /\ brownian coin_space [tt] coin_times walk /\
  ito_solution coin_space [tt] [tt] coin_times gbm_f gbm_g walk gbm_x 1 /\
  grid 0 [1; 2] 1 /\ (forall t, In t [0; 1; 2] -> coin_times t) /\
  forall w, coin_time (cfg_t1 (coin_cfg w)) = 2 /\
    exists h o, euler_run (coin_cfg w) (coin_initial w) h o [tt] gbm_f gbm_g (walk w) coin_time 0 [1; 2] (gbm_x 0 w).
Proof.
  split; [repeat constructor; auto|]. split; [apply gbm_lipschitz|]. split; [exact coin_probability|]. split; [exact coin_brownian|].
  split; [exact gbm_solution|]. split; [cbn; lra|]. split; [intros t [<-|[<-|[<-|[]]]]; unfold coin_times; auto|].
  intros w. split; [unfold coin_time; cbn; lra|]. apply coin_run.
Qed.

Print Assumptions C71_ito.
Print Assumptions C71_refinement.
Print Assumptions C71_solve.
