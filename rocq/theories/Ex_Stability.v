(** Examples for the theorems about stability. *)
From Coq Require Import ZArith Reals QArith Qreals List Bool Arith Lia Lra FunctionalExtensionality.
From Verif Require Import Model_Result Model_Loop Spec_Loop Ex_Loop.
From Verif Require Import Model_RK Model_Tableaus Model_Terms Model_Orders Model_Interp Model_DenseOutput Model_Solvers.
From Verif Require Import Spec_RK Spec_RKLoop Spec_Order Spec_Solvers Spec_Convergence Spec_Stability Ex_RK Ex_Convergence.
Import ListNotations.
Open Scope R_scope.

(** [y' = (-1000 + i) y] *)
Notation pl := (unit * bool)%type.
Definition stiff_re (k : unit) : R := - 1000.
Definition stiff_im (k : unit) : R := 1.
Definition plane (a b : R) : pl -> R := fun x => if snd x then b else a.

(** A root finder for two equations that is exact for affine ones (Cramer's rule) and reports failure for others. *)
Definition plane_root (g : (pl -> R) -> (pl -> R)) : (pl -> R) * RESULTS :=
  let g0 := g (plane 0 0) in let g1 := g (plane 1 0) in let g2 := g (plane 0 1) in
  let a := g1 (tt, false) - g0 (tt, false) in let b := g2 (tt, false) - g0 (tt, false) in
  let c := g1 (tt, true) - g0 (tt, true) in let d := g2 (tt, true) - g0 (tt, true) in
  let det := a * d - b * c in
  let v := plane ((b * g0 (tt, true) - d * g0 (tt, false)) / det) ((c * g0 (tt, false) - a * g0 (tt, true)) / det) in
  (v, if Req_EM_T (g v (tt, false)) 0 then if Req_EM_T (g v (tt, true)) 0 then successful else other_error 0 else other_error 0).
Lemma plane_exact g v r : plane_root g = (v, r) -> is_okay r = true -> forall x, g v x = 0.
Proof.
  unfold plane_root. intros E OK ([], b). destruct (Req_EM_T _ 0) as [Z|Z]; [destruct (Req_EM_T _ 0) as [Z'|Z']|]; injection E as <- <-; try discriminate.
  destruct b; [exact Z'|exact Z].
Qed.
Lemma plane_ok g p r a b : (forall v, g v (tt, false) = p + a * v (tt, false) - b * v (tt, true)) ->
  (forall v, g v (tt, true) = r + b * v (tt, false) + a * v (tt, true)) -> a * a + b * b <> 0 ->
  exists v, plane_root g = (v, successful).
Proof.
  intros H1 H2 D. unfold plane_root. cbv zeta.
  replace (g (plane 1 0) (tt, false) - g (plane 0 0) (tt, false)) with a by (rewrite !H1; unfold plane; cbn [snd]; ring).
  replace (g (plane 0 1) (tt, false) - g (plane 0 0) (tt, false)) with (- b) by (rewrite !H1; unfold plane; cbn [snd]; ring).
  replace (g (plane 1 0) (tt, true) - g (plane 0 0) (tt, true)) with b by (rewrite !H2; unfold plane; cbn [snd]; ring).
  replace (g (plane 0 1) (tt, true) - g (plane 0 0) (tt, true)) with a by (rewrite !H2; unfold plane; cbn [snd]; ring).
  replace (g (plane 0 0) (tt, false)) with p by (rewrite !H1; unfold plane; cbn [snd]; ring).
  replace (g (plane 0 0) (tt, true)) with r by (rewrite !H2; unfold plane; cbn [snd]; ring).
  assert (D' : a * a - - b * b <> 0) by (intros E; apply D; rewrite <- E; ring).
  destruct (Req_EM_T _ 0) as [Z|Z]; [destruct (Req_EM_T _ 0) as [Z'|Z']; [eexists; reflexivity|]|]; exfalso; [apply Z'; rewrite H2|apply Z; rewrite H1];
    unfold plane; cbn [snd]; field; exact D'.
Qed.
Definition plane_rf : root_finder pl pl :=
  RootFinder unit unit (fun _ _ _ => tt) (fun _ _ _ => tt) (fun _ _ g _ => plane_root g) (fun _ _ g _ => plane_root g).
Lemma plane_rf_exact : exact_root_finder plane_rf.
Proof. split; cbn; intros j0 stage g guess v r E OK x; eapply plane_exact; eassumption. Qed.
Definition stiff_solver (m : rk_method) : solver pl pl R :=
  Solver (ode_parts (combine (m_tableaus m) (last_field (length (m_tableaus m)) (modes stiff_re stiff_im)))) false second_stage plane_rf.

(** The stages always have a solution. *)
Lemma stiff_matrix w : (1 + 1000 * w) * (1 + 1000 * w) + (- w) * (- w) <> 0.
Proof.
  intros E. pose proof (Rle_0_sqr (1 + 1000 * w)) as A. pose proof (Rle_0_sqr (- w)) as B. unfold Rsqr in A, B.
  assert (Z : (- w) * (- w) = 0) by lra. apply Rmult_integral in Z. assert (w = 0) as -> by (destruct Z; lra). lra.
Qed.
Lemma stiff_stage m t0 t1 y0 st i p : implicit_index (stiff_solver m) = Some p ->
  nth_error (map snd (sv_parts (stiff_solver m))) p = Some (ode_term (modes stiff_re stiff_im)) ->
  nth_error (controls (stiff_solver m) t0 t1) p = Some (t1 - t0) ->
  sg_result (stiff_solver m) (rk_stage (stiff_solver m) t0 t1 y0 st i) = update_result (sg_result (stiff_solver m) st) successful.
Proof.
  intros IX NT NC. unfold rk_stage, implicit_stage. rewrite IX, NT, NC.
  change (rf_f (sv_root_finder (stiff_solver m))) with (fun (_ : unit) (_ : nat) g (_ : pl -> R) => plane_root g).
  change (rf_k (sv_root_finder (stiff_solver m))) with (fun (_ : unit) (_ : nat) g (_ : pl -> R) => plane_root g). cbv beta.
  set (tab := implicit_tableau (stiff_solver m) p). set (w := (t1 - t0) * Q2R (diagonal_or_zero tab i)).
  destruct (eval_fs (stiff_solver m)).
  - match goal with |- context [plane_root ?g] => destruct (plane_ok g (g (fun _ => 0) (tt, false)) (g (fun _ => 0) (tt, true)) (1 + 1000 * w) (- w)) as (k & ->) end;
      [| |apply stiff_matrix|reflexivity];
      intros v; unfold implicit_relation_f, vsub, vadd, vscale, w; cbn [ode_term with_default_vf_prod t_vf t_prod t_vf_prod]; unfold modes, stiff_re, stiff_im; cbn [fst snd]; ring.
  - match goal with |- context [plane_root ?g] => destruct (plane_ok g (g (fun _ => 0) (tt, false)) (g (fun _ => 0) (tt, true)) (1 + 1000 * w) (- w)) as (k & ->) end;
      [| |apply stiff_matrix|reflexivity];
      intros v; unfold implicit_relation_k, vsub, vadd, vscale, w; cbn [ode_term with_default_vf_prod t_vf t_prod t_vf_prod]; unfold modes, stiff_re, stiff_im; cbn [fst snd]; ring.
Qed.
Lemma stiff_result m p : implicit_index (stiff_solver m) = Some p ->
  nth_error (map snd (sv_parts (stiff_solver m))) p = Some (ode_term (modes stiff_re stiff_im)) ->
  (forall t0 t1, nth_error (controls (stiff_solver m) t0 t1) p = Some (t1 - t0)) ->
  forall t0 t1 y0 others state mj, ro_result (rk_step (stiff_solver m) t0 t1 y0 others state mj) = successful.
Proof.
  intros IX NT NC t0 t1 y0 others state mj. unfold rk_step. destruct state as [(first, f0)|]; cbn [ro_result];
  match goal with |- context [fold_left _ ?l ?st] => generalize l; assert (E : sg_result (stiff_solver m) st = successful) by reflexivity; revert E; generalize st end;
  intros st E l; revert st E; induction l as [|i l IH]; intros st E; try exact E; cbn [fold_left]; apply IH;
  rewrite (stiff_stage m t0 t1 y0 st i p IX NT (NC t0 t1)), E; reflexivity.
Qed.
Lemma kvaerno5_result t0 t1 y0 others state mj : ro_result (rk_step (stiff_solver kvaerno5) t0 t1 y0 others state mj) = successful.
Proof. apply (stiff_result kvaerno5 0); reflexivity. Qed.
Lemma kencarp4_result t0 t1 y0 others state mj : ro_result (rk_step (stiff_solver kencarp4) t0 t1 y0 others state mj) = successful.
Proof. apply (stiff_result kencarp4 1); reflexivity. Qed.

(** A solve with KenCarp4 *)
Definition pl_adapt (tprev tnext : Z) (_ _ : pl -> R) (_ : option (pl -> R)) (cs : nat) : adapt_out nat :=
  rk_adapt tprev tnext (fun _ => 0) (fun _ => 0) None cs.
Definition stable_cfg (step : Z -> Z -> (pl -> R) -> solver_state pl -> bool -> step_out (pl -> R) (solver_state pl) ((pl -> R) * (pl -> R) * list (list (pl -> R))) (option (pl -> R)))
  : config (pl -> R) (solver_state pl) nat ((pl -> R) * (pl -> R) * list (list (pl -> R))) (option (pl -> R)) (pl -> R) unit :=
  Config step (fun e => e) (fun _ _ d _ => fst (fst d)) pl_adapt None (fun a b => (a + b) / 2)%Z (fun m _ => m)
    [SubSaveAt false true None 1 (fun _ y => y)] false None 0 1000 (Some 20%nat).
Definition stable_step := rk_solver_step (stiff_solver kencarp4) IZR (fun _ _ _ _ _ => false).
Definition stable_initial : initial (pl -> R) (solver_state pl) nat unit :=
  Initial (plane 1 1) 300%Z false (rk_init (stiff_solver kencarp4)) 0%nat tt PInf.
Lemma stable_step_eq : stable_step = fun a b y ss j => let so := stable_step a b y ss j in
  StepOut (so_y so) (so_error so) (so_dense so) (so_state so) successful.
Proof.
  extensionality a; extensionality b; extensionality y; extensionality ss; extensionality j. cbv zeta.
  rewrite <- (kencarp4_result (IZR a) (IZR b) y false ss j). reflexivity.
Qed.
Lemma stable_run : exists h o,
  rk_run (stable_cfg stable_step) stable_initial h o (stiff_solver kencarp4) IZR 0 (plane 1 1) /\
  (forall a, In a h -> at_keep a = true -> is_okay (at_solver_result a) = true /\ IZR (at_from a) <= IZR (at_to a)) /\
  length (accepted h) = 4%nat /\ out_result o = successful.
Proof.
  assert (X : exists h o, solve_run (stable_cfg stable_step) stable_initial h o /\
    map (fun a => (at_from a, at_to a, at_keep a, at_solver_result a)) h
    = [(0, 300, true, successful); (300, 600, true, successful); (600, 900, false, successful);
       (600, 750, true, successful); (750, 1000, true, successful)]%Z /\
    out_result o = successful).
  { rewrite stable_step_eq. apply runs. vm_compute. auto. }
  destruct X as (h & o & RUN & E & OK). exists h, o. split; [|split; [|split; [|exact OK]]].
  - split; [exact RUN|]. split; [exists (fun _ _ _ _ _ => false); reflexivity|]. split; [left; exact plane_rf_exact|]. split.
    { exists (fun _ _ _ => True). split; [|exact Logic.I].
      intros a b y y1 e cs _ H1 H2 _. cbn [stable_cfg adapt]. unfold pl_adapt, rk_adapt.
      destruct (cs mod 3 =? 2)%nat; cbn [ao_keep ao_tprev ao_tnext]; repeat split; try discriminate; lia. }
    split.
    { intros a b y y1 e cs. cbn [stable_cfg adapt]. unfold pl_adapt, rk_adapt.
      destruct (cs mod 3 =? 2)%nat; cbn [ao_keep ao_tprev ao_tnext ao_jump]; [discriminate|reflexivity]. }
    split.
    { intros a b Hab. cbn. split; [apply Z.div_le_lower_bound; lia|].
      assert ((a + b) / 2 < b + 1)%Z by (apply Z.div_lt_upper_bound; lia). lia. }
    split; [cbn; lia|]. split; [cbn; lia|]. split; [first [exact Logic.I|split; [reflexivity|left; reflexivity]]|]. split; reflexivity.
  - intros a Ha K. apply (in_map (fun a => (at_from a, at_to a, at_keep a, at_solver_result a))) in Ha.
    rewrite E in Ha.
    destruct Ha as [A|[A|[A|[A|[A|[]]]]]]; injection A as E1 E2 E3 E4; try congruence; rewrite <- E1, <- E2, <- E4; (split; [reflexivity|lra]).
  - unfold accepted. rewrite <- (map_length (fun a => (at_from a, at_to a, at_keep a, at_solver_result a))).
    assert (F : forall l : list (attempt (pl -> R)),
      map (fun a => (at_from a, at_to a, at_keep a, at_solver_result a)) (filter at_keep l)
      = filter (fun r => let '(_, _, k, _) := r in k) (map (fun a => (at_from a, at_to a, at_keep a, at_solver_result a)) l)).
    { induction l as [|a l IH]; [reflexivity|]. cbn. destruct (at_keep a) eqn:Ek; cbn; rewrite ?IH, ?Ek; reflexivity. }
    rewrite F, E. reflexivity.
Qed.
Lemma stable_results : results_ok (stable_cfg stable_step) /\ rf_results_ok (stable_cfg stable_step).
Proof.
  split; [split|].
  - intros a b y ss j. cbn zeta.
    assert (E : so_result (solver_step (stable_cfg stable_step) a b y ss j) = successful) by (cbn [stable_cfg solver_step]; rewrite stable_step_eq; reflexivity).
    rewrite E. split; discriminate.
  - intros a b y y1 e cs. cbn. unfold pl_adapt, rk_adapt. destruct (cs mod 3 =? 2)%nat; cbn; split; discriminate.
  - intros e rf f lo hi start r E. discriminate.
Qed.

(** Implicit Euler *)
Definition plane_find (g : (pl -> R) -> (pl -> R)) (_ : pl -> R) := plane_root g.
Lemma plane_find_roots : finds_roots plane_find.
Proof. intros g guess OK. unfold plane_find in *. destruct (plane_root g) as (v, r) eqn:E. cbn in *. apply (plane_exact g v r E OK). Qed.
Lemma plane_euler t0 t1 y0 mj : is_okay (so_result (me_step (implicit_euler plane_find (ode_term (modes stiff_re stiff_im))) t0 t1 y0 tt mj)) = true.
Proof.
  cbn [implicit_euler me_step]. unfold plane_find. set (w := t1 - t0).
  match goal with |- context [plane_root ?g] => destruct (plane_ok g (g (fun _ => 0) (tt, false)) (g (fun _ => 0) (tt, true)) (- (1 + 1000 * w)) w) as (k & ->) end; [| | |reflexivity].
  - intros v. unfold implicit_relation, vsub, vadd, vscale, w. cbn. unfold modes, stiff_re, stiff_im. cbn [fst snd]. ring.
  - intros v. unfold implicit_relation, vsub, vadd, vscale, w. cbn. unfold modes, stiff_re, stiff_im. cbn [fst snd]. ring.
  - pose proof (stiff_matrix w). intros E. apply H. rewrite <- E. ring.
Qed.
