(** Examples for the theorems about dense output. *)
From Coq Require Import Reals QArith Qreals List Bool Arith Lia Lra.
From Verif Require Import Model_Result Model_RK Model_Tableaus Model_Terms Model_Orders Model_DenseOutput Spec_RK Spec_Order Spec_Lipschitz Ex_RK Ex_Order.
Import ListNotations.
Open Scope R_scope.

(** Kvaerno3 for [y' = - y]. *)
Definition decay_kvaerno3 : solver unit unit R := solver_of kvaerno3_tableau.
Lemma affine_ok (g : (unit -> R) -> (unit -> R)) a : (forall v w, g v tt - g w tt = a * (v tt - w tt)) -> a <> 0 ->
  exists k, affine_root g = ((fun _ => k), successful).
Proof.
  intros H Ha. unfold affine_root. set (v := fun _ : unit => _). exists (v tt). f_equal.
  destruct (Req_EM_T (g v tt) 0) as [?|n]; [reflexivity|exfalso; apply n].
  pose proof (H (fun _ => 1) (fun _ => 0)) as H1. pose proof (H v (fun _ => 0)) as Hv. cbv beta in H1, Hv.
  assert (E : v tt = - g (fun _ => 0) tt / a) by (unfold v; rewrite H1; replace (a * (1 - 0)) with a by ring; reflexivity).
  rewrite E in Hv. replace (a * (- g (fun _ => 0) tt / a - 0)) with (- g (fun _ => 0) tt) in Hv by (field; exact Ha). lra.
Qed.
(** A diagonally implicit method always succeeds on this equation. *)
Lemma decay_stage tab t0 t1 y0 st i : implicit tab = true -> 0 <= Q2R (diagonal_or_zero tab i) -> 0 <= t1 - t0 ->
  sg_result (solver_of tab) (rk_stage (solver_of tab) t0 t1 y0 st i) = update_result (sg_result (solver_of tab) st) successful.
Proof.
  intros HI HD HT. assert (P : 0 <= (t1 - t0) * Q2R (diagonal_or_zero tab i)) by (apply Rmult_le_pos; assumption).
  unfold rk_stage, implicit_stage.
  assert (IX : implicit_index (solver_of tab) = Some 0%nat) by (unfold implicit_index, solver_of; cbn; rewrite HI; reflexivity).
  rewrite IX. change (nth_error (map snd (sv_parts (solver_of tab))) 0) with (Some decay).
  change (nth_error (controls (solver_of tab) t0 t1) 0) with (Some (t1 - t0)).
  change (implicit_tableau (solver_of tab) 0) with tab.
  change (rf_f (sv_root_finder (solver_of tab))) with (fun (_ : unit) (_ : nat) g (_ : unit -> R) => affine_root g).
  change (rf_k (sv_root_finder (solver_of tab))) with (fun (_ : unit) (_ : nat) g (_ : unit -> R) => affine_root g). cbv beta.
  destruct (eval_fs (solver_of tab)).
  - match goal with |- context [affine_root ?g] => destruct (affine_ok g (1 + (t1 - t0) * Q2R (diagonal_or_zero tab i))) as (k & ->) end;
      [|lra|reflexivity]. intros v w. unfold implicit_relation_f, vsub, vadd, vscale. cbn [decay ode_term with_default_vf_prod t_vf t_prod t_vf_prod]. ring.
  - match goal with |- context [affine_root ?g] => destruct (affine_ok g (1 + (t1 - t0) * Q2R (diagonal_or_zero tab i))) as (k & ->) end;
      [|lra|reflexivity]. intros v w. unfold implicit_relation_k, vsub, vadd, vscale. cbn [decay ode_term with_default_vf_prod t_vf t_prod t_vf_prod]. ring.
Qed.
Lemma decay_result tab h : implicit tab = true -> (forall i, 0 <= Q2R (diagonal_or_zero tab i)) -> 0 < h ->
  is_okay (ro_result (rk_step (solver_of tab) 0 (0 + h) (fun _ => 1) false None false)) = true.
Proof.
  intros HI HD Hh. unfold rk_step. cbn [ro_result].
  match goal with |- context [fold_left _ ?l ?st] => generalize l; assert (E : is_okay (sg_result (solver_of tab) st) = true) by reflexivity; revert E; generalize st end.
  intros st E l. revert st E. induction l as [|i l IH]; intros st E; [exact E|]. cbn [fold_left]. apply IH.
  rewrite decay_stage by (auto; lra). rewrite Proof_RKStep.update_okay_iff, E. reflexivity.
Qed.
Lemma decay_kvaerno3_result h : 0 < h -> is_okay (ro_result (rk_step decay_kvaerno3 0 (0 + h) (fun _ => 1) false None false)) = true.
Proof.
  apply decay_result; [reflexivity|]. intros i. unfold diagonal_or_zero, nthQ. cbn [tab_a_diagonal kvaerno3_tableau].
  do 4 (destruct i as [|i]; [cbn; unfold Q2R; cbn; lra|]). cbn. destruct i; rewrite RMicromega.Q2R_0; lra.
Qed.
Lemma decay_lipschitz : lipschitz 1 decay_f.
Proof. intros t y z B H x. unfold decay_f. specialize (H x). cbv beta in H. replace (- y x - - z x) with (- (y x - z x)) by ring. rewrite Rabs_Ropp. lra. Qed.
Lemma decay_smooth p : smooth p decay_f 0 (fun _ => 1).
Proof.
  assert (T2 : forall q, taylor (2 + q) decay_f 0 (fun _ => 1) decay_D).
  { intros q. destruct decay_taylor as (ML & BM & _). split; [exact ML|]. split; [exact BM|]. exists 1, 0. split; [lra|]. split; [lra|]. intros v B _ _ x.
    replace (sum_n (2 + q) (fun m => decay_D (repeat v m) x)) with (sum_n 2 (fun m => decay_D (repeat v m) x)).
    - cbn. unfold decay_f. match goal with |- Rabs ?a <= _ => replace a with 0 by ring end. rewrite Rabs_R0. lra.
    - induction q as [|q IH]; [reflexivity|]. replace (2 + S q)%nat with (S (2 + q)) by lia. cbn [sum_n].
      rewrite <- IH. cbn. ring. }
  apply (Proof_OrderStep.smooth_le (2 + p) p); [lia|]. exists decay_D. apply T2.
Qed.
Lemma unit_finite : finite_type unit.
Proof. exists [tt]. intros []. left. reflexivity. Qed.
