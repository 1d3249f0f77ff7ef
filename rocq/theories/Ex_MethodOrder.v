(** Exponential decay_vf and the harmonic oscillator for the orders of solvers. *)
From Coq Require Import Reals List Bool Arith Lia Lra FunctionalExtensionality.
From Verif Require Import Model_Result Model_Loop Model_RK Model_Terms Model_Solvers Spec_RK Spec_Solvers Spec_Order Spec_Lipschitz Spec_MethodOrder
  Proof_MethodOrder.
Import ListNotations.
Open Scope R_scope.

Definition decay_vf (_ : R) (y : unit -> R) : unit -> R := fun x => - y x.
Definition decayed (t : R) : unit -> R := fun _ => exp (- t).

(** The root of an affine function by one secant; a failure if that is no root. *)
Definition linear_root (g : (unit -> R) -> unit -> R) (z : unit -> R) : (unit -> R) * RESULTS :=
  let g0 := g (fun _ => 0) tt in let g1 := g (fun _ => 1) tt in
  let k := fun _ : unit => - (g0 / (g1 - g0)) in
  if Req_EM_T (g k tt) 0 then (k, successful) else (z, other_error 0).

Lemma der_exp_opp t : derivable_pt_lim (fun t => exp (- t)) t (- exp (- t)).
Proof.
  replace (- exp (- t)) with (exp (- t) * - 1) by ring.
  apply (derivable_pt_lim_comp (fun t => - t) exp); [|apply derivable_pt_lim_exp].
  apply derivable_pt_lim_opp. apply derivable_pt_lim_id.
Qed.
Lemma der_exp_opp' t : derivable_pt_lim (fun t => - exp (- t)) t (exp (- t)).
Proof. replace (exp (- t)) with (- - exp (- t)) by ring. apply derivable_pt_lim_opp. apply der_exp_opp. Qed.
Lemma exp_small t : 0 <= t -> 0 < exp (- t) <= 1.
Proof. intros H. split; [apply exp_pos|]. rewrite <- exp_0. apply exp_mono. lra. Qed.

Lemma decay_lipschitz : lipschitz 1 decay_vf.
Proof.
  intros t y z B H x. specialize (H x). cbv beta in H. unfold decay_vf. rewrite <- Rabs_Ropp.
  replace (- (- y x - - z x)) with (y x - z x) by ring. lra.
Qed.
Lemma decay_smooth3 : smooth3 0 1 1 1 decayed (fun t => decay_vf t (decayed t)).
Proof.
  exists (fun t _ => exp (- t)). intros t x Ht. unfold decay_vf, decayed. pose proof (exp_small t ltac:(lra)).
  split; [apply der_exp_opp|]. split; [apply der_exp_opp'|]. split; [rewrite Rabs_pos_eq; lra|].
  intros s Hs. assert (D : forall c, Rmin s t <= c <= Rmax s t -> Rabs (- exp (- c)) <= 1).
  { intros c (H1 & H2). rewrite Rabs_Ropp. assert (0 <= c). { eapply Rle_trans; [|exact H1]. apply Rmin_glb; lra. }
    pose proof (exp_small c ltac:(lra)). rewrite Rabs_pos_eq; lra. }
  exact (mean 0 1 (fun t => exp (- t)) (fun t => - exp (- t)) s t 1 ltac:(lra) ltac:(lra) (fun t _ => der_exp_opp t) D).
Qed.
Lemma decay_smooth2 : smooth2 0 1 1 decayed (fun t => decay_vf t (decayed t)).
Proof. destruct decay_smooth3 as (u & H). exists u. intros t x Ht. destruct (H t x Ht) as (A & B & C & _). auto. Qed.
Lemma decayed_0 : decayed 0 = fun _ => 1.
Proof. extensionality x. unfold decayed. rewrite Ropp_0. apply exp_0. Qed.

Lemma step_length n : (1 <= n)%nat -> 0 < / INR n <= 1 /\ INR n * / INR n = 1.
Proof.
  intros H. assert (1 <= INR n) by (apply (le_INR 1); exact H). split; [|apply Rinv_r; lra].
  split; [apply Rinv_0_lt_compat; lra|]. replace 1 with (/ 1) by apply Rinv_1. apply Rinv_le_contravar; lra.
Qed.

Lemma decay_orders : forall n, (2 <= n)%nat ->
  let h := / INR n in
  let at_end {SS DI} (m : method (unit -> R) SS DI) := fst (steps m 0 (grid 0 h n) (fun _ => 1) (me_init m 0 (0 + h) (fun _ => 1))) tt in
  Rabs (at_end (euler (ode_term decay_vf)) - exp (-1)) <= exp 1 * h /\
  Rabs (at_end (leapfrog_midpoint (ode_term decay_vf)) - exp (-1)) <= 3 * exp 2 * h^2 /\
  Rabs (at_end (reversible_heun (ode_term decay_vf)) - exp (-1)) <= (7 * exp 2 + 1 / 8) * h^2.
Proof.
  intros n Hn. cbv zeta. destruct (step_length n ltac:(lia)) as (Hh & H1). set (h := / INR n) in *.
  assert (DE : decayed (0 + INR n * h) tt = exp (-1)). { unfold decayed. rewrite H1. f_equal. ring. }
  pose proof (pf_C82_euler decay_vf 1 1 0 1 h decayed n ltac:(lra) ltac:(lra) decay_lipschitz decay_smooth2 ltac:(lra) ltac:(lra) tt) as E1.
  pose proof (pf_C82_leapfrog decay_vf 1 1 1 0 1 h decayed n ltac:(lra) ltac:(lra) ltac:(lra) decay_lipschitz decay_smooth3 ltac:(lra) ltac:(lra) tt) as E2.
  pose proof (pf_C82_reversible_heun decay_vf 1 1 1 0 1 h decayed n ltac:(lra) ltac:(lra) ltac:(lra) decay_lipschitz decay_smooth3 ltac:(lra) ltac:(lra) tt) as E3.
  cbv zeta beta in E1, E2, E3. rewrite DE in E1, E2, E3. rewrite decayed_0 in E1, E2, E3.
  split; [|split].
  - eapply Rle_trans; [exact E1|]. apply Req_le. rewrite !Rmult_1_l. reflexivity.
  - eapply Rle_trans; [exact E2|]. apply Req_le. replace (2 * 1 * 1) with 2 by ring. ring.
  - eapply Rle_trans; [exact E3|]. apply Req_le. replace (2 * 1 * 1) with 2 by ring. field.
Qed.

Lemma decay_implicit : forall n, (2 <= n)%nat ->
  let h := / INR n in
  let m := implicit_euler linear_root (ode_term decay_vf) in
  exists yn, good_steps m 0 (grid 0 h n) (fun _ => 1) tt yn tt /\ Rabs (yn tt - exp (-1)) <= 2 * exp 2 * h.
Proof.
  intros n Hn. cbv zeta. destruct (step_length n ltac:(lia)) as (Hh & H1). set (h := / INR n) in *.
  assert (H2 : h * 1 <= 1 / 2).
  { assert (2 <= INR n) by (apply (le_INR 2); exact Hn). unfold h. rewrite Rmult_1_r. replace (1 / 2) with (/ 2) by field. apply Rinv_le_contravar; lra. }
  set (m := implicit_euler linear_root (ode_term decay_vf)).
  assert (EX : forall k t y, exists yn, good_steps m t (grid t h k) y tt yn tt).
  { induction k as [|k IH]; intros t y; [exists y; constructor|]. cbn [grid].
    assert (OK : is_okay (so_result (me_step m t (t + h) y tt false)) = true).
    { cbn [m implicit_euler me_step]. unfold linear_root.
      match goal with |- context [Req_EM_T ?a 0] => assert (Z : a = 0) end.
      { cbv [implicit_relation ode_term with_default_vf_prod t_contr t_vf_prod t_prod t_vf decay_vf vsub vadd]. field. lra. }
      destruct (Req_EM_T _ 0) as [_|N]; [reflexivity|contradiction]. }
    destruct (IH (t + h) (so_y (me_step m t (t + h) y tt false))) as (yn & G). exists yn. apply good_cons; [exact OK|].
    destruct (so_state (me_step m t (t + h) y tt false)). exact G. }
  destruct (EX n 0 (fun _ => 1)) as (yn & G). exists yn. split; [exact G|].
  assert (RT : forall g z, is_okay (snd (linear_root g z)) = true -> forall x, g (fst (linear_root g z)) x = 0).
  { intros g z. unfold linear_root. destruct (Req_EM_T _ 0) as [E|N]; [intros _ []; exact E|discriminate]. }
  assert (FT : finite_type unit) by (exists [tt]; intros []; left; reflexivity).
  pose proof (pf_C82_implicit_euler decay_vf linear_root 1 1 0 1 h decayed n yn FT RT ltac:(lra) ltac:(lra) decay_lipschitz decay_smooth2 ltac:(lra) H2 ltac:(lra)) as E.
  cbv zeta in E. rewrite decayed_0 in E. specialize (E G tt). cbv beta in E. unfold decayed in E. rewrite H1 in E. replace (- (0 + 1)) with (-1) in E by ring.
  eapply Rle_trans; [exact E|]. apply Req_le. replace (2 * 1 * 1) with 2 by ring. ring.
Qed.

Lemma oscillator_order : forall n, (1 <= n)%nat ->
  let h := / INR n in
  let m := semi_implicit_euler (half_ode (fun _ p => p)) (half_ode (fun _ q x => - q x)) in
  let yn := fst (steps m 0 (grid 0 h n) (fun _ : unit => 0, fun _ : unit => 1) (me_init m 0 (0 + h) (fun _ => 0, fun _ => 1))) in
  Rabs (fst yn tt - sin 1) <= 3 * exp 2 * h /\ Rabs (snd yn tt - cos 1) <= 3 * exp 2 * h.
Proof.
  intros n Hn. cbv zeta. destruct (step_length n Hn) as (Hh & H1). set (h := / INR n) in *.
  assert (BS : forall t, Rabs (sin t) <= 1) by (intros t; apply Rabs_le, SIN_bound). assert (BC : forall t, Rabs (cos t) <= 1) by (intros t; apply Rabs_le, COS_bound).
  assert (L1 : half_lipschitz 1 (fun _ (p : unit -> R) => p)) by (intros t y z B H x; rewrite Rmult_1_l; exact (H x)).
  assert (L2 : half_lipschitz 1 (fun _ (q : unit -> R) x => - q x)).
  { intros t y z B H x. specialize (H x). cbv beta in *. rewrite <- Rabs_Ropp, Rmult_1_l. replace (- (- y x - - z x)) with (y x - z x) by ring. exact H. }
  assert (S1 : smooth2 0 1 1 (fun t (_ : unit) => sin t) (fun t _ => cos t)).
  { exists (fun t _ => - sin t). intros t x _. split; [apply derivable_pt_lim_sin|]. split; [apply derivable_pt_lim_cos|]. rewrite Rabs_Ropp. apply BS. }
  assert (S2 : smooth2 0 1 1 (fun t (_ : unit) => cos t) (fun t _ => - sin t)).
  { exists (fun t _ => - cos t). intros t x _. split; [apply derivable_pt_lim_cos|]. split; [apply derivable_pt_lim_opp, derivable_pt_lim_sin|]. rewrite Rabs_Ropp. apply BC. }
  pose proof (pf_C82_semi_implicit_euler unit unit (fun _ p => p) (fun _ q x => - q x) 1 1 1 0 1 h (fun t _ => sin t) (fun t _ => cos t) n
              ltac:(lra) ltac:(lra) ltac:(lra) L1 L2 S1 S2 (fun t _ _ => BC t) ltac:(lra) ltac:(lra) ltac:(lra)) as E.
  cbv zeta beta in E. replace (fun _ : unit => sin 0) with (fun _ : unit => 0) in E by (extensionality x; symmetry; apply sin_0).
  replace (fun _ : unit => cos 0) with (fun _ : unit => 1) in E by (extensionality x; symmetry; apply cos_0). destruct E as (E1 & E2). specialize (E1 tt). specialize (E2 tt). cbv beta in E1, E2.
  rewrite H1 in E1, E2. replace (0 + 1) with 1 in E1, E2 by ring.
  split; [eapply Rle_trans; [exact E1|]|eapply Rle_trans; [exact E2|]]; apply Req_le; replace (2 * 1 * 1) with 2 by ring; ring.
Qed.
