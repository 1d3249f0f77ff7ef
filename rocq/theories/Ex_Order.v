(** Examples for the theorems about order. *)
From Coq Require Import Reals QArith Qreals List Bool Arith Lia Lra FunctionalExtensionality.
From Verif Require Import Model_Result Model_RK Model_Tableaus Model_Terms Model_Orders Spec_RK Spec_Order Proof_Terms Proof_BSeries Proof_OrderStep Ex_RK.
Import ListNotations.
Open Scope R_scope.

(** KenCarp5's implicit tableau with the denominator of one coefficient ([kencarp5.py:141]) changed from
    7827059040719 to 7827059040749. *)
Definition kencarp5_implicit_corrected : tableau :=
  let t := kencarp5_implicit_tableau in
  Tableau (tab_c t) (tab_b_sol t) (tab_b_error t)
    (set_nth 5 (set_nth 5 (-4269925059573 # 7827059040749) (nth 5 (tab_a_lower t) [])) (tab_a_lower t))
    (tab_a_diagonal t) (tab_a_predictor t) (tab_c1 t).

(** [y' = y^2], [y(0) = 1], with solution [1 / (1 - t)]. *)
Definition square (t : R) (y : unit -> R) : unit -> R := fun x => y x * y x.
Definition square_solution (t : R) : unit -> R := fun _ => / (1 - t).
Definition square_D (l : list (option unit -> R)) : unit -> R :=
  match l with
  | [] => fun _ => 1
  | [v] => fun x => 2 * v (Some x)
  | [u; v] => fun x => u (Some x) * v (Some x)
  | _ => fun _ => 0
  end.
Lemma square_taylor p : taylor p square 0 (fun _ => 1) square_D.
Proof.
  assert (ML : multilinear square_D).
  { intros l l' a b u v x. destruct l as [|u0 [|u1 [|u2 l]]], l' as [|v0 [|v1 l']]; cbn; try ring. }
  assert (BM : bounded_map square_D).
  { intros m. exists 2. intros l Bs Hm H x.
    destruct l as [|u [|v [|w l]]].
    - inversion H; subst. cbn. rewrite Rabs_pos_eq; lra.
    - inversion H as [|? B ? ? Hu H']; subst. inversion H'; subst. cbn. rewrite Rabs_mult, Rabs_pos_eq by lra. rewrite Rmult_1_r.
      apply Rmult_le_compat_l; [lra|apply Hu].
    - inversion H as [|? B1 ? ? Hu H']; subst. inversion H' as [|? B2 ? ? Hv H'']; subst. inversion H''; subst. cbn.
      rewrite Rabs_mult, Rmult_1_r. specialize (Hu (Some x)). specialize (Hv (Some x)).
      pose proof (Rabs_pos (u (Some x))). pose proof (Rabs_pos (v (Some x))).
      apply Rle_trans with (B1 * B2); [apply Rmult_le_compat; auto|]. nra.
    - cbn. rewrite Rabs_R0. apply Rmult_le_pos; [lra|]. clear -H. induction H as [|z B l0 Bs Hu H IH]; cbn; [lra|].
      apply Rmult_le_pos; [|exact IH]. eapply Rle_trans; [apply Rabs_pos|apply (Hu None)]. }
  assert (T3 : forall q, taylor (3 + q) square 0 (fun _ => 1) square_D).
  { intros q. split; [exact ML|]. split; [exact BM|]. exists 1, 0. split; [lra|]. split; [lra|]. intros v B _ _ x.
    replace (sum_n (3 + q) (fun m => square_D (repeat v m) x)) with (sum_n 3 (fun m => square_D (repeat v m) x)).
    - cbn. unfold square. match goal with |- Rabs ?a <= _ => replace a with 0 by ring end. rewrite Rabs_R0. lra.
    - induction q as [|q IH]; [reflexivity|]. replace (3 + S q)%nat with (S (3 + q)) by lia. cbn [sum_n].
      rewrite <- IH. cbn. ring. }
  destruct (le_lt_dec p 3) as [Hp|Hp].
  - apply (taylor_le (3 + 0) p); [lia|apply T3].
  - replace p with (3 + (p - 3))%nat by lia. apply T3.
Qed.
Lemma square_exact : exact_solution [square] 0 (fun _ => 1) (1 / 2) square_solution.
Proof.
  split; [intros x; unfold square_solution; rewrite Rminus_0_r, Rinv_1; reflexivity|]. split.
  - intros eps He. exists (Rmin (1 / 2) (eps / 2)). split; [apply Rmin_pos; lra|]. intros h Hh x.
    pose proof (Rmin_l (1 / 2) (eps / 2)). pose proof (Rmin_r (1 / 2) (eps / 2)). unfold square_solution.
    replace (/ (1 - (0 + h)) - 1) with (h * / (1 - h)) by (field; lra).
    assert (0 < / (1 - h) <= 2).
    { split; [apply Rinv_0_lt_compat; lra|]. replace 2 with (/ (1 / 2)) by field. apply Rinv_le_contravar; lra. }
    rewrite Rabs_pos_eq by nra. nra.
  - intros h x Hh. cbn. rewrite Rplus_0_l. unfold square, square_solution.
    replace (fun h => / (1 - (0 + h))) with (fct_cte 1 / (fct_cte 1 - id))%F by (extensionality z; unfold fct_cte, div_fct, minus_fct, id, Rdiv; rewrite Rmult_1_l, Rplus_0_l; reflexivity).
    replace (/ (1 - (0 + h)) * / (1 - (0 + h))) with ((0 * (fct_cte 1 - id)%F h - (0 - 1) * fct_cte 1 h) / Rsqr ((fct_cte 1 - id)%F h))
      by (unfold fct_cte, minus_fct, id, Rsqr; field; lra).
    apply derivable_pt_lim_div; [apply derivable_pt_lim_const| |unfold fct_cte, minus_fct, id; lra].
    apply derivable_pt_lim_minus; [apply derivable_pt_lim_const|apply derivable_pt_lim_id].
Qed.

(** The solver with a given tableau for this equation. *)
Definition square_solver (tab : tableau) : solver unit unit R :=
  Solver [(tab, ode_term square)] false second_stage affine_rf.
Lemma square_valid tab : post_init_ok tab = true -> valid_parts (num_stages tab) (sv_parts (square_solver tab)).
Proof.
  intros H. split; [discriminate|]. split.
  - intros tab' m [E|[]]. injection E as <- <-. repeat split; auto. intros a b f g c x. cbn. ring.
  - intros [|p] [|q] tab' tab'' m m' Hp Hq _ _; auto; cbn in Hp, Hq; try (destruct p; discriminate); destruct q; discriminate.
Qed.
Lemma square_ends tab : (fsal tab = true -> ends_at_ends tab) -> fsal_at_ends (sv_parts (square_solver tab)).
Proof. intros H tab' m [E|[]]. injection E as <- <-. exact H. Qed.

(** The trapezoidal rule for [y' = - y]. *)
Definition trapezoid_tableau : tableau :=
  Tableau [1%Q] [1 # 2; 1 # 2]%Q [1 # 2; -1 # 2]%Q [[1 # 2]]%Q (Some [0; 1 # 2]%Q) (Some [[1%Q]]) 0%Q.
Definition trapezoid : solver unit unit R := solver_of trapezoid_tableau.
Lemma trapezoid_result h : 0 < h -> ro_result (rk_step trapezoid 0 (0 + h) (fun _ => 1) false None false) = successful.
Proof.
  intros Hh. lazy -[Rplus Rmult Ropp Rminus Rdiv Rinv Q2R IZR Req_EM_T].
  rewrite !RMicromega.Q2R_0. replace (Q2R (1 # 2)) with (1 / 2) by (unfold Q2R; cbn; lra).
  repeat match goal with |- context [Req_EM_T ?e 0] => destruct (Req_EM_T e 0) as [?|n]; [|exfalso; apply n; field; lra] end.
  reflexivity.
Qed.
Definition decay_f (t : R) (y : unit -> R) : unit -> R := fun x => - y x.
Definition decay_D (l : list (option unit -> R)) : unit -> R :=
  match l with [] => fun _ => - (1) | [v] => fun x => - v (Some x) | _ => fun _ => 0 end.
Lemma decay_taylor : taylor 2 decay_f 0 (fun _ => 1) decay_D.
Proof.
  split; [|split].
  - intros l l' a b u v x. destruct l as [|u0 [|u1 l]], l' as [|v0 l']; cbn; try ring.
  - intros m. exists 1. intros l Bs Hm H x. destruct l as [|u [|v l]].
    + inversion H; subst. cbn. rewrite Rabs_Ropp, Rabs_pos_eq; lra.
    + inversion H as [|? B ? ? Hu H']; subst. inversion H'; subst. cbn. rewrite Rabs_Ropp, Rmult_1_r, Rmult_1_l. apply Hu.
    + cbn. rewrite Rabs_R0. rewrite Rmult_1_l. clear -H. induction H as [|z B l0 Bs Hu H IH]; cbn; [lra|].
      apply Rmult_le_pos; [|exact IH]. eapply Rle_trans; [apply Rabs_pos|apply (Hu None)].
  - exists 1, 0. split; [lra|]. split; [lra|]. intros v B _ _ x. cbn. unfold decay_f.
    match goal with |- Rabs ?a <= _ => replace a with 0 by ring end. rewrite Rabs_R0. lra.
Qed.
Definition decay_solution (t : R) : unit -> R := fun _ => exp (- t).
Lemma decay_exact : exact_solution [decay_f] 0 (fun _ => 1) 1 decay_solution.
Proof.
  assert (DER : forall h, derivable_pt_lim (fun h => exp (- (0 + h))) h (- exp (- (0 + h)))).
  { intros h. replace (fun h => exp (- (0 + h))) with (comp exp (- id)%F) by (extensionality z; unfold comp, opp_fct, id; f_equal; ring).
    replace (- exp (- (0 + h))) with (exp ((- id)%F h) * - (1)) by (unfold opp_fct, id; rewrite Rplus_0_l; ring).
    apply derivable_pt_lim_comp; [apply derivable_pt_lim_opp, derivable_pt_lim_id|apply derivable_pt_lim_exp]. }
  split; [intros x; unfold decay_solution; rewrite Ropp_0, exp_0; reflexivity|]. split.
  - intros eps He. assert (C : continuity_pt (fun h => exp (- (0 + h))) 0).
    { apply derivable_continuous_pt. eexists. apply DER. }
    destruct (C eps He) as (d & Hd & H). exists (d / 2). split; [lra|]. intros h Hh x. unfold decay_solution.
    destruct (Req_dec h 0) as [->|Hn].
    + rewrite Rplus_0_r, Ropp_0, exp_0, Rminus_eq_0, Rabs_R0. lra.
    + specialize (H h). cbn in H. unfold R_dist in H. rewrite (Rplus_0_r 0), Ropp_0, exp_0, Rminus_0_r in H. left. apply H.
      split; [split; [exact Logic.I|congruence]|]. rewrite Rabs_pos_eq; lra.
  - intros h x Hh. cbn. rewrite Rplus_0_l. apply DER.
Qed.

Lemma trapezoid_stages h i : 0 < h -> (i < 2)%nat ->
  bounded (fun x => stage_value 2 (sv_parts trapezoid) (fun _ => 1)
    (stages_of (rk_step trapezoid 0 (0 + h) (fun _ => 1) false None false)) i x - 1) h.
Proof.
  intros Hh Hi x. destruct x.
  assert (V : valid_parts 2 (sv_parts trapezoid)) by (apply (solver_of_valid trapezoid_tableau); vm_compute; reflexivity).
  assert (F : fsal_at_ends (sv_parts trapezoid)) by (apply solver_of_ends; split; reflexivity).
  destruct (Proof_RKProp.pf_C36_stages trapezoid 2 0 (0 + h) (fun _ => 1) false None false V affine_rf_exact F Logic.I) as (H & _).
  destruct H as (k & E & _ & _ & HK); [rewrite trapezoid_result by exact Hh; reflexivity|].
  set (out := rk_step trapezoid 0 (0 + h) (fun _ => 1) false None false) in *. clearbody out.
  assert (K0 : stages_of out 0 0 tt = k 0%nat 0%nat tt) by (apply HK; cbn; lia).
  assert (K1 : stages_of out 0 1 tt = k 0%nat 1%nat tt) by (apply HK; cbn; lia).
  pose proof (E 0%nat _ _ 0%nat eq_refl ltac:(lia) tt) as E0. pose proof (E 0%nat _ _ 1%nat eq_refl ltac:(lia) tt) as E1.
  unfold stage_value, coef_a, coef_c in E0, E1. cbn in E0, E1. rewrite RMicromega.Q2R_0 in *.
  replace (Q2R (1 # 2)) with (1 / 2) in * by (unfold Q2R; cbn; lra).
  assert (X0 : k 0%nat 0%nat tt = - h) by lra.
  assert (X1 : - h <= k 0%nat 1%nat tt <= h) by (rewrite X0 in E1; split; nra).
  assert (Hi' : i = 0%nat \/ i = 1%nat) by lia. destruct Hi' as [-> | ->]; unfold stage_value, coef_a; cbn -[stages_of];
    rewrite ?RMicromega.Q2R_0; try rewrite K0; try rewrite K1; rewrite ?X0; replace (Q2R (1 # 2)) with (1 / 2) by (unfold Q2R; cbn; lra); apply Rabs_le; lra.
Qed.
