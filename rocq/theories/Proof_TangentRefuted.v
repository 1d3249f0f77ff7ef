(** With adaptive steps the tangent is not the derivative of the result. *)
From Coq Require Import Reals List Bool Lra Lia Sorted.
From Coquelicot Require Import Coquelicot.
From Verif Require Import Model_Tangent Spec_Tangent Proof_Tangent Proof_TangentProps Ex_Tangent.
Import ListNotations.
Open Scope R_scope.

Lemma h2_1 : h2 1 = 3 / 10.
Proof. unfold h2. rewrite sqrt_1. field. Qed.

(** The derivative along the kept steps. *)
Lemma ex_tangent : snd (st (ex_solve (0, 0) (1, 1) (const 0) (const (3 / 4)))) = q2 (1 / 4) * q2 (3 / 10) * q2 (1 / 5).
Proof.
  destruct (@pf_C67_gradient R_NormedModule R_NormedModule R_NormedModule R_NormedModule ex_sv (CPid ex_pid) 10 0 [1 / 8; 3 / 4]
    (3 / 4 - 1 / 1000) 0 1 0 (3 / 4) (1 / 4)) as (grid & HV & HG).
  assert (HR : right_rules (step ex_sv) (step ex_sv) (jvp_step ex_sv) grid (0 : R_NormedModule) (1 : R_NormedModule)) by (intros ? ? ? ? _; apply ex_step_rule).
  specialize (HG HR). destruct (HV 0 0) as (Hgrid & _).
  destruct (ex_run 0 1 0 ltac:(lra)) as (q3 & q4 & _ & Htr & _). rewrite h2_1 in Htr.
  assert (Eg : grid = [(0, 1 / 4); (1 / 4, 1 / 4 + 3 / 10); (1 / 4 + 3 / 10, 3 / 4)]).
  { rewrite <- Hgrid, kept_plain. unfold plain. unfold ex_solve in Htr.
    refine (eq_trans (f_equal kept Htr) _). reflexivity. }
  clear Hgrid HV HR Htr. subst grid.
  (* restrict to the initial value *)
  set (D := fun dp dw => snd (st (ex_solve (0, dp) (1, dw) (const 0) (const (3 / 4))))).
  assert (H : @filterdiff R_AbsRing R_NormedModule R_NormedModule
     (fun w => solve_on (step ex_sv) [(0, 1 / 4); (1 / 4, 1 / 4 + 3 / 10); (1 / 4 + 3 / 10, 3 / 4)] 0 w) (locally 1) (fun dw => D 0 dw)).
  { assert (H1 : @filterdiff R_AbsRing R_NormedModule R_NormedModule (fun _ => 0) (locally 1) (fun _ => 0)) by exact (@fd_const R_NormedModule 0 1).
    assert (H2 : @filterdiff R_AbsRing R_NormedModule R_NormedModule (fun w => w) (locally 1) (fun w => w)) by apply filterdiff_id.
    exact (@filterdiff_comp' R_AbsRing R_NormedModule (prod_NormedModule R_AbsRing R_NormedModule R_NormedModule) R_NormedModule _
             (fun q => solve_on (step ex_sv) [(0, 1 / 4); (1 / 4, 1 / 4 + 3 / 10); (1 / 4 + 3 / 10, 3 / 4)] (fst q) (snd q)) 1 _
             (fun d => D (fst d) (snd d)) (diff_pair _ _ _ _ _ H1 H2) HG). }
  set (K := q2 (1 / 4) * q2 (3 / 10) * q2 (1 / 5)).
  assert (HK : @filterdiff R_AbsRing R_NormedModule R_NormedModule
     (fun w => solve_on (step ex_sv) [(0, 1 / 4); (1 / 4, 1 / 4 + 3 / 10); (1 / 4 + 3 / 10, 3 / 4)] 0 w) (locally 1) (fun dw => dw * K)).
  { assert (HH : is_derive (fun w : R => w * K) 1 K) by (auto_derive; [exact I|ring]).
    eapply filterdiff_ext; [|exact HH]. intros w. unfold solve_on, K. cbn. unfold heun, q2.
    match goal with |- ?a = ?b => change (@eq R a b) end. field. }
  assert (U := @filterdiff_unique_at R_NormedModule R_NormedModule _ 1 _ _ H HK 1). cbv beta in U.
  change (D 0 1 = K). rewrite U. match goal with |- ?a = ?b => change (@eq R a b) end. ring.
Qed.

Lemma ex_true_derivative :
  is_derive (fun w => fst (st (ex_solve (0, 0) (w, 0) (const 0) (const (3 / 4))))) 1
    (q2 (1 / 4) * (q2 (3 / 10) * q2 (1 / 5) + (-3 / 20) * ((3 / 10 - 1) * q2 (1 / 5) - q2 (3 / 10) * (1 / 5 - 1)))).
Proof.
  apply (is_derive_ext_loc (fun w => w * q2 (1 / 4) * q2 (h2 w) * q2 (1 / 2 - h2 w))).
  { assert (H1 : locally 1 (fun w : R => 9 / 10 < w)) by (apply (open_gt (9 / 10)); lra).
    assert (H2 : locally 1 (fun w : R => w < 11 / 10)) by (apply (open_lt (11 / 10)); lra).
    generalize (filter_and _ _ H1 H2). apply filter_imp. intros w Hw. destruct (ex_run 0 w 0 Hw) as (q3 & q4 & _ & _ & E & _).
    symmetry. exact E. }
  unfold h2, q2. auto_derive.
  - rewrite sqrt_1. repeat split; lra.
  - rewrite sqrt_1. field.
Qed.

Lemma pf_C67_adaptive_refuted :
  exists (sv : @solver R_NormedModule R_NormedModule R_NormedModule R_NormedModule) (c : @pid R_NormedModule R_NormedModule)
    (n num_steps : nat) (ts : list R) (floor p w0 t0 t1 dt0 l : R),
    (forall p a b w, step_derivative (step sv) p a b w (jvp_step sv p a b w)) /\
    is_derive (fun w => fst (st (solve n sv (CPid c) num_steps ts floor (p, 0) (w, 0) (const t0) (const t1) (const dt0)))) w0 l /\
    snd (st (solve n sv (CPid c) num_steps ts floor (p, 0) (w0, 1) (const t0) (const t1) (const dt0))) <> l.
Proof.
  exists ex_sv, ex_pid, 10%nat, 0%nat, [1 / 8; 3 / 4], (3 / 4 - 1 / 1000), 0, 1, 0, (3 / 4), (1 / 4).
  eexists. split; [exact ex_step_rule|]. split; [exact ex_true_derivative|].
  intros H. assert (E := eq_trans (eq_sym ex_tangent) H). unfold q2 in E. change (@eq R ((1 - 1 / 4 + 1 / 4 * (1 / 4) / 2) * (1 - 3 / 10 + 3 / 10 * (3 / 10) / 2) * (1 - 1 / 5 + 1 / 5 * (1 / 5) / 2)) ((1 - 1 / 4 + 1 / 4 * (1 / 4) / 2) * ((1 - 3 / 10 + 3 / 10 * (3 / 10) / 2) * (1 - 1 / 5 + 1 / 5 * (1 / 5) / 2) + (-3 / 20) * ((3 / 10 - 1) * (1 - 1 / 5 + 1 / 5 * (1 / 5) / 2) - (1 - 3 / 10 + 3 / 10 * (3 / 10) / 2) * (1 / 5 - 1))))) in E.
  lra.
Qed.
