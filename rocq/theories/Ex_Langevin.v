(** Instances for the theorems about the Langevin solvers. *)
From Coq Require Import Reals List Bool Lia Lra Psatz.
From Coquelicot Require Import Coquelicot.
From Verif Require Import Model_Langevin Spec_Langevin Proof_LangevinHist Proof_LangevinExact.
Import ListNotations.
Open Scope R_scope.

(** The solution [tanh] of a Langevin equation with a cubic gradient *)
Definition ex_grad (x : R) : R := 2 * x - 2 * x ^ 3 + x ^ 2.
Definition ex_X (s : R) : R := 1 - 2 / (exp (2 * s) + 1).
Definition ex_V (s : R) : R := 1 - ex_X s ^ 2.
Lemma ex_smooth : four_times_differentiable ex_grad.
Proof.
  exists (fun x => 2 - 6 * x ^ 2 + 2 * x), (fun x => - 12 * x + 2), (fun _ => - 12), (fun _ => 0). unfold ex_grad.
  split; [|split; [|split; [|split]]]; intros x; try (auto_derive; [trivial|ring]). apply continuous_const.
Qed.
Lemma ex_X_derive s : is_derive ex_X s (ex_V s).
Proof.
  unfold ex_V, ex_X. pose proof (exp_pos (2 * s)). auto_derive; [lra|]. set (e := exp (2 * s)) in *. field. lra.
Qed.
Lemma ex_solves : langevin_equation 1 1 1 (fun s => ex_grad (ex_X s)) (fun s => 1 + 2 * 0 * s + 3 * 0 * s ^ 2) ex_X ex_V.
Proof.
  intros s. split; [apply ex_X_derive|]. unfold ex_V at 1. evar_last.
  - apply (is_derive_minus (fun _ => 1) (fun s => ex_X s ^ 2)); [apply is_derive_const|].
    apply (is_derive_ext (fun s => ex_X s * ex_X s)); [intros; cbn; ring|].
    apply (is_derive_mult ex_X ex_X s _ _ (ex_X_derive s) (ex_X_derive s)). intros. apply Rmult_comm.
  - unfold minus, plus, opp, mult, zero. cbn. unfold ex_grad, ex_V. ring.
Qed.
Lemma ex_X0 : ex_X 0 = 0 /\ ex_V 0 = 1.
Proof. unfold ex_V, ex_X. rewrite Rmult_0_r, exp_0. split; field. Qed.

(** A history with steps of size 1/2, 1/2 after [init] with 1 *)
Lemma ex_history : exists y st, history (ALIGN (1 / 10)) [tt] (free_terms 1) [1 / 2; 1 / 2; 1] y st.
Proof.
  destruct (free_init 1 1 (fun _ => 0)) as [st Hi].
  assert (H : history (ALIGN (1 / 10)) [tt] (free_terms 1) [1] ((fun _ => 0), (fun _ => 1)) st) by (constructor; exact Hi).
  assert (Step : forall hs y st, history (ALIGN (1 / 10)) [tt] (free_terms 1) hs y st ->
    exists y' st', history (ALIGN (1 / 10)) [tt] (free_terms 1) (1 / 2 :: hs) y' st').
  { clear. intros hs y st H.
    destruct (langevin_step (ALIGN (1 / 10)) [tt] (free_terms 1) true (1 / 2) no_noise y st StaticFalse) as [[[y' e] st']|] eqn:Es.
    - exists y', st'. econstructor; eassumption.
    - exfalso. revert Es. apply (proj1 (proj2 (pf_C53_raises unit (1 / 10) [tt] (free_terms 1)) hs y true (1 / 2) no_noise StaticFalse)).
      exact H. }
  destruct (Step _ _ _ H) as (y' & st' & H'). exact (Step _ _ _ H').
Qed.
Lemma ex_none_drifts : none_drifts [1 / 2; 1 / 2; 1].
Proof.
  cbn. split; [left; reflexivity|]. split; [|trivial]. right. unfold taken_equal.
  replace (1 - 1 / 2) with (1 / 2) by field. rewrite Rabs_pos_eq; lra.
Qed.
