(** The error estimate of a Runge--Kutta step is at most proportional to the length of the step. *)
From Coq Require Import Reals QArith Qreals List Bool Arith Lia Lra.
From Verif Require Import Model_Result Model_RK Spec_RK Proof_RK Proof_RKProp Spec_RKError.
Import ListNotations.
Open Scope R_scope.

Lemma sum_n_abs n (f g : nat -> R) b :
  (forall i, (i < n)%nat -> Rabs (f i) <= b * g i) -> Rabs (sum_n n f) <= b * sum_n n g.
Proof.
  induction n as [|n IH]; intros H; cbn [sum_n]; [rewrite Rabs_R0; lra|].
  eapply Rle_trans; [apply Rabs_triang|].
  pose proof (IH (fun i Hi => H i (Nat.lt_lt_succ_r _ _ Hi))). pose proof (H n (Nat.lt_succ_diag_r n)). lra.
Qed.

Section Err.
  Context {I J C : Type}.
  Lemma pf_C73_rk_error (sv : solver I J C) (s : nat) (t0 t1 : R) (y0 : I -> R) (others : bool)
        (state : solver_state J) (made_jump : bool) (M : R) :
    valid_parts s (sv_parts sv) -> exact_root_finder (sv_root_finder sv) ->
    fsal_at_ends (sv_parts sv) -> coherent (sv_parts sv) t0 y0 made_jump state ->
    bounded_terms (sv_parts sv) M -> t0 <= t1 ->
    let out := rk_step sv t0 t1 y0 others state made_jump in
    is_okay (ro_result out) = true ->
    exists e, ro_error out = Some e /\
      forall x, Rabs (e x) <= M * error_weight s (sv_parts sv) * (t1 - t0).
  Proof.
    intros V EX EE CO HB Ht out OK.
    destruct (pf_C36_stages sv s t0 t1 y0 others state made_jump V EX EE CO) as (H & _).
    destruct (H OK) as (k & EQ & _ & (e & He & Hx) & _). exists e. split; [exact He|].
    intros x. rewrite Hx. unfold rk_error, combination.
    replace (M * error_weight s (sv_parts sv) * (t1 - t0)) with (M * (t1 - t0) * error_weight s (sv_parts sv)) by ring.
    unfold error_weight. apply sum_n_abs. intros m Hm.
    destruct (nth_error (sv_parts sv) m) as [(tab & trm)|] eqn:E; [|rewrite Rabs_R0; lra].
    apply sum_n_abs. intros i Hi. rewrite Rabs_mult.
    rewrite (EQ m tab trm i E Hi x). rewrite Rmult_comm. apply Rmult_le_compat_r; [apply Rabs_pos|].
    apply (HB tab trm); [|exact Ht]. apply (nth_error_In _ _ E).
  Qed.
End Err.
