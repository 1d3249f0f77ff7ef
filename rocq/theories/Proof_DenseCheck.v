(** Checking the order conditions for values inside a step. *)
From Coq Require Import ZArith Reals QArith Qreals List Bool Arith Lia Lra.
From Verif Require Import Model_Result Model_RK Spec_RK Spec_Order Spec_DenseOrder Proof_Terms Proof_BSeries Proof_OrderCheck Proof_DenseOrder.
Import ListNotations.
Open Scope R_scope.

(** The condition for one power [j] of the fraction of the step. *)
Definition column_residual (tabs : list tableau) (s : nat) (W : tableau -> nat -> nat -> Q) (j : nat) (t : tree) : R :=
  sum_n s (fun i => Q2R (W (part_tableau tabs (root t)) j i) * weight tabs s i t) - (if (j =? size t)%nat then / INR (density t) else 0).

Section Eval.
  Context {V M A : Type}.
  Variable tabs : list tableau.
  Variable s : nat.
  Variables (vecQ : list Q -> V) (matQ : list (list Q) -> M) (times : V -> V -> V) (mat_vec : M -> V -> V)
    (dotV : V -> V -> A) (plusQ : A -> Q -> A).
  Variables (represents : V -> (nat -> R) -> Prop) (rel : A -> R -> Prop).
  Hypothesis H_vec : forall g, represents (vecQ (map g (seq 0 s))) (fun i => Q2R (g i)).
  Hypothesis H_times : forall u v f g, represents u f -> represents v g -> represents (times u v) (fun i => f i * g i).
  Hypothesis H_mat : forall a v f, represents v f ->
    represents (mat_vec (matQ (map (fun i => map (a i) (seq 0 s)) (seq 0 s))) v) (fun i => sum_n s (fun j => Q2R (a i j) * f j)).
  Hypothesis H_dot : forall u v f g, represents u f -> represents v g -> rel (dotV u v) (sum_n s (fun i => f i * g i)).
  Hypothesis H_plus : forall a x q, rel a x -> rel (plusQ a q) (x + Q2R q).
  Hypothesis H_ext : forall v f g, represents v f -> (forall i, f i = g i) -> represents v g.

  Definition dense_test (ok : A -> bool) (W : tableau -> nat -> nat -> Q) (d q : nat) : bool :=
    forallb (fun j => let us := map (fun tab => vecQ (map (W tab j) (seq 0 s))) tabs in
      all_trees s vecQ matQ times mat_vec (mats tabs s matQ) (cvecs tabs s vecQ) (length tabs) (fun t v =>
        ok (plusQ (dotV (nth (root t) us (vone s vecQ)) v) (if (j =? size t)%nat then -1 # Z.to_pos (densityZ t) else 0%Q))) q) (seq 0 d).
  Lemma dense_test_correct ok W d q (P : R -> Prop) : (forall a x, rel a x -> ok a = true -> P x) ->
    dense_test ok W d q = true -> forall j t, (j < d)%nat -> is_node t -> of_parts (length tabs) t -> (size t <= q)%nat ->
    P (column_residual tabs s W j t).
  Proof.
    intros HP H j t Hj Hn Hp Hs. unfold dense_test in H. rewrite forallb_forall in H.
    specialize (H j ltac:(apply in_seq; lia)). cbn zeta in H.
    destruct (all_trees_correct tabs s vecQ matQ times mat_vec represents H_vec H_times H_mat H_ext _ q H t Hn Hp Hs)
      as (u & v & E & Hn' & Hp' & W' & T).
    destruct E as (S' & D' & R' & _ & WE). eapply HP; [|exact T].
    unfold column_residual. rewrite S', D', R'.
    rewrite (sum_n_ext s _ (fun i => Q2R (W (part_tableau tabs (root u)) j i) * weight tabs s i u)) by (intros i _; rewrite WE; reflexivity).
    unfold Rminus.
    replace (- (if (j =? size u)%nat then / INR (density u) else 0)) with (Q2R (if (j =? size u)%nat then -1 # Z.to_pos (densityZ u) else 0%Q)).
    - apply H_plus. assert (HU : (root u < length tabs)%nat) by (destruct u as [|p l]; [destruct Hn'|]; cbn [of_parts] in Hp'; apply Hp').
      rewrite (nth_indep _ _ (vecQ (map (W no_tableau j) (seq 0 s)))) by (rewrite map_length; exact HU).
      rewrite (map_nth (fun tab => vecQ (map (W tab j) (seq 0 s)))). fold (part_tableau tabs (root u)).
      apply (H_dot _ _ (fun i => Q2R (W (part_tableau tabs (root u)) j i))); [apply H_vec|exact W'].
    - destruct (j =? size u)%nat; [|rewrite RMicromega.Q2R_0; ring].
      pose proof (density_pos u). rewrite densityZ_correct. unfold Q2R. cbn [Qnum Qden].
      rewrite Z2Pos.id by lia. rewrite <- INR_IZR_INZ. lra.
  Qed.
End Eval.

Definition dense_exact (tabs : list tableau) (s : nat) (W : tableau -> nat -> nat -> Q) (d q : nat) : bool :=
  dense_test tabs s (fun v => v) (fun m => m) (etimes mulQ) (emat_vec idQ mulQ addQ) (dot idQ mulQ addQ) plusQQ isZero W d q.
Definition dense_approx (k : Z) (tabs : list tableau) (s : nat) (eps : Q) (W : tableau -> nat -> nat -> Q) (d q : nat) : bool :=
  dense_test tabs s (vecB k) (matB k) (timesB k) (mat_vecB k) (dotB k) (plusB k) (below k eps) W d q.

(** From the conditions for all powers *)
Lemma columns_conditions tabs s W d q eps : (q < d)%nat ->
  (forall j t, (j < d)%nat -> is_node t -> of_parts (length tabs) t -> (size t <= q)%nat -> Rabs (column_residual tabs s W j t) <= eps) ->
  dense_conditions tabs s (fun tab => poly_weight (fun j i => Q2R (W tab j i)) d) (INR d * eps) q.
Proof.
  intros Hd H t th Hn Hp Hs Hth.
  assert (E : forall n, sum_n s (fun i => poly_weight (fun j i => Q2R (W (part_tableau tabs (root t)) j i)) n th i * weight tabs s i t)
      - (if (size t <? n)%nat then th ^ size t * / INR (density t) else 0)
      = sum_n n (fun j => th ^ j * column_residual tabs s W j t)).
  { induction n as [|n IH].
    - unfold poly_weight. cbn. rewrite (sum_n_ext s _ (fun _ => 0)) by (intros; ring).
      replace (sum_n s (fun _ => 0)) with 0 by (clear; induction s; cbn; lra). ring.
    - cbn [sum_n]. rewrite <- IH. unfold column_residual.
      rewrite (sum_n_ext s (fun i => poly_weight _ (S n) th i * _) (fun i => poly_weight (fun j i => Q2R (W (part_tableau tabs (root t)) j i)) n th i * weight tabs s i t + th ^ n * (Q2R (W (part_tableau tabs (root t)) n i) * weight tabs s i t)))
        by (intros i _; unfold poly_weight; cbn [sum_n]; ring).
      rewrite sum_n_plus, sum_n_mult.
      destruct (Nat.ltb_spec (size t) (S n)), (Nat.ltb_spec (size t) n), (Nat.eqb_spec n (size t)); try lia; subst; ring. }
  specialize (E d). destruct (Nat.ltb_spec (size t) d); [|lia]. rewrite E.
  assert (B : forall n, (n <= d)%nat -> Rabs (sum_n n (fun j => th ^ j * column_residual tabs s W j t)) <= INR n * eps).
  { induction n as [|n IH]; intros Hn'; [cbn; rewrite Rabs_R0; lra|]. rewrite S_INR. cbn [sum_n].
    eapply Rle_trans; [apply Rabs_triang|]. rewrite Rmult_plus_distr_r, Rmult_1_l. apply Rplus_le_compat; [apply IH; lia|].
    rewrite Rabs_mult, Rabs_pos_eq by (apply pow_le; lra). rewrite <- (Rmult_1_l eps).
    apply Rmult_le_compat; [apply pow_le; lra|apply Rabs_pos|apply pow_le_1; lra|apply H; auto; lia]. }
  apply B. lia.
Qed.

Lemma dense_exact_columns tabs s W d q : dense_exact tabs s W d q = true ->
  forall j t, (j < d)%nat -> is_node t -> of_parts (length tabs) t -> (size t <= q)%nat -> column_residual tabs s W j t = 0.
Proof.
  intros H j t Hj Hn Hp Hs.
  exact (dense_test_correct tabs s _ _ _ _ _ _ (erepresents relQ s) relQ (Q_vec s) (Q_times s) (Q_mat s) (Q_dot s) Q_plus (Q_ext s) _ _ _ _ (fun x => x = 0) isZero_correct H j t Hj Hn Hp Hs).
Qed.
Lemma dense_approx_columns k tabs s eps W d q : (16 <= k)%Z -> dense_approx k tabs s eps W d q = true ->
  forall j t, (j < d)%nat -> is_node t -> of_parts (length tabs) t -> (size t <= q)%nat -> Rabs (column_residual tabs s W j t) <= Q2R eps.
Proof.
  intros Hk H j t Hj Hn Hp Hs.
  eapply (dense_test_correct tabs s _ _ _ _ _ _ (vecrB k s) (relB k) (B_vec k Hk s) (B_times k Hk s) (B_mat k Hk s) (B_dot k Hk s) (B_plus k Hk) (B_ext k s) _ _ _ _ (fun x => Rabs x <= Q2R eps) (below_correct k Hk eps) H j t Hj Hn Hp Hs).
Qed.
