(** The shipped tableaus have the declared orders. *)
From Coq Require Import ZArith Reals QArith Qreals List Bool Arith Lia Lra.
From Verif Require Import Model_Result Model_RK Model_Tableaus Model_Orders Spec_RK Spec_Order Proof_OrderCheck Ex_Order.
Import ListNotations.
Open Scope R_scope.

Lemma Q2R_inv (p : positive) : Q2R (1 # p) = / IZR (Zpos p).
Proof. unfold Q2R. cbn. lra. Qed.

Lemma order_digits k m d : (16 <= k)%Z -> (0 <= d)%Z ->
  order_approx k (m_stages m) (m_tableaus m) (1 # Z.to_pos (10 ^ d)) (m_order m) = true ->
  has_order_up_to (m_tableaus m) (m_stages m) (/ IZR (10 ^ d)) (m_order m).
Proof.
  intros Hk Hd C. apply order_approx_correct in C; [|exact Hk]. rewrite Q2R_inv, Z2Pos.id in C; [exact C|]. apply Z.pow_pos_nonneg; lia.
Qed.
Lemma error_digits k m d : (16 <= k)%Z -> (0 <= d)%Z ->
  error_approx k (m_stages m) (m_tableaus m) (1 # Z.to_pos (10 ^ d)) (m_order m - 1) = true ->
  error_has_order_up_to (m_tableaus m) (m_stages m) (/ IZR (10 ^ d)) (m_order m - 1).
Proof.
  intros Hk Hd C. apply error_approx_correct in C; [|exact Hk]. rewrite Q2R_inv, Z2Pos.id in C; [exact C|]. apply Z.pow_pos_nonneg; lia.
Qed.

Lemma order_digits' k tabs s p d : (16 <= k)%Z -> (0 <= d)%Z ->
  order_approx k s tabs (1 # Z.to_pos (10 ^ d)) p = true -> has_order_up_to tabs s (/ IZR (10 ^ d)) p.
Proof.
  intros Hk Hd C. apply order_approx_correct in C; [|exact Hk]. rewrite Q2R_inv, Z2Pos.id in C; [exact C|]. apply Z.pow_pos_nonneg; lia.
Qed.
Ltac each2 H := repeat (destruct H as [H|H]; [injection H as <- <-|]); [..|destruct H].
Ltac each H := repeat (destruct H as [<-|H]); [..|destruct H].

Lemma pf_C30_exact_methods : forall m : rk_method,
  In m [heun; midpoint; ralston; bosh3; dopri5; kvaerno3; kvaerno4; sil3] ->
  has_order (m_tableaus m) (m_stages m) (m_order m) /\ ~ has_order (m_tableaus m) (m_stages m) (S (m_order m)).
Proof.
  intros m H.
  assert (C : order_exact (m_tableaus m) (m_stages m) (m_order m) = true /\ order_exact (m_tableaus m) (m_stages m) (S (m_order m)) = false).
  { each H; split; vm_compute; reflexivity. }
  destruct C as (C1 & C2). split; [apply order_exact_correct, C1|apply order_exact_false, C2].
Qed.
Lemma pf_C31_exact_methods : forall m : rk_method,
  In m [heun; midpoint; ralston; bosh3; dopri5; kvaerno3; kvaerno4] ->
  error_has_order (m_tableaus m) (m_stages m) (m_order m - 1) /\ ~ error_has_order (m_tableaus m) (m_stages m) (m_order m).
Proof.
  intros m H.
  assert (C : error_exact (m_tableaus m) (m_stages m) (m_order m - 1) = true /\ error_exact (m_tableaus m) (m_stages m) (m_order m) = false).
  { each H; split; vm_compute; reflexivity. }
  destruct C as (C1 & C2). split; [apply error_exact_correct, C1|apply error_exact_false, C2].
Qed.
Lemma pf_C31_sil3 : error_has_order (m_tableaus sil3) (m_stages sil3) 2 /\ ~ error_has_order (m_tableaus sil3) (m_stages sil3) 3.
Proof. split; [apply error_exact_correct|apply error_exact_false]; vm_compute; reflexivity. Qed.

Lemma pf_C30_rounded_methods : forall (m : rk_method) (digits : Z),
  In (m, digits) [(tsit5, 30); (kvaerno5, 16); (kencarp3, 24); (kencarp4, 24); (kencarp5, 11)]%Z ->
  has_order_up_to (m_tableaus m) (m_stages m) (/ IZR (10 ^ digits)) (m_order m).
Proof.
  intros m d H. each2 H; [apply (order_digits 112)|apply (order_digits 64)|apply (order_digits 96)|apply (order_digits 96)|apply (order_digits 64)]; try lia; vm_cast_no_check (eq_refl true).
Qed.
Lemma pf_C31_rounded_methods : forall (m : rk_method) (digits : Z),
  In (m, digits) [(tsit5, 30); (kvaerno5, 16); (kencarp3, 24); (kencarp4, 24); (kencarp5, 11)]%Z ->
  error_has_order_up_to (m_tableaus m) (m_stages m) (/ IZR (10 ^ digits)) (m_order m - 1).
Proof.
  intros m d H. each2 H; [apply (error_digits 112)|apply (error_digits 64)|apply (error_digits 96)|apply (error_digits 96)|apply (error_digits 64)]; try lia; vm_cast_no_check (eq_refl true).
Qed.

Lemma pf_C30_kencarp5_refuted :
  (exists t, is_node t /\ of_parts 2 t /\ (size t <= m_order kencarp5)%nat /\
     / IZR (10 ^ 12) < Rabs (residual (m_tableaus kencarp5) (m_stages kencarp5) t)) /\
  has_order_up_to [kencarp5_explicit_tableau; kencarp5_implicit_corrected] 8 (/ IZR (10 ^ 16)) (m_order kencarp5).
Proof.
  split.
  - assert (C : order_missed 64 (m_stages kencarp5) (m_tableaus kencarp5) (1 # 10 ^ 12) (m_order kencarp5) = true) by (vm_cast_no_check (eq_refl true)).
    apply order_missed_correct in C; [|lia]. destruct C as (t & Hn & Hp & Hs & HR). exists t. repeat (split; [assumption|]).
    rewrite Q2R_inv in HR. change (10 ^ 12)%Z with (Zpos (10 ^ 12)). exact HR.
  - apply (order_digits' 64); [lia|lia|]. vm_cast_no_check (eq_refl true).
Qed.
Lemma pf_C30_sil3_third_order_refuted :
  ~ has_order [sil3_explicit_tableau] 4 3.
Proof. apply order_exact_false. vm_compute. reflexivity. Qed.
