(** Dopri8 has the declared order. *)
From Coq Require Import ZArith Reals QArith Qreals List Bool Arith Lia Lra.
From Verif Require Import Model_Result Model_RK Model_Tableaus Model_Orders Spec_RK Spec_Order Proof_OrderCheck Proof_OrderShipped.
Import ListNotations.
Open Scope R_scope.

Lemma pf_C30_dopri8 : has_order_up_to (m_tableaus dopri8) (m_stages dopri8) (/ IZR (10 ^ 16)) (m_order dopri8).
Proof.
  apply (order_digits 64); [lia|lia|]. vm_cast_no_check (eq_refl true).
Qed.
Lemma pf_C31_dopri8 : error_has_order_up_to (m_tableaus dopri8) (m_stages dopri8) (/ IZR (10 ^ 16)) (m_order dopri8 - 1).
Proof.
  apply (error_digits 64); [lia|lia|]. vm_cast_no_check (eq_refl true).
Qed.
