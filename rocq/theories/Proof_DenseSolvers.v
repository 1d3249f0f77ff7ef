(** The dense output of the shipped solvers. *)
From Coq Require Import ZArith Reals QArith Qreals Qabs List Bool Arith Lia Lra.
From Verif Require Import Model_Result Model_RK Model_Tableaus Model_Terms Model_Orders Model_Interp Model_DenseOutput.
From Verif Require Import Spec_RK Spec_Order Spec_DenseOrder Proof_Terms Proof_BSeries Proof_RK Proof_RKProp Proof_Order Proof_OrderStep
  Proof_OrderCheck Proof_OrderShipped Proof_OrderSolvers Proof_DenseOrder Proof_DenseCheck Proof_DenseMethods.
Import ListNotations.
Open Scope R_scope.

Definition tabs_of (d : dense_method) := m_tableaus (dm_method d).
Definition stages (d : dense_method) := m_stages (dm_method d).

(** ** The order conditions *)
Definition good (d : dense_method) (q : nat) (eps : R) : Prop :=
  exists W deg e, interpolates (dm_interpolation d) (tabs_of d) (stages d) (fun tab => poly_weight (fun j i => Q2R (W tab j i)) deg) /\
    (q < deg <= 10)%nat /\ INR deg * e <= eps /\
    forall j t, (j < deg)%nat -> is_node t -> of_parts (length (tabs_of d)) t -> (size t <= q)%nat ->
      Rabs (column_residual (tabs_of d) (stages d) W j t) <= e.

Lemma good_exact d q W deg : interpolates (dm_interpolation d) (tabs_of d) (stages d) (fun tab => poly_weight (fun j i => Q2R (W tab j i)) deg) ->
  (q < deg <= 10)%nat -> dense_exact (tabs_of d) (stages d) W deg q = true -> good d q 0.
Proof.
  intros HI Hq H. exists W, deg, 0. split; [exact HI|]. split; [exact Hq|]. split; [lra|]. intros j t Hj Hn Hp Hs.
  rewrite (dense_exact_columns _ _ _ _ _ H j t Hj Hn Hp Hs), Rabs_R0. lra.
Qed.
Lemma good_approx d q W deg k e eps : interpolates (dm_interpolation d) (tabs_of d) (stages d) (fun tab => poly_weight (fun j i => Q2R (W tab j i)) deg) ->
  (16 <= k)%Z -> (q < deg <= 10)%nat -> dense_approx k (tabs_of d) (stages d) e W deg q = true -> INR deg * Q2R e <= eps -> good d q eps.
Proof.
  intros HI Hk Hq H He. exists W, deg, (Q2R e). split; [exact HI|]. split; [exact Hq|]. split; [exact He|]. intros j t Hj Hn Hp Hs.
  apply (dense_approx_columns k (tabs_of d) (stages d) e W deg q Hk H); assumption.
Qed.

Lemma hermite_good d tab q : tabs_of d = [tab] -> dm_interpolation d = hermite_from_k -> (0 < stages d)%nat -> (q < 4)%nat ->
  dense_exact (tabs_of d) (stages d) (fun tab => hermite_W (tab_b_sol tab) (stages d)) 4 q = true -> good d q 0.
Proof. intros Ht Hi Hs Hq H. refine (good_exact d q _ 4%nat _ _ H); [|lia]. rewrite Ht, Hi. apply hermite_interpolates, Hs. Qed.

Ltac hermite := eapply hermite_good; [reflexivity|reflexivity|vm_compute; lia|lia|vm_compute; reflexivity].

Lemma good_heun : good heun_dense 2 0. Proof. hermite. Qed.
Lemma good_midpoint : good midpoint_dense 1 0. Proof. hermite. Qed.
Lemma good_ralston : good ralston_dense 1 0. Proof. hermite. Qed.
Lemma good_bosh3 : good bosh3_dense 3 0. Proof. hermite. Qed.
Lemma good_kvaerno3 : good kvaerno3_dense 3 0. Proof. hermite. Qed.
Lemma good_kvaerno4 : good kvaerno4_dense 3 0. Proof. hermite. Qed.
Lemma good_dopri5 : good dopri5_dense 4 0.
Proof. eapply good_exact; [apply (fourth_interpolates dopri5_tableau); [vm_compute; lia|reflexivity]|lia|vm_compute; reflexivity]. Qed.
Lemma good_sil3 : good sil3_dense 2 0.
Proof. eapply good_exact; [apply (sil3_interpolates sil3_explicit_tableau sil3_implicit_tableau); vm_compute; lia|lia|vm_compute; reflexivity]. Qed.

Lemma small_eps (deg : nat) (e : Q) (b : Z) : (0 < b)%Z -> (Z.of_nat deg * Qnum e * b <=? Zpos (Qden e))%Z = true -> INR deg * Q2R e <= / IZR b.
Proof.
  intros Hb H. apply Z.leb_le, IZR_le in H. rewrite !mult_IZR, <- INR_IZR_INZ in H. unfold Q2R.
  assert (0 < IZR b) by (apply IZR_lt; exact Hb). assert (0 < IZR (Zpos (Qden e))) by (apply IZR_lt; lia).
  apply Rmult_le_reg_r with (IZR b * IZR (Zpos (Qden e))); [nra|].
  replace (INR deg * (IZR (Qnum e) * / IZR (Zpos (Qden e))) * (IZR b * IZR (Zpos (Qden e)))) with (INR deg * IZR (Qnum e) * IZR b) by (field; lra).
  replace (/ IZR b * (IZR b * IZR (Zpos (Qden e)))) with (IZR (Zpos (Qden e))) by (field; lra). exact H.
Qed.
Ltac approx k e := apply (good_approx _ _ _ _ k e); [|lia|lia|vm_cast_no_check (eq_refl true)|apply small_eps; [lia|vm_compute; reflexivity]].
Lemma good_tsit5 : good tsit5_dense 4 (/ IZR (10 ^ 15)).
Proof. eapply (good_approx _ _ _ _ 80 (1 # 10 ^ 16)); [apply (tsit5_interpolates tsit5_tableau)|lia|lia|vm_cast_no_check (eq_refl true)|apply small_eps; [lia|vm_compute; reflexivity]]. Qed.
Lemma good_dopri8 : good dopri8_dense 5 (/ IZR (10 ^ 13)).
Proof. eapply (good_approx _ _ _ _ 72 (1 # 10 ^ 14)); [apply (dopri8_interpolates dopri8_tableau)|lia|lia|vm_cast_no_check (eq_refl true)|apply small_eps; [lia|vm_compute; reflexivity]]. Qed.
Lemma good_kvaerno5 : good kvaerno5_dense 3 (/ IZR (10 ^ 15)).
Proof. eapply (good_approx _ _ _ _ 72 (1 # 10 ^ 16)); [apply (hermite_interpolates kvaerno5_tableau); vm_compute; lia|lia|lia|vm_cast_no_check (eq_refl true)|apply small_eps; [lia|vm_compute; reflexivity]]. Qed.
Ltac rows := intros row H; repeat (destruct H as [<-|H]; [reflexivity|]); destruct H.
Lemma good_kencarp3 : good kencarp3_dense 2 (/ IZR (10 ^ 23)).
Proof. eapply (good_approx _ _ _ _ 112 (1 # 10 ^ 24)); [apply (kencarp_interpolates kencarp3_coeffs 2); [reflexivity|rows]|lia|lia|vm_cast_no_check (eq_refl true)|apply small_eps; [lia|vm_compute; reflexivity]]. Qed.
Lemma good_kencarp4 : good kencarp4_dense 3 (/ IZR (10 ^ 23)).
Proof. eapply (good_approx _ _ _ _ 112 (1 # 10 ^ 24)); [apply (kencarp_interpolates kencarp4_coeffs 3); [reflexivity|rows]|lia|lia|vm_cast_no_check (eq_refl true)|apply small_eps; [lia|vm_compute; reflexivity]]. Qed.
Lemma good_kencarp5 : good kencarp5_dense 3 (/ IZR (10 ^ 9)).
Proof. eapply (good_approx _ _ _ _ 64 (1 # 10 ^ 10)); [apply (kencarp_interpolates kencarp5_coeffs 3); [reflexivity|rows]|lia|lia|vm_cast_no_check (eq_refl true)|apply small_eps; [lia|vm_compute; reflexivity]]. Qed.
