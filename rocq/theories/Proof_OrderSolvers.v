(** The shipped explicit solvers on smooth equations. *)
From Coq Require Import ZArith Reals QArith Qreals List Bool Arith Lia Lra.
From Verif Require Import Model_Result Model_RK Model_Tableaus Model_Terms Model_Orders Spec_RK Spec_Order.
From Verif Require Import Proof_OrderStep Proof_OrderShipped Proof_OrderDopri8 Proof_RKShipped.
Import ListNotations.
Open Scope R_scope.

Section Solvers.
  Context {I : Type}.
  Notation Y := (I -> R).

  Lemma one_part_valid tab (f : R -> Y -> Y) : post_init_ok tab = true -> valid_parts (num_stages tab) [(tab, ode_term f)].
  Proof.
    intros H. split; [discriminate|]. split.
    - intros tab' m [E|[]]. injection E as <- <-. repeat split; auto. intros a b u v c x. cbn. ring.
    - intros [|p] [|q] tab' tab'' m m' Hp Hq _ _; auto; cbn in Hp, Hq; try (destruct p; discriminate); destruct q; discriminate.
  Qed.

  Lemma pf_C30_solvers : forall (m : rk_method) (tab : tableau) (sv : solver I I R) (f : R -> Y -> Y) (t0 : R) (y0 : Y) (T : R) (y : R -> Y),
    In m [heun; midpoint; ralston; bosh3; dopri5] -> m_tableaus m = [tab] ->
    sv_parts sv = [(tab, ode_term f)] ->
    0 < T -> smooth (m_order m) f t0 y0 -> exact_solution [f] t0 y0 T y ->
    exists C h0, 0 < h0 /\ forall h others state made_jump, 0 < h <= h0 ->
      coherent (sv_parts sv) t0 y0 made_jump state ->
      let out := rk_step sv t0 (t0 + h) y0 others state made_jump in
      bounded (fun x => ro_y out x - y (t0 + h) x) (C * h ^ (m_order m + 1)) /\
      exists e, ro_error out = Some e /\ bounded e (C * h ^ m_order m).
  Proof.
    intros m tab sv f t0 y0 T y Hm Ht PS HT SM EX.
    assert (HM : In m [heun; midpoint; ralston; bosh3; dopri5; kvaerno3; kvaerno4; sil3]) by (cbn in Hm |- *; tauto).
    assert (HE : In m [heun; midpoint; ralston; bosh3; dopri5; kvaerno3; kvaerno4]) by (cbn in Hm |- *; tauto).
    destruct (pf_C30_exact_methods m HM) as (O & _). destruct (pf_C31_exact_methods m HE) as (E & _).
    assert (X : post_init_ok tab = true /\ implicit tab = false /\ (fsal tab = true -> ends_at_ends tab) /\ (1 <= m_order m)%nat /\ m_stages m = num_stages tab).
    { repeat (destruct Hm as [<-|Hm]; [cbn in Ht; injection Ht as <-; repeat split; try (vm_compute; reflexivity); try (cbn; lia)|]); try destruct Hm.
      all: try (vm_compute; discriminate). }
    destruct X as (X1 & X2 & X3 & X4 & X5). rewrite Ht, X5 in O, E.
    destruct (pf_C30_step sv [(tab, f)] (num_stages tab) (m_order m) (m_order m - 1) t0 y0 T y) as (C & h0 & H0 & H); auto.
    - rewrite PS. apply one_part_valid, X1.
    - rewrite PS. intros tab' m' [Eq|[]]. injection Eq as <- <-. exact X2.
    - rewrite PS. intros tab' m' [Eq|[]]. injection Eq as <- <-. exact X3.
    - lia.
    - intros g [<-|[]]. exact SM.
    - exists C, h0. split; [exact H0|]. intros h others state mj Hh CO. specialize (H h others state mj Hh CO).
      replace (m_order m + 1)%nat with (S (m_order m)) by lia. replace (S (m_order m - 1)) with (m_order m) in H by lia. exact H.
  Qed.

  Lemma pf_C30_rounded_solvers : forall (f : R -> Y -> Y) (m : rk_method) (digits : Z) (tab : tableau) (t0 : R) (y0 : Y) (T : R) (y : R -> Y),
    In (m, digits) [(tsit5, 30); (dopri8, 16)]%Z -> m_tableaus m = [tab] ->
    0 < T -> smooth (m_order m) f t0 y0 -> exact_solution [f] t0 y0 T y ->
    exists K, forall sv : solver I I R, sv_parts sv = [(tab, ode_term f)] ->
    exists C h0, 0 < h0 /\ forall h others state made_jump, 0 < h <= h0 ->
      coherent (sv_parts sv) t0 y0 made_jump state ->
      let out := rk_step sv t0 (t0 + h) y0 others state made_jump in
      bounded (fun x => ro_y out x - y (t0 + h) x) (K * / IZR (10 ^ digits) * h + C * h ^ (m_order m + 1)) /\
      exists e, ro_error out = Some e /\ bounded e (K * / IZR (10 ^ digits) * h + C * h ^ m_order m).
  Proof.
    intros f m d tab t0 y0 T y Hm Ht HT SM EX.
    assert (X : post_init_ok tab = true /\ implicit tab = false /\ (fsal tab = true -> ends_at_ends tab) /\ (1 <= m_order m)%nat /\ m_stages m = num_stages tab /\ (0 <= d)%Z).
    { destruct Hm as [Hm|[Hm|[]]]; injection Hm as <- <-; cbn in Ht; injection Ht as <-; repeat split; try (vm_compute; reflexivity); try (cbn; lia); vm_compute; discriminate. }
    assert (O : has_order_up_to [tab] (num_stages tab) (/ IZR (10 ^ d)) (m_order m) /\ error_has_order_up_to [tab] (num_stages tab) (/ IZR (10 ^ d)) (m_order m - 1)).
    { destruct X as (_ & _ & _ & _ & X5 & _). rewrite <- Ht, <- X5. destruct Hm as [Hm|[Hm|[]]]; injection Hm as <- <-.
      - split; [apply pf_C30_rounded_methods|apply pf_C31_rounded_methods]; left; reflexivity.
      - split; [apply pf_C30_dopri8|apply pf_C31_dopri8]. }
    destruct O as (O & E). destruct X as (X1 & X2 & X3 & X4 & X5 & X6).
    destruct (pf_C30_rounded_step [f] (m_order m) (m_order m - 1) t0 y0 T y) as (K & H); [lia|exact HT|intros g [<-|[]]; exact SM|exact EX|].
    exists K. intros sv PS.
    destruct (H sv [tab] (num_stages tab) (/ IZR (10 ^ d))) as (C & h0 & H0 & HB); auto.
    - rewrite PS. apply one_part_valid, X1.
    - rewrite PS. intros tab' m' [Eq|[]]. injection Eq as <- <-. exact X2.
    - rewrite PS. intros tab' m' [Eq|[]]. injection Eq as <- <-. exact X3.
    - left. apply Rinv_0_lt_compat, IZR_lt, Z.pow_pos_nonneg; lia.
    - exists C, h0. split; [exact H0|]. intros h others state mj Hh CO. specialize (HB h others state mj Hh CO).
      replace (m_order m + 1)%nat with (S (m_order m)) by lia. replace (S (m_order m - 1)) with (m_order m) in HB by lia. exact HB.
  Qed.
End Solvers.
