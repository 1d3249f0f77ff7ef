(** Strong order one: the theorems. *)
From Coq Require Import ZArith Reals List Lra Lia FunctionalExtensionality.
From Verif Require Import Model_Result Model_Loop Model_RK Model_Terms Model_Solvers Model_SRK Spec_Loop Spec_Solvers Spec_SRK Spec_Strong
  Spec_StrongEuler Spec_Milstein Proof_PropLoop Proof_Strong Proof_StrongProps Proof_MilsteinFamily Proof_Milstein.
Import ListNotations.
Open Scope R_scope.

Lemma pf_C72_ito (I K : Type) (is : list I) (ks : list K) (eqb : K -> K -> bool)
  (jvp : ((I -> R) -> I * K -> R) -> (I -> R) -> (I -> R) -> I * K -> R) (f : R -> (I -> R) -> (I -> R)) (g : R -> (I -> R) -> (I * K -> R))
  (Dg : R -> (I -> R) -> (I -> R) -> (I * K -> R)) (t0 t1 L M : R) :
  NoDup ks -> (forall k l, eqb k l = true <-> k = l) -> correct_jvp jvp -> differential g Dg -> commutative ks g Dg ->
  t0 <= t1 -> 0 <= L -> 0 <= M -> milstein_lipschitz is ks t0 t1 L f g Dg ->
  exists C, 0 <= C /\
  forall (Omega : Type) (P : space Omega) (times : R -> Prop) (W : Omega -> R -> K -> R) (J : Omega -> R -> R -> K -> K -> R)
         (x : R -> Omega -> I -> R) (y0 : Omega -> I -> R) (ts : list R) (H : R),
  probability P -> brownian P ks times W -> fourth_moments P ks times W -> ito_integrals ks times W J ->
  taylor_solution P is ks times f g Dg W J x M -> known_vector P is t0 y0 ->
  0 <= H -> grid t0 ts H -> last ts t0 <= t1 -> (forall t, In t (t0 :: ts) -> times t) ->
  mean_square P is (fun w i => value (fun w => ito_milstein eqb ks jvp (ode_term f) (dW_term ks g (W w))) t0 ts y0 w i - x (last ts t0) w i)
  <= C * (mean_square P is (fun w i => y0 w i - x t0 w i) + H ^ 2).
Proof.
  intros Hd Heqb HJ HD Hcom H01 HL HM Hlip.
  exists (exp ((1 + 2 * (1 + (1 + (t1 - t0) + INR (length (pairs ks)) * (1 + 8 * (t1 - t0))) * L)) * (t1 - t0)) * (1 + 3 * M * (t1 - t0))).
  split.
  { apply Rmult_le_pos; [left; apply exp_pos|]. assert (0 <= M * (t1 - t0)) by (apply Rmult_le_pos; lra). lra. }
  intros Omega P times W J x y0 ts H HP HW HW4 HJJ [Hx Hloc] Hy HH Hg Hlast HT.
  rewrite (steps_iterate _ (fstep (pairs ks) (variable W eqb) f (coefficient g Dg)) ts).
  2:{ intros s t X w. now apply ito_step. }
  apply (milstein_global P HP is ks times W HW HW4 eqb Heqb g Dg t0 t1 f L M x ts y0 H); auto.
  - intros s u v Hs. rewrite coefficients_lipschitz. specialize (Hlip s u v Hs).
    set (T := total ks (fun k => total ks _)) in *.
    assert (0 <= T) by (unfold T; apply total_nonneg; intros; apply total_nonneg; intros; apply total_nonneg; intros; apply pow2_ge_0). lra.
  - intros s t Ts Tt Hst. unfold local_error. rewrite (ito_taylor ks times W eqb Heqb g Dg Hcom J f x s t HJJ Ts Tt Hst).
    exact (Hloc s t Ts Tt Hst).
Qed.

Lemma pf_C72_stratonovich (I K : Type) (is : list I) (ks : list K) (eqb : K -> K -> bool)
  (jvp : ((I -> R) -> I -> R) -> (I -> R) -> (I -> R) -> I -> R) (f : R -> (I -> R) -> (I -> R)) (g : R -> (I -> R) -> (I * K -> R))
  (Dg : R -> (I -> R) -> (I -> R) -> (I * K -> R)) (t0 t1 L M : R) :
  NoDup ks -> (forall k l, eqb k l = true <-> k = l) -> correct_jvp jvp -> differential g Dg -> commutative ks g Dg ->
  t0 <= t1 -> 0 <= L -> 0 <= M -> milstein_lipschitz is ks t0 t1 L f g Dg ->
  exists C, 0 <= C /\
  forall (Omega : Type) (P : space Omega) (times : R -> Prop) (W : Omega -> R -> K -> R) (J : Omega -> R -> R -> K -> K -> R)
         (x : R -> Omega -> I -> R) (y0 : Omega -> I -> R) (ts : list R) (H : R),
  probability P -> brownian P ks times W -> fourth_moments P ks times W -> stratonovich_integrals ks times W J ->
  taylor_solution P is ks times f g Dg W J x M -> known_vector P is t0 y0 ->
  0 <= H -> grid t0 ts H -> last ts t0 <= t1 -> (forall t, In t (t0 :: ts) -> times t) ->
  mean_square P is (fun w i => value (fun w => stratonovich_milstein jvp (ode_term f) (dW_term ks g (W w))) t0 ts y0 w i - x (last ts t0) w i)
  <= C * (mean_square P is (fun w i => y0 w i - x t0 w i) + H ^ 2).
Proof.
  intros Hd Heqb HJ HD Hcom H01 HL HM Hlip. set (L' := (3 + INR (length ks)) * L).
  assert (HL' : 0 <= L') by (unfold L'; apply Rmult_le_pos; auto; pose proof (pos_INR (length ks)); lra).
  exists (exp ((1 + 2 * (1 + (1 + (t1 - t0) + INR (length (pairs ks)) * (1 + 8 * (t1 - t0))) * L')) * (t1 - t0)) * (1 + 3 * M * (t1 - t0))).
  split.
  { apply Rmult_le_pos; [left; apply exp_pos|]. assert (0 <= M * (t1 - t0)) by (apply Rmult_le_pos; lra). lra. }
  intros Omega P times W J x y0 ts H HP HW HW4 HJJ [Hx Hloc] Hy HH Hg Hlast HT.
  rewrite (steps_iterate _ (fstep (pairs ks) (variable W eqb) (corrected ks g Dg f) (coefficient g Dg)) ts).
  2:{ intros s t X w. now apply stratonovich_step. }
  apply (milstein_global P HP is ks times W HW HW4 eqb Heqb g Dg t0 t1 (corrected ks g Dg f) L' M x ts y0 H); auto.
  - intros s u v Hs. rewrite coefficients_lipschitz. specialize (Hlip s u v Hs).
    pose proof (corrected_lipschitz is ks g Dg f s u v) as HC.
    set (T := total ks (fun k => total ks (fun l => total is _))) in *.
    assert (PT : 0 <= T) by (unfold T; apply total_nonneg; intros; apply total_nonneg; intros; apply total_nonneg; intros; apply pow2_ge_0).
    set (G := total ks (fun k => total is _)) in *.
    assert (PG : 0 <= G) by (unfold G; apply total_nonneg; intros; apply total_nonneg; intros; apply pow2_ge_0).
    set (A := total is (fun i => (f s u i - f s v i) ^ 2)) in *.
    assert (PA : 0 <= A) by (unfold A; apply total_nonneg; intros; apply pow2_ge_0).
    unfold L'. rewrite Rmult_assoc. set (n := INR (length ks)) in *. assert (Hn : 0 <= n) by apply pos_INR.
    apply Rle_trans with ((3 + n) * (A + G + T)).
    + assert (0 <= n * A) by (apply Rmult_le_pos; auto). assert (0 <= n * G) by (apply Rmult_le_pos; auto). lra.
    + apply Rmult_le_compat_l; lra.
  - intros s t Ts Tt Hst. unfold local_error. rewrite (stratonovich_taylor ks times W eqb Heqb g Dg Hd Hcom J f x s t HJJ Ts Tt Hst).
    exact (Hloc s t Ts Tt Hst).
Qed.

Lemma pf_C72_additive (I K : Type) (is : list I) (ks : list K) (f : R -> (I -> R) -> (I -> R)) (g : R -> I * K -> R) (t0 t1 L M : R) :
  t0 <= t1 -> 0 <= L -> 0 <= M ->
  (forall s x y, t0 <= s <= t1 -> total is (fun i => (f s x i - f s y i) ^ 2) <= L * total is (fun i => (x i - y i) ^ 2)) ->
  exists C, 0 <= C /\
  forall (Omega : Type) (P : space Omega) (times : R -> Prop) (W : Omega -> R -> K -> R) (x : R -> Omega -> I -> R) (y0 : Omega -> I -> R)
         (ts : list R) (H : R),
  probability P -> brownian P ks times W ->
  taylor_solution P is ks times f (fun t _ => g t) (fun _ _ _ _ => 0) W (fun _ _ _ _ _ => 0) x M -> known_vector P is t0 y0 ->
  0 <= H -> grid t0 ts H -> last ts t0 <= t1 -> (forall t, In t (t0 :: ts) -> times t) ->
  mean_square P is (fun w i => value (fun w => euler (sde_term ks f (fun t _ => g t) (W w))) t0 ts y0 w i - x (last ts t0) w i)
  <= C * (mean_square P is (fun w i => y0 w i - x t0 w i) + H ^ 2).
Proof.
  intros H01 HL HM Hlip.
  exists (exp ((1 + 2 * (1 + (1 + (t1 - t0) + INR (length ks) * 1) * L)) * (t1 - t0)) * (1 + 3 * M * (t1 - t0))).
  split.
  { apply Rmult_le_pos; [left; apply exp_pos|]. assert (0 <= M * (t1 - t0)) by (apply Rmult_le_pos; lra). lra. }
  intros Omega P times W x y0 ts H HP HW [Hx Hloc] Hy HH Hg Hlast HT.
  set (c := fun s (_ : I -> R) k i => g s (i, k) : R). set (Z := fun w s t k => W w t k - W w s k : R).
  rewrite (steps_iterate _ (fstep ks Z f c) ts).
  2:{ intros s t X w. apply functional_extensionality. intros i. cbn. unfold vadd, fstep, contract, total, Z, c. ring. }
  apply (family_global P HP is ks times Z f c t0 t1 1 L); auto; try lra.
  - intros s t k u Ts Tt Hst _ _ Hk Hu. unfold Z. split; [apply (increment_known P ks times W HW); auto|]. split.
    + right. rewrite (mean_ext P _ (fun w => (u w * (W w t k - W w s k)) * (u w * (W w t k - W w s k)))) by (intros; cbn; ring).
      rewrite (increment_variance P ks times W HW s t k u u) by auto. rewrite Rmult_1_l. f_equal. apply mean_ext. intros; cbn; ring.
    + intros v Hv. apply (increment_centred P ks times W HW s t k v u); auto.
  - intros s u v Hs. rewrite (total_zero ks); [rewrite Rplus_0_r; now apply Hlip|]. intros k _. apply total_zero. intros i _. unfold c. ring.
  - intros s t Ts Tt Hst. unfold local_error.
    replace (minus (x t) (fstep ks Z f c s t (x s))) with (taylor_rest ks f (fun t _ => g t) (fun _ _ _ _ => 0) W (fun _ _ _ _ _ => 0) x s t);
      [exact (Hloc s t Ts Tt Hst)|].
    apply functional_extensionality. intros w. apply functional_extensionality. intros i.
    unfold minus, comb, fstep, taylor_rest. rewrite (total_zero ks (fun k => total ks _)); [unfold c, Z; ring|].
    intros k _. apply total_zero. intros l _. ring.
Qed.

(** * Whole solves *)

Lemma method_run_final {I CS V MS : Type} (c : config (I -> R) unit CS ((I -> R) * (I -> R)) (option (I -> R)) V MS) i h o
  (m : method (I -> R) unit ((I -> R) * (I -> R))) time t0 ts y0 :
  (forall t u y s j, me_step m t u y s j = me_step m t u y tt false) -> method_run c i h o m time t0 ts y0 ->
  out_yfinal o = fst (steps m t0 ts y0 tt) /\ last ts t0 = time (cfg_t1 c).
Proof.
  intros MJ (RUN & OK & ST & RIP & NJ & SL & T01 & RO & RF & T0 & Y0 & TS).
  destruct (pf_C03_success_reaches_t1 c i h o RUN SL T01 RO RF OK) as [TF CUR]. specialize (CUR RIP).
  pose proof (pf_C08_accepted_steps_run c i h o RUN RIP) as SR.
  assert (NJ' : no_time_jumps (accepted h)).
  { apply Forall_forall. intros a Ha. apply filter_In in Ha. apply (proj1 (Forall_forall _ _) NJ). apply Ha. }
  pose proof (run_value c m time (accepted h) ST MJ _ _ _ _ SR NJ') as V1.
  rewrite <- CUR, Y0, T0, TS in V1. split; [exact V1|].
  rewrite <- TF. apply (f_equal fst) in CUR. cbn [fst] in CUR. rewrite CUR, <- TS, <- T0.
  symmetry. apply run_end; auto. intros a Ha. apply filter_In in Ha. apply Ha.
Qed.
Lemma solve_bound {Omega I CS V MS : Type} (P : space Omega) (HP : probability P) (is : list I) (x : R -> Omega -> I -> R)
  (m : Omega -> method (I -> R) unit ((I -> R) * (I -> R)))
  (c : Omega -> config (I -> R) unit CS ((I -> R) * (I -> R)) (option (I -> R)) V MS) (i : Omega -> initial (I -> R) unit CS MS)
  (h : Omega -> list (attempt (I -> R))) (o : Omega -> outcome (I -> R) unit CS ((I -> R) * (I -> R)) V MS) time t0 t1 ts C B :
  (forall w t u y s j, me_step (m w) t u y s j = me_step (m w) t u y tt false) ->
  (forall w, method_run (c w) (i w) (h w) (o w) (m w) time t0 ts (x t0 w)) -> (forall w, time (cfg_t1 (c w)) = t1) ->
  (last ts t0 <= t1 -> mean_square P is (fun w k => value m t0 ts (x t0) w k - x (last ts t0) w k)
    <= C * (mean_square P is (fun w i => x t0 w i - x t0 w i) + B)) ->
  mean_square P is (fun w k => out_yfinal (o w) k - x t1 w k) <= C * B.
Proof.
  intros MJ RUN T1 HB.
  assert (E1 : forall w, out_yfinal (o w) = value m t0 ts (x t0) w /\ last ts t0 = t1).
  { intros w. destruct (method_run_final _ _ _ _ _ _ _ _ _ (MJ w) (RUN w)) as [A D]. rewrite T1 in D. split; auto. }
  rewrite (ms_ext P is _ (fun w k => value m t0 ts (x t0) w k - x t1 w k)) by (intros w k _; now rewrite (proj1 (E1 w))).
  assert (Z1 : mean_square P is (fun w k => x t0 w k - x t0 w k) = 0).
  { apply total_zero. intros k _. rewrite (mean_ext P _ (fun _ => 0)) by (intros; ring). now apply mean_const. }
  assert (INH : (exists w : Omega, True) \/ ~ (exists w : Omega, True)) by apply Classical_Prop.classic.
  destruct INH as [[w _]|NO].
  - pose proof (proj2 (E1 w)) as EL. rewrite Z1, Rplus_0_l in HB. rewrite EL in HB. apply HB. lra.
  - exfalso. pose proof (mean_one P HP) as M1. rewrite (mean_ext P _ (fun _ => 0)) in M1 by (intros w; exfalso; apply NO; eauto).
    rewrite mean_const in M1 by auto. lra.
Qed.

Lemma pf_C72_solve (I K : Type) (is : list I) (ks : list K) (eqb : K -> K -> bool)
  (jvp_ito : ((I -> R) -> I * K -> R) -> (I -> R) -> (I -> R) -> I * K -> R) (jvp_stratonovich : ((I -> R) -> I -> R) -> (I -> R) -> (I -> R) -> I -> R)
  (f : R -> (I -> R) -> (I -> R)) (g : R -> (I -> R) -> (I * K -> R)) (Dg : R -> (I -> R) -> (I -> R) -> (I * K -> R)) (t0 t1 L M : R) :
  NoDup ks -> (forall k l, eqb k l = true <-> k = l) -> correct_jvp jvp_ito -> correct_jvp jvp_stratonovich -> differential g Dg -> commutative ks g Dg ->
  t0 <= t1 -> 0 <= L -> 0 <= M -> milstein_lipschitz is ks t0 t1 L f g Dg ->
  exists C, 0 <= C /\
  forall (Omega CS V MS : Type) (P : space Omega) (times : R -> Prop) (W : Omega -> R -> K -> R) (J : Omega -> R -> R -> K -> K -> R)
         (x : R -> Omega -> I -> R) (m : Omega -> method (I -> R) unit ((I -> R) * (I -> R)))
         (c : Omega -> config (I -> R) unit CS ((I -> R) * (I -> R)) (option (I -> R)) V MS) (i : Omega -> initial (I -> R) unit CS MS)
         (h : Omega -> list (attempt (I -> R))) (o : Omega -> outcome (I -> R) unit CS ((I -> R) * (I -> R)) V MS)
         (time : Z -> R) (ts : list R) (H : R),
  probability P -> brownian P ks times W -> fourth_moments P ks times W ->
  ito_integrals ks times W J /\ m = (fun w => ito_milstein eqb ks jvp_ito (ode_term f) (dW_term ks g (W w))) \/
  stratonovich_integrals ks times W J /\ m = (fun w => stratonovich_milstein jvp_stratonovich (ode_term f) (dW_term ks g (W w))) ->
  taylor_solution P is ks times f g Dg W J x M ->
  (forall w, method_run (c w) (i w) (h w) (o w) (m w) time t0 ts (x t0 w)) -> (forall w, time (cfg_t1 (c w)) = t1) ->
  0 <= H -> grid t0 ts H -> (forall t, In t (t0 :: ts) -> times t) ->
  mean_square P is (fun w k => out_yfinal (o w) k - x t1 w k) <= C * H ^ 2.
Proof.
  intros Hd Heqb HJ1 HJ2 HD Hcom H01 HL HM Hlip.
  destruct (pf_C72_ito I K is ks eqb jvp_ito f g Dg t0 t1 L M Hd Heqb HJ1 HD Hcom H01 HL HM Hlip) as (C1 & HC1 & HE1).
  destruct (pf_C72_stratonovich I K is ks eqb jvp_stratonovich f g Dg t0 t1 L M Hd Heqb HJ2 HD Hcom H01 HL HM Hlip) as (C2 & HC2 & HE2).
  exists (C1 + C2). split; [lra|]. intros Omega CS V MS P times W J x m c i h o time ts H HP HW HW4 Hm Hx RUN T1 HH Hg HT.
  assert (K0 : known_vector P is t0 (x t0)) by (apply Hx, HT; now left).
  pose proof (pow2_ge_0 H) as PH. assert (0 <= C1 * H ^ 2) by (apply Rmult_le_pos; auto). assert (0 <= C2 * H ^ 2) by (apply Rmult_le_pos; auto).
  destruct Hm as [[HJJ Em]|[HJJ Em]]; subst m.
  - apply Rle_trans with (C1 * H ^ 2); [|lra].
    apply (solve_bound P HP is x _ c i h o time t0 t1 ts C1 (H ^ 2)) with (2 := RUN); auto.
    intros Hlast. exact (HE1 Omega P times W J x (x t0) ts H HP HW HW4 HJJ Hx K0 HH Hg Hlast HT).
  - apply Rle_trans with (C2 * H ^ 2); [|lra].
    apply (solve_bound P HP is x _ c i h o time t0 t1 ts C2 (H ^ 2)) with (2 := RUN); auto.
    intros Hlast. exact (HE2 Omega P times W J x (x t0) ts H HP HW HW4 HJJ Hx K0 HH Hg Hlast HT).
Qed.
