(** The Milstein methods and, for additive noise, [Euler] have strong order one. *)
From Coq Require Import ZArith Reals List Lra Lia FunctionalExtensionality.
From Verif Require Import Model_Result Model_Loop Model_RK Model_Terms Model_Solvers Model_SRK Spec_Loop Spec_Solvers Spec_SRK Spec_Strong Spec_Milstein
  Proof_Strong Proof_MilsteinFamily Spec_StrongEuler.
Import ListNotations.
Open Scope R_scope.

Lemma total_single {A : Type} (eqb : A -> A -> bool) (l : list A) (a : A) (f : A -> R) :
  (forall a b, eqb a b = true <-> a = b) -> NoDup l -> In a l -> total l (fun b => f b * (if eqb a b then 1 else 0)) = f a.
Proof.
  intros HE. induction l as [|b l IH]; [easy|]. intros ND HI. inversion_clear ND as [|? ? Hn ND'].
  change (f b * (if eqb a b then 1 else 0) + total l (fun b => f b * (if eqb a b then 1 else 0)) = f a).
  destruct (eqb a b) eqn:E.
  - apply HE in E. subst b. rewrite total_zero; [ring|]. intros c Hc. destruct (eqb a c) eqn:E; [|ring]. apply HE in E. now subst c.
  - rewrite IH; [ring|auto|]. destruct HI as [->|HI]; [|auto]. assert (eqb a a = true) by now apply HE. congruence.
Qed.

Section Milstein.
  Context {Omega I K : Type} (P : space Omega) (HP : probability P) (is : list I) (ks : list K) (times : R -> Prop).
  Notation Y := (I -> R).
  Notation vec := (Omega -> I -> R).
  Context (W : Omega -> R -> K -> R) (HW : brownian P ks times W) (HW4 : fourth_moments P ks times W).
  Context (eqb : K -> K -> bool) (Heqb : forall k l, eqb k l = true <-> k = l).
  Context (g : R -> Y -> (I * K -> R)) (Dg : R -> Y -> Y -> (I * K -> R)) (t0 t1 : R).

  Definition pairs : list (K + K * K) := map inl ks ++ map inr (list_prod ks ks).
  Definition variable (w : Omega) (s t : R) (q : K + K * K) : R :=
    match q with
    | inl k => W w t k - W w s k
    | inr (k, l) => (W w t k - W w s k) * (W w t l - W w s l) - (if eqb k l then t - s else 0)
    end.
  Definition coefficient (s : R) (y : Y) (q : K + K * K) : Y := fun i =>
    match q with inl k => g s y (i, k) | inr (k, l) => 1 / 2 * along g Dg s y k l i end.

  Lemma in_pairs q : In q pairs -> match q with inl k => In k ks | inr (k, l) => In k ks /\ In l ks end.
  Proof.
    unfold pairs. rewrite in_app_iff, !in_map_iff. intros [(k & <- & H)|([k l] & <- & H)]; [exact H|]. now apply in_prod_iff in H.
  Qed.
  Lemma total_pairs (f : K + K * K -> R) : total pairs f = total ks (fun k => f (inl k)) + total ks (fun k => total ks (fun l => f (inr (k, l)))).
  Proof. unfold pairs. now rewrite total_app, !total_map, total_prod. Qed.

  Lemma variables s t q f : t0 <= t1 -> times s -> times t -> s < t -> t0 <= s -> t <= t1 -> In q pairs -> known P s f ->
    known P t (fun w => f w * variable w s t q) /\
    mean P (fun w => (f w * variable w s t q) ^ 2) <= (1 + 8 * (t1 - t0)) * (t - s) * mean P (fun w => f w ^ 2) /\
    forall u, known P s u -> mean P (fun w => u w * (f w * variable w s t q)) = 0.
  Proof.
    intros H01 Ts Tt Hst H0 H1 Hq Hf. apply in_pairs in Hq.
    assert (Pf : 0 <= mean P (fun w => f w ^ 2)).
    { rewrite <- (mean_const P HP 0). apply (mean_monotone P HP); [apply (integrable_const P HP)| |intros; apply pow2_ge_0].
      eapply (integrable_ext P HP); [apply (known_product P HP s f f Hf Hf)|]. intros; cbn; ring. }
    set (h := t - s) in *. assert (Hh : 0 < h <= t1 - t0) by (unfold h; lra). set (m := mean P (fun w => f w ^ 2)) in *.
    assert (Phm : 0 <= h * m) by (apply Rmult_le_pos; lra).
    assert (PDhm : h * (h * m) <= (t1 - t0) * (h * m)) by (apply Rmult_le_compat_r; lra).
    destruct q as [k|[k l]]; cbn [variable]; fold h.
    - split; [apply (increment_known P ks times W HW s t k f); auto|]. split.
      + rewrite (mean_ext P _ (fun w => (f w * (W w t k - W w s k)) * (f w * (W w t k - W w s k)))) by (intros; cbn; ring).
        rewrite (increment_variance P ks times W HW s t k f f) by auto. fold h.
        rewrite (mean_ext P _ (fun w => f w ^ 2)) by (intros; cbn; ring). fold m.
        assert (0 <= (t1 - t0) * (h * m)) by (apply Rmult_le_pos; lra). lra.
      + intros u Hu. apply (increment_centred P ks times W HW s t k u f); auto.
    - destruct Hq as [Hk Hl]. destruct (HW4 s t k l f Ts Tt Hst Hk Hl Hf) as [K4 M4]. fold h in M4. fold m in M4.
      remember (if eqb k l then h else 0) as d eqn:Ed. assert (Hd : 0 <= d <= h) by (rewrite Ed; destruct (eqb k l); lra).
      set (A := fun w => f w * ((W w t k - W w s k) * (W w t l - W w s l))) in *.
      assert (Hf' : known P t f) by (apply (known_later P HP s); auto; lra).
      assert (Kq : known P t (fun w => f w * ((W w t k - W w s k) * (W w t l - W w s l) - d))).
      { apply (known_ext P HP) with (f := fun w => 1 * A w + (- d) * f w); [now apply (known_linear P HP)|]. intros; unfold A; ring. }
      split; [exact Kq|]. split.
      + assert (IA : integrable P (fun w => A w ^ 2)).
        { eapply (integrable_ext P HP); [apply (known_product P HP t A A K4 K4)|]. intros; cbn; ring. }
        assert (IF : integrable P (fun w => f w ^ 2)).
        { eapply (integrable_ext P HP); [apply (known_product P HP s f f Hf Hf)|]. intros; cbn; ring. }
        apply Rle_trans with (mean P (fun w => 2 * A w ^ 2 + 2 * d ^ 2 * f w ^ 2)).
        * apply (mean_monotone P HP); [|now apply (integrable_linear P HP)|].
          -- eapply (integrable_ext P HP); [apply (known_product P HP t _ _ Kq Kq)|]. intros; cbn; ring.
          -- intros w. unfold A. pose proof (pow2_ge_0 (f w * ((W w t k - W w s k) * (W w t l - W w s l)) + d * f w)).
             cbn in *. lra.
        * rewrite (mean_linear P HP) by auto. fold m.
          assert (d ^ 2 * m <= h ^ 2 * m) by (apply Rmult_le_compat_r; auto; apply pow_incr; lra).
          change (mean P (fun w => A w ^ 2) <= 3 * h ^ 2 * m) in M4. set (a4 := mean P (fun w => A w ^ 2)) in *. clearbody a4 A m h.
          replace (h ^ 2 * m) with (h * (h * m)) in * by ring. replace (3 * h ^ 2 * m) with (3 * (h * (h * m))) in M4 by ring. lra.
      + intros u Hu.
        rewrite (mean_ext P _ (fun w => 1 * ((u w * (W w t k - W w s k)) * (f w * (W w t l - W w s l))) + (- d) * (u w * f w))) by (intros; ring).
        assert (Ku : known P t (fun w => u w * (W w t k - W w s k))) by (apply (increment_known P ks times W HW); auto).
        assert (Kv : known P t (fun w => f w * (W w t l - W w s l))) by (apply (increment_known P ks times W HW); auto).
        rewrite (mean_linear P HP); [|now apply (known_product P HP t)|now apply (known_product P HP s)].
        rewrite Ed. destruct (eqb k l) eqn:E.
        * apply Heqb in E. subst l. rewrite (increment_variance P ks times W HW s t k u f) by auto. fold h. ring.
        * assert (k <> l) by (intros ->; pose proof (proj2 (Heqb l l) eq_refl); congruence).
          rewrite (increment_uncorrelated P ks times W HW s t k l u f) by auto. ring.
  Qed.

  (** The step with drift [F] *)
  Lemma milstein_global F L M x ts y0 H :
    t0 <= t1 -> 0 <= L -> 0 <= M ->
    (forall s x y, t0 <= s <= t1 ->
      total is (fun i => (F s x i - F s y i) ^ 2) + total pairs (fun q => total is (fun i => (coefficient s x q i - coefficient s y q i) ^ 2))
      <= L * total is (fun i => (x i - y i) ^ 2)) ->
    (forall u, times u -> known_vector P is u (x u)) ->
    (forall s t, times s -> times t -> s < t -> local_error P is (fstep pairs variable F coefficient) x M 2 s t) ->
    known_vector P is t0 y0 -> 0 <= H -> grid t0 ts H -> last ts t0 <= t1 -> (forall t, In t (t0 :: ts) -> times t) ->
    mean_square P is (fun w i => iterate (fstep pairs variable F coefficient) t0 ts y0 w i - x (last ts t0) w i)
    <= exp ((1 + 2 * (1 + (1 + (t1 - t0) + INR (length pairs) * (1 + 8 * (t1 - t0))) * L)) * (t1 - t0)) * (1 + 3 * M * (t1 - t0))
       * (mean_square P is (fun w i => y0 w i - x t0 w i) + H ^ 2).
  Proof.
    intros H01 HL HM Hc Hx Hloc Hy HH Hg Hlast HT.
    apply (family_global P HP is pairs times variable F coefficient t0 t1 (1 + 8 * (t1 - t0)) L); auto; try lra.
    intros. apply variables; auto.
  Qed.

  (** Lipschitz continuity *)
  Lemma coefficients_lipschitz s x y :
    total pairs (fun q => total is (fun i => (coefficient s x q i - coefficient s y q i) ^ 2))
    = total ks (fun k => total is (fun i => (g s x (i, k) - g s y (i, k)) ^ 2))
      + 1 / 4 * total ks (fun k => total ks (fun l => total is (fun i => (along g Dg s x k l i - along g Dg s y k l i) ^ 2))).
  Proof.
    rewrite total_pairs. cbn [coefficient]. f_equal. rewrite <- total_scale. apply total_ext. intros k _.
    rewrite <- total_scale. apply total_ext. intros l _. rewrite <- total_scale. apply total_ext. intros i _. field.
  Qed.
  Definition corrected (f : R -> Y -> Y) : R -> Y -> Y := fun s y i => f s y i + total ks (fun k => 1 / 2 * along g Dg s y k k i).
  Lemma corrected_lipschitz f s x y :
    total is (fun i => (corrected f s x i - corrected f s y i) ^ 2)
    <= 2 * total is (fun i => (f s x i - f s y i) ^ 2)
       + INR (length ks) * total ks (fun k => total ks (fun l => total is (fun i => (along g Dg s x k l i - along g Dg s y k l i) ^ 2))).
  Proof.
    apply Rle_trans with (total is (fun i => 2 * (f s x i - f s y i) ^ 2
      + INR (length ks) * total ks (fun k => total ks (fun l => (along g Dg s x k l i - along g Dg s y k l i) ^ 2)))).
    - apply total_le. intros i _. unfold corrected.
      set (a := f s x i - f s y i). set (b := fun k => 1 / 2 * (along g Dg s x k k i - along g Dg s y k k i)).
      replace (f s x i + total ks (fun k => 1 / 2 * along g Dg s x k k i) - (f s y i + total ks (fun k => 1 / 2 * along g Dg s y k k i)))
        with (a + total ks b).
      2:{ unfold b. rewrite (total_ext ks _ (fun k => 1 * (1 / 2 * along g Dg s x k k i) + -1 * (1 / 2 * along g Dg s y k k i))) by (intros; ring).
          rewrite total_linear. unfold a. ring. }
      pose proof (total_square ks b) as Hb.
      assert (Hb2 : total ks (fun k => b k ^ 2) <= 1 / 4 * total ks (fun k => total ks (fun l => (along g Dg s x k l i - along g Dg s y k l i) ^ 2))).
      { rewrite <- total_scale. apply total_le. intros k Hk.
        pose proof (total_member ks (fun l => (along g Dg s x k l i - along g Dg s y k l i) ^ 2) k ltac:(intros; apply pow2_ge_0) Hk) as H1.
        cbv beta in H1. unfold b. cbn in *. lra. }
      assert (Hn : 0 <= INR (length ks)) by apply pos_INR. set (T := total ks (fun k => total ks _)) in *.
      assert (PT : 0 <= T) by (unfold T; apply total_nonneg; intros; apply total_nonneg; intros; apply pow2_ge_0).
      assert (H3 : INR (length ks) * total ks (fun k => b k ^ 2) <= INR (length ks) * (1 / 4 * T)) by (apply Rmult_le_compat_l; auto).
      assert (0 <= INR (length ks) * T) by (apply Rmult_le_pos; auto).
      pose proof (pow2_ge_0 (a - total ks b)). cbn in *. lra.
    - right. rewrite total_linear. f_equal. f_equal. rewrite (total_swap is ks). apply total_ext. intros k _. apply total_swap.
  Qed.

  (** The expansion of the solution has the same terms. *)
  Lemma double_sum (Hcom : commutative ks g Dg) s y i (J Z : K -> K -> R) :
    (forall k l, In k ks -> In l ks -> J k l + J l k = Z k l) ->
    total ks (fun k => total ks (fun l => along g Dg s y k l i * J k l)) = total ks (fun k => total ks (fun l => 1 / 2 * along g Dg s y k l i * Z k l)).
  Proof.
    intros HJ. set (A := total ks (fun k => total ks (fun l => along g Dg s y k l i * J k l))).
    assert (E : A = total ks (fun k => total ks (fun l => along g Dg s y k l i * J l k))).
    { unfold A. rewrite total_swap. apply total_ext. intros k Hk. apply total_ext. intros l Hl. now rewrite (Hcom s y l k i). }
    assert (E2 : A + A = total ks (fun k => total ks (fun l => along g Dg s y k l i * Z k l))).
    { rewrite E at 2. unfold A. rewrite <- total_plus. apply total_ext. intros k Hk. rewrite <- total_plus. apply total_ext. intros l Hl.
      rewrite <- HJ by auto. ring. }
    transitivity (1 / 2 * (A + A)); [field|]. rewrite E2, <- total_scale. apply total_ext. intros k _. rewrite <- total_scale.
    apply total_ext. intros l _. ring.
  Qed.
  Lemma ito_taylor (Hcom : commutative ks g Dg) J f x s t : ito_integrals ks times W J -> times s -> times t -> s < t ->
    minus (x t) (fstep pairs variable f coefficient s t (x s)) = taylor_rest ks f g Dg W J x s t.
  Proof.
    intros HJ Ts Tt Hst. apply functional_extensionality. intros w. apply functional_extensionality. intros i.
    unfold minus, comb, fstep, taylor_rest. rewrite total_pairs. cbn [variable coefficient].
    rewrite (double_sum Hcom s (x s w) i (J w s t)
      (fun k l => (W w t k - W w s k) * (W w t l - W w s l) - (if eqb k l then t - s else 0))); [ring|].
    intros k l Hk Hl. destruct (HJ w s t k l Ts Tt Hst Hk Hl) as [H1 H2]. destruct (eqb k l) eqn:E.
    - apply H1. now apply Heqb.
    - rewrite H2; [ring|]. intros ->. pose proof (proj2 (Heqb l l) eq_refl); congruence.
  Qed.
  Lemma stratonovich_sum (Hd : NoDup ks) f s t y w i :
    corrected f s y i * (t - s) + total pairs (fun q => coefficient s y q i * variable w s t q)
    = f s y i * (t - s) + total ks (fun k => g s y (i, k) * (W w t k - W w s k))
      + total ks (fun k => total ks (fun l => 1 / 2 * along g Dg s y k l i * ((W w t k - W w s k) * (W w t l - W w s l)))).
  Proof.
    rewrite total_pairs. cbn [variable coefficient]. unfold corrected.
    rewrite (total_ext ks (fun k => total ks (fun l => 1 / 2 * along g Dg s y k l i * (_ - _)))
      (fun k => 1 * total ks (fun l => 1 / 2 * along g Dg s y k l i * ((W w t k - W w s k) * (W w t l - W w s l)))
                + - (t - s) * (1 / 2 * along g Dg s y k k i))).
    2:{ intros k Hk. rewrite <- (total_single eqb ks k (fun l => 1 / 2 * along g Dg s y k l i) Heqb Hd Hk).
        rewrite <- total_linear. apply total_ext. intros l _. destruct (eqb k l); ring. }
    rewrite total_linear. ring.
  Qed.
  Lemma stratonovich_taylor (Hd : NoDup ks) (Hcom : commutative ks g Dg) J f x s t : stratonovich_integrals ks times W J -> times s -> times t -> s < t ->
    minus (x t) (fstep pairs variable (corrected f) coefficient s t (x s)) = taylor_rest ks f g Dg W J x s t.
  Proof.
    intros HJ Ts Tt Hst. apply functional_extensionality. intros w. apply functional_extensionality. intros i.
    unfold minus, comb, fstep, taylor_rest. rewrite Rplus_assoc, stratonovich_sum by auto.
    rewrite (double_sum Hcom s (x s w) i (J w s t) (fun k l => (W w t k - W w s k) * (W w t l - W w s l))); [ring|].
    intros k l Hk Hl. now apply HJ.
  Qed.

  (** The steps of the solvers *)
  Lemma ito_step (Hd : NoDup ks) (HD : differential g Dg) jvp f s t X w j : correct_jvp jvp ->
    so_y (me_step (ito_milstein eqb ks jvp (ode_term f) (dW_term ks g (W w))) s t (X w) tt j) = fstep pairs variable f coefficient s t X w.
  Proof.
    intros HJ. apply functional_extensionality. intros i. unfold ito_milstein, fstep. cbn [me_step so_y].
    unfold vadd, vscale. rewrite total_pairs. cbn [variable coefficient].
    set (S2 := sum_over ks _).
    assert (E : S2 = total ks (fun k => total ks (fun l => along g Dg s (X w) k l i * ((W w t k - W w s k) * (W w t l - W w s l) - (if eqb k l then t - s else 0))))).
    { unfold S2. change (@sum_over K) with (@total K). apply total_ext. intros k Hk. apply total_ext. intros l Hl. f_equal.
      assert (U : forall (v : I * K -> R) m j, In m ks -> t_prod (dW_term ks g (W w)) v (unit_control eqb m) j = v (j, m)).
      { intros v m j' Hm. change (total ks (fun n => v (j', n) * (if eqb m n then 1 else 0)) = v (j', m)).
        now apply (total_single eqb ks m (fun n => v (j', n))). }
      rewrite U by auto. unfold along.
      change (fun y => t_vf (dW_term ks g (W w)) s y) with (g s).
      rewrite (HJ (g s) (X w) (t_prod (dW_term ks g (W w)) (t_vf (dW_term ks g (W w)) s (X w)) (unit_control eqb k)) (Dg s (X w) (fun j => g s (X w) (j, k)))); [reflexivity|].
      replace (t_prod _ _ _) with (fun j => g s (X w) (j, k)); [apply HD|].
      apply functional_extensionality. intros j'. symmetry. now apply U. }
    rewrite E. cbn. rewrite (total_ext ks (fun k => total ks (fun l => 1 / 2 * along g Dg s (X w) k l i * _))
      (fun k => 1 / 2 * total ks (fun l => along g Dg s (X w) k l i * ((W w t k - W w s k) * (W w t l - W w s l) - (if eqb k l then t - s else 0))))).
    2:{ intros k _. rewrite <- total_scale. apply total_ext. intros l _. ring. }
    rewrite total_scale. change (contract ks (g s (X w)) (fun k => W w t k - W w s k) i) with (total ks (fun k => g s (X w) (i, k) * (W w t k - W w s k))). ring.
  Qed.

  Lemma differential_total (HD : differential g Dg) s y (l : list K) (v : K -> Y) p :
    Dg s y (fun i => total l (fun k => v k i)) p = total l (fun k => Dg s y (v k) p).
  Proof.
    destruct HD as [_ HD]. induction l as [|k l IH].
    - change (Dg s y (fun _ => 0) p = 0). pose proof (HD s y 0 (fun _ => 0) 0 (fun _ => 0) p) as H. cbv beta in H.
      replace (fun _ : I => 0 * 0 + 0 * 0) with (fun _ : I => 0) in H by (apply functional_extensionality; intros; ring). lra.
    - change (total (k :: l) (fun k => Dg s y (v k) p)) with (Dg s y (v k) p + total l (fun k => Dg s y (v k) p)). rewrite <- IH.
      replace (fun i => total (k :: l) (fun k => v k i)) with (fun i => 1 * v k i + 1 * total l (fun k => v k i))
        by (apply functional_extensionality; intros; change (total (k :: l) (fun k0 => v k0 x)) with (v k x + total l (fun k => v k x)); ring).
      rewrite (HD s y 1 (v k) 1 (fun i => total l (fun k => v k i))). ring.
  Qed.
  Lemma derive_total {A : Type} (l : list A) (u : A -> R -> R) (d : A -> R) :
    (forall a, derivable_pt_lim (u a) 0 (d a)) -> derivable_pt_lim (fun s => total l (fun a => u a s)) 0 (total l d).
  Proof.
    intros H. induction l as [|a l IH]; [apply derivable_pt_lim_const|].
    exact (derivable_pt_lim_plus (u a) (fun s => total l (fun a => u a s)) 0 (d a) (total l d) (H a) IH).
  Qed.
  Lemma stratonovich_step (Hd : NoDup ks) (HD : differential g Dg) jvp f s t X w j : correct_jvp jvp ->
    so_y (me_step (stratonovich_milstein jvp (ode_term f) (dW_term ks g (W w))) s t (X w) tt j) = fstep pairs variable (corrected f) coefficient s t X w.
  Proof.
    intros HJ. apply functional_extensionality. intros i. unfold stratonovich_milstein, fstep. cbn [me_step so_y].
    rewrite Rplus_assoc, stratonovich_sum by auto. unfold vadd, vscale.
    set (dw := t_contr (dW_term ks g (W w)) s t).
    rewrite (HJ _ (X w) (t_vf_prod (dW_term ks g (W w)) s (X w) dw) (fun i => total ks (fun l => Dg s (X w) (contract ks (g s (X w)) dw) (i, l) * dw l))).
    - cbn. change (contract ks (g s (X w)) dw) with (fun i => total ks (fun k => g s (X w) (i, k) * dw k)).
      rewrite (total_ext ks (fun l => Dg s (X w) _ (i, l) * dw l) (fun l => total ks (fun k => along g Dg s (X w) k l i * (dw k * dw l)))).
      + rewrite (total_swap ks ks). rewrite (total_ext ks (fun k => total ks (fun l => 1 / 2 * along g Dg s (X w) k l i * _))
          (fun k => 1 / 2 * total ks (fun l => along g Dg s (X w) k l i * (dw k * dw l)))).
        2:{ intros k _. rewrite <- total_scale. apply total_ext. intros l _. unfold dw. cbn. ring. }
        rewrite total_scale. unfold dw. cbn. change (contract ks (g s (X w)) (fun k => W w t k - W w s k) i) with (total ks (fun k => g s (X w) (i, k) * (W w t k - W w s k))). ring.
      + intros l _.
        transitivity (Dg s (X w) (fun i => total ks (fun k => dw k * g s (X w) (i, k) + 0 * g s (X w) (i, k))) (i, l) * dw l).
        { apply (f_equal (fun v => Dg s (X w) v (i, l) * dw l)). apply functional_extensionality. intros j'. apply total_ext. intros; unfold dw; cbn; ring. }
        rewrite (differential_total HD s (X w) ks (fun k i => dw k * g s (X w) (i, k) + 0 * g s (X w) (i, k)) (i, l)).
        rewrite Rmult_comm, <- total_scale. apply total_ext. intros k _.
        rewrite (proj2 HD s (X w) (dw k) (fun i => g s (X w) (i, k)) 0 (fun i => g s (X w) (i, k))). unfold along. ring.
    - intros cv C0 Cd i'. apply (derive_total ks (fun l r => g s (cv r) (i', l) * dw l)). intros l.
      rewrite Rmult_comm. replace (fun r => g s (cv r) (i', l) * dw l) with (mult_real_fct (dw l) (fun r => g s (cv r) (i', l)))
        by (apply functional_extensionality; intros; unfold mult_real_fct; ring).
      apply derivable_pt_lim_scal. apply (proj1 HD s (X w) _ cv C0 Cd (i', l)).
  Qed.
End Milstein.

Lemma steps_iterate {Omega I : Type} (m : Omega -> method (I -> R) unit ((I -> R) * (I -> R))) (step : R -> R -> (Omega -> I -> R) -> Omega -> I -> R) ts :
  (forall s t X w, so_y (me_step (m w) s t (X w) tt false) = step s t X w) ->
  forall t X, value m t ts X = iterate step t ts X.
Proof.
  intros E. induction ts as [|u ts IH]; intros t X; [reflexivity|]. cbn [iterate]. rewrite <- IH.
  apply functional_extensionality. intros w. unfold value. cbn [steps].
  destruct (so_state (me_step (m w) t u (X w) tt false)). now rewrite E.
Qed.
