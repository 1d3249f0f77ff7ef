(** [Euler] converges to the Ito solution with strong order 1/2. *)
From Coq Require Import Reals List Lra Lia FunctionalExtensionality.
From Verif Require Import Model_Loop Model_RK Model_Terms Model_Solvers Spec_Solvers Spec_Strong Spec_StrongEuler Proof_Strong.
Import ListNotations.
Open Scope R_scope.

Section Euler.
  Context {Omega I K : Type} (P : space Omega) (HP : probability P) (is : list I) (ks : list K).
  Notation Y := (I -> R).
  Notation vec := (Omega -> I -> R).
  Context (times : R -> Prop) (W : Omega -> R -> K -> R) (HW : brownian P ks times W) (Hd : NoDup ks).
  Context (f : R -> Y -> Y) (g : R -> Y -> (I * K -> R)) (t0 t1 L : R).
  Hypothesis (HL : 0 <= L) (Hfg : ito_lipschitz is ks t0 t1 L f g).

  Definition estep (s t : R) (X : vec) : vec :=
    fun w i => X w i + f s (X w) i * (t - s) + total ks (fun k => g s (X w) (i, k) * (W w t k - W w s k)).

  Lemma contract_total (v : I * K -> R) (c : K -> R) i : contract ks v c i = total ks (fun k => v (i, k) * c k).
  Proof. reflexivity. Qed.
  Lemma euler_step s t X w : so_y (me_step (euler (sde_term ks f g (W w))) s t (X w) tt false) = estep s t X w.
  Proof.
    apply functional_extensionality. intros i. cbn. unfold vadd, estep. rewrite contract_total. ring.
  Qed.
  Lemma euler_iterate ts : forall t X, euler_value ks f g W t ts X = iterate estep t ts X.
  Proof.
    induction ts as [|u ts IH]; intros t X; [reflexivity|]. cbn [iterate]. rewrite <- IH.
    apply functional_extensionality. intros w. unfold euler_value. cbn [steps]. rewrite <- euler_step. reflexivity.
  Qed.

  (** Drift and diffusion at known states are known. *)
  Lemma known_drift s t X : t0 <= s <= t1 -> known_vector P is t X -> known_vector P is t (fun w => f s (X w)).
  Proof.
    intros Hs HX i Hi. apply (known_lipschitz P HP t I is (fun i w => X w i) (fun x => f s x i) L); [exact HX|].
    intros x y. pose proof (Hfg s s x y Hs Hs) as H. rewrite Rminus_diag_eq, Rabs_R0, Rplus_0_r in H by reflexivity.
    pose proof (total_member is (fun i => (f s x i - f s y i) ^ 2) i ltac:(intros; apply pow2_ge_0) Hi) as H1. cbv beta in H1.
    assert (0 <= total ks (fun k => total is (fun i => (g s x (i, k) - g s y (i, k)) ^ 2))).
    { apply total_nonneg. intros k _. apply total_nonneg. intros j _. apply pow2_ge_0. }
    lra.
  Qed.
  Lemma known_diffusion s t X k : t0 <= s <= t1 -> In k ks -> known_vector P is t X ->
    known_vector P is t (fun w i => g s (X w) (i, k)).
  Proof.
    intros Hs Hk HX i Hi. apply (known_lipschitz P HP t I is (fun i w => X w i) (fun x => g s x (i, k)) L); [exact HX|].
    intros x y. pose proof (Hfg s s x y Hs Hs) as H. rewrite Rminus_diag_eq, Rabs_R0, Rplus_0_r in H by reflexivity.
    pose proof (total_member is (fun i => (g s x (i, k) - g s y (i, k)) ^ 2) i ltac:(intros; apply pow2_ge_0) Hi) as H1. cbv beta in H1.
    pose proof (total_member ks (fun k => total is (fun i => (g s x (i, k) - g s y (i, k)) ^ 2)) k
                  ltac:(intros; apply total_nonneg; intros; apply pow2_ge_0) Hk) as H2. cbv beta in H2.
    assert (0 <= total is (fun i => (f s x i - f s y i) ^ 2)) by (apply total_nonneg; intros j _; apply pow2_ge_0).
    lra.
  Qed.
  Lemma known_estep s t X : times s -> times t -> s < t -> t0 <= s <= t1 -> known_vector P is s X -> known_vector P is t (estep s t X).
  Proof.
    intros Ts Tt Hst Hs HX.
    apply kv_ext with (X := comb 1 (comb 1 X (t - s) (fun w => f s (X w))) 1 (noise W s t ks (fun k w i => g s (X w) (i, k)))); auto.
    - apply kv_comb; auto.
      + apply kv_later with s; auto; [lra|]. apply kv_comb; auto. now apply known_drift.
      + apply (kv_noise P HP is ks times W HW s t); auto using incl_refl. intros k Hk. now apply known_diffusion.
    - intros w i _. unfold comb, noise, estep. ring.
  Qed.

  Lemma known_iterate ts : forall t X H, t0 <= t -> last ts t <= t1 -> grid t ts H -> (forall u, In u (t :: ts) -> times u) ->
    known_vector P is t X -> known_vector P is (last ts t) (iterate estep t ts X).
  Proof.
    induction ts as [|u ts IH]; intros t X H Ht Hl Hg HT HX; [exact HX|]. destruct Hg as [Hg1 Hg2]. rewrite last_cons' in *. cbn [iterate].
    pose proof (grid_last _ _ _ Hg2). apply (IH u (estep t u X) H); auto; try lra; [intros v Hv; apply HT; now right|].
    apply known_estep; auto; try lra; apply HT; cbn; auto.
  Qed.

  (** Lipschitz continuity in the mean square *)
  Lemma ms_lipschitz s u t X Z : t0 <= s <= t1 -> t0 <= u <= t1 -> known_vector P is t X -> known_vector P is t Z ->
    mean_square P is (minus (fun w => f s (X w)) (fun w => f u (Z w)))
    + total ks (fun k => mean_square P is (minus (fun w i => g s (X w) (i, k)) (fun w i => g u (Z w) (i, k))))
    <= L * (mean_square P is (minus X Z) + Rabs (u - s)).
  Proof.
    intros Hs Hu HX HZ. rewrite Rmult_plus_distr_l.
    apply (ms_le P HP is t ks _ (fun k => minus (fun w i => g s (X w) (i, k)) (fun w i => g u (Z w) (i, k)))).
    - apply kv_comb; auto; now apply known_drift.
    - intros k Hk. apply kv_comb; auto; now apply known_diffusion.
    - now apply kv_comb.
    - intros w. pose proof (Hfg s u (X w) (Z w) Hs Hu) as H. rewrite <- Rmult_plus_distr_l.
      eapply Rle_trans; [|eapply Rle_trans; [exact H|]]; right; unfold minus, comb.
      + f_equal; [apply total_ext; intros; ring|]. apply total_ext. intros k _. apply total_ext. intros i _. ring.
      + f_equal. f_equal. apply total_ext. intros; ring.
  Qed.

  Lemma estep_stable s t : times s -> times t -> s < t -> t0 <= s <= t1 -> t <= t1 ->
    stable P is estep (1 + (1 + (t1 - t0)) * L) s t.
  Proof.
    intros Ts Tt Hst Hs Ht X Z HX HZ. set (h := t - s). set (D := t1 - t0).
    set (e := minus X Z). set (df := minus (fun w => f s (X w)) (fun w => f s (Z w))).
    set (dg := fun k => minus (fun w i => g s (X w) (i, k)) (fun w i => g s (Z w) (i, k))).
    assert (Ke : known_vector P is s e) by (apply kv_comb; auto).
    assert (Kf : known_vector P is s df) by (apply kv_comb; auto; now apply known_drift).
    assert (Kg : forall k, In k ks -> known_vector P is s (dg k)) by (intros; apply kv_comb; auto; now apply known_diffusion).
    pose proof (ms_lipschitz s s s X Z Hs Hs HX HZ) as Hl. rewrite Rminus_diag_eq, Rabs_R0, Rplus_0_r in Hl by reflexivity.
    fold df in Hl. change (total ks (fun k => mean_square P is (minus (fun w i => g s (X w) (i, k)) (fun w i => g s (Z w) (i, k)))))
      with (total ks (fun k => mean_square P is (dg k))) in Hl. fold e in Hl.
    assert (PE : 0 <= mean_square P is e) by (rewrite ms_ip; now apply (ip_nonneg P HP is s)).
    assert (PF : 0 <= mean_square P is df) by (rewrite ms_ip; now apply (ip_nonneg P HP is s)).
    assert (PG : 0 <= total ks (fun k => mean_square P is (dg k))).
    { apply total_nonneg. intros k Hk. rewrite ms_ip. apply (ip_nonneg P HP is s); auto. }
    set (E := mean_square P is e) in *. set (F := mean_square P is df) in *. set (G := total ks (fun k => mean_square P is (dg k))) in *.
    assert (Hh : 0 < h <= D) by (unfold h, D; lra).
    assert (HhF : h * h * F <= h * D * F) by (apply Rmult_le_compat_r; auto; apply Rmult_le_compat_l; lra).
    assert (Hb : h * h * F + h * F + h * G <= h * (1 + D) * (L * E)).
    { apply Rle_trans with (h * (1 + D) * (F + G)).
      - assert (0 <= h * D * G) by (apply Rmult_le_pos; auto; apply Rmult_le_pos; lra). lra.
      - apply Rmult_le_compat_l; auto. apply Rmult_le_pos; lra. }
    assert (PhF : 0 <= h * F) by (apply Rmult_le_pos; lra).
    assert (PhE : 0 <= h * E) by (apply Rmult_le_pos; lra).
    split; [now apply known_estep|]. split.
    - rewrite (ms_ext P is _ (comb 1 (comb 1 e h df) 1 (noise W s t ks dg))).
      + rewrite (ms_noise P HP is ks times W HW s t) by (auto; now apply kv_comb). fold h. fold G.
        rewrite ms_ip, (ip_square P HP is s) by auto. rewrite <- !ms_ip. fold E F.
        pose proof (ip_bound P HP is s e df Ke Kf) as Hip. rewrite <- !ms_ip in Hip. fold E F in Hip.
        assert (h * (2 * ip P is e df) <= h * (E + F)) by (apply Rmult_le_compat_l; lra).
        replace ((1 + (1 + (1 + D) * L) * h) * E) with (E + h * E + h * (1 + D) * (L * E)) by ring. lra.
      + intros w i _. unfold minus, comb, noise, estep, e, df, dg, minus, comb.
        rewrite (total_ext ks (fun k => (1 * g s (X w) (i, k) + -1 * g s (Z w) (i, k)) * (W w t k - W w s k))
                  (fun k => 1 * (g s (X w) (i, k) * (W w t k - W w s k)) + -1 * (g s (Z w) (i, k) * (W w t k - W w s k)))) by (intros; ring).
        rewrite total_linear. unfold h. ring.
    - rewrite (ms_ext P is _ (comb 1 (comb h df 0 df) 1 (noise W s t ks dg))).
      + rewrite (ms_noise P HP is ks times W HW s t) by (auto; now apply kv_comb). fold h. fold G.
        rewrite ms_ip, (ip_square P HP is s) by auto. rewrite <- !ms_ip. fold F.
        replace ((1 + (1 + D) * L) * h * E) with (h * E + h * (1 + D) * (L * E)) by ring. lra.
      + intros w i _. unfold minus, comb, noise, estep, e, df, dg, minus, comb.
        rewrite (total_ext ks (fun k => (1 * g s (X w) (i, k) + -1 * g s (Z w) (i, k)) * (W w t k - W w s k))
                  (fun k => 1 * (g s (X w) (i, k) * (W w t k - W w s k)) + -1 * (g s (Z w) (i, k) * (W w t k - W w s k)))) by (intros; ring).
        rewrite total_linear. unfold h. ring.
  Qed.

  (** * Refinement *)
  Lemma drift_noise s t e df (dg : K -> vec) : times s -> times t -> s < t -> t - s <= t1 - t0 ->
    known_vector P is s e -> known_vector P is s df -> (forall k, In k ks -> known_vector P is s (dg k)) ->
    mean_square P is (comb 1 (comb 1 e (t - s) df) 1 (noise W s t ks dg))
    <= (1 + (t - s)) * mean_square P is e
       + (t - s) * (1 + (t1 - t0)) * (mean_square P is df + total ks (fun k => mean_square P is (dg k))).
  Proof.
    intros Ts Tt Hst HD Ke Kf Kg.
    rewrite (ms_noise P HP is ks times W HW s t) by (auto; now apply kv_comb).
    rewrite (ms_ip P is (comb 1 e _ _)), (ip_square P HP is s) by auto. rewrite <- !ms_ip.
    pose proof (ip_bound P HP is s e df Ke Kf) as Hip. rewrite <- !ms_ip in Hip.
    assert (PF : 0 <= mean_square P is df) by (rewrite ms_ip; now apply (ip_nonneg P HP is s)).
    assert (PG : 0 <= total ks (fun k => mean_square P is (dg k))).
    { apply total_nonneg. intros k Hk. rewrite ms_ip. apply (ip_nonneg P HP is s); auto. }
    set (F := mean_square P is df) in *. set (G := total ks _) in *. set (E := mean_square P is e) in *.
    set (h := t - s) in *. set (D := t1 - t0) in *. assert (Hh : 0 < h) by (unfold h; lra).
    assert (h * (2 * ip P is e df) <= h * (E + F)) by (apply Rmult_le_compat_l; lra).
    assert (HhF : h * h * F <= h * D * F) by (apply Rmult_le_compat_r; auto; apply Rmult_le_compat_l; lra).
    assert (0 <= h * D * G) by (apply Rmult_le_pos; auto; apply Rmult_le_pos; lra). lra.
  Qed.

  Definition at_zero : R :=
    total is (fun i => f t0 (fun _ => 0) i ^ 2) + total ks (fun k => total is (fun i => g t0 (fun _ => 0) (i, k) ^ 2)).
  Definition growth_rate : R := 2 * L * (1 + (t1 - t0)) + 2 * at_zero.
  Lemma square_split a b : a ^ 2 <= 2 * (a - b) ^ 2 + 2 * b ^ 2.
  Proof. pose proof (Rle_0_sqr (a - 2 * b)) as H. unfold Rsqr in H. lra. Qed.
  Lemma at_zero_nonneg : 0 <= at_zero.
  Proof.
    apply Rplus_le_le_0_compat; apply total_nonneg; intros; [apply pow2_ge_0|]. apply total_nonneg. intros. apply pow2_ge_0.
  Qed.
  Lemma ms_growth s X : t0 <= s <= t1 -> known_vector P is s X ->
    mean_square P is (fun w => f s (X w)) + total ks (fun k => mean_square P is (fun w i => g s (X w) (i, k)))
    <= growth_rate * (1 + mean_square P is X).
  Proof.
    intros Hs HX. replace (growth_rate * (1 + mean_square P is X)) with (growth_rate * mean_square P is X + growth_rate) by ring.
    apply (ms_le P HP is s ks _ (fun k w i => g s (X w) (i, k))); auto.
    - now apply known_drift.
    - intros k Hk. now apply known_diffusion.
    - intros w. pose proof (Hfg s t0 (X w) (fun _ => 0) Hs ltac:(lra)) as H.
      assert (H1 : total is (fun i => f s (X w) i ^ 2) <=
        2 * total is (fun i => (f s (X w) i - f t0 (fun _ => 0) i) ^ 2) + 2 * total is (fun i => f t0 (fun _ => 0) i ^ 2)).
      { rewrite <- total_linear. apply total_le. intros i _. apply square_split. }
      assert (H2 : total ks (fun k => total is (fun i => g s (X w) (i, k) ^ 2)) <=
        2 * total ks (fun k => total is (fun i => (g s (X w) (i, k) - g t0 (fun _ => 0) (i, k)) ^ 2))
        + 2 * total ks (fun k => total is (fun i => g t0 (fun _ => 0) (i, k) ^ 2))).
      { rewrite <- total_linear. apply total_le. intros k _. rewrite <- total_linear. apply total_le. intros i _. apply square_split. }
      cbv beta in H. rewrite (total_ext is (fun i => (X w i - 0) ^ 2) (fun i => X w i ^ 2)) in H by (intros; ring).
      set (x2 := total is (fun i => X w i ^ 2)) in *. assert (0 <= x2) by (apply total_nonneg; intros; apply pow2_ge_0).
      assert (Ha : Rabs (t0 - s) <= t1 - t0) by (rewrite Rabs_left1; lra).
      assert (L * (x2 + Rabs (t0 - s)) <= L * (x2 + (t1 - t0))) by (apply Rmult_le_compat_l; lra).
      pose proof at_zero_nonneg as Hz. unfold growth_rate. unfold at_zero in *.
      set (B := total is (fun i => f t0 (fun _ => 0) i ^ 2) + total ks (fun k => total is (fun i => g t0 (fun _ => 0) (i, k) ^ 2))) in *.
      assert (EB : B = total is (fun i => f t0 (fun _ => 0) i ^ 2) + total ks (fun k => total is (fun i => g t0 (fun _ => 0) (i, k) ^ 2)))
        by reflexivity. clearbody B.
      assert (0 <= L * (t1 - t0) * x2) by (apply Rmult_le_pos; auto; apply Rmult_le_pos; lra).
      assert (0 <= B * x2) by (apply Rmult_le_pos; lra). assert (0 <= L * x2) by (apply Rmult_le_pos; lra). cbv beta. lra.
  Qed.

  Definition moment_rate : R := 1 + (1 + (t1 - t0)) * growth_rate.
  Lemma moment_step s t X : times s -> times t -> s < t -> t0 <= s -> t <= t1 -> known_vector P is s X ->
    1 + mean_square P is (estep s t X) <= (1 + moment_rate * (t - s)) * (1 + mean_square P is X).
  Proof.
    intros Ts Tt Hst Hs Ht HX. assert (Hs' : t0 <= s <= t1) by lra.
    rewrite (ms_ext P is _ (comb 1 (comb 1 X (t - s) (fun w => f s (X w))) 1 (noise W s t ks (fun k w i => g s (X w) (i, k)))))
      by (intros; unfold comb, noise, estep; ring).
    pose proof (drift_noise s t X (fun w => f s (X w)) (fun k w i => g s (X w) (i, k)) Ts Tt Hst ltac:(lra) HX
      (known_drift s s X Hs' HX) (fun k Hk => known_diffusion s s X k Hs' Hk HX)) as H1.
    pose proof (ms_growth s X Hs' HX) as H2.
    assert (H3 : (t - s) * (1 + (t1 - t0)) * (mean_square P is (fun w => f s (X w)) + total ks (fun k => mean_square P is (fun w i => g s (X w) (i, k))))
      <= (t - s) * (1 + (t1 - t0)) * (growth_rate * (1 + mean_square P is X))).
    { apply Rmult_le_compat_l; auto. apply Rmult_le_pos; lra. }
    unfold moment_rate. lra.
  Qed.

  Lemma estep_same s X : estep s s X = X.
  Proof.
    apply functional_extensionality. intros w. apply functional_extensionality. intros i. unfold estep.
    rewrite (total_zero ks) by (intros; ring). ring.
  Qed.
  Lemma known_estep' s t X : times s -> times t -> s <= t -> t0 <= s <= t1 -> known_vector P is s X -> known_vector P is t (estep s t X).
  Proof.
    intros Ts Tt Hst Hs HX. destruct (Req_dec s t) as [->|Hn]; [now rewrite estep_same|]. apply known_estep; auto. lra.
  Qed.
  Lemma growth_rate_nonneg : t0 <= t1 -> 0 <= growth_rate.
  Proof. intros H. pose proof at_zero_nonneg. unfold growth_rate. assert (0 <= L * (1 + (t1 - t0))) by (apply Rmult_le_pos; lra). lra. Qed.

  (** How far the steps of the coarse grid have gone since its last point *)
  Lemma drift_away s t X H A : times s -> times t -> s <= t -> t <= s + H -> t0 <= s -> t <= t1 -> known_vector P is s X ->
    1 + mean_square P is X <= A ->
    mean_square P is (minus X (estep s t X)) <= H * (1 + (t1 - t0)) * growth_rate * A.
  Proof.
    intros Ts Tt Hst HH Hs Ht HX HA. assert (Hs' : t0 <= s <= t1) by lra.
    pose proof (growth_rate_nonneg ltac:(lra)) as HG.
    assert (HXp : 0 <= mean_square P is X) by (rewrite ms_ip; now apply (ip_nonneg P HP is s)).
    destruct (Req_dec s t) as [->|Hn].
    - rewrite estep_same, (ms_ext P is _ (fun _ _ => 0)) by (intros; unfold minus, comb; ring).
      replace (mean_square P is (fun _ _ => 0)) with 0.
      + repeat apply Rmult_le_pos; lra.
      + symmetry. apply total_zero. intros i _. rewrite (mean_ext P _ (fun _ => 0)) by (intros; ring). now apply mean_const.
    - rewrite (ms_ext P is _ (comb 1 (comb (- (t - s)) (fun w => f s (X w)) 0 X) 1 (noise W s t ks (fun k w i => -1 * g s (X w) (i, k))))).
      + assert (Kf : known_vector P is s (fun w => f s (X w))) by now apply known_drift.
        assert (Kc : known_vector P is s (comb (- (t - s)) (fun w => f s (X w)) 0 X)) by now apply kv_comb.
        assert (Kg : forall k, In k ks -> known_vector P is s (fun w i => -1 * g s (X w) (i, k))).
        { intros k Hk i Hi. apply known_scale; auto. apply (known_diffusion s s X k); auto. }
        rewrite (ms_noise P HP is ks times W HW s t) by (auto; lra).
        rewrite (ms_ip P is (comb _ _ _ _)), (ip_square P HP is s) by (auto; now apply known_drift). rewrite <- !ms_ip.
        rewrite (total_ext ks (fun k => mean_square P is (fun w i => -1 * g s (X w) (i, k))) (fun k => mean_square P is (fun w i => g s (X w) (i, k))))
          by (intros k _; apply total_ext; intros i _; apply mean_ext; intros w; ring).
        pose proof (ms_growth s X Hs' HX) as H2.
        assert (PF : 0 <= mean_square P is (fun w => f s (X w))) by (rewrite ms_ip; apply (ip_nonneg P HP is s); now apply known_drift).
        assert (PG : 0 <= total ks (fun k => mean_square P is (fun w i => g s (X w) (i, k)))).
        { apply total_nonneg. intros k Hk. rewrite ms_ip. apply (ip_nonneg P HP is s). now apply known_diffusion. }
        set (F := mean_square P is (fun w => f s (X w))) in *. set (G := total ks _) in *.
        assert (B1 : F + G <= growth_rate * A) by (eapply Rle_trans; [exact H2|]; apply Rmult_le_compat_l; lra).
        set (h := t - s) in *. set (D := t1 - t0) in *. assert (Hh : 0 < h <= H) by (unfold h; lra).
        assert (h <= D) by (unfold h, D; lra).
        assert (B2 : h * h * F <= h * D * F) by (apply Rmult_le_compat_r; auto; apply Rmult_le_compat_l; lra).
        assert (B3 : 0 <= h * D * G) by (apply Rmult_le_pos; auto; apply Rmult_le_pos; lra).
        assert (B4 : 0 <= h * F) by (apply Rmult_le_pos; lra).
        apply Rle_trans with (h * (1 + D) * (F + G)); [lra|].
        apply Rle_trans with (h * (1 + D) * (growth_rate * A)); [apply Rmult_le_compat_l; auto; apply Rmult_le_pos; lra|].
        rewrite (Rmult_assoc (H * (1 + D))). apply Rmult_le_compat_r; [apply Rmult_le_pos; lra|]. apply Rmult_le_compat_r; lra.
      + intros w i _. unfold minus, comb, noise, estep.
        rewrite (total_ext ks (fun k => -1 * g s (X w) (i, k) * (W w t k - W w s k)) (fun k => -1 * (g s (X w) (i, k) * (W w t k - W w s k)))) by (intros; ring).
        rewrite total_scale. ring.
  Qed.

  Definition err_rate : R := 1 + 2 * (1 + (t1 - t0)) * L.
  Definition err_source (A : R) : R := (1 + (t1 - t0)) * L * (2 * ((1 + (t1 - t0)) * growth_rate * A) + 1).

  Lemma refine_step s t u X Z H A : times s -> times t -> times u -> s <= t -> t < u -> u <= s + H -> t0 <= s -> u <= t1 ->
    known_vector P is s X -> known_vector P is t Z -> 1 + mean_square P is X <= A ->
    mean_square P is (minus (estep s u X) (estep t u Z)) <=
      (1 + err_rate * (u - t)) * mean_square P is (minus (estep s t X) Z) + H * err_source A * (u - t).
  Proof.
    intros Ts Tt Tu Hst Htu HH Hs Hu HX HZ HA. assert (Hs' : t0 <= s <= t1) by lra. assert (Ht' : t0 <= t <= t1) by lra.
    assert (HXt : known_vector P is t X) by (apply kv_later with s; auto).
    assert (KX : known_vector P is t (estep s t X)) by (apply known_estep'; auto).
    set (e := minus (estep s t X) Z). set (df := minus (fun w => f s (X w)) (fun w => f t (Z w))).
    set (dg := fun k => minus (fun w i => g s (X w) (i, k)) (fun w i => g t (Z w) (i, k))).
    assert (Ke : known_vector P is t e) by (apply kv_comb; auto).
    assert (Kf : known_vector P is t df) by (apply kv_comb; auto; now apply known_drift).
    assert (Kg : forall k, In k ks -> known_vector P is t (dg k)) by (intros; apply kv_comb; auto; now apply known_diffusion).
    rewrite (ms_ext P is _ (comb 1 (comb 1 e (u - t) df) 1 (noise W t u ks dg))).
    - pose proof (drift_noise t u e df dg Tt Tu Htu ltac:(lra) Ke Kf Kg) as H1.
      pose proof (ms_lipschitz s t t X Z Hs' Ht' HXt HZ) as H2.
      change (total ks (fun k => mean_square P is (minus (fun w i => g s (X w) (i, k)) (fun w i => g t (Z w) (i, k)))))
        with (total ks (fun k => mean_square P is (dg k))) in H2. fold df in H2.
      pose proof (drift_away s t X H A Ts Tt Hst ltac:(lra) Hs ltac:(lra) HX HA) as H3.
      assert (H4 : mean_square P is (minus X Z) <= 2 * mean_square P is (minus X (estep s t X)) + 2 * mean_square P is e).
      { set (a := minus X (estep s t X)) in *. assert (Ka : known_vector P is t a) by (now apply kv_comb).
        rewrite (ms_ext P is (minus X Z) (comb 1 a 1 e)) by (intros; unfold a, e, minus, comb; ring).
        rewrite ms_ip, (ip_square P HP is t) by auto. pose proof (ip_bound P HP is t a e Ka Ke) as Hip. rewrite <- !ms_ip in *. lra. }
      rewrite Rabs_right in H2 by lra.
      set (FG := mean_square P is df + total ks (fun k => mean_square P is (dg k))) in *.
      set (E := mean_square P is e) in *. set (h := u - t) in *. set (D := t1 - t0) in *. assert (Hh : 0 < h) by (unfold h; lra).
      set (Q := H * (1 + D) * growth_rate * A) in *.
      assert (H5 : FG <= L * (2 * Q + 2 * E + H)).
      { eapply Rle_trans; [exact H2|]. apply Rmult_le_compat_l; lra. }
      assert (H6 : h * (1 + D) * FG <= h * (1 + D) * (L * (2 * Q + 2 * E + H))).
      { apply Rmult_le_compat_l; auto. apply Rmult_le_pos; unfold D; lra. }
      eapply Rle_trans; [exact H1|]. unfold err_rate, err_source, Q in *. fold D. lra.
    - intros w i _. unfold minus, comb, noise, estep, e, df, dg, minus, comb, estep.
      rewrite (total_ext ks (fun k => (1 * g s (X w) (i, k) + -1 * g t (Z w) (i, k)) * (W w u k - W w t k))
                (fun k => 1 * (g s (X w) (i, k) * (W w u k - W w t k)) + -1 * (g t (Z w) (i, k) * (W w u k - W w t k)))) by (intros; ring).
      rewrite total_linear.
      rewrite (total_ext ks (fun k => g s (X w) (i, k) * (W w u k - W w s k))
                (fun k => 1 * (g s (X w) (i, k) * (W w t k - W w s k)) + 1 * (g s (X w) (i, k) * (W w u k - W w t k)))) by (intros; ring).
      rewrite total_linear. ring.
  Qed.

  Lemma err_source_nonneg A : t0 <= t1 -> 0 <= A -> 0 <= err_source A.
  Proof.
    intros H HA. pose proof (growth_rate_nonneg H). unfold err_source.
    assert (0 <= (1 + (t1 - t0)) * growth_rate * A) by (repeat apply Rmult_le_pos; lra).
    apply Rmult_le_pos; [apply Rmult_le_pos; lra|lra].
  Qed.

  Lemma refines_before u coarse fine : refines (u :: coarse) fine -> forall t H, grid t fine H -> t < u.
  Proof.
    intros Hr. remember (u :: coarse) as c eqn:Ec. induction Hr as [|v c f' Hr IH|v v' c f' Hr IH]; [discriminate| |].
    - injection Ec as -> ->. intros t H [Hg _]. lra.
    - intros t H [Hg Hg']. specialize (IH Ec _ _ Hg'). lra.
  Qed.
  Lemma refines_last coarse fine : refines coarse fine -> forall t, last fine t = last coarse t.
  Proof.
    induction 1 as [|v c f' Hr IH|v v' c f' Hr IH]; intros t; [reflexivity|now rewrite !last_cons'|].
    rewrite (last_cons' f'), IH, !last_cons'. reflexivity.
  Qed.

  Lemma refine coarse fine : refines coarse fine -> forall s t X Z H A,
    0 <= H -> s <= t -> (coarse = [] -> s = t) -> grid s coarse H -> grid t fine H ->
    (forall u, In u (s :: t :: coarse ++ fine) -> times u) -> t0 <= s -> last fine t <= t1 ->
    known_vector P is s X -> known_vector P is t Z -> (1 + mean_square P is X) * exp (moment_rate * (t1 - s)) <= A ->
    mean_square P is (minus (iterate estep s coarse X) (iterate estep t fine Z)) <=
      exp (err_rate * (last fine t - t)) * (mean_square P is (minus (estep s t X) Z) + H * err_source A * (last fine t - t)).
  Proof.
    induction 1 as [|u coarse fine Hr IH|v u coarse fine Hr IH]; intros s t X Z H A HH Hst Hnil Gc Gf HT Hs Ht HX HZ HA.
    - rewrite (Hnil eq_refl), estep_same. cbn [last iterate]. replace (t - t) with 0 by ring. rewrite !Rmult_0_r, exp_0. lra.
    - destruct Gc as [Gc1 Gc2], Gf as [Gf1 Gf2]. rewrite last_cons' in *. cbn [iterate].
      pose proof (grid_last _ _ _ Gf2) as Hl.
      assert (Ts : times s) by (apply HT; cbn; auto). assert (Tt : times t) by (apply HT; cbn; auto). assert (Tu : times u) by (apply HT; cbn; auto).
      assert (HXp : 0 <= mean_square P is X) by (rewrite ms_ip; now apply (ip_nonneg P HP is s)).
      pose proof (growth_rate_nonneg ltac:(lra)) as HG.
      assert (Hmr : 0 <= moment_rate) by (unfold moment_rate; assert (0 <= (1 + (t1 - t0)) * growth_rate) by (apply Rmult_le_pos; lra); lra).
      assert (HA' : 1 + mean_square P is X <= A).
      { eapply Rle_trans; [|exact HA]. rewrite <- (Rmult_1_r (1 + _)) at 1. apply Rmult_le_compat_l; [lra|].
        pose proof (exp_step moment_rate (t1 - s) ltac:(apply Rmult_le_pos; lra)). assert (0 <= moment_rate * (t1 - s)) by (apply Rmult_le_pos; lra). lra. }
      eapply Rle_trans; [apply (IH u u (estep s u X) (estep t u Z) H A); auto; try lra|].
      + intros v Hv. apply HT. destruct Hv as [<-|[<-|Hv]]; [cbn; auto|cbn; auto|]. cbn. right. right. right. apply in_app_iff.
        apply in_app_iff in Hv. cbn. tauto.
      + apply known_estep'; auto; lra.
      + apply known_estep'; auto; lra.
      + eapply Rle_trans; [|exact HA].
        replace (moment_rate * (t1 - s)) with (moment_rate * (u - s) + moment_rate * (t1 - u)) by ring.
        rewrite exp_plus, <- Rmult_assoc. apply Rmult_le_compat_r; [left; apply exp_pos|].
        eapply Rle_trans; [apply moment_step; auto; lra|]. rewrite Rmult_comm. apply Rmult_le_compat_l; [lra|].
        apply exp_step. apply Rmult_le_pos; lra.
      + rewrite estep_same.
        pose proof (refine_step s t u X Z H A Ts Tt Tu Hst ltac:(lra) ltac:(lra) Hs ltac:(lra) HX HZ HA') as H1.
        apply (gronwall_step err_rate (H * err_source A)); auto; try lra.
        * unfold err_rate. assert (0 <= (1 + (t1 - t0)) * L) by (apply Rmult_le_pos; lra). lra.
        * apply Rmult_le_pos; auto. apply err_source_nonneg; lra.
        * rewrite ms_ip. apply (ip_nonneg P HP is t). apply kv_comb; auto. apply known_estep'; auto; lra.
    - destruct Gf as [Gf1 Gf2]. rewrite (last_cons' fine) in *. cbn [iterate].
      pose proof (grid_last _ _ _ Gf2) as Hl. pose proof (refines_before _ _ _ Hr _ _ Gf2) as Hvu. assert (Gc' := Gc). destruct Gc' as [Gc1 Gc2].
      assert (Ts : times s) by (apply HT; cbn; auto). assert (Tt : times t) by (apply HT; cbn; auto).
      assert (Tv : times v) by (apply HT; right; right; apply in_app_iff; right; now left).
      assert (HXp : 0 <= mean_square P is X) by (rewrite ms_ip; now apply (ip_nonneg P HP is s)).
      pose proof (growth_rate_nonneg ltac:(lra)) as HG.
      assert (Hmr : 0 <= moment_rate) by (unfold moment_rate; assert (0 <= (1 + (t1 - t0)) * growth_rate) by (apply Rmult_le_pos; lra); lra).
      assert (HA' : 1 + mean_square P is X <= A).
      { eapply Rle_trans; [|exact HA]. rewrite <- (Rmult_1_r (1 + _)) at 1. apply Rmult_le_compat_l; [lra|].
        pose proof (exp_step moment_rate (t1 - s) ltac:(apply Rmult_le_pos; lra)). assert (0 <= moment_rate * (t1 - s)) by (apply Rmult_le_pos; lra). lra. }
      eapply Rle_trans; [apply (IH s v X (estep t v Z) H A); auto; try lra|].
      + discriminate.
      + intros x Hv. apply HT. destruct Hv as [<-|[<-|Hv]]; [cbn; auto|right; right; apply in_app_iff; right; now left|].
        right. right. apply in_app_iff. apply in_app_iff in Hv. cbn [In] in *. tauto.
      + apply known_estep'; auto; lra.
      + pose proof (refine_step s t v X Z H A Ts Tt Tv Hst ltac:(lra) ltac:(lra) Hs ltac:(lra) HX HZ HA') as H1.
        apply (gronwall_step err_rate (H * err_source A)); auto; try lra.
        * unfold err_rate. assert (0 <= (1 + (t1 - t0)) * L) by (apply Rmult_le_pos; lra). lra.
        * apply Rmult_le_pos; auto. apply err_source_nonneg; lra.
        * rewrite ms_ip. apply (ip_nonneg P HP is t). apply kv_comb; auto. apply known_estep'; auto; lra.
  Qed.
End Euler.
