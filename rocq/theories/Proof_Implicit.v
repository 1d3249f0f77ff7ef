(** Proofs about [ImplicitAdjoint]. *)
From Coq Require Import Reals List Lra Lia Psatz.
From Coq Require ClassicalEpsilon.
From Coquelicot Require Import Coquelicot.
From Verif Require Import Model_Implicit Spec_Implicit.
Import ListNotations.
Open Scope R_scope.

Section ImplicitProofs.
  Context {P Y : NormedModule R_AbsRing}.

  Lemma linear_opp' {U V : NormedModule R_AbsRing} (L : U -> V) x : is_linear L -> L (opp x) = opp (L x).
  Proof.
    intros H. exact (eq_trans (f_equal L (eq_sym (scal_opp_one x))) (eq_trans (linear_scal L H _ x) (scal_opp_one (L x)))).
  Qed.

  Lemma linear_split (L : P * Y -> Y) dp dy : is_linear L -> L (dp, dy) = plus (L (dp, zero)) (L (zero, dy)).
  Proof.
    intros H. refine (eq_trans (f_equal L _) (linear_plus L H (dp, zero) (zero, dy))).
    exact (f_equal2 (fun a b => (a, b)) (eq_sym (plus_zero_r dp)) (eq_sym (plus_zero_l dy))).
  Qed.

  Lemma prod_norm_le (x : P) (y : Y) : @norm _ (prod_NormedModule R_AbsRing P Y) (x, y) <= norm x + norm y.
  Proof.
    change (sqrt (norm x ^ 2 + norm y ^ 2) <= norm x + norm y).
    pose proof (norm_ge_0 x). pose proof (norm_ge_0 y).
    rewrite <- (sqrt_pow2 (norm x + norm y)) by lra. apply sqrt_le_1_alt. nra.
  Qed.

  (** The derivative of a family of states on which [F] is constant. *)
  Lemma implicit_derivative (F : P -> Y -> Y) (L : P * Y -> Y) (B : Y -> Y) (p0 : P) (g : P -> Y) :
    derivative_at F p0 (g p0) L -> is_linear B -> (forall y, B (L (zero, y)) = y) ->
    filterlim g (locally p0) (locally (g p0)) ->
    locally p0 (fun p => F p (g p) = F p0 (g p0)) ->
    filterdiff g (locally p0) (fun dp => opp (B (L (dp, zero)))).
  Proof.
    intros [HL HF] HB HBA Hg Hlev.
    assert (Hlin : is_linear (fun dp : P => opp (B (L (dp, zero))))).
    { apply (is_linear_comp (fun dp => B (L (dp, zero))) opp); [|apply is_linear_opp].
      apply (is_linear_comp (fun dp => L (dp, zero)) B); [|exact HB].
      apply (is_linear_comp (fun dp : P => (dp, zero)) L); [|exact HL].
      split.
      - intros x y. exact (f_equal2 (fun a b => (a, b)) eq_refl (eq_sym (plus_zero_l (zero : Y)))).
      - intros k x. exact (f_equal2 (fun a b => (a, b)) eq_refl (eq_sym (@scal_zero_r _ Y k))).
      - exists 1. split; [lra|]. intros x. eapply Rle_trans; [apply prod_norm_le|]. rewrite norm_zero. lra. }
    split; [exact Hlin|]. intros x Hx. apply is_filter_lim_locally_unique in Hx. subst x.
    destruct (linear_norm B HB) as (MB & HMB & HB').
    destruct (linear_norm _ Hlin) as (ML & HML & HL').
    specialize (HF (p0, g p0) (fun Q HQ => HQ)).
    (* the remainder is small *)
    assert (Hrem : forall e : posreal, locally p0 (fun p =>
        norm (plus (minus (g p) (g p0)) (B (L (minus p p0, zero)))) <= MB * e * (norm (minus p p0) + norm (minus (g p) (g p0))))).
    { intros e. specialize (HF e).
      assert (Hpair : filterlim (fun p => (p, g p)) (locally p0) (locally (p0, g p0))).
      { intros Q [d HQ].
        assert (H1 : locally p0 (ball p0 d)) by (exists d; intros z Hz; exact Hz).
        assert (H2 : locally p0 (fun p => ball (g p0) d (g p))) by (apply (Hg (ball (g p0) d)); exists d; intros z Hz; exact Hz).
        unfold filtermap. generalize (filter_and _ _ H1 H2). apply filter_imp. intros p [B1 B2]. apply HQ. split; assumption. }
      specialize (Hpair _ HF). unfold filtermap in Hpair.
      generalize (filter_and _ _ Hpair Hlev). apply filter_imp. intros p [H1 H2]. cbn [fst snd] in H1.
      rewrite H2 in H1.
      assert (E : minus (F p0 (g p0)) (F p0 (g p0)) = zero) by apply minus_eq_zero.
      rewrite E in H1. clear E.
      set (d := minus p p0) in *. set (h := minus (g p) (g p0)) in *.
      assert (H3 : norm (L (d, h)) <= e * (norm d + norm h)).
      { apply Rle_trans with (e * @norm _ (prod_NormedModule R_AbsRing P Y) (d, h)).
        - refine (Rle_trans _ _ _ _ H1). right. refine (eq_trans (eq_sym (norm_opp (L (d, h)))) _).
          exact (f_equal norm (eq_sym (plus_zero_l (opp (L (d, h)))))).
        - apply Rmult_le_compat_l; [left; apply cond_pos|]. exact (prod_norm_le d h). }
      assert (H4 : plus h (B (L (d, zero))) = B (L (d, h))).
      { symmetry. refine (eq_trans (f_equal B (linear_split L d h HL)) _). refine (eq_trans (linear_plus B HB _ _) _).
        refine (eq_trans (f_equal (plus _) (HBA h)) _). apply plus_comm. }
      rewrite H4. eapply Rle_trans; [apply HB'|]. rewrite Rmult_assoc. apply Rmult_le_compat_l; [lra|exact H3]. }
    assert (Hbound : locally p0 (fun p => norm (minus (g p) (g p0)) <= (2 * ML + 1) * norm (minus p p0))).
    { assert (He : 0 < / (2 * MB)) by (apply Rinv_0_lt_compat; lra).
      generalize (Hrem (mkposreal _ He)). apply filter_imp. cbn [pos]. intros p Hp.
      set (d := minus p p0) in *. set (h := minus (g p) (g p0)) in *.
      assert (H1 : norm h <= norm (plus h (B (L (d, zero)))) + ML * norm d).
      { replace h with (plus (plus h (B (L (d, zero)))) (opp (B (L (d, zero))))) at 1.
        - eapply Rle_trans; [apply norm_triangle|]. apply Rplus_le_compat_l. apply (HL' d).
        - rewrite <- plus_assoc, plus_opp_r. apply plus_zero_r. }
      replace (MB * / (2 * MB)) with (/ 2) in Hp by (field; lra). lra. }
    intros eps.
    assert (He : 0 < eps / (MB * (2 * ML + 2))).
    { apply Rdiv_lt_0_compat; [apply cond_pos|]. apply Rmult_lt_0_compat; lra. }
    generalize (filter_and _ _ (Hrem (mkposreal _ He)) Hbound). apply filter_imp. cbn [pos]. intros p [H1 H2].
    set (d := minus p p0) in *. set (h := minus (g p) (g p0)) in *.
    refine (Rle_trans _ _ _ (Req_le _ _ (f_equal norm (f_equal (plus h) (opp_opp (B (L (d, zero))))))) _).
    eapply Rle_trans; [exact H1|]. replace (MB * (eps / (MB * (2 * ML + 2)))) with (eps / (2 * ML + 2)) by (field; lra).
    assert (H3 : norm d + norm h <= (2 * ML + 2) * norm d) by lra.
    eapply Rle_trans.
    { apply Rmult_le_compat_l; [|exact H3]. left. apply Rdiv_lt_0_compat; [apply cond_pos|lra]. }
    right. field. lra.
  Qed.

  (** A single invertible equation. *)
  Lemma solves_one (linear_solve : (Y -> list Y) -> list Y -> Y) (A B : Y -> Y) (b : Y) :
    solves linear_solve -> (forall y, A (B y) = y) -> (forall y, B (A y) = y) ->
    linear_solve (fun y => [A y]) [b] = B b.
  Proof.
    intros Hs HAB HBA. apply Hs.
    - intros x'. cbn [sqdist]. rewrite HAB.
      replace (minus b b) with (zero : Y) by (symmetry; apply minus_eq_zero). rewrite norm_zero.
      pose proof (pow2_ge_0 (norm (minus (A x') b))). lra.
    - intros x' H. specialize (H (B b)). cbn [sqdist] in H. rewrite HAB in H.
      replace (minus b b) with (zero : Y) in H by (symmetry; apply minus_eq_zero). rewrite norm_zero in H.
      assert (Hn : norm (minus (A x') b) = 0).
      { pose proof (norm_ge_0 (minus (A x') b)). nra. }
      apply norm_eq_zero in Hn.
      assert (He : A x' = b).
      { replace (A x') with (plus (minus (A x') b) b) by (unfold minus; rewrite <- plus_assoc, plus_opp_l; apply plus_zero_r).
        rewrite Hn. apply plus_zero_l. }
      rewrite <- He. symmetry. apply HBA.
  Qed.

  Lemma pf_C66_gradient (linear_solve : (Y -> list Y) -> list Y -> Y) (f : vfield P Y) (direction tprev : R)
        (p0 : P) (g : P -> Y) (D : list (P * Y -> Y)) :
    solves linear_solve ->
    derivatives_at (implicit_vf (wrap_terms direction (One f)) tprev) p0 (g p0) D ->
    (forall L, In L D -> invertible (fun dy => L (zero, dy))) ->
    filterlim g (locally p0) (locally (g p0)) ->
    locally p0 (fun p => f p (tprev * direction) (g p) = f p0 (tprev * direction) (g p0)) ->
    filterdiff g (locally p0) (tangent linear_solve D).
  Proof.
    intros Hs [Hlen HD] Hinv Hg Hlev. destruct D as [|L [|]]; try discriminate Hlen.
    specialize (HD 0%nat L eq_refl). destruct (Hinv L (or_introl eq_refl)) as (B & HB & HAB & HBA).
    apply (filterdiff_ext_lin g (fun dp => opp (B (L (dp, zero))))).
    - exact (implicit_derivative (fun p y => f p (tprev * direction) y) L B p0 g HD HB HBA Hg Hlev).
    - intros dp. unfold tangent. cbn [map].
      symmetry. refine (eq_trans (solves_one linear_solve _ B (opp (L (dp, zero))) Hs HAB HBA) _).
      exact (linear_opp' B _ HB).
  Qed.

  (** At most one linear map is the derivative, so this is what any other way of differentiating gives. *)
  Lemma pf_C66_steady (linear_solve : (Y -> list Y) -> list Y -> Y) (f : vfield P Y) (direction tprev : R)
        (p0 : P) (g : P -> Y) (D : list (P * Y -> Y)) :
    solves linear_solve ->
    derivatives_at (implicit_vf (wrap_terms direction (One f)) tprev) p0 (g p0) D ->
    (forall L, In L D -> invertible (fun dy => L (zero, dy))) ->
    filterlim g (locally p0) (locally (g p0)) ->
    locally p0 (fun p => f p (tprev * direction) (g p) = zero) ->
    filterdiff g (locally p0) (tangent linear_solve D).
  Proof.
    intros Hs HD Hinv Hg Hst. apply (pf_C66_gradient linear_solve f direction tprev p0 g D Hs HD Hinv Hg).
    pose proof (locally_singleton _ _ Hst) as H0. cbn beta in H0.
    generalize Hst. apply filter_imp. intros p Hp. rewrite H0. exact Hp.
  Qed.
End ImplicitProofs.


(** There are such solvers. *)
Lemma solves_exists {Y : NormedModule R_AbsRing} : exists linear_solve : (Y -> list Y) -> list Y -> Y, solves linear_solve.
Proof.
  exists (fun A b => ClassicalEpsilon.epsilon (inhabits (zero : Y)) (fun x => least_squares A b x)).
  intros A b x Hx Hu. apply Hu. apply ClassicalEpsilon.epsilon_spec. exists x. exact Hx.
Qed.

(** [dy/dt = p - y], with [p] and [- y] in two terms. *)
Definition split1 : vfield R_NormedModule R_NormedModule := fun p t y => p.
Definition split2 : vfield R_NormedModule R_NormedModule := fun p t y => - y.
Definition split_D : list (R_NormedModule * R_NormedModule -> R_NormedModule) := [fst; fun q => opp (snd q)].

Lemma norm_sq (x : R_NormedModule) : norm x ^ 2 = x * x.
Proof. change (norm x) with (Rabs x). rewrite pow2_abs. ring. Qed.

Lemma pf_C66_split_refuted :
  exists (fs : list (vfield R_NormedModule R_NormedModule)) (tprev : R) (p0 : R) (g : R -> R)
         (D : list (R * R -> R)),
    derivatives_at (implicit_vf (wrap_terms 1 (Multi fs)) tprev) p0 (g p0) D /\
    (forall p, fold_right Rplus 0 (map (fun f : vfield R_NormedModule R_NormedModule => f p tprev (g p)) fs) = 0) /\
    is_derive g p0 1 /\
    forall linear_solve, solves linear_solve -> forall dp, tangent linear_solve D dp = 0.
Proof.
  exists [split1; split2], 0, 0, (fun p => p), split_D. split.
  { split; [reflexivity|]. intros [|[|i]] L HL; cbn in HL; try (destruct i; discriminate).
    - injection HL as <-. apply (filterdiff_linear fst). apply is_linear_fst.
    - injection HL as <-.
      refine (@filterdiff_linear R_AbsRing (prod_NormedModule R_AbsRing R_NormedModule R_NormedModule) R_NormedModule
                _ (fun q => opp (snd q)) _).
      apply (is_linear_comp snd opp); [apply is_linear_snd|apply is_linear_opp]. }
  split; [intros p; cbn; unfold split1, split2; ring|]. split; [exact (@is_derive_id R_AbsRing 0)|].
  intros ls Hs dp. unfold tangent, split_D. apply Hs.
  - intros x'. cbn [map sqdist fst snd]. rewrite !norm_sq. unfold minus, plus, opp, zero; cbn. nra.
  - intros x' H. specialize (H 0). revert H. cbn [map sqdist fst snd]. rewrite !norm_sq.
    unfold minus, plus, opp, zero; cbn. intros H. nra.
Qed.

(** The steady state event. *)
Lemma pf_C66_steady_one (rtol atol : R) (f : vfield R_NormedModule R_NormedModule) (p t y : R) :
  steady_cond rms (fun x => rms [x]) rtol atol (One f) p t y <-> Rabs (f p t y) < atol + rtol * Rabs y.
Proof.
  assert (H1 : forall x, rms [x] = Rabs x).
  { intros x. unfold rms. cbn [fold_right length INR]. replace ((x ^ 2 + 0) / 1) with (Rsqr x) by (unfold Rsqr; field).
    apply sqrt_Rsqr_abs. }
  unfold steady_cond. cbn [func]. rewrite !H1. tauto.
Qed.

Lemma rms_bound (l : list R) : Rabs (fold_right Rplus 0 l) <= INR (length l) * rms l.
Proof.
  destruct l as [|x0 l0]; [cbn; rewrite Rabs_R0; lra|]. set (l := x0 :: l0).
  assert (Hn : 0 < INR (length l)) by (apply lt_0_INR; cbn; lia).
  assert (Hs0 : forall m : list R, 0 <= fold_right (fun x s => x ^ 2 + s) 0 m).
  { induction m as [|x m IH]; cbn [fold_right]; [lra|]. pose proof (pow2_ge_0 x). lra. }
  assert (Hc : forall m : list R, fold_right Rplus 0 m ^ 2 <= INR (length m) * fold_right (fun x s => x ^ 2 + s) 0 m).
  { induction m as [|x m IH]; [cbn; lra|]. cbn [fold_right length]. rewrite S_INR.
    set (u := fold_right Rplus 0 m) in *. set (v := fold_right (fun x s => x ^ 2 + s) 0 m) in *. set (n := INR (length m)) in *.
    pose proof (Hs0 m) as Hv. fold v in Hv. assert (Hn' : 0 <= n) by apply pos_INR.
    assert (H2 : 2 * x * u <= n * x ^ 2 + v).
    { destruct (Req_dec n 0) as [E|E].
      - rewrite E in IH. assert (u = 0) by nra. subst u. nra.
      - assert (Hp : 0 < n) by lra. assert (Hq : 0 <= (n * x - u) ^ 2) by apply pow2_ge_0.
        assert (H3 : n * (2 * x * u) <= n * (n * x ^ 2 + v)) by nra. apply Rmult_le_reg_l in H3; auto. }
    nra. }
  unfold rms. rewrite <- (sqrt_Rsqr (INR (length l))) at 1 by lra. rewrite <- sqrt_mult_alt by apply Rle_0_sqr.
  rewrite <- sqrt_Rsqr_abs. apply sqrt_le_1_alt. rewrite Rsqr_pow2. eapply Rle_trans; [apply Hc|]. right. unfold Rsqr. field. lra.
Qed.

Lemma pf_C66_steady_sound (rtol atol : R) (fs : list (vfield R_NormedModule R_NormedModule)) (p t y : R) :
  fs <> [] -> steady_cond rms (fun x => rms [x]) rtol atol (Multi fs) p t y ->
  Rabs (fold_right Rplus 0 (map (fun f : vfield R_NormedModule R_NormedModule => f p t y) fs))
    < INR (length fs) * (atol + rtol * Rabs y).
Proof.
  intros Hne H. unfold steady_cond in H. cbn [func] in H.
  assert (H1 : forall x, rms [x] = Rabs x).
  { intros x. unfold rms. cbn [fold_right length INR]. replace ((x ^ 2 + 0) / 1) with (Rsqr x) by (unfold Rsqr; field).
    apply sqrt_Rsqr_abs. }
  rewrite H1 in H. eapply Rle_lt_trans; [apply rms_bound|]. rewrite map_length.
  apply Rmult_lt_compat_l; [|exact H]. destruct fs; [congruence|]. apply lt_0_INR. cbn. lia.
Qed.

Lemma pf_C66_steady_split_refuted :
  exists (fs : list (vfield R_NormedModule R_NormedModule)) (p t y : R),
    fold_right Rplus 0 (map (fun f : vfield R_NormedModule R_NormedModule => f p t y) fs) = 0 /\
    forall rtol atol, 0 < atol < 1 / 2 -> 0 < rtol < 1 / 2 ->
    ~ steady_cond rms (fun x => rms [x]) rtol atol (Multi fs) p t y.
Proof.
  exists [split1; split2], 1, 0, 1. split; [cbn; unfold split1, split2; ring|].
  intros rtol atol Ha Hr H. unfold steady_cond in H. cbn [func map] in H. unfold split1, split2, rms in H.
  cbn [fold_right length INR] in H.
  replace ((1 ^ 2 + ((- (1)) ^ 2 + 0)) / (1 + 1)) with 1 in H by field.
  replace ((1 ^ 2 + 0) / 1) with 1 in H by field. rewrite sqrt_1 in H. lra.
Qed.
