(** Local errors of the Langevin solvers. *)
From Coq Require Import Reals List Bool Arith Lia Lra Psatz.
From Coquelicot Require Import Coquelicot.
From Verif Require Import Model_Langevin Spec_Langevin Proof_LangevinCoeffs Proof_LangevinExact Proof_LangevinJets.
Import ListNotations.
Open Scope R_scope.

Lemma jet_comp' n a F f x0 f0 f1 f2 f3 : (1 <= n <= 4)%nat -> expands f x0 f0 f1 f2 f3 -> q0 a = x0 -> jet n a F ->
  jet n (qcomp f0 f1 f2 f3 a) (fun h => f (F h)).
Proof. intros Hn He <- HF. apply jet_comp; assumption. Qed.
Lemma jet_poly5 n a5 a4 a3 a2 a1 a0 : (n <= 4)%nat -> jet n (Q4 a0 a1 a2 a3) (fun h => polyval [a5; a4; a3; a2; a1; a0] h).
Proof.
  intros Hn. exists (Rabs a4 + Rabs a5), 1. pose proof (Rabs_pos a4). pose proof (Rabs_pos a5). repeat split; try lra. intros h Hh.
  replace (_ - _) with (a4 * h ^ 4 + a5 * h ^ 5) by (unfold qpoly, polyval, fold_left; cbn [q0 q1 q2 q3]; ring).
  eapply Rle_trans; [apply Rabs_triang|]. rewrite Rmult_plus_distr_r, !Rabs_mult.
  rewrite !(Rabs_pos_eq (h ^ _)) by (apply pow_le; lra).
  apply Rplus_le_compat; apply Rmult_le_compat_l; try assumption; apply pow_le_pow; lra || lia.
Qed.
Lemma jet_qpoly n q : jet n q (qpoly q).
Proof. exists 0, 1. repeat split; try lra. intros h Hh. rewrite Rminus_eq_0, Rabs_R0. lra. Qed.
Lemma jet_norm n q F a b c d : (n <= 4)%nat -> q0 q = a -> q1 q = b -> q2 q = c -> q3 q = d -> jet n q F -> jet n (Q4 a b c d) F.
Proof. intros Hn <- <- <- <- H. destruct q. exact H. Qed.

Ltac qsimp := cbn [q0 q1 q2 q3 qadd qopp qmul qcomp qconst qid qint].
(** Builds the expansion of an expression in the step size from those of its parts, which are hypotheses. *)
Ltac jets :=
  first
  [ eassumption
  | apply jet_const
  | apply jet_id
  | lazymatch goal with
    | |- jet ?n _ (fun h => @?A h + @?B h) => eapply (jet_plus n _ _ A B); jets
    | |- jet ?n _ (fun h => @?A h - @?B h) => eapply (jet_minus n _ _ A B); jets
    | |- jet ?n _ (fun h => - @?A h) => eapply (jet_opp n _ A); jets
    | |- jet ?n _ (fun h => @?A h * @?B h) => eapply (jet_mult n _ _ A B); [lia|jets|jets]
    | |- jet ?n _ (fun h => @?A h / ?b) => eapply (jet_mult n _ _ A (fun _ => / b)); [lia|jets|jets]
    end ].

(** The exact solution *)
Section ExactJets.
  Context (c u rho p1 p2 p3 x0 v0 f0 f1 f2 f3 : R) (f X V : R -> R).
  Hypothesis He : expands f x0 f0 f1 f2 f3.
  Hypothesis HL : langevin_equation c u rho (fun s => f (X s)) (fun s => p1 + 2 * p2 * s + 3 * p3 * s ^ 2) X V.
  Hypothesis HX : X 0 = x0.
  Hypothesis HV : V 0 = v0.
  Definition w1 := - c * v0 - u * f0 + rho * p1.
  Definition w2 := (- c * w1 - u * (f1 * v0) + rho * (2 * p2)) / 2.
  Definition w3 := (- c * w2 - u * (f1 * (w1 / 2) + f2 / 2 * v0 ^ 2) + rho * (3 * p3)) / 3.
  Definition qV := Q4 v0 w1 w2 w3.
  Definition qX := Q4 x0 v0 (w1 / 2) (w2 / 3).
  Let rhs s := - c * V s - u * f (X s) + rho * (p1 + 2 * p2 * s + 3 * p3 * s ^ 2).
  Lemma rhs_jet n : (1 <= n <= 4)%nat -> jet n qX X -> jet n qV V ->
    jet n (qadd (qadd (qmul (qconst (- c)) qV) (qopp (qmul (qconst u) (qcomp f0 f1 f2 f3 qX)))) (qmul (qconst rho) (Q4 p1 (2 * p2) (3 * p3) 0))) rhs.
  Proof.
    intros Hn JX JV. unfold rhs.
    pose proof (jet_comp' n qX X f x0 f0 f1 f2 f3 Hn He eq_refl JX) as JF.
    assert (JP : jet n (Q4 p1 (2 * p2) (3 * p3) 0) (fun s => p1 + 2 * p2 * s + 3 * p3 * s ^ 2)).
    { eapply jet_ext; [|apply jet_qpoly]. exists 1. split; [lra|]. intros h Hh. unfold qpoly. cbn [q0 q1 q2 q3]. ring. }
    eapply (jet_plus n _ _ (fun s => - c * V s - u * f (X s)) (fun s => rho * (p1 + 2 * p2 * s + 3 * p3 * s ^ 2))); [|jets]. jets.
  Qed.
  Lemma bounded_jet0 (F : R -> R) q : continuous F 0 -> jet 0 q F.
  Proof.
    intros Hc. assert (Hl : locally 0 (fun x => Rabs (F x - F 0) < 1)).
    { apply (Hc (fun y => Rabs (y - F 0) < 1)). exists (mkposreal 1 Rlt_0_1). intros y Hy. exact Hy. }
    destruct Hl as [eps Hl]. destruct (qpoly_bound q) as (M & HM & Hb). pose proof (cond_pos eps).
    exists (Rabs (F 0) + 1 + M), (Rmin 1 (eps / 2)). pose proof (Rabs_pos (F 0)).
    pose proof (Rmin_l 1 (eps / 2)). pose proof (Rmin_r 1 (eps / 2)).
    split; [lra|]. split; [split; [apply Rmin_glb_lt|]; lra|]. intros h Hh.
    assert (Hx : ball 0 eps h) by (unfold ball; cbn; unfold AbsRing_ball, abs, minus, plus, opp; cbn; rewrite Ropp_0, Rplus_0_r, Rabs_pos_eq; lra).
    specialize (Hl h Hx). specialize (Hb h ltac:(lra)). cbn [pow]. rewrite Rmult_1_r.
    replace (F h - qpoly q h) with (F 0 + (F h - F 0) + - qpoly q h) by ring.
    eapply Rle_trans; [apply Rabs_triang|]. rewrite Rabs_Ropp. apply Rplus_le_compat; [|exact Hb].
    eapply Rle_trans; [apply Rabs_triang|]. lra.
  Qed.
  Lemma exact_step n : (n <= 3)%nat -> jet n qV V ->
    jet n (qadd (qadd (qmul (qconst (- c)) qV) (qopp (qmul (qconst u) (qcomp f0 f1 f2 f3 qX)))) (qmul (qconst rho) (Q4 p1 (2 * p2) (3 * p3) 0))) rhs ->
    jet (S n) qX X /\ jet (S n) qV V.
  Proof.
    intros Hn JV JR. split.
    - eapply jet_agree; [lia| |apply (jet_int n qV X V); [exact Hn|intros s; apply HL|exact JV]].
      rewrite HX. unfold agree, qX, qV. qsimp. repeat split; reflexivity.
    - eapply jet_agree; [lia| |eapply (jet_int n _ V rhs); [exact Hn|intros s; apply HL|exact JR]].
      rewrite HV. unfold agree, qX, qV. qsimp. unfold w3, w2. repeat split; intros; try (unfold w1; field); field.
  Qed.
  Lemma exact_jets : jet 4 qX X /\ jet 4 qV V.
  Proof.
    assert (JX0 : continuous X 0) by (apply (ex_derive_continuous (V := R_NormedModule) X); exists (V 0); apply HL).
    assert (JV0 : continuous V 0) by (apply (ex_derive_continuous (V := R_NormedModule) V); eexists; apply HL).
    assert (JX1 : jet 1 qX X).
    { eapply jet_agree; [lia| |apply (jet_int 0 qV X V); [lia|intros s; apply HL|apply bounded_jet0; exact JV0]].
      rewrite HX. unfold agree, qX, qV. qsimp. repeat split; reflexivity. }
    assert (JV1 : jet 1 qV V).
    { assert (JR : jet 0 (qconst 0) rhs).
      { apply bounded_jet0. unfold rhs.
        assert (Hf : continuous f x0).
        { destruct He as (C & r & HC & Hr & Hb). apply continuity_pt_filterlim.
          assert (E : f x0 = f0).
          { specialize (Hb x0). rewrite Rminus_eq_0, Rabs_R0 in Hb. specialize (Hb ltac:(lra)).
            rewrite pow_i in Hb by lia. rewrite (Rmult_0_r C) in Hb. assert (Hz : Rabs (f x0 - f0) <= 0).
            { eapply Rle_trans; [|exact Hb]. right. f_equal. field. }
            pose proof (Rabs_pos (f x0 - f0)). assert (Hq : Rabs (f x0 - f0) = 0) by lra. apply Rabs_eq_0 in Hq. lra. }
          intros eps Heps. set (L := Rabs f1 + Rabs (f2 / 2) + Rabs (f3 / 6) + C).
          pose proof (Rabs_pos f1). pose proof (Rabs_pos (f2 / 2)). pose proof (Rabs_pos (f3 / 6)).
          exists (Rmin (Rmin r 1) (eps / (L + 1))).
          assert (Hq : 0 < eps / (L + 1)) by (apply Rdiv_lt_0_compat; unfold L; lra).
          pose proof (Rmin_l (Rmin r 1) (eps / (L + 1))). pose proof (Rmin_r (Rmin r 1) (eps / (L + 1))).
          pose proof (Rmin_l r 1). pose proof (Rmin_r r 1).
          split; [repeat apply Rmin_glb_lt; lra|]. intros x [_ Hx]. cbn in Hx |- *. unfold R_dist in *.
          specialize (Hb x ltac:(lra)). rewrite E. set (d := x - x0) in *.
          set (P := f1 * d + _) in Hb. replace (f x - f0) with ((f x - (f0 + P)) + P) by ring.
          assert (Hd1 : Rabs d <= 1) by lra. assert (Hd0 : 0 <= Rabs d) by apply Rabs_pos.
          assert (HP : Rabs P <= (Rabs f1 + Rabs (f2 / 2) + Rabs (f3 / 6)) * Rabs d).
          { unfold P. rewrite !Rmult_plus_distr_r, Rplus_assoc.
            eapply Rle_trans; [apply Rabs_triang|]. apply Rplus_le_compat; [rewrite Rabs_mult; lra|].
            eapply Rle_trans; [apply Rabs_triang|]. apply Rplus_le_compat; rewrite !Rabs_mult; apply Rmult_le_compat_l; try apply Rabs_pos; nra. }
          assert (Hd4 : C * Rabs d ^ 4 <= C * Rabs d).
          { apply Rmult_le_compat_l; [exact HC|]. rewrite <- (pow_1 (Rabs d)) at 2. apply pow_le_pow; [lra|lia]. }
          assert (Hlt : (L + 1) * Rabs d < eps).
          { apply Rlt_le_trans with ((L + 1) * (eps / (L + 1))); [apply Rmult_lt_compat_l; [unfold L; lra|lra]|]. right. field. unfold L. lra. }
          eapply Rle_lt_trans; [apply Rabs_triang|]. unfold L in Hlt. lra. }
        assert (HfX : continuous (fun s => f (X s)) 0) by (apply (continuous_comp X f); [exact JX0|rewrite HX; exact Hf]).
        apply (continuous_plus (V := R_NormedModule)).
        - apply (continuous_minus (V := R_NormedModule)); apply (continuous_scal_r (V := R_NormedModule)); assumption.
        - apply (ex_derive_continuous (V := R_NormedModule)). auto_derive. trivial. }
      eapply jet_agree; [lia| |eapply (jet_int 0 _ V rhs); [lia|intros s; apply HL|exact JR]].
      rewrite HV. unfold agree, qV. qsimp. repeat split; intros; try reflexivity; lia. }
    destruct (exact_step 1 ltac:(lia) JV1 (rhs_jet 1 ltac:(lia) JX1 JV1)) as [JX2 JV2].
    destruct (exact_step 2 ltac:(lia) JV2 (rhs_jet 2 ltac:(lia) JX2 JV2)) as [JX3 JV3].
    exact (exact_step 3 ltac:(lia) JV3 (rhs_jet 3 ltac:(lia) JX3 JV3)).
  Qed.
End ExactJets.

(** Small steps use the Taylor coefficients. *)
Lemma small_taylor (th c : R) : 0 < th -> exists h0, 0 < h0 /\ forall h, 0 <= h <= h0 -> h * c < th.
Proof.
  intros Ht. pose proof (Rabs_pos c). exists (th / (2 * (Rabs c + 1))). split; [apply Rdiv_lt_0_compat; lra|]. intros h Hh.
  apply Rle_lt_trans with (h * (Rabs c + 1)); [apply Rmult_le_compat_l; [lra|]; pose proof (Rle_abs c); lra|].
  apply Rle_lt_trans with (th / (2 * (Rabs c + 1)) * (Rabs c + 1)); [apply Rmult_le_compat_r; lra|].
  replace (th / (2 * (Rabs c + 1)) * (Rabs c + 1)) with (th / 2) by (field; lra). lra.
Qed.

(** Comparing a numerical step with the exact solution *)
Lemma compare (n : nat) (qx qv : quad) (Fx Fv X V : R -> R) (P : R -> R -> R -> Prop) :
  jet n qx Fx -> jet n qv Fv -> jet n qx X -> jet n qv V ->
  (exists h1, 0 < h1 /\ forall h a b, 0 < h <= h1 -> P h a b -> a = Fx h /\ b = Fv h) ->
  exists C h0, 0 < h0 /\ forall h a b, 0 < h <= h0 -> P h a b -> Rabs (a - X h) <= C * h ^ n /\ Rabs (b - V h) <= C * h ^ n.
Proof.
  intros J1 J2 J3 J4 (h1 & H1 & HP).
  destruct (jet_close _ _ _ _ J1 J3) as (C & h2 & H2 & HC). destruct (jet_close _ _ _ _ J2 J4) as (C' & h3 & H3 & HC').
  exists (Rmax C C'), (Rmin h1 (Rmin h2 h3)).
  pose proof (Rmin_l h1 (Rmin h2 h3)). pose proof (Rmin_r h1 (Rmin h2 h3)). pose proof (Rmin_l h2 h3). pose proof (Rmin_r h2 h3).
  split; [repeat apply Rmin_glb_lt; assumption|]. intros h a b Hh Hp.
  destruct (HP h a b ltac:(lra) Hp) as [-> ->]. specialize (HC h ltac:(lra)). specialize (HC' h ltac:(lra)).
  assert (0 <= h ^ n) by (apply pow_le; lra). pose proof (Rmax_l C C'). pose proof (Rmax_r C C').
  split; (eapply Rle_trans; [eassumption|]); apply Rmult_le_compat_r; assumption.
Qed.

Section Numeric.
  Context (th c u rho p0 p1 p2 p3 x0 v0 f0 f1 f2 f3 : R) (f X V : R -> R).
  Hypothesis Hth : 0 < th.
  Hypothesis He : expands f x0 f0 f1 f2 f3.
  Hypothesis Hf0 : f x0 = f0.
  Hypothesis HL : langevin_equation c u rho (fun s => f (X s)) (fun s => p1 + 2 * p2 * s + 3 * p3 * s ^ 2) X V.
  Hypothesis HX : X 0 = x0.
  Hypothesis HV : V 0 = v0.
  Let lv h : levy unit := path_levy (fun _ => cubic p0 p1 p2 p3) h.
  Let W h := p1 * h + p2 * h ^ 2 + p3 * h ^ 3.
  Let H h := - p2 * h ^ 2 / 6 - p3 * h ^ 3 / 4.
  Let K h := p3 * h ^ 3 / 120.
  Lemma jW : jet 4 (Q4 0 p1 p2 p3) W.
  Proof. eapply jet_ext; [|apply jet_qpoly]. exists 1. split; [lra|]. intros h Hh. unfold qpoly, W. cbn [q0 q1 q2 q3]. ring. Qed.
  Lemma jH : jet 4 (Q4 0 0 (- p2 / 6) (- p3 / 4)) H.
  Proof. eapply jet_ext; [|apply jet_qpoly]. exists 1. split; [lra|]. intros h Hh. unfold qpoly, H. cbn [q0 q1 q2 q3]. field. Qed.
  Lemma jK : jet 4 (Q4 0 0 0 (p3 / 120)) K.
  Proof. eapply jet_ext; [|apply jet_qpoly]. exists 1. split; [lra|]. intros h Hh. unfold qpoly, K. cbn [q0 q1 q2 q3]. field. Qed.

  Let k h := align_map (fun p => polyval p h) (align_tay c).
  Let ax h := x0 + al_a1 (k h) * v0 - al_b1 (k h) * (u * h) * f0 + rho * (al_b1 (k h) * W h + al_chh (k h) * H h).
  Let av h := al_beta (k h) * v0 - u * ((al_a1 (k h) - al_b1 (k h)) * f0 + al_b1 (k h) * f (ax h))
     + rho * (al_aa (k h) * W h - c * al_chh (k h) * H h).
  Lemma align_jets : jet 3 (qX c u rho p1 p2 x0 v0 f0 f1) ax /\ jet 3 (qV c u rho p1 p2 p3 v0 f0 f1 f2) av.
  Proof.
    pose proof (jet_weaken 4 3 _ _ ltac:(lia) jW) as JW. pose proof (jet_weaken 4 3 _ _ ltac:(lia) jH) as JH.
    assert (Jb : jet 3 _ (fun h => al_beta (k h))) by (unfold k, align_tay, align_map; cbn [al_beta]; apply (jet_poly5 3); lia).
    assert (Ja : jet 3 _ (fun h => al_a1 (k h))) by (unfold k, align_tay, align_map; cbn [al_a1]; apply (jet_poly5 3); lia).
    assert (Jb1 : jet 3 _ (fun h => al_b1 (k h))) by (unfold k, align_tay, align_map; cbn [al_b1]; apply (jet_poly5 3); lia).
    assert (Jaa : jet 3 _ (fun h => al_aa (k h))) by (unfold k, align_tay, align_map; cbn [al_aa]; apply (jet_poly5 3); lia).
    assert (Jc : jet 3 _ (fun h => al_chh (k h))) by (unfold k, align_tay, align_map; cbn [al_chh]; apply (jet_poly5 3); lia).
    assert (Jx : jet 3 (qX c u rho p1 p2 x0 v0 f0 f1) ax).
    { unfold ax. eapply jet_agree; [lia| |jets]. unfold agree, qX, w1, w2. qsimp. repeat split; intros; try lia; field. }
    split; [exact Jx|].
    pose proof (jet_comp' 3 (qX c u rho p1 p2 x0 v0 f0 f1) ax f x0 f0 f1 f2 f3 ltac:(lia) He eq_refl Jx) as Jf.
    unfold av. eapply jet_agree; [lia| |jets].
    unfold agree, qX, qV, w1, w2, w3. qsimp. repeat split; intros; try lia; unfold w1; field.
  Qed.
  Lemma align_compare : local_error (ALIGN th) 3 c u rho f (cubic p0 p1 p2 p3) x0 v0 X V.
  Proof.
    destruct (exact_jets c u rho p1 p2 p3 x0 v0 f0 f1 f2 f3 f X V He HL HX HV) as [JX JV].
    destruct align_jets as [Jx Jv]. unfold local_error.
    match goal with |- exists B h0, 0 < h0 /\ forall h x1 v1 f1 e, _ -> @?Q h x1 v1 f1 e -> _ =>
      destruct (compare 3 _ _ ax av X V (fun h a b => exists x1 v1 f1 e, x1 tt = a /\ v1 tt = b /\ Q h x1 v1 f1 e) Jx Jv
        (jet_weaken 4 3 _ _ ltac:(lia) JX) (jet_weaken 4 3 _ _ ltac:(lia) JV)) as (C & h0 & H0 & HC) end.
    - destruct (small_taylor th c Hth) as (h1 & H1 & Hs). exists h1. split; [exact H1|].
      intros h a b Hh (x1 & v1 & f1' & e & <- & <- & E). cbv beta in E.
      assert (Ek : fresh (D := unit) (ALIGN th) (fun _ => c) h tt = k h).
      { unfold fresh. cbn [ALIGN fl_taylor_threshold fl_map fl_tay]. destruct (Rlt_dec _ _) as [_|n]; [reflexivity|].
        exfalso. apply n. apply Hs. lra. }
      cbn [fl_compute_step ALIGN fl_is_fsal] in E. unfold align_compute_step in E. injection E as <- <- _ _.
      fold (ALIGN (D := unit) th). rewrite Ek.
      unfold path_levy. cbn [lv_w lv_h lv_k]. rewrite cubic_W, cubic_H by lra. rewrite ?Hf0. split; reflexivity.
    - exists C, h0. split; [exact H0|]. intros h x1 v1 f1' e Hh E. apply HC; [exact Hh|]. exists x1, v1, f1', e. auto.
  Qed.
  Let ks h := should_map (fun p => polyval p h) (should_tay c).
  Let sx1 h := x0 + sh_a_half (ks h) * (v0 + rho * (H h + 6 * K h)) + sh_b_half (ks h) * (- (u * h) * f0 + rho * (W h - 12 * K h)).
  Let sx h := x0 + sh_a1 (ks h) * v0 - u * h * sh_b1 (ks h) * (1 / 3 * f0 + 2 / 3 * f (sx1 h))
              + rho * (sh_b1 (ks h) * W h + (sh_chh (ks h) * H h + sh_ckk (ks h) * K h)).
  Let sv h := sh_beta1 (ks h) * v0
              - u * h * (sh_beta1 (ks h) / 6 * f0 + 2 / 3 * sh_beta_half (ks h) * f (sx1 h) + 1 / 6 * f (sx h))
              + rho * (sh_aa (ks h) * W h - c * (sh_chh (ks h) * H h + sh_ckk (ks h) * K h)).
  Lemma should_jets : jet 4 (qX c u rho p1 p2 x0 v0 f0 f1) sx /\ jet 4 (qV c u rho p1 p2 p3 v0 f0 f1 f2) sv.
  Proof.
    pose proof jW as JW. pose proof jH as JH. pose proof jK as JK.
    assert (J1 : jet 4 _ (fun h => sh_beta_half (ks h))) by (unfold ks, should_tay, should_map; cbn [sh_beta_half]; apply (jet_poly5 4); lia).
    assert (J2 : jet 4 _ (fun h => sh_a_half (ks h))) by (unfold ks, should_tay, should_map; cbn [sh_a_half]; apply (jet_poly5 4); lia).
    assert (J3 : jet 4 _ (fun h => sh_b_half (ks h))) by (unfold ks, should_tay, should_map; cbn [sh_b_half]; apply (jet_poly5 4); lia).
    assert (J4 : jet 4 _ (fun h => sh_beta1 (ks h))) by (unfold ks, should_tay, should_map; cbn [sh_beta1]; apply (jet_poly5 4); lia).
    assert (J5 : jet 4 _ (fun h => sh_a1 (ks h))) by (unfold ks, should_tay, should_map; cbn [sh_a1]; apply (jet_poly5 4); lia).
    assert (J6 : jet 4 _ (fun h => sh_b1 (ks h))) by (unfold ks, should_tay, should_map; cbn [sh_b1]; apply (jet_poly5 4); lia).
    assert (J7 : jet 4 _ (fun h => sh_aa (ks h))) by (unfold ks, should_tay, should_map; cbn [sh_aa]; apply (jet_poly5 4); lia).
    assert (J8 : jet 4 _ (fun h => sh_chh (ks h))) by (unfold ks, should_tay, should_map; cbn [sh_chh]; apply (jet_poly5 4); lia).
    assert (J9 : jet 4 _ (fun h => sh_ckk (ks h))) by (unfold ks, should_tay, should_map; cbn [sh_ckk]; apply (jet_poly5 4); lia).
    assert (Jx1 : exists b d, jet 4 (Q4 x0 (v0 / 2) b d) sx1 /\ b = (w1 c u rho p1 v0 f0) / 8).
    { unfold sx1. do 2 eexists. split; [eapply jet_norm; [lia| | | | |jets]|]; [qsimp; field|qsimp; field|qsimp; reflexivity|qsimp; reflexivity|].
      unfold w1. field. }
    destruct Jx1 as (b1 & d1 & Jx1 & Eb1).
    pose proof (jet_comp' 4 (Q4 x0 (v0 / 2) b1 d1) sx1 f x0 f0 f1 f2 f3 ltac:(lia) He eq_refl Jx1) as Jf1.
    assert (Jx : jet 4 (qX c u rho p1 p2 x0 v0 f0 f1) sx).
    { unfold sx. eapply jet_agree; [lia| |jets]. unfold agree, qX, w1, w2. qsimp. rewrite Eb1. unfold w1. repeat split; intros; try lia; field. }
    split; [exact Jx|].
    pose proof (jet_comp' 4 (qX c u rho p1 p2 x0 v0 f0 f1) sx f x0 f0 f1 f2 f3 ltac:(lia) He eq_refl Jx) as Jf.
    unfold sv. eapply jet_agree; [lia| |jets].
    unfold agree, qX, qV, w1, w2, w3. qsimp. rewrite Eb1. unfold w1. repeat split; intros; try lia; unfold w2, w1; field.
  Qed.

  Lemma should_compare : local_error (ShOULD th) 4 c u rho f (cubic p0 p1 p2 p3) x0 v0 X V.
  Proof.
    destruct (exact_jets c u rho p1 p2 p3 x0 v0 f0 f1 f2 f3 f X V He HL HX HV) as [JX JV].
    destruct should_jets as [Jx Jv]. unfold local_error.
    match goal with |- exists B h0, 0 < h0 /\ forall h x1 v1 f1 e, _ -> @?Q h x1 v1 f1 e -> _ =>
      destruct (compare 4 _ _ sx sv X V (fun h a b => exists x1 v1 f1 e, x1 tt = a /\ v1 tt = b /\ Q h x1 v1 f1 e) Jx Jv
        (jet_weaken 4 4 _ _ ltac:(lia) JX) (jet_weaken 4 4 _ _ ltac:(lia) JV)) as (C & h0 & H0 & HC) end.
    - destruct (small_taylor th c Hth) as (h1 & H1 & Hs). exists h1. split; [exact H1|].
      intros h a b Hh (x1 & v1 & f1' & e & <- & <- & E). cbv beta in E.
      assert (Ek : fresh (D := unit) (ShOULD th) (fun _ => c) h tt = ks h).
      { unfold fresh. cbn [ShOULD fl_taylor_threshold fl_map fl_tay]. destruct (Rlt_dec _ _) as [_|n]; [reflexivity|].
        exfalso. apply n. apply Hs. lra. }
      cbn [fl_compute_step ShOULD fl_is_fsal] in E. unfold should_compute_step in E. injection E as <- <- _ _.
      fold (ShOULD (D := unit) th). rewrite Ek.
      unfold path_levy. cbn [lv_w lv_h lv_k]. rewrite cubic_W, cubic_H, cubic_K by lra. rewrite ?Hf0. split; reflexivity.
    - exists C, h0. split; [exact H0|]. intros h x1 v1 f1' e Hh E. apply HC; [exact Hh|]. exists x1, v1, f1', e. auto.
  Qed.

  Let kq h := quicsort_map (fun p => polyval p h) (quicsort_tay c).
  Let vt h := v0 + rho * (H h + 6 * K h).
  Let rwk h := rho * (W h - 12 * K h).
  Let qx1 h := x0 + at_l (qs_a_lr1 (kq h)) * vt h + at_l (qs_b_lr1 (kq h)) * rwk h.
  Let qx2 h := x0 + at_r (qs_a_lr1 (kq h)) * vt h + at_r (qs_b_lr1 (kq h)) * rwk h - qs_a_third (kq h) * (f (qx1 h) * (u * h)).
  Let qx h := x0 + at_1 (qs_a_lr1 (kq h)) * vt h + at_1 (qs_b_lr1 (kq h)) * rwk h
    - 1 / 2 * (at_r (qs_a_lr1 (kq h)) * (f (qx1 h) * (u * h)) + at_l (qs_a_lr1 (kq h)) * (f (qx2 h) * (u * h))).
  Let qv h := at_1 (qs_beta_lr1 (kq h)) * vt h
    - 1 / 2 * (at_r (qs_beta_lr1 (kq h)) * (f (qx1 h) * (u * h)) + at_l (qs_beta_lr1 (kq h)) * (f (qx2 h) * (u * h)))
    + qs_a_div_h (kq h) * rwk h - rho * (H h - 6 * K h).
  Lemma quicsort_jets : jet 4 (qX c u rho p1 p2 x0 v0 f0 f1) qx /\ jet 4 (qV c u rho p1 p2 p3 v0 f0 f1 f2) qv.
  Proof.
    pose proof jW as JW. pose proof jH as JH. pose proof jK as JK.
    set (l := 1 / 2 - sqrt 3 / 6). set (r := 1 / 2 + sqrt 3 / 6).
    assert (Hl : l * l = l - 1 / 6).
    { unfold l. pose proof (sqrt_sqrt 3 ltac:(lra)) as Hs. set (s := sqrt 3) in *. clearbody s. nra. }
    assert (Hr : r = 1 - l) by (unfold l, r; lra).
    assert (Jlr : forall (at_ : lr1 R -> R) w, In (at_, w) [(at_l, l); (at_r, r); (at_1, 1)] ->
       jet 4 (Q4 1 (- c * w) (c ^ 2 / 2 * w ^ 2) (- c ^ 3 / 6 * w ^ 3)) (fun h => at_ (qs_beta_lr1 (kq h))) /\
       jet 4 (Q4 0 w (- c / 2 * w ^ 2) (c ^ 2 / 6 * w ^ 3)) (fun h => at_ (qs_a_lr1 (kq h))) /\
       jet 4 (Q4 0 (w ^ 2 / 2) (- c / 6 * w ^ 3) (c ^ 2 / 24 * w ^ 4)) (fun h => at_ (qs_b_lr1 (kq h)))).
    { intros at_ w Hin. clear - Hin. destruct Hin as [Hin|[Hin|[Hin|[]]]]; injection Hin as <- <-;
      unfold kq; cbv [quicsort_map quicsort_tay qs_beta_lr1 qs_a_lr1 qs_b_lr1 lr1_map l_r_1 at_l at_r at_1 times z_pows combine map fst snd];
      fold l; fold r; clearbody l r; (split; [|split]); (eapply jet_agree; [lia| |apply (jet_poly5 4); lia]);
      unfold agree; qsimp; repeat split; intros; field. }
    destruct (Jlr at_l l ltac:(left; reflexivity)) as (Jbl & Jal & Jbbl).
    destruct (Jlr at_r r ltac:(right; left; reflexivity)) as (Jbr & Jar & Jbbr).
    destruct (Jlr at_1 1 ltac:(right; right; left; reflexivity)) as (Jb1 & Ja1 & Jbb1). clear Jlr.
    assert (Jt : jet 4 _ (fun h => qs_a_third (kq h))) by (unfold kq, quicsort_tay, quicsort_map; cbn [qs_a_third]; apply (jet_poly5 4); lia).
    assert (Jd : jet 4 _ (fun h => qs_a_div_h (kq h))) by (unfold kq, quicsort_tay, quicsort_map; cbn [qs_a_div_h]; apply (jet_poly5 4); lia).
    clearbody l r. subst r.
    assert (Jv : jet 4 (Q4 v0 0 (- rho * p2 / 6) (- rho * p3 / 5)) vt).
    { unfold vt. eapply jet_agree; [lia| |jets]. unfold agree; qsimp; repeat split; intros; field. }
    assert (Jw : jet 4 (Q4 0 (rho * p1) (rho * p2) (rho * p3 * (9 / 10))) rwk).
    { unfold rwk. eapply jet_agree; [lia| |jets]. unfold agree; qsimp; repeat split; intros; field. }
    set (g1 := rho * p1 - c * v0).
    assert (Jx1 : exists d, jet 4 (Q4 x0 (l * v0) (l ^ 2 / 2 * g1) d) qx1).
    { unfold qx1. eexists. eapply jet_norm; [lia| | | | |jets]; qsimp; unfold g1; try field; reflexivity. }
    destruct Jx1 as (d1 & Jx1).
    pose proof (jet_comp' 4 (Q4 x0 (l * v0) (l ^ 2 / 2 * g1) d1) qx1 f x0 f0 f1 f2 f3 ltac:(lia) He eq_refl Jx1) as Jf1.
    assert (Jx2 : exists d, jet 4 (Q4 x0 ((1 - l) * v0) ((1 - l) ^ 2 / 2 * g1 - u * f0 / 3) d) qx2).
    { unfold qx2. eexists. eapply jet_norm; [lia| | | | |jets]; qsimp; unfold g1; try field; reflexivity. }
    destruct Jx2 as (d2 & Jx2).
    pose proof (jet_comp' 4 (Q4 x0 ((1 - l) * v0) ((1 - l) ^ 2 / 2 * g1 - u * f0 / 3) d2) qx2 f x0 f0 f1 f2 f3 ltac:(lia) He eq_refl Jx2) as Jf2.
    split.
    - assert (Hl2 : l ^ 2 = l - 1 / 6) by (rewrite <- Hl; ring).
      assert (Hl3 : l ^ 3 = 5 / 6 * l - 1 / 6) by (replace (l ^ 3) with (l * l ^ 2) by ring; rewrite Hl2; nra).
      assert (Hl4 : l ^ 4 = 2 / 3 * l - 5 / 36) by (replace (l ^ 4) with (l ^ 2 * l ^ 2) by ring; rewrite Hl2; nra).
      unfold qx. eapply jet_agree; [lia| |jets]. unfold agree, qX, w1, w2. qsimp. unfold w1, g1. repeat split; intros; (field || (match goal with |- ?a = ?b => assert (Hz : a - b = 0); [|lra] end; field_simplify; rewrite ?Hl4, ?Hl3, ?Hl2; field)).
    - assert (Hl2 : l ^ 2 = l - 1 / 6) by (rewrite <- Hl; ring).
      assert (Hl3 : l ^ 3 = 5 / 6 * l - 1 / 6) by (replace (l ^ 3) with (l * l ^ 2) by ring; rewrite Hl2; nra).
      assert (Hl4 : l ^ 4 = 2 / 3 * l - 5 / 36) by (replace (l ^ 4) with (l ^ 2 * l ^ 2) by ring; rewrite Hl2; nra).
      unfold qv. eapply jet_agree; [lia| |jets]. unfold agree, qV, w1, w2, w3. qsimp. unfold w2, w1, g1. repeat split; intros; (field || (match goal with |- ?a = ?b => assert (Hz : a - b = 0); [|lra] end; field_simplify; rewrite ?Hl4, ?Hl3, ?Hl2; field)).
  Qed.
  Lemma quicsort_compare : local_error (QUICSORT th) 4 c u rho f (cubic p0 p1 p2 p3) x0 v0 X V.
  Proof.
    destruct (exact_jets c u rho p1 p2 p3 x0 v0 f0 f1 f2 f3 f X V He HL HX HV) as [JX JV].
    destruct quicsort_jets as [Jx Jv]. unfold local_error.
    match goal with |- exists B h0, 0 < h0 /\ forall h x1 v1 f1 e, _ -> @?Q h x1 v1 f1 e -> _ =>
      destruct (compare 4 _ _ qx qv X V (fun h a b => exists x1 v1 f1 e, x1 tt = a /\ v1 tt = b /\ Q h x1 v1 f1 e) Jx Jv
        (jet_weaken 4 4 _ _ ltac:(lia) JX) (jet_weaken 4 4 _ _ ltac:(lia) JV)) as (C & h0 & H0 & HC) end.
    - destruct (small_taylor th c Hth) as (h1 & H1 & Hs). exists h1. split; [exact H1|].
      intros h a b Hh (x1 & v1 & f1' & e & <- & <- & E). cbv beta in E.
      assert (Ek : fresh (D := unit) (QUICSORT th) (fun _ => c) h tt = kq h).
      { unfold fresh. cbn [QUICSORT fl_taylor_threshold fl_map fl_tay]. destruct (Rlt_dec _ _) as [_|n]; [reflexivity|].
        exfalso. apply n. apply Hs. lra. }
      cbn [fl_compute_step QUICSORT fl_is_fsal] in E. unfold quicsort_compute_step in E. injection E as <- <- _ _.
      fold (QUICSORT (D := unit) th). rewrite Ek.
      unfold path_levy. cbn [lv_w lv_h lv_k]. rewrite cubic_W, cubic_H, cubic_K by lra. rewrite ?Hf0. split; reflexivity.
    - exists C, h0. split; [exact H0|]. intros h x1 v1 f1' e Hh E. apply HC; [exact Hh|]. exists x1, v1, f1', e. auto.
  Qed.
End Numeric.

(** For every smooth force and cubic path, a step of ALIGN has local error of third order, and a step of ShOULD and of QUICSORT
    has one of fourth order. *)
Lemma pf_C53_local_error (th gamma u rho p0 p1 p2 p3 x0 v0 : R) (f X V : R -> R) :
  0 < th -> four_times_differentiable f ->
  langevin_equation gamma u rho (fun s => f (X s)) (fun s => p1 + 2 * p2 * s + 3 * p3 * s ^ 2) X V ->
  X 0 = x0 -> V 0 = v0 ->
  local_error (ALIGN th) 3 gamma u rho f (cubic p0 p1 p2 p3) x0 v0 X V /\
  local_error (ShOULD th) 4 gamma u rho f (cubic p0 p1 p2 p3) x0 v0 X V /\
  local_error (QUICSORT th) 4 gamma u rho f (cubic p0 p1 p2 p3) x0 v0 X V.
Proof.
  intros Ht (f1 & f2 & f3 & f4 & H1 & H2 & H3 & H4 & Hc) HL HX HV.
  pose proof (smooth_expands f f1 f2 f3 f4 x0 H1 H2 H3 H4 (Hc x0)) as He.
  split; [|split].
  - eapply align_compare; eauto.
  - eapply should_compare; eauto.
  - eapply quicsort_compare; eauto.
Qed.
