(** Proofs about forward-mode differentiation of a solve. *)
From Coq Require Import Reals List Bool Lra Lia Sorted.
From Coquelicot Require Import Coquelicot.
From Verif Require Import Model_Tangent Spec_Tangent.
Import ListNotations.
Open Scope R_scope.

(** * Derivatives *)
Section Unique.
  Context {U V : NormedModule R_AbsRing}.

  Lemma scal_norm_R {U' : NormedModule R_AbsRing} (a : R) (v : U') : norm (scal a v) = Rabs a * norm v.
  Proof.
    apply Rle_antisym; [exact (norm_scal a v)|]. destruct (Req_dec a 0) as [->|Ha].
    { rewrite Rabs_R0, Rmult_0_l. apply norm_ge_0. }
    assert (Hp : 0 < Rabs (/ a)) by (apply Rabs_pos_lt, Rinv_neq_0_compat, Ha).
    apply Rmult_le_reg_l with (Rabs (/ a)); [exact Hp|].
    rewrite <- Rmult_assoc, <- Rabs_mult, Rinv_l, Rabs_R1, Rmult_1_l by exact Ha.
    assert (E : scal (/ a) (scal a v) = v).
    { refine (eq_trans (scal_assoc (/ a) a v) _). change (mult (/ a) a) with (/ a * a).
      refine (eq_trans (f_equal (fun k : R => scal k v) (Rinv_l a Ha)) _). exact (@scal_one R_Ring U' v). }
    exact (Rle_trans _ _ _ (Req_le _ _ (f_equal norm (eq_sym E))) (norm_scal (/ a) (scal a v))).
  Qed.

  Lemma domin_linear_zero (l : U -> V) :
    (forall a v, l (scal a v) = scal a (l v)) ->
    (forall eps : posreal, locally (zero : U) (fun y => norm (l y) <= eps * norm y)) -> forall v, l v = zero.
  Proof.
    intros Hs Hd v. apply norm_eq_zero. apply Rle_antisym; [|apply norm_ge_0]. apply le_epsilon. intros eps Heps.
    rewrite Rplus_0_l. assert (Hn := norm_ge_0 v).
    assert (He : 0 < eps / (norm v + 1)) by (apply Rdiv_lt_0_compat; lra).
    destruct (Hd (mkposreal _ He)) as (d & Hd'). cbn in Hd'.
    (* a small multiple of [v] lies in the ball *)
    assert (Hf := @norm_factor_gt_0 R_AbsRing U).
    set (a := d / (norm v + 1) / 2).
    assert (Ha : 0 < a) by (unfold a; apply Rdiv_lt_0_compat; [apply Rdiv_lt_0_compat; [apply (cond_pos d)|lra]|lra]).
    assert (Hb : ball (zero : U) d (scal a v)).
    { apply (norm_compat1 zero (scal a v) d). unfold minus. rewrite opp_zero, plus_zero_r, scal_norm_R, Rabs_pos_eq by lra. unfold a.
      apply Rle_lt_trans with (d / 2).
      - replace (d / (norm v + 1) / 2 * norm v) with (d / 2 * (norm v / (norm v + 1))) by (field; lra).
        rewrite <- (Rmult_1_r (d / 2)) at 2. apply Rmult_le_compat_l; [assert (Hp := cond_pos d); lra|].
        apply Rmult_le_reg_r with (norm v + 1); [lra|]. unfold Rdiv. rewrite Rmult_assoc, Rinv_l by lra. lra.
      - assert (Hp := cond_pos d). lra. }
    specialize (Hd' _ Hb).
    assert (E1 : norm (l (scal a v)) = a * norm (l v)).
    { refine (eq_trans (f_equal norm (Hs a v)) _). refine (eq_trans (scal_norm_R a (l v)) _). rewrite Rabs_pos_eq by lra. reflexivity. }
    assert (E2 : norm (scal a v) = a * norm v) by (refine (eq_trans (scal_norm_R a v) _); rewrite Rabs_pos_eq by lra; reflexivity).
    assert (Hd2 : a * norm (l v) <= eps / (norm v + 1) * (a * norm v)).
    { refine (Rle_trans _ _ _ (Req_le _ _ (eq_sym E1)) (Rle_trans _ _ _ Hd' (Req_le _ _ _))). f_equal. exact E2. }
    assert (H2 : norm (l v) <= eps / (norm v + 1) * norm v).
    { apply Rmult_le_reg_l with a; [exact Ha|]. lra. }
    apply (Rle_trans _ _ _ H2). unfold Rdiv. rewrite Rmult_assoc. rewrite <- (Rmult_1_r eps) at 2. apply Rmult_le_compat_l; [lra|].
    apply Rmult_le_reg_l with (norm v + 1); [lra|]. rewrite <- Rmult_assoc, Rinv_r by lra. lra.
  Qed.

  Lemma filterdiff_unique_at (f : U -> V) x l1 l2 :
    filterdiff f (locally x) l1 -> filterdiff f (locally x) l2 -> forall v, l1 v = l2 v.
  Proof.
    intros (L1 & D1) (L2 & D2) v.
    specialize (D1 x (fun P H => H)). specialize (D2 x (fun P H => H)).
    assert (Z : minus (l1 v) (l2 v) = zero).
    { apply (domin_linear_zero (fun v => minus (l1 v) (l2 v))).
      - intros a w. refine (eq_trans (f_equal2 minus (linear_scal l1 L1 a w) (linear_scal l2 L2 a w)) _).
        exact (eq_sym (scal_minus_distr_l a (l1 w) (l2 w))).
      - intros eps. assert (He : 0 < eps / 2) by (assert (H := cond_pos eps); lra).
        specialize (D1 (mkposreal _ He)). specialize (D2 (mkposreal _ He)). cbn in D1, D2.
        assert (D := filter_and _ _ D1 D2). clear D1 D2.
        assert (Dn : locally_norm x (fun y => norm (minus (minus (f y) (f x)) (l1 (minus y x))) <= eps / 2 * norm (minus y x) /\
                                           norm (minus (minus (f y) (f x)) (l2 (minus y x))) <= eps / 2 * norm (minus y x)))
          by (apply locally_norm_le_locally; exact D).
        apply locally_le_locally_norm. destruct Dn as (d & Hd). exists d. intros y Hy.
        assert (E : minus (plus x y) x = y).
        { unfold minus. rewrite (plus_comm x y), <- plus_assoc, plus_opp_r, plus_zero_r. reflexivity. }
        assert (E0 : minus y zero = y) by (unfold minus; rewrite opp_zero; apply plus_zero_r).
        unfold ball_norm in Hy. rewrite E0 in Hy.
        destruct (Hd (plus x y)) as (A & B); [unfold ball_norm; rewrite E; exact Hy|]. rewrite E in A, B.
        set (g := minus (f (plus x y)) (f x)) in *.
        assert (EE : minus (l1 y) (l2 y) = plus (minus g (l2 y)) (opp (minus g (l1 y)))).
        { unfold minus. rewrite opp_plus, opp_opp, (plus_comm g (opp (l2 y))), <- plus_assoc, (plus_assoc g (opp g)), plus_opp_r, plus_zero_l.
          apply plus_comm. }
        rewrite EE. refine (Rle_trans _ _ _ (norm_triangle _ _) _). rewrite norm_opp. lra. }
    apply (plus_reg_r (opp (l2 v))). rewrite plus_opp_r. exact Z.
  Qed.
End Unique.

Section Diff.
  Lemma diff_pair {T U V : NormedModule R_AbsRing} (f : T -> U) (g : T -> V) lf lg x :
    filterdiff f (locally x) lf -> filterdiff g (locally x) lg ->
    @filterdiff _ T (prod_NormedModule R_AbsRing U V) (fun t => (f t, g t)) (locally x) (fun d => (lf d, lg d)).
  Proof.
    intros Hf Hg.
    refine (@filterdiff_comp'_2 R_AbsRing T U V (prod_NormedModule R_AbsRing U V) f g (fun u v => (u, v)) x lf lg (fun u v => (u, v)) Hf Hg _).
    eapply filterdiff_ext_lin.
    - eapply filterdiff_ext; [|exact (@filterdiff_id R_AbsRing (prod_NormedModule R_AbsRing U V) (locally (f x, g x)))].
      intros [u v]. reflexivity.
    - intros [u v]. reflexivity.
  Qed.

  Lemma diff_affine {T : NormedModule R_AbsRing} (l : T -> R) (a : R) x :
    @is_linear _ T R_NormedModule l -> @filterdiff _ T R_NormedModule (fun t => a + l t) (locally x) l.
  Proof.
    intros Hl. eapply filterdiff_ext_lin.
    - refine (@filterdiff_plus_fct R_AbsRing T R_NormedModule (locally x) _ (fun _ => a) l (fun _ => zero) l _ _).
      + apply filterdiff_const.
      + apply filterdiff_linear. exact Hl.
    - intros y. apply (@plus_zero_l R_AbelianGroup (l y)).
  Qed.

  Lemma linear_zero_R {T : NormedModule R_AbsRing} (l : T -> R) : @is_linear _ T R_NormedModule l -> l zero = 0.
  Proof. exact (fun H => @linear_zero _ T R_NormedModule l H). Qed.
End Diff.

(** * Steps with moving ends *)
Section Moved.
  Context {P W Z : NormedModule R_AbsRing} {O : NormedModule R_AbsRing}.
  (** The ends of a step are affine functions. *)
  Definition mstep : Type := (R * (Z -> R)) * (R * (Z -> R)).
  Definition linear_ends (m : mstep) : Prop :=
    @is_linear _ Z R_NormedModule (snd (fst m)) /\ @is_linear _ Z R_NormedModule (snd (snd m)).
  Definition at_rest (m : mstep) : R * R := (fst (fst m), fst (snd m)).
  Definition move (z : Z) (m : mstep) : R * R := (fst (fst m) + snd (fst m) z, fst (snd m) + snd (snd m) z).

  Variables (stp : P -> R -> R -> W -> W) (jvp : P -> R -> R -> W -> P -> R -> R -> W -> W).

  (** The tangent along the steps. *)
  Definition tan_on (ms : list mstep) (p : P) (w : W) (dp : P) (dw : W) (dz : Z) : W * W :=
    fold_left (fun wd m => (stp p (fst (fst m)) (fst (snd m)) (fst wd),
                            jvp p (fst (fst m)) (fst (snd m)) (fst wd) dp (snd (fst m) dz) (snd (snd m) dz) (snd wd)))
              ms (w, dw).

  Lemma tan_on_snoc ms m p w dp dw dz :
    tan_on (ms ++ [m]) p w dp dw dz =
    (stp p (fst (fst m)) (fst (snd m)) (fst (tan_on ms p w dp dw dz)),
     jvp p (fst (fst m)) (fst (snd m)) (fst (tan_on ms p w dp dw dz)) dp (snd (fst m) dz) (snd (snd m) dz) (snd (tan_on ms p w dp dw dz))).
  Proof. unfold tan_on. rewrite fold_left_app. reflexivity. Qed.

  Lemma solve_on_snoc (g : list (R * R)) a b p w : solve_on stp (g ++ [(a, b)]) p w = stp p a b (solve_on stp g p w).
  Proof. unfold solve_on. rewrite fold_left_app. reflexivity. Qed.

  Lemma tan_on_value ms p w dp dw dz : fst (tan_on ms p w dp dw dz) = solve_on stp (map at_rest ms) p w.
  Proof.
    induction ms as [|m ms IH] using rev_ind; [reflexivity|].
    rewrite tan_on_snoc, map_app. cbn [map]. unfold at_rest at 2. rewrite solve_on_snoc, <- IH. reflexivity.
  Qed.

  Lemma move_zero ms : List.Forall linear_ends ms -> map (move zero) ms = map at_rest ms.
  Proof.
    intros H. induction H as [|m ms (H1 & H2) _ IH]; [reflexivity|]. cbn. rewrite IH. unfold move, at_rest.
    rewrite (linear_zero_R _ H1), (linear_zero_R _ H2), !Rplus_0_r. reflexivity.
  Qed.

  Lemma right_rules_prefix (f : P -> R -> R -> W -> O) (jf : P -> R -> R -> W -> P -> R -> R -> W -> O) g x p w :
    right_rules stp f jf (g ++ [x]) p w -> right_rules stp f jf g p w.
  Proof.
    intros H before a b after E. apply (H before a b (after ++ [x])). rewrite E, <- app_assoc. reflexivity.
  Qed.
End Moved.

Section Moved2.
  Context {P W Z : NormedModule R_AbsRing} {O : NormedModule R_AbsRing}.
  Variables (stp : P -> R -> R -> W -> W) (jvp : P -> R -> R -> W -> P -> R -> R -> W -> W).

  (** The derivative of a function of a step that starts where the given steps end. *)
  Lemma diff_compose (f : P -> R -> R -> W -> O) (D : P -> R -> R -> W -> O) (F : P -> W * Z -> W) (LF : P -> W * Z -> W) (m : mstep) p w :
    @linear_ends Z m ->
    step_derivative f p (fst (fst m)) (fst (snd m)) (F p (w, zero)) D ->
    @gradient_at P (prod_NormedModule R_AbsRing W Z) W F p (w, zero) LF ->
    @gradient_at P (prod_NormedModule R_AbsRing W Z) O
       (fun p wz => f p (fst (move (snd wz) m)) (snd (move (snd wz) m)) (F p wz)) p (w, zero)
       (fun dp dwz => D dp (snd (fst m) (snd dwz)) (snd (snd m) (snd dwz)) (LF dp dwz)).
  Proof.
    intros (L1 & L2) Hf HF. unfold gradient_at, step_derivative in *.
    set (X := prod_NormedModule R_AbsRing P (prod_NormedModule R_AbsRing W Z)).
    assert (Hz : forall l : Z -> R, @is_linear _ Z R_NormedModule l -> @is_linear _ X R_NormedModule (fun q : X => l (snd (snd q)))).
    { intros l Hl. refine (@is_linear_comp R_AbsRing X Z R_NormedModule (fun q : X => snd (snd q)) l _ Hl).
      refine (@is_linear_comp R_AbsRing X (prod_NormedModule R_AbsRing W Z) Z snd snd _ _); apply is_linear_snd. }
    assert (HA := @diff_affine X (fun q : X => snd (fst m) (snd (snd q))) (fst (fst m)) (p, (w, zero)) (Hz _ L1)).
    assert (HB := @diff_affine X (fun q : X => snd (snd m) (snd (snd q))) (fst (snd m)) (p, (w, zero)) (Hz _ L2)).
    assert (HP : @filterdiff R_AbsRing X P fst (locally ((p, (w, zero)) : X)) fst) by (apply filterdiff_linear, is_linear_fst).
    assert (HX := diff_pair _ _ _ _ _ HP (diff_pair _ _ _ _ _ HA (diff_pair _ _ _ _ _ HB HF))).
    refine (@filterdiff_comp' R_AbsRing X (prod_NormedModule R_AbsRing P (prod_NormedModule R_AbsRing R_NormedModule
             (prod_NormedModule R_AbsRing R_NormedModule W))) O _
             (fun q => f (fst q) (fst (snd q)) (fst (snd (snd q))) (snd (snd (snd q)))) (p, (w, zero)) _
             (fun d => D (fst d) (fst (snd d)) (fst (snd (snd d))) (snd (snd (snd d)))) HX _).
    cbn [fst snd]. rewrite (linear_zero_R _ L1), (linear_zero_R _ L2), !Rplus_0_r. exact Hf.
  Qed.
End Moved2.

Section Moved3.
  Context {P W Z : NormedModule R_AbsRing}.
  Variables (stp : P -> R -> R -> W -> W) (jvp : P -> R -> R -> W -> P -> R -> R -> W -> W).

  Lemma tan_on_derivative (ms : list (@mstep Z)) p w :
    List.Forall linear_ends ms -> right_rules stp stp jvp (map at_rest ms) p w ->
    @gradient_at P (prod_NormedModule R_AbsRing W Z) W
      (fun p wz => solve_on stp (map (move (snd wz)) ms) p (fst wz)) p (w, zero)
      (fun dp dwz => snd (tan_on stp jvp ms p w dp (fst dwz) (snd dwz))).
  Proof.
    induction ms as [|m ms IH] using rev_ind; intros HL HR.
    - unfold gradient_at. cbn.
      assert (L : @is_linear _ (prod_NormedModule R_AbsRing P (prod_NormedModule R_AbsRing W Z)) W (fun q => fst (snd q))).
      { refine (@is_linear_comp R_AbsRing _ (prod_NormedModule R_AbsRing W Z) W snd fst _ _); [apply is_linear_snd|apply is_linear_fst]. }
      apply filterdiff_linear. exact L.
    - apply Forall_app in HL. destruct HL as (HL & HM). inversion HM as [|? ? Hm _]; subst.
      rewrite map_app in HR. assert (HR' := right_rules_prefix _ _ _ _ _ _ _ HR). specialize (IH HL HR').
      specialize (HR (map at_rest ms) (fst (fst m)) (fst (snd m)) [] eq_refl).
      assert (HC := diff_compose stp (jvp p (fst (fst m)) (fst (snd m)) (solve_on stp (map at_rest ms) p w))
                  (fun p wz => solve_on stp (map (move (snd wz)) ms) p (fst wz))
                  (fun dp dwz => snd (tan_on stp jvp ms p w dp (fst dwz) (snd dwz))) m p w Hm).
      cbv beta in HC. cbn [fst snd] in HC. rewrite (move_zero ms HL) in HC. specialize (HC HR IH).
      unfold gradient_at in *. eapply filterdiff_ext_lin.
      + eapply filterdiff_ext; [|exact HC]. intros [q1 [q2 q3]]. cbn [fst snd]. rewrite map_app. cbn [map].
        exact (eq_sym (solve_on_snoc stp (map (move q3) ms) (fst (move q3 m)) (snd (move q3 m)) q1 q2)).
      + intros [q1 [q2 q3]]. cbn [fst snd]. rewrite tan_on_snoc, (tan_on_value stp jvp ms p w q1 q2 q3). reflexivity.
  Qed.
End Moved3.

Section Restrict.
  Context {P W Z O : NormedModule R_AbsRing}.

  Lemma gradient_fix (F : P -> W * Z -> O) (LF : P -> W * Z -> O) p w :
    @gradient_at P (prod_NormedModule R_AbsRing W Z) O F p (w, zero) LF ->
    gradient_at (fun p w => F p (w, zero)) p w (fun dp dw => LF dp (dw, zero)).
  Proof.
    unfold gradient_at. intros H.
    set (X := prod_NormedModule R_AbsRing P W).
    assert (H1 : @filterdiff R_AbsRing X P fst (locally ((p, w) : X)) fst) by (apply filterdiff_linear, is_linear_fst).
    assert (H2 : @filterdiff R_AbsRing X W snd (locally ((p, w) : X)) snd) by (apply filterdiff_linear, is_linear_snd).
    assert (H3 : @filterdiff R_AbsRing X Z (fun _ => zero) (locally ((p, w) : X)) (fun _ => zero)) by (apply filterdiff_const).
    assert (HX := diff_pair _ _ _ _ _ H1 (diff_pair _ _ _ _ _ H2 H3)).
    exact (@filterdiff_comp' R_AbsRing X (prod_NormedModule R_AbsRing P (prod_NormedModule R_AbsRing W Z)) O _
             (fun q => F (fst q) (snd q)) (p, w) _ (fun d => LF (fst d) (snd d)) HX H).
  Qed.

  Lemma gradient_unique (F : P -> W -> O) p w D1 D2 :
    gradient_at F p w D1 -> gradient_at F p w D2 -> forall dp dw, D1 dp dw = D2 dp dw.
  Proof.
    intros H1 H2 dp dw.
    exact (@filterdiff_unique_at (prod_NormedModule R_AbsRing P W) O (fun q => F (fst q) (snd q)) (p, w) _ _ H1 H2 (dp, dw)).
  Qed.

  Lemma gradient_ext (F G : P -> W -> O) p w D : (forall p w, F p w = G p w) -> gradient_at F p w D -> gradient_at G p w D.
  Proof. intros H HF. unfold gradient_at in *. eapply filterdiff_ext; [|exact HF]. intros [a b]. apply H. Qed.
End Restrict.

(** * The loop *)
Section Run.
  Context {P W O Er : NormedModule R_AbsRing}.
  Variables (sv : @solver P W O Er) (c : @controller W Er) (p : dual P) (w0 : dual W).

  Definition tan_d (gs : list (dual R * dual R)) : dual W :=
    fold_left (fun wd ab => dapp (step sv) (jvp_step sv) p (fst ab) (snd ab) wd) gs w0.

  Lemma tan_d_snoc gs ab : tan_d (gs ++ [ab]) = dapp (step sv) (jvp_step sv) p (fst ab) (snd ab) (tan_d gs).
  Proof. unfold tan_d. rewrite fold_left_app. reflexivity. Qed.

  Lemma tan_d_value gs : fst (tan_d gs) = solve_on (step sv) (values gs) (fst p) (fst w0).
  Proof.
    induction gs as [|[a b] gs IH] using rev_ind; [reflexivity|].
    rewrite tan_d_snoc. unfold values. rewrite map_app. refine (eq_sym (eq_trans (solve_on_snoc (step sv) (values gs) (fst a) (fst b) (fst p) (fst w0)) _)).
    refine (f_equal (step sv (fst p) (fst a) (fst b)) _). symmetry. exact IH.
  Qed.

  Definition dual_of {Z : NormedModule R_AbsRing} (dz : Z) (m : @mstep Z) : dual R * dual R :=
    ((fst (fst m), snd (fst m) dz), (fst (snd m), snd (snd m) dz)).

  Lemma tan_d_tan_on {Z : NormedModule R_AbsRing} (dz : Z) (ms : list (@mstep Z)) :
    tan_d (map (dual_of dz) ms) = tan_on (step sv) (jvp_step sv) ms (fst p) (fst w0) (snd p) (snd w0) dz.
  Proof.
    induction ms as [|m ms IH] using rev_ind.
    - cbn. destruct w0; reflexivity.
    - rewrite map_app. cbn [map]. rewrite tan_d_snoc, IH, tan_on_snoc. reflexivity.
  Qed.

  Lemma kept_snoc {A : Type} (l : list (A * A * R * bool)) a b q k :
    kept (l ++ [(a, b, q, k)]) = if k then kept l ++ [(a, b)] else kept l.
  Proof. unfold kept. rewrite filter_app, map_app. cbn. destruct k; cbn; [reflexivity|apply app_nil_r]. Qed.

  (** What has been saved. *)
  Definition saved_from (gs : list (dual R * dual R)) (t : R) (o : dual O) : Prop :=
    exists before a b after, gs = before ++ (a, b) :: after /\
      List.Forall (fun ab => fst (snd ab) < t) before /\ t <= fst b /\
      o = dapp (out sv t) (jvp_out sv t) p a b (tan_d before).

  Definition Inv (ts : list R) (s : @lstate W O) : Prop :=
    st s = tan_d (kept (trace s)) /\
    (exists done, ts = done ++ pending s /\ Forall2 (saved_from (kept (trace s))) done (saved s)) /\
    (forall t ab, In t (pending s) -> In ab (kept (trace s)) -> fst (snd ab) < t).

  Lemma save_spec (f : R -> dual O) upto ts : StronglySorted Rle ts ->
    exists done, ts = done ++ snd (save f upto ts) /\ fst (save f upto ts) = map f done /\
                 (forall t, In t done -> t <= upto) /\ (forall t, In t (snd (save f upto ts)) -> upto < t).
  Proof.
    induction ts as [|t ts IH]; intros HS; cbn.
    - exists []. repeat split; intros t [].
    - inversion HS as [|? ? HS' HF]; subst. unfold leb. destruct (Rle_dec t upto) as [Hl|Hl].
      + destruct (IH HS') as (dn & E & F & G & H). destruct (save f upto ts) as (l, r). cbn in *.
        exists (t :: dn). rewrite E at 1. split; [reflexivity|]. split; [cbn; rewrite F; reflexivity|]. split; [|exact H].
        intros u [<-|Hu]; auto.
      + exists []. cbn. repeat split; try (intros u []; fail). intros u [<-|Hu]; [lra|].
        rewrite Forall_forall in HF. specialize (HF u Hu). lra.
  Qed.

  Lemma saved_from_weaken gs x t o : saved_from gs t o -> saved_from (gs ++ [x]) t o.
  Proof.
    intros (b & a & e & af & -> & H). exists b, a, e, (af ++ [x]). split; [rewrite <- app_assoc; reflexivity|exact H].
  Qed.

  Lemma sorted_suffix (l r : list R) : StronglySorted Rle (l ++ r) -> StronglySorted Rle r.
  Proof. induction l as [|x l IH]; [auto|]. cbn. intros H. inversion H; subst. auto. Qed.

  Lemma body_inv ts t1 floor s : StronglySorted Rle ts -> Inv ts s -> Inv ts (body sv c p t1 floor s).
  Proof.
    intros HS (H1 & (dn & H2 & H3) & H4). unfold body.
    destruct (adapt c _ _ _ _ _ _) as [[[k tp] tn] cs]. destruct k.
    - assert (HSp : StronglySorted Rle (pending s)) by (apply (sorted_suffix dn); rewrite <- H2; exact HS).
      destruct (save_spec (fun t => dapp (out sv t) (jvp_out sv t) p (tprev s) (tnext s) (st s)) (fst (tnext s)) (pending s) HSp)
        as (d2 & E & F & G & HH).
      destruct (save _ _ _) as (new, pend). cbn in E, F, HH. unfold Inv. cbn [st trace pending saved]. rewrite kept_snoc. repeat split.
      + rewrite tan_d_snoc, <- H1. reflexivity.
      + exists (dn ++ d2). split; [rewrite <- app_assoc, <- E; exact H2|]. apply Forall2_app.
        * clear - H3. induction H3; constructor; auto using saved_from_weaken.
        * rewrite F. assert (Hin : forall t, In t d2 -> In t (pending s)) by (intros t Ht; rewrite E; apply in_or_app; auto).
          clear - G Hin H4 H1. induction d2 as [|t d2 IH]; cbn; constructor.
          -- exists (kept (trace s)), (tprev s), (tnext s), []. split; [reflexivity|]. split; [|split].
             ++ apply Forall_forall. intros ab Hab. apply H4; [apply Hin; left; reflexivity|exact Hab].
             ++ apply G. left; reflexivity.
             ++ rewrite <- H1. reflexivity.
          -- apply IH; intros u Hu; [apply G|apply Hin]; right; exact Hu.
      + intros t ab Ht Hab. apply in_app_or in Hab. destruct Hab as [Hab|[<-|[]]].
        * apply H4; [rewrite E; apply in_or_app; auto|exact Hab].
        * cbn. apply HH, Ht.
    - unfold Inv. cbn [st trace pending saved]. rewrite kept_snoc, app_nil_r. repeat split; auto. exists dn. auto.
  Qed.

  Lemma run_inv n ts t1 floor s : StronglySorted Rle ts -> Inv ts s -> Inv ts (run n sv c p t1 floor s).
  Proof.
    revert s. induction n as [|n IH]; intros s HS H; cbn; [exact H|]. destruct (ltb _ _); [|exact H].
    apply IH; [exact HS|]. apply body_inv; assumption.
  Qed.

  Lemma solve_inv n ns ts floor t0 t1 dt0 : StronglySorted Rle ts -> Inv ts (solve n sv c ns ts floor p w0 t0 t1 dt0).
  Proof.
    intros HS. unfold solve. destruct (init c ns t0 t1 dt0) as (tn, cs). apply run_inv; [exact HS|].
    unfold Inv. cbn. repeat split.
    - exists []. split; [reflexivity|constructor].
    - intros t ab _ [].
  Qed.

  Lemma body_st t1 floor s : st s = tan_d (kept (trace s)) ->
    st (body sv c p t1 floor s) = tan_d (kept (trace (body sv c p t1 floor s))).
  Proof.
    intros H1. unfold body. destruct (adapt c _ _ _ _ _ _) as [[[k tp] tn] cs]. destruct k.
    - destruct (save _ _ _) as (new, pend). cbn [st trace]. rewrite kept_snoc, tan_d_snoc, <- H1. reflexivity.
    - cbn [st trace]. rewrite kept_snoc. exact H1.
  Qed.

  Lemma solve_st n ns ts floor t0 t1 dt0 :
    st (solve n sv c ns ts floor p w0 t0 t1 dt0) = tan_d (kept (trace (solve n sv c ns ts floor p w0 t0 t1 dt0))).
  Proof.
    unfold solve. destruct (init c ns t0 t1 dt0) as (tn, cs).
    set (s := LState _ _ _ _ _ _ _). assert (H : st s = tan_d (kept (trace s))) by reflexivity. clearbody s. revert s H.
    induction n as [|n IH]; intros s H; cbn; [exact H|]. destruct (ltb _ _); [|exact H]. apply IH, body_st, H.
  Qed.
End Run.

(** * Tangents of the times *)
Section Times.
  Context {P W O Er : NormedModule R_AbsRing}.
  Variables (sv : @solver P W O Er).

  Lemma dmin_zero x y : snd x = 0 -> snd y = 0 -> snd (dmin x y) = 0.
  Proof. intros Hx Hy. unfold dmin. destruct (Rlt_dec _ _); [exact Hx|]. destruct (Rlt_dec _ _); [exact Hy|]. cbn. rewrite Hx, Hy. field. Qed.
  Lemma dmax_zero x y : snd x = 0 -> snd y = 0 -> snd (dmax x y) = 0.
  Proof. intros Hx Hy. unfold dmax. destruct (Rlt_dec _ _); [exact Hy|]. destruct (Rlt_dec _ _); [exact Hx|]. cbn. rewrite Hx, Hy. field. Qed.

  (** The controllers change times by amounts without tangents. *)
  Definition cstate_zero (s : cstate) : Prop :=
    match s with SConstant _ _ a b => snd a = 0 /\ snd b = 0 | _ => True end.

  (** The tangent of the step size of [PIDController]. *)
  Lemma pid_tangent (c : @pid W Er) t0 t1 w0 w1 err s k a b s' : pid_adapt c t0 t1 w0 w1 err s = (k, a, b, s') ->
    snd t1 = snd t0 -> snd a = snd t0 /\ snd b = snd t0.
  Proof.
    unfold pid_adapt. set (f := pid_factor _ _ _ _ _). intros H Ht.
    assert (Hd : snd (dmul (dsub t1 t0) (stop f)) = 0) by (cbn; rewrite Ht; ring).
    set (d := dmul (dsub t1 t0) (stop f)) in *. clearbody d.
    set (d' := match dtmax c with Some m => dmin d (const m) | None => d end) in *.
    assert (Hm : snd d' = 0) by (unfold d'; destruct (dtmax c); [apply dmin_zero; [exact Hd|reflexivity]|exact Hd]). clearbody d'.
    destruct (dtmin c) as [m|].
    - set (d'' := if at_dtmin s && _ then const m else d') in *.
      assert (Hd'' : snd d'' = 0) by (unfold d''; destruct (_ && _); [reflexivity|exact Hm]). clearbody d''.
      injection H as <- <- <- <-. assert (Hx : snd (dmax d'' (const m)) = 0) by (apply dmax_zero; [exact Hd''|reflexivity]).
      destruct (_ || _); cbn; rewrite Hx, ?Ht; split; ring.
    - injection H as <- <- <- <-. destruct (ltb _ _); cbn; rewrite Hm, ?Ht; split; ring.
  Qed.

  Lemma adapt_zero (c : @controller W Er) t0 t1 w0 w1 err s k a b s' : adapt c t0 t1 w0 w1 err s = (k, a, b, s') ->
    snd t0 = 0 -> snd t1 = 0 -> cstate_zero s -> snd a = 0 /\ snd b = 0 /\ cstate_zero s'.
  Proof.
    intros H H0 H1 Hs. destruct c as [c| |l], s as [s|i n u v|i]; cbn in H; try (injection H as <- <- <- <-; auto; fail).
    - destruct (pid_adapt _ _ _ _ _ _ _) as [[[k' a'] b'] s''] eqn:E. injection H as <- <- <- <-.
      assert (Hp := pid_tangent _ _ _ _ _ _ _ _ _ _ _ E). rewrite H0, H1 in Hp. destruct (Hp eq_refl). cbn. auto.
    - unfold constant_adapt in H. injection H as <- <- <- <-. destruct Hs as (Hu & Hv). split; [exact H1|]. split; [|split; assumption].
      destruct n as [|n]; [|destruct (Nat.eqb i n)]; cbn; rewrite ?Hu, ?Hv; ring.
  Qed.

  Lemma clip_zero tp tn t1 floor k : snd tp = 0 -> snd tn = 0 -> snd t1 = 0 -> snd (clip_to_end tp tn t1 floor k) = 0.
  Proof. intros A B C. unfold clip_to_end. destruct (ltb _ _); [destruct k|]; cbn; rewrite ?A, ?B, ?C; ring. Qed.

  Definition times_zero (s : @lstate W O) : Prop :=
    snd (tprev s) = 0 /\ snd (tnext s) = 0 /\ cstate_zero (cst s) /\
    List.Forall (fun x => snd (fst (fst (fst x))) = 0 /\ snd (snd (fst (fst x))) = 0) (trace s).

  Lemma body_zero (c : @controller W Er) p t1 floor s : snd t1 = 0 -> times_zero s -> times_zero (body sv c p t1 floor s).
  Proof.
    intros H1 (A & B & C & D). unfold body.
    destruct (adapt c _ _ _ _ _ _) as [[[k tp] tn] cs] eqn:E. destruct (adapt_zero _ _ _ _ _ _ _ _ _ _ _ E A B C) as (A' & B' & C').
    destruct (if k then _ else _) as (new, pend). unfold times_zero. cbn [tprev tnext cst trace].
    assert (HA := dmin_zero tp t1 A' H1). repeat split; try assumption.
    - apply clip_zero; assumption.
    - apply Forall_app. split; [exact D|]. constructor; [|constructor]. cbn. auto.
  Qed.

  Lemma init_zero (c : @controller W Er) ns t0 t1 dt0 : snd t0 = 0 -> snd t1 = 0 -> snd dt0 = 0 ->
    snd (fst (init c ns t0 t1 dt0)) = 0 /\ cstate_zero (snd (init c ns t0 t1 dt0)).
  Proof.
    intros A B C. destruct c as [c| |l]; cbn [init].
    - set (d := match dtmax c with Some m => dmin dt0 (const m) | None => dt0 end).
      assert (Hd : snd d = 0) by (unfold d; destruct (dtmax c); [apply dmin_zero; [exact C|reflexivity]|exact C]). clearbody d.
      set (d' := match dtmin c with Some m => dmax d (const m) | None => d end).
      assert (Hd' : snd d' = 0) by (unfold d'; destruct (dtmin c); [apply dmax_zero; [exact Hd|reflexivity]|exact Hd]). clearbody d'.
      split; [|exact I]. cbn. rewrite A, Hd'. ring.
    - split; [cbn; rewrite A, C; ring|split; assumption].
    - split; [reflexivity|exact I].
  Qed.

  Lemma solve_zero (c : @controller W Er) n ns ts floor p w0 t0 t1 dt0 :
    snd t0 = 0 -> snd t1 = 0 -> snd dt0 = 0 -> times_zero (solve n sv c ns ts floor p w0 t0 t1 dt0).
  Proof.
    intros A B C. unfold solve. destruct (init_zero c ns t0 t1 dt0 A B C) as (D & E). destruct (init c ns t0 t1 dt0) as (tn, cs).
    set (s := LState _ _ _ _ _ _ _).
    assert (H : times_zero s) by (repeat split; cbn; auto using dmin_zero, Forall_nil). clearbody s. revert s H.
    induction n as [|n IH]; intros s H; cbn; [exact H|]. destruct (ltb _ _); [|exact H]. apply IH, body_zero; assumption.
  Qed.

  Lemma kept_zero (s : @lstate W O) : times_zero s ->
    List.Forall (fun ab => snd (fst ab) = 0 /\ snd (snd ab) = 0) (kept (trace s)).
  Proof.
    intros (_ & _ & _ & H). unfold kept. apply Forall_forall. intros ab Hab. apply in_map_iff in Hab. destruct Hab as (x & <- & Hx).
    apply filter_In in Hx. rewrite Forall_forall in H. exact (H x (proj1 Hx)).
  Qed.

  (** Steps at rest. *)
  Definition rest (ab : dual R * dual R) : @mstep R_NormedModule := ((fst (fst ab), fun _ => 0), (fst (snd ab), fun _ => 0)).
  Lemma rest_linear l : List.Forall linear_ends (map rest l).
  Proof.
    induction l as [|x l IH]; cbn; constructor; [|exact IH].
    split; exact (@is_linear_zero R_AbsRing R_NormedModule R_NormedModule).
  Qed.
  Lemma rest_dual l : List.Forall (fun ab => snd (fst ab) = 0 /\ snd (snd ab) = 0) l -> map (dual_of zero) (map rest l) = l.
  Proof.
    intros H. induction H as [|[[a da] [b db]] l (A & B) _ IH]; [reflexivity|]. cbn in *. rewrite IH. subst. reflexivity.
  Qed.
  Lemma rest_at l : map at_rest (map rest l) = values l.
  Proof. induction l as [|x l IH]; [reflexivity|]. cbn. rewrite IH. reflexivity. Qed.
  Lemma rest_move z l : map (move z) (map rest l) = values l.
  Proof. induction l as [|x l IH]; [reflexivity|]. cbn. rewrite IH. unfold move. cbn. rewrite !Rplus_0_r. reflexivity. Qed.

  Lemma tan_d_gradient (l : list (dual R * dual R)) (p : P) (w : W) :
    List.Forall (fun ab => snd (fst ab) = 0 /\ snd (snd ab) = 0) l ->
    right_rules (step sv) (step sv) (jvp_step sv) (values l) p w ->
    gradient_at (solve_on (step sv) (values l)) p w (fun dp dw => snd (tan_d sv (p, dp) (w, dw) l)).
  Proof.
    intros H HR. assert (HD := tan_on_derivative (step sv) (jvp_step sv) (map rest l) p w (rest_linear l)).
    rewrite rest_at in HD. specialize (HD HR). apply gradient_fix in HD. cbn [fst snd] in HD. rewrite rest_move in HD.
    unfold gradient_at in *. eapply filterdiff_ext_lin; [exact HD|]. intros [dp dw]. cbn [fst snd].
    refine (eq_trans (f_equal snd (eq_sym (tan_d_tan_on sv (p, dp) (w, dw) zero (map rest l)))) _).
    exact (f_equal (fun l => snd (tan_d sv (p, dp) (w, dw) l)) (rest_dual l H)).
  Qed.
End Times.
