(** Steps with any finite family of centred random variables: stability in the mean square. *)
From Coq Require Import Reals List Lra Lia FunctionalExtensionality.
From Verif Require Import Spec_Strong Proof_Strong.
Import ListNotations.
Open Scope R_scope.

Lemma total_app {A : Type} (l m : list A) (f : A -> R) : total (l ++ m) f = total l f + total m f.
Proof. unfold total. induction l as [|a l IH]; cbn; [ring|]. rewrite IH. ring. Qed.
Lemma total_map {A B : Type} (h : A -> B) (l : list A) (f : B -> R) : total (map h l) f = total l (fun a => f (h a)).
Proof. unfold total. induction l as [|a l IH]; cbn; [reflexivity|]. now rewrite IH. Qed.
Lemma total_prod {A B : Type} (l : list A) (m : list B) (f : A * B -> R) :
  total (list_prod l m) f = total l (fun a => total m (fun b => f (a, b))).
Proof. induction l as [|a l IH]; [reflexivity|]. cbn [list_prod]. rewrite total_app, total_map, IH. reflexivity. Qed.
Lemma total_swap {A B : Type} (l : list A) (m : list B) (f : A -> B -> R) :
  total l (fun a => total m (fun b => f a b)) = total m (fun b => total l (fun a => f a b)).
Proof.
  induction l as [|a l IH].
  - symmetry. apply total_zero. reflexivity.
  - change (total m (f a) + total l (fun a => total m (f a)) = total m (fun b => f a b + total l (fun a => f a b))).
    rewrite total_plus. f_equal. exact IH.
Qed.
Lemma total_square {A : Type} (l : list A) (f : A -> R) : total l f ^ 2 <= INR (length l) * total l (fun a => f a ^ 2).
Proof.
  induction l as [|a l IH]; [cbn; lra|].
  change (total (a :: l) f) with (f a + total l f). change (total (a :: l) (fun a => f a ^ 2)) with (f a ^ 2 + total l (fun a => f a ^ 2)).
  change (length (a :: l)) with (S (length l)). rewrite S_INR. set (n := INR (length l)) in *. set (S2 := total l (fun a => f a ^ 2)) in *. set (S1 := total l f) in *.
  assert (Hn : 0 <= n) by apply pos_INR.
  assert (H2 : 2 * (f a * S1) <= n * f a ^ 2 + S2).
  { destruct l as [|b l']. { unfold S1, n, S2. cbn. lra. }
    assert (Hn1 : 0 < n) by (unfold n; apply lt_0_INR; cbn; lia).
    apply Rmult_le_reg_l with n; auto. pose proof (pow2_ge_0 (n * f a - S1)). cbn in *. lra. }
  cbn in *. lra.
Qed.

Section Family.
  Context {Omega I Q : Type} (P : space Omega) (HP : probability P) (is : list I) (qs : list Q) (times : R -> Prop).
  Notation Y := (I -> R).
  Notation vec := (Omega -> I -> R).
  Context (Z : Omega -> R -> R -> Q -> R) (F : R -> Y -> Y) (c : R -> Y -> Q -> Y) (t0 t1 V L : R).
  Hypothesis (HV : 0 <= V) (HL : 0 <= L).
  Hypothesis (HZ : forall s t q f, times s -> times t -> s < t -> t0 <= s -> t <= t1 -> In q qs -> known P s f ->
    known P t (fun w => f w * Z w s t q) /\ mean P (fun w => (f w * Z w s t q) ^ 2) <= V * (t - s) * mean P (fun w => f w ^ 2) /\
    forall g, known P s g -> mean P (fun w => g w * (f w * Z w s t q)) = 0).
  Hypothesis (Hc : forall s x y, t0 <= s <= t1 ->
    total is (fun i => (F s x i - F s y i) ^ 2) + total qs (fun q => total is (fun i => (c s x q i - c s y q i) ^ 2))
    <= L * total is (fun i => (x i - y i) ^ 2)).

  Definition fstep (s t : R) (X : vec) : vec :=
    fun w i => X w i + F s (X w) i * (t - s) + total qs (fun q => c s (X w) q i * Z w s t q).

  Lemma fam_drift s t X : t0 <= s <= t1 -> known_vector P is t X -> known_vector P is t (fun w => F s (X w)).
  Proof.
    intros Hs HX i Hi. apply (known_lipschitz P HP t I is (fun i w => X w i) (fun x => F s x i) L); [exact HX|].
    intros x y. pose proof (Hc s x y Hs) as H.
    pose proof (total_member is (fun i => (F s x i - F s y i) ^ 2) i ltac:(intros; apply pow2_ge_0) Hi) as H1. cbv beta in H1.
    assert (0 <= total qs (fun k => total is (fun i => (c s x k i - c s y k i) ^ 2))).
    { apply total_nonneg. intros k _. apply total_nonneg. intros j _. apply pow2_ge_0. }
    lra.
  Qed.
  Lemma fam_coeff s t X q : t0 <= s <= t1 -> In q qs -> known_vector P is t X -> known_vector P is t (fun w => c s (X w) q).
  Proof.
    intros Hs Hq HX i Hi. apply (known_lipschitz P HP t I is (fun i w => X w i) (fun x => c s x q i) L); [exact HX|].
    intros x y. pose proof (Hc s x y Hs) as H.
    pose proof (total_member is (fun i => (c s x q i - c s y q i) ^ 2) i ltac:(intros; apply pow2_ge_0) Hi) as H1. cbv beta in H1.
    pose proof (total_member qs (fun q => total is (fun i => (c s x q i - c s y q i) ^ 2)) q
                  ltac:(intros; apply total_nonneg; intros; apply pow2_ge_0) Hq) as H2. cbv beta in H2.
    assert (0 <= total is (fun i => (F s x i - F s y i) ^ 2)) by (apply total_nonneg; intros j _; apply pow2_ge_0).
    lra.
  Qed.

  (** The sum of the family with known coefficients *)
  Definition fnoise (s t : R) (G : Q -> vec) : vec := fun w i => total qs (fun q => G q w i * Z w s t q).
  Lemma kv_fnoise s t G : times s -> times t -> s < t -> t0 <= s -> t <= t1 -> (forall q, In q qs -> known_vector P is s (G q)) ->
    known_vector P is t (fnoise s t G).
  Proof.
    intros Ts Tt Hst H0 H1 HG i Hi. apply (known_total P HP t qs (fun q w => G q w i * Z w s t q)). intros q Hq.
    apply (HZ s t q (fun w => G q w i)); auto. apply HG; auto.
  Qed.
  Lemma ip_fnoise s t X G : times s -> times t -> s < t -> t0 <= s -> t <= t1 -> known_vector P is s X ->
    (forall q, In q qs -> known_vector P is s (G q)) -> ip P is X (fnoise s t G) = 0.
  Proof.
    intros Ts Tt Hst H0 H1 HX HG. apply total_zero. intros i Hi. unfold fnoise.
    rewrite (mean_ext P _ (fun w => total qs (fun q => X w i * (G q w i * Z w s t q)))) by (intros; now rewrite <- total_scale).
    assert (Hq : forall q, In q qs -> known P t (fun w => G q w i * Z w s t q)) by (intros q Hq; apply (HZ s t q (fun w => G q w i)); auto; apply HG; auto).
    rewrite (mean_total P HP qs (fun q w => X w i * (G q w i * Z w s t q))).
    - apply total_zero. intros q Hq'. destruct (HZ s t q (fun w => G q w i) Ts Tt Hst H0 H1 Hq' (HG q Hq' i Hi)) as (_ & _ & Hz). apply (Hz (fun w => X w i)). now apply HX.
    - intros q Hq'. apply (known_product P HP t (fun w => X w i)); auto. apply (known_later P HP s); [lra|]. now apply HX.
  Qed.
  Lemma ms_fnoise s t G : times s -> times t -> s < t -> t0 <= s -> t <= t1 -> (forall q, In q qs -> known_vector P is s (G q)) ->
    mean_square P is (fnoise s t G) <= INR (length qs) * V * (t - s) * total qs (fun q => mean_square P is (G q)).
  Proof.
    intros Ts Tt Hst H0 H1 HG.
    unfold mean_square. rewrite (total_swap qs is (fun q i => mean P (fun w => G q w i ^ 2))). rewrite <- total_scale. apply total_le. intros i Hi.
    assert (Hq : forall q, In q qs -> known P t (fun w => G q w i * Z w s t q)) by (intros q Hq; apply (HZ s t q (fun w => G q w i)); auto; apply HG; auto).
    assert (Hq2 : forall q, In q qs -> integrable P (fun w => (G q w i * Z w s t q) ^ 2)).
    { intros q Hq'. eapply (integrable_ext P HP); [apply (known_product P HP t _ _ (Hq q Hq') (Hq q Hq'))|]. intros; cbn; ring. }
    assert (Kn : known P t (fun w => fnoise s t G w i)) by (apply (known_total P HP t qs (fun q w => G q w i * Z w s t q)); auto).
    apply Rle_trans with (mean P (fun w => INR (length qs) * total qs (fun q => (G q w i * Z w s t q) ^ 2) + 0 * 1)).
    - apply (mean_monotone P HP).
      + eapply (integrable_ext P HP); [apply (known_product P HP t _ _ Kn Kn)|]. intros; cbn; ring.
      + apply (integrable_linear P HP); [now apply (integrable_total P HP qs (fun q w => (G q w i * Z w s t q) ^ 2))|apply (integrable_const P HP)].
      + intros w. unfold fnoise. pose proof (total_square qs (fun q => G q w i * Z w s t q)). lra.
    - rewrite (mean_linear P HP), (mean_total P HP qs (fun q w => (G q w i * Z w s t q) ^ 2));
        [|auto|now apply (integrable_total P HP qs (fun q w => (G q w i * Z w s t q) ^ 2))|apply (integrable_const P HP)].
      rewrite Rmult_0_l, Rplus_0_r, !Rmult_assoc. apply Rmult_le_compat_l; [apply pos_INR|].
      rewrite <- Rmult_assoc, <- total_scale. apply total_le. intros q Hq'.
      apply (HZ s t q (fun w => G q w i)); auto. apply HG; auto.
  Qed.

  Lemma known_fstep s t X : times s -> times t -> s < t -> t0 <= s -> t <= t1 -> known_vector P is s X -> known_vector P is t (fstep s t X).
  Proof.
    intros Ts Tt Hst H0 H1 HX.
    apply kv_ext with (X := comb 1 (comb 1 X (t - s) (fun w => F s (X w))) 1 (fnoise s t (fun q w => c s (X w) q))); auto.
    - apply kv_comb; auto.
      + apply kv_later with s; auto; [lra|]. apply kv_comb; auto. apply fam_drift; auto; lra.
      + apply kv_fnoise; auto. intros q Hq. apply fam_coeff; auto; lra.
    - intros w i _. unfold comb, fnoise, fstep. ring.
  Qed.

  Lemma fstep_stable s t : times s -> times t -> s < t -> t0 <= s -> t <= t1 ->
    stable P is fstep (1 + (1 + (t1 - t0) + INR (length qs) * V) * L) s t.
  Proof.
    intros Ts Tt Hst H0 H1 X U HX HU. set (h := t - s). set (D := t1 - t0). set (n := INR (length qs) * V).
    assert (Hn : 0 <= n) by (apply Rmult_le_pos; [apply pos_INR|auto]).
    assert (Hs : t0 <= s <= t1) by lra.
    set (e := minus X U). set (df := minus (fun w => F s (X w)) (fun w => F s (U w))).
    set (dg := fun q => minus (fun w => c s (X w) q) (fun w => c s (U w) q)).
    assert (Ke : known_vector P is s e) by (apply kv_comb; auto).
    assert (Kf : known_vector P is s df) by (apply kv_comb; auto; now apply fam_drift).
    assert (Kg : forall q, In q qs -> known_vector P is s (dg q)) by (intros; apply kv_comb; auto; now apply fam_coeff).
    assert (Hl : mean_square P is df + total qs (fun q => mean_square P is (dg q)) <= L * mean_square P is e).
    { rewrite <- (Rplus_0_r (L * _)). apply (ms_le P HP is s qs df dg e L 0); auto.
      intros w. rewrite Rplus_0_r. pose proof (Hc s (X w) (U w) Hs) as H.
      eapply Rle_trans; [|eapply Rle_trans; [exact H|]]; right; unfold e, df, dg, minus, comb.
      - f_equal; [apply total_ext; intros; ring|]. apply total_ext. intros k _. apply total_ext. intros i _. ring.
      - f_equal. apply total_ext. intros; ring. }
    assert (PE : 0 <= mean_square P is e) by (rewrite ms_ip; now apply (ip_nonneg P HP is s)).
    assert (PF : 0 <= mean_square P is df) by (rewrite ms_ip; now apply (ip_nonneg P HP is s)).
    assert (PG : 0 <= total qs (fun q => mean_square P is (dg q))).
    { apply total_nonneg. intros k Hk. rewrite ms_ip. apply (ip_nonneg P HP is s); auto. }
    pose proof (ms_fnoise s t dg Ts Tt Hst H0 H1 Kg) as HN. fold h in HN. fold n in HN.
    pose proof (kv_fnoise s t dg Ts Tt Hst H0 H1 Kg) as KN.
    set (E := mean_square P is e) in *. set (Fm := mean_square P is df) in *. set (G := total qs (fun q => mean_square P is (dg q))) in *.
    assert (Hh : 0 < h <= D) by (unfold h, D; lra).
    assert (HhF : h * h * Fm <= h * D * Fm) by (apply Rmult_le_compat_r; auto; apply Rmult_le_compat_l; lra).
    assert (PhF : 0 <= h * Fm) by (apply Rmult_le_pos; lra).
    assert (PhG : 0 <= h * G) by (apply Rmult_le_pos; lra).
    assert (PhE : 0 <= h * E) by (apply Rmult_le_pos; lra).
    assert (Hb : h * h * Fm + h * Fm + n * h * G <= h * (1 + D + n) * (L * E)).
    { apply Rle_trans with (h * (1 + D + n) * (Fm + G)).
      - assert (0 <= D * (h * G)) by (apply Rmult_le_pos; lra). assert (0 <= n * (h * Fm)) by (apply Rmult_le_pos; lra). lra.
      - apply Rmult_le_compat_l; auto. apply Rmult_le_pos; lra. }
    split; [now apply known_fstep|].
    assert (Known : forall A, known_vector P is s A -> mean_square P is (comb 1 A 1 (fnoise s t dg)) = mean_square P is A + mean_square P is (fnoise s t dg)).
    { intros A HA. assert (HA' : known_vector P is t A) by (apply kv_later with s; auto; lra).
      rewrite (ms_ip P is (comb _ _ _ _)), (ip_square P HP is t) by auto. rewrite ip_fnoise by auto. rewrite !ms_ip. ring. }
    split.
    - rewrite (ms_ext P is _ (comb 1 (comb 1 e h df) 1 (fnoise s t dg))).
      + rewrite Known by now apply kv_comb.
        rewrite (ms_ip P is (comb 1 e h df)), (ip_square P HP is s) by auto. rewrite <- !(ms_ip P is e), <- !(ms_ip P is df). fold E Fm.
        pose proof (ip_bound P HP is s e df Ke Kf) as Hip. rewrite <- !ms_ip in Hip. fold E Fm in Hip.
        assert (h * (2 * ip P is e df) <= h * (E + Fm)) by (apply Rmult_le_compat_l; lra).
        replace ((1 + (1 + (1 + D + n) * L) * h) * E) with (E + h * E + h * (1 + D + n) * (L * E)) by ring. lra.
      + intros w i _. unfold minus, comb, fnoise, fstep, e, df, dg, minus, comb.
        rewrite (total_ext qs (fun q => (1 * c s (X w) q i + -1 * c s (U w) q i) * Z w s t q)
                  (fun q => 1 * (c s (X w) q i * Z w s t q) + -1 * (c s (U w) q i * Z w s t q))) by (intros; ring).
        rewrite total_linear. unfold h. ring.
    - rewrite (ms_ext P is _ (comb 1 (comb h df 0 df) 1 (fnoise s t dg))).
      + rewrite Known by now apply kv_comb.
        rewrite (ms_ip P is (comb h df 0 df)), (ip_square P HP is s) by auto. rewrite <- !(ms_ip P is df). fold Fm.
        replace ((1 + (1 + D + n) * L) * h * E) with (h * E + h * (1 + D + n) * (L * E)) by ring. lra.
      + intros w i _. unfold minus, comb, fnoise, fstep, e, df, dg, minus, comb.
        rewrite (total_ext qs (fun q => (1 * c s (X w) q i + -1 * c s (U w) q i) * Z w s t q)
                  (fun q => 1 * (c s (X w) q i * Z w s t q) + -1 * (c s (U w) q i * Z w s t q))) by (intros; ring).
        rewrite total_linear. unfold h. ring.
  Qed.

  Lemma family_global M x ts y0 H :
    t0 <= t1 -> 0 <= M ->
    (forall u, times u -> known_vector P is u (x u)) ->
    (forall s t, times s -> times t -> s < t -> local_error P is fstep x M 2 s t) ->
    known_vector P is t0 y0 -> 0 <= H -> grid t0 ts H -> last ts t0 <= t1 -> (forall t, In t (t0 :: ts) -> times t) ->
    mean_square P is (fun w i => iterate fstep t0 ts y0 w i - x (last ts t0) w i)
    <= exp ((1 + 2 * (1 + (1 + (t1 - t0) + INR (length qs) * V) * L)) * (t1 - t0)) * (1 + 3 * M * (t1 - t0))
       * (mean_square P is (fun w i => y0 w i - x t0 w i) + H ^ 2).
  Proof.
    intros H01 HM Hx Hloc Hy HH Hg Hlast HT. set (D := t1 - t0) in *. assert (HD : 0 <= D) by (unfold D; lra).
    set (C := 1 + (1 + D + INR (length qs) * V) * L).
    assert (HC : 0 <= C).
    { unfold C. assert (0 <= INR (length qs) * V) by (apply Rmult_le_pos; [apply pos_INR|auto]).
      assert (0 <= (1 + D + INR (length qs) * V) * L) by (apply Rmult_le_pos; lra). lra. }
    set (here := fun u => times u /\ t0 <= u <= t1).
    pose proof (global P HP is here fstep x C M 2 ts t0 y0 H HC HM HH Hg) as G.
    rewrite (ms_ext P is _ (fun w i => -1 * minus (x (last ts t0)) (iterate fstep t0 ts y0) w i))
      by (intros; unfold minus, comb; ring).
    rewrite (ms_ext P is (fun w i => y0 w i - x t0 w i) (fun w i => -1 * minus (x t0) y0 w i)) by (intros; unfold minus, comb; ring).
    rewrite !ms_neg. eapply Rle_trans; [apply G; auto|].
    - intros u Hu. split; [auto|]. clear - Hu Hg Hlast. assert (B : forall ts t u, grid t ts H -> In u (t :: ts) -> t <= u <= last ts t).
      { clear. induction ts as [|v ts IH]; intros t u Hg Hu; [destruct Hu as [<-|[]]; cbn; lra|]. destruct Hg as [Hg1 Hg2]. rewrite last_cons'.
        pose proof (grid_last _ _ _ Hg2). destruct Hu as [<-|Hu]; [lra|]. specialize (IH v u Hg2 Hu). lra. }
      specialize (B ts t0 u Hg Hu). lra.
    - intros s u [Ts Hs] [Tu Hu] Hsu _. split; [|now apply Hloc].
      apply fstep_stable; auto; lra.
    - intros u [Tu _]. auto.
    - pose proof (grid_last _ _ _ Hg) as Hl. set (d := last ts t0 - t0) in *. assert (Hd : 0 <= d <= D) by (unfold d, D; lra).
      set (E := mean_square P is (minus (x t0) y0)).
      assert (PE : 0 <= E) by (unfold E; rewrite ms_ip; apply (ip_nonneg P HP is t0); apply kv_comb; auto; apply Hx, HT; now left).
      assert (P2 : 0 <= H ^ 2) by apply pow2_ge_0. assert (PMD : 0 <= M * D) by (apply Rmult_le_pos; lra).
      rewrite (Rmult_assoc (exp _) (1 + 3 * M * D)). apply Rmult_le_compat; [left; apply exp_pos| | |].
      + assert (0 <= 3 * M * H ^ 2 * d) by (apply Rmult_le_pos; [apply Rmult_le_pos; lra|lra]). lra.
      + assert (Hexp : (1 + 2 * C) * d <= (1 + 2 * C) * D) by (apply Rmult_le_compat_l; lra).
        destruct (Rle_lt_or_eq_dec _ _ Hexp) as [Hlt| ->]; [left; now apply exp_increasing|lra].
      + assert (3 * M * H ^ 2 * d <= 3 * M * H ^ 2 * D) by (apply Rmult_le_compat_l; [apply Rmult_le_pos; lra|lra]).
        assert (0 <= M * D * E) by (apply Rmult_le_pos; lra). lra.
  Qed.
End Family.
