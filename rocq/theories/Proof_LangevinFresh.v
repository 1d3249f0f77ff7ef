(** Which coefficients a step uses. *)
From Coq Require Import Reals List Bool Lia Lra Psatz FunctionalExtensionality.
From Coquelicot Require Import Coquelicot.
From Verif Require Import Model_Langevin Spec_Langevin Proof_LangevinCoeffs.
Import ListNotations.
Open Scope R_scope.

Lemma recompute_fresh {D : Type} {C : Type -> Type} (S : foster_langevin D C) (dims : list D) h gamma d :
  In d dims -> recompute_coeffs S dims h gamma (fun d => fl_tay S (gamma d)) d = fresh S gamma h d.
Proof.
  intros Hd. unfold recompute_coeffs, fresh, eval_taylor.
  destruct (forallb _ dims) eqn:Ea.
  - rewrite forallb_forall in Ea. specialize (Ea d Hd). unfold Rltb in Ea. destruct (Rlt_dec _ _); [reflexivity|discriminate].
  - unfold Rltb. destruct (Rlt_dec _ _); reflexivity.
Qed.

Lemma small_or_direct (c h th : R) : th <= 1 -> (0 < h * c \/ Rabs (h * c) <= 1) -> h * c < th -> Rabs (c * h) <= 1.
Proof.
  intros Ht [H|H] Hlt; rewrite Rmult_comm; [|exact H]. rewrite Rabs_pos_eq; lra.
Qed.
Lemma zero_bound x b : 0 <= b -> Rabs (x - x) <= b.
Proof. intros. rewrite Rminus_eq_0, Rabs_R0. assumption. Qed.
Lemma zero_bound' x y b : x = y -> 0 <= b -> Rabs (x - y) <= b.
Proof. intros -> H. apply zero_bound. exact H. Qed.
Lemma bound_nonneg (a b : R) (n : nat) (m : R) : 0 < m -> 0 <= Rabs a * Rabs b ^ n / m.
Proof.
  intros Hm. apply Rmult_le_pos; [|left; apply Rinv_0_lt_compat; exact Hm].
  apply Rmult_le_pos; [apply Rabs_pos|apply pow_le, Rabs_pos].
Qed.
Lemma bound_nonneg' (b : R) (n : nat) (m : R) : 0 < m -> 0 <= Rabs b ^ n / m.
Proof. intros Hm. apply Rmult_le_pos; [apply pow_le, Rabs_pos|left; apply Rinv_0_lt_compat; exact Hm]. Qed.
Ltac nonneg := solve [apply bound_nonneg; lra | apply bound_nonneg'; lra].

Lemma pf_C53_align_coefficients (D : Type) (th h : R) (gamma : D -> R) (dims : list D) (d : D) :
  In d dims -> th <= 1 -> h * gamma d <> 0 -> (0 < h * gamma d \/ Rabs (h * gamma d) <= 1) ->
  let k := recompute_coeffs (ALIGN th) dims h gamma (fun d => align_tay (gamma d)) d in
  let c := gamma d in
  let e := exp (- (c * h)) in
  let z := Rabs (c * h) in
  Rabs (al_beta k - e) <= z ^ 6 / 240 /\
  Rabs (al_a1 k - (1 - e) / c) <= Rabs h * z ^ 5 / 240 /\
  Rabs (al_b1 k - (e + c * h - 1) / (c * (c * h))) <= Rabs h * z ^ 5 / 1680 /\
  Rabs (al_aa k - (1 - e) / (c * h)) <= z ^ 6 / 1680 /\
  Rabs (al_chh k - 6 * (e * (c * h + 2) + c * h - 2) / ((c * h) ^ 2 * c)) <= Rabs h * z ^ 5 / 390.
Proof.
  intros Hd Ht Hne Hc k c e z. unfold k. rewrite (recompute_fresh (ALIGN th)) by exact Hd.
  assert (Hne' : c * h <> 0) by (rewrite Rmult_comm; exact Hne).
  assert (Hc0 : c <> 0) by (intros E; apply Hne'; rewrite E; ring).
  assert (Hh0 : h <> 0) by (intros E; apply Hne'; rewrite E; ring).
  unfold fresh. cbn [fl_taylor_threshold ALIGN fl_map fl_tay fl_direct]. fold c. destruct (Rlt_dec (h * c) th) as [L|L].
  - assert (Hs : Rabs (c * h) <= 1) by (apply (small_or_direct c h th); auto).
    unfold e, z.
    repeat split.
    + replace (al_beta _) with (p_beta h c 1) by (poly; unfold p_beta; field). replace (c * h) with (1 * (c * h)) at 1 by ring.
      apply beta_bound; [assumption|lra].
    + replace (al_a1 _) with (p_a h c 1) by (poly; unfold p_a; field). replace (c * h) with (1 * (c * h)) at 1 by ring.
      apply a_bound; [assumption|assumption|lra].
    + replace (al_b1 _) with (p_b h c 1) by (poly; unfold p_b; field). replace (c * h) with (1 * (c * h)) at 1 2 by ring.
      apply b_bound; [assumption|assumption|lra].
    + replace (al_aa _) with (p_aa h c) by (poly; unfold p_aa; field). apply aa_bound; assumption.
    + replace (al_chh _) with (p_chh h c) by (poly; unfold p_chh; field). apply chh_bound; assumption.
  - unfold z. repeat split; poly; apply zero_bound'; try nonneg; fold e; try reflexivity. field. auto.
Qed.

Lemma pf_C53_should_coefficients (D : Type) (th h : R) (gamma : D -> R) (dims : list D) (d : D) :
  In d dims -> th <= 1 -> h * gamma d <> 0 -> (0 < h * gamma d \/ Rabs (h * gamma d) <= 1) ->
  let k := recompute_coeffs (ShOULD th) dims h gamma (fun d => should_tay (gamma d)) d in
  let c := gamma d in
  let e := exp (- (c * h)) in
  let e2 := exp (- (1 / 2 * (c * h))) in
  let z := Rabs (c * h) in
  Rabs (sh_beta_half k - e2) <= z ^ 6 / 240 /\
  Rabs (sh_a_half k - (1 - e2) / c) <= Rabs h * z ^ 5 / 240 /\
  Rabs (sh_b_half k - (e2 + 1 / 2 * (c * h) - 1) / (c * (c * h))) <= Rabs h * z ^ 5 / 1680 /\
  Rabs (sh_beta1 k - e) <= z ^ 6 / 240 /\
  Rabs (sh_a1 k - (1 - e) / c) <= Rabs h * z ^ 5 / 240 /\
  Rabs (sh_b1 k - (e + c * h - 1) / (c * (c * h))) <= Rabs h * z ^ 5 / 1680 /\
  Rabs (sh_aa k - (1 - e) / (c * h)) <= z ^ 6 / 1680 /\
  Rabs (sh_chh k - 6 * (e * (c * h + 2) + c * h - 2) / ((c * h) ^ 2 * c)) <= Rabs h * z ^ 5 / 390 /\
  Rabs (sh_ckk k - 60 * (e * (c * h * (c * h + 6) + 12) - c * h * (c * h - 6) - 12) / ((c * h) ^ 2 * (c * h) * c))
    <= Rabs h * z ^ 5 / 72.
Proof.
  intros Hd Ht Hne Hc k c e e2 z. unfold k. rewrite (recompute_fresh (ShOULD th)) by exact Hd.
  assert (Hne' : c * h <> 0) by (rewrite Rmult_comm; exact Hne).
  assert (Hc0 : c <> 0) by (intros E; apply Hne'; rewrite E; ring).
  assert (Hh0 : h <> 0) by (intros E; apply Hne'; rewrite E; ring).
  unfold fresh. cbn [fl_taylor_threshold ShOULD fl_map fl_tay fl_direct]. fold c. destruct (Rlt_dec (h * c) th) as [L|L].
  - assert (Hs : Rabs (c * h) <= 1) by (apply (small_or_direct c h th); auto).
    unfold e, e2, z.
    repeat split.
    + replace (sh_beta_half _) with (p_beta h c (1 / 2)) by (poly; unfold p_beta; field).
      apply beta_bound; [assumption|lra].
    + replace (sh_a_half _) with (p_a h c (1 / 2)) by (poly; unfold p_a; field).
      apply a_bound; [assumption|assumption|lra].
    + replace (sh_b_half _) with (p_b h c (1 / 2)) by (poly; unfold p_b; field).
      apply b_bound; [assumption|assumption|lra].
    + replace (sh_beta1 _) with (p_beta h c 1) by (poly; unfold p_beta; field). replace (c * h) with (1 * (c * h)) at 1 by ring.
      apply beta_bound; [assumption|lra].
    + replace (sh_a1 _) with (p_a h c 1) by (poly; unfold p_a; field). replace (c * h) with (1 * (c * h)) at 1 by ring.
      apply a_bound; [assumption|assumption|lra].
    + replace (sh_b1 _) with (p_b h c 1) by (poly; unfold p_b; field). replace (c * h) with (1 * (c * h)) at 1 2 by ring.
      apply b_bound; [assumption|assumption|lra].
    + replace (sh_aa _) with (p_aa h c) by (poly; unfold p_aa; field). apply aa_bound; assumption.
    + replace (sh_chh _) with (p_chh h c) by (poly; unfold p_chh; field). apply chh_bound; assumption.
    + replace (sh_ckk _) with (p_ckk h c) by (poly; unfold p_ckk; field). apply ckk_bound; assumption.
  - unfold z. assert (E2 : exp (- (c * h) / 2) = e2) by (unfold e2; f_equal; field).
    repeat split; poly; rewrite ?E2; apply zero_bound'; try nonneg; fold e; try reflexivity; field; auto.
Qed.

Lemma sqrt3_bounds : 1 <= sqrt 3 <= 2.
Proof. pose proof (sqrt_pos 3). pose proof (sqrt_sqrt 3 ltac:(lra)). nra. Qed.
Lemma pf_C53_quicsort_coefficients (D : Type) (th h : R) (gamma : D -> R) (dims : list D) (d : D) :
  In d dims -> th <= 1 -> h * gamma d <> 0 -> (0 < h * gamma d \/ Rabs (h * gamma d) <= 1) ->
  let k := recompute_coeffs (QUICSORT th) dims h gamma (fun d => quicsort_tay (gamma d)) d in
  let c := gamma d in
  let e w := exp (- (w * (c * h))) in
  let z := Rabs (c * h) in
  let l := 1 / 2 - sqrt 3 / 6 in
  let r := 1 / 2 + sqrt 3 / 6 in
  (forall (at_ : lr1 R -> R) (w : R), In (at_, w) [(at_l, l); (at_r, r); (at_1, 1)] ->
     Rabs (at_ (qs_beta_lr1 k) - e w) <= z ^ 6 / 240 /\
     Rabs (at_ (qs_a_lr1 k) - (1 - e w) / c) <= Rabs h * z ^ 5 / 240 /\
     Rabs (at_ (qs_b_lr1 k) - (e w + w * (c * h) - 1) / (c * (c * h))) <= Rabs h * z ^ 5 / 1680) /\
  Rabs (qs_a_third k - (1 - e (1 / 3)) / c) <= Rabs h * z ^ 5 / 240 /\
  Rabs (qs_a_div_h k - (1 - e 1) / (c * h)) <= z ^ 6 / 1680.
Proof.
  intros Hd Ht Hne Hc k c e z l r. unfold k. rewrite (recompute_fresh (QUICSORT th)) by exact Hd.
  assert (Hne' : c * h <> 0) by (rewrite Rmult_comm; exact Hne).
  assert (Hc0 : c <> 0) by (intros E; apply Hne'; rewrite E; ring).
  assert (Hh0 : h <> 0) by (intros E; apply Hne'; rewrite E; ring).
  pose proof sqrt3_bounds as Hs3.
  assert (Hlr : forall (at_ : lr1 R -> R) (w : R), In (at_, w) [(at_l, l); (at_r, r); (at_1, 1)] ->
    0 < w <= 1 /\
    (forall (A : Type) (f : R -> R), at_ (lr1_map f l_r_1) = f w)).
  { intros at_ w [H|[H|[H|[]]]]; injection H as <- <-; split; try reflexivity; unfold l, r; lra. }
  unfold fresh. cbn [fl_taylor_threshold QUICSORT fl_map fl_tay fl_direct]. fold c. destruct (Rlt_dec (h * c) th) as [L|L].
  - assert (Hs : Rabs (c * h) <= 1) by (apply (small_or_direct c h th); auto).
    unfold e, z. split; [|split].
    + intros at_ w Hin. destruct (Hlr at_ w Hin) as (Hw & _).
      assert (EB : at_ (qs_beta_lr1 (quicsort_map (fun p => polyval p h) (quicsort_tay c))) = p_beta h c w /\
                   at_ (qs_a_lr1 (quicsort_map (fun p => polyval p h) (quicsort_tay c))) = p_a h c w /\
                   at_ (qs_b_lr1 (quicsort_map (fun p => polyval p h) (quicsort_tay c))) = p_b h c w).
      { clear - Hin. destruct Hin as [H|[H|[H|[]]]]; injection H as <- <-; fold l; fold r;
          cbv [quicsort_map quicsort_tay qs_beta_lr1 qs_a_lr1 qs_b_lr1 lr1_map l_r_1 at_l at_r at_1 times z_pows combine map fst snd polyval fold_left];
          fold l; fold r; clearbody l r; unfold p_beta, p_a, p_b; repeat split; field. }
      destruct EB as (-> & -> & ->). split; [|split].
      * apply beta_bound; assumption.
      * apply a_bound; assumption.
      * apply b_bound; assumption.
    + replace (qs_a_third _) with (p_a h c (1 / 3)).
      2:{ cbv [quicsort_map quicsort_tay qs_a_third polyval fold_left]. unfold p_a. field. }
      apply a_bound; [assumption|assumption|lra].
    + replace (qs_a_div_h _) with (p_aa h c).
      2:{ cbv [quicsort_map quicsort_tay qs_a_div_h polyval fold_left]. unfold p_aa. field. }
      rewrite Rmult_1_l. apply aa_bound; assumption.
  - unfold z. split; [|split].
    + intros at_ w Hin.
      assert (EB : at_ (qs_beta_lr1 (quicsort_direct h c)) = e w /\
                   at_ (qs_a_lr1 (quicsort_direct h c)) = (1 - e w) / c /\
                   at_ (qs_b_lr1 (quicsort_direct h c)) = (e w + w * (c * h) - 1) / (c * (c * h))).
      { destruct Hin as [H|[H|[H|[]]]]; injection H as <- <-;
          cbv [quicsort_direct qs_beta_lr1 qs_a_lr1 qs_b_lr1 lr1_map l_r_1 at_l at_r at_1 e];
          fold l; fold r; rewrite ?(Rmult_comm (c * h)); repeat split; field; auto. }
      destruct EB as (-> & -> & ->). repeat split; apply zero_bound; nonneg.
    + apply zero_bound'; [|nonneg]. cbv [quicsort_direct qs_a_third e]. do 3 f_equal. field.
    + apply zero_bound'; [|nonneg]. cbv [quicsort_direct qs_a_div_h e]. rewrite Rmult_1_l. reflexivity.
Qed.

(** Without friction the coefficients are the limits of the direct formulas, which are then 0/0. *)
Lemma pf_C53_zero_friction (D : Type) (th h : R) (gamma : D -> R) (dims : list D) (d : D) :
  In d dims -> 0 < th -> gamma d = 0 ->
  recompute_coeffs (ALIGN th) dims h gamma (fun d => align_tay (gamma d)) d = ALIGNCoeffs 1 h (h / 2) 1 h /\
  recompute_coeffs (ShOULD th) dims h gamma (fun d => should_tay (gamma d)) d
    = ShOULDCoeffs 1 (h / 2) (h / 8) 1 h (h / 2) 1 h 0 /\
  recompute_coeffs (QUICSORT th) dims h gamma (fun d => quicsort_tay (gamma d)) d
    = QUICSORTCoeffs (LR1 1 1 1) (lr1_map (fun z => z * h) l_r_1) (lr1_map (fun z => z ^ 2 * h / 2) l_r_1) (h / 3) 1.
Proof.
  intros Hd Ht Hg. rewrite (recompute_fresh (ALIGN th)), (recompute_fresh (ShOULD th)), (recompute_fresh (QUICSORT th)) by exact Hd.
  unfold fresh. cbn [fl_taylor_threshold ALIGN ShOULD QUICSORT fl_map fl_tay fl_direct]. rewrite Hg, Rmult_0_r.
  destruct (Rlt_dec 0 th) as [_|n]; [|contradiction].
  split; [|split].
  - poly. f_equal; field.
  - poly. f_equal; field.
  - cbv [quicsort_map quicsort_tay qs_beta_lr1 qs_a_lr1 qs_b_lr1 qs_a_third qs_a_div_h lr1_map l_r_1 at_l at_r at_1 times z_pows
      combine map fst snd polyval fold_left].
    set (s := sqrt 3). clearbody s. f_equal; [f_equal; field|f_equal; field|f_equal; field|field|field].
Qed.

(** Without friction ALIGN is the velocity Verlet method; it is reversible: a step, a reversal of the velocity and another step
    lead back. *)
Lemma pf_C53_align_reversible (D : Type) (h : R) (lv lv' : levy D) (x0 v0 u f0 : D -> R) (f : (D -> R) -> D -> R) :
  f0 = f x0 ->
  let k := fun _ : D => ALIGNCoeffs 1 h (h / 2) 1 h in
  exists x1 v1 f1 e x2 v2 e',
    align_compute_step h lv x0 v0 (fun _ => 0) u f k (fun d => sqrt (2 * 0 * u d)) (Some f0) = (x1, v1, Some f1, e) /\
    align_compute_step h lv' x1 (fun d => - v1 d) (fun _ => 0) u f k (fun d => sqrt (2 * 0 * u d)) (Some f1)
      = (x2, v2, Some f0, e') /\
    x2 = x0 /\ v2 = (fun d => - v0 d).
Proof.
  intros Ef k. unfold align_compute_step.
  set (x1 := fun d => x0 d + _ - _ + _). set (v1 := fun d => al_beta _ * _ - _ + _).
  set (x2 := fun d => x1 d + al_a1 (k d) * - v1 d - al_b1 (k d) * (u d * h) * f x1 d
    + sqrt (2 * 0 * u d) * (al_b1 (k d) * lv_w lv' d + al_chh (k d) * lv_h lv' d)).
  assert (Hr : forall d, sqrt (2 * 0 * u d) = 0) by (intros d; rewrite Rmult_0_r, Rmult_0_l; apply sqrt_0).
  assert (E2 : x2 = x0).
  { apply functional_extensionality. intros d. unfold x2, v1, x1. cbv beta. rewrite Hr. unfold k.
    cbn [al_a1 al_b1 al_beta al_aa al_chh]. set (F1 := f _ d). clearbody F1. field. }
  exists x1, v1, (f x1). do 4 eexists. split; [reflexivity|]. split; [|split].
  - fold x2. rewrite E2, <- Ef. reflexivity.
  - exact E2.
  - apply functional_extensionality. intros d. unfold v1. cbv beta. rewrite Hr. unfold k.
    cbn [al_a1 al_b1 al_beta al_aa al_chh]. set (F1 := f _ d). clearbody F1. field.
Qed.
