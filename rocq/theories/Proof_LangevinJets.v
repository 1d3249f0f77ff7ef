(** Expansions to fourth order in the step size. *)
From Coq Require Import Reals List Bool Arith Lia Lra Psatz.
From Coquelicot Require Import Coquelicot.
Import ListNotations.
Open Scope R_scope.

Record quad := Q4 { q0 : R; q1 : R; q2 : R; q3 : R }.
Definition qpoly (q : quad) (h : R) : R := q0 q + q1 q * h + q2 q * h ^ 2 + q3 q * h ^ 3.
Definition qconst (a : R) : quad := Q4 a 0 0 0.
Definition qid : quad := Q4 0 1 0 0.
Definition qadd (a b : quad) : quad := Q4 (q0 a + q0 b) (q1 a + q1 b) (q2 a + q2 b) (q3 a + q3 b).
Definition qopp (a : quad) : quad := Q4 (- q0 a) (- q1 a) (- q2 a) (- q3 a).
Definition qmul (a b : quad) : quad :=
  Q4 (q0 a * q0 b) (q0 a * q1 b + q1 a * q0 b) (q0 a * q2 b + q1 a * q1 b + q2 a * q0 b)
     (q0 a * q3 b + q1 a * q2 b + q2 a * q1 b + q3 a * q0 b).
Definition qint (y0 : R) (a : quad) : quad := Q4 y0 (q0 a) (q1 a / 2) (q2 a / 3).
(** Composition with a function whose derivatives at [q0 a] are [f0] to [f3]. *)
Definition qcomp (f0 f1 f2 f3 : R) (a : quad) : quad :=
  let d := Q4 0 (q1 a) (q2 a) (q3 a) in
  qadd (qconst f0) (qadd (qmul (qconst f1) d) (qadd (qmul (qconst (f2 / 2)) (qmul d d)) (qmul (qconst (f3 / 6)) (qmul d (qmul d d))))).

Definition agree (n : nat) (a b : quad) : Prop :=
  ((1 <= n)%nat -> q0 a = q0 b) /\ ((2 <= n)%nat -> q1 a = q1 b) /\ ((3 <= n)%nat -> q2 a = q2 b) /\ ((4 <= n)%nat -> q3 a = q3 b).

Definition jet (n : nat) (q : quad) (F : R -> R) : Prop :=
  exists C h0, 0 <= C /\ 0 < h0 <= 1 /\ forall h, 0 <= h <= h0 -> Rabs (F h - qpoly q h) <= C * h ^ n.

Lemma pow_le_pow h n m : 0 <= h <= 1 -> (n <= m)%nat -> h ^ m <= h ^ n.
Proof.
  intros Hh Hn. replace m with (n + (m - n))%nat by lia. rewrite pow_add.
  assert (0 <= h ^ n) by (apply pow_le; lra). assert (0 <= h ^ (m - n)) by (apply pow_le; lra).
  assert (h ^ (m - n) <= 1) by (rewrite <- (pow1 (m - n)); apply pow_incr; lra). nra.
Qed.

Lemma jet_ext n q F G : (exists h0, 0 < h0 /\ forall h, 0 <= h <= h0 -> F h = G h) -> jet n q F -> jet n q G.
Proof.
  intros (h1 & H1 & E) (C & h0 & HC & H0 & H). exists C, (Rmin h0 h1). split; [exact HC|].
  pose proof (Rmin_l h0 h1). pose proof (Rmin_r h0 h1). split; [split; [apply Rmin_glb_lt|]; lra|].
  intros h Hh. rewrite <- E by lra. apply H. lra.
Qed.
Lemma jet_weaken n m q F : (m <= n)%nat -> jet n q F -> jet m q F.
Proof.
  intros Hm (C & h0 & HC & H0 & H). exists C, h0. repeat split; try lra. intros h Hh.
  eapply Rle_trans; [apply H; lra|]. apply Rmult_le_compat_l; [exact HC|]. apply pow_le_pow; [lra|exact Hm].
Qed.
Lemma jet_agree n q q' F : (n <= 4)%nat -> agree n q q' -> jet n q F -> jet n q' F.
Proof.
  intros Hn (A0 & A1 & A2 & A3) (C & h0 & HC & H0 & H).
  exists (C + (Rabs (q0 q - q0 q') + Rabs (q1 q - q1 q') + Rabs (q2 q - q2 q') + Rabs (q3 q - q3 q'))), h0.
  pose proof (Rabs_pos (q0 q - q0 q')). pose proof (Rabs_pos (q1 q - q1 q')).
  pose proof (Rabs_pos (q2 q - q2 q')). pose proof (Rabs_pos (q3 q - q3 q')).
  repeat split; try lra. intros h Hh.
  replace (F h - qpoly q' h) with ((F h - qpoly q h) + ((q0 q - q0 q') * h ^ 0 + (q1 q - q1 q') * h ^ 1 + (q2 q - q2 q') * h ^ 2 + (q3 q - q3 q') * h ^ 3))
    by (unfold qpoly; ring).
  assert (T : forall k x y, (k <= 4)%nat -> ((S k <= n)%nat -> x = y) -> Rabs ((x - y) * h ^ k) <= Rabs (x - y) * h ^ n).
  { intros k x y Hk Hxy. rewrite Rabs_mult, (Rabs_pos_eq (h ^ k)) by (apply pow_le; lra).
    destruct (le_lt_dec (S k) n) as [L|L].
    - rewrite (Hxy L), Rminus_eq_0, Rabs_R0. lra.
    - apply Rmult_le_compat_l; [apply Rabs_pos|]. apply pow_le_pow; [lra|lia]. }
  pose proof (T 0%nat _ _ ltac:(lia) A0). pose proof (T 1%nat _ _ ltac:(lia) A1). pose proof (T 2%nat _ _ ltac:(lia) A2).
  pose proof (T 3%nat _ _ ltac:(lia) A3). specialize (H h Hh).
  eapply Rle_trans; [apply Rabs_triang|]. rewrite !Rmult_plus_distr_r. apply Rplus_le_compat; [exact H|].
  eapply Rle_trans; [apply Rabs_triang|]. apply Rplus_le_compat; [|assumption].
  eapply Rle_trans; [apply Rabs_triang|]. apply Rplus_le_compat; [|assumption].
  eapply Rle_trans; [apply Rabs_triang|]. apply Rplus_le_compat; assumption.
Qed.
Lemma jet_const n a : jet n (qconst a) (fun _ => a).
Proof.
  exists 0, 1. repeat split; try lra. intros h Hh. unfold qpoly, qconst. cbn [q0 q1 q2 q3].
  replace (a - _) with 0 by ring. rewrite Rabs_R0. lra.
Qed.
Lemma jet_id n : jet n qid (fun h => h).
Proof.
  exists 0, 1. repeat split; try lra. intros h Hh. unfold qpoly, qid. cbn [q0 q1 q2 q3].
  replace (h - _) with 0 by ring. rewrite Rabs_R0. lra.
Qed.
Lemma jet_plus n a b F G : jet n a F -> jet n b G -> jet n (qadd a b) (fun h => F h + G h).
Proof.
  intros (C & h0 & HC & H0 & H) (C' & h0' & HC' & H0' & H'). exists (C + C'), (Rmin h0 h0').
  pose proof (Rmin_l h0 h0'). pose proof (Rmin_r h0 h0').
  split; [lra|]. split; [split; [apply Rmin_glb_lt|]; lra|]. intros h Hh.
  specialize (H h ltac:(lra)). specialize (H' h ltac:(lra)).
  replace (F h + G h - qpoly (qadd a b) h) with ((F h - qpoly a h) + (G h - qpoly b h)) by (unfold qpoly, qadd; cbn [q0 q1 q2 q3]; ring).
  eapply Rle_trans; [apply Rabs_triang|]. lra.
Qed.
Lemma jet_opp n a F : jet n a F -> jet n (qopp a) (fun h => - F h).
Proof.
  intros (C & h0 & HC & H0 & H). exists C, h0. repeat split; try lra. intros h Hh.
  replace (- F h - qpoly (qopp a) h) with (- (F h - qpoly a h)) by (unfold qpoly, qopp; cbn [q0 q1 q2 q3]; ring).
  rewrite Rabs_Ropp. apply H. exact Hh.
Qed.
Lemma jet_minus n a b F G : jet n a F -> jet n b G -> jet n (qadd a (qopp b)) (fun h => F h - G h).
Proof. intros H1 H2. apply (jet_plus n a (qopp b) F (fun h => - G h)); [exact H1|apply jet_opp; exact H2]. Qed.
Lemma qpoly_bound q : exists M, 0 <= M /\ forall h, 0 <= h <= 1 -> Rabs (qpoly q h) <= M.
Proof.
  exists (Rabs (q0 q) + Rabs (q1 q) + Rabs (q2 q) + Rabs (q3 q)).
  pose proof (Rabs_pos (q0 q)). pose proof (Rabs_pos (q1 q)). pose proof (Rabs_pos (q2 q)). pose proof (Rabs_pos (q3 q)).
  split; [lra|]. intros h Hh. unfold qpoly.
  assert (T : forall x k, Rabs (x * h ^ k) <= Rabs x).
  { intros x k. rewrite Rabs_mult, (Rabs_pos_eq (h ^ k)) by (apply pow_le; lra).
    pose proof (pow_le_pow h 0 k Hh ltac:(lia)). cbn [pow] in H3. pose proof (Rabs_pos x). nra. }
  pose proof (T (q1 q) 1%nat) as T1. rewrite pow_1 in T1. pose proof (T (q2 q) 2%nat). pose proof (T (q3 q) 3%nat).
  eapply Rle_trans; [apply Rabs_triang|]. apply Rplus_le_compat; [|assumption].
  eapply Rle_trans; [apply Rabs_triang|]. apply Rplus_le_compat; [|assumption].
  eapply Rle_trans; [apply Rabs_triang|]. apply Rplus_le_compat; [lra|assumption].
Qed.
Lemma jet_mult n a b F G : (n <= 4)%nat -> jet n a F -> jet n b G -> jet n (qmul a b) (fun h => F h * G h).
Proof.
  intros Hn (C & h0 & HC & H0 & H) (C' & h0' & HC' & H0' & H').
  destruct (qpoly_bound a) as (M & HM & HMa). destruct (qpoly_bound b) as (M' & HM' & HMb).
  set (r := Q4 (q1 a * q3 b + q2 a * q2 b + q3 a * q1 b) (q2 a * q3 b + q3 a * q2 b) (q3 a * q3 b) 0).
  destruct (qpoly_bound r) as (K & HK & HKr).
  exists (C * (M' + C') + M * C' + K), (Rmin h0 h0').
  pose proof (Rmin_l h0 h0'). pose proof (Rmin_r h0 h0').
  assert (0 <= C * (M' + C')) by (apply Rmult_le_pos; lra). assert (0 <= M * C') by (apply Rmult_le_pos; lra).
  split; [lra|]. split; [split; [apply Rmin_glb_lt|]; lra|]. intros h Hh.
  specialize (H h ltac:(lra)). specialize (H' h ltac:(lra)). specialize (HMa h ltac:(lra)). specialize (HMb h ltac:(lra)).
  specialize (HKr h ltac:(lra)).
  replace (F h * G h - qpoly (qmul a b) h) with
    ((F h - qpoly a h) * (qpoly b h + (G h - qpoly b h)) + qpoly a h * (G h - qpoly b h) + qpoly r h * h ^ 4)
    by (unfold qpoly, qmul, r; cbn [q0 q1 q2 q3]; ring).
  set (e := F h - qpoly a h) in *. set (e' := G h - qpoly b h) in *.
  assert (Hp : 0 <= h ^ n) by (apply pow_le; lra). assert (Hp1 : h ^ n <= 1) by (apply (pow_le_pow h 0 n); [lra|lia]).
  assert (Hp4 : h ^ 4 <= h ^ n) by (apply pow_le_pow; [lra|exact Hn]). assert (0 <= h ^ 4) by (apply pow_le; lra).
  assert (Rabs e' <= C') by (eapply Rle_trans; [exact H'|]; nra).
  assert (B1 : Rabs (e * (qpoly b h + e')) <= C * (M' + C') * h ^ n).
  { rewrite Rabs_mult. replace (C * (M' + C') * h ^ n) with (C * h ^ n * (M' + C')) by ring.
    apply Rmult_le_compat; try apply Rabs_pos; [exact H|]. eapply Rle_trans; [apply Rabs_triang|]. lra. }
  assert (B2 : Rabs (qpoly a h * e') <= M * C' * h ^ n).
  { rewrite Rabs_mult, Rmult_assoc. apply Rmult_le_compat; try apply Rabs_pos; assumption. }
  assert (B3 : Rabs (qpoly r h * h ^ 4) <= K * h ^ n).
  { rewrite Rabs_mult, (Rabs_pos_eq (h ^ 4)) by assumption. apply Rmult_le_compat; try apply Rabs_pos; assumption. }
  rewrite !Rmult_plus_distr_r in *.
  eapply Rle_trans; [apply Rabs_triang|]. apply Rplus_le_compat; [|exact B3].
  eapply Rle_trans; [apply Rabs_triang|]. apply Rplus_le_compat; [|exact B2]. exact B1.
Qed.

(** A function with expansion [f0 + f1 d + f2 d^2/2 + f3 d^3/6 + O(d^4)] around [x0]. *)
Definition expands (f : R -> R) (x0 f0 f1 f2 f3 : R) : Prop :=
  exists C r, 0 <= C /\ 0 < r /\ forall x, Rabs (x - x0) <= r ->
    Rabs (f x - (f0 + (f1 * (x - x0) + (f2 / 2 * ((x - x0) * (x - x0)) + f3 / 6 * ((x - x0) * ((x - x0) * (x - x0))))))) <= C * Rabs (x - x0) ^ 4.
Lemma jet_comp n a F f f0 f1 f2 f3 : (1 <= n <= 4)%nat -> expands f (q0 a) f0 f1 f2 f3 -> jet n a F ->
  jet n (qcomp f0 f1 f2 f3 a) (fun h => f (F h)).
Proof.
  intros Hn (Cf & r & HCf & Hr & Hf) HF.
  assert (Hd : jet n (Q4 0 (q1 a) (q2 a) (q3 a)) (fun h => F h - q0 a)).
  { eapply jet_agree; [lia| |apply jet_minus; [exact HF|apply (jet_const n (q0 a))]].
    unfold agree, qadd, qopp, qconst. cbn [q0 q1 q2 q3]. repeat split; intros; ring. }
  set (d := fun h => F h - q0 a) in *.
  assert (HP : jet n (qcomp f0 f1 f2 f3 a) (fun h => f0 + (f1 * d h + (f2 / 2 * (d h * d h) + f3 / 6 * (d h * (d h * d h)))))).
  { unfold qcomp. repeat (apply jet_plus || (apply jet_mult; [lia| |]) || apply jet_const || exact Hd). }
  assert (Hlin : exists L h0, 0 <= L /\ 0 < h0 <= 1 /\ forall h, 0 <= h <= h0 -> Rabs (d h) <= L * h).
  { apply (jet_weaken n 1 _ _ ltac:(lia)) in Hd. destruct Hd as (C & h0 & HC & H0 & H).
    destruct (qpoly_bound (Q4 (q1 a) (q2 a) (q3 a) 0)) as (M & HM & Hb).
    exists (C + M), h0. repeat split; try lra. intros h Hh. specialize (H h Hh). specialize (Hb h ltac:(lra)). rewrite pow_1 in H.
    assert (E : qpoly (Q4 0 (q1 a) (q2 a) (q3 a)) h = h * qpoly (Q4 (q1 a) (q2 a) (q3 a) 0) h) by (unfold qpoly; cbn [q0 q1 q2 q3]; ring).
    replace (d h) with ((d h - qpoly (Q4 0 (q1 a) (q2 a) (q3 a)) h) + qpoly (Q4 0 (q1 a) (q2 a) (q3 a)) h) by ring.
    eapply Rle_trans; [apply Rabs_triang|]. rewrite Rmult_plus_distr_r. apply Rplus_le_compat; [exact H|].
    rewrite E, Rabs_mult, (Rabs_pos_eq h) by lra. rewrite (Rmult_comm M). apply Rmult_le_compat_l; lra. }
  destruct Hlin as (L & h1 & HL & H1 & Hl).
  destruct HP as (C & h0 & HC & H0 & H).
  exists (C + Cf * L ^ 4), (Rmin (Rmin h0 h1) (r / (L + 1))).
  assert (Hq : 0 < r / (L + 1)) by (apply Rdiv_lt_0_compat; lra).
  pose proof (Rmin_l (Rmin h0 h1) (r / (L + 1))). pose proof (Rmin_r (Rmin h0 h1) (r / (L + 1))).
  pose proof (Rmin_l h0 h1). pose proof (Rmin_r h0 h1).
  assert (HL4 : 0 <= L ^ 4) by (apply pow_le; exact HL).
  split; [assert (0 <= Cf * L ^ 4) by (apply Rmult_le_pos; assumption); lra|].
  split; [split; [repeat apply Rmin_glb_lt|]; lra|]. intros h Hh.
  specialize (H h ltac:(lra)). specialize (Hl h ltac:(lra)).
  assert (Hx : Rabs (F h - q0 a) <= r).
  { eapply Rle_trans; [exact Hl|]. apply Rle_trans with (L * (r / (L + 1))); [apply Rmult_le_compat_l; lra|].
    apply Rmult_le_reg_r with (L + 1); [lra|]. replace (L * (r / (L + 1)) * (L + 1)) with (L * r) by (field; lra). lra. }
  specialize (Hf (F h) Hx). fold (d h) in Hf.
  set (P := f0 + _) in *. replace (f (F h) - qpoly (qcomp f0 f1 f2 f3 a) h) with ((P - qpoly (qcomp f0 f1 f2 f3 a) h) + (f (F h) - P)) by ring.
  eapply Rle_trans; [apply Rabs_triang|]. rewrite Rmult_plus_distr_r. apply Rplus_le_compat; [exact H|].
  eapply Rle_trans; [exact Hf|]. rewrite Rmult_assoc. apply Rmult_le_compat_l; [exact HCf|].
  apply Rle_trans with ((L * h) ^ 4).
  - apply pow_incr. split; [apply Rabs_pos|exact Hl].
  - rewrite Rpow_mult_distr. apply Rmult_le_compat_l; [exact HL4|]. apply pow_le_pow; [lra|lia].
Qed.

Lemma mvt_bound (G g : R -> R) (x0 C r : R) (n : nat) :
  (forall x, is_derive G x (g x)) -> (forall x, Rabs (x - x0) <= r -> Rabs (g x) <= C * Rabs (x - x0) ^ n) -> 0 <= C ->
  forall x, Rabs (x - x0) <= r -> Rabs (G x - G x0) <= C * Rabs (x - x0) ^ S n.
Proof.
  intros HG Hg HC x Hx.
  destruct (MVT_gen G x0 x g) as (c & Hc & E).
  - intros y _. apply HG.
  - intros y _. apply continuity_pt_filterlim. apply (ex_derive_continuous (V := R_NormedModule) G). exists (g y). apply HG.
  - rewrite E, Rabs_mult. cbn [pow]. rewrite (Rmult_comm (Rabs (x - x0)) (_ ^ n)), <- Rmult_assoc.
    apply Rmult_le_compat_r; [apply Rabs_pos|].
    assert (Rabs (c - x0) <= Rabs (x - x0)).
    { clear - Hc. unfold Rmin, Rmax in Hc. destruct (Rle_dec x0 x).
      - rewrite !Rabs_pos_eq; lra.
      - rewrite !Rabs_left1; lra. }
    eapply Rle_trans; [apply Hg; lra|]. apply Rmult_le_compat_l; [exact HC|]. apply pow_incr. split; [apply Rabs_pos|assumption].
Qed.
Lemma jet_int n a G g : (n <= 3)%nat -> (forall s, is_derive G s (g s)) -> jet n a g -> jet (S n) (qint (G 0) a) G.
Proof.
  intros Hn HG (C & h0 & HC & H0 & H).
  set (P := fun s => G s - (G 0 + q0 a * s + q1 a * s ^ 2 / 2 + q2 a * s ^ 3 / 3 + q3 a * s ^ 4 / 4)).
  set (p := fun s => g s - qpoly a s).
  assert (HP : forall s, is_derive P s (p s)).
  { intros s. unfold P, p. apply (is_derive_minus G); [apply HG|]. unfold qpoly. auto_derive; [trivial|]. field. }
  exists (C + Rabs (q3 a / 4)), h0. pose proof (Rabs_pos (q3 a / 4)). repeat split; try lra. intros h Hh.
  assert (HB : Rabs (P h) <= C * h ^ S n).
  { destruct (MVT_gen P 0 h p) as (c & Hc & E).
    - intros y _. apply HP.
    - intros y _. apply continuity_pt_filterlim. apply (ex_derive_continuous (V := R_NormedModule) P). exists (p y). apply HP.
    - replace (P 0) with 0 in E by (unfold P; field). rewrite Rminus_0_r, Rminus_0_r in E. rewrite E, Rabs_mult, (Rabs_pos_eq h) by lra.
      cbn [pow]. rewrite (Rmult_comm h), <- Rmult_assoc. apply Rmult_le_compat_r; [lra|].
      rewrite Rmin_left, Rmax_right in Hc by lra. eapply Rle_trans; [apply H; lra|].
      apply Rmult_le_compat_l; [exact HC|]. apply pow_incr. lra. }
  replace (G h - qpoly (qint (G 0) a) h) with (P h + q3 a / 4 * h ^ 4) by (unfold P, qpoly, qint; cbn [q0 q1 q2 q3]; field).
  eapply Rle_trans; [apply Rabs_triang|]. rewrite Rmult_plus_distr_r. apply Rplus_le_compat; [exact HB|].
  rewrite Rabs_mult, (Rabs_pos_eq (h ^ 4)) by (apply pow_le; lra). apply Rmult_le_compat_l; [assumption|]. apply pow_le_pow; [lra|lia].
Qed.

(** Four times differentiable functions expand. *)
Lemma smooth_expands (f f1 f2 f3 f4 : R -> R) (x0 : R) :
  (forall x, is_derive f x (f1 x)) -> (forall x, is_derive f1 x (f2 x)) -> (forall x, is_derive f2 x (f3 x)) ->
  (forall x, is_derive f3 x (f4 x)) -> continuous f4 x0 ->
  expands f x0 (f x0) (f1 x0) (f2 x0) (f3 x0).
Proof.
  intros H1 H2 H3 H4 Hc.
  assert (exists r, 0 < r /\ forall x, Rabs (x - x0) <= r -> Rabs (f4 x) <= Rabs (f4 x0) + 1) as (r & Hr & Hb).
  { assert (He : locally x0 (fun x => Rabs (f4 x - f4 x0) < 1)).
    { apply (Hc (fun y => Rabs (y - f4 x0) < 1)). exists (mkposreal 1 Rlt_0_1). intros y Hy. exact Hy. }
    destruct He as [eps He]. exists (eps / 2). pose proof (cond_pos eps). split; [lra|].
    intros x Hx. assert (Hx' : Rabs (x - x0) < eps) by lra. specialize (He x Hx').
    replace (f4 x) with (f4 x0 + (f4 x - f4 x0)) by ring. eapply Rle_trans; [apply Rabs_triang|]. lra. }
  set (M := Rabs (f4 x0) + 1) in *. assert (HM : 0 <= M) by (unfold M; pose proof (Rabs_pos (f4 x0)); lra).
  exists M, r. repeat split; try assumption.
  assert (B3 : forall x, Rabs (x - x0) <= r -> Rabs (f3 x - f3 x0) <= M * Rabs (x - x0) ^ 1).
  { apply (mvt_bound f3 f4); auto. intros x Hx. cbn [pow]. rewrite Rmult_1_r. auto. }
  assert (B2 : forall x, Rabs (x - x0) <= r -> Rabs (f2 x - (f2 x0 + f3 x0 * (x - x0))) <= M * Rabs (x - x0) ^ 2).
  { intros x Hx. pose proof (mvt_bound (fun x => f2 x - (f2 x0 + f3 x0 * (x - x0))) (fun x => f3 x - f3 x0) x0 M r 1) as B.
    assert (E : f2 x0 - (f2 x0 + f3 x0 * (x0 - x0)) = 0) by ring. cbv beta in B. rewrite E in B.
    specialize (B) with (2 := B3) (3 := HM) (4 := Hx). rewrite Rminus_0_r in B. apply B.
    intros y. apply (is_derive_minus f2); [apply H3|]. auto_derive; [trivial|ring]. }
  assert (B1 : forall x, Rabs (x - x0) <= r -> Rabs (f1 x - (f1 x0 + f2 x0 * (x - x0) + f3 x0 * (x - x0) ^ 2 / 2)) <= M * Rabs (x - x0) ^ 3).
  { intros x Hx. pose proof (mvt_bound (fun x => f1 x - (f1 x0 + f2 x0 * (x - x0) + f3 x0 * (x - x0) ^ 2 / 2)) (fun x => f2 x - (f2 x0 + f3 x0 * (x - x0))) x0 M r 2) as B.
    assert (E : f1 x0 - (f1 x0 + f2 x0 * (x0 - x0) + f3 x0 * (x0 - x0) ^ 2 / 2) = 0) by field. cbv beta in B. rewrite E in B.
    specialize (B) with (2 := B2) (3 := HM) (4 := Hx). rewrite Rminus_0_r in B. apply B.
    intros y. apply (is_derive_minus f1); [apply H2|]. auto_derive; [trivial|field]. }
  intros x Hx. pose proof (mvt_bound (fun x => f x - (f x0 + (f1 x0 * (x - x0) + (f2 x0 / 2 * ((x - x0) * (x - x0)) + f3 x0 / 6 * ((x - x0) * ((x - x0) * (x - x0)))))))
      (fun x => f1 x - (f1 x0 + f2 x0 * (x - x0) + f3 x0 * (x - x0) ^ 2 / 2)) x0 M r 3) as B.
  assert (E : f x0 - (f x0 + (f1 x0 * (x0 - x0) + (f2 x0 / 2 * ((x0 - x0) * (x0 - x0)) + f3 x0 / 6 * ((x0 - x0) * ((x0 - x0) * (x0 - x0)))))) = 0) by field.
  cbv beta in B. rewrite E in B.
  specialize (B) with (2 := B1) (3 := HM) (4 := Hx). rewrite Rminus_0_r in B. apply B.
  intros y. apply (is_derive_minus f); [apply H1|]. auto_derive; [trivial|field].
Qed.

Lemma jet_close n q F G : jet n q F -> jet n q G -> exists C h0, 0 < h0 /\ forall h, 0 <= h <= h0 -> Rabs (F h - G h) <= C * h ^ n.
Proof.
  intros (C & h0 & HC & H0 & H) (C' & h0' & HC' & H0' & H'). exists (C + C'), (Rmin h0 h0').
  pose proof (Rmin_l h0 h0'). pose proof (Rmin_r h0 h0').
  split; [apply Rmin_glb_lt; lra|]. intros h Hh. specialize (H h ltac:(lra)). specialize (H' h ltac:(lra)).
  replace (F h - G h) with ((F h - qpoly q h) + - (G h - qpoly q h)) by ring.
  eapply Rle_trans; [apply Rabs_triang|]. rewrite Rabs_Ropp. lra.
Qed.
