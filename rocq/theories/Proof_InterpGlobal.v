(** Proofs about interpolation: [LinearInterpolation] and [CubicInterpolation]. *)
From Coq Require Import Reals List Bool Arith ZArith Lia Lra Sorting.Sorted.
From Verif Require Import Model_Loop Proof_LoopBasic Model_Dense Proof_Dense Model_Interp Spec_Interp
  Proof_Interp.
Import ListNotations.
Open Scope R_scope.

Lemma Rltb_t a b : Rltb a b = true <-> a < b.
Proof. unfold Rltb. destruct (Rlt_dec a b); split; auto; discriminate. Qed.
Lemma Rltb_f a b : Rltb a b = false <-> b <= a.
Proof. unfold Rltb. destruct (Rlt_dec a b); split; try discriminate; intros; auto; lra. Qed.

Lemma sorted_at (P : R -> R -> Prop) (l : list R) : StronglySorted P l -> forall i j,
  (i < j < length l)%nat -> P (at_ l i) (at_ l j).
Proof.
  induction 1 as [|a l Hl IH Hf]; intros i j Hij; cbn in *; [lia|].
  unfold at_ in *. destruct j as [|j]; [lia|]. destruct i as [|i]; cbn.
  - rewrite Forall_forall in Hf. apply Hf, nth_In. lia.
  - apply IH. lia.
Qed.
Lemma lt_le_sorted l : StronglySorted Rlt l -> StronglySorted Rle l.
Proof.
  induction 1 as [|a l Hl IH Hf]; constructor; auto. eapply Forall_impl; [|exact Hf]. cbn. intros; lra.
Qed.
Lemma sorted_le_at l i j : StronglySorted Rle l -> (i <= j < length l)%nat -> at_ l i <= at_ l j.
Proof.
  intros H Hij. destruct (Nat.eq_dec i j) as [ -> |Hne]; [lra|]. apply (sorted_at _ _ H). lia.
Qed.
Lemma nth_error_at l i x : nth_error l i = Some x -> at_ l i = x.
Proof. intros H. unfold at_. apply nth_error_nth. exact H. Qed.

Lemma getR_at ts j : (j < length ts)%nat -> getR ts (Z.of_nat j) = at_ ts j.
Proof.
  intros H. unfold getR. destruct (nth_error ts j) as [x|] eqn:Hx; [|apply nth_error_None in Hx; lia].
  rewrite (get_wrap_nat _ _ _ Hx). symmetry. apply nth_error_at. exact Hx.
Qed.
Lemma getN_at ys j v : nth_error ys j = Some v -> getN ys (Z.of_nat j) = v.
Proof. intros H. unfold getN. rewrite (get_wrap_nat _ _ _ H). reflexivity. Qed.
Lemma getQ_at qs j q : nth_error qs j = Some q -> getQ qs (Z.of_nat j) = q.
Proof. intros H. unfold getQ. rewrite (get_wrap_nat _ _ _ H). reflexivity. Qed.
Lemma Z_succ j : (Z.of_nat j + 1)%Z = Z.of_nat (S j). Proof. lia. Qed.

Lemma index_brackets ts left t j :
  StronglySorted Rle ts -> brackets ts left t j -> index_of ts t left = Z.of_nat j.
Proof.
  intros Hs (Hj & Hlo & Hhi). unfold index_of, interpret_t.
  assert (K : forall i x, nth_error ts i = Some x -> at_ ts i = x /\ (i < length ts)%nat).
  { intros i x Hx. split; [apply nth_error_at; exact Hx|]. apply nth_error_Some. congruence. }
  assert (Hi : exists n, searchsorted Rltb ts t left = n /\ (n <= length ts)%nat /\
            (n = S j \/ (n = 0%nat /\ j = 0%nat) \/ (n = length ts /\ S (S j) = length ts))).
  2:{ destruct Hi as (n & -> & Hn & Hc). lia. }
  destruct left.
  - destruct (Rle_dec t (at_ ts j)) as [Hle|Hnle].
    + destruct Hlo as [ -> |Hlo]; [|lra]. exists 0%nat. split; [|lia].
      apply searchsorted_char; [lia|intros; lia|]. intros x Hx. apply K in Hx as [<- _].
      apply Rltb_f. exact Hle.
    + destruct (Rle_dec t (at_ ts (S j))) as [Hle|Hnle2].
      * exists (S j). split; [|lia]. apply searchsorted_char; [lia| |].
        -- intros i x Hi Hx. apply K in Hx as [<- Hil]. apply Rltb_t.
           pose proof (sorted_le_at ts i j Hs ltac:(lia)). lra.
        -- intros x Hx. apply K in Hx as [<- Hil]. apply Rltb_f. lra.
      * destruct Hhi as [Hhi|Hhi]; [|lra]. exists (length ts). split; [|lia].
        apply searchsorted_char; [lia| |].
        -- intros i x Hi Hx. apply K in Hx as [<- Hil]. apply Rltb_t.
           pose proof (sorted_le_at ts i (S j) Hs ltac:(lia)). lra.
        -- intros x Hx. apply K in Hx as [_ Hil]. lia.
  - destruct (Rlt_dec t (at_ ts j)) as [Hlt|Hnlt].
    + destruct Hlo as [ -> |Hlo]; [|lra]. exists 0%nat. split; [|lia].
      apply searchsorted_char; [lia|intros; lia|]. intros x Hx. apply K in Hx as [<- _].
      rewrite (proj2 (Rltb_t _ _) Hlt). reflexivity.
    + destruct (Rlt_dec t (at_ ts (S j))) as [Hlt|Hnlt2].
      * exists (S j). split; [|lia]. apply searchsorted_char; [lia| |].
        -- intros i x Hi Hx. apply K in Hx as [<- Hil].
           pose proof (sorted_le_at ts i j Hs ltac:(lia)).
           assert (Rltb t (at_ ts i) = false) as -> by (apply Rltb_f; lra). reflexivity.
        -- intros x Hx. apply K in Hx as [<- Hil]. rewrite (proj2 (Rltb_t _ _) Hlt). reflexivity.
      * destruct Hhi as [Hhi|Hhi]; [|lra]. exists (length ts). split; [|lia].
        apply searchsorted_char; [lia| |].
        -- intros i x Hi Hx. apply K in Hx as [<- Hil].
           pose proof (sorted_le_at ts i (S j) Hs ltac:(lia)).
           assert (Rltb t (at_ ts i) = false) as -> by (apply Rltb_f; lra). reflexivity.
        -- intros x Hx. apply K in Hx as [_ Hil]. lia.
Qed.

Lemma brackets_exists ts left t : (2 <= length ts)%nat -> exists j, brackets ts left t j.
Proof.
  intros Hlen.
  assert (G : forall n, (S (S n) <= length ts)%nat ->
     (S (S n) = length ts \/ if left then t <= at_ ts (S n) else t < at_ ts (S n)) ->
     exists j, brackets ts left t j).
  { induction n as [|n IH]; intros Hn Hle.
    - exists 0%nat. split; [lia|]. split; [left; reflexivity|exact Hle].
    - assert (D : (if left then at_ ts (S n) < t else at_ ts (S n) <= t) \/
                  (if left then t <= at_ ts (S n) else t < at_ ts (S n))).
      { destruct left.
        - destruct (Rlt_le_dec (at_ ts (S n)) t); auto.
        - destruct (Rle_lt_dec (at_ ts (S n)) t); auto. }
      destruct D as [D|D].
      + exists (S n). split; [lia|]. split; [right; exact D|exact Hle].
      + apply IH; [lia|]. right. exact D. }
  apply (G (length ts - 2)%nat); [lia|left; lia].
Qed.

(** ** LinearInterpolation *)
Section Linear.
  Variables (ts : list R) (ys : list num).

  Lemma linear_at left t j a b :
    StronglySorted Rle ts -> brackets ts left t j ->
    observed ys j a -> observed ys (S j) b ->
    linear_evaluate ts ys t left = Some (line (at_ ts j) a (at_ ts (S j)) b t) /\
    linear_derivative ts ys t left = Some (slope (at_ ts j) a (at_ ts (S j)) b).
  Proof.
    intros Hs Hb Ha Hb'. unfold linear_evaluate, linear_derivative.
    rewrite (index_brackets _ _ _ _ Hs Hb). destruct Hb as (Hj & _ & _).
    rewrite Z_succ, (getN_at _ _ _ Ha), (getN_at _ _ _ Hb'), !getR_at by lia. split; reflexivity.
  Qed.
  Lemma linear_nan left t j :
    StronglySorted Rle ts -> brackets ts left t j ->
    missing ys j \/ missing ys (S j) -> linear_evaluate ts ys t left = None.
  Proof.
    intros Hs Hb Hm. unfold linear_evaluate.
    rewrite (index_brackets _ _ _ _ Hs Hb). destruct Hb as (Hj & _ & _). rewrite Z_succ.
    destruct Hm as [Hm|Hm]; rewrite (getN_at _ _ _ Hm); [reflexivity|].
    destruct (getN ys (Z.of_nat j)); reflexivity.
  Qed.
End Linear.

Lemma pf_C39_interval (ts : list R) (ys : list num) (left : bool) (t a b : R) (j : nat) :
  StronglySorted Rle ts -> length ys = length ts -> brackets ts left t j ->
  observed ys j a -> observed ys (S j) b ->
  linear_evaluate ts ys t left = Some (line (at_ ts j) a (at_ ts (S j)) b t) /\
  linear_derivative ts ys t left = Some (slope (at_ ts j) a (at_ ts (S j)) b).
Proof. intros. eapply linear_at; eauto. Qed.
Lemma pf_C39_missing (ts : list R) (ys : list num) (left : bool) (t : R) (j : nat) :
  StronglySorted Rle ts -> length ys = length ts -> brackets ts left t j ->
  missing ys j \/ missing ys (S j) -> linear_evaluate ts ys t left = None.
Proof. intros. eapply linear_nan; eauto. Qed.
Lemma pf_C39_brackets (ts : list R) (left : bool) (t : R) :
  StronglySorted Rlt ts -> (2 <= length ts)%nat ->
  exists j, brackets ts left t j /\ forall j', brackets ts left t j' -> j' = j.
Proof.
  intros Hs Hl. destruct (brackets_exists ts left t Hl) as [j Hj]. exists j. split; [exact Hj|].
  intros j' Hj'. apply lt_le_sorted in Hs.
  pose proof (index_brackets _ _ _ _ Hs Hj). pose proof (index_brackets _ _ _ _ Hs Hj'). lia.
Qed.

Lemma observed_all (vs : list R) j : (j < length vs)%nat -> observed (map Some vs) j (at_ vs j).
Proof.
  intros H. unfold observed. rewrite nth_error_map.
  destruct (nth_error vs j) as [x|] eqn:Hx; [|apply nth_error_None in Hx; lia].
  cbn. rewrite (nth_error_at _ _ _ Hx). reflexivity.
Qed.

(** Around a knot the two pieces meet. *)
Lemma brackets_knot ts (left : bool) i :
  StronglySorted Rlt ts -> (2 <= length ts)%nat -> (i < length ts)%nat ->
  (brackets ts left (at_ ts i) i) \/ (exists j, i = S j /\ brackets ts left (at_ ts i) j).
Proof.
  intros Hs Hl Hi. destruct left.
  - destruct i as [|j].
    + left. split; [lia|]. split; [auto|]. right. left. apply (sorted_at _ _ Hs). lia.
    + right. exists j. split; [reflexivity|]. split; [lia|]. split; [|right; lra].
      right. apply (sorted_at _ _ Hs). lia.
  - destruct (Nat.eq_dec (S i) (length ts)) as [Hlast|Hne].
    + right. exists (i - 1)%nat. split; [lia|]. split; [lia|]. split; [|left; lia].
      right. left. apply (sorted_at _ _ Hs). lia.
    + left. split; [lia|]. split; [right; lra|]. right. apply (sorted_at _ _ Hs). lia.
Qed.

Lemma pf_C39_knots (ts vs : list R) (left : bool) (i : nat) (t v : R) :
  StronglySorted Rlt ts -> (2 <= length ts)%nat -> length vs = length ts ->
  nth_error ts i = Some t -> nth_error vs i = Some v ->
  linear_evaluate ts (map Some vs) t left = Some v.
Proof.
  intros Hs Hl Hlen Ht Hv.
  assert (Hi : (i < length ts)%nat) by (apply nth_error_Some; congruence).
  apply nth_error_at in Ht, Hv. subst t v.
  destruct (brackets_knot ts left i Hs Hl Hi) as [Hb|(j & -> & Hb)]; pose proof Hb as (Hj & _ & _).
  - destruct (linear_at ts (map Some vs) left (at_ ts i) i (at_ vs i) (at_ vs (S i))
      (lt_le_sorted _ Hs) Hb) as [-> _]; [apply observed_all; lia|apply observed_all; lia|].
    f_equal. unfold line. pose proof (sorted_at _ _ Hs i (S i) ltac:(lia)).
    field. lra.
  - destruct (linear_at ts (map Some vs) left (at_ ts (S j)) j (at_ vs j) (at_ vs (S j))
      (lt_le_sorted _ Hs) Hb) as [-> _]; [apply observed_all; lia|apply observed_all; lia|].
    f_equal. unfold line. pose proof (sorted_at _ _ Hs j (S j) ltac:(lia)).
    field. lra.
Qed.

Lemma pf_C39_convex (ts vs : list R) (left : bool) (t : R) :
  StronglySorted Rlt ts -> (2 <= length ts)%nat -> length vs = length ts ->
  at_ ts 0 <= t <= at_ ts (length ts - 1) ->
  exists j lam, (S j < length ts)%nat /\ 0 <= lam <= 1 /\
    t = (1 - lam) * at_ ts j + lam * at_ ts (S j) /\
    linear_evaluate ts (map Some vs) t left = Some ((1 - lam) * at_ vs j + lam * at_ vs (S j)).
Proof.
  intros Hs Hl Hlen Ht. destruct (brackets_exists ts left t Hl) as [j Hb].
  pose proof Hb as (Hj & Hlo & Hhi). pose proof (sorted_at _ _ Hs j (S j) ltac:(lia)) as Hlt.
  exists j, ((t - at_ ts j) / (at_ ts (S j) - at_ ts j)).
  assert (B : at_ ts j <= t <= at_ ts (S j)).
  { split.
    - destruct Hlo as [ -> |Hlo]; [lra|]. destruct left; lra.
    - destruct Hhi as [Hhi|Hhi]; [|destruct left; lra].
      replace (S j) with (length ts - 1)%nat by lia. lra. }
  split; [exact Hj|]. split.
  { split.
    - apply Rmult_le_pos; [lra|]. apply Rlt_le, Rinv_0_lt_compat. lra.
    - apply (Rmult_le_reg_r (at_ ts (S j) - at_ ts j)); [lra|]. field_simplify; [lra|lra]. }
  split; [field; lra|].
  destruct (linear_at ts (map Some vs) left t j (at_ vs j) (at_ vs (S j))
    (lt_le_sorted _ Hs) Hb) as [-> _]; [apply observed_all; lia|apply observed_all; lia|].
  f_equal. unfold line. field. lra.
Qed.

(** ** Functions given by pieces *)
Section Pieces.
  Variables (ts : list R) (p : nat -> R -> R).
  Hypothesis Hs : StronglySorted Rlt ts.
  Hypothesis Hl : (2 <= length ts)%nat.
  (** neighbouring pieces meet *)
  Definition meet (p : nat -> R -> R) : Prop :=
    forall j, (S (S j) < length ts)%nat -> p j (at_ ts (S j)) = p (S j) (at_ ts (S j)).
  Definition by_pieces (p : nat -> R -> R) (f : R -> R) (left : bool) : Prop :=
    forall t j, brackets ts left t j -> f t = p j t.

  Lemma meet_both f left : meet p -> by_pieces p f left -> by_pieces p f (negb left).
  Proof.
    intros Hm Hf t j Hb. destruct (brackets_exists ts left t Hl) as [i Hi].
    rewrite (Hf t i Hi). pose proof Hb as (Hj & Hlo & Hhi). pose proof Hi as (Hi' & Hlo' & Hhi').
    pose proof (lt_le_sorted _ Hs) as Hs'.
    destruct (lt_eq_lt_dec i j) as [[Hij| -> ]|Hij]; [|reflexivity|].
    - (* i < j: ts j <= t <= ts (S i) *)
      destruct Hlo as [ -> |Hlo]; [lia|]. destruct Hhi' as [Hhi'|Hhi']; [lia|].
      pose proof (sorted_le_at ts (S i) j Hs' ltac:(lia)).
      assert (t = at_ ts j) as -> by (destruct left; cbn in *; lra).
      assert (j = S i) as ->.
      { destruct (Nat.eq_dec j (S i)); auto. pose proof (sorted_at _ _ Hs (S i) j ltac:(lia)).
        destruct left; cbn in *; lra. }
      apply Hm. lia.
    - destruct Hlo' as [ -> |Hlo']; [lia|]. destruct Hhi as [Hhi|Hhi]; [lia|].
      pose proof (sorted_le_at ts (S j) i Hs' ltac:(lia)).
      assert (t = at_ ts i) as -> by (destruct left; cbn in *; lra).
      assert (i = S j) as ->.
      { destruct (Nat.eq_dec i (S j)); auto. pose proof (sorted_at _ _ Hs (S j) i ltac:(lia)).
        destruct left; cbn in *; lra. }
      symmetry. apply Hm. lia.
  Qed.

  (** Around every point, [f] is one piece to the left and one to the right. *)
  Lemma local_pieces f left t : meet p -> by_pieces p f left ->
    exists i j d, 0 < d /\ brackets ts true t i /\ brackets ts false t j /\
      (i = j \/ (j = S i /\ t = at_ ts (S i) /\ (S (S i) < length ts)%nat)) /\
      (forall s, t - d < s <= t -> f s = p i s) /\ (forall s, t <= s < t + d -> f s = p j s).
  Proof.
    intros Hm Hf.
    assert (Hft : by_pieces p f true) by (destruct left; [exact Hf|apply (meet_both f false Hm Hf)]).
    assert (Hff : by_pieces p f false) by (destruct left; [apply (meet_both f true Hm Hf)|exact Hf]).
    clear Hf. destruct (brackets_exists ts true t Hl) as [i Hi].
    destruct (brackets_exists ts false t Hl) as [j Hj].
    pose proof Hj as (Hj' & Hlo & Hhi). pose proof Hi as (Hi' & Hlo' & Hhi').
    pose proof (lt_le_sorted _ Hs) as Hs'. cbn in *.
    assert (Hd1 : exists d, 0 < d /\ (i = 0%nat \/ at_ ts i <= t - d)).
    { destruct Hlo' as [ -> |Hlo']; [exists 1; split; [lra|auto]|]. exists ((t - at_ ts i)/2).
      split; [lra|]. right. lra. }
    assert (Hd2 : exists d, 0 < d /\ (S (S j) = length ts \/ t + d <= at_ ts (S j))).
    { destruct Hhi as [Hhi|Hhi]; [exists 1; split; [lra|auto]|]. exists ((at_ ts (S j) - t)/2).
      split; [lra|]. right. lra. }
    destruct Hd1 as (d1 & Hd1 & Hl1). destruct Hd2 as (d2 & Hd2 & Hl2).
    exists i, j, (Rmin d1 d2). split; [apply Rmin_pos; assumption|]. split; [exact Hi|]. split; [exact Hj|].
    pose proof (Rmin_l d1 d2). pose proof (Rmin_r d1 d2).
    split.
    { destruct (lt_eq_lt_dec i j) as [[Hij|Hij]|Hij]; [|left; exact Hij|].
      - right. destruct Hlo as [ -> |Hlo]; [lia|]. destruct Hhi' as [Hhi'|Hhi']; [lia|].
        pose proof (sorted_le_at ts (S i) j Hs' ltac:(lia)).
        assert (j = S i) as ->.
        { destruct (Nat.eq_dec j (S i)); auto. pose proof (sorted_at _ _ Hs (S i) j ltac:(lia)). lra. }
        repeat split; auto. lra.
      - exfalso. destruct Hlo' as [ -> |Hlo']; [lia|]. destruct Hhi as [Hhi|Hhi]; [lia|].
        pose proof (sorted_le_at ts (S j) i Hs' ltac:(lia)). lra. }
    split.
    - intros s Hs1. apply Hft. split; [exact Hi'|]. split; cbn.
      + destruct Hl1; [auto|right; lra].
      + destruct Hhi'; [auto|right; lra].
    - intros s Hs1. apply Hff. split; [exact Hj'|]. split; cbn.
      + destruct Hlo; [auto|right; lra].
      + destruct Hl2; [auto|right; lra].
  Qed.

  Lemma pieces_continuous f left : meet p -> by_pieces p f left ->
    (forall j x, continuity_pt (p j) x) -> continuity f.
  Proof.
    intros Hm Hf Hc t. destruct (local_pieces f left t Hm Hf) as (i & j & d & Hd & Hi & Hj & Hij & Hl1 & Hr1).
    assert (Et : p i t = p j t).
    { destruct Hij as [ -> |(-> & -> & Hn)]; [reflexivity|apply Hm; exact Hn]. }
    assert (Ft : f t = p i t) by (apply Hl1; lra).
    intros e He. destruct (Hc i t e He) as (d1 & Hd1 & H1). destruct (Hc j t e He) as (d2 & Hd2 & H2).
    exists (Rmin d (Rmin d1 d2)). split; [repeat apply Rmin_pos; assumption|].
    intros s (Hds & Hs1). unfold dist in *. cbn in *. unfold R_dist in *.
    pose proof (Rmin_l d (Rmin d1 d2)). pose proof (Rmin_r d (Rmin d1 d2)).
    pose proof (Rmin_l d1 d2). pose proof (Rmin_r d1 d2).
    apply Rabs_def2 in Hs1 as Hs2.
    destruct (Rle_dec s t) as [Hle|Hnle].
    - rewrite (Hl1 s) by lra. rewrite Ft. apply H1. split; [exact Hds|]. lra.
    - rewrite (Hr1 s) by lra. rewrite Ft, Et. apply H2. split; [exact Hds|]. lra.
  Qed.

  Lemma pieces_derivable f g q left :
    meet p -> meet q -> by_pieces p f left -> by_pieces q g left ->
    (forall j x, derivable_pt_lim (p j) x (q j x)) -> forall t, derivable_pt_lim f t (g t).
  Proof.
    intros Hm Hmq Hf Hg Hc t. destruct (local_pieces f left t Hm Hf) as (i & j & d & Hd & Hi & Hj & Hij & Hl1 & Hr1).
    assert (Et : p i t = p j t).
    { destruct Hij as [ -> |(-> & -> & Hn)]; [reflexivity|apply Hm; exact Hn]. }
    assert (Eq : q i t = q j t).
    { destruct Hij as [ -> |(-> & -> & Hn)]; [reflexivity|apply Hmq; exact Hn]. }
    assert (Gt : g t = q i t) by (destruct left; [apply Hg; exact Hi|rewrite Eq; apply Hg; exact Hj]).
    assert (Ft : f t = p i t) by (apply Hl1; lra).
    intros e He. destruct (Hc i t e He) as (d1 & H1). destruct (Hc j t e He) as (d2 & H2).
    assert (Hdd : 0 < Rmin d (Rmin d1 d2)).
    { repeat apply Rmin_pos; [exact Hd|apply cond_pos|apply cond_pos]. }
    exists (mkposreal _ Hdd). cbn. intros h Hh0 Hh.
    pose proof (Rmin_l d (Rmin d1 d2)). pose proof (Rmin_r d (Rmin d1 d2)).
    pose proof (Rmin_l d1 d2). pose proof (Rmin_r d1 d2). apply Rabs_def2 in Hh as Hh2.
    rewrite Gt. destruct (Rle_dec h 0) as [Hle|Hnle].
    - rewrite (Hl1 (t + h)) by lra. rewrite Ft. apply H1; [exact Hh0|lra].
    - rewrite (Hr1 (t + h)) by lra. rewrite Ft, Et, Eq. apply H2; [exact Hh0|lra].
  Qed.
End Pieces.

Lemma line_deriv t0 y0 t1 y1 x : derivable_pt_lim (line t0 y0 t1 y1) x (slope t0 y0 t1 y1).
Proof.
  apply (deriv_ext (poly [y0 - (y1 - y0) * (t0 / (t1 - t0)); slope t0 y0 t1 y1])).
  { intros t. unfold line, slope, poly, Rdiv. ring. }
  replace (slope t0 y0 t1 y1) with (dpoly [y0 - (y1 - y0) * (t0 / (t1 - t0)); slope t0 y0 t1 y1] x) at 2
    by (cbn; ring).
  apply poly_deriv.
Qed.

(** LinearInterpolation is a continuous function, differentiable inside the intervals, and the
    reported derivative is its derivative. *)
Lemma pf_C39_continuous (ts vs : list R) (left : bool) :
  StronglySorted Rlt ts -> (2 <= length ts)%nat -> length vs = length ts ->
  exists f, (forall t, linear_evaluate ts (map Some vs) t left = Some (f t)) /\ continuity f /\
    forall t d, (forall i, (i < length ts)%nat -> t <> at_ ts i) ->
      linear_derivative ts (map Some vs) t left = Some d -> derivable_pt_lim f t d.
Proof.
  intros Hs Hl Hlen. set (P := fun j => line (at_ ts j) (at_ vs j) (at_ ts (S j)) (at_ vs (S j))).
  set (f := fun t => match linear_evaluate ts (map Some vs) t left with Some v => v | None => 0 end).
  assert (E : forall t j, brackets ts left t j -> linear_evaluate ts (map Some vs) t left = Some (P j t) /\
     linear_derivative ts (map Some vs) t left = Some (slope (at_ ts j) (at_ vs j) (at_ ts (S j)) (at_ vs (S j)))).
  { intros t j Hb. pose proof Hb as (Hj & _ & _).
    apply linear_at; [apply lt_le_sorted; exact Hs|exact Hb|apply observed_all; lia|apply observed_all; lia]. }
  assert (Hf : by_pieces ts P f left).
  { intros t j Hb. unfold f. rewrite (proj1 (E t j Hb)). reflexivity. }
  assert (Hm : meet ts P).
  { intros j Hj. unfold P, line. pose proof (sorted_at _ _ Hs j (S j) ltac:(lia)).
    pose proof (sorted_at _ _ Hs (S j) (S (S j)) ltac:(lia)). field. lra. }
  exists f. split; [|split].
  - intros t. destruct (brackets_exists ts left t Hl) as [j Hj]. rewrite (Hf t j Hj). apply E. exact Hj.
  - apply (pieces_continuous ts P Hs Hl f left Hm Hf).
    intros j x. apply derivable_continuous_pt. eexists. apply line_deriv.
  - intros t d Ht Hd. destruct (local_pieces ts P Hs Hl f left t Hm Hf)
      as (i & j & dd & Hdd & Hi & Hj & Hij & Hl1 & Hr1).
    destruct Hij as [ -> |(_ & Htt & Hn)]; [|exfalso; apply (Ht (S i) ltac:(lia) Htt)].
    assert (d = slope (at_ ts j) (at_ vs j) (at_ ts (S j)) (at_ vs (S j))) as ->.
    { assert (Hb : brackets ts left t j) by (destruct left; assumption).
      rewrite (proj2 (E t j Hb)) in Hd. congruence. }
    intros e He. destruct (line_deriv (at_ ts j) (at_ vs j) (at_ ts (S j)) (at_ vs (S j)) t e He) as (d1 & H1).
    assert (Hp : 0 < Rmin dd d1) by (apply Rmin_pos; [exact Hdd|apply cond_pos]).
    exists (mkposreal _ Hp). cbn. intros h Hh0 Hh.
    pose proof (Rmin_l dd d1). pose proof (Rmin_r dd d1). apply Rabs_def2 in Hh as Hh2.
    rewrite (Hl1 t) by lra.
    replace (f (t + h)) with (P j (t + h)).
    + apply H1; [exact Hh0|lra].
    + symmetry. destruct (Rle_dec h 0); [apply Hl1|apply Hr1]; lra.
Qed.

Lemma pf_C39_increments (ts vs : list R) (left : bool) (a b c : R) :
  StronglySorted Rlt ts -> (2 <= length ts)%nat -> length vs = length ts ->
  exists ab bc, linear_increment ts (map Some vs) a b left = Some ab /\
    linear_increment ts (map Some vs) b c left = Some bc /\
    linear_increment ts (map Some vs) a c left = Some (ab + bc).
Proof.
  intros Hs Hl Hlen. destruct (pf_C39_continuous ts vs left Hs Hl Hlen) as (f & Hf & _).
  exists (f b - f a), (f c - f b). unfold linear_increment. rewrite !Hf. cbn. repeat split.
  f_equal. ring.
Qed.
