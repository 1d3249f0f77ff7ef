(** Proofs about the derivative of dense output. *)
From Coq Require Import ZArith Reals List Bool Arith Lia Lra Sorting.Sorted FunctionalExtensionality.
From Verif Require Import Model_Loop Model_Dense Proof_LoopBasic Proof_Dense Model_DenseDeriv Spec_DenseDeriv.
Import ListNotations.
Open Scope R_scope.

Lemma sorted_lt (l : list R) : StronglySorted Rlt l -> forall i j x y,
  (i < j)%nat -> nth_error l i = Some x -> nth_error l j = Some y -> x < y.
Proof.
  induction 1 as [|a l Hl IH Hf]; intros i j x y Hij Hi Hj; [destruct i; discriminate|].
  destruct i as [|i], j as [|j]; cbn in *; try lia.
  - injection Hi as <-. rewrite Forall_forall in Hf. apply Hf. eapply nth_error_In; eauto.
  - eapply IH; [|eauto|eauto]. lia.
Qed.
Lemma sorted_le (l : list R) : StronglySorted Rlt l -> forall i j x y,
  (i <= j)%nat -> nth_error l i = Some x -> nth_error l j = Some y -> x <= y.
Proof.
  intros S i j x y Hij Hi Hj. destruct (Nat.eq_dec i j) as [->|N]; [rewrite Hi in Hj; injection Hj as ->; lra|].
  left. eapply sorted_lt; [exact S| |exact Hi|exact Hj]. lia.
Qed.
Lemma xltb_true a b : a < b -> xreal_ltb (XFin a) (XFin b) = true.
Proof. intros H. cbn. destruct (Rlt_dec a b); [reflexivity|lra]. Qed.
Lemma xltb_false a b : b <= a -> xreal_ltb (XFin a) (XFin b) = false.
Proof. intros H. cbn. destruct (Rlt_dec a b); [lra|reflexivity]. Qed.

(** When the step between the knots [j] and [j + 1] is used. *)
Definition selects (ks : list R) (left : bool) (t : R) (j : nat) (prev next : R) : Prop :=
  if left then (prev < t \/ (j = 0%nat /\ prev <= t)) /\ t <= next
  else prev <= t /\ (t < next \/ (S (S j) = length ks /\ t <= next)).

Section Deriv.
  Context {DI : Type}.
  Notation dense := (dense_real DI).

  Lemma rknot_nth (ks : list R) p i k : nth_error ks i = Some k -> nth_error (map XFin ks ++ repeat XInf p) i = Some (XFin k).
  Proof.
    intros H. rewrite nth_error_app1; [rewrite nth_error_map, H; reflexivity|]. rewrite map_length. apply nth_error_Some. congruence.
  Qed.
  Lemma rknot_inv (ks : list R) p i x : nth_error (map XFin ks ++ repeat XInf p) i = Some x ->
    (exists k, nth_error ks i = Some k /\ x = XFin k) \/ ((length ks <= i)%nat /\ x = XInf).
  Proof.
    intros H. destruct (Nat.lt_ge_cases i (length ks)) as [Hi|Hi].
    - left. destruct (nth_error ks i) as [k|] eqn:Hk; [|apply nth_error_None in Hk; lia].
      exists k. split; [reflexivity|]. rewrite (rknot_nth ks p i k Hk) in H. congruence.
    - right. split; [exact Hi|]. rewrite nth_error_app2 in H by (rewrite map_length; exact Hi).
      apply nth_error_In, repeat_spec in H. exact H.
  Qed.

  Lemma rinterpret_char (ks : list R) p (t : R) (left : bool) j prev next :
    StronglySorted Rlt ks -> nth_error ks j = Some prev -> nth_error ks (S j) = Some next ->
    selects ks left t j prev next ->
    interpret_t xreal_ltb (map XFin ks ++ repeat XInf p) (length ks) (XFin t) left = Z.of_nat j.
  Proof.
    intros Hs Hp Hn Hsel. unfold selects in Hsel. unfold interpret_t.
    assert (Hj : (S j < length ks)%nat) by (apply nth_error_Some; congruence).
    assert (HL : (length ks <= length (map XFin ks ++ repeat XInf p))%nat) by (rewrite app_length, map_length; lia).
    assert (C : exists n, searchsorted xreal_ltb (map XFin ks ++ repeat XInf p) (XFin t) left = n /\
       (n = S j \/ (n = 0%nat /\ j = 0%nat) \/ (S (S j) = length ks /\ n = S (S j)))).
    { destruct left.
      - destruct Hsel as ([Hlt|(-> & Hle)] & Hub).
        + exists (S j). split; [|left; reflexivity]. apply searchsorted_char; [lia| |].
          * intros i x Hi Hx. apply rknot_inv in Hx as [(k & Hk & ->)|(Hl & ->)]; [|lia]. apply xltb_true.
            pose proof (sorted_le ks Hs i j k prev ltac:(lia) Hk Hp). lra.
          * intros x Hx. rewrite (rknot_nth ks p _ _ Hn) in Hx. injection Hx as <-. apply xltb_false. lra.
        + destruct (Rlt_le_dec prev t) as [Hlt|Hge].
          * exists 1%nat. split; [|left; reflexivity]. apply searchsorted_char; [lia| |].
            -- intros i x Hi Hx. replace i with 0%nat in Hx by lia. rewrite (rknot_nth ks p _ _ Hp) in Hx. injection Hx as <-. apply xltb_true, Hlt.
            -- intros x Hx. rewrite (rknot_nth ks p _ _ Hn) in Hx. injection Hx as <-. apply xltb_false. lra.
          * exists 0%nat. split; [|right; left; split; reflexivity]. apply searchsorted_char; [lia|intros; lia|].
            intros x Hx. rewrite (rknot_nth ks p _ _ Hp) in Hx. injection Hx as <-. apply xltb_false. lra.
      - destruct Hsel as (Hle & Hub).
        assert (A : forall i x, (i < S j)%nat -> nth_error (map XFin ks ++ repeat XInf p) i = Some x -> negb (xreal_ltb (XFin t) x) = true).
        { intros i x Hi Hx. apply rknot_inv in Hx as [(k & Hk & ->)|(Hl & ->)]; [|lia]. rewrite xltb_false; [reflexivity|].
          pose proof (sorted_le ks Hs i j k prev ltac:(lia) Hk Hp). lra. }
        destruct (Rlt_le_dec t next) as [Hlt|Hge].
        + exists (S j). split; [|left; reflexivity]. apply searchsorted_char; [lia|exact A|].
          intros x Hx. rewrite (rknot_nth ks p _ _ Hn) in Hx. injection Hx as <-. rewrite xltb_true by exact Hlt. reflexivity.
        + destruct Hub as [Hlt|(HE & Hub)]; [lra|]. exists (S (S j)). split; [|right; right; split; [exact HE|reflexivity]].
          apply searchsorted_char; [lia| |].
          * intros i x Hi Hx. destruct (Nat.eq_dec i (S j)) as [->|Hne]; [|apply (A i x); [lia|exact Hx]].
            rewrite (rknot_nth ks p _ _ Hn) in Hx. injection Hx as <-. rewrite xltb_false by lra. reflexivity.
          * intros x Hx. apply rknot_inv in Hx as [(k & Hk & _)|(_ & ->)]; [|reflexivity].
            assert (S (S j) < length ks)%nat by (apply nth_error_Some; congruence). lia. }
    destruct C as (n & -> & [->|[(-> & ->)|(HE & ->)]]); lia.
  Qed.

  Lemma rbounds_char (d : dense) ks dis t k0 k1 : real_knots d ks dis -> (2 <= length ks)%nat ->
    nth_error ks 0 = Some k0 -> nth_error ks (length ks - 1) = Some k1 ->
    dr_out_of_bounds d t = xreal_ltb (XFin t) (XFin k0) || xreal_ltb (XFin k1) (XFin t).
  Proof.
    intros ((p & Hts & _) & Hsz & Hl & Hs & _) Hlen H0 H1. unfold dr_out_of_bounds. rewrite Hsz, Hts.
    destruct (Nat.leb_spec (length ks) 1); [lia|]. cbn [orb].
    change 0%Z with (Z.of_nat 0). rewrite (get_wrap_nat _ 0 _ (rknot_nth ks p 0 k0 H0)).
    replace (Z.of_nat (length ks) - 1)%Z with (Z.of_nat (length ks - 1)) by lia.
    rewrite (get_wrap_nat _ _ _ (rknot_nth ks p _ k1 H1)). reflexivity.
  Qed.

  Lemma ends_exist (ks : list R) j prev next : nth_error ks j = Some prev -> nth_error ks (S j) = Some next ->
    exists k0 k1, nth_error ks 0 = Some k0 /\ nth_error ks (length ks - 1) = Some k1.
  Proof.
    intros Hp Hn. assert (Hj : (S j < length ks)%nat) by (apply nth_error_Some; congruence).
    destruct (nth_error ks 0) as [k0|] eqn:E0; [|apply nth_error_None in E0; lia].
    destruct (nth_error ks (length ks - 1)) as [k1|] eqn:E1; [|apply nth_error_None in E1; lia]. eauto.
  Qed.

  (** What is returned when a step is selected *)
  Lemma selected (d : dense) ks dis t left j prev next info : real_knots d ks dis ->
    nth_error ks j = Some prev -> nth_error ks (S j) = Some next -> nth_error dis j = Some info ->
    selects ks left (t * dr_direction d) j prev next ->
    dr_evaluate d t left = Some (dr_cls d prev next info (t * dr_direction d)) /\
    dr_derivative d t left = Some (dr_direction d * dr_slope d prev next info (t * dr_direction d)).
  Proof.
    intros Hk Hp Hn Hi Hsel. set (u := t * dr_direction d) in *.
    assert (Hj : (S j < length ks)%nat) by (apply nth_error_Some; congruence).
    destruct (ends_exist ks j prev next Hp Hn) as (k0 & k1 & H0 & H1).
    pose proof Hk as ((p & Hts & Hin) & Hsz & Hl & Hs & _).
    assert (Hb : k0 <= u <= k1).
    { pose proof (sorted_le ks Hs 0 j k0 prev ltac:(lia) H0 Hp). pose proof (sorted_le ks Hs (S j) (length ks - 1) next k1 ltac:(lia) Hn H1).
      unfold selects in Hsel. destruct left; lra. }
    assert (OB : dr_out_of_bounds d u = false).
    { rewrite (rbounds_char d ks dis u k0 k1 Hk ltac:(lia) H0 H1), !xltb_false by lra. reflexivity. }
    assert (LO : dr_local d u left = Some (prev, next, info)).
    { unfold dr_local. rewrite Hts, Hsz, Hin, (rinterpret_char ks p u left j prev next Hs Hp Hn Hsel).
      rewrite (get_wrap_nat _ j _ (rknot_nth ks p j prev Hp)).
      replace (Z.of_nat j + 1)%Z with (Z.of_nat (S j)) by lia. rewrite (get_wrap_nat _ _ _ (rknot_nth ks p _ next Hn)).
      rewrite (get_wrap_nat _ j (Some info)); [reflexivity|]. rewrite nth_error_app1; [rewrite nth_error_map, Hi; reflexivity|].
      rewrite map_length. apply nth_error_Some. congruence. }
    unfold dr_evaluate, dr_derivative. fold u. rewrite OB, LO, Hsz.
    destruct (Nat.eqb_spec (length ks) 1); [lia|]. rewrite andb_false_r. split; reflexivity.
  Qed.

  (** The derivative of the local function, in the time of the user *)
  Lemma local_deriv (d : dense) ks dis prev next info t : real_knots d ks dis -> slope_is_derivative d -> prev < next ->
    derivable_pt_lim (fun u => dr_cls d prev next info (u * dr_direction d)) t (dr_direction d * dr_slope d prev next info (t * dr_direction d)).
  Proof.
    intros _ HD Hlt. rewrite Rmult_comm. apply (derivable_pt_lim_comp (fun u => u * dr_direction d) (dr_cls d prev next info)).
    - set (a := dr_direction d). assert (E : (fun u => u * a) = mult_real_fct a (fun u => u)) by (extensionality u; unfold mult_real_fct; ring).
      rewrite E. refine (eq_ind _ (derivable_pt_lim _ _) _ a (Rmult_1_r _)). apply derivable_pt_lim_scal, derivable_pt_lim_id.
    - apply HD, Hlt.
  Qed.

  Lemma info_exists (d : dense) ks dis j prev next : real_knots d ks dis -> nth_error ks j = Some prev -> nth_error ks (S j) = Some next ->
    exists info, nth_error dis j = Some info.
  Proof.
    intros (_ & _ & Hl & _) _ Hn. assert (S j < length ks)%nat by (apply nth_error_Some; congruence).
    destruct (nth_error dis j) as [i|] eqn:E; [eauto|]. apply nth_error_None in E. lia.
  Qed.

  (** C68: strictly inside a step *)
  Lemma pf_C68_inside (d : dense) (ks : list R) (dis : list DI) (left : bool) (t : R) (j : nat) (prev next : R) :
    real_knots d ks dis -> slope_is_derivative d ->
    nth_error ks j = Some prev -> nth_error ks (S j) = Some next -> prev < t * dr_direction d < next ->
    exists l, dr_derivative d t left = Some l /\ path_derivative (fun u => dr_evaluate d u left) t l.
  Proof.
    intros Hk HD Hp Hn Ht. destruct (info_exists d ks dis j prev next Hk Hp Hn) as (info & Hi).
    assert (X : forall u, prev < u * dr_direction d < next -> selects ks left (u * dr_direction d) j prev next)
      by (intros u Hu; unfold selects; destruct left; lra).
    exists (dr_direction d * dr_slope d prev next info (t * dr_direction d)).
    split; [apply (selected d ks dis t left j prev next info Hk Hp Hn Hi (X t Ht))|].
    exists (Rmin (t * dr_direction d - prev) (next - t * dr_direction d)), (fun u => dr_cls d prev next info (u * dr_direction d)).
    split; [apply Rmin_pos; lra|]. split.
    - intros u Hu. apply (selected d ks dis u left j prev next info Hk Hp Hn Hi), X.
      pose proof (Rmin_l (t * dr_direction d - prev) (next - t * dr_direction d)). pose proof (Rmin_r (t * dr_direction d - prev) (next - t * dr_direction d)).
      destruct Hk as (_ & _ & _ & _ & [E|E]); rewrite E in *; apply Rabs_def2 in Hu; lra.
    - apply (local_deriv d ks dis); try assumption. lra.
  Qed.

  (** One side of a time at which a step is selected *)
  Lemma before (d : dense) ks dis t j prev next info left : real_knots d ks dis -> slope_is_derivative d ->
    nth_error ks j = Some prev -> nth_error ks (S j) = Some next -> nth_error dis j = Some info ->
    prev < t * dr_direction d <= next -> selects ks left (t * dr_direction d) j prev next ->
    exists l, dr_derivative d t left = Some l /\
      (dr_direction d = 1 -> left_derivative (fun u => dr_evaluate d u left) t l) /\
      (dr_direction d = -1 -> right_derivative (fun u => dr_evaluate d u left) t l).
  Proof.
    intros Hk HD Hp Hn Hi Ht HS. exists (dr_direction d * dr_slope d prev next info (t * dr_direction d)).
    split; [apply (selected d ks dis t left j prev next info Hk Hp Hn Hi HS)|].
    assert (X : forall u, prev < u * dr_direction d <= t * dr_direction d -> dr_evaluate d u left = Some (dr_cls d prev next info (u * dr_direction d))).
    { intros u Hu. apply (selected d ks dis u left j prev next info Hk Hp Hn Hi). unfold selects in *. destruct left; [split; [left|]; lra|].
      split; [lra|]. destruct HS as (_ & [Hlt|(Z & Hle)]); [left; lra|right; split; [exact Z|lra]]. }
    pose proof (local_deriv d ks dis prev next info t Hk HD ltac:(lra)) as LD.
    split; intros E; exists (t * dr_direction d - prev), (fun u => dr_cls d prev next info (u * dr_direction d));
      (split; [lra|]); (split; [|exact LD]); intros u Hu; apply X; rewrite E in *; lra.
  Qed.
  Lemma after (d : dense) ks dis t j prev next info left : real_knots d ks dis -> slope_is_derivative d ->
    nth_error ks j = Some prev -> nth_error ks (S j) = Some next -> nth_error dis j = Some info ->
    prev <= t * dr_direction d < next -> selects ks left (t * dr_direction d) j prev next ->
    exists l, dr_derivative d t left = Some l /\
      (dr_direction d = 1 -> right_derivative (fun u => dr_evaluate d u left) t l) /\
      (dr_direction d = -1 -> left_derivative (fun u => dr_evaluate d u left) t l).
  Proof.
    intros Hk HD Hp Hn Hi Ht HS. exists (dr_direction d * dr_slope d prev next info (t * dr_direction d)).
    split; [apply (selected d ks dis t left j prev next info Hk Hp Hn Hi HS)|].
    assert (X : forall u, t * dr_direction d <= u * dr_direction d < next -> dr_evaluate d u left = Some (dr_cls d prev next info (u * dr_direction d))).
    { intros u Hu. apply (selected d ks dis u left j prev next info Hk Hp Hn Hi). unfold selects in *. destruct left; [|split; [lra|left; lra]].
      split; [|lra]. destruct HS as ([Hlt|(Z & Hle)] & Hub); [left; lra|]. destruct (Rlt_le_dec prev (u * dr_direction d)); [left; assumption|right; split; [exact Z|lra]]. }
    pose proof (local_deriv d ks dis prev next info t Hk HD ltac:(lra)) as LD.
    split; intros E; exists (next - t * dr_direction d), (fun u => dr_cls d prev next info (u * dr_direction d));
      (split; [lra|]); (split; [|exact LD]); intros u Hu; apply X; rewrite E in *; lra.
  Qed.

  (** Which step is selected *)
  Lemma find_left (ks : list R) t k0 k1 : StronglySorted Rlt ks -> (2 <= length ks)%nat ->
    nth_error ks 0 = Some k0 -> nth_error ks (length ks - 1) = Some k1 -> k0 < t <= k1 ->
    exists j prev next, nth_error ks j = Some prev /\ nth_error ks (S j) = Some next /\ prev < t <= next.
  Proof.
    intros Hs Hl H0 H1 Ht.
    assert (G : forall n k, nth_error ks n = Some k -> t <= k -> exists j prev next, nth_error ks j = Some prev /\ nth_error ks (S j) = Some next /\ prev < t <= next).
    { induction n as [|n IH]; intros k Hn Hk; [rewrite H0 in Hn; injection Hn as <-; lra|].
      destruct (nth_error ks n) as [k'|] eqn:E; [|apply nth_error_None in E; assert (S n < length ks)%nat by (apply nth_error_Some; congruence); lia].
      destruct (Rlt_le_dec k' t); [exists n, k', k; auto|]. apply (IH k'); auto. }
    apply (G _ k1 H1). lra.
  Qed.
  Lemma find_right (ks : list R) t k0 k1 : StronglySorted Rlt ks -> (2 <= length ks)%nat ->
    nth_error ks 0 = Some k0 -> nth_error ks (length ks - 1) = Some k1 -> k0 <= t < k1 ->
    exists j prev next, nth_error ks j = Some prev /\ nth_error ks (S j) = Some next /\ prev <= t < next.
  Proof.
    intros Hs Hl H0 H1 Ht.
    assert (G : forall n k, nth_error ks n = Some k -> t < k -> exists j prev next, nth_error ks j = Some prev /\ nth_error ks (S j) = Some next /\ prev <= t < next).
    { induction n as [|n IH]; intros k Hn Hk; [rewrite H0 in Hn; injection Hn as <-; lra|].
      destruct (nth_error ks n) as [k'|] eqn:E; [|apply nth_error_None in E; assert (S n < length ks)%nat by (apply nth_error_Some; congruence); lia].
      destruct (Rle_lt_dec k' t); [exists n, k', k; auto|]. apply (IH k'); auto. }
    apply (G _ k1 H1). lra.
  Qed.

  (** C68: [left=True] and [left=False], everywhere but at one end *)
  Lemma pf_C68_left (d : dense) (ks : list R) (dis : list DI) (t k0 k1 : R) :
    real_knots d ks dis -> slope_is_derivative d -> (2 <= length ks)%nat ->
    nth_error ks 0 = Some k0 -> nth_error ks (length ks - 1) = Some k1 -> k0 < t * dr_direction d <= k1 ->
    exists l, dr_derivative d t true = Some l /\
      (dr_direction d = 1 -> left_derivative (fun u => dr_evaluate d u true) t l) /\
      (dr_direction d = -1 -> right_derivative (fun u => dr_evaluate d u true) t l).
  Proof.
    intros Hk HD Hl H0 H1 Ht. pose proof Hk as (_ & _ & _ & Hs & _).
    destruct (find_left ks _ k0 k1 Hs Hl H0 H1 Ht) as (j & prev & next & Hp & Hn & Hb).
    destruct (info_exists d ks dis j prev next Hk Hp Hn) as (info & Hi).
    apply (before d ks dis t j prev next info true); auto. unfold selects. split; [left|]; lra.
  Qed.
  Lemma pf_C68_right (d : dense) (ks : list R) (dis : list DI) (t k0 k1 : R) :
    real_knots d ks dis -> slope_is_derivative d -> (2 <= length ks)%nat ->
    nth_error ks 0 = Some k0 -> nth_error ks (length ks - 1) = Some k1 -> k0 <= t * dr_direction d < k1 ->
    exists l, dr_derivative d t false = Some l /\
      (dr_direction d = 1 -> right_derivative (fun u => dr_evaluate d u false) t l) /\
      (dr_direction d = -1 -> left_derivative (fun u => dr_evaluate d u false) t l).
  Proof.
    intros Hk HD Hl H0 H1 Ht. pose proof Hk as (_ & _ & _ & Hs & _).
    destruct (find_right ks _ k0 k1 Hs Hl H0 H1 Ht) as (j & prev & next & Hp & Hn & Hb).
    destruct (info_exists d ks dis j prev next Hk Hp Hn) as (info & Hi).
    apply (after d ks dis t j prev next info false); auto. unfold selects. split; [|left]; lra.
  Qed.
  (** C68: at the ends there is only one side, whatever [left] is *)
  Lemma pf_C68_ends (d : dense) (ks : list R) (dis : list DI) (left : bool) (t k0 k1 : R) :
    real_knots d ks dis -> slope_is_derivative d -> (2 <= length ks)%nat ->
    nth_error ks 0 = Some k0 -> nth_error ks (length ks - 1) = Some k1 ->
    (t * dr_direction d = k0 -> exists l, dr_derivative d t left = Some l /\
       (dr_direction d = 1 -> right_derivative (fun u => dr_evaluate d u left) t l) /\
       (dr_direction d = -1 -> left_derivative (fun u => dr_evaluate d u left) t l)) /\
    (t * dr_direction d = k1 -> exists l, dr_derivative d t left = Some l /\
       (dr_direction d = 1 -> left_derivative (fun u => dr_evaluate d u left) t l) /\
       (dr_direction d = -1 -> right_derivative (fun u => dr_evaluate d u left) t l)).
  Proof.
    intros Hk HD Hl H0 H1. pose proof Hk as (_ & _ & _ & Hs & _). split; intros Ht.
    - destruct (nth_error ks 1) as [k|] eqn:E; [|apply nth_error_None in E; lia].
      destruct (info_exists d ks dis 0 k0 k Hk H0 E) as (info & Hi). pose proof (sorted_lt ks Hs 0 1 k0 k ltac:(lia) H0 E).
      apply (after d ks dis t 0 k0 k info left); auto; [lra|]. unfold selects. destruct left; [split; [right; split; [reflexivity|]|]; lra|split; [|left]; lra].
    - destruct (nth_error ks (length ks - 2)) as [k|] eqn:E; [|apply nth_error_None in E; lia].
      replace (length ks - 1)%nat with (S (length ks - 2)) in H1 by lia.
      destruct (info_exists d ks dis _ k k1 Hk E H1) as (info & Hi). pose proof (sorted_lt ks Hs _ _ k k1 (Nat.lt_succ_diag_r _) E H1).
      apply (before d ks dis t (length ks - 2) k k1 info left); auto; [lra|]. unfold selects.
      destruct left; [split; [left|]; lra|split; [lra|right; split; [lia|lra]]].
  Qed.

  (** C68: outside of the solve, and without any step *)
  Lemma pf_C68_outside (d : dense) (ks : list R) (dis : list DI) (left : bool) (t k0 k1 : R) :
    real_knots d ks dis -> (2 <= length ks)%nat ->
    nth_error ks 0 = Some k0 -> nth_error ks (length ks - 1) = Some k1 -> (t * dr_direction d < k0 \/ k1 < t * dr_direction d) ->
    dr_derivative d t left = None /\ dr_evaluate d t left = None.
  Proof.
    intros Hk Hl H0 H1 Ht.
    assert (OB : dr_out_of_bounds d (t * dr_direction d) = true).
    { rewrite (rbounds_char d ks dis _ k0 k1 Hk Hl H0 H1). destruct Ht as [Ht|Ht]; rewrite (xltb_true _ _ Ht); [reflexivity|apply orb_true_r]. }
    unfold dr_derivative, dr_evaluate. rewrite OB. destruct Hk as (_ & Hsz & _). rewrite Hsz.
    destruct (Nat.eqb_spec (length ks) 1); [lia|]. rewrite andb_false_r. split; reflexivity.
  Qed.
  Lemma pf_C68_trivial_refuted : exists (d : dense_real DI) (t : R) (y : R),
    real_knots d [0] [] /\ dr_evaluate d t true = Some y /\ dr_derivative d t true = None.
  Proof.
    exists (DenseReal [XFin 0] 1 [] (fun _ _ _ _ => 0) (fun _ _ _ _ => 0) 1 0 5), 0, 5.
    split; [|split].
    - split; [exists 0%nat; split; reflexivity|]. split; [reflexivity|]. split; [reflexivity|]. split; [|left; reflexivity]. repeat constructor.
    - unfold dr_evaluate. cbn. rewrite Rmult_1_r. destruct (Req_EM_T 0 0); [reflexivity|lra].
    - reflexivity.
  Qed.

  Lemma pf_C68_solution (interpolation : option dense) (t0 t1 : R) (left : bool) :
    (interpolation = None -> sol_evaluate interpolation t0 (Some t1) left = inl tt /\ sol_evaluate interpolation t0 None left = inl tt /\
       sol_derivative interpolation t0 left = inl tt) /\
    (forall y0 y1, sol_evaluate interpolation t0 None left = inr (Some y0) -> sol_evaluate interpolation t1 None left = inr (Some y1) ->
       sol_evaluate interpolation t0 (Some t1) left = inr (Some (y1 - y0))).
  Proof.
    split; [intros ->; repeat split; reflexivity|]. intros y0 y1. destruct interpolation as [d|]; cbn; [|discriminate].
    intros H0 H1. injection H0 as H0. injection H1 as H1. unfold dr_increment. rewrite H0, H1. reflexivity.
  Qed.
End Deriv.

(** C68: for backward solves [left=True] returns the limit from the right *)
Definition kink : dense_real (R * R) :=
  DenseReal [XFin 0; XFin 1; XFin 2] 3 [Some (0, 1); Some (1, 0)] (fun a _ i t => fst i + snd i * (t - a)) (fun _ _ i _ => snd i) (-1) 0 0.
Lemma kink_knots : real_knots kink [0; 1; 2] [(0, 1); (1, 0)].
Proof.
  split; [exists 0%nat; split; reflexivity|]. split; [reflexivity|]. split; [reflexivity|]. split; [|right; reflexivity].
  repeat (constructor; [|repeat (constructor; try lra)]). constructor.
Qed.
Lemma kink_slope : slope_is_derivative kink.
Proof.
  intros a b (y & k) t _. cbn.
  assert (E : (fun t => y + k * (t - a)) = (fun t => (y - k * a) + mult_real_fct k (fun u => u) t)) by (extensionality u; unfold mult_real_fct; ring).
  rewrite E. refine (eq_ind (0 + k * 1) (derivable_pt_lim _ _) _ k ltac:(ring)).
  apply (derivable_pt_lim_plus (fun _ => y - k * a) (mult_real_fct k (fun u => u))); [apply derivable_pt_lim_const|].
  apply derivable_pt_lim_scal, derivable_pt_lim_id.
Qed.
Lemma kink_value u : (-1 <= u <= 0 -> dr_evaluate kink u true = Some (- u)) /\ (-2 <= u < -1 -> dr_evaluate kink u true = Some 1).
Proof.
  split; intros Hu.
  - destruct (selected kink _ _ u true 0 0 1 (0, 1) kink_knots eq_refl eq_refl eq_refl) as (E & _).
    + unfold selects. cbn. split; [destruct (Rlt_le_dec 0 (u * -1)); [left|right; split; [reflexivity|]]; lra|lra].
    + rewrite E. cbn. f_equal. ring.
  - destruct (selected kink _ _ u true 1 1 2 (1, 0) kink_knots eq_refl eq_refl eq_refl) as (E & _).
    + unfold selects. cbn. split; [left|]; lra.
    + rewrite E. cbn. f_equal. ring.
Qed.
Lemma pf_C68_sides_refuted : exists (d : dense_real (R * R)) (ks : list R) (dis : list (R * R)) (t l l' : R),
  real_knots d ks dis /\ slope_is_derivative d /\
  dr_derivative d t true = Some l /\ left_derivative (fun u => dr_evaluate d u true) t l' /\ l <> l'.
Proof.
  exists kink, [0; 1; 2], [(0, 1); (1, 0)], (-1), (-1), 0.
  split; [exact kink_knots|]. split; [exact kink_slope|].
  destruct (selected kink _ _ (-1) true 0 0 1 (0, 1) kink_knots eq_refl eq_refl eq_refl) as (_ & E).
  { unfold selects. cbn. split; [left|]; lra. }
  split; [rewrite E; cbn; f_equal; ring|]. split; [|lra].
  exists 1, (fun _ => 1). split; [lra|]. split; [|apply derivable_pt_lim_const].
  intros u Hu. destruct (Rlt_le_dec u (-1)) as [H|H].
  - apply kink_value. lra.
  - replace u with (-1) by lra. destruct (kink_value (-1)) as (K & _). rewrite K by lra. f_equal. ring.
Qed.

