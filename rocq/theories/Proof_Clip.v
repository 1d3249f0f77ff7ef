(** Facts about the clipping controller on its own. *)
From Coq Require Import ZArith List Bool Arith Lia Sorting.Sorted Sorting.Permutation.
From Verif Require Import Model_Result Model_Loop Spec_Loop Model_Clip Spec_Clip.
Import ListNotations.
Open Scope Z_scope.

Lemma sorted_strong (l : list Z) : Sorted Z.le l -> StronglySorted Z.le l.
Proof. apply Sorted_StronglySorted. intros x y z. lia. Qed.

(** ** Sorting *)
Lemma insert_perm x l : Permutation (x :: l) (insert x l).
Proof.
  induction l as [|y l IH]; cbn; [reflexivity|].
  destruct (x <=? y); [reflexivity|].
  rewrite perm_swap. constructor. exact IH.
Qed.
Lemma insert_sorted x l : StronglySorted Z.le l -> StronglySorted Z.le (insert x l).
Proof.
  induction 1 as [|y l H IH HF]; cbn; [repeat constructor|].
  destruct (Z.leb_spec x y).
  - constructor; [constructor; assumption|]. constructor; [assumption|].
    eapply Forall_impl; [|exact HF]. cbn. intros. lia.
  - constructor; [exact IH|]. apply Forall_forall. intros z Hz.
    apply (Permutation_in _ (Permutation_sym (insert_perm x l))) in Hz. destruct Hz as [<-|Hz]; [lia|].
    rewrite Forall_forall in HF. apply HF. exact Hz.
Qed.
Lemma sort_perm l : Permutation l (sort l).
Proof.
  induction l as [|x l IH]; cbn; [reflexivity|].
  rewrite IH at 1. apply insert_perm.
Qed.
Lemma sort_sorted l : StronglySorted Z.le (sort l).
Proof. induction l as [|x l IH]; cbn; [constructor|]. apply insert_sorted. exact IH. Qed.

(** ** Construction *)
Lemma pf_C17_constructed (Y IS E : Type) (direction : Z) (inner : Z -> Z -> Y -> Y -> E -> IS -> adapt_out IS)
    (steps jumps : option (list Z)) (store : option nat) :
  let k := clip_new direction inner steps jumps store in
  Sorted Z.le (ts_of (step_ts k)) /\ Permutation (ts_of (step_ts k)) (map (fun t => direction * t) (ts_of steps)) /\
  Sorted Z.le (ts_of (jump_ts k)) /\ Permutation (ts_of (jump_ts k)) (map (fun t => direction * t) (ts_of jumps)) /\
  (step_ts k = None <-> steps = None) /\ (jump_ts k = None <-> jumps = None) /\
  controller_adapt k = inner /\ store_rejected_steps k = store.
Proof.
  assert (W : forall o : option (list Z),
    let w := option_map (fun l => sort (map (Z.mul direction) (sort l))) o in
    Sorted Z.le (ts_of w) /\ Permutation (ts_of w) (map (fun t => direction * t) (ts_of o)) /\ (w = None <-> o = None)).
  { intros [l|]; cbn.
    - split; [apply StronglySorted_Sorted, sort_sorted|]. split; [|split; discriminate].
      rewrite <- sort_perm. apply Permutation_map. symmetry. apply sort_perm.
    - split; [constructor|]. split; [constructor|]. tauto. }
  destruct (W steps) as (A1 & A2 & A3), (W jumps) as (B1 & B2 & B3). cbn in *. repeat split; auto; try apply A3; try apply B3.
Qed.

(** ** The search *)
Lemma count_le_length ts t : (searchsorted_right ts t <= length ts)%nat.
Proof.
  unfold searchsorted_right. induction ts as [|x ts IH]; cbn; [lia|].
  destruct (x <=? t); cbn; lia.
Qed.
Lemma count_spec ts t : StronglySorted Z.le ts ->
  forall i x, nth_error ts i = Some x -> ((i < searchsorted_right ts t)%nat <-> x <= t).
Proof.
  unfold searchsorted_right.
  induction 1 as [|y ts H IH HF]; intros i x Hx; [destruct i; discriminate|].
  destruct i as [|i]; cbn in *.
  - injection Hx as ->. destruct (Z.leb_spec x t); cbn [length].
    + split; [auto|intros; lia].
    + split; [|lia]. intros Hl. exfalso.
      assert (Hf : filter (fun z => z <=? t) ts = []).
      { clear - HF H0. induction HF as [|z ts Hz HF IH]; cbn; [reflexivity|].
        destruct (Z.leb_spec z t); [lia|exact IH]. }
      rewrite Hf in Hl. cbn in Hl. lia.
  - destruct (Z.leb_spec y t); cbn [length].
    + rewrite <- (IH i x Hx). lia.
    + assert (Hf : filter (fun z => z <=? t) ts = []).
      { clear - HF H0. induction HF as [|z ts Hz HF IH]; cbn; [reflexivity|].
        destruct (Z.leb_spec z t); [lia|exact IH]. }
      rewrite Hf. cbn. split; [lia|]. intros Hxt.
      rewrite Forall_forall in HF. specialize (HF x (nth_error_In _ _ Hx)). lia.
Qed.

Lemma search_up_spec ts t : StronglySorted Z.le ts ->
  forall fuel i, (i <= length ts)%nat -> (length ts <= i + fuel)%nat ->
  search_up fuel t ts i = Nat.max i (searchsorted_right ts t).
Proof.
  intros Hs. pose proof (count_spec ts t Hs) as Hc. pose proof (count_le_length ts t) as Hl.
  induction fuel as [|fuel IH]; intros i Hi Hf; cbn.
  - lia.
  - destruct (nth_error ts i) as [x|] eqn:Hx.
    + specialize (Hc _ _ Hx). assert (Hi' : (i < length ts)%nat) by (apply nth_error_Some; congruence).
      destruct (Z.leb_spec x t).
      * rewrite IH by lia. lia.
      * lia.
    + apply nth_error_None in Hx. lia.
Qed.
Lemma search_down_spec ts t : StronglySorted Z.le ts ->
  forall i, (i <= length ts)%nat -> search_down t ts i = Nat.min i (searchsorted_right ts t).
Proof.
  intros Hs. pose proof (count_spec ts t Hs) as Hc.
  induction i as [|i IH]; intros Hi; cbn [search_down]; [reflexivity|].
  unfold get_clamp. rewrite Nat.min_l by lia.
  destruct (nth_error ts i) as [x|] eqn:Hx.
  - specialize (Hc _ _ Hx). destruct (Z.ltb_spec t x).
    + rewrite IH by lia. lia.
    + lia.
  - apply nth_error_None in Hx. lia.
Qed.

(** C19: the result of the search does not depend on the hint. *)
Lemma pf_C19_hint_irrelevant (t : Z) (ts : list Z) (hint : nat) :
  Sorted Z.le ts -> (hint <= length ts)%nat ->
  let i := find_idx_with_hint t ts hint in
  (i <= length ts)%nat /\
  (forall j x, nth_error ts j = Some x -> ((j < i)%nat <-> x <= t)).
Proof.
  intros Hs Hh i. apply sorted_strong in Hs.
  assert (Hi : i = searchsorted_right ts t).
  { subst i. unfold find_idx_with_hint. rewrite search_up_spec by (auto; lia).
    pose proof (count_le_length ts t).
    rewrite search_down_spec by (auto; lia). lia. }
  rewrite Hi. split; [apply count_le_length|]. apply count_spec. exact Hs.
Qed.

Lemma find_idx_eq t ts hint : StronglySorted Z.le ts -> (hint <= length ts)%nat ->
  find_idx_with_hint t ts hint = searchsorted_right ts t.
Proof.
  intros Hs Hh. unfold find_idx_with_hint. rewrite search_up_spec by (auto; lia).
  pose proof (count_le_length ts t).
  rewrite search_down_spec by (auto; lia). lia.
Qed.

(** The first element after [t]. *)
Lemma get_t_after ts t : StronglySorted Z.le ts ->
  match get_t (searchsorted_right ts t) ts with
  | Some x => In x ts /\ t < x /\ forall z, In z ts -> t < z -> x <= z
  | None => forall z, In z ts -> z <= t
  end.
Proof.
  intros Hs. pose proof (count_spec ts t Hs) as Hc. pose proof (count_le_length ts t) as Hl.
  unfold get_t. destruct (Nat.eqb_spec (searchsorted_right ts t) (length ts)) as [He|Hne].
  - intros z Hz. destruct (In_nth_error _ _ Hz) as [j Hj]. apply (Hc _ _ Hj).
    rewrite He. apply nth_error_Some. congruence.
  - rewrite Nat.min_l by lia. destruct (nth_error ts _) as [x|] eqn:Hx.
    + split; [eapply nth_error_In; eauto|].
      pose proof (Hc _ _ Hx) as Hcx. split; [lia|].
      intros z Hz Htz. destruct (In_nth_error _ _ Hz) as [j Hj]. pose proof (Hc _ _ Hj) as Hcj.
      assert (Hjm : (searchsorted_right ts t <= j)%nat) by lia.
      clear - Hs Hx Hj Hjm. revert Hx Hj Hjm. generalize (searchsorted_right ts t) as i.
      intros i. revert i j. induction Hs as [|y ts H IH HF]; intros [|i] [|j] Hi Hj Hij; cbn in *;
        try discriminate; try lia.
      * assert (x = z) by congruence. lia.
      * injection Hi as ->. rewrite Forall_forall in HF. apply HF. eapply nth_error_In; eauto.
      * eapply IH; eauto. lia.
    + apply nth_error_None in Hx. lia.
Qed.

(** ** Bumping *)
Lemma existsb_eqb t ts : existsb (Z.eqb t) ts = true <-> In t ts.
Proof.
  rewrite existsb_exists. split.
  - intros (x & Hx & He). apply Z.eqb_eq in He. congruence.
  - intros H. exists t. split; [exact H|apply Z.eqb_refl].
Qed.
Lemma bump_cases t ts :
  let r := bump_next_t0 t ts in
  (In t ts /\ r = (t + 1, true)) \/
  (~ In t ts /\ In (t + 1) ts /\ r = (t + 2, true)) \/
  (~ In t ts /\ ~ In (t + 1) ts /\ r = (t, false)).
Proof.
  unfold bump_next_t0, nextafter. cbn zeta.
  destruct (existsb (Z.eqb t) ts) eqn:H1.
  - left. split; [apply existsb_eqb; exact H1|]. rewrite orb_true_r. reflexivity.
  - assert (~ In t ts) by (rewrite <- existsb_eqb; congruence). right.
    destruct (existsb (Z.eqb (t + 1)) ts) eqn:H2.
    + left. split; [assumption|]. split; [apply existsb_eqb; exact H2|].
      cbn. f_equal. lia.
    + right. split; [assumption|]. split; [rewrite <- existsb_eqb; congruence|]. reflexivity.
Qed.
Lemma bump_range t ts : t <= fst (bump_next_t0 t ts) <= t + 2.
Proof.
  destruct (bump_cases t ts) as [[_ H]|[[_ [_ H]]|[_ [_ H]]]]; cbn zeta in H; rewrite H; cbn; lia.
Qed.

(** ** The three parts of [adapt_step_size] *)
Lemma adapt_steps_spec n0 n1 i ts : StronglySorted Z.le ts -> (i <= length ts)%nat ->
  exists i' n1', adapt_steps n0 n1 (Some (i, ts)) = (n1', Some (i', ts)) /\
    (i' <= length ts)%nat /\ n1' <= n1 /\ (n0 <= n1 -> n0 <= n1') /\
    (forall x, In x ts -> n0 + 2 < x -> n1' <= x) /\
    (forall x, In x ts -> n0 < x -> ~ In n0 ts -> ~ In (n0 + 1) ts -> n1' <= x).
Proof.
  intros Hs Hi. cbn [adapt_steps]. pose proof (bump_cases n0 ts) as Hb. cbn zeta in Hb.
  pose proof (bump_range n0 ts) as Hr.
  destruct (bump_next_t0 n0 ts) as [b f]. cbn [fst] in Hr.
  rewrite (find_idx_eq _ _ _ Hs Hi). pose proof (get_t_after ts b Hs) as Hg.
  do 2 eexists. split; [reflexivity|]. split; [apply count_le_length|].
  unfold clip_t, min_opt. destruct (get_t _ ts) as [x|].
  - destruct Hg as (G1 & G2 & G3). split; [lia|]. split; [lia|].
    split; [intros z Hz Hlt; specialize (G3 z Hz); lia|].
    intros z Hz Hlt N1 N2. destruct Hb as [[B _]|[[_ [B _]]|[_ [_ B]]]]; try tauto.
    injection B as -> ->. specialize (G3 z Hz). lia.
  - split; [lia|]. split; [lia|]. split; [intros z Hz; specialize (Hg z Hz); lia|].
    intros z Hz Hlt N1 N2. destruct Hb as [[B _]|[[_ [B _]]|[_ [_ B]]]]; try tauto.
    injection B as -> ->. specialize (Hg z Hz). lia.
Qed.

Lemma adapt_jumps_spec n0 n1 mj i ts : StronglySorted Z.le ts -> (i <= length ts)%nat ->
  exists i' n0' n1' f, adapt_jumps n0 n1 mj (Some (i, ts)) = (n0', n1', mj || f, Some (i', ts)) /\
    (n0', f) = bump_next_t0 n0 ts /\
    (i' <= length ts)%nat /\ n0' <= n1' /\ (n1' <= n1 \/ n1' <= n0' + 1) /\
    (forall j, In j ts -> n0' < j -> n1' < j).
Proof.
  intros Hs Hi. cbn [adapt_jumps]. destruct (bump_next_t0 n0 ts) as [b f].
  rewrite (find_idx_eq _ _ _ Hs Hi). pose proof (get_t_after ts b Hs) as Hg.
  do 4 eexists. split; [reflexivity|]. split; [reflexivity|]. split; [apply count_le_length|].
  unfold clip_t, min_opt, nextafter, prevbefore, option_map. destruct (get_t _ ts) as [x|].
  - destruct Hg as (G1 & G2 & G3). split; [lia|]. split; [lia|].
    intros j Hj Hlt. specialize (G3 j Hj Hlt). lia.
  - split; [lia|]. split; [lia|]. intros j Hj Hlt. specialize (Hg j Hj). lia.
Qed.

(** Pending rejected times. *)
Definition pending (ri : option (Z * list Z)) : list Z :=
  match ri with
  | Some (i, ts) => if i <? 0 then [] else skipn (Z.to_nat i) ts
  | None => []
  end.
Definition reject_wf (ri : option (Z * list Z)) : Prop :=
  match ri with
  | Some (i, ts) => 0 <= i <= Z.of_nat (length ts) /\ (0 < length ts)%nat
  | None => True
  end.

Lemma at_set_len {A} (l : list A) k v : length (at_set l k v) = length l.
Proof. revert k. induction l as [|a l IH]; intros [|k]; cbn; auto. Qed.
Lemma at_set_nth {A} (l : list A) k v : (k < length l)%nat -> nth_error (at_set l k v) k = Some v.
Proof. revert k. induction l as [|a l IH]; intros [|k]; cbn; intros H; auto; try lia. apply IH. lia. Qed.
Lemma at_set_skipn {A} (l : list A) k v : (k < length l)%nat ->
  skipn k (at_set l k v) = v :: skipn (S k) l.
Proof.
  revert k. induction l as [|a l IH]; intros [|k] H; cbn in *; try lia; auto. rewrite IH by lia. reflexivity.
Qed.
Lemma at_set_same {A} (l : list A) k v : nth_error l k = Some v -> at_set l k v = l.
Proof.
  revert k. induction l as [|a l IH]; intros [|k]; cbn; intros H; auto; [congruence|]. f_equal. auto.
Qed.
Lemma at_set_past {A} (l : list A) k v : (length l <= k)%nat -> at_set l k v = l.
Proof. revert k. induction l as [|a l IH]; intros [|k]; cbn; intros H; auto; [lia|]. f_equal. apply IH. lia. Qed.

Lemma get_tz_pending i ts : 0 <= i <= Z.of_nat (length ts) ->
  get_tz i ts = hd_error (pending (Some (i, ts))).
Proof.
  intros Hi. unfold get_tz, pending. destruct (Z.ltb_spec i 0); [lia|].
  unfold get_t. destruct (Nat.eqb_spec (Z.to_nat i) (length ts)) as [He|Hne].
  - rewrite He, skipn_all. reflexivity.
  - rewrite Nat.min_l by lia. generalize (Z.to_nat i) as n. clear. intros n. revert n.
    induction ts as [|x ts IH]; intros [|n]; cbn; auto.
Qed.

Lemma pending_len i ts : 0 <= i <= Z.of_nat (length ts) ->
  length (pending (Some (i, ts))) = (length ts - Z.to_nat i)%nat.
Proof. intros H. unfold pending. destruct (Z.ltb_spec i 0); [lia|]. apply skipn_length. Qed.

Lemma skipn_tl {A} (l : list A) n : skipn (S n) l = tl (skipn n l).
Proof. revert n. induction l as [|a l IH]; intros [|n]; cbn in *; auto; destruct l; auto. Qed.

(** [next_t1] never increases, and the errors of this part. *)
Lemma adapt_rejects_le t1 n1 keep r ri n1' r' ri' :
  adapt_rejects t1 n1 keep r ri = (n1', r', ri') -> n1' <= n1.
Proof.
  destruct ri as [[i ts]|]; cbn [adapt_rejects].
  - intros H. injection H as <- _ _. unfold clip_t, min_opt. destruct (get_tz _ _); lia.
  - intros H. injection H as <- _ _. lia.
Qed.

Lemma adapt_rejects_spec t1 n1 keep r i ts n1' r' ri' :
  reject_wf (Some (i, ts)) ->
  adapt_rejects t1 n1 keep r (Some (i, ts)) = (n1', r', ri') ->
  is_okay r' = true ->
  let p := pending (Some (i, ts)) in
  (match p with x :: _ => t1 <= x | [] => True end) /\
  reject_wf ri' /\ (exists i' ts', ri' = Some (i', ts') /\ length ts' = length ts) /\ r' = r /\
  pending ri' = (if keep then [] else [t1]) ++
                match p with x :: p' => if t1 =? x then p' else p | [] => [] end /\
  n1' = min_opt (hd_error (pending ri')) n1.
Proof.
  intros [Hwf Hpos] H Hok p. cbn [adapt_rejects] in H.
  rewrite (get_tz_pending i ts Hwf) in H. fold p in H.
  set (eqb := match hd_error p with Some r => t1 =? r | None => false end) in H.
  set (i1 := i + (if eqb then 1 else 0)) in H.
  assert (Hp : length p = (length ts - Z.to_nat i)%nat) by (apply pending_len; exact Hwf).
  assert (Hi1 : 0 <= i1 <= Z.of_nat (length ts)).
  { subst i1. destruct eqb eqn:Heq; [|lia]. subst eqb. destruct p as [|x p']; [discriminate|].
    cbn in Hp. lia. }
  assert (Hp1 : skipn (Z.to_nat i1) ts = match p with x :: p' => if t1 =? x then p' else p | [] => [] end).
  { assert (Hsk : p = skipn (Z.to_nat i) ts).
    { subst p. unfold pending. destruct (Z.ltb_spec i 0); [lia|reflexivity]. }
    subst i1 eqb. destruct p as [|x p']; cbn [hd_error].
    - rewrite Z.add_0_r. congruence.
    - destruct (t1 =? x).
      + replace (Z.to_nat (i + 1)) with (S (Z.to_nat i)) by lia.
        rewrite skipn_tl, <- Hsk. reflexivity.
      + rewrite Z.add_0_r. congruence. }
  set (r1 := where_ (_ && is_okay r) internal_error r) in H.
  set (i2 := i1 - (if keep then 0 else 1)) in H.
  set (r2 := where_ ((i2 <? 0) && is_okay r1) max_steps_rejected r1) in H.
  set (j := if i2 <? 0 then _ else _) in H.
  set (ts' := match (if keep then get_clamp ts j else Some t1) with Some _ => _ | None => _ end) in H.
  injection H as <- <- <-.
  assert (Hr : is_okay r1 = true /\ 0 <= i2 /\ r2 = r1).
  { subst r2. unfold where_ in *. destruct (i2 <? 0) eqn:Hlt; cbn [andb] in *.
    - destruct (is_okay r1) eqn:Hr1; cbn in Hok; [discriminate|congruence].
    - apply Z.ltb_ge in Hlt. auto. }
  destruct Hr as (Hr1 & Hi2 & Hr2). rewrite Hr2.
  assert (Hr : r1 = r /\ match p with x :: _ => t1 <= x | [] => True end).
  { subst r1. unfold where_ in *. destruct p as [|x p']; cbn [hd_error] in *.
    - cbn [andb] in *. auto.
    - destruct (Z.ltb_spec x t1); cbn [andb] in *.
      + destruct (is_okay r) eqn:Hr; [discriminate Hr1|congruence].
      + auto. }
  destruct Hr as [Hr Hle].
  assert (Hj : j = Z.to_nat i2) by (subst j; destruct (Z.ltb_spec i2 0); [lia|reflexivity]).
  assert (Hts' : length ts' = length ts /\
                 skipn (Z.to_nat i2) ts' = (if keep then [] else [t1]) ++ skipn (Z.to_nat i1) ts).
  { subst ts'. destruct keep.
    - subst i2. replace (i1 - 0) with i1 in * by lia. rewrite Hj. cbn [app].
      unfold get_clamp. destruct (Nat.ltb_spec (Z.to_nat i1) (length ts)).
      + rewrite Nat.min_l by lia. destruct (nth_error ts (Z.to_nat i1)) eqn:Hn; [|auto].
        rewrite at_set_same by exact Hn. auto.
      + destruct (nth_error ts _); [|auto]. rewrite at_set_past by lia. auto.
    - rewrite at_set_len. split; [reflexivity|]. rewrite Hj, at_set_skipn by lia.
      cbn [app]. f_equal. f_equal. lia. }
  destruct Hts' as [Hlen Hsk].
  assert (Hwf' : 0 <= i2 <= Z.of_nat (length ts')) by (subst i2; destruct keep; lia).
  assert (Hpend : pending (Some (i2, ts')) = (if keep then [] else [t1]) ++
                match p with x :: p' => if t1 =? x then p' else p | [] => [] end).
  { rewrite <- Hp1, <- Hsk. unfold pending. destruct (Z.ltb_spec i2 0); [lia|reflexivity]. }
  split; [exact Hle|]. split; [split; [exact Hwf'|lia]|].
  split; [exists i2, ts'; auto|]. split; [exact Hr|]. split; [exact Hpend|].
  rewrite (get_tz_pending i2 ts' Hwf'). reflexivity.
Qed.
