(** Proofs about filling in missing data: [fill_forward], [linear_interpolation],
    [rectilinear_interpolation]. *)
From Coq Require Import Reals List Bool Arith ZArith Lia Lra Sorting.Sorted.
From Verif Require Import Model_Loop Model_Dense Model_Interp Spec_Interp Proof_Interp Proof_InterpGlobal.
Import ListNotations.
Open Scope R_scope.

(** ** Scans, entry by entry *)
Lemma ff_len ys : forall c, length (fill_forward_scan c ys) = length ys.
Proof. induction ys as [|y ys IH]; intros c; cbn; [reflexivity|]. rewrite IH. reflexivity. Qed.
Lemma ff_step ys : forall c i y,
  nth_error ys i = Some y ->
  nth_error (fill_forward_scan c ys) i =
    Some (if isnan y then match i with O => c | S k => nth k (fill_forward_scan c ys) None end else y).
Proof.
  induction ys as [|x ys IH]; intros c i y H; [destruct i; discriminate|].
  destruct i as [|i]; cbn in *.
  - injection H as ->. reflexivity.
  - rewrite (IH _ _ _ H). destruct i; reflexivity.
Qed.
Lemma ff_obs ys c i v : observed ys i v -> nth_error (fill_forward_scan c ys) i = Some (Some v).
Proof. intros H. rewrite (ff_step _ _ _ _ H). reflexivity. Qed.
Lemma ff_last ys c i p v :
  (p <= i)%nat -> observed ys p v -> all_missing ys (S p) (S i) ->
  nth_error (fill_forward_scan c ys) i = Some (Some v).
Proof.
  intros Hpi Hp Hm. induction i as [|i IH].
  - assert (p = 0)%nat as -> by lia. apply ff_obs. exact Hp.
  - destruct (Nat.eq_dec p (S i)) as [ -> |Hne]; [apply ff_obs; exact Hp|].
    rewrite (ff_step _ _ (S i) None) by (apply Hm; lia). cbn [isnan].
    f_equal. apply nth_error_nth. apply IH; [lia|]. intros k Hk. apply Hm. lia.
Qed.
Lemma ff_none ys c i :
  all_missing ys 0 (S i) -> nth_error (fill_forward_scan c ys) i = Some c.
Proof.
  intros Hm. induction i as [|i IH].
  - rewrite (ff_step _ _ 0 None) by (apply Hm; lia). reflexivity.
  - rewrite (ff_step _ _ (S i) None) by (apply Hm; lia). cbn [isnan].
    f_equal. apply nth_error_nth. apply IH. intros k Hk. apply Hm. lia.
Qed.
Lemma ff_all vs c : fill_forward_scan c (map Some vs) = map Some vs.
Proof. revert c. induction vs as [|v vs IH]; intros c; cbn; [reflexivity|]. rewrite IH. reflexivity. Qed.

Lemma rs_len l c : length (reverse_scan c l) = length l.
Proof. induction l as [|[t y] l IH]; cbn; [reflexivity|]. rewrite IH. reflexivity. Qed.
Lemma rs_step l c : forall i t y,
  nth_error l i = Some (t, y) ->
  nth_error (reverse_scan c l) i =
    Some (if isnan y then nth (S i) (reverse_scan c l) c else (t, y)).
Proof.
  induction l as [|[t' y'] l IH]; intros i t y H; [destruct i; discriminate|].
  destruct i as [|i]; cbn in H |- *.
  - injection H as -> ->. destruct (isnan y); [|reflexivity].
    destruct (reverse_scan c l); reflexivity.
  - rewrite (IH _ _ _ H). reflexivity.
Qed.

Lemma fs_len l : forall c, length (linear_forward_scan c l) = length l.
Proof. induction l as [|[[t y] [t' y']] l IH]; intros c; cbn; [reflexivity|]. rewrite IH. reflexivity. Qed.
(** The carry before entry [i]. *)
Fixpoint fs_carry (c : R * num) (l : list (R * num * (R * num))) (i : nat) : R * num :=
  match i, l with
  | S i, ((t, y), _) :: l' => fs_carry (if isnan y then c else (t, y)) l' i
  | _, _ => c
  end.
Lemma fs_step l : forall c i t y t' y',
  nth_error l i = Some ((t, y), (t', y')) ->
  nth_error (linear_forward_scan c l) i =
    let c := fs_carry c l i in
    Some (let carry_ti := if isnan y then fst c else t in
          let carry_yi := if isnan y then snd c else y in
          lift2 Rplus carry_yi
            (option_map (fun d => d * (t - carry_ti) / (if isnan y then t' - carry_ti else 1))
               (lift2 Rminus y' carry_yi))).
Proof.
  induction l as [|[[a b] [a' b']] l IH]; intros c i t y t' y' H; [destruct i; discriminate|].
  destruct i as [|i]; cbn in H |- *.
  - injection H as -> -> -> ->. reflexivity.
  - rewrite (IH _ _ _ _ _ _ H). cbn. destruct (isnan b); destruct c; reflexivity.
Qed.
Lemma fs_carry_step l : forall c i t y n, nth_error l i = Some ((t, y), n) ->
  fs_carry c l (S i) = if isnan y then fs_carry c l i else (t, y).
Proof.
  induction l as [|[[a b] n'] l IH]; intros c i t y n H; [destruct i; discriminate|].
  destruct i as [|i]; cbn in H.
  - injection H as -> -> ->. cbn. destruct l; reflexivity.
  - change (fs_carry (if isnan b then c else (a, b)) l (S i) =
            if isnan y then fs_carry (if isnan b then c else (a, b)) l i else (t, y)).
    eapply IH. exact H.
Qed.

Lemma combine_nth_error {A B} (l : list A) : forall (l' : list B) i a b,
  nth_error l i = Some a -> nth_error l' i = Some b -> nth_error (combine l l') i = Some (a, b).
Proof.
  induction l as [|x l IH]; intros l' i a b Ha Hb; [destruct i; discriminate|].
  destruct l' as [|x' l']; [destruct i; discriminate|].
  destruct i; cbn in *; [congruence|apply IH; assumption].
Qed.
Lemma nth_error_at_ (l : list R) i : (i < length l)%nat -> nth_error l i = Some (at_ l i).
Proof. intros H. unfold at_. apply nth_error_nth'. exact H. Qed.

(** ** C41: fill_forward *)
Lemma pf_C41_fill_forward (ys : list num) (rep : option num) (i : nat) :
  (forall p v, (p <= i)%nat -> observed ys p v -> all_missing ys (S p) (S i) ->
     nth_error (fill_forward ys rep) i = Some (Some v)) /\
  (all_missing ys 0 (S i) ->
     nth_error (fill_forward ys rep) i = Some (match rep with Some r => r | None => None end)) /\
  length (fill_forward ys rep) = length ys.
Proof.
  unfold fill_forward. repeat split.
  - intros p v Hp Hv Hm. eapply ff_last; eauto.
  - intros Hm. rewrite ff_none by exact Hm. f_equal. destruct rep as [r|]; [reflexivity|].
    cbn. specialize (Hm 0%nat ltac:(lia)). unfold missing in Hm. destruct ys; cbn in *; congruence.
  - apply ff_len.
Qed.

(** ** C41: linear_interpolation *)
Lemma start_none ys rep : missing ys 0 ->
  start_value ys rep = match rep with Some r => r | None => None end.
Proof. unfold missing. intros H. destruct rep; [reflexivity|]. destruct ys; cbn in *; congruence. Qed.
Lemma hd_at ts : hd 0 ts = at_ ts 0.
Proof. destruct ts; reflexivity. Qed.
Section LinFill.
  Variables (ff : bool) (ts : list R) (ys : list num) (rep : option num).
  Hypothesis Hs : StronglySorted Rlt ts.
  Hypothesis Hlen : length ys = length ts.

  Let next := reverse_scan (last ts 0, last ys None) (combine ts ys).
  Let next_ys := if ff then fill_forward (map snd next) None else map snd next.
  Let items := combine (combine ts ys) (combine (map fst next) next_ys).
  Let start := (hd 0 ts, start_value ys rep).

  Lemma lf_next_len : length next = length ts.
  Proof. unfold next. rewrite rs_len, combine_length, Hlen. apply Nat.min_id. Qed.
  Lemma lf_nys_len : length next_ys = length ts.
  Proof.
    unfold next_ys, fill_forward. destruct ff; rewrite ?ff_len, ?map_length; apply lf_next_len.
  Qed.
  Lemma lf_item i y : nth_error ys i = Some y ->
    exists tn yn, nth_error next i = Some (tn, yn) /\
      nth_error items i = Some ((at_ ts i, y), (tn, nth i next_ys None)).
  Proof.
    intros Hy. assert (Hi : (i < length ts)%nat) by (rewrite <- Hlen; apply nth_error_Some; congruence).
    destruct (nth_error next i) as [[tn yn]|] eqn:Hn; [|apply nth_error_None in Hn; rewrite lf_next_len in Hn; lia].
    exists tn, yn. split; [reflexivity|]. unfold items.
    apply combine_nth_error; apply combine_nth_error.
    - apply nth_error_at_. exact Hi.
    - exact Hy.
    - rewrite nth_error_map, Hn. reflexivity.
    - apply nth_error_nth'. rewrite lf_nys_len. exact Hi.
  Qed.
  Lemma lf_entry i y : nth_error ys i = Some y -> nth_error (combine ts ys) i = Some (at_ ts i, y).
  Proof.
    intros Hy. apply combine_nth_error; [|exact Hy]. apply nth_error_at_.
    rewrite <- Hlen. apply nth_error_Some. congruence.
  Qed.
  (** the next observation *)
  Lemma lf_next_obs n b : observed ys n b -> forall i, (i <= n)%nat -> all_missing ys i n ->
    nth_error next i = Some (at_ ts n, Some b).
  Proof.
    intros Hn i Hin Hm. remember (n - i)%nat as k eqn:Hk. revert i Hin Hm Hk.
    induction k as [|k IH]; intros i Hin Hm Hk.
    - assert (i = n) as -> by lia. unfold next. rewrite (rs_step _ _ _ _ _ (lf_entry _ _ Hn)). reflexivity.
    - assert (Hi : missing ys i) by (apply Hm; lia).
      unfold next. rewrite (rs_step _ _ _ _ _ (lf_entry _ _ Hi)). cbn [isnan]. f_equal.
      apply nth_error_nth. apply IH; [lia| |lia]. intros j Hj. apply Hm. lia.
  Qed.
  Lemma lf_next_none i : (i < length ts)%nat -> all_missing ys i (length ts) ->
    nth_error next i = Some (at_ ts (length ts - 1), None).
  Proof.
    intros Hi Hm.
    assert (Hc : (last ts 0, last ys None) = (at_ ts (length ts - 1), None)).
    { f_equal.
      - unfold at_. rewrite <- (rev_involutive ts). clear. destruct (rev ts) as [|a l]; [reflexivity|].
        cbn. rewrite last_last, app_length. cbn. rewrite Nat.add_sub, nth_middle. reflexivity.
      - specialize (Hm (length ts - 1)%nat ltac:(lia)). unfold missing in Hm.
        rewrite <- Hlen in Hm. clear - Hm.
        rewrite <- (rev_involutive ys) in *. destruct (rev ys) as [|a l]; [reflexivity|].
        cbn in *. rewrite last_last. rewrite app_length in Hm. cbn in Hm.
        rewrite Nat.add_sub in Hm. rewrite nth_error_app2 in Hm by lia.
        rewrite Nat.sub_diag in Hm. cbn in Hm. congruence. }
    remember (length ts - i)%nat as k eqn:Hk. revert i Hi Hm Hk.
    induction k as [|k IH]; intros i Hi Hm Hk; [lia|].
    assert (Hmi : missing ys i) by (apply Hm; lia).
    unfold next. rewrite (rs_step _ _ _ _ _ (lf_entry _ _ Hmi)). cbn [isnan]. f_equal.
    destruct (Nat.eq_dec (S i) (length ts)) as [Hlast|Hne].
    - rewrite nth_overflow; [exact Hc|]. fold next. rewrite lf_next_len. lia.
    - apply nth_error_nth. apply IH; [lia| |lia]. intros j Hj. apply Hm. lia.
  Qed.
  (** the previous observation *)
  Lemma lf_carry_obs p a : observed ys p a -> forall i, (p < i)%nat -> all_missing ys (S p) i ->
    fs_carry start items i = (at_ ts p, Some a).
  Proof.
    intros Hp i. induction i as [|i IH]; intros Hi Hm; [lia|].
    destruct (Nat.eq_dec p i) as [ -> |Hne].
    - destruct (lf_item i _ Hp) as (tn & yn & _ & Hit). rewrite (fs_carry_step _ _ _ _ _ _ Hit). reflexivity.
    - assert (Hmi : missing ys i) by (apply Hm; lia).
      destruct (lf_item i _ Hmi) as (tn & yn & _ & Hit). rewrite (fs_carry_step _ _ _ _ _ _ Hit). cbn [isnan].
      apply IH; [lia|]. intros j Hj. apply Hm. lia.
  Qed.
  Lemma lf_carry_none i : all_missing ys 0 i -> fs_carry start items i = start.
  Proof.
    induction i as [|i IH]; intros Hm; [destruct items as [|[[? ?] ?] ?]; reflexivity|].
    assert (Hmi : missing ys i) by (apply Hm; lia).
    destruct (lf_item i _ Hmi) as (tn & yn & _ & Hit). rewrite (fs_carry_step _ _ _ _ _ _ Hit). cbn [isnan].
    apply IH. intros j Hj. apply Hm. lia.
  Qed.
  Lemma lf_nys_obs n b i : observed ys n b -> (i <= n)%nat -> all_missing ys i n -> nth i next_ys None = Some b.
  Proof.
    intros Hn Hi Hm. pose proof (lf_next_obs n b Hn i Hi Hm) as H.
    assert (H' : nth_error (map snd next) i = Some (Some b)) by (rewrite nth_error_map, H; reflexivity).
    apply nth_error_nth. unfold next_ys. destruct ff; [|exact H']. unfold fill_forward. apply ff_obs. exact H'.
  Qed.

  Let out := linear_forward_scan start items.
  Lemma lf_out i y : nth_error ys i = Some y ->
    nth_error out i = let c := fs_carry start items i in
    Some (let carry_ti := if isnan y then fst c else at_ ts i in
          let carry_yi := if isnan y then snd c else y in
          lift2 Rplus carry_yi
            (option_map (fun d => d * (at_ ts i - carry_ti) /
                           (if isnan y then match nth_error next i with Some (tn, _) => tn | None => 0 end - carry_ti else 1))
               (lift2 Rminus (nth i next_ys None) carry_yi))).
  Proof.
    intros Hy. destruct (lf_item i y Hy) as (tn & yn & Hn & Hit).
    unfold out. rewrite (fs_step _ _ _ _ _ _ _ Hit), Hn. reflexivity.
  Qed.
  Lemma lf_out_eq : linear_interpolation ff ts ys rep = out.
  Proof. reflexivity. Qed.

  Lemma lf_lt i j : (i < j < length ts)%nat -> at_ ts i < at_ ts j.
  Proof. apply (sorted_at _ _ Hs). Qed.
  Lemma obs_lt i v : observed ys i v -> (i < length ts)%nat.
  Proof. intros H. rewrite <- Hlen. apply nth_error_Some. unfold observed, num in *. congruence. Qed.

  Lemma lf_observed i v : observed ys i v -> nth_error out i = Some (Some v).
  Proof.
    intros Hv. rewrite (lf_out i _ Hv). cbn [isnan].
    rewrite (lf_nys_obs i v i Hv ltac:(lia)) by (intros k Hk; lia). cbn. do 2 f_equal. field.
  Qed.
  Lemma lf_interior p i n a b : (p < i < n)%nat -> observed ys p a -> observed ys n b ->
    all_missing ys (S p) n -> nth_error out i = Some (Some (line (at_ ts p) a (at_ ts n) b (at_ ts i))).
  Proof.
    intros Hi Hp Hn Hm. pose proof (obs_lt _ _ Hn) as Hnl. assert (Hmi : missing ys i) by (apply Hm; lia).
    rewrite (lf_out i _ Hmi). cbn [isnan].
    rewrite (lf_carry_obs p a Hp i) by (try lia; intros k Hk; apply Hm; lia).
    rewrite (lf_next_obs n b Hn i) by (try lia; intros k Hk; apply Hm; lia).
    rewrite (lf_nys_obs n b i Hn) by (try lia; intros k Hk; apply Hm; lia).
    cbn. do 2 f_equal. unfold line. pose proof (lf_lt p n ltac:(lia)). field. lra.
  Qed.
  Lemma lf_leading i n b : (i < n)%nat -> observed ys n b -> all_missing ys 0 n ->
    nth_error out i = Some (option_map (fun r => line (at_ ts 0) r (at_ ts n) b (at_ ts i))
                                       (match rep with Some r => r | None => None end)).
  Proof.
    intros Hi Hn Hm. pose proof (obs_lt _ _ Hn) as Hnl. assert (Hmi : missing ys i) by (apply Hm; lia).
    rewrite (lf_out i _ Hmi). cbn [isnan].
    rewrite (lf_carry_none i) by (intros k Hk; apply Hm; lia).
    rewrite (lf_next_obs n b Hn i) by (try lia; intros k Hk; apply Hm; lia).
    rewrite (lf_nys_obs n b i Hn) by (try lia; intros k Hk; apply Hm; lia).
    unfold start. cbn [fst snd].
    assert (E : start_value ys rep = match rep with Some r => r | None => None end).
    { apply start_none. apply Hm. lia. }
    rewrite E. clear E. generalize rep. intros [[r|]|]; [|reflexivity|reflexivity].
    cbn. do 2 f_equal. unfold line. rewrite hd_at.
    pose proof (lf_lt 0 n ltac:(lia)) as H. field. lra.
  Qed.
  Lemma lf_trailing p i a : (p < i < length ts)%nat -> observed ys p a -> all_missing ys (S p) (length ts) ->
    nth_error out i = Some (if ff then Some a else None).
  Proof.
    intros Hi Hp Hm. assert (Hmi : missing ys i) by (apply Hm; lia).
    rewrite (lf_out i _ Hmi). cbn [isnan].
    rewrite (lf_carry_obs p a Hp i) by (try lia; intros k Hk; apply Hm; lia).
    rewrite (lf_next_none i) by (try lia; intros k Hk; apply Hm; lia).
    assert (N : forall k, (p < k < length ts)%nat -> nth_error (map snd next) k = Some None).
    { intros k Hk. rewrite nth_error_map, lf_next_none; [reflexivity|lia|]. intros j Hj. apply Hm. lia. }
    assert (E : nth i next_ys None = if ff then Some a else None).
    { unfold next_ys. destruct ff; [|apply nth_error_nth; apply N; lia].
      apply nth_error_nth. unfold fill_forward. apply (ff_last _ _ i p a); [lia| |].
      - unfold observed. rewrite nth_error_map, (lf_next_obs p a Hp p ltac:(lia)) by (intros k Hk; lia). reflexivity.
      - intros k Hk. apply N. lia. }
    rewrite E. destruct ff; [|reflexivity]. cbn. do 2 f_equal. pose proof (lf_lt p (length ts - 1) ltac:(lia)).
    field. lra.
  Qed.
  Lemma lf_nothing i : (i < length ts)%nat -> all_missing ys 0 (length ts) -> nth_error out i = Some None.
  Proof.
    intros Hi Hm. assert (Hmi : missing ys i) by (apply Hm; lia).
    rewrite (lf_out i _ Hmi). cbn [isnan].
    assert (N : forall k, (k < length ts)%nat -> nth_error (map snd next) k = Some None).
    { intros k Hk. rewrite nth_error_map, lf_next_none; [reflexivity|lia|]. intros j Hj. apply Hm. lia. }
    assert (E : nth i next_ys None = None).
    { unfold next_ys. destruct ff; [|apply nth_error_nth; apply N; lia].
      apply nth_error_nth. unfold fill_forward. rewrite ff_none by (intros k Hk; apply N; lia).
      cbn. f_equal. pose proof (N 0%nat ltac:(lia)) as H. destruct (map snd next); cbn in *; congruence. }
    rewrite E. cbn. destruct (snd (fs_carry start items i)); reflexivity.
  Qed.
  Lemma lf_len : length out = length ts.
  Proof.
    unfold out, items. rewrite fs_len, !combine_length, Hlen, map_length, lf_next_len, lf_nys_len. lia.
  Qed.
End LinFill.


Lemma pf_C41_observed (ff : bool) (ts : list R) (ys : list num) (rep : option num) (i : nat) (v : R) :
  StronglySorted Rlt ts -> (2 <= length ts)%nat -> length ys = length ts ->
  observed ys i v ->
  nth_error (linear_interpolation ff ts ys rep) i = Some (Some v).
Proof. intros Hs Hl Hlen H. rewrite lf_out_eq. apply lf_observed; assumption. Qed.
Lemma pf_C41_interior (ff : bool) (ts : list R) (ys : list num) (rep : option num) (p i n : nat) (a b : R) :
  StronglySorted Rlt ts -> (2 <= length ts)%nat -> length ys = length ts ->
  (p < i < n)%nat -> observed ys p a -> observed ys n b -> all_missing ys (S p) n ->
  nth_error (linear_interpolation ff ts ys rep) i
  = Some (Some (line (at_ ts p) a (at_ ts n) b (at_ ts i))).
Proof. intros. rewrite lf_out_eq. apply lf_interior; assumption. Qed.
Lemma pf_C41_leading (ff : bool) (ts : list R) (ys : list num) (rep : option num) (i n : nat) (b : R) :
  StronglySorted Rlt ts -> (2 <= length ts)%nat -> length ys = length ts ->
  (i < n)%nat -> observed ys n b -> all_missing ys 0 n ->
  nth_error (linear_interpolation ff ts ys rep) i
  = Some (match rep with
          | Some (Some r) => Some (line (at_ ts 0) r (at_ ts n) b (at_ ts i))
          | _ => None
          end).
Proof.
  intros Hs Hl Hlen Hi Hn Hm. rewrite lf_out_eq.
  rewrite (lf_leading ff ts ys rep Hs Hlen i n b Hi Hn Hm). destruct rep as [[r|]|]; reflexivity.
Qed.
Lemma pf_C41_trailing (ff : bool) (ts : list R) (ys : list num) (rep : option num) (p i : nat) (a : R) :
  StronglySorted Rlt ts -> (2 <= length ts)%nat -> length ys = length ts ->
  (p < i < length ts)%nat -> observed ys p a -> all_missing ys (S p) (length ts) ->
  nth_error (linear_interpolation ff ts ys rep) i = Some (if ff then Some a else None).
Proof. intros Hs Hl Hlen. intros. rewrite lf_out_eq. eapply lf_trailing; eauto. Qed.
Lemma pf_C41_nothing_observed (ff : bool) (ts : list R) (ys : list num) (rep : option num) (i : nat) :
  StronglySorted Rlt ts -> (2 <= length ts)%nat -> length ys = length ts ->
  (i < length ts)%nat -> all_missing ys 0 (length ts) ->
  nth_error (linear_interpolation ff ts ys rep) i = Some None.
Proof. intros Hs Hl Hlen. intros. rewrite lf_out_eq. eapply lf_nothing; eauto. Qed.

(** ** C42 *)
Lemma repeat2_len {A} (l : list A) : length (repeat2 l) = (2 * length l)%nat.
Proof. induction l as [|x l IH]; cbn; [reflexivity|]. rewrite IH. lia. Qed.
Lemma repeat2_nth {A} (l : list A) : forall k, nth_error (repeat2 l) k = nth_error l (k / 2).
Proof.
  induction l as [|x l IH]; intros k.
  - cbn [repeat2]. rewrite !(proj2 (nth_error_None _ _)); cbn; auto; lia.
  - destruct k as [|[|k]]; [reflexivity|reflexivity|].
    replace (S (S k) / 2)%nat with (S (k / 2))%nat.
    + cbn [repeat2 nth_error]. apply IH.
    + replace (S (S k)) with (k + 1 * 2)%nat by lia. rewrite Nat.div_add by lia. lia.
Qed.
Lemma removelast_len {A} (l : list A) : length (removelast l) = (length l - 1)%nat.
Proof.
  induction l as [|x [|y l] IH]; [reflexivity|reflexivity|].
  change (removelast (x :: y :: l)) with (x :: removelast (y :: l)). cbn [length] in *. lia.
Qed.
Lemma removelast_nth {A} (l : list A) : forall k, (S k < length l)%nat -> nth_error (removelast l) k = nth_error l k.
Proof.
  induction l as [|x [|y l] IH]; intros k Hk; cbn [length] in *; [lia|lia|].
  change (removelast (x :: y :: l)) with (x :: removelast (y :: l)).
  destruct k as [|k]; [reflexivity|]. cbn [nth_error]. apply IH. cbn [length]. lia.
Qed.

Lemma pf_C42_shape (ts : list R) (ys : list num) (rep : option num) (new_ts : list R) (new_ys : list num) :
  (2 <= length ts)%nat -> length ys = length ts ->
  rectilinear_interpolation ts ys rep = (new_ts, new_ys) ->
  length new_ts = (2 * length ts - 1)%nat /\ length new_ys = (2 * length ts - 1)%nat /\
  (forall i t, nth_error ts i = Some t ->
     nth_error new_ts (2 * i) = Some t /\ (forall k, i = S k -> nth_error new_ts (2 * k + 1) = Some t)) /\
  (forall i y, nth_error (fill_forward ys rep) i = Some y ->
     nth_error new_ys (2 * i) = Some y /\
     ((S i < length ts)%nat -> nth_error new_ys (2 * i + 1) = Some y)).
Proof.
  intros Hl Hlen H. unfold rectilinear_interpolation in H. injection H as <- <-.
  assert (Ht : forall k, nth_error (tl (repeat2 ts)) k = nth_error ts ((k + 1) / 2)).
  { intros k. transitivity (nth_error (repeat2 ts) (k + 1)).
    - rewrite Nat.add_1_r. destruct (repeat2 ts); [destruct k; reflexivity|reflexivity].
    - apply repeat2_nth. }
  assert (Hlf : length (repeat2 (fill_forward ys rep)) = (2 * length ts)%nat).
  { rewrite repeat2_len. unfold fill_forward. rewrite ff_len, Hlen. reflexivity. }
  repeat split.
  - pose proof (repeat2_len ts). destruct (repeat2 ts); cbn in *; lia.
  - rewrite removelast_len, Hlf. reflexivity.
  - rewrite Ht. replace ((2 * i + 1) / 2)%nat with i; [assumption|].
    rewrite Nat.mul_comm, Nat.div_add_l by lia. cbn. lia.
  - intros k ->. rewrite Ht. replace ((2 * k + 1 + 1) / 2)%nat with (S k); [assumption|].
    replace (2 * k + 1 + 1)%nat with (S k * 2)%nat by lia. rewrite Nat.div_mul by lia. reflexivity.
  - assert (Hi : (i < length ts)%nat).
    { rewrite <- Hlen. rewrite <- (ff_len ys (start_value ys rep)). apply nth_error_Some. unfold fill_forward in *. congruence. }
    rewrite removelast_nth by lia. rewrite repeat2_nth.
    replace (2 * i / 2)%nat with i by (rewrite Nat.mul_comm, Nat.div_mul; lia). assumption.
  - intros Hi. rewrite removelast_nth by lia. rewrite repeat2_nth.
    replace ((2 * i + 1) / 2)%nat with i; [assumption|].
    rewrite Nat.mul_comm, Nat.div_add_l by lia. cbn. lia.
Qed.

Lemma ff_causal ys : forall ys' c i,
  (forall k, (k <= i)%nat -> nth_error ys k = nth_error ys' k) ->
  forall k, (k <= i)%nat -> nth_error (fill_forward_scan c ys) k = nth_error (fill_forward_scan c ys') k.
Proof.
  induction ys as [|y ys IH]; intros ys' c i H k Hk.
  - pose proof (H 0%nat ltac:(lia)) as H0. destruct ys'; [reflexivity|discriminate].
  - pose proof (H 0%nat ltac:(lia)) as H0. destruct ys' as [|y' ys']; [discriminate|].
    cbn in H0. injection H0 as <-. cbn [fill_forward_scan]. destruct k as [|k]; [reflexivity|].
    cbn [nth_error]. apply (IH ys' _ (i - 1)%nat); [|lia].
    intros j Hj. apply (H (S j)). lia.
Qed.

(** If two data sets agree up to and including index [i], the outputs agree until the entry before the
    one with time [ts[i+1]] and data [i+1]. *)
Lemma pf_C42_causal (ts : list R) (ys ys' : list num) (rep : option num) (i : nat) :
  length ys = length ts -> length ys' = length ts ->
  (forall k, (k <= i)%nat -> nth_error ys k = nth_error ys' k) ->
  fst (rectilinear_interpolation ts ys rep) = fst (rectilinear_interpolation ts ys' rep) /\
  forall k, (k <= 2 * i + 1)%nat ->
    nth_error (snd (rectilinear_interpolation ts ys rep)) k =
    nth_error (snd (rectilinear_interpolation ts ys' rep)) k.
Proof.
  intros Hlen Hlen' H. split; [reflexivity|]. intros k Hk. cbn [snd rectilinear_interpolation].
  assert (Hst : start_value ys rep = start_value ys' rep).
  { destruct rep; [reflexivity|]. cbn. pose proof (H 0%nat ltac:(lia)) as H0.
    destruct ys, ys'; cbn in *; congruence. }
  assert (L : forall l, length l = length ts -> length (repeat2 (fill_forward l rep)) = (2 * length ts)%nat).
  { intros l E. rewrite repeat2_len. unfold fill_forward. rewrite ff_len, E. reflexivity. }
  destruct (Nat.lt_ge_cases (S k) (2 * length ts)) as [Hlt|Hge].
  - rewrite !removelast_nth by (rewrite L by assumption; exact Hlt). rewrite !repeat2_nth.
    unfold fill_forward. rewrite Hst. apply (ff_causal _ _ _ i H).
    apply Nat.lt_succ_r, Nat.div_lt_upper_bound; lia.
  - rewrite !(proj2 (nth_error_None _ _)); [reflexivity| |]; rewrite removelast_len, L by assumption; lia.
Qed.
