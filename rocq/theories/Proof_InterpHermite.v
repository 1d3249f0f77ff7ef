(** Proofs about [backward_hermite_coefficients] and [CubicInterpolation]. *)
From Coq Require Import Reals List Bool Arith ZArith Lia Lra Sorting.Sorted.
From Verif Require Import Model_Loop Model_Dense Model_Interp Spec_Interp Proof_Interp
  Proof_InterpGlobal Proof_InterpFill.
Import ListNotations.
Open Scope R_scope.

Definition hstep (carry : R * num * num) (it : R * num * (R * num)) : R * num * num :=
  let '((ti, yi), (next_ti, next_yi)) := it in
  let '(prev_ti, prev_yi, prev_deriv) := carry in
  if isnan yi then carry
  else (ti, yi, if isnan prev_yi then ndiv (lift2 Rminus next_yi yi) (Some (next_ti - ti))
                else ndiv (lift2 Rminus yi prev_yi) (Some (ti - prev_ti))).
Lemma hf_cons c it l : hermite_forward_scan c (it :: l) = hstep c it :: hermite_forward_scan (hstep c it) l.
Proof.
  destruct it as [[ti yi] [tn yn]], c as [[pt py] pd]. cbn. destruct (isnan yi); reflexivity.
Qed.
Lemma hf_len l : forall c, length (hermite_forward_scan c l) = length l.
Proof. induction l as [|it l IH]; intros c; [reflexivity|]. rewrite hf_cons. cbn. rewrite IH. reflexivity. Qed.
Lemma hf_step l : forall c i it p,
  nth_error l i = Some it -> nth_error (c :: hermite_forward_scan c l) i = Some p ->
  nth_error (c :: hermite_forward_scan c l) (S i) = Some (hstep p it).
Proof.
  induction l as [|it' l IH]; intros c i it p Hi Hp; [destruct i; discriminate|].
  rewrite hf_cons in *. destruct i as [|i].
  - cbn in *. congruence.
  - change (nth_error (c :: hstep c it' :: hermite_forward_scan (hstep c it') l) (S (S i)))
      with (nth_error (hstep c it' :: hermite_forward_scan (hstep c it') l) (S i)).
    apply (IH _ _ it); [exact Hi|]. exact Hp.
Qed.
Lemma map3_nth {A B C D} (f : A -> B -> C -> D) l : forall l' l'' i a b c,
  nth_error l i = Some a -> nth_error l' i = Some b -> nth_error l'' i = Some c ->
  nth_error (map3 f l l' l'') i = Some (f a b c).
Proof.
  induction l as [|x l IH]; intros l' l'' i a b c Ha Hb Hc; [destruct i; discriminate|].
  destruct l' as [|x' l']; [destruct i; discriminate|].
  destruct l'' as [|x'' l'']; [destruct i; discriminate|].
  destruct i; cbn in *; [congruence|apply IH; assumption].
Qed.
Lemma map3_len {A B C D} (f : A -> B -> C -> D) l : forall l' l'',
  length l' = length l -> length l'' = length l -> length (map3 f l l' l'') = length l.
Proof.
  induction l as [|x l IH]; intros [|x' l'] [|x'' l''] H1 H2; cbn in *; try discriminate; [reflexivity|].
  rewrite IH; lia.
Qed.

Lemma tl_nth {A} (l : list A) i : nth_error (tl l) i = nth_error l (S i).
Proof. destruct l; [destruct i; reflexivity|reflexivity]. Qed.
Lemma combine_hd {A B} (l : list A) (l' : list B) a b x y :
  nth_error (combine l l') 0 = Some (a, b) -> hd x l = a /\ hd y l' = b.
Proof. destruct l, l'; cbn; try discriminate. intros [= -> ->]. auto. Qed.

(** One interval. *)
Lemma herm_ends t0 y0 d0 t1 y1 : t0 < t1 ->
  let q := hermite_coeffs t0 (Some y0) (Some d0) t1 (Some y1) in
  cubic_at q 0 = Some y0 /\ cubic_at q (t1 - t0) = Some y1 /\
  cubic_deriv_at q 0 = Some d0 /\ cubic_deriv_at q (t1 - t0) = Some (slope t0 y0 t1 y1).
Proof.
  intros H. cbn. repeat split; f_equal; unfold slope; field; lra.
Qed.
Lemma herm_some t0 y0 d0 t1 y1 x :
  exists v d, cubic_at (hermite_coeffs t0 (Some y0) (Some d0) t1 (Some y1)) x = Some v /\
              cubic_deriv_at (hermite_coeffs t0 (Some y0) (Some d0) t1 (Some y1)) x = Some d.
Proof. cbn. do 2 eexists. split; reflexivity. Qed.
Lemma two_knots a b q t left : a < b ->
  cubic_evaluate [a; b] [q] t left = cubic_at q (t - a) /\
  cubic_derivative [a; b] [q] t left = cubic_deriv_at q (t - a).
Proof.
  intros H. unfold cubic_evaluate, cubic_derivative.
  rewrite (index_brackets [a; b] left t 0).
  - split; reflexivity.
  - constructor; [constructor; [constructor|constructor]|]. constructor; [lra|constructor].
  - split; [cbn; lia|]. split; left; reflexivity.
Qed.
Lemma impl_some pt v d ti tn w : pt < tn ->
  exists Y D, hermite_impl (pt, Some v, Some d) ti (tn, Some w) = hermite_coeffs ti (Some Y) (Some D) tn (Some w) /\
    (pt = ti -> Y = v /\ D = d).
Proof.
  intros H. unfold hermite_impl. cbn [fst snd].
  destruct (two_knots pt tn (hermite_coeffs pt (Some v) (Some d) tn (Some w)) ti true H) as [-> ->].
  destruct (herm_some pt v d tn w (ti - pt)) as (Y & D & EY & ED).
  exists Y, D. rewrite EY, ED. split; [reflexivity|]. intros ->.
  replace (ti - ti) with 0 in * by ring.
  destruct (herm_ends ti v d tn w H) as (E1 & _ & E2 & _). cbn zeta in *. split; congruence.
Qed.

Section Hermite.
  Variables (ff : bool) (tfirst : R) (yfirst : num) (ts1 : list R) (ys1 : list num)
            (deriv0 rep : option num).
  Let ts := tfirst :: ts1.
  Let ys := yfirst :: ys1.
  Hypothesis Hs : StronglySorted Rlt ts.
  Hypothesis Hne : (1 <= length ts1)%nat.
  Hypothesis Hlen : length ys1 = length ts1.

  Let rs := reverse_scan (last ts1 0, last ys1 None) (combine ts1 ys1).
  Let next_ys := if ff then fill_forward (map snd rs) None else map snd rs.
  Let next := combine (map fst rs) next_ys.
  Let y0 := start_value ys rep.
  Let d0 := match deriv0 with
            | None => ndiv (lift2 Rminus (hd None next_ys) y0) (Some (hd 0 (map fst rs) - tfirst))
            | Some d => d
            end.
  Let items := combine (combine (removelast ts1) (removelast ys1)) (tl next).
  Let prev := (tfirst, y0, d0) :: hermite_forward_scan (tfirst, y0, d0) items.
  Let qs := map3 hermite_impl prev (removelast ts) next.

  Lemma hm_eq : backward_hermite_coefficients ff ts ys deriv0 rep = qs.
  Proof.
    unfold qs, prev, items, next, next_ys, d0, y0, rs. unfold ts, ys. unfold backward_hermite_coefficients.
    cbn [tl hd].
    assert (E1 : last (tfirst :: ts1) 0 = last ts1 0) by (clear - Hne; destruct ts1; [cbn in Hne; lia|reflexivity]).
    assert (E2 : last (yfirst :: ys1) None = last ys1 None)
      by (clear - Hne Hlen; destruct ys1; [cbn in *; lia|reflexivity]).
    assert (E3 : tl (removelast (tfirst :: ts1)) = removelast ts1) by (clear - Hne; destruct ts1; [cbn in Hne; lia|reflexivity]).
    assert (E4 : tl (removelast (yfirst :: ys1)) = removelast ys1)
      by (clear - Hne Hlen; destruct ys1; [cbn in *; lia|reflexivity]).
    rewrite E1, E2, E3, E4. reflexivity.
  Qed.

  Lemma hm_rs_len : length rs = length ts1.
  Proof. unfold rs. rewrite rs_len, combine_length, Hlen. lia. Qed.
  Lemma hm_nys_len : length next_ys = length ts1.
  Proof. unfold next_ys, fill_forward. destruct ff; rewrite ?ff_len, map_length; apply hm_rs_len. Qed.
  Lemma hm_next_len : length next = length ts1.
  Proof. unfold next. rewrite combine_length, map_length, hm_rs_len, hm_nys_len. lia. Qed.
  Lemma hm_items_len : length items = (length ts1 - 1)%nat.
  Proof.
    unfold items. rewrite !combine_length, !removelast_len, Hlen.
    pose proof hm_next_len. destruct next; cbn in *; lia.
  Qed.
  Lemma hm_prev_len : length prev = length ts1.
  Proof. unfold prev. cbn. rewrite hf_len, hm_items_len. lia. Qed.
  Lemma hm_qs_len : length qs = length ts1.
  Proof.
    unfold qs. rewrite map3_len; rewrite ?hm_prev_len; [reflexivity| |apply hm_next_len].
    rewrite removelast_len. unfold ts. cbn. lia.
  Qed.

  Lemma hm_at_S i : at_ ts (S i) = at_ ts1 i. Proof. reflexivity. Qed.
  Lemma hm_lt i j : (i < j < S (length ts1))%nat -> at_ ts i < at_ ts j.
  Proof. intros H. apply (sorted_at _ _ Hs). exact H. Qed.

  (** [next] at [i] is the first observation after [i] *)
  Lemma hm_next i n b : (i < n)%nat -> observed ys n b -> all_missing ys (S i) n ->
    nth_error next i = Some (at_ ts n, Some b).
  Proof.
    intros Hi Hn Hm. destruct n as [|n]; [lia|].
    assert (Hn' : observed ys1 n b) by exact Hn.
    assert (Hm' : all_missing ys1 i n) by (intros k Hk; apply (Hm (S k)); lia).
    assert (Hnl : (n < length ts1)%nat).
    { rewrite <- Hlen. apply nth_error_Some. unfold observed, num in *. congruence. }
    unfold next. apply combine_nth_error.
    - rewrite nth_error_map. unfold rs. rewrite (lf_next_obs ts1 ys1 Hlen n b Hn' i ltac:(lia) Hm'). reflexivity.
    - pose proof (lf_nys_obs ff ts1 ys1 Hlen n b i Hn' ltac:(lia) Hm') as E. fold rs in E. fold next_ys in E.
      rewrite <- E. apply nth_error_nth'. rewrite hm_nys_len. lia.
  Qed.
  Lemma hm_find_next i m v : (i < m)%nat -> observed ys m v ->
    exists n b, (i < n <= m)%nat /\ observed ys n b /\ all_missing ys (S i) n.
  Proof.
    intros Hi Hm. remember (m - i)%nat as k eqn:Hk. revert i Hi Hk.
    induction k as [|k IH]; intros i Hi Hk; [lia|].
    destruct (Nat.eq_dec (S i) m) as [Heq|Hn].
    - exists m, v. split; [lia|]. split; [exact Hm|]. intros j Hj. lia.
    - assert (Hml : (m < length ys)%nat) by (apply nth_error_Some; unfold observed, num in *; congruence).
      destruct (nth_error ys (S i)) as [[w|]|] eqn:E; [| |apply nth_error_None in E; lia].
      + exists (S i), w. split; [lia|]. split; [exact E|]. intros j Hj. lia.
      + destruct (IH (S i) ltac:(lia) ltac:(lia)) as (n & b & Hn1 & Hn2 & Hn3).
        exists n, b. split; [lia|]. split; [exact Hn2|]. intros j Hj.
        destruct (Nat.eq_dec j (S i)) as [ -> |]; [exact E|apply Hn3; lia].
  Qed.
  Lemma hm_next_some i m v : (i < m)%nat -> observed ys m v ->
    exists tn b, nth_error next i = Some (tn, Some b) /\ at_ ts i < tn.
  Proof.
    intros Hi Hm. destruct (hm_find_next i m v Hi Hm) as (n & b & Hn & Hb & Hmm).
    exists (at_ ts n), b. split; [apply hm_next; try assumption; lia|].
    apply hm_lt. split; [lia|].
    assert (n < length ys)%nat by (apply nth_error_Some; unfold observed, num in *; congruence).
    unfold ys in *. cbn in *. lia.
  Qed.

  Lemma hm_item i y nx : (S i < length ts1)%nat -> nth_error ys (S i) = Some y -> nth_error next (S i) = Some nx ->
    nth_error items i = Some ((at_ ts (S i), y), nx).
  Proof.
    intros Hi Hy Hx. unfold items. apply combine_nth_error; [apply combine_nth_error|].
    - rewrite removelast_nth by lia. rewrite hm_at_S. apply nth_error_at_. lia.
    - rewrite removelast_nth by lia. exact Hy.
    - rewrite tl_nth. exact Hx.
  Qed.
  Lemma hm_prev_S i y nx p : (S i < length ts1)%nat -> nth_error ys (S i) = Some y ->
    nth_error next (S i) = Some nx -> nth_error prev i = Some p ->
    nth_error prev (S i) = Some (hstep p ((at_ ts (S i), y), nx)).
  Proof. intros Hi Hy Hx Hp. unfold prev. eapply hf_step; [|exact Hp]. apply hm_item; assumption. Qed.
  Lemma hm_q i p nx : nth_error prev i = Some p -> nth_error next i = Some nx ->
    nth_error qs i = Some (hermite_impl p (at_ ts i) nx).
  Proof.
    intros Hp Hx. assert (Hi : (i < length ts1)%nat) by (rewrite <- hm_prev_len; apply nth_error_Some; congruence).
    unfold qs. apply map3_nth; [exact Hp| |exact Hx].
    rewrite removelast_nth by (unfold ts; cbn; lia). apply nth_error_at_. unfold ts. cbn. lia.
  Qed.

  (** [prev] at [i], if there is an observation after [i] and one up to [i] *)
  Hypothesis Hd : deriv0 <> Some None.
  Definition start_known (i : nat) : Prop :=
    (exists r, y0 = Some r) \/ exists p v, (1 <= p <= i)%nat /\ observed ys p v.
  Lemma hm_prev i m w : (i < m)%nat -> observed ys m w ->
    exists pt py pd, nth_error prev i = Some (pt, py, pd) /\ at_ ts 0 <= pt <= at_ ts i /\
      (start_known i -> exists v d, py = Some v /\ pd = Some d) /\
      (forall v, (1 <= i)%nat -> observed ys i v -> pt = at_ ts i /\ py = Some v) /\
      (i = 0%nat -> pt = at_ ts 0 /\ py = y0).
  Proof.
    intros Him Hm.
    assert (Hml : (m < S (length ts1))%nat).
    { assert (m < length ys)%nat by (apply nth_error_Some; unfold observed, num in *; congruence).
      unfold ys in *. cbn in *. lia. }
    induction i as [|i IH].
    - exists tfirst, y0, d0. split; [reflexivity|]. split; [unfold at_; cbn; lra|]. split; [|split; [intros; lia|auto]].
      intros [(r & Hr)|(p & v & Hp & _)]; [|lia].
      destruct (hm_next_some 0 m w ltac:(lia) Hm) as (tn & b & Hn & _).
      destruct (combine_hd _ _ _ _ 0 None Hn) as [_ E].
      exists r. unfold d0. clear - E Hr Hd. destruct deriv0 as [[d|]|].
      + exists d. auto.
      + contradiction.
      + rewrite E, Hr. cbn. eauto.
    - destruct (IH ltac:(lia)) as (pt & py & pd & Hp & Hpt & Hpy & Hob & _).
      destruct (hm_next_some (S i) m w ltac:(lia) Hm) as (tn & b & Hn & Htn).
      destruct (nth_error ys (S i)) as [y|] eqn:Hy.
      2:{ apply nth_error_None in Hy. unfold ys in Hy. cbn in Hy. lia. }
      pose proof (hm_prev_S i y _ _ ltac:(lia) Hy Hn Hp) as HpS.
      pose proof (hm_lt i (S i) ltac:(lia)) as Hlt.
      destruct y as [v|]; cbn [hstep isnan] in HpS.
      + do 3 eexists. split; [exact HpS|]. split; [lra|]. split; [|split; [|intros; lia]].
        * intros _. exists v. destruct py as [x|]; cbn; eauto.
        * intros v' _ Hv'. split; [reflexivity|]. unfold observed, num in *. congruence.
      + exists pt, py, pd. split; [exact HpS|]. split; [lra|]. split; [|split; [|intros; lia]].
        * intros Hk. apply Hpy. destruct Hk as [?|(p & v & Hpi & Hv)]; [left; assumption|].
          right. exists p, v. split; [|exact Hv]. destruct (Nat.eq_dec p (S i)) as [ -> |]; [|lia].
          exfalso. unfold observed, num in *. congruence.
        * intros v _ Hv. exfalso. unfold observed, num in *. congruence.
  Qed.

  (** values at observations *)
  Lemma hm_left i v : (1 <= i)%nat -> observed ys i v -> start_known (i - 1) ->
    cubic_evaluate ts qs (at_ ts i) true = Some v.
  Proof.
    intros Hi Hv Hk. destruct i as [|i]; [lia|]. cbn [Nat.sub] in Hk. rewrite Nat.sub_0_r in Hk.
    assert (Hil : (S i < S (length ts1))%nat).
    { assert (S i < length ys)%nat by (apply nth_error_Some; unfold observed, num in *; congruence).
      unfold ys in *. cbn in *. lia. }
    destruct (hm_prev i (S i) v ltac:(lia) Hv) as (pt & py & pd & Hp & Hpt & Hpy & _ & _).
    destruct (Hpy Hk) as (x & d & -> & ->).
    pose proof (hm_next i (S i) v ltac:(lia) Hv ltac:(intros k Hk'; lia)) as Hn.
    pose proof (hm_q i _ _ Hp Hn) as Hq.
    pose proof (hm_lt i (S i) ltac:(lia)) as Hlt.
    destruct (impl_some pt x d (at_ ts i) (at_ ts (S i)) v ltac:(lra)) as (Y & D & E & _).
    pose proof (eq_trans Hq (f_equal Some E)) as Hq'. clear Hq. rename Hq' into Hq. unfold cubic_evaluate.
    rewrite (index_brackets ts true (at_ ts (S i)) i (lt_le_sorted _ Hs)).
    2:{ split; [unfold ts; cbn; lia|]. split; right; lra. }
    rewrite (getQ_at _ _ _ Hq), getR_at by (unfold ts; cbn; lia).
    apply herm_ends. exact Hlt.
  Qed.
  Lemma hm_right i m v w : (1 <= i < m)%nat -> observed ys i v -> observed ys m w ->
    cubic_evaluate ts qs (at_ ts i) false = Some v.
  Proof.
    intros Hi Hv Hm.
    assert (Hil : (m < S (length ts1))%nat).
    { assert (m < length ys)%nat by (apply nth_error_Some; unfold observed, num in *; congruence).
      unfold ys in *. cbn in *. lia. }
    destruct (hm_prev i m w ltac:(lia) Hm) as (pt & py & pd & Hp & Hpt & Hpy & Hob & _).
    destruct (Hob v ltac:(lia) Hv) as [-> ->].
    destruct (Hpy ltac:(right; exists i, v; split; [lia|exact Hv])) as (x & d & Ex & ->).
    destruct (hm_next_some i m w ltac:(lia) Hm) as (tn & b & Hn & Htn).
    pose proof (hm_q i _ _ Hp Hn) as Hq.
    destruct (impl_some (at_ ts i) v d (at_ ts i) tn b Htn) as (Y & D & E & EY).
    destruct (EY eq_refl) as [-> ->].
    pose proof (eq_trans Hq (f_equal Some E)) as Hq'. clear Hq. rename Hq' into Hq. unfold cubic_evaluate.
    rewrite (index_brackets ts false (at_ ts i) i (lt_le_sorted _ Hs)).
    2:{ split; [unfold ts; cbn; lia|]. split; right; [lra|]. apply hm_lt. lia. }
    rewrite (getQ_at _ _ _ Hq), getR_at by (unfold ts; cbn; lia).
    replace (at_ ts i - at_ ts i) with 0 by ring. apply herm_ends. exact Htn.
  Qed.
  (** the start *)
  Lemma hm_start m w r left : (1 <= m)%nat -> observed ys m w -> y0 = Some r ->
    cubic_evaluate ts qs (at_ ts 0) left = Some r.
  Proof.
    intros Hm Hw Hr.
    assert (Hil : (m < S (length ts1))%nat).
    { assert (m < length ys)%nat by (apply nth_error_Some; unfold observed, num in *; congruence).
      unfold ys in *. cbn in *. lia. }
    destruct (hm_prev 0 m w ltac:(lia) Hw) as (pt & py & pd & Hp & Hpt & Hpy & _ & Hz).
    destruct (Hz eq_refl) as [-> ->].
    destruct (Hpy ltac:(left; eauto)) as (x & d & Ex & ->). rewrite Hr in Hp.
    destruct (hm_next_some 0 m w ltac:(lia) Hw) as (tn & b & Hn & Htn).
    pose proof (hm_q 0 _ _ Hp Hn) as Hq.
    destruct (impl_some (at_ ts 0) r d (at_ ts 0) tn b Htn) as (Y & D & E & EY).
    destruct (EY eq_refl) as [-> ->].
    pose proof (eq_trans Hq (f_equal Some E)) as Hq'. clear Hq. rename Hq' into Hq. unfold cubic_evaluate.
    rewrite (index_brackets ts left (at_ ts 0) 0 (lt_le_sorted _ Hs)).
    2:{ split; [unfold ts; cbn; lia|]. split; [left; reflexivity|]. right.
        pose proof (hm_lt 0 1 ltac:(lia)). destruct left; lra. }
    rewrite (getQ_at _ _ _ Hq), getR_at by (unfold ts; cbn; lia).
    replace (at_ ts 0 - at_ ts 0) with 0 by ring. apply herm_ends. exact Htn.
  Qed.
End Hermite.

(** ** C40: at every observation, whatever is missing elsewhere *)
Lemma pf_C40_observations (ff : bool) (ts : list R) (ys : list num) (deriv0 : option num) (i : nat)
      (t v : R) (left : bool) :
  StronglySorted Rlt ts -> (2 <= length ts)%nat -> length ys = length ts -> deriv0 <> Some None ->
  nth_error ts i = Some t -> observed ys i v ->
  (if left then (exists j w, (j < i)%nat /\ observed ys j w) \/ (i = 0%nat /\ exists j w, (0 < j)%nat /\ observed ys j w)
   else exists j w, (i < j)%nat /\ observed ys j w) ->
  cubic_evaluate ts (backward_hermite_coefficients ff ts ys deriv0 None) t left = Some v.
Proof.
  intros Hs Hl Hlen Hd Ht Hv Hw.
  destruct ts as [|tf ts1]; [cbn in Hl; lia|]. destruct ys as [|yf ys1]; [cbn in Hlen; lia|].
  cbn in Hl, Hlen. assert (Hne : (1 <= length ts1)%nat) by lia. assert (Hlen' : length ys1 = length ts1) by lia.
  rewrite (hm_eq ff tf yf ts1 ys1 deriv0 None Hne Hlen'). rewrite <- (nth_error_at _ _ _ Ht).
  assert (Hzero : i = 0%nat -> start_value (yf :: ys1) None = Some v).
  { intros ->. cbn in *. unfold observed, num in *. cbn in *. congruence. }
  destruct left.
  - destruct Hw as [(j & w & Hj & Hjw)|(-> & j & w & Hj & Hjw)].
    + apply hm_left; try assumption; [lia|].
      destruct j as [|j]; [|right; exists (S j), w; split; [lia|exact Hjw]].
      left. exists w. unfold observed, num in *. cbn in *. congruence.
    + apply (hm_start ff tf yf ts1 ys1 deriv0 None Hs Hne Hlen' Hd j w v); auto; lia.
  - destruct Hw as (j & w & Hj & Hjw). destruct i as [|i].
    + apply (hm_start ff tf yf ts1 ys1 deriv0 None Hs Hne Hlen' Hd j w v); auto; lia.
    + apply (hm_right ff tf yf ts1 ys1 deriv0 None Hs Hne Hlen' Hd (S i) j v w); auto; lia.
Qed.

(** ** C40: without missing data *)
Section Full.
  Variables (ff : bool) (tf vf : R) (ts1 vs1 : list R) (deriv0 : option R).
  Let ts := tf :: ts1.
  Let vs := vf :: vs1.
  Hypothesis Hs : StronglySorted Rlt ts.
  Hypothesis Hne : (1 <= length ts1)%nat.
  Hypothesis Hlen : length vs1 = length ts1.
  Definition full_deriv (i : nat) : R :=
    match i with
    | O => match deriv0 with Some d => d | None => slope (at_ ts 0) (at_ vs 0) (at_ ts 1) (at_ vs 1) end
    | S k => slope (at_ ts k) (at_ vs k) (at_ ts i) (at_ vs i)
    end.
  Let ys := map Some vs.
  Let qs := backward_hermite_coefficients ff ts ys (option_map Some deriv0) None.

  Lemma full_obs i : (i < S (length ts1))%nat -> observed ys i (at_ vs i).
  Proof. intros H. apply observed_all. unfold vs. cbn. lia. Qed.
  Lemma full_dne : option_map Some deriv0 <> Some (@None R).
  Proof. destruct deriv0; discriminate. Qed.

  Lemma full_q i : (i < length ts1)%nat ->
    nth_error qs i = Some (hermite_coeffs (at_ ts i) (Some (at_ vs i)) (Some (full_deriv i))
                                          (at_ ts (S i)) (Some (at_ vs (S i)))).
  Proof.
    intros Hi. unfold qs, ys, vs. cbn [map]. unfold ts.
    assert (Hlen' : length (map Some vs1) = length ts1) by (rewrite map_length; exact Hlen).
    etransitivity; [exact (f_equal (fun l => nth_error l i)
      (hm_eq ff tf (Some vf) ts1 (map Some vs1) (option_map Some deriv0) None Hne Hlen'))|].
    assert (Hnext : forall k, (k < length ts1)%nat -> forall nx,
       nx = (at_ ts (S k), Some (at_ vs (S k))) ->
       nth_error (combine (map fst (reverse_scan (last ts1 0, last (map Some vs1) None) (combine ts1 (map Some vs1))))
         (if ff then fill_forward (map snd (reverse_scan (last ts1 0, last (map Some vs1) None) (combine ts1 (map Some vs1)))) None
          else map snd (reverse_scan (last ts1 0, last (map Some vs1) None) (combine ts1 (map Some vs1))))) k = Some nx).
    { intros k Hk nx ->. apply (hm_next ff tf (Some vf) ts1 (map Some vs1) None None Hne Hlen' k (S k)); [lia| |intros j Hj; lia].
      apply (full_obs (S k)). lia. }
    assert (Hprev : forall k, (k < length ts1)%nat ->
       nth_error ((tf, start_value (Some vf :: map Some vs1) None,
         match option_map Some deriv0 with
         | Some d => d
         | None => ndiv (lift2 Rminus (hd None (if ff then fill_forward (map snd (reverse_scan (last ts1 0, last (map Some vs1) None) (combine ts1 (map Some vs1)))) None
          else map snd (reverse_scan (last ts1 0, last (map Some vs1) None) (combine ts1 (map Some vs1))))) (start_value (Some vf :: map Some vs1) None))
           (Some (hd 0 (map fst (reverse_scan (last ts1 0, last (map Some vs1) None) (combine ts1 (map Some vs1)))) - tf))
         end) :: hermite_forward_scan (tf, start_value (Some vf :: map Some vs1) None,
         match option_map Some deriv0 with
         | Some d => d
         | None => ndiv (lift2 Rminus (hd None (if ff then fill_forward (map snd (reverse_scan (last ts1 0, last (map Some vs1) None) (combine ts1 (map Some vs1)))) None
          else map snd (reverse_scan (last ts1 0, last (map Some vs1) None) (combine ts1 (map Some vs1))))) (start_value (Some vf :: map Some vs1) None))
           (Some (hd 0 (map fst (reverse_scan (last ts1 0, last (map Some vs1) None) (combine ts1 (map Some vs1)))) - tf))
         end) (combine (combine (removelast ts1) (removelast (map Some vs1))) (tl (combine (map fst (reverse_scan (last ts1 0, last (map Some vs1) None) (combine ts1 (map Some vs1))))
         (if ff then fill_forward (map snd (reverse_scan (last ts1 0, last (map Some vs1) None) (combine ts1 (map Some vs1)))) None
          else map snd (reverse_scan (last ts1 0, last (map Some vs1) None) (combine ts1 (map Some vs1)))))))) k
       = Some (at_ ts k, Some (at_ vs k), Some (full_deriv k))).
    { induction k as [|k IH]; intros Hk.
      - pose proof (Hnext 0%nat Hk _ eq_refl) as H0.
        cbn [nth_error start_value hd]. f_equal. f_equal.
        set (nys := if ff then _ else _) in *. set (nts := map fst _) in *. clearbody nys nts.
        destruct nts as [|a nts]; [discriminate|]. destruct nys as [|b nys]; [discriminate|].
        cbn in H0. injection H0 as -> ->. unfold full_deriv. destruct deriv0; reflexivity.
      - pose proof (hm_prev_S ff tf (Some vf) ts1 (map Some vs1) (option_map Some deriv0) None Hne Hlen'
           k (Some (at_ vs (S k))) _ _ Hk (full_obs (S k) ltac:(lia)) (Hnext (S k) Hk _ eq_refl) (IH ltac:(lia))) as H.
        etransitivity; [exact H|]. reflexivity. }
    etransitivity; [apply (hm_q ff tf (Some vf) ts1 (map Some vs1) (option_map Some deriv0) None Hne Hlen' i _ _ (Hprev i Hi) (Hnext i Hi _ eq_refl))|].
    f_equal. assert (Hlt : at_ ts i < at_ ts (S i)) by (apply (sorted_at _ _ Hs); unfold ts; cbn; lia).
    destruct (impl_some (at_ ts i) (at_ vs i) (full_deriv i) (at_ ts i) (at_ ts (S i)) (at_ vs (S i)) Hlt)
      as (Y & D & E & EY).
    destruct (EY eq_refl) as [-> ->]. exact E.
  Qed.
End Full.

Lemma cubic_poly d c b a x : cubic_at (Some d, Some c, Some b, Some a) x = Some (poly [a; b; c; d] x) /\
  cubic_deriv_at (Some d, Some c, Some b, Some a) x = Some (dpoly [a; b; c; d] x).
Proof. cbn. split; f_equal; ring. Qed.
Lemma comp_shift f a x l : derivable_pt_lim f (x - a) l -> derivable_pt_lim (fun t => f (t - a)) x l.
Proof.
  intros H. replace l with (l * (1 - 0)) by ring.
  apply (derivable_pt_lim_comp (fun t => t - a) f); [|exact H].
  apply (derivable_pt_lim_minus id (fun _ => a)); [apply derivable_pt_lim_id|apply derivable_pt_lim_const].
Qed.

Lemma pf_C40_smooth (ff : bool) (ts vs : list R) (deriv0 : option R) (left : bool) :
  StronglySorted Rlt ts -> (2 <= length ts)%nat -> length vs = length ts ->
  let qs := backward_hermite_coefficients ff ts (map Some vs) (option_map Some deriv0) None in
  exists f f',
    (forall t, cubic_evaluate ts qs t left = Some (f t)) /\
    (forall t, cubic_derivative ts qs t left = Some (f' t)) /\
    (forall t, derivable_pt_lim f t (f' t)) /\ continuity f' /\
    (forall i, (i < length ts)%nat -> f (at_ ts i) = at_ vs i) /\
    (forall i, (S i < length ts)%nat -> f' (at_ ts (S i)) = slope (at_ ts i) (at_ vs i) (at_ ts (S i)) (at_ vs (S i))) /\
    f' (at_ ts 0) = match deriv0 with
                    | Some d => d | None => slope (at_ ts 0) (at_ vs 0) (at_ ts 1) (at_ vs 1) end.
Proof.
  intros Hs Hl Hlen. destruct ts as [|tf ts1]; [cbn in Hl; lia|]. destruct vs as [|vf vs1]; [cbn in Hlen; lia|].
  assert (Hne : (1 <= length ts1)%nat) by (cbn in Hl; lia).
  assert (Hlen' : length vs1 = length ts1) by (cbn in Hlen; lia).
  intros qs. pose proof (full_q ff tf vf ts1 vs1 deriv0 Hs Hne Hlen') as Hq. fold qs in Hq. clearbody qs.
  set (ts := tf :: ts1) in *. set (vs := vf :: vs1) in *.
  set (D := full_deriv tf vf ts1 vs1 deriv0) in *.
  set (dd := fun j => slope (at_ ts j) (at_ vs j) (at_ ts (S j)) (at_ vs (S j)) - D j).
  set (co := fun j => [at_ vs j; D j; 2 * dd j / (at_ ts (S j) - at_ ts j);
                       - dd j / (at_ ts (S j) - at_ ts j) ^ 2]).
  set (P := fun j t => poly (co j) (t - at_ ts j)).
  set (P' := fun j t => dpoly (co j) (t - at_ ts j)).
  assert (E : forall t j, brackets ts left t j -> cubic_evaluate ts qs t left = Some (P j t) /\
     cubic_derivative ts qs t left = Some (P' j t)).
  { intros t j Hb. pose proof Hb as (Hj & _ & _). unfold cubic_evaluate, cubic_derivative.
    rewrite (index_brackets ts left t j (lt_le_sorted _ Hs) Hb).
    rewrite (getQ_at _ _ _ (Hq j (proj2 (Nat.succ_lt_mono _ _) Hj))), getR_at by lia.
    apply cubic_poly. }
  assert (Hlt : forall j, (S j < length ts)%nat -> at_ ts j < at_ ts (S j)) by (intros j Hj; apply (sorted_at _ _ Hs); lia).
  assert (Lp : forall j, P j (at_ ts j) = at_ vs j).
  { intros j. unfold P, co. cbn. ring. }
  assert (Lq : forall j, P' j (at_ ts j) = D j).
  { intros j. unfold P', co. cbn. ring. }
  assert (Rp : forall j, (S j < length ts)%nat -> P j (at_ ts (S j)) = at_ vs (S j)).
  { intros j Hj. specialize (Hlt j Hj). unfold P, co, dd, slope. cbn [poly dpoly]. field. lra. }
  assert (Rq : forall j, (S j < length ts)%nat -> P' j (at_ ts (S j)) = D (S j)).
  { intros j Hj. specialize (Hlt j Hj). change (D (S j)) with (slope (at_ ts j) (at_ vs j) (at_ ts (S j)) (at_ vs (S j))).
    unfold P', co, dd, slope. cbn [poly dpoly]. field. lra. }
  assert (Mp : meet ts P) by (intros j Hj; rewrite Rp, Lp by lia; reflexivity).
  assert (Mq : meet ts P') by (intros j Hj; rewrite Rq, Lq by lia; reflexivity).
  set (f := fun t => match cubic_evaluate ts qs t left with Some v => v | None => 0 end).
  set (f' := fun t => match cubic_derivative ts qs t left with Some v => v | None => 0 end).
  assert (Fp : by_pieces ts P f left) by (intros t j Hb; unfold f; rewrite (proj1 (E t j Hb)); reflexivity).
  assert (Fq : by_pieces ts P' f' left) by (intros t j Hb; unfold f'; rewrite (proj2 (E t j Hb)); reflexivity).
  exists f, f'. repeat split.
  - intros t. destruct (brackets_exists ts left t Hl) as [j Hb]. rewrite (Fp t j Hb). apply E. exact Hb.
  - intros t. destruct (brackets_exists ts left t Hl) as [j Hb]. rewrite (Fq t j Hb). apply E. exact Hb.
  - intros t. apply (pieces_derivable ts P Hs Hl f f' P' left Mp Mq Fp Fq).
    intros j x. unfold P, P'. apply (comp_shift (poly (co j))). apply poly_deriv.
  - apply (pieces_continuous ts P' Hs Hl f' left Mq Fq). intros j x.
    apply derivable_continuous_pt. exists (2 * (2 * dd j / (at_ ts (S j) - at_ ts j)) + 6 * (- dd j / (at_ ts (S j) - at_ ts j) ^ 2) * (x - at_ ts j)).
    apply (deriv_ext (fun t => poly [D j; 2 * (2 * dd j / (at_ ts (S j) - at_ ts j)); 3 * (- dd j / (at_ ts (S j) - at_ ts j) ^ 2)] (t - at_ ts j))).
    + intros t. unfold P', co. set (c1 := 2 * dd j / _). set (c2 := - dd j / _). cbn. ring.
    + apply (comp_shift (poly _)).
      match goal with |- derivable_pt_lim (poly ?l) ?z ?v => replace v with (dpoly l z); [apply poly_deriv|] end.
      set (c1 := 2 * dd j / _). set (c2 := - dd j / _). cbn. ring.
  - intros i Hi. destruct (brackets_knot ts left i Hs Hl Hi) as [Hb|(j & -> & Hb)]; pose proof Hb as (Hj & _ & _).
    + rewrite (Fp _ _ Hb). apply Lp.
    + rewrite (Fp _ _ Hb). apply Rp. exact Hj.
  - intros i Hi. destruct (brackets_knot ts left (S i) Hs Hl Hi) as [Hb|(j & Ej & Hb)]; pose proof Hb as (Hj & _ & _).
    + rewrite (Fq _ _ Hb). apply Lq.
    + injection Ej as <-. rewrite (Fq _ _ Hb). apply Rq. exact Hj.
  - destruct (brackets_knot ts left 0 Hs Hl ltac:(lia)) as [Hb|(j & Ej & Hb)]; [|discriminate].
    rewrite (Fq _ _ Hb). rewrite Lq. reflexivity.
Qed.

Lemma full_len ff tf vf ts1 vs1 d : (1 <= length ts1)%nat -> length vs1 = length ts1 ->
  length (backward_hermite_coefficients ff (tf :: ts1) (map Some (vf :: vs1)) (option_map Some d) None) = length ts1.
Proof.
  intros Hne Hlen. cbn [map].
  assert (Hlen' : length (map Some vs1) = length ts1) by (rewrite map_length; exact Hlen).
  etransitivity; [exact (f_equal (@length _) (hm_eq ff tf (Some vf) ts1 (map Some vs1) (option_map Some d) None Hne Hlen'))|].
  apply (hm_qs_len ff tf (Some vf) ts1 (map Some vs1) (option_map Some d) None Hne Hlen').
Qed.

(** The polynomial on [ts[i], ts[i+1]] depends on the data up to index [i+1] only. *)
Lemma pf_C40_causal (ff : bool) (ts vs vs' : list R) (deriv0 : option R) (i : nat) :
  StronglySorted Rlt ts -> (2 <= length ts)%nat -> length vs = length ts -> length vs' = length ts ->
  (forall k, (k <= S i)%nat -> nth_error vs k = nth_error vs' k) ->
  nth_error (backward_hermite_coefficients ff ts (map Some vs) (option_map Some deriv0) None) i =
  nth_error (backward_hermite_coefficients ff ts (map Some vs') (option_map Some deriv0) None) i.
Proof.
  intros Hs Hl Hlen Hlen' H. destruct ts as [|tf ts1]; [cbn in Hl; lia|].
  destruct vs as [|vf vs1]; [cbn in Hlen; lia|]. destruct vs' as [|vf' vs1']; [cbn in Hlen'; lia|].
  assert (Hne : (1 <= length ts1)%nat) by (cbn in Hl; lia).
  cbn in Hlen, Hlen'.
  destruct (Nat.lt_ge_cases i (length ts1)) as [Hi|Hi].
  - rewrite (full_q ff tf vf ts1 vs1 deriv0 Hs Hne ltac:(lia) i Hi).
    rewrite (full_q ff tf vf' ts1 vs1' deriv0 Hs Hne ltac:(lia) i Hi).
    assert (A : forall k, (k <= S i)%nat -> at_ (vf :: vs1) k = at_ (vf' :: vs1') k).
    { intros k Hk. specialize (H k Hk). unfold at_.
      destruct (nth_error (vf :: vs1) k) as [x|] eqn:E1.
      - rewrite (nth_error_nth _ _ _ E1), (nth_error_nth _ _ _ (eq_sym H)). reflexivity.
      - apply nth_error_None in E1. cbn in E1. lia. }
    assert (Dq : full_deriv tf vf ts1 vs1 deriv0 i = full_deriv tf vf' ts1 vs1' deriv0 i).
    { unfold full_deriv. destruct i; [destruct deriv0; [reflexivity|]|]; rewrite !A by lia; reflexivity. }
    rewrite Dq, !A by lia. reflexivity.
  - rewrite !(proj2 (nth_error_None _ _)); [reflexivity| |]; rewrite full_len; lia.
Qed.
