(** Proofs about dense output. *)
From Coq Require Import ZArith List Bool Arith Lia Sorting.Sorted.
From Verif Require Import Model_Result Model_Loop Spec_Loop Proof_LoopBasic Proof_LoopSave
  Proof_LoopFinish Proof_LoopRoot Proof_PropLoop Model_Dense Spec_Dense.
Import ListNotations.
Open Scope Z_scope.

Lemma searchsorted_char {T} (ltb : T -> T -> bool) (left : bool) (t : T) ts n :
  (n <= length ts)%nat ->
  (forall i x, (i < n)%nat -> nth_error ts i = Some x ->
     (if left then ltb x t else negb (ltb t x)) = true) ->
  (forall x, nth_error ts n = Some x -> (if left then ltb x t else negb (ltb t x)) = false) ->
  searchsorted ltb ts t left = n.
Proof.
  revert n. induction ts as [|x ts IH]; intros n Hn H1 H2; cbn in *; [lia|].
  destruct n as [|n].
  - rewrite (H2 x eq_refl). reflexivity.
  - rewrite (H1 0%nat x ltac:(lia) eq_refl). f_equal. apply IH; [lia| |exact H2].
    intros i y Hi Hy. apply (H1 (S i) y ltac:(lia) Hy).
Qed.

Lemma ssorted_nth (l : list Z) : StronglySorted Z.le l -> forall i j x y,
  (i <= j)%nat -> nth_error l i = Some x -> nth_error l j = Some y -> x <= y.
Proof.
  induction 1 as [|a l Hl IH Hf]; intros i j x y Hij Hi Hj; [destruct i; discriminate|].
  destruct i as [|i], j as [|j]; cbn in *; try lia.
  - injection Hi as <-. injection Hj as <-. lia.
  - injection Hi as <-. rewrite Forall_forall in Hf. apply Hf. eapply nth_error_In; eauto.
  - eapply IH; [|eauto|eauto]. lia.
Qed.

Section Dense.
  Context {Y DI : Type}.
  Notation dense := (dense_interpolation Y DI).

  Lemma knot_nth (ks : list Z) p i k :
    nth_error ks i = Some k -> nth_error (map Fin ks ++ repeat PInf p) i = Some (Fin k).
  Proof.
    intros H. rewrite nth_error_app1.
    - rewrite nth_error_map, H. reflexivity.
    - rewrite map_length. apply nth_error_Some. congruence.
  Qed.
  Lemma knot_nth_inv (ks : list Z) p i x :
    nth_error (map Fin ks ++ repeat PInf p) i = Some x ->
    (exists k, nth_error ks i = Some k /\ x = Fin k) \/ ((length ks <= i)%nat /\ x = PInf).
  Proof.
    intros H. destruct (Nat.lt_ge_cases i (length ks)) as [Hi|Hi].
    - left. destruct (nth_error ks i) as [k|] eqn:Hk; [|apply nth_error_None in Hk; lia].
      exists k. split; [reflexivity|]. rewrite (knot_nth ks p i k Hk) in H. congruence.
    - right. split; [exact Hi|]. rewrite nth_error_app2 in H by (rewrite map_length; exact Hi).
      apply nth_error_In, repeat_spec in H. exact H.
  Qed.

  Lemma get_wrap_nat {A} (l : list A) i x : nth_error l i = Some x -> get_wrap l (Z.of_nat i) = Some x.
  Proof.
    intros H. unfold get_wrap. destruct (Z.ltb_spec (Z.of_nat i) 0); [lia|].
    rewrite Nat2Z.id. rewrite get_clamp_lt; [exact H|]. apply nth_error_Some. congruence.
  Qed.

  (** Which interval is selected. *)
  Lemma interpret_char (ks : list Z) p (t : Z) (left : bool) j prev next :
    StronglySorted Z.le ks ->
    nth_error ks j = Some prev -> nth_error ks (S j) = Some next ->
    (if left then (prev < t \/ (j = 0%nat /\ prev <= t)) /\ t <= next
     else prev <= t /\ (t < next \/ (S (S j) = length ks /\ t <= next))) ->
    interpret_t xtime_ltb (map Fin ks ++ repeat PInf p) (length ks) (Fin t) left = Z.of_nat j.
  Proof.
    intros Hs Hp Hn Hsel. unfold interpret_t.
    assert (Hj : (S j < length ks)%nat) by (apply nth_error_Some; congruence).
    assert (Hlen : (length ks <= length (map Fin ks ++ repeat PInf p))%nat)
      by (rewrite app_length, map_length; lia).
    destruct left.
    - destruct Hsel as [Hsel Hle]. destruct (Z.lt_ge_cases prev t) as [Hlt|Hge].
      + rewrite (searchsorted_char _ true (Fin t) _ (S j)); [lia|lia| |].
        * intros i x Hi Hx. apply knot_nth_inv in Hx. destruct Hx as [(k & Hk & ->)|[? _]]; [|lia].
          pose proof (ssorted_nth _ Hs i j k prev ltac:(lia) Hk Hp). cbn. apply Z.ltb_lt. lia.
        * intros x Hx. apply knot_nth_inv in Hx. destruct Hx as [(k & Hk & ->)|[? _]]; [|lia].
          assert (k = next) as -> by congruence. cbn. apply Z.ltb_ge. lia.
      + destruct Hsel as [?|[-> Heq]]; [lia|]. assert (t = prev) as -> by lia.
        rewrite (searchsorted_char _ true (Fin prev) _ 0); [lia|lia| |].
        * intros; lia.
        * intros x Hx. apply knot_nth_inv in Hx. destruct Hx as [(k & Hk & ->)|[? _]]; [|lia].
          assert (k = prev) as -> by congruence. cbn. apply Z.ltb_irrefl.
    - destruct Hsel as [Hge Hsel]. destruct (Z.lt_ge_cases t next) as [Hlt|Hge'].
      + rewrite (searchsorted_char _ false (Fin t) _ (S j)); [lia|lia| |].
        * intros i x Hi Hx. apply knot_nth_inv in Hx. destruct Hx as [(k & Hk & ->)|[? _]]; [|lia].
          pose proof (ssorted_nth _ Hs i j k prev ltac:(lia) Hk Hp). cbn.
          destruct (Z.ltb_spec t k); [lia|reflexivity].
        * intros x Hx. apply knot_nth_inv in Hx. destruct Hx as [(k & Hk & ->)|[? _]]; [|lia].
          assert (k = next) as -> by congruence. cbn. destruct (Z.ltb_spec t next); [reflexivity|lia].
      + destruct Hsel as [?|[Hlast Heq]]; [lia|]. assert (t = next) as -> by lia.
        rewrite (searchsorted_char _ false (Fin next) _ (length ks)); [lia|lia| |].
        * intros i x Hi Hx. apply knot_nth_inv in Hx. destruct Hx as [(k & Hk & ->)|[? _]]; [|lia].
          pose proof (ssorted_nth _ Hs i (S j) k next ltac:(lia) Hk Hn). cbn.
          destruct (Z.ltb_spec next k); [lia|reflexivity].
        * intros x Hx. apply knot_nth_inv in Hx. destruct Hx as [(k & Hk & ->)|[? ->]]; [|reflexivity].
          assert ((length ks < length ks)%nat) by (apply nth_error_Some; congruence). lia.
  Qed.

  Lemma bounds_char (d : dense) ks dis t k0 k1 :
    has_knots d ks dis -> (2 <= length ks)%nat ->
    nth_error ks 0 = Some k0 -> nth_error ks (length ks - 1) = Some k1 ->
    out_of_bounds d t = (t <? k0) || (k1 <? t).
  Proof.
    intros ((p & Hts & _) & Hsz & Hl & Hs) Hlen H0 H1. unfold out_of_bounds. rewrite Hsz, Hts.
    destruct (Nat.leb_spec (length ks) 1); [lia|]. cbn [orb].
    change 0 with (Z.of_nat 0). rewrite (get_wrap_nat _ 0 _ (knot_nth ks p 0 k0 H0)).
    replace (Z.of_nat (length ks) - 1) with (Z.of_nat (length ks - 1)) by lia.
    rewrite (get_wrap_nat _ _ _ (knot_nth ks p _ k1 H1)). reflexivity.
  Qed.

  Lemma pf_C43_interval (d : dense) (ks : list Z) (dis : list DI) (t : Z) (left : bool) (j : nat)
        (prev next : Z) (info : DI) :
    has_knots d ks dis ->
    nth_error ks j = Some prev -> nth_error ks (S j) = Some next -> nth_error dis j = Some info ->
    (if left then (prev < t \/ (j = 0%nat /\ prev <= t)) /\ t <= next
     else prev <= t /\ (t < next \/ (S (S j) = length ks /\ t <= next))) ->
    dense_evaluate d t left = Some (dn_cls d prev next info t).
  Proof.
    intros Hk Hp Hn Hi Hsel. pose proof Hk as ((p & Hts & Hin) & Hsz & Hl & Hs).
    assert (Hj : (S j < length ks)%nat) by (apply nth_error_Some; congruence).
    destruct (nth_error ks 0) as [k0|] eqn:H0; [|apply nth_error_None in H0; lia].
    destruct (nth_error ks (length ks - 1)) as [k1|] eqn:H1; [|apply nth_error_None in H1; lia].
    pose proof (ssorted_nth _ Hs 0 j _ _ ltac:(lia) H0 Hp).
    pose proof (ssorted_nth _ Hs (S j) (length ks - 1) _ _ ltac:(lia) Hn H1).
    unfold dense_evaluate. rewrite (bounds_char d ks dis t k0 k1 Hk ltac:(lia) H0 H1).
    rewrite Hsz. destruct (Nat.eqb_spec (length ks) 1); [lia|]. rewrite andb_false_r.
    destruct (Z.ltb_spec t k0); [destruct left; lia|].
    destruct (Z.ltb_spec k1 t); [destruct left; lia|]. cbn [orb].
    unfold dense_local. rewrite Hts, Hsz, Hin.
    rewrite (interpret_char ks p t left j prev next Hs Hp Hn Hsel).
    rewrite (get_wrap_nat _ _ _ (knot_nth ks p j prev Hp)).
    replace (Z.of_nat j + 1) with (Z.of_nat (S j)) by lia.
    rewrite (get_wrap_nat _ _ _ (knot_nth ks p (S j) next Hn)).
    assert (Hi' : nth_error (map Some dis ++ repeat None p) j = Some (Some info)).
    { rewrite nth_error_app1; [rewrite nth_error_map, Hi; reflexivity|].
      rewrite map_length. apply nth_error_Some. congruence. }
    rewrite (get_wrap_nat _ _ _ Hi'). reflexivity.
  Qed.

  Lemma pf_C43_outside (d : dense) (ks : list Z) (dis : list DI) (t k0 k1 : Z) (left : bool) :
    has_knots d ks dis -> (2 <= length ks)%nat ->
    nth_error ks 0 = Some k0 -> nth_error ks (length ks - 1) = Some k1 -> (t < k0 \/ k1 < t) ->
    dense_evaluate d t left = None.
  Proof.
    intros Hk Hlen H0 H1 Ht. unfold dense_evaluate.
    rewrite (bounds_char d ks dis t k0 k1 Hk Hlen H0 H1).
    destruct Hk as (_ & Hsz & _). rewrite Hsz. destruct (Nat.eqb_spec (length ks) 1); [lia|].
    rewrite andb_false_r. destruct (Z.ltb_spec t k0), (Z.ltb_spec k1 t); try lia; reflexivity.
  Qed.

  (** Every time in range lies in one of the intervals. *)
  Lemma find_interval (ks : list Z) t k0 k1 (left : bool) :
    StronglySorted Z.le ks -> (2 <= length ks)%nat ->
    nth_error ks 0 = Some k0 -> nth_error ks (length ks - 1) = Some k1 -> k0 <= t <= k1 ->
    exists j prev next, nth_error ks j = Some prev /\ nth_error ks (S j) = Some next /\
      (if left then (prev < t \/ (j = 0%nat /\ prev <= t)) /\ t <= next
       else prev <= t /\ (t < next \/ (S (S j) = length ks /\ t <= next))).
  Proof.
    intros Hs Hlen H0 H1 Ht. destruct left.
    - assert (G : forall n, (1 <= n < length ks)%nat -> (forall k, nth_error ks n = Some k -> t <= k) ->
          exists j prev next, nth_error ks j = Some prev /\ nth_error ks (S j) = Some next /\
            (prev < t \/ (j = 0%nat /\ prev <= t)) /\ t <= next).
      { induction n as [|n IH]; intros Hn Hle; [lia|].
        destruct (nth_error ks (S n)) as [next|] eqn:Hx; [|apply nth_error_None in Hx; lia].
        destruct (nth_error ks n) as [prev|] eqn:Hp; [|apply nth_error_None in Hp; lia].
        specialize (Hle next eq_refl).
        destruct (Z.lt_ge_cases prev t) as [Hlt|Hge]; [exists n, prev, next; auto|].
        destruct n as [|n].
        - exists 0%nat, prev, next. repeat split; auto. right. split; [reflexivity|].
          assert (prev = k0) by congruence. lia.
        - apply IH; [lia|]. intros k Hk. assert (k = prev) by congruence. lia. }
      apply (G (length ks - 1)%nat); [lia|]. intros k Hk. assert (k = k1) by congruence. lia.
    - assert (G : forall n, (n <= length ks - 2)%nat -> (forall k, nth_error ks n = Some k -> k <= t) ->
          exists j prev next, nth_error ks j = Some prev /\ nth_error ks (S j) = Some next /\
            prev <= t /\ (t < next \/ (S (S j) = length ks /\ t <= next))).
      { intros n. remember (length ks - 2 - n)%nat as m. revert n Heqm.
        induction m as [|m IH]; intros n Hm Hn Hle.
        - assert (n = (length ks - 2)%nat) as -> by lia.
          destruct (nth_error ks (length ks - 2)) as [prev|] eqn:Hp; [|apply nth_error_None in Hp; lia].
          exists (length ks - 2)%nat, prev, k1. replace (S (length ks - 2)) with (length ks - 1)%nat by lia.
          split; [exact Hp|]. split; [exact H1|]. split; [auto|]. right. lia.
        - destruct (nth_error ks n) as [prev|] eqn:Hp; [|apply nth_error_None in Hp; lia].
          destruct (nth_error ks (S n)) as [next|] eqn:Hx; [|apply nth_error_None in Hx; lia].
          destruct (Z.lt_ge_cases t next) as [Hlt|Hge]; [exists n, prev, next; auto|].
          apply (IH (S n)); [lia|lia|]. intros k Hk. assert (k = next) by congruence. lia. }
      apply (G 0%nat); [lia|]. intros k Hk. assert (k = k0) by congruence. lia.
  Qed.

  Lemma pf_C43_covered (d : dense) (ks : list Z) (dis : list DI) (t k0 k1 : Z) (left : bool) :
    has_knots d ks dis -> (2 <= length ks)%nat ->
    nth_error ks 0 = Some k0 -> nth_error ks (length ks - 1) = Some k1 -> k0 <= t <= k1 ->
    exists j prev next info, nth_error ks j = Some prev /\ nth_error ks (S j) = Some next /\
      nth_error dis j = Some info /\ prev <= t <= next /\
      dense_evaluate d t left = Some (dn_cls d prev next info t).
  Proof.
    intros Hk Hlen H0 H1 Ht. pose proof Hk as (_ & _ & Hl & Hs).
    destruct (find_interval ks t k0 k1 left Hs Hlen H0 H1 Ht) as (j & prev & next & Hp & Hn & Hsel).
    assert (Hj : (S j < length ks)%nat) by (apply nth_error_Some; congruence).
    destruct (nth_error dis j) as [info|] eqn:Hi; [|apply nth_error_None in Hi; lia].
    exists j, prev, next, info. split; [exact Hp|]. split; [exact Hn|]. split; [exact Hi|].
    split; [destruct left; lia|]. eapply pf_C43_interval; eauto.
  Qed.

  Lemma pf_C43_trivial (d : dense) (t : Z) (left : bool) :
    dn_ts_size d = 1%nat ->
    dense_evaluate d t left = if t =? dn_t0_if_trivial d then Some (dn_y0_if_trivial d) else None.
  Proof.
    intros Hsz. unfold dense_evaluate, out_of_bounds. rewrite Hsz. cbn.
    destruct (t =? dn_t0_if_trivial d); reflexivity.
  Qed.
End Dense.

Section Solve.
  Context {Y SS CS DI E V MS : Type}.
  Notation config := (config Y SS CS DI E V MS).
  Notation initial := (initial Y SS CS MS).
  Notation state := (state Y SS CS DI V MS).
  Notation outcome := (outcome Y SS CS DI V MS).
  Notation attempt := (attempt Y).

  Definition dense_inv (c : config) (m : nat) (accs : list attempt) (s : state) : Prop :=
    (length accs <= m)%nat /\ st_dense_index s = length accs /\
    st_dense_ts s = map Fin (cfg_t0 c :: map at_end accs) ++ repeat PInf (m - length accs) /\
    exists dis, st_dense_infos s = map Some dis ++ repeat None (m - length accs) /\
      Forall2 (fun a di => at_interp a = interpolate c (at_from a) (at_to a) di) accs dis.

  Lemma F2_len {A B} (R : A -> B -> Prop) l l' : Forall2 R l l' -> length l = length l'.
  Proof. induction 1; cbn; lia. Qed.
  Lemma repeat_S_sub {A} (x : A) m n : (n < m)%nat -> repeat x (m - n) = x :: repeat x (m - S n).
  Proof. intros H. replace (m - n)%nat with (S (m - S n)) by lia. reflexivity. Qed.

  Lemma dense_body (c : config) m accs s :
    cfg_dense c = true -> dense_inv c m accs s -> (length accs < m)%nat ->
    dense_inv c m (accs ++ accepted [attempt_of c s]) (body_fun c s).
  Proof.
    intros Hd (Hl & Hi & Hts & dis & Hin & HF) Hlt. unfold dense_inv.
    rewrite body_dense_index, body_dense_ts, body_dense_infos, Hd. cbn [andb].
    unfold accepted. cbn [filter].
    destruct (at_keep (attempt_of c s)) eqn:Hk.
    - rewrite app_length. cbn [length]. split; [lia|]. split; [rewrite Hi; reflexivity|].
      rewrite Nat.add_1_r. split.
      + rewrite Hts, Hi, (repeat_S_sub PInf m _ Hlt), map_app. cbn [map].
        replace (S (length accs)) with (length (Fin (cfg_t0 c) :: map Fin (map at_end accs)))
          by (cbn; rewrite !map_length; reflexivity).
        rewrite at_set_app. rewrite map_app. cbn [map app]. rewrite <- app_assoc. cbn [app].
        cbn [length]. rewrite !map_length, Nat.add_1_r. reflexivity.
      + exists (dis ++ [so_dense (do_step c s)]). split.
        * rewrite Hin, Hi, (repeat_S_sub None m _ Hlt).
          assert (Hla : length accs = length (map (@Some DI) dis))
            by (rewrite map_length, <- (F2_len _ _ _ HF); reflexivity).
          rewrite Nat.add_1_r, Hla, at_set_app, map_app, <- app_assoc. reflexivity.
        * apply Forall2_app; [exact HF|]. constructor; [reflexivity|constructor].
    - rewrite app_nil_r. split; [exact Hl|]. split; [lia|]. split; [exact Hts|]. eauto.
  Qed.

  Lemma dense_while (c : config) m n : forall accs s,
    cfg_dense c = true -> dense_inv c m accs s -> (length accs + n <= m)%nat ->
    dense_inv c m (accs ++ accepted (history c n s)) (while_loop c n s).
  Proof.
    induction n as [|n IH]; intros accs s Hd Hinv Hlen; cbn [history while_loop].
    - unfold accepted. cbn. rewrite app_nil_r. exact Hinv.
    - destruct (cond_fun c s).
      + pose proof (dense_body c m accs s Hd Hinv ltac:(lia)) as Hb.
        assert (Hlen' : (length (accs ++ accepted [attempt_of c s]) + n <= m)%nat).
        { rewrite app_length. unfold accepted. cbn [filter].
          destruct (at_keep (attempt_of c s)); cbn [length]; lia. }
        specialize (IH _ _ Hd Hb Hlen').
        replace (accs ++ accepted (attempt_of c s :: history c n (body_fun c s)))
          with ((accs ++ accepted [attempt_of c s]) ++ accepted (history c n (body_fun c s))).
        * exact IH.
        * rewrite <- app_assoc. f_equal. unfold accepted. cbn [filter].
          destruct (at_keep (attempt_of c s)); reflexivity.
      + unfold accepted. cbn. rewrite app_nil_r. exact Hinv.
  Qed.

  Lemma dense_init (c : config) (i : initial) s0 m :
    cfg_dense c = true -> cfg_max_steps c = Some m -> init_state c i = Some s0 -> dense_inv c m [] s0.
  Proof.
    intros Hd Hm. unfold init_state, obind. destruct (omap _ _); [|discriminate].
    destruct (omap2 _ _ _); [|discriminate]. rewrite Hd, Hm.
    destruct (first_true _ _). intros H; injection H as <-. unfold dense_inv.
    cbn [length st_dense_index st_dense_ts st_dense_infos map app]. rewrite Nat.sub_0_r.
    split; [lia|]. split; [reflexivity|]. split; [reflexivity|]. exists []. split; [reflexivity|constructor].
  Qed.

  Lemma out_state_finish (c : config) (s : state) (o : outcome) : finish c s = Some o -> out_state o = s.
  Proof.
    unfold finish, finish_batched, obind. destruct (final_time _ _ _) as [[tf yf] r].
    destruct (if cfg_t0 c =? cfg_t1 c then _ else _); [|discriminate].
    destruct (omap2 _ _ _); [|discriminate]. intros H. injection H as <-. reflexivity.
  Qed.

  (** What [sol.interpolation] consists of. *)
  Lemma sol_interpolation_inv (c : config) (i : initial) (h : list attempt) (o : outcome) :
    solve_run c i h o -> cfg_dense c = true ->
    exists m, cfg_max_steps c = Some m /\ dense_inv c m (accepted h) (out_state o).
  Proof.
    intros (s0 & n & Hi & Hn & -> & Hf) Hd.
    destruct (cfg_max_steps c) as [m|] eqn:Hm.
    - subst n. exists m. split; [reflexivity|]. rewrite (out_state_finish _ _ _ Hf).
      apply (dense_while c m m [] s0 Hd); [|cbn; lia]. eapply dense_init; eauto.
    - exfalso. revert Hi. unfold init_state, obind. destruct (omap _ _); [|discriminate].
      destruct (omap2 _ _ _); [|discriminate]. rewrite Hd, Hm. discriminate.
  Qed.

  (** The chain of accepted steps. *)
  Lemma chain_ends (c : config) (accs : list attempt) : forall t y ss j,
    solver_run c t y ss j accs -> no_time_jumps accs ->
    forall k a, nth_error accs k = Some a ->
      nth_error (t :: map at_end accs) k = Some (at_from a) /\
      nth_error (t :: map at_end accs) (S k) = Some (at_to a).
  Proof.
    induction accs as [|b accs IH]; intros t y ss j Hr Hnj k a Hk; [destruct k; discriminate|].
    inversion Hr as [|t' y' ss' j0 b' j' accs' Hfrom Hyp Hj Hkeep Hy Hint Hr']; subst.
    inversion Hnj as [|? ? Hb Hnj']; subst. specialize (Hb Hkeep).
    destruct k as [|k]; cbn [nth_error map] in Hk |- *.
    - injection Hk as ->. split; [reflexivity|]. rewrite Hb. reflexivity.
    - destruct (IH _ _ _ _ Hr' Hnj' k a Hk) as [H1 H2]. split; [exact H1|exact H2].
  Qed.

  Lemma no_jumps_accepted (h : list attempt) : no_time_jumps h -> no_time_jumps (accepted h).
  Proof.
    intros H. unfold no_time_jumps, accepted in *. rewrite Forall_forall in *. intros a Ha.
    apply filter_In in Ha. apply H. tauto.
  Qed.

  Lemma sol_has_knots (c : config) (i : initial) (h : list attempt) (o : outcome) :
    solve_run c i h o -> cfg_dense c = true -> rejects_in_place h -> no_time_jumps h ->
    (forall a, In a h -> at_from a <= at_to a) ->
    exists dis, has_knots (sol_interpolation c i o) (cfg_t0 c :: map at_end (accepted h)) dis /\
      Forall2 (fun a di => at_interp a = interpolate c (at_from a) (at_to a) di) (accepted h) dis /\
      (forall k a, nth_error (accepted h) k = Some a ->
        nth_error (cfg_t0 c :: map at_end (accepted h)) k = Some (at_from a) /\
        nth_error (cfg_t0 c :: map at_end (accepted h)) (S k) = Some (at_to a)).
  Proof.
    intros Hrun Hd Hrj Hnj Hle.
    destruct (sol_interpolation_inv c i h o Hrun Hd) as (m & Hm & Hl & Hi & Hts & dis & Hin & HF).
    pose proof (pf_C08_accepted_steps_run c i h o Hrun Hrj) as Hsr.
    pose proof (chain_ends c _ _ _ _ _ Hsr (no_jumps_accepted h Hnj)) as Hch.
    exists dis. split; [|split; [exact HF|exact Hch]].
    unfold has_knots, sol_interpolation. cbn [dn_ts dn_ts_size dn_infos].
    split; [eauto|]. split; [rewrite Hi; cbn; rewrite map_length; lia|].
    split; [cbn; rewrite map_length, (F2_len _ _ _ HF); reflexivity|].
    apply Sorted_StronglySorted; [intros x y z; lia|].
    (* sortedness from the chain *)
    assert (G : forall (l : list Z), (forall k x y, nth_error l k = Some x -> nth_error l (S k) = Some y -> x <= y) ->
              Sorted Z.le l).
    { induction l as [|x l IHl]; intros Hx; constructor.
      - apply IHl. intros k u w Hu Hw. apply (Hx (S k) u w Hu Hw).
      - destruct l as [|y l]; constructor. apply (Hx 0%nat x y eq_refl eq_refl). }
    apply G. intros k x y Hx Hy.
    destruct (nth_error (accepted h) k) as [a|] eqn:Ha.
    - destruct (Hch k a Ha) as [H1 H2]. assert (x = at_from a) by congruence. assert (y = at_to a) by congruence.
      subst. apply Hle. apply nth_error_In in Ha. apply filter_In in Ha. tauto.
    - apply nth_error_None in Ha. exfalso.
      assert (S k < length (cfg_t0 c :: map at_end (accepted h)))%nat by (apply nth_error_Some; congruence).
      cbn in H. rewrite map_length in H. lia.
  Qed.

  Lemma find_first {A} (p : A -> bool) l a : find p l = Some a ->
    exists k, nth_error l k = Some a /\ p a = true /\
      forall k' a', (k' < k)%nat -> nth_error l k' = Some a' -> p a' = false.
  Proof.
    induction l as [|x l IH]; cbn; [discriminate|]. destruct (p x) eqn:Hx.
    - intros H. injection H as ->. exists 0%nat. repeat split; auto. intros; lia.
    - intros H. destruct (IH H) as (k & H1 & H2 & H3). exists (S k). repeat split; auto.
      intros [|k'] a' Hk Ha; cbn in Ha; [congruence|]. apply (H3 k' a'); [lia|exact Ha].
  Qed.

  Lemma pf_C15_dense_is_saveat_ts (c : config) (i : initial) (h : list attempt) (o : outcome) (t : Z)
        (a : attempt) :
    solve_run c i h o -> cfg_dense c = true -> rejects_in_place h -> no_time_jumps h ->
    (forall a, In a h -> at_from a <= at_to a) ->
    cfg_t0 c <= t -> find (fun a => t <=? at_to a) (accepted h) = Some a ->
    dense_evaluate (sol_interpolation c i o) t true = Some (at_interp a t).
  Proof.
    intros Hrun Hd Hrj Hnj Hle Ht Hf.
    destruct (sol_has_knots c i h o Hrun Hd Hrj Hnj Hle) as (dis & Hk & HF & Hch).
    destruct (find_first _ _ _ Hf) as (k & Hka & Hpa & Hfirst).
    destruct (Hch k a Hka) as [Hfrom Hto].
    assert (exists di, nth_error dis k = Some di /\ at_interp a = interpolate c (at_from a) (at_to a) di)
      as (di & Hdi & Hint).
    { clear - HF Hka. revert k Hka. induction HF as [|x y l l' Hxy HF IH]; intros [|k] Hk; try discriminate.
      - injection Hk as <-. exists y. auto.
      - apply IH. exact Hk. }
    rewrite (pf_C43_interval _ _ _ t true k (at_from a) (at_to a) di Hk Hfrom Hto Hdi).
    - rewrite Hint. reflexivity.
    - apply Z.leb_le in Hpa. split; [|exact Hpa].
      destruct k as [|k].
      + right. split; [reflexivity|]. cbn in Hfrom. injection Hfrom as <-. exact Ht.
      + left. destruct (nth_error (accepted h) k) as [b|] eqn:Hb.
        * specialize (Hfirst k b ltac:(lia) Hb). apply Z.leb_gt in Hfirst.
          destruct (Hch k b Hb) as [_ Hbto]. assert (at_to b = at_from a) by congruence. lia.
        * apply nth_error_None in Hb. assert (S k < length (accepted h))%nat by (apply nth_error_Some; congruence). lia.
  Qed.

  Lemma pf_C15_outside (c : config) (i : initial) (h : list attempt) (o : outcome) (t : Z) (left : bool) :
    solve_run c i h o -> cfg_dense c = true -> rejects_in_place h -> no_time_jumps h ->
    (forall a, In a h -> at_from a <= at_to a) ->
    (t < cfg_t0 c \/ fst (current (cfg_t0 c) (in_y i) (accepted h)) < t) ->
    dense_evaluate (sol_interpolation c i o) t left = None.
  Proof.
    intros Hrun Hd Hrj Hnj Hle Ht.
    destruct (sol_has_knots c i h o Hrun Hd Hrj Hnj Hle) as (dis & Hk & HF & Hch).
    destruct (accepted h) as [|b accs] eqn:Hacc.
    - cbn in Ht. destruct Hk as (_ & Hsz & _). cbn in Hsz.
      rewrite (pf_C43_trivial (sol_interpolation c i o) t left Hsz). cbn. destruct (Z.eqb_spec t (cfg_t0 c)); [lia|reflexivity].
    - rewrite <- Hacc in *.
      assert (Hlast : nth_error (cfg_t0 c :: map at_end (accepted h))
                        (length (cfg_t0 c :: map at_end (accepted h)) - 1) =
                      Some (fst (current (cfg_t0 c) (in_y i) (accepted h)))).
      { unfold current. clear. destruct (accepted h) as [|a l] using rev_ind; [reflexivity|].
        rewrite !map_app. cbn [map]. rewrite last_last. cbn [length fst].
        rewrite app_length, !map_length. cbn [length].
        replace (S (length l + 1) - 1)%nat with (S (length l)) by lia. cbn [nth_error].
        rewrite nth_error_app2 by (rewrite map_length; lia). rewrite map_length, Nat.sub_diag. reflexivity. }
      eapply (pf_C43_outside _ _ _ t (cfg_t0 c)); eauto.
      rewrite Hacc. cbn. lia.
  Qed.

  Lemma pf_C15_trivial (c : config) (i : initial) (h : list attempt) (o : outcome) (t : Z) (left : bool) :
    solve_run c i h o -> cfg_dense c = true -> accepted h = [] ->
    dense_evaluate (sol_interpolation c i o) t left = if t =? cfg_t0 c then Some (in_y i) else None.
  Proof.
    intros Hrun Hd Hacc. destruct (sol_interpolation_inv c i h o Hrun Hd) as (m & Hm & Hl & Hi & _).
    rewrite Hacc in Hi. apply pf_C43_trivial. cbn. rewrite Hi. reflexivity.
  Qed.
End Solve.

Section Combined.
  Context {Y SS CS DI E V MS : Type}.
  Notation config := (config Y SS CS DI E V MS).
  Notation initial := (initial Y SS CS MS).
  Notation outcome := (outcome Y SS CS DI V MS).
  Notation attempt := (attempt Y).
  Lemma pf_C15_saved_values (c : config) (i : initial) (h : list attempt) (o : outcome) (j : nat)
        (sub : subsaveat Y V) (ts : list Z) :
    solve_run c i h o -> cfg_dense c = true ->
    has_root_finder c = false -> stepto_len c = None -> results_ok c ->
    rejects_in_place h -> no_time_jumps h -> (forall a, In a h -> at_from a <= at_to a) ->
    cfg_t0 c < cfg_t1 c -> nth_error (cfg_subs c) j = Some sub ->
    sub_ts sub = Some ts -> sub_t0 sub = false -> sub_t1 sub = false -> sub_steps sub = 0%nat ->
    Sorted Z.le ts -> Forall (fun t => cfg_t0 c <= t <= cfg_t1 c) ts ->
    out_result o = successful ->
    exists sv, nth_error (out_save o) j = Some sv /\ ss_ts sv = map Fin ts /\
      ss_ys sv = map (fun t => option_map (sub_fn sub t) (dense_evaluate (sol_interpolation c i o) t true)) ts /\
      Forall (fun t => dense_evaluate (sol_interpolation c i o) t true <> None) ts.
  Proof.
    intros Hrun Hd Hrf Hst Hok Hrj Hnj Hle Hlt Hsub Hts Ht0 Ht1 Hsteps Hs Hb Hres.
    destruct (pf_C04_saveat_ts c i h o j sub ts) as (sv & H1 & H2 & H3); auto.
    { eapply Forall_impl; [|exact Hb]. cbn. lia. }
    exists sv. split; [exact H1|]. split; [exact H2|].
    pose proof (pf_C15_dense_is_saveat_ts c i h o) as HD. revert H3 Hb. clear - HD Hrun Hd Hrj Hnj Hle.
    intros H3. induction H3 as [|t v l l' (a & Hf & ->) H3 IH]; intros Hb; [split; [reflexivity|constructor]|].
    inversion Hb as [|? ? Hb1 Hb2]; subst. destruct (IH Hb2) as [IH1 IH2].
    cbn [map]. rewrite IH1. rewrite (HD t a Hrun Hd Hrj Hnj Hle ltac:(lia) Hf). cbn.
    split; [reflexivity|]. constructor; [|exact IH2]. rewrite (HD t a Hrun Hd Hrj Hnj Hle ltac:(lia) Hf). discriminate.
  Qed.
End Combined.
