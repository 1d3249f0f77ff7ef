(** Proofs about solves with [ConstantStepSize] and [StepTo]. *)
From Coq Require Import ZArith List Bool Arith Lia Sorting.Sorted.
From Verif Require Import Model_Result Model_Loop Spec_Loop Proof_LoopBasic Proof_LoopSave
  Proof_LoopFinish Proof_LoopEvent Proof_PropLoop Model_Fixed Spec_Fixed.
Import ListNotations.
Open Scope Z_scope.

Section Sched.
  Context {Y SS CS DI E V MS : Type}.
  Notation config := (config Y SS CS DI E V MS).
  Notation initial := (initial Y SS CS MS).
  Notation state := (state Y SS CS DI V MS).
  Notation outcome := (outcome Y SS CS DI V MS).
  Notation attempt := (attempt Y).

  (** A controller that accepts everything and follows a schedule of times. *)
  Record scheduled (c : config) (p : nat -> Z) (cs : nat -> CS) : Prop := {
    sc_adapt : forall k a y y1 e, exists q,
      adapt c a (p (S k)) y y1 e (cs k) = AdaptOut true (p (S k)) q false (cs (S k)) successful /\
      p (S (S k)) = clip_to_end (midpoint c) (p (S k)) q (cfg_t1 c) (t1_clip_floor (cfg_t1 c)) true;
    sc_le : forall k, p k <= cfg_t1 c
  }.
  Definition at_sched (p : nat -> Z) (cs : nat -> CS) (k : nat) (s : state) : Prop :=
    st_tprev s = p k /\ st_tnext s = p (S k) /\ st_controller_state s = cs k /\ st_num_steps s = k.

  Lemma sched_body (c : config) p cs k (s : state) :
    scheduled c p cs -> at_sched p cs k s ->
    at_sched p cs (S k) (body_fun c s) /\
    at_from (attempt_of c s) = p k /\ at_to (attempt_of c s) = p (S k) /\
    at_keep (attempt_of c s) = true /\ at_end (attempt_of c s) = p (S k) /\
    at_controller_result (attempt_of c s) = successful.
  Proof.
    intros [Ha Hl] (H1 & H2 & H3 & H4).
    assert (Had : exists q, do_adapt c s = AdaptOut true (p (S k)) q false (cs (S k)) successful /\
      p (S (S k)) = clip_to_end (midpoint c) (p (S k)) q (cfg_t1 c) (t1_clip_floor (cfg_t1 c)) true).
    { unfold do_adapt. rewrite H2, H3. apply Ha. }
    destruct Had as (q & Hq & Hp).
    assert (He : at_end (attempt_of c s) = p (S k)).
    { rewrite attempt_of_eq, Hq. cbn. specialize (Hl (S k)). lia. }
    assert (Hk : at_keep (attempt_of c s) = true) by (rewrite attempt_of_eq, Hq; reflexivity).
    split; [|split; [|split; [|split; [|split]]]]; auto.
    - split; [rewrite body_tprev; exact He|]. split.
      { rewrite body_tnext, He, Hk, Hq. symmetry. exact Hp. }
      split; [rewrite body_controller_state, Hq; reflexivity|]. rewrite body_num_steps. lia.
    - rewrite attempt_of_eq, Hq. reflexivity.
  Qed.

  Lemma sched_history (c : config) p cs n : forall k (s : state),
    scheduled c p cs -> at_sched p cs k s ->
    map (fun a => (at_from a, at_to a)) (history c n s)
      = map (fun j => (p j, p (S j))) (seq k (length (history c n s))) /\
    Forall (fun a => at_keep a = true /\ at_end a = at_to a /\
                     at_controller_result a = successful) (history c n s) /\
    at_sched p cs (k + length (history c n s)) (while_loop c n s).
  Proof.
    induction n as [|n IH]; intros k s Hc Hs; cbn [history while_loop].
    - cbn. rewrite Nat.add_0_r. auto.
    - destruct (cond_fun c s); [|cbn; rewrite Nat.add_0_r; auto].
      destruct (sched_body c p cs k s Hc Hs) as (Hb & Hf & Ht & Hk & He & Hr).
      destruct (IH (S k) _ Hc Hb) as (I1 & I2 & I3). cbn [map length seq].
      split; [rewrite Hf, Ht, I1; reflexivity|].
      split; [constructor; [repeat split; congruence|exact I2]|].
      rewrite Nat.add_succ_r. exact I3.
  Qed.

  (** The loop condition depends only on the position. *)
  Definition goes_on (c : config) (p : nat -> Z) (k : nat) : bool :=
    match stepto_len c with
    | Some n => (k <? n - 1)%nat
    | None => p k <? cfg_t1 c
    end.
  Lemma sched_cond (c : config) p cs k (s : state) :
    at_sched p cs k s -> cond_fun c s = goes_on c p k && is_successful (st_result s).
  Proof.
    intros (H1 & H2 & H3 & H4). unfold cond_fun, goes_on. rewrite H1, H4. reflexivity.
  Qed.

  (** If nothing fails the number of iterations is exact. *)
  Lemma sched_count (c : config) p cs N : forall n k (s : state),
    scheduled c p cs -> at_sched p cs k s -> cfg_event c = None ->
    (forall a b y ss j, so_result (solver_step c a b y ss j) = successful) ->
    st_result s = successful -> (k <= N)%nat ->
    (forall j, (j < N)%nat -> goes_on c p j = true) -> goes_on c p N = false ->
    length (history c n s) = Nat.min n (N - k) /\ st_result (while_loop c n s) = successful.
  Proof.
    induction n as [|n IH]; intros k s Hc Hs He Hr Hok HkN Hgo Hstop; cbn [history while_loop].
    - cbn. auto.
    - rewrite (sched_cond c p cs k s Hs), Hok. cbn [is_successful]. rewrite andb_true_r.
      destruct (goes_on c p k) eqn:Hg.
      + assert (Hlt : (k < N)%nat).
        { destruct (Nat.eq_dec k N) as [->|]; [congruence|lia]. }
        destruct (sched_body c p cs k s Hc Hs) as (Hb & Hf & Ht & Hk & He' & Hcr).
        assert (Hok' : st_result (body_fun c s) = successful).
        { rewrite (body_result_no_event c s He). unfold pre_result.
          rewrite Hk, Hok. rewrite attempt_of_eq in Hcr. cbn in Hcr. cbn zeta. unfold do_step. rewrite Hr. cbn.
          exact Hcr. }
        destruct (IH (S k) _ Hc Hb He Hr Hok' ltac:(lia) Hgo Hstop) as (I1 & I2).
        split; [|exact I2]. cbn [length]. rewrite I1. lia.
      + assert (k = N).
        { destruct (Nat.eq_dec k N); [assumption|]. rewrite Hgo in Hg; [congruence|lia]. }
        subst k. rewrite Nat.sub_diag, Nat.min_0_r. auto.
  Qed.

  Lemma sched_run (c : config) (i : initial) (h : list attempt) (o : outcome) p cs :
    scheduled c p cs -> solve_run c i h o ->
    p 0%nat = cfg_t0 c -> p 1%nat = Z.min (in_tnext i) (cfg_t1 c) -> cs 0%nat = in_controller_state i ->
    map (fun a => (at_from a, at_to a)) h = map (fun j => (p j, p (S j))) (seq 0 (length h)) /\
    Forall (fun a => at_keep a = true /\ at_end a = at_to a /\ at_controller_result a = successful) h /\
    at_sched p cs (length h) (out_state o).
  Proof.
    intros Hc (s0 & n & Hi & Hn & -> & Hf) H0 H1 H2.
    destruct (init_time c i s0 Hi) as (I1 & _ & I2 & I3 & _ & _ & _ & _ & I4 & _).
    assert (Hs : at_sched p cs 0 s0) by (repeat split; congruence).
    destruct (sched_history c p cs n 0 s0 Hc Hs) as (A & B & D).
    destruct (finish_state c _ _ Hf) as [-> _]. auto.
  Qed.

  (** Success means that the schedule is exhausted. *)
  Lemma sched_success (c : config) (i : initial) (h : list attempt) (o : outcome) p cs :
    scheduled c p cs -> solve_run c i h o -> results_ok c -> rf_results_ok c ->
    p 0%nat = cfg_t0 c -> p 1%nat = Z.min (in_tnext i) (cfg_t1 c) -> cs 0%nat = in_controller_state i ->
    (forall k, (k < length h)%nat -> goes_on c p k = true) /\
    (out_result o = successful -> goes_on c p (length h) = false).
  Proof.
    intros Hc Hrun Hok Hrf H0 H1 H2.
    destruct (sched_run c i h o p cs Hc Hrun H0 H1 H2) as (_ & _ & Hs). 
    destruct Hrun as (s0 & n & Hi & Hn & -> & Hf).
    destruct (init_time c i s0 Hi) as (I1 & _ & I2 & I3 & _ & _ & _ & _ & I4 & _).
    assert (Hs0 : at_sched p cs 0 s0) by (repeat split; congruence).
    split.
    - clear - Hc Hs0. 
      enough (forall n k s, at_sched p cs k s ->
                forall j, (j < length (history c n s))%nat -> goes_on c p (k + j) = true)
        as H by (intros k Hk; apply (H n 0%nat s0 Hs0 k Hk)).
      clear n s0 Hs0. induction n as [|n IH]; intros k s Hs j Hj; cbn [history] in Hj; [cbn in Hj; lia|].
      destruct (cond_fun c s) eqn:Hcnd; [|cbn in Hj; lia].
      rewrite (sched_cond c p cs k s Hs) in Hcnd. apply andb_prop in Hcnd. destruct Hcnd as [Hg _].
      destruct j as [|j]; [rewrite Nat.add_0_r; exact Hg|].
      destruct (sched_body c p cs k s Hc Hs) as (Hb & _). rewrite Nat.add_succ_r.
      apply (IH (S k) _ Hb). cbn in Hj. lia.
    - intros Hsucc. destruct (finish_state c _ _ Hf) as [Hst (r & Hr & Hres)].
      rewrite Hst in Hs. rewrite Hsucc in Hres.
      destruct (cond_fun c (while_loop c n s0)) eqn:Hcnd; [discriminate|]. cbn in Hres.
      rewrite (sched_cond c p cs _ _ Hs) in Hcnd.
      destruct (goes_on c p _); [|reflexivity]. cbn in Hcnd. exfalso.
      destruct (final_result_cases c _ _ _ _ _ Hrf Hr) as [(_ & _ & H)|(_ & _ & [H|[H _]])]; subst.
      + rewrite <- H in Hcnd. discriminate.
      + rewrite <- H in Hcnd. discriminate.
      + congruence.
  Qed.

  (** The loop halts, and when. *)
  Lemma sched_terminates (c : config) (i : initial) (h : list attempt) (o : outcome) p cs N :
    scheduled c p cs -> solve_run c i h o -> cfg_event c = None ->
    (forall a b y ss j, so_result (solver_step c a b y ss j) = successful) ->
    p 0%nat = cfg_t0 c -> p 1%nat = Z.min (in_tnext i) (cfg_t1 c) -> cs 0%nat = in_controller_state i ->
    (forall j, (j < N)%nat -> goes_on c p j = true) -> goes_on c p N = false ->
    match cfg_max_steps c with
    | Some m => length h = Nat.min m N /\
                out_result o = if (m <? N)%nat then max_steps_reached else successful
    | None => length h = N /\ out_result o = successful
    end.
  Proof.
    intros Hc (s0 & n & Hi & Hn & -> & Hf) He Hr H0 H1 H2 Hgo Hstop.
    destruct (init_time c i s0 Hi) as (I1 & _ & I2 & I3 & _ & _ & _ & _ & I4 & _).
    assert (Hs : at_sched p cs 0 s0) by (repeat split; congruence).
    assert (Hok : st_result s0 = successful) by (eapply init_successful_no_event; eauto).
    destruct (sched_count c p cs N n 0 s0 Hc Hs He Hr Hok ltac:(lia) Hgo Hstop) as (Hl & Hres).
    destruct (sched_history c p cs n 0 s0 Hc Hs) as (_ & _ & D). cbn [Nat.add] in D.
    assert (Hnrf : has_root_finder c = false) by (unfold has_root_finder; rewrite He; reflexivity).
    destruct (finish_norf_final c _ _ Hnrf Hf) as (_ & _ & _ & Hout).
    rewrite (sched_cond c p cs _ _ D), Hres in Hout. cbn [is_successful] in Hout.
    rewrite andb_true_r in Hout. rewrite Nat.sub_0_r in Hl.
    destruct (cfg_max_steps c) as [m|].
    - subst n. split; [exact Hl|]. rewrite Hout, Hl.
      destruct (m <? N)%nat eqn:Hlt.
      + apply Nat.ltb_lt in Hlt. rewrite Nat.min_l by lia. rewrite Hgo by lia. reflexivity.
      + apply Nat.ltb_ge in Hlt. rewrite Nat.min_r by lia. rewrite Hstop. reflexivity.
    - rewrite (sched_cond c p cs _ _ D), Hres in Hn. cbn in Hn. rewrite andb_true_r in Hn.
      rewrite Hn in Hout. split; [|exact Hout]. 
      destruct (Nat.eq_dec (length (history c n s0)) N) as [|Hne]; [assumption|].
      rewrite Hgo in Hn; [discriminate|lia].
  Qed.

  Lemma sched_halts (c : config) (i : initial) s0 p cs N :
    scheduled c p cs -> init_state c i = Some s0 -> cfg_event c = None ->
    (forall a b y ss j, so_result (solver_step c a b y ss j) = successful) ->
    p 0%nat = cfg_t0 c -> p 1%nat = Z.min (in_tnext i) (cfg_t1 c) -> cs 0%nat = in_controller_state i ->
    (forall j, (j < N)%nat -> goes_on c p j = true) -> goes_on c p N = false ->
    cond_fun c (while_loop c N s0) = false.
  Proof.
    intros Hc Hi He Hr H0 H1 H2 Hgo Hstop.
    destruct (init_time c i s0 Hi) as (I1 & _ & I2 & I3 & _ & _ & _ & _ & I4 & _).
    assert (Hs : at_sched p cs 0 s0) by (repeat split; congruence).
    assert (Hok : st_result s0 = successful) by (eapply init_successful_no_event; eauto).
    destruct (sched_count c p cs N N 0 s0 Hc Hs He Hr Hok ltac:(lia) Hgo Hstop) as (Hl & Hres).
    destruct (sched_history c p cs N 0 s0 Hc Hs) as (_ & _ & D). cbn [Nat.add] in D.
    rewrite (sched_cond c p cs _ _ D), Hl, Nat.sub_0_r, Nat.min_id, Hstop. reflexivity.
  Qed.
End Sched.

Lemma sorted_nth_lt (l : list Z) : StronglySorted Z.lt l -> forall i j x y,
  (i < j)%nat -> nth_error l i = Some x -> nth_error l j = Some y -> x < y.
Proof.
  induction 1 as [|a l Hs IH Hf]; intros i j x y Hij Hx Hy.
  - destruct i; discriminate.
  - destruct i as [|i], j as [|j]; try lia; cbn in Hx, Hy.
    + injection Hx as ->. rewrite Forall_forall in Hf. apply Hf. eapply nth_error_In. exact Hy.
    + apply (IH i j x y); auto. lia.
Qed.

Section StepTo.
  Context {Y SS DI E V MS : Type}.
  Notation config := (config Y SS nat DI E V MS).
  Notation initial := (initial Y SS nat MS).
  Notation outcome := (outcome Y SS nat DI V MS).
  Notation attempt := (attempt Y).

  (** The schedule. *)
  Definition stepto_point (ts : list Z) (t1 : Z) (k : nat) : Z :=
    match k with
    | O => nth 0 ts t1
    | 1%nat => Z.min (nth 1 ts t1) t1
    | _ => let x := nth (Nat.min k (length ts - 1)) ts t1 in
           if t1 - 100 <? x then t1 else x
    end.

  Lemma stepto_scheduled (ts : list Z) (c : config) (i : initial) :
    stepto_solve ts c i ->
    scheduled c (stepto_point ts (cfg_t1 c)) (fun k => (k + 2)%nat) /\
    stepto_point ts (cfg_t1 c) 0 = cfg_t0 c /\
    stepto_point ts (cfg_t1 c) 1 = Z.min (in_tnext i) (cfg_t1 c) /\
    in_controller_state i = 2%nat /\ cfg_t0 c < cfg_t1 c.
  Proof.
    intros (Ha & Hi & Hl & Hlen & Hs & H0 & H1). split; [|split; [|split; [|split]]].
    - constructor.
      + intros k a y y1 e. rewrite Ha. unfold stepto_adapt.
        assert (Hg : get_clamp ts (k + 2) = Some (nth (Nat.min (k + 2) (length ts - 1)) ts (cfg_t1 c))).
        { unfold get_clamp. apply nth_error_nth'. lia. }
        rewrite Hg. eexists. split; [f_equal; lia|]. unfold clip_to_end. rewrite floor_lt.
        cbn [stepto_point]. replace (k + 2)%nat with (S (S k)) by lia. reflexivity.
      + intros [|[|k]]; cbn [stepto_point].
        * destruct ts as [|x ts]; [cbn in Hlen; lia|]. cbn in H0. injection H0 as ->. cbn.
          enough (cfg_t0 c < cfg_t1 c) by lia.
          apply (sorted_nth_lt _ Hs 0 (length (cfg_t0 c :: ts) - 1)); auto; lia.
        * lia.
        * destruct (Z.ltb_spec (cfg_t1 c - 100) (nth (Nat.min (S (S k)) (length ts - 1)) ts (cfg_t1 c)));
            cbv zeta; lia.
    - cbn. apply nth_error_nth. exact H0.
    - unfold stepto_init, get_clamp in Hi. rewrite Nat.min_l in Hi by lia.
      destruct (nth_error ts 1) as [t|] eqn:Ht; [|discriminate]. injection Hi as -> _.
      cbn [stepto_point]. rewrite (nth_error_nth _ _ _ Ht). reflexivity.
    - unfold stepto_init in Hi. destruct (get_clamp ts 1); [|discriminate]. injection Hi as _ ->.
      reflexivity.
    - apply (sorted_nth_lt _ Hs 0 (length ts - 1)); auto. lia.
  Qed.

  Lemma stepto_point_eq (ts : list Z) (t1 : Z) k :
    (2 <= length ts)%nat -> StronglySorted Z.lt ts ->
    nth_error ts (length ts - 1) = Some t1 -> (forall x, In x ts -> x < t1 -> x <= t1 - 100) ->
    (k < length ts)%nat -> stepto_point ts t1 k = nth k ts t1.
  Proof.
    intros Hlen Hs H1 Hsp Hk.
    assert (Hle : nth k ts t1 <= t1 - 100 \/ nth k ts t1 = t1).
    { destruct (Nat.eq_dec k (length ts - 1)) as [->|Hne].
      - right. apply nth_error_nth. exact H1.
      - left. assert (Hk' : nth_error ts k = Some (nth k ts t1)) by (apply nth_error_nth'; exact Hk).
        apply Hsp; [eapply nth_error_In; exact Hk'|].
        apply (sorted_nth_lt _ Hs k (length ts - 1) _ _ ltac:(lia) Hk' H1). }
    destruct k as [|[|k]]; cbn [stepto_point]; [reflexivity|lia|].
    rewrite Nat.min_l by lia. cbv zeta.
    destruct (Z.ltb_spec (t1 - 100) (nth (S (S k)) ts t1)); lia.
  Qed.

  Lemma combine_tl_seq (l : list Z) d n :
    (n <= length l - 1)%nat ->
    map (fun j => (nth j l d, nth (S j) l d)) (seq 0 n) = firstn n (combine l (tl l)).
  Proof.
    revert n. induction l as [|x l IH]; intros n Hn.
    - cbn in Hn. replace n with 0%nat by lia. reflexivity.
    - destruct n as [|n]; [reflexivity|]. cbn [length] in Hn.
      destruct l as [|x' l]; [cbn in Hn; lia|].
      cbn [seq map tl combine firstn nth]. f_equal.
      rewrite <- seq_shift, map_map. apply (IH n). cbn [length] in *. lia.
  Qed.

  Lemma pf_C26_steps_partial (ts : list Z) (c : config) (i : initial) (h : list attempt)
        (o : outcome) :
    stepto_solve ts c i -> (forall x, In x ts -> x < cfg_t1 c -> x <= cfg_t1 c - 100) ->
    solve_run c i h o -> results_ok c -> rf_results_ok c ->
    map (fun a => (at_from a, at_to a)) h = firstn (length h) (combine ts (tl ts)) /\
    Forall (fun a => at_keep a = true /\ at_end a = at_to a) h /\
    (length h <= length ts - 1)%nat /\
    (out_result o = successful ->
     map (fun a => (at_from a, at_to a)) h = combine ts (tl ts)).
  Proof.
    intros Hsv Hsp Hrun Hok Hrf.
    destruct (stepto_scheduled ts c i Hsv) as (Hsc & P0 & P1 & Hcs & _).
    destruct Hsv as (Ha & Hi & Hl & Hlen & Hs & H0 & H1).
    destruct (sched_run c i h o _ _ Hsc Hrun P0 P1 (eq_sym Hcs)) as (A & B & _).
    destruct (sched_success c i h o _ _ Hsc Hrun Hok Hrf P0 P1 (eq_sym Hcs)) as (G & S).
    assert (Hn : (length h <= length ts - 1)%nat).
    { destruct (Nat.le_gt_cases (length h) (length ts - 1)) as [|Hgt]; [assumption|].
      specialize (G (length ts - 1)%nat Hgt). unfold goes_on in G. rewrite Hl in G.
      apply Nat.ltb_lt in G. lia. }
    assert (Hm : map (fun a => (at_from a, at_to a)) h = firstn (length h) (combine ts (tl ts))).
    { rewrite A, <- (combine_tl_seq ts (cfg_t1 c)) by exact Hn.
      apply map_ext_in. intros j Hj. apply in_seq in Hj.
      rewrite !stepto_point_eq by (auto; lia). reflexivity. }
    split; [exact Hm|]. split; [eapply Forall_impl; [|exact B]; cbn; tauto|]. split; [exact Hn|].
    intros Hsucc. specialize (S Hsucc). unfold goes_on in S. rewrite Hl in S. apply Nat.ltb_ge in S.
    rewrite Hm. apply firstn_all2. rewrite combine_length.
    destruct ts as [|x ts]; cbn [length tl] in *; lia.
  Qed.

  Lemma pf_C27_stepto (ts : list Z) (c : config) (i : initial) (s0 : state Y SS nat DI V MS) :
    stepto_solve ts c i -> cfg_event c = None ->
    (forall a b y ss j, so_result (solver_step c a b y ss j) = successful) ->
    (init_state c i = Some s0 -> cond_fun c (while_loop c (length ts - 1) s0) = false) /\
    (forall (h : list attempt) (o : outcome), solve_run c i h o ->
      match cfg_max_steps c with
      | Some m => length h = Nat.min m (length ts - 1) /\
                  (out_result o = max_steps_reached <-> (m < length ts - 1)%nat) /\
                  (out_result o = successful <-> (length ts - 1 <= m)%nat)
      | None => length h = (length ts - 1)%nat /\ out_result o = successful
      end).
  Proof.
    intros Hsv He Hr.
    destruct (stepto_scheduled ts c i Hsv) as (Hsc & P0 & P1 & Hcs & _).
    destruct Hsv as (Ha & Hi & Hl & Hlen & Hs & H0 & H1).
    assert (Hgo : forall p j, (j < length ts - 1)%nat -> goes_on c p j = true).
    { intros p j Hj. unfold goes_on. rewrite Hl. apply Nat.ltb_lt. exact Hj. }
    assert (Hst : forall p, goes_on c p (length ts - 1) = false).
    { intros p. unfold goes_on. rewrite Hl. apply Nat.ltb_ge. lia. }
    split.
    - intros Hi0. exact (sched_halts c i s0 _ _ _ Hsc Hi0 He Hr P0 P1 (eq_sym Hcs) (Hgo _) (Hst _)).
    - intros h o Hrun.
      pose proof (sched_terminates c i h o _ _ _ Hsc Hrun He Hr P0 P1 (eq_sym Hcs) (Hgo _) (Hst _)) as H.
      destruct (cfg_max_steps c) as [m|]; [|exact H]. destruct H as [H2 H3]. split; [exact H2|].
      destruct (Nat.ltb_spec m (length ts - 1)); rewrite H3; split; split; intros; try discriminate; auto; lia.
  Qed.

  Lemma pf_C02_stepto_times (ts : list Z) (c : config) (i : initial) (h : list attempt) (o : outcome) :
    stepto_solve ts c i -> solve_run c i h o ->
    (forall a, In a h -> cfg_t0 c <= at_from a /\ at_from a <= at_to a /\ at_to a <= cfg_t1 c) /\
    (forall h1 a b h2, h = h1 ++ a :: b :: h2 -> at_from b = at_to a).
  Proof.
    intros Hsv Hrun.
    destruct (stepto_scheduled ts c i Hsv) as (Hsc & P0 & P1 & Hcs & Ht).
    destruct (sched_run c i h o _ _ Hsc Hrun P0 P1 (eq_sym Hcs)) as (A & B & _).
    destruct Hsv as (Ha & Hi & Hl & Hlen & Hs & H0 & H1).
    set (p := stepto_point ts (cfg_t1 c)) in *.
    assert (Hmono : forall k, p k <= p (S k)).
    { intros k. subst p. destruct k as [|[|k]]; cbn [stepto_point].
      - assert (X0 : nth_error ts 0 = Some (nth 0 ts (cfg_t1 c))) by (apply nth_error_nth'; lia).
        assert (X1 : nth_error ts 1 = Some (nth 1 ts (cfg_t1 c))) by (apply nth_error_nth'; lia).
        pose proof (sorted_nth_lt _ Hs 0 1 _ _ ltac:(lia) X0 X1).
        cbn [stepto_point] in P0. lia.
      - cbv zeta. destruct (Z.ltb_spec (cfg_t1 c - 100) (nth (Nat.min 2 (length ts - 1)) ts (cfg_t1 c))); [lia|].
        assert (X1 : nth_error ts 1 = Some (nth 1 ts (cfg_t1 c))) by (apply nth_error_nth'; lia).
        assert (X2 : nth_error ts (Nat.min 2 (length ts - 1)) = Some (nth (Nat.min 2 (length ts - 1)) ts (cfg_t1 c)))
          by (apply nth_error_nth'; lia).
        destruct (Nat.eq_dec (length ts) 2) as [E2|].
        + rewrite E2 in *. cbn in *. lia.
        + pose proof (sorted_nth_lt _ Hs 1 (Nat.min 2 (length ts - 1)) _ _ ltac:(lia) X1 X2). lia.
      - cbv zeta.
        set (a := Nat.min (S (S k)) (length ts - 1)). set (b := Nat.min (S (S (S k))) (length ts - 1)).
        assert (Xa : nth_error ts a = Some (nth a ts (cfg_t1 c))) by (apply nth_error_nth'; lia).
        assert (Xb : nth_error ts b = Some (nth b ts (cfg_t1 c))) by (apply nth_error_nth'; lia).
        assert (nth a ts (cfg_t1 c) <= nth b ts (cfg_t1 c)).
        { destruct (Nat.eq_dec a b) as [->|]; [lia|].
          pose proof (sorted_nth_lt _ Hs a b _ _ ltac:(lia) Xa Xb). lia. }
        destruct (Z.ltb_spec (cfg_t1 c - 100) (nth a ts (cfg_t1 c)));
          destruct (Z.ltb_spec (cfg_t1 c - 100) (nth b ts (cfg_t1 c))); lia. }
    assert (H0p : forall k, cfg_t0 c <= p k).
    { induction k; [lia|]. specialize (Hmono k). lia. }
    assert (Hnth : forall k a, nth_error h k = Some a -> at_from a = p k /\ at_to a = p (S k)).
    { intros k a Hk.
      assert (Hk' : nth_error (map (fun a => (at_from a, at_to a)) h) k = Some (at_from a, at_to a))
        by (rewrite nth_error_map, Hk; reflexivity).
      rewrite A, nth_error_map in Hk'.
      assert (k < length h)%nat by (apply nth_error_Some; congruence).
      rewrite (nth_error_nth' _ 0%nat) in Hk' by (rewrite seq_length; lia).
      rewrite seq_nth in Hk' by lia. cbn [option_map Nat.add] in Hk'.
      clearbody p. injection Hk' as -> ->. auto. }
    split.
    - intros a Hin. apply In_nth_error in Hin. destruct Hin as [k Hk].
      destruct (Hnth k a Hk) as [-> ->]. split; [apply H0p|]. split; [apply Hmono|apply (sc_le _ _ _ Hsc)].
    - intros h1 a b h2 ->.
      destruct (Hnth (length h1) a) as [_ ->].
      { rewrite nth_error_app2, Nat.sub_diag by lia. reflexivity. }
      destruct (Hnth (S (length h1)) b) as [-> _].
      { rewrite nth_error_app2, Nat.sub_succ_l, Nat.sub_diag by lia. reflexivity. }
      reflexivity.
  Qed.
End StepTo.

Section Const.
  Context {Y SS DI E V MS : Type}.
  Notation config := (config Y SS (const_state Z) DI E V MS).
  Notation initial := (initial Y SS (const_state Z) MS).
  Notation outcome := (outcome Y SS (const_state Z) DI V MS).
  Notation attempt := (attempt Y).

  Definition const_cs (o : time_ops Z) (t0 t1 dt0 : Z) (k : nat) : const_state Z :=
    ConstState (Z.of_nat k + 1) (intended_steps o t0 t1 dt0) t0 t1.

  Lemma const_scheduled (o : time_ops Z) (dt0 : Z) (c : config) (i : initial) :
    const_solve o dt0 c i -> 0 <= intended_steps o (cfg_t0 c) (cfg_t1 c) dt0 ->
    scheduled c (const_point o (cfg_t0 c) (cfg_t1 c) dt0) (const_cs o (cfg_t0 c) (cfg_t1 c) dt0) /\
    const_point o (cfg_t0 c) (cfg_t1 c) dt0 0 = cfg_t0 c /\
    const_point o (cfg_t0 c) (cfg_t1 c) dt0 1 = Z.min (in_tnext i) (cfg_t1 c) /\
    const_cs o (cfg_t0 c) (cfg_t1 c) dt0 0 = in_controller_state i.
  Proof.
    intros (Ha & Hi & Hl & Ht & Hfin) Hn. unfold const_init in Hi. rewrite Hfin in Hi.
    injection Hi as Hi1 Hi2. split; [|split; [|split]].
    - constructor.
      + intros k a y y1 e. rewrite Ha. unfold const_adapt. eexists. split.
        * unfold const_step, const_cs. cbn. f_equal. f_equal. lia.
        * unfold clip_to_end, const_next, const_cs. rewrite floor_lt.
          cbn [const_point steps_completed num_steps t0_sim t1_sim_or_dt0].
          destruct (Z.leb_spec 0 (intended_steps o (cfg_t0 c) (cfg_t1 c) dt0)); [|lia].
          replace (Z.of_nat k + 1 + 1) with (Z.of_nat (S (S k))) by lia. reflexivity.
      + intros [|[|k]]; cbn [const_point]; [lia|lia|]. cbv zeta.
        match goal with |- (if ?b <? ?x then _ else _) <= _ => destruct (Z.ltb_spec b x); lia end.
    - reflexivity.
    - cbn [const_point]. rewrite <- Hi1. reflexivity.
    - rewrite Hi2. unfold const_cs, intended_steps. reflexivity.
  Qed.

  Lemma fraction_mono (o : time_ops Z) t0 t1 n j k :
    ops_ok o -> t0 <= t1 -> 0 < n -> 0 <= j -> j <= k -> 
    t0 <= fraction o t0 t1 j n /\ fraction o t0 t1 j n <= fraction o t0 t1 k n.
  Proof.
    intros Ho Ht Hn Hj Hjk. unfold fraction.
    pose proof (ok_int_pos o Ho n Hn) as Hp. pose proof (ok_sub o Ho t0 t1 Ht) as Hd.
    split.
    - rewrite <- (ok_add0 o Ho t0) at 1. apply (ok_add o Ho).
      rewrite <- (ok_mul0 o Ho (t_sub o t1 t0)). apply (ok_mul o Ho); [exact Hd|].
      rewrite <- (ok_div0 o Ho (t_of_int o n) Hp). apply (ok_div o Ho); [exact Hp|].
      rewrite <- (ok_int0 o Ho). apply (ok_int o Ho). exact Hj.
    - apply (ok_add o Ho), (ok_mul o Ho); [exact Hd|]. apply (ok_div o Ho); [exact Hp|].
      apply (ok_int o Ho). exact Hjk.
  Qed.

  Lemma const_point_mono (o : time_ops Z) t0 t1 dt0 k :
    ops_ok o -> t0 <= t1 -> 0 <= dt0 -> 
    let n := intended_steps o t0 t1 dt0 in
    0 < n -> t_add o t0 dt0 <= fraction o t0 t1 2 n \/ t1 <= fraction o t0 t1 2 n \/ n <= 2 ->
    const_point o t0 t1 dt0 k <= const_point o t0 t1 dt0 (S k) \/ n < Z.of_nat (S k).
  Proof.
    intros Ho Ht Hdt n Hn H2. 
    destruct (Z.lt_ge_cases n (Z.of_nat (S k))) as [|Hk]; [auto|left].
    destruct k as [|[|k]].
    - cbn [const_point]. assert (t0 <= t_add o t0 dt0); [|lia].
      rewrite <- (ok_add0 o Ho t0) at 1. apply (ok_add o Ho). exact Hdt.
    - cbn [const_point]. cbv zeta. fold n. change (Z.of_nat 2) with 2 in *.
      destruct (Z.eqb_spec 2 n).
      + destruct (Z.ltb_spec (t1 - 100) t1); lia.
      + destruct (Z.ltb_spec (t1 - 100) (fraction o t0 t1 2 n)); lia.
    - cbn [const_point]. cbv zeta. fold n.
      destruct (Z.eqb_spec (Z.of_nat (S (S k))) n) as [He|Hne]; [lia|].
      destruct (Z.eqb_spec (Z.of_nat (S (S (S k)))) n) as [He'|Hne'].
      + destruct (Z.ltb_spec (t1 - 100) t1); [|lia].
        destruct (Z.ltb_spec (t1 - 100) (fraction o t0 t1 (Z.of_nat (S (S k))) n)); lia.
      + destruct (fraction_mono o t0 t1 n (Z.of_nat (S (S k))) (Z.of_nat (S (S (S k)))) Ho Ht Hn) as [_ Hm];
          [lia|lia|].
        destruct (Z.ltb_spec (t1 - 100) (fraction o t0 t1 (Z.of_nat (S (S k))) n));
          destruct (Z.ltb_spec (t1 - 100) (fraction o t0 t1 (Z.of_nat (S (S (S k)))) n)); lia.
  Qed.

  (** All points before the intended number of steps are before [t1]. *)
  Lemma const_goes_on (o : time_ops Z) (dt0 : Z) (c : config) k :
    ops_ok o -> stepto_len c = None -> cfg_t0 c < cfg_t1 c ->
    let n := intended_steps o (cfg_t0 c) (cfg_t1 c) dt0 in
    0 < n -> (n = 1 \/ t_add o (cfg_t0 c) dt0 < cfg_t1 c) ->
    (3 <= n -> fraction o (cfg_t0 c) (cfg_t1 c) (n - 1) n <= cfg_t1 c - 100) ->
    (k < Z.to_nat n)%nat ->
    const_point o (cfg_t0 c) (cfg_t1 c) dt0 k < cfg_t1 c.
  Proof.
    intros Ho Hl Ht n Hn H1 Hlast Hk.
    destruct k as [|[|k]]; cbn [const_point]; [exact Ht|lia|]. cbv zeta. fold n.
    destruct (Z.eqb_spec (Z.of_nat (S (S k))) n) as [He|Hne]; [lia|].
    destruct (fraction_mono o (cfg_t0 c) (cfg_t1 c) n (Z.of_nat (S (S k))) (n - 1) Ho) as [_ Hm]; try lia.
    destruct (Z.ltb_spec (cfg_t1 c - 100) (fraction o (cfg_t0 c) (cfg_t1 c) (Z.of_nat (S (S k))) n)); lia.
  Qed.
  Lemma const_last (o : time_ops Z) (dt0 t0 t1 : Z) :
    let n := intended_steps o t0 t1 dt0 in
    0 < n -> (n = 1 -> t1 <= t_add o t0 dt0) ->
    const_point o t0 t1 dt0 (Z.to_nat n) = t1.
  Proof.
    intros n Hn H1. destruct (Z.to_nat n) as [|[|k]] eqn:Hk; [lia| |]; cbn [const_point].
    - assert (n = 1) by lia. specialize (H1 H). lia.
    - cbv zeta. fold n. assert (Z.of_nat (S (S k)) = n) as -> by lia. rewrite Z.eqb_refl.
      destruct (Z.ltb_spec (t1 - 100) t1); lia.
  Qed.

  Lemma pf_C25_steps (o : time_ops Z) (dt0 : Z) (c : config) (i : initial) (h : list attempt)
        (out : outcome) :
    const_solve o dt0 c i -> 0 <= intended_steps o (cfg_t0 c) (cfg_t1 c) dt0 ->
    solve_run c i h out -> results_ok c -> rf_results_ok c ->
    let p := const_point o (cfg_t0 c) (cfg_t1 c) dt0 in
    map (fun a => (at_from a, at_to a)) h = map (fun k => (p k, p (S k))) (seq 0 (length h)) /\
    Forall (fun a => at_keep a = true /\ at_end a = at_to a) h /\
    (forall k, (k < length h)%nat -> p k < cfg_t1 c) /\
    (out_result out = successful -> p (length h) = cfg_t1 c).
  Proof.
    intros Hsv Hn Hrun Hok Hrf p.
    destruct (const_scheduled o dt0 c i Hsv Hn) as (Hsc & P0 & P1 & Hcs).
    destruct (sched_run c i h out _ _ Hsc Hrun P0 P1 Hcs) as (A & B & _).
    destruct (sched_success c i h out _ _ Hsc Hrun Hok Hrf P0 P1 Hcs) as (G & S).
    destruct Hsv as (Ha & Hi & Hl & Ht & Hfin).
    split; [exact A|]. split; [eapply Forall_impl; [|exact B]; cbn; tauto|]. split.
    - intros k Hk. specialize (G k Hk). unfold goes_on in G. rewrite Hl in G. apply Z.ltb_lt in G. exact G.
    - intros Hsucc. specialize (S Hsucc). unfold goes_on in S. rewrite Hl in S. apply Z.ltb_ge in S.
      pose proof (sc_le _ _ _ Hsc (length h)) as Hle. unfold p. lia.
  Qed.

  Lemma pf_C25_number_of_steps (o : time_ops Z) (dt0 : Z) (c : config) (i : initial)
        (h : list attempt) (out : outcome) :
    const_solve o dt0 c i -> ops_ok o -> solve_run c i h out -> results_ok c -> rf_results_ok c ->
    let t0 := cfg_t0 c in let t1 := cfg_t1 c in
    let n := intended_steps o t0 t1 dt0 in
    (n = 1 /\ t1 <= t_add o t0 dt0) \/ (2 <= n /\ t_add o t0 dt0 < t1) ->
    (3 <= n -> fraction o t0 t1 (n - 1) n <= t1 - 100) ->
    out_result out = successful ->
    length h = Z.to_nat n /\
    (forall k a, nth_error h k = Some a ->
       at_from a = (if (k =? 0)%nat then t0 else if (k =? 1)%nat then t_add o t0 dt0
                    else fraction o t0 t1 (Z.of_nat k) n) /\
       at_to a = (if (S k =? Z.to_nat n)%nat then t1 else if (k =? 0)%nat then t_add o t0 dt0
                  else fraction o t0 t1 (Z.of_nat (S k)) n)).
  Proof.
    intros Hsv Ho Hrun Hok Hrf t0 t1 n Hcase Hlast Hsucc.
    assert (Hn : 0 < n) by lia.
    destruct (pf_C25_steps o dt0 c i h out Hsv ltac:(subst n t0 t1; lia) Hrun Hok Hrf) as (A & _ & B & C).
    specialize (C Hsucc). destruct Hsv as (Ha & Hi & Hl & Ht & Hfin).
    assert (Hlt : forall k, (k < Z.to_nat n)%nat -> const_point o t0 t1 dt0 k < t1).
    { intros k Hk. apply const_goes_on; auto. subst n t0 t1. lia. }
    assert (Hlen : length h = Z.to_nat n).
    { destruct (Nat.lt_trichotomy (length h) (Z.to_nat n)) as [H|[H|H]]; [|exact H|].
      - specialize (Hlt _ H). subst t0 t1. lia.
      - specialize (B _ H). rewrite const_last in B; [lia|exact Hn|]. subst n t0 t1. lia. }
    split; [exact Hlen|]. intros k a Hk.
    assert (Hkl : (k < length h)%nat) by (apply nth_error_Some; congruence).
    assert (Hk' : nth_error (map (fun a => (at_from a, at_to a)) h) k = Some (at_from a, at_to a))
      by (rewrite nth_error_map, Hk; reflexivity).
    rewrite A, nth_error_map in Hk'.
    rewrite (nth_error_nth' _ 0%nat) in Hk' by (rewrite seq_length; lia).
    rewrite seq_nth in Hk' by lia. cbn [option_map Nat.add] in Hk'.
    assert (Hp : forall j, (j < Z.to_nat n)%nat -> const_point o t0 t1 dt0 j =
              if (j =? 0)%nat then t0 else if (j =? 1)%nat then t_add o t0 dt0
              else fraction o t0 t1 (Z.of_nat j) n).
    { intros j Hj. destruct j as [|[|j]]; cbn [const_point Nat.eqb]; [reflexivity|lia|]. cbv zeta.
      fold n. destruct (Z.eqb_spec (Z.of_nat (S (S j))) n); [lia|].
      destruct (fraction_mono o t0 t1 n (Z.of_nat (S (S j))) (n - 1) Ho) as [_ Hm]; try (subst t0 t1; lia).
      destruct (Z.ltb_spec (t1 - 100) (fraction o t0 t1 (Z.of_nat (S (S j))) n)); lia. }
    assert (Hf : const_point o (cfg_t0 c) (cfg_t1 c) dt0 k = at_from a) by congruence.
    assert (Hto : const_point o (cfg_t0 c) (cfg_t1 c) dt0 (S k) = at_to a) by congruence.
    fold t0 t1 in Hf, Hto. split.
    - rewrite <- Hf. apply Hp. lia.
    - rewrite <- Hto. destruct (Nat.eqb_spec (S k) (Z.to_nat n)) as [He|Hne].
      + rewrite He. apply const_last; [exact Hn|]. subst n t0 t1. lia.
      + rewrite Hp by lia. destruct k; reflexivity.
  Qed.

  Lemma pf_C27_const (o : time_ops Z) (dt0 : Z) (c : config) (i : initial) (s0 : state Y SS (const_state Z) DI V MS) :
    const_solve o dt0 c i -> ops_ok o -> cfg_event c = None ->
    (forall a b y ss j, so_result (solver_step c a b y ss j) = successful) ->
    let t0 := cfg_t0 c in let t1 := cfg_t1 c in
    let n := intended_steps o t0 t1 dt0 in
    (n = 1 /\ t1 <= t_add o t0 dt0) \/ (2 <= n /\ t_add o t0 dt0 < t1) ->
    (3 <= n -> fraction o t0 t1 (n - 1) n <= t1 - 100) ->
    (init_state c i = Some s0 -> cond_fun c (while_loop c (Z.to_nat n) s0) = false) /\
    (forall (h : list attempt) (out : outcome), solve_run c i h out ->
      match cfg_max_steps c with
      | Some m => length h = Nat.min m (Z.to_nat n) /\
                  (out_result out = max_steps_reached <-> (m < Z.to_nat n)%nat) /\
                  (out_result out = successful <-> (Z.to_nat n <= m)%nat)
      | None => length h = Z.to_nat n /\ out_result out = successful
      end).
  Proof.
    intros Hsv Ho He Hr t0 t1 n Hcase Hlast.
    assert (Hn : 0 < n) by lia.
    destruct (const_scheduled o dt0 c i Hsv ltac:(subst n t0 t1; lia)) as (Hsc & P0 & P1 & Hcs).
    destruct Hsv as (Ha & Hi & Hl & Ht & Hfin).
    assert (Hgo : forall j, (j < Z.to_nat n)%nat -> goes_on c (const_point o t0 t1 dt0) j = true).
    { intros j Hj. unfold goes_on. rewrite Hl. apply Z.ltb_lt.
      apply const_goes_on; auto. subst n t0 t1. lia. }
    assert (Hst : goes_on c (const_point o t0 t1 dt0) (Z.to_nat n) = false).
    { unfold goes_on. rewrite Hl. apply Z.ltb_ge. unfold n. rewrite const_last; fold n.
      - subst t1. lia.
      - exact Hn.
      - subst n t0 t1. lia. }
    split.
    - intros Hi0. exact (sched_halts c i s0 _ _ _ Hsc Hi0 He Hr P0 P1 Hcs Hgo Hst).
    - intros h out Hrun.
      pose proof (sched_terminates c i h out _ _ _ Hsc Hrun He Hr P0 P1 Hcs Hgo Hst) as H.
      destruct (cfg_max_steps c) as [m|]; [|exact H]. destruct H as [H2 H3]. split; [exact H2|].
      destruct (Nat.ltb_spec m (Z.to_nat n)); rewrite H3; split; split; intros; try discriminate; auto; lia.
  Qed.
End Const.
