(** The clipping controller: its contract, and the storing of rejected steps. *)
From Coq Require Import ZArith List Bool Arith Lia Sorting.Sorted.
From Verif Require Import Model_Result Model_Loop Spec_Loop Model_Clip Spec_Clip Proof_Clip
  Proof_LoopBasic Proof_LoopFinish Proof_LoopTs Proof_LoopRoot Proof_PropLoop Proof_ClipLoop.
Import ListNotations.
Open Scope Z_scope.

Section ClipRej.
  Context {Y SS IS DI E V MS : Type}.
  Notation CS := (clip_state IS).
  Notation config := (config Y SS CS DI E V MS).
  Notation state := (state Y SS CS DI V MS).
  Notation initial := (initial Y SS CS MS).
  Notation outcome := (outcome Y SS CS DI V MS).
  Notation attempt := (attempt Y).
  Notation clip_controller := (clip_controller Y E IS).

  Record clip_ok (k : clip_controller) (c : config) : Prop := {
    co_adapt : forall a b y y1 e s, adapt c a b y y1 e s = clip_adapt k a b y y1 e s;
    co_inner : inner_ok (controller_adapt k);
    co_nj : inner_no_jumps (controller_adapt k);
    co_steps : Sorted Z.le (ts_of (step_ts k));
    co_jumps : Sorted Z.le (ts_of (jump_ts k));
    co_spaced : spaced (ts_of (jump_ts k));
    co_stepto : stepto_len c = None;
    co_end : store_rejected_steps k = None \/
             forall j, In j (ts_of (jump_ts k)) -> j <= cfg_t1 c - 100 \/ cfg_t1 c < j
  }.

  Record clip_I (k : clip_controller) (c : config) (tp tn : Z) (cs : CS) : Prop := {
    iv_wf : clip_wf k cs;
    iv_store : store_rejected_steps k = None -> reject_info cs = None;
    iv_rwf : reject_wf (reject_info cs);
    iv_free : tp < cfg_t1 c -> ~ In tp (ts_of (jump_ts k)) /\ ~ In (tp + 1) (ts_of (jump_ts k));
    iv_sorted : StronglySorted Z.lt (pending (reject_info cs));
    iv_pend : forall r j, In r (pending (reject_info cs)) -> In j (ts_of (jump_ts k)) -> tp <= j -> r < j;
    iv_jump : forall j, In j (ts_of (jump_ts k)) -> tp <= j -> tn < j \/ near_end c j
  }.

  (** What one call does, in a good state. *)
  Lemma clip_call (k : clip_controller) (c : config) tp tn y y1 e cs :
    clip_ok k c -> clip_I k c tp tn cs -> tp <= tn -> tn <= cfg_t1 c -> tp < cfg_t1 c ->
    let ao := clip_adapt k tp tn y y1 e cs in
    let inner := controller_adapt k tp tn y y1 e (inner_state cs) in
    ao_keep ao = ao_keep inner /\
    (ao_keep ao = true -> tn <= ao_tprev ao) /\
    (ao_keep ao = false -> ao_tprev ao = tp) /\
    (ao_result ao = successful ->
       let p := pending (reject_info cs) in
       let p' := pending (reject_info (ao_state ao)) in
       ao_tprev ao <= ao_tnext ao /\
       match p with x :: _ => tn <= x | [] => True end /\
       (reject_info cs <> None ->
        p' = (if ao_keep ao then [] else [tn]) ++
             match p with x :: q => if tn =? x then q else p | [] => [] end) /\
       (forall r, In r p' -> ao_tnext ao <= r) /\
       (forall r, In r p' -> if ao_keep ao then ao_tprev ao < r /\ In r p else r = tn \/ tn < r /\ In r p) /\
       StronglySorted Z.lt p' /\
       (let tp' := Z.min (ao_tprev ao) (cfg_t1 c) in
        clip_I k c tp' (clip_to_end (midpoint c) tp' (ao_tnext ao) (cfg_t1 c)
                            (t1_clip_floor (cfg_t1 c)) (ao_keep ao)) (ao_state ao))).
  Proof.
    intros Hok HI Hle Ht1 Hlt ao inner.
    destruct (clip_adapt_facts k tp tn y y1 e cs (co_steps _ _ Hok) (co_jumps _ _ Hok) (iv_wf _ _ _ _ _ HI))
      as (f & n1 & F1 & F2 & F3 & F4 & F5 & F6 & F7 & _ & _).
    fold inner in F2, F3, F4, F5, F6. fold ao in F1, F2, F3, F4, F5, F6, F7.
    assert (Hin : ao_tprev inner = if ao_keep inner then tn else tp).
    { destruct (ao_keep inner) eqn:Hk.
      - apply (co_nj _ _ Hok). exact Hk.
      - apply (io_reject _ (co_inner _ _ Hok)). exact Hk. }
    destruct (iv_free _ _ _ _ _ HI Hlt) as [Fr1 Fr2].
    pose proof (bump_range (ao_tprev inner) (ts_of (jump_ts k))) as Hbr. rewrite <- F3 in Hbr. cbn [fst] in Hbr.
    assert (Hkeep : ao_keep ao = true -> tn <= ao_tprev ao)
      by (rewrite F2; intros Hk; rewrite Hk in Hin; lia).
    assert (Hrej : ao_keep ao = false -> ao_tprev ao = tp).
    { rewrite F2. intros Hk. rewrite Hk in Hin. rewrite Hin, bump_free in F3 by assumption.
      injection F3 as -> _. reflexivity. }
    split; [exact F2|]. split; [exact Hkeep|]. split; [exact Hrej|]. intros Hres p p'.
    assert (Hnx : ao_tprev ao <= n1) by (apply F6, (io_next _ (co_inner _ _ Hok)); exact Hle).
    (* the pending ends *)
    assert (HP : ao_tnext ao = min_opt (hd_error p') n1 /\ reject_wf (reject_info (ao_state ao)) /\
                 match p with x :: _ => tn <= x | [] => True end /\
                 (store_rejected_steps k = None -> reject_info (ao_state ao) = None) /\
                 (reject_info cs <> None ->
                   p' = (if ao_keep ao then [] else [tn]) ++
                        match p with x :: q => if tn =? x then q else p | [] => [] end) /\
                 (reject_info cs = None -> p' = [])).
    { destruct (reject_info cs) as [[ri rts]|] eqn:Hri.
      - pose proof (iv_rwf _ _ _ _ _ HI) as Hwf. rewrite Hri in Hwf.
        assert (Hoky : is_okay (ao_result ao) = true) by (rewrite Hres; reflexivity).
        destruct (adapt_rejects_spec _ _ _ _ _ _ _ _ _ Hwf F5 Hoky) as (P1 & P2 & P3 & P4 & P5 & P6).
        split; [exact P6|]. split; [exact P2|]. split; [exact P1|].
        split; [intros Hn; apply (iv_store _ _ _ _ _ HI) in Hn; congruence|].
        split; [|discriminate]. intros _. rewrite F2. exact P5.
      - cbn [adapt_rejects] in F5. injection F5 as E1 E2 E3. subst p p'. rewrite <- E3. cbn. rewrite E1. repeat split; auto; congruence. }
    destruct HP as (P1 & P2 & P3 & P4 & P5 & P6).
    (* elements of the new list *)
    assert (Hel : forall r, In r p' -> if ao_keep ao then tn < r /\ In r p else r = tn \/ tn < r /\ In r p).
    { intros r Hr. destruct (reject_info cs) as [q|] eqn:Hri; [|rewrite P6 in Hr by reflexivity; destruct Hr].
      rewrite P5 in Hr by discriminate. pose proof (iv_sorted _ _ _ _ _ HI) as Hso. rewrite Hri in Hso. fold p in Hso.
      assert (Hold : In r match p with x :: q0 => if tn =? x then q0 else p | [] => [] end -> tn < r /\ In r p).
      { destruct p as [|x q0]; [intros []|]. apply StronglySorted_inv in Hso. destruct Hso as [Hso HF].
        rewrite Forall_forall in HF. destruct (Z.eqb_spec tn x).
        - intros Hq. specialize (HF r Hq). split; [lia|right; exact Hq].
        - intros [<-|Hq]; [split; [lia|left; reflexivity]|]. specialize (HF r Hq). split; [lia|right; exact Hq]. }
      destruct (ao_keep ao); [apply Hold; exact Hr|]. destruct Hr as [<-|Hr]; [left; reflexivity|right; auto]. }
    assert (Hso' : StronglySorted Z.lt p').
    { destruct (reject_info cs) as [q|] eqn:Hri; [|rewrite P6 by reflexivity; constructor].
      pose proof (iv_sorted _ _ _ _ _ HI) as Hso. rewrite Hri in Hso. fold p in Hso.
      rewrite P5 by discriminate. 
      assert (Hrest : StronglySorted Z.lt match p with x :: q0 => if tn =? x then q0 else p | [] => [] end).
      { destruct p as [|x q0]; [constructor|]. destruct (tn =? x); [|exact Hso]. apply StronglySorted_inv in Hso. tauto. }
      destruct (ao_keep ao) eqn:Hk; [exact Hrest|]. cbn [app]. constructor; [exact Hrest|].
      apply Forall_forall. intros r Hr. destruct p as [|x q0]; [destruct Hr|].
      apply StronglySorted_inv in Hso. destruct Hso as [Hso HF]. rewrite Forall_forall in HF.
      destruct (Z.eqb_spec tn x); [specialize (HF r Hr); lia|].
      destruct Hr as [<-|Hr]; [lia|]. specialize (HF r Hr). lia. }
    assert (Hel' : forall r, In r p' -> if ao_keep ao then ao_tprev ao < r /\ In r p else r = tn \/ tn < r /\ In r p).
    { intros r Hr. specialize (Hel r Hr). destruct (ao_keep ao) eqn:Hk; [|exact Hel].
      destruct Hel as [Hr1 Hr2]. split; [|exact Hr2].
      rewrite <- F2 in Hin. rewrite Hin in F3.
      destruct (bump_cases tn (ts_of (jump_ts k))) as [[B1 B2]|[(B0 & B1 & B2)|(B0 & B1 & B2)]];
        rewrite <- F3 in B2; injection B2 as B2 _.
      - pose proof (iv_pend _ _ _ _ _ HI r _ Hr2 B1). lia.
      - pose proof (iv_pend _ _ _ _ _ HI r _ Hr2 B1). lia.
      - lia. }
    assert (Hge : forall r, In r p' -> ao_tprev ao <= r).
    { intros r Hr. specialize (Hel' r Hr). destruct (ao_keep ao) eqn:Hk; [lia|]. rewrite (Hrej eq_refl). lia. }
    assert (Hmin : ao_tnext ao <= n1 /\ (forall r, In r p' -> ao_tnext ao <= r) /\
                   (ao_tnext ao = n1 \/ In (ao_tnext ao) p')).
    { rewrite P1. destruct p' as [|x q]; cbn [hd_error min_opt]; [split; [lia|]; split; [intros r []|auto]|].
      split; [lia|]. apply StronglySorted_inv in Hso'. destruct Hso' as [_ HF]. rewrite Forall_forall in HF.
      split; [intros r [<-|Hr]; [lia|specialize (HF r Hr); lia]|].
      destruct (Z.min_spec x n1) as [[_ ->]|[_ ->]]; [right; left; reflexivity|left; reflexivity]. }
    destruct Hmin as (M1 & M2 & M3).
    assert (Hle' : ao_tprev ao <= ao_tnext ao) by (destruct M3 as [->|M3]; [exact Hnx|apply Hge; exact M3]).
    split; [exact Hle'|]. split; [exact P3|]. split; [exact P5|]. split; [exact M2|]. split; [exact Hel'|].
    split; [exact Hso'|].
    intros tp'. 
    assert (Htp' : tp <= tp') by (subst tp'; destruct (ao_keep ao); [specialize (Hkeep eq_refl)|rewrite (Hrej eq_refl)]; lia).
    assert (Hfree' : tp' < cfg_t1 c -> ~ In tp' (ts_of (jump_ts k)) /\ ~ In (tp' + 1) (ts_of (jump_ts k))).
    { intros Hl. assert (Etp : tp' = ao_tprev ao) by (subst tp'; lia). rewrite Etp.
      pose proof (co_spaced _ _ Hok) as Hsp.
      destruct (bump_cases (ao_tprev inner) (ts_of (jump_ts k))) as [[B1 B2]|[(B0 & B1 & B2)|(B0 & B1 & B2)]];
        rewrite <- F3 in B2; injection B2 as B2 _; rewrite B2.
      - split; intros Hj; specialize (Hsp _ _ B1 Hj); lia.
      - split; intros Hj; specialize (Hsp _ _ B1 Hj); lia.
      - auto. }
    constructor; try assumption.
    - intros r j Hr Hj Hjl. specialize (Hel' r Hr).
      assert (Hold : In r p -> r < j) by (intros Hp; apply (iv_pend _ _ _ _ _ HI r j Hp Hj); lia).
      destruct (ao_keep ao); [tauto|]. destruct Hel' as [->|[_ Hp]]; [|auto].
      destruct (iv_jump _ _ _ _ _ HI j Hj) as [|Hne]; [lia|assumption|].
      unfold near_end in Hne. destruct (co_end _ _ Hok) as [Hst|Hend]; [|specialize (Hend j Hj); lia].
      exfalso. apply (iv_store _ _ _ _ _ HI) in Hst. change (In tn p') in Hr. rewrite P6 in Hr by exact Hst. destruct Hr.
    - intros j Hj Hjl. unfold near_end.
      destruct (Z.lt_ge_cases tp' (cfg_t1 c)) as [Hl|Hl]; [|right; lia].
      destruct (Hfree' Hl) as [N1 _]. assert (Hne : tp' <> j) by (intros <-; tauto).
      assert (Etp : tp' = ao_tprev ao) by (subst tp'; lia).
      assert (Hn1 : n1 < j) by (apply F7; [exact Hj|lia]).
      unfold clip_to_end. rewrite floor_lt. destruct (Z.ltb_spec (cfg_t1 c - 100) (ao_tnext ao)); lia.
  Qed.

  Lemma clip_contract (k : clip_controller) (c : config) : clip_ok k c -> controller_contract c (clip_I k c).
  Proof.
    intros Hok tp tn y y1 e cs HI H1 H2 H3 ao.
    specialize (H3 (co_stepto _ _ Hok)).
    pose proof (clip_call k c tp tn y y1 e cs Hok HI H1 H2 H3) as Hc. cbn zeta in Hc.
    rewrite <- (co_adapt _ _ Hok) in Hc. fold ao in Hc.
    destruct Hc as (_ & C1 & C2 & C3). split; [exact C1|]. split; [exact C2|].
    intros Hr. destruct (C3 Hr) as (D1 & _ & _ & _ & _ & _ & D2). split; assumption.
  Qed.

  Lemma clip_I_init (k : clip_controller) (c : config) (i : initial) (inner_t1 : Z) (inner0 : IS) :
    clip_solve k c i inner_t1 inner0 -> store_rejected_steps k <> Some 0%nat ->
    ~ In (cfg_t0 c) (ts_of (jump_ts k)) -> ~ In (cfg_t0 c + 1) (ts_of (jump_ts k)) ->
    clip_I k c (cfg_t0 c) (Z.min (in_tnext i) (cfg_t1 c)) (in_controller_state i) /\
    pending (reject_info (in_controller_state i)) = [] /\ cfg_t0 c <= in_tnext i.
  Proof.
    intros (Had & Hin & Hle & Hok & Hs & Hj & Hst & Ht & Hm) Hn0 N1 N2.
    unfold clip_init in Hin.
    assert (Hp : forall n, pending (Some (Z.of_nat n, repeat 0 n)) = []).
    { intros n. unfold pending. destruct (Z.ltb_spec (Z.of_nat n) 0); [lia|].
      rewrite Nat2Z.id. rewrite <- (repeat_length 0 n) at 1. apply skipn_all. }
    assert (Hpend : pending (reject_info (in_controller_state i)) = []).
    { destruct (step_ts k), (jump_ts k), (store_rejected_steps k) as [n|]; injection Hin as _ ->; cbn [reject_info];
        auto. }
    split; [|split; [exact Hpend|]].
    - constructor.
      + destruct (step_ts k) as [sts|] eqn:Es, (jump_ts k) as [jts|] eqn:Ej; injection Hin as _ ->;
          split; cbn [step_info jump_info]; rewrite ?Es, ?Ej; cbn [info_wf]; auto;
          (split; [reflexivity|apply count_le_length]).
      + intros Hnone. rewrite Hnone in Hin.
        destruct (step_ts k), (jump_ts k); injection Hin as _ ->; reflexivity.
      + assert (Hw : reject_wf match store_rejected_steps k with
              | None => None | Some n => Some (Z.of_nat n, repeat 0 n) end).
        { destruct (store_rejected_steps k) as [n|]; cbn [reject_wf]; [|exact I]. rewrite repeat_length.
          split; [lia|]. destruct n; [congruence|lia]. }
        destruct (step_ts k), (jump_ts k); injection Hin as _ ->; exact Hw.
      + auto.
      + rewrite Hpend. constructor.
      + rewrite Hpend. intros r j [].
      + intros j Hjj Hl. left.
        destruct (jump_ts k) as [jts|] eqn:Ej; cbn [ts_of] in *; [|destruct Hjj].
        apply sorted_strong in Hj. pose proof (get_t_after jts (cfg_t0 c) Hj) as G.
        assert (Hlt : cfg_t0 c < j).
        { destruct (Z.eq_dec (cfg_t0 c) j) as [<-|]; [tauto|lia]. }
        assert (Hb : in_tnext i < j).
        { destruct (step_ts k) as [sts|]; injection Hin as -> _; unfold clip_t, min_opt, option_map, prevbefore;
            destruct (get_t _ jts) as [z|];
            first [destruct G as (_ & _ & G); specialize (G j Hjj Hlt)|specialize (G j Hjj)]; lia. }
        lia.
    - assert (Hsc : match step_ts k with Some ts => cfg_t0 c <= clip_t inner_t1 (get_t (searchsorted_right ts (cfg_t0 c)) ts) false | None => True end).
      { destruct (step_ts k) as [sts|]; [|exact I]. cbn [ts_of] in Hs. apply sorted_strong in Hs.
        pose proof (get_t_after sts (cfg_t0 c) Hs) as G. unfold clip_t, min_opt.
        destruct (get_t _ sts); [destruct G as (_ & G & _)|]; lia. }
      destruct (jump_ts k) as [jts|] eqn:Ej; cbn [ts_of] in *.
      + apply sorted_strong in Hj. pose proof (get_t_after jts (cfg_t0 c) Hj) as G.
        destruct (step_ts k) as [sts|]; injection Hin as -> _.
        * unfold clip_t at 1, min_opt at 1, option_map, prevbefore.
          destruct (get_t _ jts); [destruct G as (_ & G & _)|]; lia.
        * unfold clip_t at 1, min_opt at 1, option_map, prevbefore.
          destruct (get_t _ jts); [destruct G as (_ & G & _)|]; lia.
      + destruct (step_ts k) as [sts|]; injection Hin as -> _; lia.
  Qed.

  Definition clip_hyps (k : clip_controller) (c : config) (i : initial) (inner_t1 : Z) (inner0 : IS) : Prop :=
    clip_solve k c i inner_t1 inner0 /\ inner_no_jumps (controller_adapt k) /\
    spaced (ts_of (jump_ts k)) /\
    ~ In (cfg_t0 c) (ts_of (jump_ts k)) /\ ~ In (cfg_t0 c + 1) (ts_of (jump_ts k)) /\
    store_rejected_steps k <> Some 0%nat /\
    (store_rejected_steps k = None \/
             forall j, In j (ts_of (jump_ts k)) -> j <= cfg_t1 c - 100 \/ cfg_t1 c < j).

  Lemma hyps_ok (k : clip_controller) (c : config) (i : initial) (inner_t1 : Z) (inner0 : IS) : clip_hyps k c i inner_t1 inner0 -> clip_ok k c.
  Proof.
    intros ((Had & Hin & Hle & Hok & Hs & Hj & Hst & Ht & Hm) & H2 & H3 & _ & _ & _ & H4).
    constructor; assumption.
  Qed.

  Lemma clip_time_inv (k : clip_controller) (c : config) (i : initial) (inner_t1 : Z) (inner0 : IS) s0 n :
    clip_hyps k c i inner_t1 inner0 -> init_state c i = Some s0 ->
    time_inv c (clip_I k c) (while_loop c n s0).
  Proof.
    intros Hh Hi. pose proof (hyps_ok _ _ _ _ _ Hh) as Hok.
    destruct Hh as (Hc & _ & _ & N1 & N2 & N3 & _).
    destruct (clip_I_init _ _ _ _ _ Hc N3 N1 N2) as (HI & _ & Hle).
    destruct Hc as (_ & _ & _ & _ & _ & _ & _ & Ht & Hm).
    apply while_ind.
    - intros s Hcd Hs. apply (time_inv_body c (clip_I k c) s (clip_contract _ _ Hok) Hm Hcd Hs).
    - eapply run_time_inv; eauto. lia.
  Qed.
  (** C20 *)
  Definition rej_inv (c : config) (s : state) : Prop :=
    st_result s = successful ->
    (forall r, In r (pending (reject_info (st_controller_state s))) ->
       st_tnext s <= r /\ r <= cfg_t1 c /\ (r = cfg_t1 c \/ r <= cfg_t1 c - 100)) /\
    (st_tprev s = cfg_t1 c -> pending (reject_info (st_controller_state s)) = []).

  Lemma rej_inv_body (k : clip_controller) (c : config) (s : state) :
    clip_ok k c -> midpoint_ok c -> time_inv c (clip_I k c) s ->
    cond_fun c s = true -> rej_inv c s ->
    (at_to (attempt_of c s) = cfg_t1 c \/ at_to (attempt_of c s) <= cfg_t1 c - 100) ->
    rej_inv c (body_fun c s) /\
    (st_result (body_fun c s) = successful -> reject_info (st_controller_state s) <> None ->
     (at_keep (attempt_of c s) = false -> In (at_to (attempt_of c s)) (pending (reject_info (st_controller_state (body_fun c s))))) /\
     (forall r, In r (pending (reject_info (st_controller_state s))) ->
        In r (pending (reject_info (st_controller_state (body_fun c s)))) \/
        (at_keep (attempt_of c s) = true /\ at_to (attempt_of c s) = r))).
  Proof.
    intros Hok Hm (T0 & T1 & T2) Hcd Hrj Hto.
    pose proof (cond_successful _ _ Hcd) as Hsu.
    destruct (T2 Hsu) as (U1 & U2 & HI). destruct (Hrj Hsu) as [R1 R2].
    pose proof (cond_lt_t1 _ _ Hcd (co_stepto _ _ Hok)) as Hlt.
    pose proof (clip_call k c (st_tprev s) (st_tnext s) (st_y s) (so_y (do_step c s))
                  (nan_to_inf c (so_error (do_step c s))) (st_controller_state s) Hok HI U1 U2 Hlt) as Hc.
    cbn zeta in Hc. rewrite <- (co_adapt _ _ Hok) in Hc. fold (do_adapt c s) in Hc.
    destruct Hc as (_ & C1 & C2 & C3).
    assert (Eto : at_to (attempt_of c s) = st_tnext s) by (rewrite attempt_of_eq; reflexivity).
    assert (Ekp : at_keep (attempt_of c s) = ao_keep (do_adapt c s)) by (rewrite attempt_of_eq; reflexivity).
    assert (Een : at_end (attempt_of c s) = Z.min (ao_tprev (do_adapt c s)) (cfg_t1 c)) by (rewrite attempt_of_eq; reflexivity).
    split.
    - intros Hbs. pose proof (body_successful _ _ Hbs) as Har.
      destruct (C3 Har) as (D1 & D2 & D3 & D4 & D5 & D6 & D7).
      rewrite body_controller_state, body_tnext, body_tprev.
      set (p := pending (reject_info (st_controller_state s))) in *.
      set (p' := pending (reject_info (ao_state (do_adapt c s)))) in *.
      assert (Hr1 : forall r, In r p' -> r <= cfg_t1 c /\ (r = cfg_t1 c \/ r <= cfg_t1 c - 100)).
      { intros r Hr. specialize (D5 r Hr). assert (In r p \/ r = st_tnext s) as [Hp|Hp].
        { destruct (ao_keep (do_adapt c s)); [tauto|]. destruct D5 as [|[_ ?]]; auto. }
        - specialize (R1 r Hp). tauto.
        - rewrite Eto in Hto. lia. }
      split.
      + intros r Hr. specialize (Hr1 r Hr). split; [|exact Hr1].
        specialize (D4 r Hr). specialize (D5 r Hr). rewrite Een, Ekp.
        unfold clip_to_end. rewrite floor_lt.
        destruct (Z.ltb_spec (cfg_t1 c - 100) (ao_tnext (do_adapt c s))); [|exact D4].
        destruct (ao_keep (do_adapt c s)) eqn:Hk; [lia|].
        pose proof (Hm (Z.min (ao_tprev (do_adapt c s)) (cfg_t1 c)) (cfg_t1 c)). lia.
      + rewrite Een. intros Htp. destruct p' as [|r q]; [reflexivity|exfalso].
        specialize (D5 r (or_introl eq_refl)). specialize (Hr1 r (or_introl eq_refl)).
        destruct (ao_keep (do_adapt c s)) eqn:Hk; [lia|]. rewrite (C2 eq_refl) in Htp. lia.
    - intros Hbs Hri. pose proof (body_successful _ _ Hbs) as Har.
      destruct (C3 Har) as (D1 & D2 & D3 & D4 & D5 & D6 & D7). specialize (D3 Hri).
      rewrite body_controller_state, Eto, Ekp, D3. split.
      + intros ->. left. reflexivity.
      + intros r Hr. destruct (pending (reject_info (st_controller_state s))) as [|x q]; [destruct Hr|].
        destruct (Z.eqb_spec (st_tnext s) x) as [<-|Hne].
        * destruct Hr as [<-|Hr].
          -- destruct (ao_keep (do_adapt c s)); [right; auto|left; left; reflexivity].
          -- left. apply in_or_app. right. exact Hr.
        * left. apply in_or_app. right. exact Hr.
  Qed.

  Lemma reject_info_kept (k : clip_controller) (c : config) (s : state) : clip_ok k c -> clip_wf k (st_controller_state s) ->
    (reject_info (st_controller_state s) <> None <-> reject_info (st_controller_state (body_fun c s)) <> None).
  Proof.
    intros Hok Hw. destruct (clip_step_facts k c s (co_adapt _ _ Hok) (co_steps _ _ Hok) (co_jumps _ _ Hok) Hw)
      as (f & n1 & _ & _ & _ & _ & _ & F5 & _).
    rewrite body_controller_state. destruct (reject_info (st_controller_state s)) as [[ri rts]|];
      cbn [adapt_rejects] in F5; injection F5 as _ _ E1; rewrite <- E1; split; congruence.
  Qed.

  Lemma pending_accepted (k : clip_controller) (c : config) (Hok : clip_ok k c) (Hm : midpoint_ok c) n : forall s r,
    time_inv c (clip_I k c) s -> rej_inv c s -> clip_wf k (st_controller_state s) ->
    st_result s = successful ->
    reject_info (st_controller_state s) <> None ->
    Forall (fun a => at_to a = cfg_t1 c \/ at_to a <= cfg_t1 c - 100) (history c n s) ->
    st_tprev (while_loop c n s) = cfg_t1 c -> st_result (while_loop c n s) = successful ->
    In r (pending (reject_info (st_controller_state s))) ->
    exists b, In b (accepted (history c n s)) /\ at_to b = r.
  Proof.
    induction n as [|n IH]; intros s r Ht Hrj Hw Hsu Hri Hto Hend Hres Hr; cbn [while_loop history] in *.
    - destruct (Hrj Hsu) as [_ R]. rewrite R in Hr by exact Hend. destruct Hr.
    - destruct (cond_fun c s) eqn:Hcd.
      2:{ destruct (Hrj Hsu) as [_ R]. rewrite R in Hr by exact Hend. destruct Hr. }
      assert (Hbs : st_result (body_fun c s) = successful).
      { destruct (cond_fun c (body_fun c s)) eqn:Hcb; [apply (cond_successful _ _ Hcb)|].
        rewrite while_stuck in Hres by exact Hcb. exact Hres. }
      destruct (rej_inv_body k c s Hok Hm Ht Hcd Hrj (Forall_inv Hto)) as [B1 B2].
      destruct (B2 Hbs Hri) as [B3 B4].
      destruct (time_inv_body c (clip_I k c) s (clip_contract _ _ Hok) Hm Hcd Ht) as (Ht' & _).
      unfold accepted. cbn [filter]. fold (accepted (history c n (body_fun c s))).
      destruct (B4 r Hr) as [Hin|[Hk Hb]].
      + destruct (IH (body_fun c s) r) as (b & Hb1 & Hb2); try assumption.
        * destruct Ht' as (_ & _ & H). destruct (H Hbs) as (_ & _ & HI). exact (iv_wf _ _ _ _ _ HI).
        * apply (reject_info_kept k c s Hok Hw). exact Hri.
        * apply (Forall_inv_tail Hto).
        * exists b. split; [|exact Hb2]. destruct (at_keep (attempt_of c s)); [right|]; exact Hb1.
      + exists (attempt_of c s). rewrite Hk. split; [left; reflexivity|exact Hb].
  Qed.

  Lemma rej_inv_init (k : clip_controller) (c : config) (i : initial) (inner_t1 : Z) (inner0 : IS) s0 :
    clip_hyps k c i inner_t1 inner0 -> init_state c i = Some s0 -> rej_inv c s0.
  Proof.
    intros (Hc & _ & _ & N1 & N2 & N3 & _) Hi.
    destruct (clip_I_init _ _ _ _ _ Hc N3 N1 N2) as (_ & Hp & _).
    destruct (init_time _ _ _ Hi) as (_ & _ & _ & _ & _ & _ & _ & _ & I4 & _).
    intros _. rewrite I4, Hp. split; [intros r []|reflexivity].
  Qed.

  Lemma rej_inv_run (k : clip_controller) (c : config) (i : initial) (inner_t1 : Z) (inner0 : IS) s0 n m :
    clip_hyps k c i inner_t1 inner0 -> init_state c i = Some s0 ->
    Forall (fun a => at_to a = cfg_t1 c \/ at_to a <= cfg_t1 c - 100) (history c n s0) -> (m <= n)%nat ->
    rej_inv c (while_loop c m s0).
  Proof.
    intros Hh Hi Hto. pose proof (hyps_ok _ _ _ _ _ Hh) as Hok.
    assert (Hm : midpoint_ok c) by (destruct Hh as ((_ & _ & _ & _ & _ & _ & _ & _ & Hm) & _); exact Hm).
    induction m as [|m IH]; intros Hmn; [eapply rej_inv_init; eauto|].
    replace (S m) with (m + 1)%nat by lia. rewrite while_add. cbn [while_loop].
    specialize (IH ltac:(lia)).
    destruct (cond_fun c (while_loop c m s0)) eqn:Hcd; [|exact IH].
    apply (rej_inv_body k c _ Hok Hm (clip_time_inv _ _ _ _ _ _ m Hh Hi) Hcd IH).
    rewrite Forall_forall in Hto. apply Hto.
    replace n with (m + S (n - m - 1))%nat by lia. rewrite history_add. apply in_or_app. right.
    cbn [history]. rewrite Hcd. left. reflexivity.
  Qed.

  (** C20: in a successful solve, the end of each rejected step later is the end of an accepted
      one. *)
  Lemma pf_C20_rejected_ends_accepted_partial (k : clip_controller) (c : config) (i : initial) (inner_t1 : Z) (inner0 : IS)
        (h1 h2 : list attempt) (a : attempt) (o : outcome) (n : nat) :
    clip_solve k c i inner_t1 inner0 -> inner_no_jumps (controller_adapt k) ->
    store_rejected_steps k = Some (S n) ->
    spaced (ts_of (jump_ts k)) ->
    (forall j, In j (ts_of (jump_ts k)) ->
       cfg_t0 c + 1 < j /\ (j <= cfg_t1 c - 100 \/ cfg_t1 c < j)) ->
    solve_run c i (h1 ++ a :: h2) o -> results_ok c -> rf_results_ok c ->
    Forall (fun a => at_to a = cfg_t1 c \/ at_to a <= cfg_t1 c - 100) (h1 ++ a :: h2) ->
    out_result o = successful -> at_keep a = false ->
    exists b, In b (accepted h2) /\ at_to b = at_to a.
  Proof.
    intros Hc Hnj Hsr Hsp Hj Hrun Hrk Hrf Hto Hres Hk.
    assert (Hh : clip_hyps k c i inner_t1 inner0).
    { split; [exact Hc|]. split; [exact Hnj|]. split; [exact Hsp|].
      split; [intros H; specialize (Hj _ H); lia|]. split; [intros H; specialize (Hj _ H); lia|].
      split; [congruence|]. right. intros j H. specialize (Hj _ H). lia. }
    pose proof (hyps_ok _ _ _ _ _ Hh) as Hok.
    destruct Hrun as (s0 & m & Hi & Hn & Hhi & Hf).
    pose proof Hc as (_ & Hin & _ & _ & _ & _ & Hst & Hlt & Hm).
    destruct (success_tprev c i (h1 ++ a :: h2) o s0 m Hi Hf Hst) as [Htp Hsu]; try assumption; [lia|].
    assert (Hlen : (length h1 < m)%nat).
    { pose proof (history_length c m s0). rewrite <- Hhi, app_length in H. cbn in H. lia. }
    set (l := length h1) in *.
    assert (Hsplit : history c m s0 = history c l s0 ++ history c (m - l) (while_loop c l s0)).
    { rewrite <- history_add. f_equal. lia. }
    assert (Hl : length (history c l s0) = l).
    { pose proof (while_exit c l s0) as [He|He].
      - exfalso. destruct (m - l)%nat eqn:Hml; [lia|]. cbn [history] in Hsplit. rewrite He, app_nil_r in Hsplit.
        rewrite Hsplit in Hhi. pose proof (history_length c l s0) as Hl. rewrite <- Hhi, app_length in Hl. cbn in Hl.
        fold l in Hl. lia.
      - pose proof (while_num_steps c l s0). lia. }
    rewrite Hsplit in Hhi.
    assert (Hhd : h1 = history c l s0 /\ a :: h2 = history c (m - l) (while_loop c l s0)).
    { apply app_eq_app in Hhi. destruct Hhi as (q & [[Q1 Q2]|[Q1 Q2]]).
      - assert (q = []) as -> by (apply length_zero_iff_nil; apply (f_equal (@length _)) in Q1; rewrite app_length in Q1; fold l in Q1; lia).
        rewrite app_nil_r in Q1. auto.
      - assert (q = []) as -> by (apply length_zero_iff_nil; apply (f_equal (@length _)) in Q1; rewrite app_length in Q1; fold l in Q1; lia).
        rewrite app_nil_r in Q1. auto. }
    destruct Hhd as [Hh1 Hh2].
    set (s := while_loop c l s0) in *.
    assert (Htos : Forall (fun a => at_to a = cfg_t1 c \/ at_to a <= cfg_t1 c - 100) (history c m s0)).
    { rewrite Hsplit, <- Hhi. exact Hto. }
    assert (Hts : time_inv c (clip_I k c) s) by (eapply clip_time_inv; eauto).
    assert (Hrs : rej_inv c s) by (eapply rej_inv_run; eauto; lia).
    destruct (m - l)%nat as [|ml] eqn:Hml; [lia|]. cbn [history] in Hh2.
    destruct (cond_fun c s) eqn:Hcd; [|discriminate]. injection Hh2 as Ea Eh2.
    assert (Hend : while_loop c m s0 = while_loop c ml (body_fun c s)).
    { replace m with (l + S ml)%nat by lia. rewrite while_add. fold s. cbn [while_loop]. rewrite Hcd. reflexivity. }
    rewrite Hend in Htp, Hsu.
    assert (Hbs : st_result (body_fun c s) = successful).
    { destruct (cond_fun c (body_fun c s)) eqn:Hcb; [apply (cond_successful _ _ Hcb)|].
      rewrite while_stuck in Hsu by exact Hcb. exact Hsu. }
    assert (Hwf : forall q, clip_wf k (st_controller_state (while_loop c q s0))).
    { intros q. apply (ci_wf _ _ _ (clip_inv_run k c i inner_t1 inner0 s0 q Hc Hi)). }
    assert (Hri : reject_info (st_controller_state s) <> None).
    { unfold s. clear - Hwf Hok Hi Hin Hsr. revert l. induction l as [|q IH].
      - cbn. destruct (init_time _ _ _ Hi) as (_ & _ & _ & _ & _ & _ & _ & _ & I4 & _). rewrite I4.
        unfold clip_init in Hin. rewrite Hsr in Hin.
        destruct (step_ts k), (jump_ts k); injection Hin as _ ->; discriminate.
      - replace (S q) with (q + 1)%nat by lia. rewrite while_add. cbn [while_loop].
        destruct (cond_fun c (while_loop c q s0)); [|exact IH].
        apply (reject_info_kept k c _ Hok (Hwf q)). exact IH. }
    assert (Hto2 : Forall (fun a => at_to a = cfg_t1 c \/ at_to a <= cfg_t1 c - 100) (a :: h2))
      by (apply Forall_app in Hto; tauto).
    rewrite Ea in Hto2, Hk |- *.
    destruct (rej_inv_body k c s Hok Hm Hts Hcd Hrs (Forall_inv Hto2)) as [B1 B2].
    destruct (B2 Hbs Hri) as [B3 _].
    destruct (time_inv_body c (clip_I k c) s (clip_contract _ _ Hok) Hm Hcd Hts) as (Ht' & _).
    rewrite Eh2.
    apply (pending_accepted k c Hok Hm ml (body_fun c s)); try assumption.
    - destruct Ht' as (_ & _ & H). destruct (H Hbs) as (_ & _ & HI). exact (iv_wf _ _ _ _ _ HI).
    - apply (reject_info_kept k c s Hok (Hwf l)). exact Hri.
    - rewrite Eh2 in Hto2. apply (Forall_inv_tail Hto2).
    - apply B3. exact Hk.
  Qed.

  (** C20: the internal error is not reported. *)
  Lemma pf_C20_no_internal_error_partial (k : clip_controller) (c : config) (i : initial) (inner_t1 : Z) (inner0 : IS)
        (h : list attempt) (o : outcome) (n : nat) (a : attempt) :
    clip_solve k c i inner_t1 inner0 -> inner_no_jumps (controller_adapt k) ->
    store_rejected_steps k = Some (S n) ->
    spaced (ts_of (jump_ts k)) ->
    (forall j, In j (ts_of (jump_ts k)) ->
       cfg_t0 c + 1 < j /\ (j <= cfg_t1 c - 100 \/ cfg_t1 c < j)) ->
    (forall a b y y1 e s, ao_result (controller_adapt k a b y y1 e s) <> internal_error) ->
    solve_run c i h o ->
    Forall (fun a => at_to a = cfg_t1 c \/ at_to a <= cfg_t1 c - 100) h ->
    In a h -> at_controller_result a <> internal_error.
  Proof.
    intros Hc Hnj Hsr Hsp Hj Hie Hrun Hto Ha.
    assert (Hh : clip_hyps k c i inner_t1 inner0).
    { split; [exact Hc|]. split; [exact Hnj|]. split; [exact Hsp|].
      split; [intros H; specialize (Hj _ H); lia|]. split; [intros H; specialize (Hj _ H); lia|].
      split; [congruence|]. right. intros j H. specialize (Hj _ H). lia. }
    pose proof (hyps_ok _ _ _ _ _ Hh) as Hok.
    destruct Hrun as (s0 & m & Hi & Hn & -> & Hf).
    destruct (in_accepted_history c m s0 a Ha) as (l & Hlm & -> & Hcd).
    assert (Hrs : rej_inv c (while_loop c l s0)) by (eapply rej_inv_run; eauto; lia).
    pose proof (clip_time_inv _ _ _ _ _ _ l Hh Hi) as (_ & _ & HI).
    set (s := while_loop c l s0) in *.
    destruct (HI (cond_successful _ _ Hcd)) as (_ & _ & HI').
    destruct (Hrs (cond_successful _ _ Hcd)) as [R1 _].
    destruct (clip_step_facts k c s (co_adapt _ _ Hok) (co_steps _ _ Hok) (co_jumps _ _ Hok) (iv_wf _ _ _ _ _ HI'))
      as (f & n1 & _ & _ & _ & _ & _ & F5 & _).
    set (inner := controller_adapt k _ _ _ _ _ _) in *.
    assert (Hi0 : ao_result inner <> internal_error) by apply Hie.
    rewrite attempt_of_eq. cbn [at_controller_result].
    pose proof (iv_rwf _ _ _ _ _ HI') as Hwf.
    destruct (reject_info (st_controller_state s)) as [[ri rts]|].
    - cbn [adapt_rejects] in F5. rewrite (get_tz_pending ri rts (proj1 Hwf)) in F5.
      assert (Hgt : match hd_error (pending (Some (ri, rts))) with Some r => r <? st_tnext s | None => false end = false).
      { destruct (pending (Some (ri, rts))) as [|r q]; [reflexivity|]. cbn [hd_error].
        apply Z.ltb_ge. apply (R1 r). left. reflexivity. }
      rewrite Hgt in F5. cbn [andb where_] in F5. injection F5 as _ E1 _. rewrite <- E1.
      unfold where_. destruct (_ && _); [discriminate|exact Hi0].
    - cbn [adapt_rejects] in F5. injection F5 as _ E1 _. congruence.
  Qed.

  (** An end that is pending is not passed before it is accepted. *)
  Lemma pending_bound (k : clip_controller) (c : config) (Hok : clip_ok k c) (Hm : midpoint_ok c) r b l2 n :
    forall s l1,
    time_inv c (clip_I k c) s -> rej_inv c s ->
    reject_info (st_controller_state s) <> None ->
    Forall (fun a => at_to a = cfg_t1 c \/ at_to a <= cfg_t1 c - 100) (history c n s) ->
    In r (pending (reject_info (st_controller_state s))) ->
    history c n s = l1 ++ b :: l2 ->
    (forall b', In b' l1 -> at_keep b' = true -> at_to b' <> r) ->
    at_to b <= r.
  Proof.
    induction n as [|n IH]; intros s l1 Ht Hrj Hri Hto Hr Hh Hl1; cbn [history] in *; [destruct l1; discriminate|].
    destruct (cond_fun c s) eqn:Hcd; [|destruct l1; discriminate].
    pose proof (cond_successful _ _ Hcd) as Hsu.
    destruct l1 as [|x l1]; cbn [app] in Hh.
    - injection Hh as <- _. rewrite attempt_of_eq. cbn [at_to]. destruct (Hrj Hsu) as [R _].
      specialize (R r Hr). lia.
    - injection Hh as <- Hh.
      assert (Hcb : cond_fun c (body_fun c s) = true).
      { destruct n; cbn [history] in Hh; [destruct l1; discriminate|].
        destruct (cond_fun c (body_fun c s)); [reflexivity|destruct l1; discriminate]. }
      pose proof (cond_successful _ _ Hcb) as Hbs.
      destruct (rej_inv_body k c s Hok Hm Ht Hcd Hrj (Forall_inv Hto)) as [B1 B2].
      destruct (B2 Hbs Hri) as [_ B4].
      destruct (time_inv_body c (clip_I k c) s (clip_contract _ _ Hok) Hm Hcd Ht) as (Ht' & _).
      destruct (B4 r Hr) as [Hin|[Hk Hb]].
      + apply (IH (body_fun c s) l1); try assumption.
        * destruct Ht as (_ & _ & Ht). destruct (Ht Hsu) as (_ & _ & HI).
          apply (reject_info_kept k c s Hok (iv_wf _ _ _ _ _ HI)). exact Hri.
        * apply (Forall_inv_tail Hto).
        * intros b' Hb'. apply Hl1. right. exact Hb'.
      + exfalso. exact (Hl1 (attempt_of c s) (or_introl eq_refl) Hk Hb).
  Qed.

  (** The number of the first attempt of a suffix of the history. *)
  Lemma history_split (c : config) (s0 : state) m h1 a h2 :
    history c m s0 = h1 ++ a :: h2 ->
    exists ml, let s := while_loop c (length h1) s0 in
      m = (length h1 + S ml)%nat /\ cond_fun c s = true /\ h1 = history c (length h1) s0 /\
      a = attempt_of c s /\ h2 = history c ml (body_fun c s).
  Proof.
    revert s0 h1. induction m as [|m IH]; intros s0 h1 H; cbn [history] in H; [destruct h1; discriminate|].
    destruct (cond_fun c s0) eqn:Hc; [|destruct h1; discriminate].
    destruct h1 as [|x h1]; cbn [app] in H.
    - injection H as <- <-. exists m. cbn. auto.
    - injection H as <- H. destruct (IH _ _ H) as (ml & I1 & I2 & I3 & I4 & I5). exists ml.
      cbn [length while_loop history]. rewrite Hc. split; [lia|]. split; [exact I2|].
      split; [f_equal; exact I3|]. auto.
  Qed.

  Lemma reject_info_run (k : clip_controller) (c : config) (i : initial) (inner_t1 : Z) (inner0 : IS) s0 n l :
    clip_hyps k c i inner_t1 inner0 -> init_state c i = Some s0 ->
    store_rejected_steps k = Some n ->
    reject_info (st_controller_state (while_loop c l s0)) <> None.
  Proof.
    intros Hh Hi Hsr. pose proof (hyps_ok _ _ _ _ _ Hh) as Hok. destruct Hh as (Hc & _).
    assert (Hwf : forall q, clip_wf k (st_controller_state (while_loop c q s0))).
    { intros q. apply (ci_wf _ _ _ (clip_inv_run k c i inner_t1 inner0 s0 q Hc Hi)). }
    destruct Hc as (_ & Hin & _).
    induction l as [|q IH].
    - cbn. destruct (init_time _ _ _ Hi) as (_ & _ & _ & _ & _ & _ & _ & _ & I4 & _). rewrite I4.
      unfold clip_init in Hin. rewrite Hsr in Hin.
      destruct (step_ts k), (jump_ts k); injection Hin as _ ->; discriminate.
    - replace (S q) with (q + 1)%nat by lia. rewrite while_add. cbn [while_loop].
      destruct (cond_fun c (while_loop c q s0)); [|exact IH].
      apply (reject_info_kept k c _ Hok (Hwf q)). exact IH.
  Qed.

  (** C20: after a rejection no attempt goes beyond the rejected end until an accepted step has
      ended there. *)
  Lemma pf_C20_not_passed_partial (k : clip_controller) (c : config) (i : initial) (inner_t1 : Z) (inner0 : IS)
        (h1 l1 l2 : list attempt) (a b : attempt) (o : outcome) (n : nat) :
    clip_solve k c i inner_t1 inner0 -> inner_no_jumps (controller_adapt k) ->
    store_rejected_steps k = Some (S n) ->
    spaced (ts_of (jump_ts k)) ->
    (forall j, In j (ts_of (jump_ts k)) ->
       cfg_t0 c + 1 < j /\ (j <= cfg_t1 c - 100 \/ cfg_t1 c < j)) ->
    solve_run c i (h1 ++ a :: l1 ++ b :: l2) o ->
    Forall (fun a => at_to a = cfg_t1 c \/ at_to a <= cfg_t1 c - 100) (h1 ++ a :: l1 ++ b :: l2) ->
    at_keep a = false ->
    (forall b', In b' l1 -> at_keep b' = true -> at_to b' <> at_to a) ->
    at_to b <= at_to a.
  Proof.
    intros Hc Hnj Hsr Hsp Hj Hrun Hto Hk Hl1.
    assert (Hh : clip_hyps k c i inner_t1 inner0).
    { split; [exact Hc|]. split; [exact Hnj|]. split; [exact Hsp|].
      split; [intros H; specialize (Hj _ H); lia|]. split; [intros H; specialize (Hj _ H); lia|].
      split; [congruence|]. right. intros j H. specialize (Hj _ H). lia. }
    pose proof (hyps_ok _ _ _ _ _ Hh) as Hok.
    pose proof Hc as (_ & _ & _ & _ & _ & _ & _ & _ & Hm).
    destruct Hrun as (s0 & m & Hi & Hn & Hhi & Hf).
    rewrite Hhi in Hto. symmetry in Hhi.
    destruct (history_split _ _ _ _ _ _ Hhi) as (ml & Em & Hcd & _ & Ea & El).
    pose proof (reject_info_run _ _ _ _ _ s0 _ (length h1) Hh Hi Hsr) as Hri.
    assert (Hrs : rej_inv c (while_loop c (length h1) s0)) by (eapply rej_inv_run; eauto; lia).
    pose proof (clip_time_inv _ _ _ _ _ _ (length h1) Hh Hi) as Hts.
    rewrite Hhi in Hto.
    set (s := while_loop c (length h1) s0) in *. cbn zeta in *.
    assert (Hto2 : Forall (fun a => at_to a = cfg_t1 c \/ at_to a <= cfg_t1 c - 100) (a :: l1 ++ b :: l2))
      by (apply Forall_app in Hto; tauto).
    rewrite Ea in Hto2, Hk, Hl1 |- *.
    assert (Hcb : cond_fun c (body_fun c s) = true).
    { destruct ml; cbn [history] in El; [destruct l1; discriminate|].
      destruct (cond_fun c (body_fun c s)); [reflexivity|destruct l1; discriminate]. }
    pose proof (cond_successful _ _ Hcb) as Hbs.
    destruct (rej_inv_body k c s Hok Hm Hts Hcd Hrs (Forall_inv Hto2)) as [B1 B2].
    destruct (B2 Hbs Hri) as [B3 _].
    destruct (time_inv_body c (clip_I k c) s (clip_contract _ _ Hok) Hm Hcd Hts) as (Ht' & _).
    eapply (pending_bound k c Hok Hm _ b l2 ml (body_fun c s) l1); try eassumption.
    - destruct Hts as (_ & _ & Hts). destruct (Hts (cond_successful _ _ Hcd)) as (_ & _ & HI).
      apply (reject_info_kept k c s Hok (iv_wf _ _ _ _ _ HI)). exact Hri.
    - rewrite <- El. apply (Forall_inv_tail Hto2).
    - apply B3. exact Hk.
    - symmetry. exact El.
  Qed.

  (** The number of pending ends. *)
  Definition count_inv (k : clip_controller) (s : state) : Prop :=
    (forall i ts, reject_info (st_controller_state s) = Some (i, ts) ->
       store_rejected_steps k = Some (length ts)) /\
    (st_result s = successful ->
     (length (pending (reject_info (st_controller_state s))) <= st_num_rejected s)%nat).

  Lemma rejects_length t1 n1 keep r i ts n1' r' ri' :
    adapt_rejects t1 n1 keep r (Some (i, ts)) = (n1', r', ri') ->
    exists i' ts', ri' = Some (i', ts') /\ length ts' = length ts.
  Proof.
    cbn [adapt_rejects]. intros H. injection H as _ _ <-. do 2 eexists. split; [reflexivity|].
    destruct keep; [destruct (get_clamp _ _)|]; rewrite ?at_set_len; reflexivity.
  Qed.

  Lemma count_inv_body (k : clip_controller) (c : config) (s : state) :
    clip_ok k c -> time_inv c (clip_I k c) s -> cond_fun c s = true ->
    count_inv k s -> count_inv k (body_fun c s).
  Proof.
    intros Hok (T0 & T1 & T2) Hcd [Q1 Q2].
    pose proof (cond_successful _ _ Hcd) as Hsu. specialize (Q2 Hsu).
    destruct (T2 Hsu) as (U1 & U2 & HI).
    pose proof (cond_lt_t1 _ _ Hcd (co_stepto _ _ Hok)) as Hlt.
    destruct (clip_step_facts k c s (co_adapt _ _ Hok) (co_steps _ _ Hok) (co_jumps _ _ Hok) (iv_wf _ _ _ _ _ HI))
      as (f & n1 & _ & _ & _ & _ & _ & F5 & _).
    split.
    - intros i ts. rewrite body_controller_state. intros Hri.
      destruct (reject_info (st_controller_state s)) as [[i0 ts0]|].
      + destruct (rejects_length _ _ _ _ _ _ _ _ _ F5) as (i' & ts' & E1 & E2).
        rewrite E1 in Hri. injection Hri as <- <-. rewrite E2. eapply Q1. reflexivity.
      + cbn [adapt_rejects] in F5. injection F5 as _ _ F5. congruence.
    - intros Hbs. pose proof (body_successful _ _ Hbs) as Har.
      pose proof (clip_call k c (st_tprev s) (st_tnext s) (st_y s) (so_y (do_step c s))
                  (nan_to_inf c (so_error (do_step c s))) (st_controller_state s) Hok HI U1 U2 Hlt) as Hc.
      cbn zeta in Hc. rewrite <- (co_adapt _ _ Hok) in Hc. fold (do_adapt c s) in Hc.
      destruct Hc as (_ & _ & _ & C3). destruct (C3 Har) as (_ & _ & D3 & _).
      rewrite body_controller_state, body_num_rejected.
      assert (Ekp : at_keep (attempt_of c s) = ao_keep (do_adapt c s)) by (rewrite attempt_of_eq; reflexivity).
      rewrite Ekp. destruct (reject_info (st_controller_state s)) as [q|] eqn:Hri.
      + rewrite D3 by discriminate. rewrite app_length.
        assert (length (match pending (Some q) with x :: q0 => if (st_tnext s =? x)%Z then q0 else pending (Some q) | [] => [] end)
                <= length (pending (Some q)))%nat.
        { destruct (pending (Some q)) as [|x q0]; [cbn; lia|]. destruct (st_tnext s =? x); cbn; lia. }
        destruct (ao_keep (do_adapt c s)); cbn [length]; lia.
      + cbn [adapt_rejects] in F5. injection F5 as _ _ F5. rewrite <- F5. cbn. lia.
  Qed.

  (** C20: overflow is reported only when more ends are rejected than can be stored. *)
  Lemma pf_C20_overflow (k : clip_controller) (c : config) (i : initial) (inner_t1 : Z) (inner0 : IS)
        (h1 h2 : list attempt) (a : attempt) (o : outcome) (n : nat) :
    clip_solve k c i inner_t1 inner0 -> inner_no_jumps (controller_adapt k) ->
    store_rejected_steps k = Some (S n) ->
    spaced (ts_of (jump_ts k)) ->
    (forall j, In j (ts_of (jump_ts k)) ->
       cfg_t0 c + 1 < j /\ (j <= cfg_t1 c - 100 \/ cfg_t1 c < j)) ->
    (forall a b y y1 e s, ao_result (controller_adapt k a b y y1 e s) <> max_steps_rejected) ->
    solve_run c i (h1 ++ a :: h2) o ->
    at_controller_result a = max_steps_rejected ->
    at_keep a = false /\ (S n <= length (filter (fun b => negb (at_keep b)) h1))%nat.
  Proof.
    intros Hc Hnj Hsr Hsp Hj Hie Hrun Ha.
    assert (Hh : clip_hyps k c i inner_t1 inner0).
    { split; [exact Hc|]. split; [exact Hnj|]. split; [exact Hsp|].
      split; [intros H; specialize (Hj _ H); lia|]. split; [intros H; specialize (Hj _ H); lia|].
      split; [congruence|]. right. intros j H. specialize (Hj _ H). lia. }
    pose proof (hyps_ok _ _ _ _ _ Hh) as Hok.
    destruct Hrun as (s0 & m & Hi & Hn & Hhi & Hf). symmetry in Hhi.
    destruct (history_split _ _ _ _ _ _ Hhi) as (ml & Em & Hcd & Eh1 & Ea & El). cbn zeta in *.
    assert (Hcnt : forall l, count_inv k (while_loop c l s0)).
    { induction l as [|l IH].
      - cbn. destruct (init_time _ _ _ Hi) as (_ & _ & _ & _ & _ & I6 & _ & _ & I4 & _).
        pose proof Hc as (_ & Hin & _). unfold count_inv. rewrite I4.
        destruct Hh as (_ & _ & _ & N1 & N2 & N3 & _).
        destruct (clip_I_init _ _ _ _ _ Hc N3 N1 N2) as (_ & Hp & _). rewrite Hp. split; [|cbn; lia].
        intros i0 ts0 Hri. unfold clip_init in Hin. rewrite Hsr in Hin |- *.
        assert (reject_info (in_controller_state i) = Some (Z.of_nat (S n), repeat 0 (S n))) as Hri'
          by (destruct (step_ts k), (jump_ts k); injection Hin as _ ->; reflexivity).
        rewrite Hri' in Hri. injection Hri as _ <-. cbn. rewrite repeat_length. reflexivity.
      - replace (S l) with (l + 1)%nat by lia. rewrite while_add. cbn [while_loop].
        destruct (cond_fun c (while_loop c l s0)) eqn:Hcl; [|exact IH].
        apply count_inv_body; try assumption. eapply clip_time_inv; eauto. }
    specialize (Hcnt (length h1)).
    pose proof (clip_time_inv _ _ _ _ _ _ (length h1) Hh Hi) as (_ & _ & HI).
    pose proof (while_num_rejected c (length h1) s0) as Hnr. rewrite <- Eh1 in Hnr.
    destruct (init_time _ _ _ Hi) as (_ & _ & _ & _ & _ & I6 & _). rewrite I6 in Hnr.
    set (s := while_loop c (length h1) s0) in *.
    destruct (HI (cond_successful _ _ Hcd)) as (U1 & U2 & HI').
    destruct Hcnt as [Q1 Q2]. specialize (Q2 (cond_successful _ _ Hcd)).
    destruct (clip_step_facts k c s (co_adapt _ _ Hok) (co_steps _ _ Hok) (co_jumps _ _ Hok) (iv_wf _ _ _ _ _ HI'))
      as (f & n1 & _ & Fk & _ & _ & _ & F5 & _).
    set (inner := controller_adapt k _ _ _ _ _ _) in *.
    assert (Hi0 : ao_result inner <> max_steps_rejected) by apply Hie.
    rewrite Ea in Ha |- *. rewrite Fk. rewrite attempt_of_eq in Ha. cbn [at_controller_result] in Ha.
    pose proof (iv_rwf _ _ _ _ _ HI') as Hwf.
    destruct (reject_info (st_controller_state s)) as [[ri rts]|].
    2:{ cbn [adapt_rejects] in F5. injection F5 as _ E1 _. congruence. }
    specialize (Q1 _ _ eq_refl). rewrite Hsr in Q1. injection Q1 as Q1.
    cbn [adapt_rejects] in F5. rewrite (get_tz_pending ri rts (proj1 Hwf)) in F5.
    pose proof (pending_len ri rts (proj1 Hwf)) as Hpl.
    set (hp := hd_error (pending (Some (ri, rts)))) in F5. clearbody hp.
    injection F5 as _ E1 _. rewrite Ha in E1. unfold where_ in E1.
    set (e := match hp with Some r => st_tnext s =? r | None => false end) in E1.
    destruct Hwf as [Hwf _].
    destruct (ri + (if e then 1 else 0) - (if ao_keep inner then 0 else 1) <? 0) eqn:Hlt.
    - apply Z.ltb_lt in Hlt. destruct (ao_keep inner); [destruct e; lia|]. split; [reflexivity|].
      destruct e; lia.
    - exfalso. revert E1. rewrite ?Hlt. cbn [andb]. destruct (_ && is_okay (ao_result inner)); [discriminate|congruence].
  Qed.

  (** C02 for this controller. *)
  Lemma pf_C02_clip_times (k : clip_controller) (c : config) (i : initial) (inner_t1 : Z) (inner0 : IS)
        (h : list attempt) (o : outcome) :
    clip_solve k c i inner_t1 inner0 -> inner_no_jumps (controller_adapt k) ->
    store_rejected_steps k <> Some 0%nat -> spaced (ts_of (jump_ts k)) ->
    (forall j, In j (ts_of (jump_ts k)) ->
       cfg_t0 c + 1 < j /\
       (store_rejected_steps k = None \/ j <= cfg_t1 c - 100 \/ cfg_t1 c < j)) ->
    solve_run c i h o ->
    (forall a, In a h -> cfg_t0 c <= at_from a /\ at_from a <= at_to a /\ at_to a <= cfg_t1 c) /\
    (forall h1 a b h2, h = h1 ++ a :: b :: h2 ->
       at_from a <= at_from b /\
       (at_keep a = true -> at_to a <= at_from b) /\
       (at_keep a = false -> at_from b = at_from a)) /\
    rejects_in_place h.
  Proof.
    intros Hc Hnj Hsr Hsp Hj Hrun.
    assert (Hh : clip_hyps k c i inner_t1 inner0).
    { split; [exact Hc|]. split; [exact Hnj|]. split; [exact Hsp|].
      split; [intros H; specialize (Hj _ H); lia|]. split; [intros H; specialize (Hj _ H); lia|].
      split; [congruence|]. destruct (store_rejected_steps k) eqn:Es; [|left; reflexivity].
      right. intros j H. destruct (Hj _ H) as [_ [|]]; [discriminate|assumption]. }
    pose proof (hyps_ok _ _ _ _ _ Hh) as Hok.
    destruct Hh as (_ & _ & _ & N1 & N2 & N3 & _).
    destruct (clip_I_init _ _ _ _ _ Hc N3 N1 N2) as (HI & _ & Hle).
    destruct Hc as (_ & _ & _ & _ & _ & _ & _ & Ht & Hm).
    apply (pf_C02_times_in_interval c i h o (clip_I k c) Hrun (clip_contract _ _ Hok) Hm); try assumption. lia.
  Qed.
End ClipRej.
