(** The clipping controller in the integration loop. *)
From Coq Require Import ZArith List Bool Arith Lia Sorting.Sorted.
From Verif Require Import Model_Result Model_Loop Spec_Loop Model_Clip Spec_Clip Proof_Clip
  Proof_LoopBasic Proof_LoopFinish Proof_LoopTs Proof_LoopRoot Proof_PropLoop.
Import ListNotations.
Open Scope Z_scope.

Section ClipLoop.
  Context {Y SS IS DI E V MS : Type}.
  Notation CS := (clip_state IS).
  Notation config := (config Y SS CS DI E V MS).
  Notation state := (state Y SS CS DI V MS).
  Notation initial := (initial Y SS CS MS).
  Notation outcome := (outcome Y SS CS DI V MS).
  Notation attempt := (attempt Y).
  Notation clip_controller := (clip_controller Y E IS).

  Definition info_wf (o : option (list Z)) (si : option (nat * list Z)) : Prop :=
    match o, si with
    | None, None => True
    | Some ts, Some (i, ts') => ts' = ts /\ (i <= length ts)%nat
    | _, _ => False
    end.
  Definition clip_wf (k : clip_controller) (s : CS) : Prop :=
    info_wf (step_ts k) (step_info s) /\ info_wf (jump_ts k) (jump_info s).

  Lemma steps_part o si n0 n1 :
    Sorted Z.le (ts_of o) -> info_wf o si ->
    exists n1' si', adapt_steps n0 n1 si = (n1', si') /\ info_wf o si' /\
      n1' <= n1 /\ (n0 <= n1 -> n0 <= n1') /\
      (forall x, In x (ts_of o) -> n0 + 2 < x -> n1' <= x) /\
      (forall x, In x (ts_of o) -> spaced (ts_of o) -> n0 + 1 < x -> n1' <= x).
  Proof.
    intros Hs Hw. destruct o as [ts|], si as [[i ts']|]; cbn [info_wf ts_of adapt_steps] in *; try contradiction.
    - destruct Hw as [-> Hi]. apply sorted_strong in Hs.
      pose proof (bump_cases n0 ts) as Hb. cbn zeta in Hb. pose proof (bump_range n0 ts) as Hr.
      destruct (bump_next_t0 n0 ts) as [b f]. cbn [fst] in Hr.
      rewrite (find_idx_eq _ _ _ Hs Hi). pose proof (get_t_after ts b Hs) as Hg.
      do 2 eexists. split; [reflexivity|]. split; [split; [reflexivity|apply count_le_length]|].
      assert (Hsp : forall x, In x ts -> spaced ts -> n0 + 1 < x -> b < x).
      { intros x Hx Hsp Hlt. destruct Hb as [[B Eb]|[[_ [B Eb]]|[_ [_ Eb]]]]; injection Eb as -> ->.
        - lia.
        - specialize (Hsp _ _ B Hx). lia.
        - lia. }
      unfold clip_t, min_opt. destruct (get_t _ ts) as [x|].
      + destruct Hg as (G1 & G2 & G3). split; [lia|]. split; [lia|]. split.
        * intros z Hz Hlt. specialize (G3 z Hz). lia.
        * intros z Hz Hspz Hlt. specialize (G3 z Hz). specialize (Hsp z Hz Hspz Hlt). lia.
      + split; [lia|]. split; [lia|]. split.
        * intros z Hz. specialize (Hg z Hz). lia.
        * intros z Hz Hspz Hlt. specialize (Hg z Hz). specialize (Hsp z Hz Hspz Hlt). lia.
    - exists n1, None. repeat split; auto; try lia; intros x [].
  Qed.

  Lemma jumps_part o ji n0 n1 mj :
    Sorted Z.le (ts_of o) -> info_wf o ji ->
    exists n0' n1' f ji', adapt_jumps n0 n1 mj ji = (n0', n1', mj || f, ji') /\ info_wf o ji' /\
      (n0', f) = bump_next_t0 n0 (ts_of o) /\ (n0 <= n1 -> n0' <= n1') /\
      (n1' <= n1 \/ n1' <= n0' + 1) /\
      (forall j, In j (ts_of o) -> n0' < j -> n1' < j).
  Proof.
    intros Hs Hw. destruct o as [ts|], ji as [[i ts']|]; cbn [info_wf ts_of] in *; try contradiction.
    - destruct Hw as [-> Hi]. apply sorted_strong in Hs.
      destruct (adapt_jumps_spec n0 n1 mj i ts Hs Hi) as (i' & n0' & n1' & f & H1 & H2 & H3 & H4 & H5 & H6).
      exists n0', n1', f, (Some (i', ts)). repeat split; auto.
    - exists n0, n1, false, None. cbn [adapt_jumps]. rewrite orb_false_r.
      repeat split; auto; try lia; intros j [].
  Qed.

  (** Everything about one call, apart from the rejected steps. *)
  Lemma clip_adapt_facts (k : clip_controller) a b y y1 e s :
    Sorted Z.le (ts_of (step_ts k)) -> Sorted Z.le (ts_of (jump_ts k)) -> clip_wf k s ->
    let inner := controller_adapt k a b y y1 e (inner_state s) in
    let ao := clip_adapt k a b y y1 e s in
    exists f n1,
      clip_wf k (ao_state ao) /\ ao_keep ao = ao_keep inner /\
      (ao_tprev ao, f) = bump_next_t0 (ao_tprev inner) (ts_of (jump_ts k)) /\
      ao_jump ao = ao_jump inner || f /\
      adapt_rejects b n1 (ao_keep inner) (ao_result inner) (reject_info s)
        = (ao_tnext ao, ao_result ao, reject_info (ao_state ao)) /\
      (ao_tprev inner <= ao_tnext inner -> ao_tprev ao <= n1) /\
      (forall j, In j (ts_of (jump_ts k)) -> ao_tprev ao < j -> n1 < j) /\
      (forall x, In x (ts_of (step_ts k)) -> ao_tprev ao + 2 < x -> n1 <= x) /\
      (forall x, In x (ts_of (step_ts k)) -> spaced (ts_of (step_ts k)) ->
         ao_tprev ao + 1 < x -> n1 <= x).
  Proof.
    intros Hs Hj [W1 W2] inner. unfold clip_adapt. fold inner.
    destruct (steps_part _ _ (ao_tprev inner) (ao_tnext inner) Hs W1)
      as (m1 & si & -> & V1 & S1 & S2 & S3 & S4).
    destruct (jumps_part _ _ (ao_tprev inner) m1 (ao_jump inner) Hj W2)
      as (n0 & n1 & f & ji & -> & V2 & J1 & J2 & J3 & J4).
    pose proof (bump_range (ao_tprev inner) (ts_of (jump_ts k))) as Hr. rewrite <- J1 in Hr. cbn in Hr.
    destruct (adapt_rejects b n1 (ao_keep inner) (ao_result inner) (reject_info s)) as [[n2 r] ri] eqn:Hrj.
    exists f, n1. cbn [ao_state ao_keep ao_tprev ao_jump ao_tnext ao_result reject_info clip_wf step_info jump_info].
    split; [split; assumption|]. split; [reflexivity|]. split; [exact J1|]. split; [reflexivity|].
    split; [exact Hrj|]. split; [intros; apply J2; auto|]. split; [exact J4|].
    split; intros x Hx; [intros Hlt; specialize (S3 x Hx)|intros Hsp Hlt; specialize (S4 x Hx Hsp)]; lia.
  Qed.

  (** ** The invariant of the loop *)
  Definition near_end (c : config) (x : Z) : Prop := cfg_t1 c - 100 < x.

  Record clip_inv (k : clip_controller) (c : config) (s : state) : Prop := {
    ci_wf : clip_wf k (st_controller_state s);
    ci_t1 : st_tprev s <= cfg_t1 c;
    ci_step : forall x, In x (ts_of (step_ts k)) -> st_tprev s + 2 < x ->
      st_tnext s <= x \/ near_end c x;
    ci_step_sp : forall x, In x (ts_of (step_ts k)) -> spaced (ts_of (step_ts k)) ->
      st_tprev s + 1 < x -> st_tnext s <= x \/ near_end c x;
    ci_jump : forall j, In j (ts_of (jump_ts k)) -> st_tprev s < j ->
      st_tnext s < j \/ near_end c j;
    ci_at : forall j, In j (ts_of (jump_ts k)) -> spaced (ts_of (jump_ts k)) ->
      st_tprev s < cfg_t1 c -> st_tprev s = j \/ st_tprev s + 1 = j -> st_tprev s = cfg_t0 c
  }.

  (** Facts about the step made from [s]. *)
  Lemma clip_step_facts (k : clip_controller) (c : config) (s : state) :
    (forall a b y y1 e s, adapt c a b y y1 e s = clip_adapt k a b y y1 e s) ->
    Sorted Z.le (ts_of (step_ts k)) -> Sorted Z.le (ts_of (jump_ts k)) ->
    clip_wf k (st_controller_state s) ->
    let inner := controller_adapt k (st_tprev s) (st_tnext s) (st_y s) (so_y (do_step c s))
                   (nan_to_inf c (so_error (do_step c s))) (inner_state (st_controller_state s)) in
    let ao := do_adapt c s in
    let a := attempt_of c s in
    exists f n1,
      clip_wf k (ao_state ao) /\ at_keep a = ao_keep inner /\
      (ao_tprev ao, f) = bump_next_t0 (ao_tprev inner) (ts_of (jump_ts k)) /\
      at_end a = Z.min (ao_tprev ao) (cfg_t1 c) /\
      ao_jump ao = ao_jump inner || f /\
      adapt_rejects (st_tnext s) n1 (ao_keep inner) (ao_result inner) (reject_info (st_controller_state s))
        = (ao_tnext ao, ao_result ao, reject_info (ao_state ao)) /\
      (ao_tprev inner <= ao_tnext inner -> ao_tprev ao <= n1) /\
      (forall j, In j (ts_of (jump_ts k)) -> ao_tprev ao < j -> n1 < j) /\
      (forall x, In x (ts_of (step_ts k)) -> ao_tprev ao + 2 < x -> n1 <= x) /\
      (forall x, In x (ts_of (step_ts k)) -> spaced (ts_of (step_ts k)) ->
         ao_tprev ao + 1 < x -> n1 <= x) /\
      ao_tnext ao <= n1.
  Proof.
    intros Had Hs Hj Hw inner ao a.
    assert (Hao : ao = clip_adapt k (st_tprev s) (st_tnext s) (st_y s) (so_y (do_step c s))
                   (nan_to_inf c (so_error (do_step c s))) (st_controller_state s)) by apply Had.
    destruct (clip_adapt_facts k (st_tprev s) (st_tnext s) (st_y s) (so_y (do_step c s))
                (nan_to_inf c (so_error (do_step c s))) (st_controller_state s) Hs Hj Hw)
      as (f & n1 & F1 & F2 & F3 & F4 & F5 & F6 & F7 & F8 & F9).
    fold inner in F2, F3, F4, F5, F6. rewrite <- Hao in *.
    exists f, n1. subst a. rewrite attempt_of_eq. cbn [at_keep at_end].
    fold ao. repeat (split; [first [assumption|reflexivity]|]).
    eapply adapt_rejects_le. exact F5.
  Qed.

  Lemma clip_inv_body (k : clip_controller) (c : config) (s : state) :
    (forall a b y y1 e s, adapt c a b y y1 e s = clip_adapt k a b y y1 e s) ->
    Sorted Z.le (ts_of (step_ts k)) -> Sorted Z.le (ts_of (jump_ts k)) ->
    clip_inv k c s -> clip_inv k c (body_fun c s).
  Proof.
    intros Had Hs Hj [W _ _ _ _ _].
    destruct (clip_step_facts k c s Had Hs Hj W)
      as (f & n1 & F1 & F2 & F3 & Fe & F4 & F5 & F6 & F7 & F8 & F9 & F10).
    set (inner := controller_adapt k _ _ _ _ _ _) in *. set (ao := do_adapt c s) in *.
    set (a := attempt_of c s) in *.
    assert (Hnx : st_tnext (body_fun c s) <= ao_tnext ao \/ cfg_t1 c - 100 < ao_tnext ao).
    { rewrite body_tnext. unfold clip_to_end. rewrite floor_lt. fold ao.
      destruct (Z.ltb_spec (cfg_t1 c - 100) (ao_tnext ao)); lia. }
    constructor.
    - rewrite body_controller_state. exact F1.
    - rewrite body_tprev. fold a. lia.
    - intros x Hx. rewrite body_tprev. fold a. intros Hlt. unfold near_end. specialize (F8 x Hx). lia.
    - intros x Hx Hsp. rewrite body_tprev. fold a. intros Hlt. unfold near_end.
      specialize (F9 x Hx Hsp). lia.
    - intros j Hjj. rewrite body_tprev. fold a. intros Hlt. unfold near_end. specialize (F7 j Hjj). lia.
    - intros j Hjj Hsp. rewrite body_tprev. fold a. intros Hlt Hat.
      rewrite Z.min_l in Fe by lia.
      exfalso. destruct (bump_cases (ao_tprev inner) (ts_of (jump_ts k))) as [[B1 B2]|[(B0 & B1 & B2)|(B0 & B1 & B2)]];
        rewrite <- F3 in B2; injection B2 as B2 _.
      + specialize (Hsp _ _ B1 Hjj). lia.
      + specialize (Hsp _ _ B1 Hjj). lia.
      + rewrite Fe, B2 in Hat. destruct Hat as [<-|<-]; tauto.
  Qed.

  Lemma clip_inv_init (k : clip_controller) (c : config) (i : initial) inner_t1 inner0 s0 :
    clip_solve k c i inner_t1 inner0 -> init_state c i = Some s0 -> clip_inv k c s0.
  Proof.
    intros (Had & Hin & Hle & Hok & Hs & Hj & Hst & Ht & Hm) Hi.
    destruct (init_time _ _ _ Hi) as (I1 & _ & I3 & _ & _ & _ & _ & _ & I4 & _).
    unfold clip_init in Hin.
    destruct (step_ts k) as [sts|] eqn:Es; destruct (jump_ts k) as [jts|] eqn:Ej;
      injection Hin as Hn Hc; cbn [ts_of] in *;
      try apply sorted_strong in Hs; try apply sorted_strong in Hj.
    - pose proof (get_t_after sts (cfg_t0 c) Hs) as G1. pose proof (get_t_after jts (cfg_t0 c) Hj) as G2.
      unfold clip_t, min_opt, option_map, prevbefore in Hn.
      constructor; rewrite ?I1, ?I3, ?I4, ?Es, ?Ej, ?Hc; cbn [ts_of].
      + split; cbn; rewrite ?Es, ?Ej; cbn; split; auto; apply count_le_length.
      + lia.
      + intros x Hx Hlt. left. destruct (get_t _ sts) as [z|]; [destruct G1 as (_ & _ & G1)|]; specialize (G1 x Hx);
          destruct (get_t _ jts) as [w|]; lia.
      + intros x Hx _ Hlt. left. destruct (get_t _ sts) as [z|]; [destruct G1 as (_ & _ & G1)|]; specialize (G1 x Hx);
          destruct (get_t _ jts) as [w|]; lia.
      + intros x Hx Hlt. left. destruct (get_t _ jts) as [z|]; [destruct G2 as (_ & _ & G2)|]; specialize (G2 x Hx);
          destruct (get_t _ sts) as [w|]; lia.
      + auto.
    - pose proof (get_t_after sts (cfg_t0 c) Hs) as G1.
      unfold clip_t, min_opt, option_map, prevbefore in Hn.
      constructor; rewrite ?I1, ?I3, ?I4, ?Es, ?Ej, ?Hc; cbn [ts_of]; try (intros j []).
      + split; cbn; rewrite ?Es, ?Ej; cbn; auto; split; auto; apply count_le_length.
      + lia.
      + intros x Hx Hlt. left. destruct (get_t _ sts) as [z|]; [destruct G1 as (_ & _ & G1)|]; specialize (G1 x Hx); lia.
      + intros x Hx _ Hlt. left. destruct (get_t _ sts) as [z|]; [destruct G1 as (_ & _ & G1)|]; specialize (G1 x Hx); lia.
    - pose proof (get_t_after jts (cfg_t0 c) Hj) as G2.
      unfold clip_t, min_opt, option_map, prevbefore in Hn.
      constructor; rewrite ?I1, ?I3, ?I4, ?Es, ?Ej, ?Hc; cbn [ts_of]; try (intros j []; fail).
      + split; cbn; rewrite ?Es, ?Ej; cbn; auto; split; auto; apply count_le_length.
      + lia.
      + intros x Hx Hlt. left. destruct (get_t _ jts) as [z|]; [destruct G2 as (_ & _ & G2)|]; specialize (G2 x Hx); lia.
      + auto.
    - constructor; rewrite ?I1, ?I3, ?I4, ?Es, ?Ej, ?Hc; cbn [ts_of]; try (intros j []; fail).
      + split; cbn; rewrite ?Es, ?Ej; cbn; auto.
      + lia.
  Qed.

  Lemma clip_inv_run (k : clip_controller) (c : config) (i : initial) inner_t1 inner0 s0 n :
    clip_solve k c i inner_t1 inner0 -> init_state c i = Some s0 ->
    clip_inv k c (while_loop c n s0).
  Proof.
    intros Hc Hi. apply while_ind; [|eapply clip_inv_init; eauto].
    intros s _ H. destruct Hc as (Had & _ & _ & _ & Hs & Hj & _). apply clip_inv_body; assumption.
  Qed.

  (** C17: no attempted step crosses a requested time. *)
  Lemma pf_C17_no_crossing_partial (k : clip_controller) (c : config) (i : initial) (inner_t1 : Z) (inner0 : IS)
        (h : list attempt) (o : outcome) (a : attempt) (x : Z) :
    clip_solve k c i inner_t1 inner0 -> solve_run c i h o ->
    In a h -> In x (ts_of (step_ts k)) -> x <= cfg_t1 c - 100 ->
    (at_from a + 2 < x -> at_to a <= x) /\
    (spaced (ts_of (step_ts k)) -> at_from a + 1 < x -> at_to a <= x).
  Proof.
    intros Hc (s0 & n & Hi & Hn & -> & Hf) Ha Hx Hne.
    destruct (in_accepted_history c n s0 a Ha) as (m & _ & -> & _).
    destruct (clip_inv_run k c i inner_t1 inner0 s0 m Hc Hi) as [_ _ I1 I2 _ _].
    unfold near_end in *. cbn. split.
    - intros Hlt. specialize (I1 x Hx). lia.
    - intros Hsp Hlt. specialize (I2 x Hx Hsp). lia.
  Qed.

  (** C18: no attempted step contains a jump. *)
  Lemma pf_C18_steps_avoid_jumps_partial (k : clip_controller) (c : config) (i : initial) (inner_t1 : Z) (inner0 : IS)
        (h : list attempt) (o : outcome) (a : attempt) (j : Z) :
    clip_solve k c i inner_t1 inner0 -> solve_run c i h o -> spaced (ts_of (jump_ts k)) ->
    In a h -> In j (ts_of (jump_ts k)) -> j <= cfg_t1 c - 100 -> j <> cfg_t0 c ->
    ~ (at_from a <= j <= at_to a).
  Proof.
    intros Hc (s0 & n & Hi & Hn & -> & Hf) Hsp Ha Hj Hne Hj0.
    destruct (in_accepted_history c n s0 a Ha) as (m & _ & -> & _).
    destruct (clip_inv_run k c i inner_t1 inner0 s0 m Hc Hi) as [_ _ _ _ I1 I2].
    unfold near_end in *. cbn. intros Hin.
    specialize (I1 j Hj). specialize (I2 j Hj Hsp). lia.
  Qed.

  Lemma history_consecutive (c : config) n : forall (s : state) h1 a b h2,
    history c n s = h1 ++ a :: b :: h2 ->
    exists m, a = attempt_of c (while_loop c m s) /\ b = attempt_of c (body_fun c (while_loop c m s)) /\
              cond_fun c (while_loop c m s) = true /\
              cond_fun c (body_fun c (while_loop c m s)) = true.
  Proof.
    induction n as [|n IH]; intros s h1 a b h2 H; cbn [history] in H; [destruct h1; discriminate|].
    destruct (cond_fun c s) eqn:Hc; [|destruct h1; discriminate].
    destruct h1 as [|x h1]; cbn [app] in H.
    - injection H as <- H. exists 0%nat. cbn. destruct n as [|n]; cbn [history] in H; [discriminate|].
      destruct (cond_fun c (body_fun c s)) eqn:Hc2; [|discriminate]. injection H as <- _. auto.
    - injection H as _ H. destruct (IH _ _ _ _ _ H) as (m & Hm). exists (S m). cbn. rewrite Hc. exact Hm.
  Qed.

  (** C18: what happens between an accepted step and the next attempt. *)
  Lemma pf_C18_jump_taken (k : clip_controller) (c : config) (i : initial) (inner_t1 : Z) (inner0 : IS)
        (h1 h2 : list attempt) (o : outcome) (a b : attempt) :
    clip_solve k c i inner_t1 inner0 -> inner_no_jumps (controller_adapt k) ->
    solve_run c i (h1 ++ a :: b :: h2) o -> at_keep a = true ->
    (In (at_to a) (ts_of (jump_ts k)) /\ at_from b = at_to a + 1 /\ at_jump b = true) \/
    (In (at_to a + 1) (ts_of (jump_ts k)) /\ at_from b = at_to a + 2 /\ at_jump b = true) \/
    (~ In (at_to a) (ts_of (jump_ts k)) /\ ~ In (at_to a + 1) (ts_of (jump_ts k)) /\
     at_from b = at_to a /\ at_jump b = false).
  Proof.
    intros Hc Hnj (s0 & n & Hi & Hn & Hh & Hf) Hk. symmetry in Hh.
    destruct (history_consecutive _ _ _ _ _ _ _ Hh) as (m & Ha & Hb & Hc1 & Hc2).
    pose proof (clip_inv_run k c i inner_t1 inner0 s0 m Hc Hi) as HI.
    set (s := while_loop c m s0) in *. clearbody s.
    destruct Hc as (Had & _ & _ & Hok & Hs & Hj & Hst & _).
    destruct (clip_step_facts k c s Had Hs Hj (ci_wf _ _ _ HI))
      as (f & n1 & F1 & F2 & F3 & Fe & F4 & _).
    set (inner := controller_adapt k _ _ _ _ _ _) in *. set (ao := do_adapt c s) in *.
    rewrite Ha in *.
    assert (Hlt : st_tprev (body_fun c s) < cfg_t1 c).
    { unfold cond_fun in Hc2. rewrite Hst in Hc2. apply andb_true_iff in Hc2. destruct Hc2 as [Hc2 _].
      apply Z.ltb_lt in Hc2. exact Hc2. }
    assert (Hfr : at_from b = ao_tprev ao).
    { rewrite Hb. rewrite (attempt_of_eq c (body_fun c s)). cbn [at_from]. rewrite body_tprev in *. lia. }
    assert (Hjm : at_jump b = f).
    { rewrite Hb. rewrite (attempt_of_eq c (body_fun c s)). cbn [at_jump]. rewrite body_made_jump, Hk.
      fold ao. rewrite F4. destruct (Hnj (st_tprev s) (st_tnext s) (st_y s) (so_y (do_step c s))
        (nan_to_inf c (so_error (do_step c s))) (inner_state (st_controller_state s))) as [Hf0 _].
      fold inner in Hf0. rewrite Hf0. reflexivity. }
    assert (Hto : ao_tprev inner = at_to (attempt_of c s)).
    { rewrite F2 in Hk. rewrite attempt_of_eq. cbn [at_to]. apply Hnj. exact Hk. }
    rewrite Hto in F3. rewrite Hfr, Hjm.
    destruct (bump_cases (at_to (attempt_of c s)) (ts_of (jump_ts k))) as [[B1 B2]|[(B0 & B1 & B2)|(B0 & B1 & B2)]];
      rewrite <- F3 in B2; injection B2 as -> ->; tauto.
  Qed.

  (** ** Successful solves *)
  Lemma success_tprev (c : config) (i : initial) (h : list attempt) (o : outcome) s0 n :
    init_state c i = Some s0 -> finish c (while_loop c n s0) = Some o ->
    stepto_len c = None -> cfg_t0 c <= cfg_t1 c -> results_ok c -> rf_results_ok c ->
    out_result o = successful ->
    st_tprev (while_loop c n s0) = cfg_t1 c /\ st_result (while_loop c n s0) = successful.
  Proof.
    intros Hi Hf Hst Ht Hok Hrfo.
    destruct (finish_state _ _ _ Hf) as (Hos & r & Hft & ->).
    pose proof (run_mask_inv c i s0 n Hok Hi) as Hm.
    destruct (init_time _ _ _ Hi) as (I1 & I2 & _).
    assert (Hle : st_tprev s0 <= cfg_t1 c) by lia.
    pose proof (tprev_le_t1 c n s0 Hle) as Hle2.
    set (s := while_loop c n s0) in *.
    destruct (cond_fun c s) eqn:Hc; [discriminate|]. cbn [where_]. intros ->.
    destruct (final_result_cases _ _ _ _ _ _ Hrfo Hft) as [(E1 & E2 & E3)|(Hb & _ & [E3|[E3 _]])].
    - split; [|auto].
      unfold cond_fun in Hc. rewrite Hst, <- E3 in Hc. cbn in Hc. rewrite andb_true_r in Hc.
      apply Z.ltb_ge in Hc. lia.
    - rewrite (happened_event _ _ Hm), <- E3 in Hb. discriminate.
    - congruence.
  Qed.

  Lemma cond_lt (c : config) (s : state) :
    stepto_len c = None -> cond_fun c s = true -> st_tprev s < cfg_t1 c.
  Proof.
    intros Hst Hc. unfold cond_fun in Hc. rewrite Hst in Hc. apply andb_true_iff in Hc.
    destruct Hc as [Hc _]. apply Z.ltb_lt in Hc. exact Hc.
  Qed.

  (** Some attempt passes each time between start and end. *)
  Lemma history_passes (c : config) t n : forall (s : state),
    st_tprev s < t -> t <= st_tprev (while_loop c n s) ->
    exists m, (m < n)%nat /\ cond_fun c (while_loop c m s) = true /\
      In (attempt_of c (while_loop c m s)) (history c n s) /\
      at_from (attempt_of c (while_loop c m s)) < t /\
      t <= at_end (attempt_of c (while_loop c m s)).
  Proof.
    induction n as [|n IH]; intros s H1 H2; cbn [while_loop] in H2; [lia|].
    cbn [history]. destruct (cond_fun c s) eqn:Hc; [|lia].
    destruct (Z.lt_ge_cases (st_tprev (body_fun c s)) t) as [Hlt|Hge].
    - destruct (IH _ Hlt H2) as (m & M1 & M2 & M3 & M4). exists (S m). cbn [while_loop]. rewrite Hc.
      split; [lia|]. split; [exact M2|]. split; [right; exact M3|exact M4].
    - exists 0%nat. cbn [while_loop]. split; [lia|]. split; [exact Hc|]. split; [left; reflexivity|].
      rewrite body_tprev in Hge. split; [|exact Hge]. rewrite attempt_of_eq. exact H1.
  Qed.

  (** Where an attempt leaves the time. *)
  Lemma clip_end (k : clip_controller) (c : config) (i : initial) inner_t1 inner0 s0 m :
    clip_solve k c i inner_t1 inner0 -> init_state c i = Some s0 ->
    inner_no_jumps (controller_adapt k) ->
    let a := attempt_of c (while_loop c m s0) in
    let t := if at_keep a then at_to a else at_from a in
    at_end a = Z.min (fst (bump_next_t0 t (ts_of (jump_ts k)))) (cfg_t1 c).
  Proof.
    intros Hc Hi Hnj a t. pose proof (clip_inv_run k c i inner_t1 inner0 s0 m Hc Hi) as HI.
    subst t a. set (s := while_loop c m s0) in *. clearbody s.
    destruct Hc as (Had & _ & _ & Hok & Hs & Hj & Hst & _).
    destruct (clip_step_facts k c s Had Hs Hj (ci_wf _ _ _ HI)) as (f & n1 & F1 & F2 & F3 & Fe & _).
    set (inner := controller_adapt k _ _ _ _ _ _) in *. set (ao := do_adapt c s) in *.
    rewrite Fe. f_equal.
    assert (Ht : ao_tprev inner = if at_keep (attempt_of c s) then at_to (attempt_of c s) else at_from (attempt_of c s)).
    { rewrite F2. rewrite attempt_of_eq. cbn [at_to at_from]. destruct (ao_keep inner) eqn:Hk.
      - apply Hnj. exact Hk.
      - apply (io_reject _ Hok). exact Hk. }
    rewrite <- Ht, <- F3. reflexivity.
  Qed.

  Lemma bump_free t ts : ~ In t ts -> ~ In (t + 1) ts -> bump_next_t0 t ts = (t, false).
  Proof.
    intros H1 H2. destruct (bump_cases t ts) as [[B _]|[(_ & B & _)|(_ & _ & B)]]; [tauto|tauto|exact B].
  Qed.

  Lemma clip_rejects_in_place (k : clip_controller) (c : config) (i : initial) inner_t1 inner0
        (h : list attempt) (o : outcome) :
    clip_solve k c i inner_t1 inner0 -> solve_run c i h o -> inner_no_jumps (controller_adapt k) ->
    spaced (ts_of (jump_ts k)) ->
    ~ In (cfg_t0 c) (ts_of (jump_ts k)) -> ~ In (cfg_t0 c + 1) (ts_of (jump_ts k)) ->
    rejects_in_place h.
  Proof.
    intros Hc (s0 & n & Hi & Hn & -> & Hf) Hnj Hsp J0 J1.
    apply Forall_forall. intros a Ha Hk.
    destruct (in_accepted_history c n s0 a Ha) as (m & _ & -> & Hcm).
    pose proof (clip_end k c i inner_t1 inner0 s0 m Hc Hi Hnj) as He. cbn zeta in He. rewrite Hk in He.
    rewrite He. pose proof (clip_inv_run k c i inner_t1 inner0 s0 m Hc Hi) as [_ _ _ _ _ I].
    destruct Hc as (_ & _ & _ & _ & _ & _ & Hst & _). pose proof (cond_lt _ _ Hst Hcm) as Hlt.
    rewrite attempt_of_eq. cbn [at_from].
    rewrite bump_free; [cbn [fst]; lia| |].
    - intros Hj. specialize (I _ Hj Hsp Hlt (or_introl eq_refl)). rewrite I in Hj. tauto.
    - intros Hj. specialize (I _ Hj Hsp Hlt (or_intror eq_refl)). rewrite I in Hj. tauto.
  Qed.

  (** C17: in a successful solve some accepted step ends at each requested time, up to one unit in
      the last place. *)
  Lemma pf_C17_stepped_to_partial (k : clip_controller) (c : config) (i : initial) (inner_t1 : Z) (inner0 : IS)
        (h : list attempt) (o : outcome) (x : Z) :
    clip_solve k c i inner_t1 inner0 -> solve_run c i h o -> inner_no_jumps (controller_adapt k) ->
    results_ok c -> rf_results_ok c -> out_result o = successful ->
    spaced (ts_of (step_ts k)) -> In x (ts_of (step_ts k)) ->
    (forall j, In j (ts_of (jump_ts k)) -> j < x - 3 \/ x + 1 < j) ->
    cfg_t0 c + 1 < x -> x <= cfg_t1 c - 100 ->
    exists a, In a (accepted h) /\ (at_to a = x \/ at_to a = x - 1).
  Proof.
    intros Hc Hrun Hnj Hok Hrfo Hr Hsp Hx Hj H0 H1.
    pose proof Hrun as (s0 & n & Hi & Hn & Hh & Hf).
    pose proof Hc as (_ & _ & _ & _ & _ & _ & Hst & Hlt & _).
    destruct (success_tprev c i h o s0 n Hi Hf Hst) as [Htp _]; try assumption; [lia|].
    destruct (init_time _ _ _ Hi) as (I1 & _).
    destruct (history_passes c (x - 1) n s0) as (m & _ & Hcm & Hin & Hfr & Hen); [lia|lia|].
    pose proof (clip_end k c i inner_t1 inner0 s0 m Hc Hi Hnj) as He. cbn zeta in He.
    set (a := attempt_of c (while_loop c m s0)) in *.
    assert (Hto : at_to a <= x).
    { apply (pf_C17_no_crossing_partial k c i inner_t1 inner0 h o a x Hc Hrun); try assumption; [rewrite Hh; exact Hin|lia]. }
    set (t := if at_keep a then at_to a else at_from a) in He.
    assert (Ht : t <= x) by (subst t; destruct (at_keep a); lia).
    pose proof (bump_range t (ts_of (jump_ts k))) as Hbr.
    assert (Hfree : x - 3 <= t -> bump_next_t0 t (ts_of (jump_ts k)) = (t, false)).
    { intros Hge. apply bump_free; intros HJ; specialize (Hj _ HJ); lia. }
    assert (Hge : x - 3 <= t) by lia. rewrite (Hfree Hge) in He. cbn [fst] in He.
    subst t. destruct (at_keep a) eqn:Hk; [|lia].
    exists a. split; [|lia]. unfold accepted. apply filter_In. split; [rewrite Hh; exact Hin|exact Hk].
  Qed.

  (** C21: the last accepted step ends at [t1] unless there is a jump there. *)
  Lemma clip_last (k : clip_controller) (c : config) (i : initial) (inner_t1 : Z) (inner0 : IS)
        (h : list attempt) (o : outcome) :
    clip_solve k c i inner_t1 inner0 -> solve_run c i h o -> inner_no_jumps (controller_adapt k) ->
    results_ok c -> rf_results_ok c -> out_result o = successful ->
    spaced (ts_of (jump_ts k)) ->
    ~ In (cfg_t0 c) (ts_of (jump_ts k)) -> ~ In (cfg_t0 c + 1) (ts_of (jump_ts k)) ->
    exists a, In a (accepted h) /\ cfg_t1 c - 2 <= at_to a /\
      (~ In (cfg_t1 c) (ts_of (jump_ts k)) -> ~ In (cfg_t1 c - 1) (ts_of (jump_ts k)) ->
       cfg_t1 c <= at_to a).
  Proof.
    intros Hc Hrun Hnj Hok Hrfo Hr Hsp J0 J1.
    pose proof (clip_rejects_in_place _ _ _ _ _ _ _ Hc Hrun Hnj Hsp J0 J1) as Hrj.
    pose proof Hrun as (s0 & n & Hi & Hn & Hh & Hf).
    pose proof Hc as (_ & _ & _ & _ & _ & _ & Hst & Hlt & _).
    destruct (success_tprev c i h o s0 n Hi Hf Hst) as [Htp _]; try assumption; [lia|].
    destruct (init_time _ _ _ Hi) as (I1 & _).
    destruct (history_passes c (cfg_t1 c) n s0) as (m & _ & Hcm & Hin & Hfr & Hen); [lia|lia|].
    pose proof (clip_end k c i inner_t1 inner0 s0 m Hc Hi Hnj) as He. cbn zeta in He.
    set (a := attempt_of c (while_loop c m s0)) in *. rewrite <- Hh in Hin.
    assert (Hk : at_keep a = true).
    { destruct (at_keep a) eqn:Hk; [reflexivity|]. unfold rejects_in_place in Hrj. rewrite Forall_forall in Hrj.
      specialize (Hrj a Hin Hk). lia. }
    rewrite Hk in He. exists a. split; [unfold accepted; apply filter_In; auto|].
    destruct (bump_cases (at_to a) (ts_of (jump_ts k))) as [[B1 B2]|[(B0 & B1 & B2)|(B0 & B1 & B2)]];
      rewrite B2 in He; cbn [fst] in He.
    - split; [lia|]. intros N1 N2. destruct (Z.eq_dec (at_to a) (cfg_t1 c - 1)) as [Ee|]; [|lia].
      rewrite Ee in B1. tauto.
    - split; [lia|]. intros N1 N2. destruct (Z.eq_dec (at_to a) (cfg_t1 c - 1)) as [Ee|].
      + rewrite Ee in B1. replace (cfg_t1 c - 1 + 1) with (cfg_t1 c) in B1 by lia. tauto.
      + destruct (Z.eq_dec (at_to a) (cfg_t1 c - 2)) as [Ee|]; [|lia].
        rewrite Ee in B1. replace (cfg_t1 c - 2 + 1) with (cfg_t1 c - 1) in B1 by lia. tauto.
    - split; lia.
  Qed.

  Lemma take_while_nth {A} (p : A -> bool) l k x :
    (forall j y, (j <= k)%nat -> nth_error l j = Some y -> p y = true) ->
    nth_error l k = Some x -> nth_error (take_while p l) k = Some x.
  Proof.
    revert k. induction l as [|a l IH]; intros k Hp Hx; [destruct k; discriminate|].
    cbn [take_while]. rewrite (Hp 0%nat a) by (auto; lia).
    destruct k as [|k]; [exact Hx|]. cbn in Hx |- *. apply IH; [|exact Hx].
    intros j y Hj Hy. apply (Hp (S j)); [lia|exact Hy].
  Qed.

  (** C21: with jumps, each requested time is saved unless it is within two units in the last place
      of a [t1] that is itself a jump. *)
  Lemma pf_C21_requested_times_saved_partial (k : clip_controller) (c : config) (i : initial) (inner_t1 : Z) (inner0 : IS)
        (h : list attempt) (o : outcome) (n : nat) (sub : subsaveat Y V) (ts : list Z) (l : nat) (t : Z) :
    clip_solve k c i inner_t1 inner0 -> solve_run c i h o -> inner_no_jumps (controller_adapt k) ->
    results_ok c -> has_root_finder c = false -> out_result o = successful ->
    spaced (ts_of (jump_ts k)) ->
    ~ In (cfg_t0 c) (ts_of (jump_ts k)) -> ~ In (cfg_t0 c + 1) (ts_of (jump_ts k)) ->
    nth_error (cfg_subs c) n = Some sub ->
    sub_ts sub = Some ts -> sub_t0 sub = false -> sub_t1 sub = false -> sub_steps sub = 0%nat ->
    Sorted Z.le ts -> nth_error ts l = Some t -> t <= cfg_t1 c ->
    (t <= cfg_t1 c - 2 \/
     (~ In (cfg_t1 c) (ts_of (jump_ts k)) /\ ~ In (cfg_t1 c - 1) (ts_of (jump_ts k)))) ->
    exists sv a, nth_error (out_save o) n = Some sv /\ nth_error (ss_ts sv) l = Some (Fin t) /\
      find (fun a => t <=? at_to a) (accepted h) = Some a /\
      nth_error (ss_ys sv) l = Some (Some (sub_fn sub t (at_interp a t))).
  Proof.
    intros Hc Hrun Hnj Hok Hrf Hr Hsp J0 J1 Hn Hts H0 H1 Hstep Hsort Hl Htle Hor.
    assert (Hrfo : rf_results_ok c).
    { intros e rf f lo hi start r He Hre. unfold has_root_finder in Hrf. rewrite He, Hre in Hrf. discriminate. }
    destruct (clip_last _ _ _ _ _ _ _ Hc Hrun Hnj Hok Hrfo Hr Hsp J0 J1) as (a & Ha & A1 & A2).
    assert (Hat : t <= at_to a) by (destruct Hor as [|[N1 N2]]; [lia|specialize (A2 N1 N2); lia]).
    pose proof Hc as (_ & _ & _ & _ & _ & _ & Hst & Hlt & _).
    destruct (pf_C04_early_stop_prefix c i h o n sub ts Hrun Hrf Hlt Hn Hts H0 H1 Hstep Hsort)
      as (sv & S1 & S2 & S3 & S4).
    set (served := take_while _ ts) in *.
    assert (Hserved : nth_error served l = Some t).
    { apply take_while_nth; [|exact Hl]. intros j y Hj Hy. apply existsb_exists. exists a. split; [exact Ha|].
      apply Z.leb_le. assert (y <= t); [|lia].
      apply sorted_strong in Hsort. clear - Hsort Hj Hy Hl.
      revert l j Hj Hy Hl. induction Hsort as [|z ts H IH HF]; intros l j Hj Hy Hl; [destruct j; discriminate|].
      destruct j as [|j], l as [|l]; cbn in *; try lia.
      - injection Hy as ->. injection Hl as ->. lia.
      - injection Hy as ->. rewrite Forall_forall in HF. apply HF. eapply nth_error_In; eauto.
      - eapply (IH l j); eauto. lia. }
    destruct (S4 l t Hserved) as (b & B1 & B2).
    exists sv, b. split; [exact S1|]. split; [|auto].
    rewrite S2, nth_error_app1.
    - rewrite nth_error_map, Hserved. reflexivity.
    - rewrite map_length. apply nth_error_Some. congruence.
  Qed.
End ClipLoop.
