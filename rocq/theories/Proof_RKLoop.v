(** Runge--Kutta methods in the integration loop: C28, C29. *)
From Coq Require Import ZArith Reals List Bool Arith Lia Lra.
From Verif Require Import Model_Result Model_Loop Spec_Loop Proof_LoopBasic Proof_LoopResume Proof_LoopFinish Proof_PropLoop.
From Verif Require Import Model_Clip Spec_Clip Proof_Clip Proof_ClipLoop Proof_ClipRej.
From Verif Require Import Model_RK Spec_RK Spec_RKLoop Proof_RKStep Proof_RK Proof_RKProp Proof_RKCache.
Import ListNotations.
Open Scope Z_scope.

Section RKLoop.
  Context {I J C CS V MS : Type}.
  Notation Y := (I -> R).
  Notation DI := (Y * Y * list (list Y))%type.
  Notation config := (config Y (solver_state J) CS DI (option Y) V MS).
  Notation state := (state Y (solver_state J) CS DI V MS).
  Notation initial := (initial Y (solver_state J) CS MS).
  Notation outcome := (outcome Y (solver_state J) CS DI V MS).
  Implicit Types (c : config) (i : initial) (o : outcome) (sv : solver I J C) (st : state).

  (** In reachable states the cache is up to date, unless the solve is over. *)
  Definition cache_inv c (Inv : Z -> Z -> CS -> Prop) sv (time : Z -> R) st : Prop :=
    time_inv c Inv st /\
    (coherent (sv_parts sv) (time (st_tprev st)) (st_y st) (st_made_jump st) (st_solver_state st) \/
     is_successful (st_result st) = false).

  Lemma not_okay_stops c st : is_okay (st_result st) = true -> at_keep (attempt_of c st) = true ->
    is_okay (so_result (do_step c st)) = false -> is_successful (st_result (body_fun c st)) = false.
  Proof.
    intros OK K NO.
    assert (PR : pre_result c st = so_result (do_step c st)).
    { unfold pre_result. rewrite attempt_of_eq in *. cbn in *. rewrite ?K, OK. cbn. rewrite ?NO. reflexivity. }
    assert (SU : is_successful (so_result (do_step c st)) = false).
    { destruct (so_result (do_step c st)); cbn in *; congruence. }
    destruct (cfg_event c) as [e|] eqn:He.
    - rewrite (body_result_event c st e He), PR. destruct (snd _); [reflexivity|exact SU].
    - rewrite (body_result_no_event c st He), PR. exact SU.
  Qed.

  Section Fix.
  Variables (c : config) (sv : solver I J C) (s : nat) (time : Z -> R)
            (others : Z -> Z -> Y -> solver_state J -> bool -> bool).
  Hypothesis STEP : solver_step c = rk_solver_step sv time others.
  Hypothesis VP : valid_parts s (sv_parts sv).
  Hypothesis FE : fsal_at_ends (sv_parts sv).
  Hypothesis EX : exact_root_finder (sv_root_finder sv) \/ implicit_index sv = None.
  Variable Inv : Z -> Z -> CS -> Prop.
  Hypothesis CC : controller_contract c Inv.
  Hypothesis AJ : announces_jumps c.
  Hypothesis MID : midpoint_ok c.

  Lemma step_unfold st : do_step c st =
    rk_solver_step sv time others (st_tprev st) (st_tnext st) (st_y st) (st_solver_state st) (st_made_jump st).
  Proof. unfold do_step. rewrite STEP. reflexivity. Qed.

  Lemma cache_inv_body st : cond_fun c st = true -> cache_inv c Inv sv time st -> cache_inv c Inv sv time (body_fun c st).
  Proof.
    intros Hc (T & H).
    assert (SU : is_successful (st_result st) = true).
    { unfold cond_fun in Hc. apply andb_prop in Hc as (_ & Hc). exact Hc. }
    destruct H as [H|H]; [|congruence].
    assert (OK : is_okay (st_result st) = true) by (destruct (st_result st); cbn in *; congruence).
    destruct (time_inv_body c Inv st CC MID Hc T) as (T' & _ & _ & REJ). split; [exact T'|].
    destruct T as (_ & _ & T). destruct (T (cond_successful _ _ Hc)) as (_ & T2 & _).
    pose proof (AJ (st_tprev st) (st_tnext st) (st_y st) (so_y (do_step c st))
                  (nan_to_inf c (so_error (do_step c st))) (st_controller_state st)) as A2.
    cbv zeta in A2. fold (do_adapt c st) in A2.
    assert (K : at_keep (attempt_of c st) = ao_keep (do_adapt c st)) by (rewrite attempt_of_eq; reflexivity).
    rewrite body_y, body_made_jump, body_solver_state, K.
    destruct (ao_keep (do_adapt c st)) eqn:KE.
    - destruct (is_okay (so_result (do_step c st))) eqn:RK; [left|right; apply not_okay_stops; assumption].
      rewrite body_tprev, attempt_of_eq. cbn [at_end at_y]. rewrite KE.
      destruct (ao_jump (do_adapt c st)) eqn:JE.
      + rewrite step_unfold in RK |- *. unfold rk_solver_step in RK |- *. cbn [so_state so_result] in RK |- *.
        destruct (step_correct sv s VP (time (st_tprev st)) (time (st_tnext st)) (st_y st) _ _ _ H (fsal_ends _ FE) RK EX)
          as (k & _ & _ & _ & _ & HS). rewrite HS. unfold coherent. destruct (use_fsal sv); [|exact Logic.I].
        split; [unfold vf_now; rewrite map_length; reflexivity|auto].
      + specialize (A2 eq_refl eq_refl). rewrite A2, Z.min_l by exact T2.
        rewrite step_unfold in RK |- *. unfold rk_solver_step in RK |- *. cbn [so_y so_state so_result] in RK |- *.
        destruct (step_correct sv s VP (time (st_tprev st)) (time (st_tnext st)) (st_y st) _ _ _ H (fsal_ends _ FE) RK EX)
          as (k & _ & _ & _ & _ & HS). rewrite HS. unfold coherent. destruct (use_fsal sv); [|exact Logic.I].
        split; [unfold vf_now; rewrite map_length; reflexivity|]. right. right.
        intros m tab trm f P Hf x. unfold vf_now in Hf. rewrite nth_error_map, P in Hf. injection Hf as <-. reflexivity.
    - left. rewrite (REJ K), attempt_of_eq. cbn [at_y]. rewrite KE. exact H.
  Qed.

  Lemma cache_inv_init i s0 : init_state c i = Some s0 -> cfg_t0 c <= cfg_t1 c -> cfg_t0 c <= in_tnext i ->
    Inv (cfg_t0 c) (Z.min (in_tnext i) (cfg_t1 c)) (in_controller_state i) ->
    coherent (sv_parts sv) (time (cfg_t0 c)) (in_y i) (in_made_jump i) (in_solver_state i) ->
    cache_inv c Inv sv time s0.
  Proof.
    intros Hi Ht Ht' HI H. split; [apply (run_time_inv c i s0 Inv Ht Ht' HI Hi)|]. left.
    destruct (init_time c i s0 Hi) as (-> & -> & _ & _ & _ & _ & -> & -> & _). exact H.
  Qed.

  (** Each attempt of a solve is a step of the method. *)
  Lemma history_steps n : forall st, cache_inv c Inv sv time st -> forall a, In a (history c n st) ->
    is_okay (at_solver_result a) = true -> at_keep a = true ->
    exists k, rk_equations s (sv_parts sv) (time (at_from a)) (time (at_to a)) (at_yprev a) k /\
      at_y a = rk_solution s (sv_parts sv) (at_yprev a) k.
  Proof.
    induction n as [|n IH]; intros st H a Ha OK K; [contradiction|]. cbn in Ha.
    destruct (cond_fun c st) eqn:Hc; [|contradiction]. destruct Ha as [<-|Ha].
    - assert (SU : is_successful (st_result st) = true).
      { unfold cond_fun in Hc. apply andb_prop in Hc as (_ & Hc). exact Hc. }
      destruct H as (_ & [H|H]); [|congruence].
      rewrite attempt_of_eq in OK, K |- *. cbn [at_solver_result at_keep at_from at_to at_yprev at_y] in *.
      rewrite K. rewrite step_unfold in OK |- *. unfold rk_solver_step in OK |- *. cbn [so_result so_y] in OK |- *.
      destruct (step_correct sv s VP (time (st_tprev st)) (time (st_tnext st)) (st_y st) _ _ _ H (fsal_ends _ FE) OK EX)
          as (k & EQ & HY & _). exists k. split; [exact EQ|exact HY].
    - apply (IH (body_fun c st)); auto. apply cache_inv_body; assumption.
  Qed.
  End Fix.

  Lemma pf_C28_solve (c : config) (i : initial) (h : list (attempt Y)) o (sv : solver I J C) s time others (Inv : Z -> Z -> CS -> Prop) :
    solve_run c i h o ->
    solver_step c = rk_solver_step sv time others ->
    valid_parts s (sv_parts sv) -> fsal_at_ends (sv_parts sv) ->
    exact_root_finder (sv_root_finder sv) \/ explicit_parts (sv_parts sv) ->
    controller_contract c Inv -> announces_jumps c -> midpoint_ok c ->
    cfg_t0 c <= cfg_t1 c -> cfg_t0 c <= in_tnext i ->
    Inv (cfg_t0 c) (Z.min (in_tnext i) (cfg_t1 c)) (in_controller_state i) ->
    coherent (sv_parts sv) (time (cfg_t0 c)) (in_y i) (in_made_jump i) (in_solver_state i) ->
    forall a, In a h -> at_keep a = true -> is_okay (at_solver_result a) = true ->
    exists k, rk_equations s (sv_parts sv) (time (at_from a)) (time (at_to a)) (at_yprev a) k /\
      forall x, at_y a x = rk_solution s (sv_parts sv) (at_yprev a) k x.
  Proof.
    intros (s0 & n & Hi & _ & -> & _) STEP VP FE EX CC AJ MID Ht Ht' HI CO a Ha K OK.
    assert (EX' : exact_root_finder (sv_root_finder sv) \/ implicit_index sv = None).
    { destruct EX as [EX|EX]; [left; exact EX|right; apply explicit_none, EX]. }
    destruct (history_steps c sv s time others STEP VP FE EX' Inv CC AJ MID n s0) with (a := a) as (k & E1 & E2); auto.
    - eapply cache_inv_init; eauto.
    - exists k. split; [exact E1|]. intros x. rewrite E2. reflexivity.
  Qed.

  (** C29: with the cache, as without. *)
  Lemma body_ext c c' st : do_step c st = do_step c' st ->
    nan_to_inf c = nan_to_inf c' -> interpolate c = interpolate c' -> adapt c = adapt c' -> midpoint c = midpoint c' ->
    meter_step c = meter_step c' -> cfg_subs c = cfg_subs c' -> cfg_dense c = cfg_dense c' -> cfg_event c = cfg_event c' ->
    cfg_t1 c = cfg_t1 c' ->
    body_fun c st = body_fun c' st.
  Proof.
    intros H1 H2 H3 H4 H5 H6 H7 H8 H9 H10. unfold body_fun, do_adapt.
    rewrite H1, H2, H3, H4, H5, H6, H7, H8, H9, H10. reflexivity.
  Qed.

  Lemma pf_C29_cache (c : config) (i : initial) (sv : solver I J C) s time others (Inv : Z -> Z -> CS -> Prop) :
    solver_step c = rk_solver_step sv time others ->
    valid_parts s (sv_parts sv) -> fsal_at_ends (sv_parts sv) ->
    (sv_calculate_jacobian sv = first_stage -> use_fsal sv = false) ->
    explicit_parts (sv_parts sv) \/
      (exact_root_finder (sv_root_finder sv) /\ solves_explicit (sv_root_finder sv)) ->
    controller_contract c Inv -> announces_jumps c -> midpoint_ok c ->
    cfg_t0 c <= cfg_t1 c -> cfg_t0 c <= in_tnext i ->
    Inv (cfg_t0 c) (Z.min (in_tnext i) (cfg_t1 c)) (in_controller_state i) ->
    coherent (sv_parts sv) (time (cfg_t0 c)) (in_y i) (in_made_jump i) (in_solver_state i) ->
    let always := set_step c (rk_solver_step sv time (fun _ _ _ _ _ => true)) in
    forall o, solves c i o <-> solves always i o.
  Proof.
    intros STEP VP FE FIRST EX CC AJ MID Ht Ht' HI CO c' o.
    assert (EX' : exact_root_finder (sv_root_finder sv) \/ implicit_index sv = None).
    { destruct EX as [EX|(EX & _)]; [right; apply explicit_none, EX|left; exact EX]. }
    assert (RF : implicit_index sv = None \/ (exact_root_finder (sv_root_finder sv) /\ solves_explicit (sv_root_finder sv))).
    { destruct EX as [EX|EX]; [left; apply explicit_none, EX|right; exact EX]. }
    assert (W : forall n st, cache_inv c Inv sv time st -> while_loop c n st = while_loop c' n st).
    { induction n as [|n IH]; intros st H; [reflexivity|]. cbn [while_loop].
      change (cond_fun c' st) with (cond_fun c st). destruct (cond_fun c st) eqn:Hc; [|reflexivity].
      assert (B : body_fun c st = body_fun c' st).
      { apply body_ext; try reflexivity.
        assert (SU : is_successful (st_result st) = true).
        { unfold cond_fun in Hc. apply andb_prop in Hc as (_ & Hc). exact Hc. }
        destruct H as (_ & [H|H]); [|congruence].
        rewrite (step_unfold c sv time others STEP). unfold do_step. change (solver_step c') with (rk_solver_step sv time (fun _ _ _ _ _ => true)).
        unfold rk_solver_step.
        rewrite (step_cache sv s VP FE FIRST RF (time (st_tprev st)) (time (st_tnext st)) (st_y st) (st_solver_state st) _ (st_made_jump st) H).
        reflexivity. }
      rewrite <- B. apply IH. eapply cache_inv_body; eauto. }
    assert (S : forall s0 sf, init_state c i = Some s0 -> (loop_final c s0 sf <-> loop_final c' s0 sf)).
    { intros s0 sf Hi. assert (CI : cache_inv c Inv sv time s0) by (eapply cache_inv_init; eauto).
      unfold loop_final. change (cfg_max_steps c') with (cfg_max_steps c). destruct (cfg_max_steps c) as [m|].
      - rewrite (W m s0 CI). reflexivity.
      - split; intros (n & H1 & H2); exists n; (split; [|exact H2]).
        + rewrite <- (W n s0 CI). exact H1.
        + rewrite (W n s0 CI). exact H1. }
    unfold solves. change (init_state c' i) with (init_state c i).
    split; intros (s0 & sf & H1 & H2 & H3); exists s0, sf; (split; [exact H1|]; split; [|exact H3]); apply (S s0 sf H1), H2.
  Qed.
End RKLoop.

Section RKClip.
  Context {I J C IS V MS : Type}.
  Notation Y := (I -> R).
  Notation DI := (Y * Y * list (list Y))%type.
  Notation config := (config Y (solver_state J) (clip_state IS) DI (option Y) V MS).
  Notation initial := (initial Y (solver_state J) (clip_state IS) MS).

  Lemma clip_announces (k : clip_controller Y (option Y) IS) (c : config) :
    (forall a b y y1 e s, adapt c a b y y1 e s = clip_adapt k a b y y1 e s) ->
    inner_no_jumps (controller_adapt k) -> announces_jumps c.
  Proof.
    intros H NJ tp tn y y1 e cs ao. unfold ao. rewrite H. unfold clip_adapt.
    destruct (NJ tp tn y y1 e (inner_state cs)) as (N1 & N2).
    set (inner := controller_adapt k tp tn y y1 e (inner_state cs)) in *.
    destruct (adapt_steps _ _ _) as (n1 & si). unfold adapt_jumps.
    destruct (jump_info cs) as [(ix & ts)|].
    - unfold bump_next_t0. destruct (existsb (Z.eqb (nextafter (ao_tprev inner))) ts), (existsb (Z.eqb (ao_tprev inner)) ts);
        destruct (adapt_rejects _ _ _ _ _) as ((n2 & r) & ri); cbn [ao_keep ao_jump ao_tprev orb];
        intros K; rewrite ?orb_true_r; try discriminate. intros _. exact (N2 K).
    - destruct (adapt_rejects _ _ _ _ _) as ((n2 & r) & ri); cbn [ao_keep ao_jump ao_tprev]. intros K _. exact (N2 K).
  Qed.

  (** C29 with requested jump times. *)
  Lemma pf_C29_cache_jumps (k : clip_controller Y (option Y) IS) (c : config) (i : initial) inner_t1 inner0
        (sv : solver I J C) s time others :
    clip_solve k c i inner_t1 inner0 -> inner_no_jumps (controller_adapt k) ->
    store_rejected_steps k <> Some 0%nat -> spaced (ts_of (jump_ts k)) ->
    (forall j, In j (ts_of (jump_ts k)) ->
       cfg_t0 c + 1 < j /\ (store_rejected_steps k = None \/ j <= cfg_t1 c - 100 \/ cfg_t1 c < j)) ->
    solver_step c = rk_solver_step sv time others ->
    valid_parts s (sv_parts sv) -> fsal_at_ends (sv_parts sv) ->
    (sv_calculate_jacobian sv = first_stage -> use_fsal sv = false) ->
    explicit_parts (sv_parts sv) \/
      (exact_root_finder (sv_root_finder sv) /\ solves_explicit (sv_root_finder sv)) ->
    coherent (sv_parts sv) (time (cfg_t0 c)) (in_y i) (in_made_jump i) (in_solver_state i) ->
    let always := set_step c (rk_solver_step sv time (fun _ _ _ _ _ => true)) in
    forall o, solves c i o <-> solves always i o.
  Proof.
    intros Hc Hnj Hsr Hsp Hj STEP VP FE FIRST EX CO.
    assert (Hh : clip_hyps k c i inner_t1 inner0).
    { split; [exact Hc|]. split; [exact Hnj|]. split; [exact Hsp|].
      split; [intros H; specialize (Hj _ H); lia|]. split; [intros H; specialize (Hj _ H); lia|].
      split; [congruence|]. destruct (store_rejected_steps k) eqn:Es; [|left; reflexivity].
      right. intros j H. destruct (Hj _ H) as [_ [|]]; [discriminate|assumption]. }
    pose proof (hyps_ok _ _ _ _ _ Hh) as Hok.
    destruct Hh as (_ & _ & _ & N1 & N2 & N3 & _).
    destruct (clip_I_init _ _ _ _ _ Hc N3 N1 N2) as (HI & _ & Hle).
    destruct Hc as (Had & _ & _ & _ & _ & _ & _ & Ht & Hm).
    apply (pf_C29_cache c i sv s time others (clip_I k c)); try assumption.
    - apply clip_contract, Hok.
    - exact (clip_announces k c Had Hnj).
    - lia.
  Qed.
End RKClip.
