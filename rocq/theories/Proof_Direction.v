(** Proofs about the direction of time and about batches. *)
From Coq Require Import ZArith List Bool Arith Lia FunctionalExtensionality.
From Verif Require Import Model_Result Model_Loop Spec_Loop Proof_LoopBasic Proof_LoopSave
  Model_Clip Model_Dense Model_Direction Spec_Direction.
Import ListNotations.
Open Scope Z_scope.

Lemma at_set_map {A B} (g : A -> B) l i v : at_set (map g l) i (g v) = map g (at_set l i v).
Proof. revert i. induction l as [|x l IH]; intros [|i]; cbn; try reflexivity. rewrite IH. reflexivity. Qed.
Lemma get_clamp_map {A B} (g : A -> B) l i : get_clamp (map g l) i = option_map g (get_clamp l i).
Proof. unfold get_clamp. rewrite map_length, nth_error_map. reflexivity. Qed.
Lemma dus_map {A B} (g : A -> B) l u i :
  dynamic_update_slice (map g l) (map g u) i = option_map (map g) (dynamic_update_slice l u i).
Proof.
  unfold dynamic_update_slice. rewrite !map_length. destruct (_ <=? _)%nat; [|reflexivity].
  cbn. rewrite !map_app, firstn_map, skipn_map. reflexivity.
Qed.
Lemma map_repeat_ {A B} (g : A -> B) x n : map g (repeat x n) = repeat (g x) n.
Proof. induction n; cbn; congruence. Qed.

Section Pad.
  Context {Y SS CS DI E V MS : Type}.
  Notation config := (config Y SS CS DI E V MS).
  Notation initial := (initial Y SS CS MS).
  Notation state := (state Y SS CS DI V MS).
  Notation outcome := (outcome Y SS CS DI V MS).
  Notation save_state := (save_state V).
  Variable g : xtime -> xtime.
  Hypothesis g_fin : forall t, g (Fin t) = Fin t.

  Definition gsave (s : save_state) : save_state :=
    SaveState (saveat_ts_index s) (map g (ss_ts s)) (ss_ys s) (save_index s).
  Definition gstate (s : state) : state :=
    State (st_y s) (st_tprev s) (st_tnext s) (st_made_jump s) (st_solver_state s)
      (st_controller_state s) (st_meter s) (st_result s) (st_num_steps s) (st_num_accepted s)
      (st_num_rejected s) (map gsave (st_save s)) (st_dense_ts s) (st_dense_infos s)
      (st_dense_index s) (st_event_tprev s) (st_event_tnext s) (st_event_dense s)
      (st_event_values s) (st_event_mask s).
  Definition goutcome (o : outcome) : outcome :=
    Outcome (gstate (out_state o)) (map gsave (out_save o)) (out_tfinal o) (out_yfinal o) (out_result o).

  Lemma gsave_save t y (fn : Z -> Y -> V) s rep pred :
    save_ t y fn (gsave s) rep pred = option_map gsave (save_ t y fn s rep pred).
  Proof.
    unfold save_, gsave. cbn [ss_ts ss_ys save_index saveat_ts_index].
    rewrite get_clamp_map.
    assert (H : (if pred then Some (Fin t) else option_map g (get_clamp (ss_ts s) (save_index s)))
              = option_map g (if pred then Some (Fin t) else get_clamp (ss_ts s) (save_index s)))
      by (destruct pred; cbn; rewrite ?g_fin; reflexivity).
    rewrite H. clear H.
    destruct (if pred then Some (Fin t) else get_clamp (ss_ts s) (save_index s)) as [x|]; [|reflexivity]. cbn [option_map].
    destruct (if pred then Some (Some (fn t y)) else _) as [v|]; [|reflexivity].
    rewrite <- map_repeat_, dus_map. destruct (dynamic_update_slice (ss_ts s) _ _); [|reflexivity].
    cbn [option_map]. destruct (dynamic_update_slice (ss_ys s) _ _); reflexivity.
  Qed.
  Lemma gsave_ts_loop fuel keep tnext ev (fn : Z -> Y -> V) ts : forall s,
    save_ts_loop fuel keep tnext ev fn ts (gsave s) = gsave (save_ts_loop fuel keep tnext ev fn ts s).
  Proof.
    induction fuel as [|fuel IH]; intros s; [reflexivity|]. cbn [save_ts_loop].
    cbn [gsave saveat_ts_index]. destruct (get_clamp ts (saveat_ts_index s)) as [t|]; [|reflexivity].
    destruct (_ && _); [|reflexivity]. rewrite <- IH. f_equal. unfold gsave.
    cbn [ss_ts ss_ys save_index saveat_ts_index]. rewrite <- at_set_map, g_fin. reflexivity.
  Qed.
  Lemma gsave_ts keep tnext ev (sub : subsaveat Y V) s :
    save_ts keep tnext ev sub (gsave s) = gsave (save_ts keep tnext ev sub s).
  Proof. unfold save_ts. destruct (sub_ts sub); [apply gsave_ts_loop|reflexivity]. Qed.
  Lemma gsave_steps keep n t y (sub : subsaveat Y V) s :
    save_steps keep n t y sub (gsave s) = gsave (save_steps keep n t y sub s).
  Proof.
    unfold save_steps. destruct (sub_steps sub =? 0)%nat; [reflexivity|]. destruct (_ && _); [|reflexivity].
    unfold gsave. cbn [ss_ts ss_ys save_index saveat_ts_index]. rewrite <- at_set_map, g_fin. reflexivity.
  Qed.
  Lemma map2_gsave {A} (f : A -> save_state -> save_state) :
    (forall a s, f a (gsave s) = gsave (f a s)) ->
    forall l s, map2 f l (map gsave s) = map gsave (map2 f l s).
  Proof.
    intros H l. induction l as [|a l IH]; intros [|s ss]; cbn; try reflexivity. rewrite H, IH. reflexivity.
  Qed.
  Lemma omap2_gsave {A} (f : A -> save_state -> option save_state) :
    (forall a s, f a (gsave s) = option_map gsave (f a s)) ->
    forall l s, omap2 f l (map gsave s) = option_map (map gsave) (omap2 f l s).
  Proof.
    intros H l. induction l as [|a l IH]; intros [|s ss]; cbn; try reflexivity. unfold obind.
    rewrite H. destruct (f a s); [|reflexivity]. cbn. rewrite IH. destruct (omap2 f l ss); reflexivity.
  Qed.

  Lemma gstate_body (c : config) (s : state) : body_fun c (gstate s) = gstate (body_fun c s).
  Proof.
    destruct s as [a1 a2 a3 a4 a5 a6 a7 a8 a9 a10 a11 a12 a13 a14 a15 a16 a17 a18 a19 a20].
    unfold gstate, body_fun, do_step, do_adapt, do_step.
    cbn [st_y st_tprev st_tnext st_made_jump st_solver_state st_controller_state st_meter st_result
         st_num_steps st_num_accepted st_num_rejected st_save st_dense_ts st_dense_infos
         st_dense_index st_event_tprev st_event_tnext st_event_dense st_event_values st_event_mask].
    cbv zeta.
    rewrite map2_gsave by (intros; apply gsave_ts).
    rewrite map2_gsave by (intros; apply gsave_steps).
    generalize (t1_clip_floor (cfg_t1 c)) as fl. intros fl.
    destruct (cfg_event c); [|reflexivity]. destruct (first_true _ _); reflexivity.
  Qed.
  Lemma gstate_cond (c : config) (s : state) : cond_fun c (gstate s) = cond_fun c s.
  Proof. reflexivity. Qed.
  Lemma gstate_while (c : config) n : forall s, while_loop c n (gstate s) = gstate (while_loop c n s).
  Proof.
    induction n as [|n IH]; intros s; [reflexivity|]. cbn [while_loop]. rewrite gstate_cond.
    destruct (cond_fun c s); [|reflexivity]. rewrite gstate_body. apply IH.
  Qed.
  Lemma gstate_finish (c : config) (s : state) : has_root_finder c = false ->
    finish c (gstate s) = option_map goutcome (finish c s).
  Proof.
    intros Hr. unfold finish, finish_batched.
    assert (Hf : forall b s', final_time c b s' = (st_tprev s', st_y s', st_result s')).
    { intros b s'. unfold final_time. unfold has_root_finder in Hr. destruct (cfg_event c) as [e|]; [|reflexivity].
      destruct (ev_root_finder e); [discriminate|reflexivity]. }
    rewrite !Hf, Hr. cbn [gstate st_tprev st_y st_result st_save st_num_accepted].
    assert (H1 : forall y l sv, omap2 (save_if_t0_equals_t1 c y) l (map gsave sv) =
      option_map (map gsave) (omap2 (save_if_t0_equals_t1 c y) l sv)).
    { intros y. apply omap2_gsave. intros sub x. unfold save_if_t0_equals_t1.
      destruct (sub_ts sub); [apply gsave_save|reflexivity]. }
    assert (H2 : forall n t (y : Y) (l : list (subsaveat Y V)) sv, omap2 (save_t1 false n t y) l (map gsave sv) =
      option_map (map gsave) (omap2 (save_t1 false n t y) l sv)).
    { intros n t y. apply omap2_gsave. intros sub x. unfold save_t1.
      destruct (match sub_steps sub with O => _ | _ => _ end); [reflexivity|]. apply gsave_save. }
    rewrite H1. unfold obind.
    destruct (cfg_t0 c =? cfg_t1 c).
    - destruct (omap2 (save_if_t0_equals_t1 c (st_y s)) (cfg_subs c) (st_save s)) as [sv|]; [|reflexivity].
      cbn [option_map]. rewrite H2. destruct (omap2 _ _ sv); reflexivity.
    - rewrite H2. destruct (omap2 _ _ (st_save s)); reflexivity.
  Qed.

  Definition ginit (i : initial) : initial :=
    Initial (in_y i) (in_tnext i) (in_made_jump i) (in_solver_state i) (in_controller_state i)
            (in_meter i) (g (in_pad i)).
  Lemma gstate_init (c : config) (i : initial) :
    init_state c (ginit i) = option_map gstate (init_state c i).
  Proof.
    unfold init_state, ginit. cbn [in_y in_tnext in_made_jump in_solver_state in_controller_state in_meter in_pad].
    assert (H1 : forall m (l : list (subsaveat Y V)), omap (allocate_output (g (in_pad i)) m) l =
              option_map (map gsave) (omap (allocate_output (in_pad i) m) l)).
    { intros m l. induction l as [|sub l IH]; [reflexivity|]. cbn [omap]. unfold obind.
      assert (H : allocate_output (g (in_pad i)) m sub = option_map gsave (allocate_output (in_pad i) m sub)).
      { unfold allocate_output. destruct (out_size m sub); [|reflexivity]. unfold gsave. cbn.
        rewrite map_repeat_. reflexivity. }
      rewrite H. destruct (allocate_output (in_pad i) m sub); [|reflexivity]. cbn [option_map].
      rewrite IH. destruct (omap (allocate_output (in_pad i) m) l); reflexivity. }
    rewrite H1. unfold obind. destruct (omap (allocate_output (in_pad i) (cfg_max_steps c)) (cfg_subs c)) as [sv|]; [|reflexivity].
    cbn [option_map]. rewrite omap2_gsave.
    - destruct (omap2 (save_t0 c (in_y i)) (cfg_subs c) sv) as [sv'|]; [|reflexivity]. cbn [option_map].
      destruct (if cfg_dense c then cfg_max_steps c else Some 0%nat); [|reflexivity].
      destruct (first_true _ _). reflexivity.
    - intros sub x. unfold save_t0. destruct (sub_t0 sub); [apply gsave_save|reflexivity].
  Qed.

  Lemma gsolves (c : config) (i : initial) (o : outcome) : has_root_finder c = false ->
    solves c i o -> solves c (ginit i) (goutcome o).
  Proof.
    intros Hr (s0 & sf & Hi & Hl & Hf). exists (gstate s0), (gstate sf).
    split; [rewrite gstate_init, Hi; reflexivity|].
    split; [|rewrite (gstate_finish c sf Hr), Hf; reflexivity].
    unfold loop_final in *. destruct (cfg_max_steps c).
    - subst sf. rewrite gstate_while. reflexivity.
    - destruct Hl as (n & -> & Hc). exists n. rewrite gstate_while. auto.
  Qed.
End Pad.

(** Exchanging the two kinds of padding. *)
Definition swap (x : xtime) : xtime := match x with PInf => NInf | NInf => PInf | x => x end.
Lemma swap_fin t : swap (Fin t) = Fin t. Proof. reflexivity. Qed.
Lemma swap_swap x : swap (swap x) = x. Proof. destruct x; reflexivity. Qed.

Section Reflect.
  Context {Y SS CS DI E V MS VF C P : Type} (cneg : C -> C).
  Notation problem := (problem Y SS CS DI E V MS VF C P).
  Notation diffeqsolve := (@diffeqsolve Y SS CS DI E V MS VF C P cneg).
  Notation normalise := (@normalise Y SS CS DI E V MS VF C P cneg).
  Notation reflect := (@reflect Y SS CS DI E V MS VF C P cneg).

  Lemma wrap_reflect_term (T : term Y VF C) :
    wrap_term cneg 1 (reflect_term cneg T) = wrap_term cneg (-1) T.
  Proof.
    unfold wrap_term, reflect_term. cbn. f_equal.
    extensionality t. extensionality y. f_equal. lia.
  Qed.
  Lemma map_opp1 l : map (fun t => t * 1) (map Z.opp l) = map (fun t => t * -1) l.
  Proof. rewrite map_map. apply map_ext. intros; lia. Qed.
  Lemma wrap_reflect_controller (k : controller P) :
    wrap_controller 1 (reflect_controller k) = wrap_controller (-1) k.
  Proof.
    induction k as [|ts|p|k IH sts jts st]; cbn; try reflexivity.
    - rewrite map_opp1. reflexivity.
    - rewrite IH. destruct (wrap_controller (-1) k); [|reflexivity]. cbn. f_equal. f_equal.
      + destruct sts; cbn; [rewrite map_opp1|]; reflexivity.
      + destruct jts; cbn; [rewrite map_opp1|]; reflexivity.
  Qed.
  Lemma wrap_reflect_sub (sub : subsaveat Y V) : wrap_sub 1 (reflect_sub sub) = wrap_sub (-1) sub.
  Proof.
    unfold wrap_sub, reflect_sub. cbn [sub_t0 sub_t1 sub_ts sub_steps sub_fn]. f_equal.
    - destruct (sub_ts sub); cbn; [rewrite map_opp1|]; reflexivity.
    - extensionality t. extensionality y. f_equal. lia.
  Qed.
  Lemma reflect_event_same (p : problem) : event_ignores_time p ->
    option_map reflect_event (pb_event p) = pb_event p.
  Proof.
    unfold event_ignores_time. destruct (pb_event p) as [[cfs rf]|]; [|reflexivity]. cbn.
    intros [_ H]. f_equal. unfold reflect_event. cbn. f_equal.
    induction H as [|cf l Hc H IH]; [reflexivity|]. cbn. f_equal; [|exact IH].
    destruct cf; cbn; f_equal; extensionality t; extensionality y; apply Hc.
  Qed.

  Lemma direction_back (p : problem) : pb_t1 p < pb_t0 p ->
    direction_of p = -1 /\ direction_of (reflect p) = 1.
  Proof.
    intros H. unfold direction_of. cbn. destruct (Z.ltb_spec (pb_t0 p) (pb_t1 p)); [lia|].
    destruct (Z.ltb_spec (- pb_t0 p) (- pb_t1 p)); [auto|lia].
  Qed.

  Lemma normalise_reflect (p : problem) : pb_t1 p < pb_t0 p -> event_ignores_time p ->
    normalise (reflect p) = option_map (fun ci => (fst ci, ginit swap (snd ci))) (normalise p) /\
    (forall c i, normalise p = Some (c, i) -> has_root_finder c = false /\ in_pad i = NInf).
  Proof.
    intros Hlt He. destruct (direction_back p Hlt) as [D1 D2].
    unfold Model_Direction.normalise. rewrite D1, D2. cbn [Spec_Direction.reflect pb_t0 pb_t1 pb_dt0 pb_subs pb_controller
      pb_term pb_solver_step pb_solver_init pb_interpolate pb_controller_init pb_adapt pb_nan_to_inf
      pb_midpoint pb_meter pb_meter_init pb_dense pb_event pb_max_steps pb_made_jump pb_y0].
    rewrite wrap_reflect_controller, wrap_reflect_term, (reflect_event_same p He).
    replace (- pb_t0 p * 1) with (pb_t0 p * -1) by lia.
    replace (- pb_t1 p * 1) with (pb_t1 p * -1) by lia.
    assert (Hs : map (wrap_sub 1) (map reflect_sub (pb_subs p)) = map (wrap_sub (-1)) (pb_subs p)).
    { rewrite map_map. apply map_ext. apply wrap_reflect_sub. }
    assert (Hd : option_map (fun x => x * 1) (option_map Z.opp (pb_dt0 p)) =
                 option_map (fun x => x * -1) (pb_dt0 p)).
    { destruct (pb_dt0 p); cbn; [f_equal; lia|reflexivity]. }
    rewrite Hs, Hd. unfold obind.
    destruct (wrap_controller (-1) (pb_controller p)) as [k|]; [|split; [reflexivity|intros; discriminate]].
    destruct (existsb _ _); [split; [reflexivity|intros; discriminate]|].
    destruct (pb_controller_init p k _ _ _ _ _) as [tn cs].
    split; [reflexivity|]. intros c i H. injection H as <- <-. split; [|reflexivity].
    unfold has_root_finder. cbn. unfold event_ignores_time in He. destruct (pb_event p) as [e|]; [|reflexivity].
    destruct He as [-> _]. reflexivity.
  Qed.

  Lemma dense_g (c : config Y SS CS DI E V MS) i (o : outcome Y SS CS DI V MS) t left :
    dense_evaluate (sol_interpolation c (ginit swap i) (goutcome swap o)) t left =
    dense_evaluate (sol_interpolation c i o) t left.
  Proof. reflexivity. Qed.

  Lemma to_solution_mirror (c : config Y SS CS DI E V MS) i (o : outcome Y SS CS DI V MS) :
    to_solution 1 c (ginit swap i) (goutcome swap o) = mirror (to_solution (-1) c i o).
  Proof.
    unfold to_solution, mirror.
    cbn [sol_t0 sol_t1 sol_ts sol_ys sol_evaluate sol_num_steps sol_num_accepted sol_num_rejected
         sol_result sol_solver_state sol_controller_state sol_made_jump sol_event_mask
         goutcome out_save out_result out_state].
    f_equal; try lia.
    - rewrite !map_map. apply map_ext. intros sv. cbn. rewrite !map_map. apply map_ext. intros x.
      destruct x; cbn; [f_equal; lia|reflexivity|reflexivity].
    - rewrite map_map. apply map_ext. reflexivity.
    - extensionality t. extensionality left. rewrite dense_g. f_equal. lia.
  Qed.

  Lemma pf_C16_reflection (p : problem) (sol : solution Y SS CS V) :
    pb_t1 p < pb_t0 p -> event_ignores_time p ->
    diffeqsolve p sol -> diffeqsolve (reflect p) (mirror sol).
  Proof.
    intros Hlt He (c & i & o & Hn & Hs & ->).
    destruct (normalise_reflect p Hlt He) as [Hr Hc]. destruct (Hc c i Hn) as [Hrf _].
    destruct (direction_back p Hlt) as [D1 D2].
    exists c, (ginit swap i), (goutcome swap o). rewrite Hr, Hn, D1, D2.
    split; [reflexivity|]. split; [apply gsolves; auto using swap_fin|].
    symmetry. apply to_solution_mirror.
  Qed.

  Lemma gsave_swap2 (s : save_state V) : gsave swap (gsave swap s) = s.
  Proof.
    destruct s. unfold gsave. cbn. f_equal. rewrite map_map. rewrite (map_ext _ (fun x => x)) by apply swap_swap.
    apply map_id.
  Qed.
  Lemma gsaves_swap2 (l : list (save_state V)) : map (gsave swap) (map (gsave swap) l) = l.
  Proof. rewrite map_map. rewrite (map_ext _ (fun x => x)) by apply gsave_swap2. apply map_id. Qed.

  Lemma mirror_mirror (s : solution Y SS CS V) : mirror (mirror s) = s.
  Proof.
    destruct s. unfold mirror. cbn. f_equal; try lia.
    - rewrite map_map. rewrite (map_ext _ (fun x => x)); [apply map_id|]. intros l.
      rewrite map_map. rewrite (map_ext _ (fun x => x)); [apply map_id|]. intros [t| |]; cbn; try reflexivity.
      f_equal. lia.
    - extensionality t. extensionality left. f_equal. lia.
  Qed.

  Lemma pf_C16_reflection_converse (p : problem) (sol : solution Y SS CS V) :
    pb_t1 p < pb_t0 p -> event_ignores_time p ->
    diffeqsolve (reflect p) sol -> diffeqsolve p (mirror sol).
  Proof.
    intros Hlt He (c & i & o & Hn & Hs & ->).
    destruct (normalise_reflect p Hlt He) as [Hr Hc]. rewrite Hr in Hn.
    destruct (normalise p) as [[c' i']|] eqn:Hnp; [|discriminate]. cbn in Hn. injection Hn as <- <-.
    destruct (Hc c' i' eq_refl) as [Hrf Hpad].
    destruct (direction_back p Hlt) as [D1 D2].
    exists c', i', (goutcome swap o). rewrite Hnp. rewrite D1, D2. split; [reflexivity|].
    assert (Hii : ginit swap (ginit swap i') = i') by (destruct i'; unfold ginit; cbn; rewrite swap_swap; reflexivity).
    split.
    - rewrite <- Hii. apply gsolves; auto using swap_fin.
    - rewrite <- (mirror_mirror (to_solution (-1) c' i' (goutcome swap o))). f_equal.
      rewrite <- to_solution_mirror. f_equal. destruct o. unfold goutcome. cbn. f_equal.
      + destruct out_state. unfold gstate. cbn. f_equal. symmetry. apply gsaves_swap2.
      + symmetry. apply gsaves_swap2.
  Qed.
End Reflect.
