(** Quantities that the equation conserves, along whole solves. *)
From Coq Require Import ZArith Reals QArith Qreals List Bool Arith Lia Lra FunctionalExtensionality.
From Verif Require Import Model_Result Model_Loop Model_RK Model_Tableaus Model_Terms Model_Interp Model_DenseOutput Spec_Loop Spec_RK Spec_RKLoop
  Spec_Convergence Spec_Frame Spec_Related Spec_RelatedRK Spec_Invariant
  Proof_RKStep Proof_RK Proof_RKProp Proof_RKLoop Proof_LoopBasic Proof_PropLoop Proof_ConvergeLoop Proof_Frame Proof_Related Proof_RelatedRK.
Import ListNotations.
Open Scope R_scope.

Section Kept.
  Context {Y SS CS DI E V MS : Type}.
  Lemma pf_C77_kept (c : config Y SS CS DI E V MS) (i : initial Y SS CS MS) (P : Y -> Prop) (PS : SS -> Prop) (PD : DI -> Prop) (Q : V -> Prop)
        (o : outcome Y SS CS DI V MS) :
    (forall a b y s j, P y -> PS s -> let so := solver_step c a b y s j in P (so_y so) /\ PS (so_state so) /\ PD (so_dense so)) ->
    (forall a b d t, PD d -> P (interpolate c a b d t)) ->
    (forall sub t y, In sub (cfg_subs c) -> P y -> Q (sub_fn sub t y)) ->
    P (in_y i) -> PS (in_solver_state i) -> solves c i o ->
    P (out_yfinal o) /\ PS (st_solver_state (out_state o)) /\
    (forall s v, In s (out_save o) -> In (Some v) (ss_ys s) -> Q v) /\
    (forall d, In (Some d) (st_dense_infos (out_state o)) -> PD d).
  Proof.
    intros HS HI HQ P0 S0 SO.
    set (RY := fun y y' : Y => y = y' /\ P y). set (RS := fun s s' : SS => s = s' /\ PS s). set (RD := fun d d' : DI => d = d' /\ PD d).
    set (RV := fun v v' : V => v = v' /\ Q v).
    destruct (pf_C76_related RY RS eq RD eq RV c c i i o) as (o' & _ & OR); [| |exact SO|].
    - split. { intros a b y y' s s' j (<- & Py) (<- & Ps). cbv zeta. destruct (HS a b y s j Py Ps) as (A & B & D). unfold RY, RS, RD. auto 10. }
      split. { intros a b d d' t (<- & Pd). split; [reflexivity|apply HI, Pd]. }
      split. { intros a b y y' y1 y1' e e' s s' (<- & _) (<- & _) <- <-. cbv zeta. auto 10. }
      split; [reflexivity|]. split; [reflexivity|]. split.
      { assert (G : forall sub t y, In sub (cfg_subs c) -> P y -> Q (sub_fn sub t y)) by exact HQ. clear -G.
        induction (cfg_subs c) as [|sub l IH]; constructor; [|apply IH; intros; apply G; [right; assumption|assumption]].
        repeat (split; [reflexivity|]). intros t y y' (<- & Py). split; [reflexivity|]. apply G; [left; reflexivity|exact Py]. }
      split; [reflexivity|]. split; [|auto].
      destruct (cfg_event c) as [ev|]; [|exact Logic.I]. split; [|reflexivity].
      induction (ev_cond_fn ev) as [|f l IH]; constructor; [|exact IH].
      destruct f; cbn; [|split; [reflexivity|]]; intros t y y' (<- & _); reflexivity.
    - split; [split; [reflexivity|exact P0]|]. repeat (split; [reflexivity|]). split; [split; [reflexivity|exact S0]|]. split; reflexivity.
    - destruct OR as (_ & (_ & O1) & _ & O2 & _ & _ & _ & _ & O3 & _ & (_ & O4) & _).
      split; [exact O1|]. split; [exact O4|]. split.
      + intros s v Hs Hv. clear -O2 Hs Hv. induction O2 as [|a b l l' (_ & Hab) Hl IH]; [contradiction|]. destruct Hs as [<-|Hs]; [|apply IH, Hs].
        clear -Hab Hv. induction Hab as [|x x' m m' Hx Hm IH]; [contradiction|]. destruct Hv as [-> |Hv]; [|apply IH, Hv].
        destruct x' as [v'|]; [apply Hx|contradiction].
      + intros d Hd. clear -O3 Hd. induction O3 as [|x x' m m' Hx Hm IH]; [contradiction|]. destruct Hd as [-> |Hd]; [|apply IH, Hd].
        destruct x' as [v'|]; [apply Hx|contradiction].
  Qed.
End Kept.

Section Linear.
  Context {I J C : Type}.
  Variable w : list (I * R).
  Notation row := (fun _ : unit => w).
  Lemma total_lin y : total w y = linear_map row y tt.
  Proof. reflexivity. Qed.

  Lemma equations_total s (ps : list (tableau * term I J C)) t0 t1 y k : conserves w ps -> rk_equations s ps t0 t1 y k ->
    forall m i, (m < length ps)%nat -> (i < s)%nat -> total w (k m i) = 0.
  Proof.
    intros CN EQ m i Hm Hi. destruct (nth_error ps m) as [(tab & trm)|] eqn:E; [|apply nth_error_None in E; lia].
    rewrite total_lin. rewrite (lin_ext row _ _ tt (EQ m tab trm i E Hi)). eapply CN, nth_error_In, E.
  Qed.
  Lemma solution_total s (ps : list (tableau * term I J C)) t0 t1 y k : conserves w ps -> rk_equations s ps t0 t1 y k ->
    total w (rk_solution s ps y k) = total w y.
  Proof.
    intros CN EQ. unfold rk_solution. rewrite !total_lin, lin_plus. unfold combination.
    rewrite (lin_sum row (length ps) (fun m x => match nth_error ps m with Some (tab, _) => sum_n s (fun i => coef_b tab i * k m i x) | None => 0 end)).
    rewrite sum_n_0; [ring|]. intros m Hm. destruct (nth_error ps m) as [(tab & trm)|]; [|apply lin_zero].
    rewrite (lin_sum row s (fun i x => coef_b tab i * k m i x)). apply sum_n_0. intros i Hi. rewrite lin_scal, <- total_lin, (equations_total s ps t0 t1 y k CN EQ m i Hm Hi). ring.
  Qed.
  Lemma interp_total n s interp t0 t1 (y0 y1 : I -> R) (k : list (list (I -> R))) t : affine_interpolation n s interp ->
    length k = n -> (forall m, (m < n)%nat -> length (nth m k []) = s) -> total w y1 = total w y0 ->
    (forall m i, (m < n)%nat -> (i < s)%nat -> total w (nth i (nth m k []) (fun _ => 0)) = 0) ->
    total w (fun x => interp t0 t1 (y0 x) (y1 x) (map (map (fun u => u x)) k) t) = total w y0.
  Proof.
    intros AF LK LM TY TK. destruct (AF t0 t1 t) as (w0 & w1 & wt & W & F).
    rewrite total_lin. rewrite (lin_ext row _ (fun x => (w0 * y0 x + w1 * y1 x) + sum_n n (fun m => sum_n s (fun i => wt m i * nth i (nth m k []) (fun _ => 0) x)))).
    2:{ intros x. rewrite F; [| rewrite !map_length; exact LK|].
        - f_equal. apply sum_n_ext. intros m Hm. apply sum_n_ext. intros i Hi.
          change (@nil R) with (map (fun u : I -> R => u x) []). rewrite map_nth. f_equal. apply (map_nth (fun u : I -> R => u x) _ (fun _ => 0)).
        - intros m Hm. change (@nil R) with (map (fun u : I -> R => u x) []). rewrite map_nth, map_length. apply LM, Hm. }
    rewrite !lin_plus, !lin_scal, (lin_sum row n (fun m x => sum_n s (fun i => wt m i * nth i (nth m k []) (fun _ => 0) x))).
    rewrite sum_n_0. { rewrite <- !total_lin, TY. transitivity ((w0 + w1) * total w y0); [ring|rewrite W; ring]. }
    intros m Hm. rewrite (lin_sum row s (fun i x => wt m i * nth i (nth m k []) (fun _ => 0) x)). apply sum_n_0. intros i Hi.
    rewrite lin_scal, <- total_lin, TK by assumption. ring.
  Qed.

  (** A step, its result and its dense output. *)
  Lemma out_total (sv : solver I J C) s t0 t1 y oth ss mj n interp : valid_parts s (sv_parts sv) -> fsal_at_ends (sv_parts sv) ->
    exact_root_finder (sv_root_finder sv) \/ implicit_index sv = None -> conserves w (sv_parts sv) ->
    coherent (sv_parts sv) t0 y mj ss -> n = length (sv_parts sv) -> affine_interpolation n s interp ->
    let out := rk_step sv t0 t1 y oth ss mj in is_okay (ro_result out) = true ->
    total w (ro_y out) = total w y /\
    (length (ro_k out) = n /\ (forall m, (m < n)%nat -> length (nth m (ro_k out) []) = s) /\
     forall m i, (m < n)%nat -> (i < s)%nat -> total w (nth i (nth m (ro_k out) []) (fun _ => 0)) = 0) /\
    ro_state out = (if use_fsal sv then Some (false, vf_now sv t1 (ro_y out)) else None).
  Proof.
    intros VP FE EX CN CO -> AF out OK. destruct (step_correct sv s VP t0 t1 y oth ss mj CO (fsal_ends _ FE) OK EX) as (k & EQ & Y1 & _ & (LK & HK) & ST).
    fold out in Y1, LK, HK, ST. split; [rewrite Y1; apply (solution_total s _ t0 t1 y k CN EQ)|]. split; [|exact ST]. split; [exact LK|]. split; [intros m Hm; apply (HK m Hm)|].
    intros m i Hm Hi. destruct (HK m Hm) as (_ & N). change (fun _ : I => 0) with (@vzero I). rewrite (N i Hi). apply (equations_total s _ t0 t1 y k CN EQ m i Hm Hi).
  Qed.
End Linear.

Section Solves.
  Context {I J C CS V MS : Type}.
  Notation Y := (I -> R).
  Notation DI := (Y * Y * list (list Y))%type.
  Notation config := (config Y (solver_state J) CS DI (option Y) V MS).
  Notation initial := (initial Y (solver_state J) CS MS).
  Notation outcome := (outcome Y (solver_state J) CS DI V MS).

  Lemma pf_C77_total (c : config) (i : initial) (sv : solver I J C) (s : nat) (interp : interpolation) (time : Z -> R)
        (w : list (I * R)) (Q : V -> Prop) (o : outcome) :
    explicit_solve c i sv s interp time -> affine_interpolation (length (sv_parts sv)) s interp -> conserves w (sv_parts sv) ->
    (forall sub t y, In sub (cfg_subs c) -> total w y = total w (in_y i) -> Q (sub_fn sub t y)) ->
    solves c i o ->
    total w (out_yfinal o) = total w (in_y i) /\
    (forall sv v, In sv (out_save o) -> In (Some v) (ss_ys sv) -> Q v) /\
    (forall d a b t, In (Some d) (st_dense_infos (out_state o)) -> total w (interpolate c a b d t) = total w (in_y i)).
  Proof.
    intros ES AF CN HQ SO.
    destruct ES as ((oth & E1) & E2 & E3 & VP & EX & FE & JF & (Inv & CC & IV) & AJ & MO & L1 & L2 & CO).
    pose proof (pf_C29_cache c i sv s time oth Inv E1 VP FE JF (or_introl EX) CC AJ MO L1 L2 IV CO o) as (G & _). cbv zeta in G. specialize (G SO).
    set (al := set_step c _) in *. pose proof (explicit_none sv EX) as NI.
    set (a0 := total w (in_y i)) in *. set (n := length (sv_parts sv)) in *.
    set (PD := fun d : DI => let '(y0, y1, k) := d in total w y0 = a0 /\ total w y1 = a0 /\ length k = n /\ (forall m, (m < n)%nat -> length (nth m k []) = s) /\
                 forall m i, (m < n)%nat -> (i < s)%nat -> total w (nth i (nth m k []) (fun _ => 0)) = 0).
    assert (HI : forall a b d t, PD d -> total w (interpolate c a b d t) = a0).
    { intros a b [[y0 y1] k] t (D1 & D2 & D3 & D4 & D5). rewrite E2. unfold rk_interpolate. rewrite <- D1.
      apply (interp_total w n s interp _ _ _ _ _ _ AF D3 D4); [congruence|exact D5]. }
    destruct (pf_C77_kept al i (fun y => total w y = a0) (state_ok (sv_parts sv)) PD Q o) as (K1 & _ & K3 & K4).
    - intros a b y st j PY PS. cbn [al set_step solver_step]. unfold rk_solver_step. cbn [so_y so_state so_dense].
      destruct (fresh_state sv (time a) (time b) y st j PS) as (s0 & CO0 & ->).
      destruct (out_total w sv s (time a) (time b) y true s0 false n interp VP FE (or_intror NI) CN CO0 eq_refl AF) as (T1 & (T2 & T3 & T4) & T5).
      { rewrite (explicit_result sv _ _ _ _ _ _ NI). reflexivity. }
      split; [congruence|]. split; [rewrite T5; destruct (use_fsal sv); [cbn; apply map_length|exact Logic.I]|].
      unfold PD. split; [exact PY|]. split; [congruence|]. auto.
    - intros a b d t PDd. apply HI, PDd.
    - exact HQ.
    - reflexivity.
    - destruct (in_solver_state i) as [(b & f)|]; [apply CO|exact Logic.I].
    - exact G.
    - split; [exact K1|]. split; [exact K3|]. intros d a b t Hd. apply HI, K4, Hd.
  Qed.

  Lemma pf_C77_total_steps (c : config) (i : initial) (h : list (attempt Y)) (o : outcome) (sv : solver I J C) (s : nat) (interp : interpolation)
        (time : Z -> R) (others : Z -> Z -> Y -> solver_state J -> bool -> bool) (Inv : Z -> Z -> CS -> Prop) (w : list (I * R)) :
    solve_run c i h o -> solver_step c = rk_solver_step sv time others -> interpolate c = rk_interpolate interp time ->
    valid_parts s (sv_parts sv) -> fsal_at_ends (sv_parts sv) ->
    exact_root_finder (sv_root_finder sv) \/ explicit_parts (sv_parts sv) ->
    controller_contract c Inv -> announces_jumps c -> midpoint_ok c ->
    (cfg_t0 c <= cfg_t1 c)%Z -> (cfg_t0 c <= in_tnext i)%Z ->
    Inv (cfg_t0 c) (Z.min (in_tnext i) (cfg_t1 c)) (in_controller_state i) ->
    coherent (sv_parts sv) (time (cfg_t0 c)) (in_y i) (in_made_jump i) (in_solver_state i) ->
    affine_interpolation (length (sv_parts sv)) s interp -> conserves w (sv_parts sv) ->
    (forall a, In a (accepted h) -> is_okay (at_solver_result a) = true) ->
    forall a, In a (accepted h) -> total w (at_y a) = total w (in_y i) /\ forall t, total w (at_interp a t) = total w (in_y i).
  Proof.
    intros RUN STEP INT VP FE RF CC AJ MID Ht Ht' HI CO AF CN OKS.
    assert (EX' : exact_root_finder (sv_root_finder sv) \/ implicit_index sv = None).
    { destruct RF as [EX|EX]; [left; exact EX|right; apply explicit_none, EX]. }
    destruct (pf_C02_times_in_interval c i h o Inv RUN CC MID Ht Ht' HI) as (_ & _ & RIP).
    pose proof (pf_C08_accepted_steps_run c i h o RUN RIP) as SR.
    assert (ONE : forall a, In a (accepted h) -> total w (at_y a) = total w (at_yprev a) /\ forall t, total w (at_interp a t) = total w (at_yprev a)).
    { intros a Ha. pose proof (OKS a Ha) as OK. apply filter_In in Ha as (Ha & K). pose proof RUN as (s0 & n & Hi & _ & EH & _). rewrite EH in Ha.
      assert (CI : cache_inv c Inv sv time s0) by (eapply cache_inv_init; eauto).
      destruct (history_outs c sv s time others STEP VP FE EX' Inv CC AJ MID n s0 CI a Ha OK K) as (oth & ss & mj & CO' & OK' & Y1 & IN).
      destruct (out_total w sv s (time (at_from a)) (time (at_to a)) (at_yprev a) oth ss mj _ interp VP FE EX' CN CO' eq_refl AF OK') as (T1 & (T2 & T3 & T4) & _).
      split; [rewrite Y1; exact T1|]. intros t. rewrite IN, INT. unfold rk_interpolate.
      apply (interp_total w _ s interp _ _ _ _ _ _ AF T2 T3 T1 T4). }
    clear -SR ONE. revert SR ONE. generalize (in_solver_state i) (in_made_jump i) (cfg_t0 c) (in_y i). induction (accepted h) as [|a l IH]; intros ss j t y SR ONE; [intros a []|].
    inversion SR; subst. destruct (ONE a (or_introl eq_refl)) as (A & B).
    intros a' [<-|Ha']; [split; assumption|]. rewrite <- A. eapply IH; [eassumption| |exact Ha']. intros; apply ONE; right; assumption.
  Qed.
End Solves.
