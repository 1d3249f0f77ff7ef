(** Related solves have related outcomes. *)
From Coq Require Import ZArith List Bool Arith Lia FunctionalExtensionality.
From Verif Require Import Model_Result Model_Loop Spec_Loop Spec_Related.
Import ListNotations.
Open Scope Z_scope.

Section Lists.
  Context {A B A' B' C C' : Type}.
  Lemma f2_length (P : A -> B -> Prop) l l' : Forall2 P l l' -> length l = length l'.
  Proof. induction 1; cbn; congruence. Qed.
  Lemma f2_at_set (P : A -> B -> Prop) l l' v v' : Forall2 P l l' -> P v v' -> forall i, Forall2 P (at_set l i v) (at_set l' i v').
  Proof. intros H Hv. induction H; intros i; cbn; [constructor|]. destruct i; constructor; auto. Qed.
  Lemma f2_nth (P : A -> B -> Prop) l l' : Forall2 P l l' -> forall i, opt_related P (nth_error l i) (nth_error l' i).
  Proof. induction 1; intros i; destruct i; cbn; auto. Qed.
  Lemma f2_repeat (P : A -> B -> Prop) v v' : P v v' -> forall n, Forall2 P (repeat v n) (repeat v' n).
  Proof. intros H n. induction n; cbn; constructor; auto. Qed.
  Lemma f2_firstn (P : A -> B -> Prop) l l' : Forall2 P l l' -> forall n, Forall2 P (firstn n l) (firstn n l').
  Proof. induction 1; intros n; destruct n; cbn; constructor; auto. Qed.
  Lemma f2_skipn (P : A -> B -> Prop) l l' : Forall2 P l l' -> forall n, Forall2 P (skipn n l) (skipn n l').
  Proof. induction 1; intros n; destruct n; cbn; auto. Qed.
  Lemma f2_update (P : A -> B -> Prop) l l' u u' i : Forall2 P l l' -> Forall2 P u u' ->
    opt_related (Forall2 P) (dynamic_update_slice l u i) (dynamic_update_slice l' u' i).
  Proof.
    intros H Hu. unfold dynamic_update_slice. rewrite (f2_length _ _ _ H), (f2_length _ _ _ Hu).
    destruct (_ <=? _)%nat; cbn; [|exact I]. apply Forall2_app; [apply f2_firstn, H|]. apply Forall2_app; [exact Hu|apply f2_skipn, H].
  Qed.
  Lemma f2_map2 (P : A -> A' -> Prop) (Q : B -> B' -> Prop) (T : C -> C' -> Prop) f f' l l' m m' :
    (forall a a' b b', P a a' -> Q b b' -> T (f a b) (f' a' b')) -> Forall2 P l l' -> Forall2 Q m m' ->
    Forall2 T (map2 f l m) (map2 f' l' m').
  Proof.
    intros F H. revert m m'. induction H; intros m m' Hm; cbn; [constructor|]. inversion Hm; subst; constructor; auto.
  Qed.
  Lemma f2_omap2 (P : A -> A' -> Prop) (Q : B -> B' -> Prop) (T : C -> C' -> Prop) f f' l l' m m' :
    (forall a a' b b', P a a' -> Q b b' -> opt_related T (f a b) (f' a' b')) -> Forall2 P l l' -> Forall2 Q m m' ->
    opt_related (Forall2 T) (omap2 f l m) (omap2 f' l' m').
  Proof.
    intros F H. revert m m'. induction H as [|a a' l l' Ha Hl IH]; intros m m' Hm; cbn; [constructor|].
    inversion Hm; subst; cbn; [constructor|]. specialize (F _ _ _ _ Ha H). destruct (f a x), (f' a' y); cbn in F; try tauto; cbn.
    specialize (IH _ _ H0). destruct (omap2 f l l0), (omap2 f' l' l'0); cbn in IH |- *; try tauto. constructor; auto.
  Qed.
  Lemma f2_omap (P : A -> A' -> Prop) (T : C -> C' -> Prop) f f' l l' :
    (forall a a', P a a' -> opt_related T (f a) (f' a')) -> Forall2 P l l' -> opt_related (Forall2 T) (omap f l) (omap f' l').
  Proof.
    intros F. induction 1 as [|a a' l l' Ha Hl IH]; cbn; [constructor|]. specialize (F _ _ Ha).
    destruct (f a), (f' a'); cbn in F |- *; try tauto. destruct (omap f l), (omap f' l'); cbn in IH |- *; try tauto. constructor; auto.
  Qed.
End Lists.

Section Proof.
  Context {Y SS CS DI E V MS Y' SS' CS' DI' E' V' MS' : Type}.
  Notation config := (config Y SS CS DI E V MS).
  Notation config' := (Model_Loop.config Y' SS' CS' DI' E' V' MS').
  Notation state := (state Y SS CS DI V MS).
  Notation state' := (Model_Loop.state Y' SS' CS' DI' V' MS').
  Context (RY : Y -> Y' -> Prop) (RS : SS -> SS' -> Prop) (RC : CS -> CS' -> Prop)
          (RD : DI -> DI' -> Prop) (RE : E -> E' -> Prop) (RV : V -> V' -> Prop).

  (** The save states, with their indices. *)
  Definition sv_rel (s : save_state V) (s' : save_state V') : Prop :=
    saves_related RV s s' /\ saveat_ts_index s = saveat_ts_index s' /\ save_index s = save_index s'.
  Definition st_rel (s : state) (s' : state') : Prop :=
    RY (st_y s) (st_y s') /\ st_tprev s = st_tprev s' /\ st_tnext s = st_tnext s' /\ st_made_jump s = st_made_jump s' /\
    RS (st_solver_state s) (st_solver_state s') /\ RC (st_controller_state s) (st_controller_state s') /\
    st_result s = st_result s' /\ st_num_steps s = st_num_steps s' /\ st_num_accepted s = st_num_accepted s' /\
    st_num_rejected s = st_num_rejected s' /\ Forall2 sv_rel (st_save s) (st_save s') /\
    st_dense_ts s = st_dense_ts s' /\ Forall2 (opt_related RD) (st_dense_infos s) (st_dense_infos s') /\
    st_dense_index s = st_dense_index s' /\ st_event_tprev s = st_event_tprev s' /\ st_event_tnext s = st_event_tnext s' /\
    opt_related RD (st_event_dense s) (st_event_dense s') /\ st_event_values s = st_event_values s' /\
    st_event_mask s = st_event_mask s'.

  Lemma save_rel t y y' f f' s s' rep pred : (forall t y y', RY y y' -> RV (f t y) (f' t y')) -> RY y y' -> sv_rel s s' ->
    opt_related sv_rel (save_ t y f s rep pred) (save_ t y' f' s' rep pred).
  Proof.
    intros F Hy ((T & L) & I1 & I2). unfold save_. rewrite <- T, <- I2.
    assert (G : opt_related (opt_related RV) (if pred then Some (Some (f t y)) else get_clamp (ss_ys s) (save_index s))
                  (if pred then Some (Some (f' t y')) else get_clamp (ss_ys s') (save_index s))).
    { destruct pred; cbn; [apply F, Hy|]. unfold get_clamp. rewrite <- (f2_length _ _ _ L). apply f2_nth, L. }
    destruct (if pred then Some (Fin t) else _) as [tt|]; [|exact Logic.I].
    destruct (if pred then Some (Some (f t y)) else _) as [v|], (if pred then Some (Some (f' t y')) else _) as [v'|]; cbn [opt_related] in G; try tauto.
    destruct (dynamic_update_slice (ss_ts s) _ _); [|exact Logic.I].
    assert (U := f2_update _ _ _ _ _ (save_index s) L (f2_repeat _ _ _ G rep)).
    destruct (dynamic_update_slice (ss_ys s) _ _), (dynamic_update_slice (ss_ys s') _ _); cbn [opt_related] in U; try tauto.
    cbn. split; [split; [reflexivity|exact U]|]. cbn. auto.
  Qed.

  Lemma save_ts_loop_rel keep tnext ev ev' f f' ts : (forall t y y', RY y y' -> RV (f t y) (f' t y')) -> (forall t, RY (ev t) (ev' t)) ->
    forall fuel s s', sv_rel s s' -> sv_rel (save_ts_loop fuel keep tnext ev f ts s) (save_ts_loop fuel keep tnext ev' f' ts s').
  Proof.
    intros F Hev. induction fuel as [|fuel IH]; intros s s' H; [exact H|]. destruct H as ((T & L) & I1 & I2).
    cbn [save_ts_loop]. rewrite <- I1, <- I2, <- T. destruct (get_clamp ts _) as [t|]; [|repeat split; auto].
    destruct (keep && _ && _); [|repeat split; auto]. apply IH. split; [split; cbn; [reflexivity|]|cbn; auto].
    apply f2_at_set; [exact L|]. cbn. apply F, Hev.
  Qed.
  Lemma save_ts_rel keep tnext ev ev' b b' s s' : sub_related RY RV b b' -> (forall t, RY (ev t) (ev' t)) -> sv_rel s s' ->
    sv_rel (save_ts keep tnext ev b s) (save_ts keep tnext ev' b' s').
  Proof.
    intros (B1 & B2 & B3 & B4 & F) Hev H. unfold save_ts. rewrite <- B3. destruct (sub_ts b); [|exact H]. apply save_ts_loop_rel; auto.
  Qed.
  Lemma save_steps_rel keep n t y y' b b' s s' : sub_related RY RV b b' -> RY y y' -> sv_rel s s' ->
    sv_rel (save_steps keep n t y b s) (save_steps keep n t y' b' s').
  Proof.
    intros (B1 & B2 & B3 & B4 & F) Hy H. unfold save_steps. rewrite <- B4. destruct (sub_steps b =? 0)%nat; [exact H|].
    destruct (keep && _); [|exact H]. destruct H as ((T & L) & I1 & I2). rewrite <- T, <- I2.
    split; [split; cbn; [reflexivity|]|cbn; auto]. apply f2_at_set; [exact L|]. cbn. apply F, Hy.
  Qed.
  Lemma cond_rel f f' t y y' : cond_related RY f f' -> RY y y' -> cond_value f t y = cond_value f' t y'.
  Proof. destruct f, f'; cbn; try tauto; intros H Hy; [rewrite (H t y y' Hy)|rewrite (proj2 H t y y' Hy)]; reflexivity. Qed.
  Lemma conds_rel fs fs' t y y' : Forall2 (cond_related RY) fs fs' -> RY y y' ->
    map (fun f => cond_value f t y) fs = map (fun f => cond_value f t y') fs'.
  Proof. intros H Hy. induction H; cbn; [reflexivity|]. f_equal; [apply cond_rel; assumption|assumption]. Qed.
  Lemma triggers_rel f f' o n : cond_related RY f f' -> event_triggers f o n = event_triggers f' o n.
  Proof. destruct f, f'; cbn; try tauto. intros [<- _]. destruct o, n; reflexivity. Qed.
  Lemma raws_rel fs fs' l : Forall2 (cond_related RY) fs fs' ->
    map2 (fun f ov => event_triggers f (fst ov) (snd ov)) fs l = map2 (fun f ov => event_triggers f (fst ov) (snd ov)) fs' l.
  Proof. intros H. revert l. induction H as [|f f' l1 l1' Hf Hl IH]; intros l; cbn; [reflexivity|]. destruct l; [reflexivity|]. f_equal; [apply triggers_rel, Hf|apply IH]. Qed.

  Variables (c : config) (c' : config').
  Hypothesis HC : configs_related RY RS RC RD RE RV c c'.

  Lemma cond_fun_rel s s' : st_rel s s' -> cond_fun c s = cond_fun c' s'.
  Proof.
    destruct HC as (_ & _ & _ & ST & _ & _ & _ & _ & T0 & T1 & _).
    intros (R1 & R2 & R3 & R4 & R5 & R6 & R7 & R8 & _). unfold cond_fun. rewrite <- ST, <- T1, <- R2, <- R7, <- R8. reflexivity.
  Qed.

  Lemma body_rel s s' : st_rel s s' -> st_rel (body_fun c s) (body_fun c' s').
  Proof.
    destruct HC as (HS & HI & HA & ST & MI & SUB & DE & EV & T0 & T1 & MX).
    intros (R1 & R2 & R3 & R4 & R5 & R6 & R7 & R8 & R9 & R10 & R11 & R12 & R13 & R14 & R15 & R16 & R17 & R18 & R19).
    assert (D := HS (st_tprev s) (st_tnext s) _ _ _ _ (st_made_jump s) R1 R5). cbv zeta in D.
    unfold body_fun, do_adapt, do_step. rewrite <- R2, <- R3, <- R4, <- R7, <- R8, <- R9, <- R10, <- R12, <- R14, <- R15, <- R16, <- R18, <- R19, <- T1, <- DE.
    set (so := solver_step c _ _ _ _ _) in *. set (so' := solver_step c' _ _ _ _ _) in *. destruct D as (D1 & D2 & D3 & D4 & D5).
    assert (A := HA (st_tprev s) (st_tnext s) _ _ _ _ _ _ _ _ R1 D1 D2 R6). cbv zeta in A.
    set (ao := adapt c _ _ _ _ _ _) in *. set (ao' := adapt c' _ _ _ _ _ _) in *. destruct A as (A1 & A2 & A3 & A4 & A5 & A6).
    rewrite <- A1, <- A2, <- A3, <- A4, <- A6, <- D5.
    set (tp := Z.min _ _). 
    assert (CL : clip_to_end (midpoint c') tp (ao_tnext ao) (cfg_t1 c) (t1_clip_floor (cfg_t1 c)) (ao_keep ao)
                 = clip_to_end (midpoint c) tp (ao_tnext ao) (cfg_t1 c) (t1_clip_floor (cfg_t1 c)) (ao_keep ao))
      by (unfold clip_to_end; rewrite MI; reflexivity).
    rewrite CL. clear CL. set (tn := clip_to_end _ _ _ _ _ _). cbv zeta.
    set (keep := ao_keep ao) in *.
    assert (HY : RY (if keep then so_y so else st_y s) (if keep then so_y so' else st_y s')) by (destruct keep; assumption).
    set (y := if keep then so_y so else _) in *. set (y' := if keep then so_y so' else _) in *.
    set (na := (st_num_accepted s + _)%nat).
    assert (HSV : Forall2 sv_rel
       (map2 (save_steps keep na tp y) (cfg_subs c) (map2 (save_ts keep (st_tnext s) (interpolate c (st_tprev s) (st_tnext s) (so_dense so))) (cfg_subs c) (st_save s)))
       (map2 (save_steps keep na tp y') (cfg_subs c') (map2 (save_ts keep (st_tnext s) (interpolate c' (st_tprev s) (st_tnext s) (so_dense so'))) (cfg_subs c') (st_save s')))).
    { eapply f2_map2; [|exact SUB|]; [intros; apply save_steps_rel; eassumption|].
      eapply f2_map2; [|exact SUB|exact R11]. intros. apply save_ts_rel; try assumption. intros t. apply HI, D3. }
    assert (HD : Forall2 (opt_related RD)
       (if cfg_dense c && keep then at_set (st_dense_infos s) (st_dense_index s) (Some (so_dense so)) else st_dense_infos s)
       (if cfg_dense c && keep then at_set (st_dense_infos s') (st_dense_index s) (Some (so_dense so')) else st_dense_infos s')).
    { destruct (_ && _); [|exact R13]. apply f2_at_set; [exact R13|exact D3]. }
    assert (HSS : RS (if keep then so_state so else st_solver_state s) (if keep then so_state so' else st_solver_state s')) by (destruct keep; assumption).
    destruct (cfg_event c) as [e|], (cfg_event c') as [e'|]; cbn [opt_related] in EV; try tauto.
    - destruct EV as (EC & ER). rewrite <- (conds_rel _ _ tp _ _ EC HY), <- (raws_rel _ _ _ EC).
      destruct (first_true false _) as [mask had]. 
      unfold st_rel. cbn. repeat (split; [first [assumption|reflexivity]|]). reflexivity.
    - unfold st_rel. cbn. repeat (split; [first [assumption|reflexivity]|]). reflexivity.
  Qed.

  Lemma while_rel fuel : forall s s', st_rel s s' -> st_rel (while_loop c fuel s) (while_loop c' fuel s').
  Proof.
    induction fuel as [|fuel IH]; intros s s' H; [exact H|]. cbn [while_loop]. rewrite <- (cond_fun_rel _ _ H).
    destruct (cond_fun c s); [apply IH, body_rel, H|exact H].
  Qed.
  Lemma loop_final_rel s s' sf : st_rel s s' -> loop_final c s sf -> exists sf', loop_final c' s' sf' /\ st_rel sf sf'.
  Proof.
    intros H. unfold loop_final. destruct HC as (_ & _ & _ & _ & _ & _ & _ & _ & _ & _ & MX). rewrite <- MX.
    destruct (cfg_max_steps c) as [m|].
    - intros ->. exists (while_loop c' m s'). split; [reflexivity|apply while_rel, H].
    - intros (n & -> & Q). exists (while_loop c' n s'). assert (G := while_rel n _ _ H). split; [|exact G].
      exists n. split; [reflexivity|]. rewrite <- (cond_fun_rel _ _ G). exact Q.
  Qed.

  Lemma init_rel i i' : initials_related RY RS RC i i' -> opt_related st_rel (init_state c i) (init_state c' i').
  Proof.
    destruct HC as (HS & HI & HA & ST & MI & SUB & DE & EV & T0 & T1 & MX).
    intros (Q1 & Q2 & Q3 & Q4 & Q5 & Q6). unfold init_state. rewrite <- T0, <- T1, <- MX, <- DE, <- Q2, <- Q3, <- Q6.
    assert (AL : opt_related (Forall2 sv_rel) (omap (allocate_output (in_pad i) (cfg_max_steps c)) (cfg_subs c))
                   (omap (allocate_output (in_pad i) (cfg_max_steps c)) (cfg_subs c'))).
    { eapply f2_omap; [|exact SUB]. intros b b' (B1 & B2 & B3 & B4 & _). unfold allocate_output, out_size. rewrite <- B1, <- B2, <- B3, <- B4.
      destruct (if (sub_steps b =? 0)%nat then _ else _) as [d|]; [|exact Logic.I]. cbn. split; [split; [reflexivity|]|split; reflexivity].
      cbn. apply f2_repeat. exact Logic.I. }
    destruct (omap (allocate_output _ _) (cfg_subs c)) as [sv|], (omap (allocate_output _ _) (cfg_subs c')) as [sv'|]; cbn [opt_related] in AL; try tauto; cbn [obind].
    assert (S0 : opt_related (Forall2 sv_rel) (omap2 (save_t0 c (in_y i)) (cfg_subs c) sv) (omap2 (save_t0 c' (in_y i')) (cfg_subs c') sv')).
    { eapply f2_omap2; [|exact SUB|exact AL]. intros b b' s s' (B1 & B2 & B3 & B4 & F) Hs. unfold save_t0. rewrite <- B1, <- T0.
      destruct (sub_t0 b); [|exact Hs]. apply save_rel; assumption. }
    destruct (omap2 (save_t0 c _) _ _) as [sv0|], (omap2 (save_t0 c' _) _ _) as [sv0'|]; cbn [opt_related] in S0; try tauto; cbn [obind].
    destruct (if cfg_dense c then cfg_max_steps c else Some 0%nat) as [m|]; cbn [obind]; [|exact Logic.I].
    assert (EE : match cfg_event c with None => [] | Some e => map (fun cf => cond_value cf (cfg_t0 c) (in_y i)) (ev_cond_fn e) end
                 = match cfg_event c' with None => [] | Some e => map (fun cf => cond_value cf (cfg_t0 c) (in_y i')) (ev_cond_fn e) end).
    { destruct (cfg_event c) as [e|], (cfg_event c') as [e'|]; cbn [opt_related] in EV; try tauto. apply conds_rel; [apply EV|exact Q1]. }
    rewrite <- EE. destruct (first_true false _) as [mask had]. cbn [opt_related]. unfold st_rel. cbn.
    repeat (split; [first [assumption|reflexivity|destruct (cfg_dense c); [apply f2_repeat; exact Logic.I|constructor]|exact Logic.I]|]). reflexivity.
  Qed.

  Lemma event_interp_rel s s' t : st_rel s s' -> RY (event_interp c s t) (event_interp c' s' t).
  Proof.
    destruct HC as (HS & HI & _).
    intros (R1 & R2 & R3 & R4 & R5 & R6 & R7 & R8 & R9 & R10 & R11 & R12 & R13 & R14 & R15 & R16 & R17 & R18 & R19).
    unfold event_interp. rewrite <- R15, <- R16. destruct (st_event_dense s), (st_event_dense s'); cbn [opt_related] in R17; try tauto. apply HI, R17.
  Qed.
  Lemma final_rel s s' b : st_rel s s' ->
    let f := final_time c b s in let f' := final_time c' b s' in
    fst (fst f) = fst (fst f') /\ RY (snd (fst f)) (snd (fst f')) /\ snd f = snd f'.
  Proof.
    intros H. pose proof H as H0. destruct HC as (HS & HI & HA & ST & MI & SUB & DE & EV & T0 & T1 & MX).
    destruct H0 as (R1 & R2 & R3 & R4 & R5 & R6 & R7 & R8 & R9 & R10 & R11 & R12 & R13 & R14 & R15 & R16 & R17 & R18 & R19).
    unfold final_time. destruct (cfg_event c) as [e|], (cfg_event c') as [e'|]; cbn [opt_related] in EV; try tauto.
    destruct EV as (EC & ER). rewrite <- ER. destruct (ev_root_finder e) as [rf|]; [|cbn; auto]. destruct b; [|cbn; auto].
    unfold root_find_event.
    assert (EH : event_happened s' = event_happened s) by (unfold event_happened; rewrite R19; reflexivity).
    assert (TR : to_root_find c e s (event_happened s) = to_root_find c' e' s' (event_happened s')).
    { apply functional_extensionality. intros t. rewrite EH. unfold to_root_find. rewrite <- R16, <- R19.
      assert (EI := event_interp_rel s s' t H). generalize (st_event_mask s). clear -EC EI.
      induction EC as [|f f' l l' Hf Hl IH]; intros m; destruct m as [|b m]; cbn [map2]; try reflexivity.
      rewrite IH. rewrite (cond_rel _ _ _ _ _ Hf EI). reflexivity. }
    rewrite <- TR, <- R15, <- R16, <- R7, <- R8. destruct (rf _ _ _ _) as [tf er]. cbn. split; [reflexivity|]. split; [|reflexivity].
    destruct (st_num_steps s =? 0)%nat; [exact R1|apply event_interp_rel, H].
  Qed.
  Lemma finish_rel s s' : st_rel s s' -> opt_related (outcomes_related RY RS RC RD RV) (finish c s) (finish c' s').
  Proof.
    intros H. unfold finish, finish_batched. assert (CF := cond_fun_rel _ _ H).
    assert (EH : event_happened s' = event_happened s) by (unfold event_happened; f_equal; symmetry; apply H).
    rewrite EH. assert (F := final_rel _ _ (event_happened s) H). cbv zeta in F.
    destruct (final_time c _ s) as [[tf yf] r], (final_time c' _ s') as [[tf' yf'] r']. cbn [fst snd] in F. destruct F as (<- & Fy & <-).
    destruct HC as (HS & HI & HA & ST & MI & SUB & DE & EV & T0 & T1 & MX).
    assert (HR : has_root_finder c' = has_root_finder c).
    { unfold has_root_finder. destruct (cfg_event c) as [e|], (cfg_event c') as [e'|]; cbn [opt_related] in EV; try tauto. destruct EV as (_ & ->). reflexivity. }
    rewrite HR, <- T0, <- T1, <- CF.
    pose proof H as H0.
    destruct H0 as (R1 & R2 & R3 & R4 & R5 & R6 & R7 & R8 & R9 & R10 & R11 & R12 & R13 & R14 & R15 & R16 & R17 & R18 & R19).
    rewrite <- R9.
    assert (SV : Forall2 sv_rel (if has_root_finder c then map (unsave tf) (st_save s) else st_save s)
                   (if has_root_finder c then map (unsave tf) (st_save s') else st_save s')).
    { destruct (has_root_finder c); [|exact R11]. clear -R11. induction R11 as [|x x' l l' Hx Hl IH]; cbn; constructor; [|exact IH].
      destruct Hx as ((T & L) & I1 & I2). unfold unsave. rewrite <- T, <- I1, <- I2. split; [split; cbn; [reflexivity|]|split; reflexivity].
      revert L. generalize (ss_ys x), (ss_ys x'). clear. generalize (ss_ts x). intros ts. induction ts as [|t ts IH]; intros l l' L; cbn; [constructor|].
      destruct L; cbn; constructor; [destruct (xgt t tf); [exact Logic.I|assumption]|apply IH, L]. }
    set (sv := if has_root_finder c then map _ (st_save s) else _) in *. set (sv' := if has_root_finder c then map _ (st_save s') else _) in *.
    assert (SE : opt_related (Forall2 sv_rel) (if cfg_t0 c =? cfg_t1 c then omap2 (save_if_t0_equals_t1 c yf) (cfg_subs c) sv else Some sv)
                   (if cfg_t0 c =? cfg_t1 c then omap2 (save_if_t0_equals_t1 c' yf') (cfg_subs c') sv' else Some sv')).
    { destruct (cfg_t0 c =? cfg_t1 c); [|exact SV]. eapply f2_omap2; [|exact SUB|exact SV]. intros b b' x x' (B1 & B2 & B3 & B4 & B5) Hx.
      unfold save_if_t0_equals_t1. rewrite <- B3, <- T0. destruct (sub_ts b); [|exact Hx]. apply save_rel; assumption. }
    destruct (if cfg_t0 c =? cfg_t1 c then omap2 (save_if_t0_equals_t1 c yf) _ _ else _) as [sa|],
             (if cfg_t0 c =? cfg_t1 c then omap2 (save_if_t0_equals_t1 c' yf') _ _ else _) as [sa'|]; cbn [opt_related] in SE; try tauto; cbn [obind].
    assert (S1 : opt_related (Forall2 sv_rel) (omap2 (save_t1 (has_root_finder c) (st_num_accepted s) tf yf) (cfg_subs c) sa)
                   (omap2 (save_t1 (has_root_finder c) (st_num_accepted s) tf yf') (cfg_subs c') sa')).
    { eapply f2_omap2; [|exact SUB|exact SE]. intros b b' x x' (B1 & B2 & B3 & B4 & B5) Hx.
      unfold save_t1. rewrite <- B2, <- B4.
      match goal with |- opt_related _ (if ?q then _ else _) _ => destruct q end; [exact Hx|]. apply save_rel; assumption. }
    destruct (omap2 (save_t1 _ _ _ yf) _ _) as [sb|], (omap2 (save_t1 _ _ _ yf') _ _) as [sb'|]; cbn [opt_related] in S1; try tauto; cbn [obind].
    cbn [opt_related]. unfold outcomes_related. cbn.
    split; [reflexivity|]. split; [exact Fy|]. split; [reflexivity|]. split.
    { clear -S1. induction S1; constructor; [apply H|assumption]. }
    repeat (split; [assumption|]). assumption.
  Qed.
End Proof.

Section Theorems.
  Context {Y SS CS DI E V MS Y' SS' CS' DI' E' V' MS' : Type}.
  Notation config := (config Y SS CS DI E V MS).
  Notation config' := (Model_Loop.config Y' SS' CS' DI' E' V' MS').
  Lemma pf_C76_related (RY : Y -> Y' -> Prop) (RS : SS -> SS' -> Prop) (RC : CS -> CS' -> Prop)
        (RD : DI -> DI' -> Prop) (RE : E -> E' -> Prop) (RV : V -> V' -> Prop) (c : config) (c' : config')
        (i : initial Y SS CS MS) (i' : initial Y' SS' CS' MS') (o : outcome Y SS CS DI V MS) :
    configs_related RY RS RC RD RE RV c c' -> initials_related RY RS RC i i' -> solves c i o ->
    exists o', solves c' i' o' /\ outcomes_related RY RS RC RD RV o o'.
  Proof.
    intros HC HI (s0 & sf & H0 & HL & HF).
    assert (Q := init_rel RY RS RC RD RE RV c c' HC i i' HI). rewrite H0 in Q.
    destruct (init_state c' i') as [s0'|] eqn:H0'; cbn [opt_related] in Q; [|destruct Q].
    destruct (loop_final_rel RY RS RC RD RE RV c c' HC _ _ _ Q HL) as (sf' & HL' & Qf).
    assert (F := finish_rel RY RS RC RD RE RV c c' HC _ _ Qf). rewrite HF in F.
    destruct (finish c' sf') as [o'|] eqn:HF'; cbn [opt_related] in F; [|destruct F].
    exists o'. split; [exists s0', sf'; auto|exact F].
  Qed.
End Theorems.
