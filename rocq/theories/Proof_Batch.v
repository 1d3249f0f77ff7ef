(** Proofs about padding (C52) and batches (C51). *)
From Coq Require Import ZArith List Bool Arith Lia.
From Verif Require Import Model_Result Model_Loop Spec_Loop Proof_LoopBasic Proof_LoopSave
  Proof_LoopFinish Proof_LoopEvent Proof_PropLoop Proof_PropLoop2
  Model_Clip Model_Dense Model_Direction Spec_Direction Proof_Direction.
Import ListNotations.
Open Scope Z_scope.

Section Lists.
  Context {A B : Type} (R : A -> B -> Prop).
  Lemma F2_at_set l l' i x y : Forall2 R l l' -> R x y -> Forall2 R (at_set l i x) (at_set l' i y).
  Proof. intros H Hxy. revert i. induction H; intros [|i]; cbn; constructor; auto. Qed.
  Lemma F2_firstn n l l' : Forall2 R l l' -> Forall2 R (firstn n l) (firstn n l').
  Proof. intros H. revert n. induction H; intros [|n]; cbn; constructor; auto. Qed.
  Lemma F2_skipn n l l' : Forall2 R l l' -> Forall2 R (skipn n l) (skipn n l').
  Proof. intros H. revert n. induction H; intros [|n]; cbn; auto. Qed.
  Lemma F2_len_ l l' : Forall2 R l l' -> length l = length l'.
  Proof. induction 1; cbn; lia. Qed.
  Lemma F2_repeat n x y : R x y -> Forall2 R (repeat x n) (repeat y n).
  Proof. intros H. induction n; cbn; constructor; auto. Qed.
  Lemma F2_nth l l' i x y : Forall2 R l l' -> nth_error l i = Some x -> nth_error l' i = Some y -> R x y.
  Proof.
    intros H. revert i. induction H; intros [|i]; cbn; try discriminate; [congruence|apply IHForall2].
  Qed.
  Lemma F2_dus l l' u u' i r r' : Forall2 R l l' -> Forall2 R u u' ->
    dynamic_update_slice l u i = Some r -> dynamic_update_slice l' u' i = Some r' -> Forall2 R r r'.
  Proof.
    intros H Hu. unfold dynamic_update_slice. rewrite <- (F2_len_ _ _ H), <- (F2_len_ _ _ Hu).
    destruct (_ <=? _)%nat; [|discriminate]. intros E1 E2. injection E1 as <-. injection E2 as <-.
    repeat apply Forall2_app; auto using F2_firstn, F2_skipn.
  Qed.
End Lists.

Section Pad.
  Context {Y SS CS DI E V MS : Type}.
  Notation config := (config Y SS CS DI E V MS).
  Notation initial := (initial Y SS CS MS).
  Notation state := (state Y SS CS DI V MS).
  Notation outcome := (outcome Y SS CS DI V MS).
  Notation save_state := (save_state V).
  Variable pad : xtime.

  Definition slot (x : xtime) (v : option V) : Prop :=
    match x with Fin _ => v <> None | _ => x = pad /\ v = None end.
  Definition paired (s : save_state) : Prop := Forall2 slot (ss_ts s) (ss_ys s).

  Lemma paired_save t y (fn : Z -> Y -> V) s rep pred s' :
    paired s -> save_ t y fn s rep pred = Some s' -> paired s'.
  Proof.
    unfold save_, paired. intros H.
    destruct (if pred then Some (Fin t) else get_clamp (ss_ts s) (save_index s)) as [x|] eqn:Hx; [|discriminate].
    destruct (if pred then Some (Some (fn t y)) else get_clamp (ss_ys s) (save_index s)) as [v|] eqn:Hv; [|discriminate].
    assert (Hxv : slot x v).
    { destruct pred.
      - injection Hx as <-. injection Hv as <-. cbn. discriminate.
      - unfold get_clamp in *. rewrite <- (F2_len_ _ _ _ H) in Hv. eapply F2_nth; eauto. }
    destruct (dynamic_update_slice (ss_ts s) _ _) as [ts|] eqn:E1; [|discriminate].
    destruct (dynamic_update_slice (ss_ys s) _ _) as [ys|] eqn:E2; [|discriminate].
    intros Hs. injection Hs as <-. cbn.
    exact (F2_dus slot _ _ _ _ _ _ _ H (F2_repeat slot rep x v Hxv) E1 E2).
  Qed.
  Lemma paired_set s i j k t (v : V) : paired s ->
    paired (SaveState j (at_set (ss_ts s) i (Fin t)) (at_set (ss_ys s) i (Some v)) k).
  Proof. intros H. unfold paired. cbn. apply F2_at_set; [exact H|]. cbn. discriminate. Qed.
  Lemma paired_ts_loop fuel keep tnext ev (fn : Z -> Y -> V) ts : forall s,
    paired s -> paired (save_ts_loop fuel keep tnext ev fn ts s).
  Proof.
    induction fuel as [|fuel IH]; intros s H; [exact H|]. cbn [save_ts_loop].
    destruct (get_clamp _ _); [|exact H]. destruct (_ && _); [|exact H]. apply IH, paired_set, H.
  Qed.
  Lemma paired_ts keep tnext ev (sub : subsaveat Y V) s : paired s -> paired (save_ts keep tnext ev sub s).
  Proof. intros H. unfold save_ts. destruct (sub_ts sub); [apply paired_ts_loop|]; exact H. Qed.
  Lemma paired_steps keep n t y (sub : subsaveat Y V) s : paired s -> paired (save_steps keep n t y sub s).
  Proof.
    intros H. unfold save_steps. destruct (sub_steps sub =? 0)%nat; [exact H|]. destruct (_ && _); [|exact H].
    apply paired_set, H.
  Qed.
  Lemma map2_Forall {A} (P : save_state -> Prop) (f : A -> save_state -> save_state) l s :
    (forall a x, P x -> P (f a x)) -> Forall P s -> Forall P (map2 f l s).
  Proof. intros Hf H. revert l. induction H as [|x s Hx H IH]; intros [|a l]; cbn; constructor; auto. Qed.
  Lemma omap2_Forall {A} (P : save_state -> Prop) (f : A -> save_state -> option save_state) l s r :
    (forall a x y, P x -> f a x = Some y -> P y) -> Forall P s -> omap2 f l s = Some r -> Forall P r.
  Proof.
    intros Hf H. revert l r. induction H as [|x s Hx H IH]; intros [|a l] r; cbn;
      try (intros Hr; injection Hr as <-; constructor).
    unfold obind. destruct (f a x) eqn:Hfa; [|discriminate]. destruct (omap2 f l s) eqn:Ho; [|discriminate].
    intros Hr. injection Hr as <-. constructor; eauto.
  Qed.

  Lemma paired_body (c : config) (s : state) :
    Forall paired (st_save s) -> Forall paired (st_save (body_fun c s)).
  Proof.
    intros H. rewrite body_save. apply map2_Forall; [intros; apply paired_steps; assumption|].
    apply map2_Forall; [intros; apply paired_ts; assumption|exact H].
  Qed.
  Lemma paired_while (c : config) n : forall s,
    Forall paired (st_save s) -> Forall paired (st_save (while_loop c n s)).
  Proof.
    induction n as [|n IH]; intros s H; [exact H|]. cbn [while_loop]. destruct (cond_fun c s); [|exact H].
    apply IH, paired_body, H.
  Qed.
  Lemma paired_init (c : config) (i : initial) s0 :
    in_pad i = pad -> pad <> Fin 0 -> (forall t, pad <> Fin t) -> init_state c i = Some s0 -> Forall paired (st_save s0).
  Proof.
    intros Hp _ Hnf. unfold init_state, obind.
    destruct (omap (allocate_output (in_pad i) (cfg_max_steps c)) (cfg_subs c)) as [sv|] eqn:Ho; [|discriminate].
    destruct (omap2 _ _ _) as [sv'|] eqn:Ho2; [|discriminate].
    destruct (if cfg_dense c then _ else _); [|discriminate]. destruct (first_true _ _).
    intros H. injection H as <-. cbn.
    eapply omap2_Forall; [|  |exact Ho2].
    - intros sub x y Hx. unfold save_t0. destruct (sub_t0 sub); [apply paired_save; exact Hx|].
      intros H. injection H as <-. exact Hx.
    - clear Ho2. revert sv Ho. generalize (cfg_subs c) as subs. induction subs as [|sub ll IH]; cbn; intros sv Ho.
      + injection Ho as <-. constructor.
      + unfold obind in Ho. destruct (allocate_output _ _ sub) as [x|] eqn:Ha; [|discriminate].
        destruct (omap _ ll) eqn:Hl; [|discriminate]. injection Ho as <-. constructor; [|apply IH; reflexivity].
        unfold allocate_output in Ha. destruct (out_size _ sub); [|discriminate]. injection Ha as <-.
        unfold paired. cbn. apply F2_repeat. rewrite Hp. unfold slot. destruct pad; [destruct (Hnf t); reflexivity|auto|auto].
  Qed.
  Lemma paired_unsave t (s : save_state) : pad = PInf -> paired s -> paired (unsave t s).
  Proof.
    intros Hp. unfold paired, unsave. cbn [ss_ts ss_ys]. intros H.
    induction H as [|x v l l' Hxv H IH]; [constructor|]. cbn [map map2].
    constructor; [|exact IH]. destruct (xgt x t); [split; [congruence|reflexivity]|exact Hxv].
  Qed.
  Lemma paired_finish (c : config) (s : state) (o : outcome) :
    (has_root_finder c = true -> pad = PInf) ->
    Forall paired (st_save s) -> finish c s = Some o -> Forall paired (out_save o).
  Proof.
    intros Hp H. unfold finish, finish_batched, obind.
    destruct (final_time _ _ _) as [[tf yf] r].
    set (sv := if has_root_finder c then map (unsave tf) (st_save s) else st_save s).
    assert (Hsv : Forall paired sv).
    { subst sv. destruct (has_root_finder c); [|exact H]. rewrite Forall_map. eapply Forall_impl; [|exact H].
      intros x Hx. apply paired_unsave; auto. }
    destruct (if cfg_t0 c =? cfg_t1 c then _ else _) as [sv1|] eqn:H1; [|discriminate].
    assert (Hsv1 : Forall paired sv1).
    { destruct (cfg_t0 c =? cfg_t1 c); [|congruence]. eapply omap2_Forall; [| |exact H1]; [|exact Hsv].
      intros sub x y Hx. unfold save_if_t0_equals_t1. destruct (sub_ts sub); [apply paired_save; exact Hx|].
      intros Hy. injection Hy as <-. exact Hx. }
    destruct (omap2 _ _ sv1) as [sv2|] eqn:H2; [|discriminate]. intros Ho. injection Ho as <-. cbn.
    eapply omap2_Forall; [| |exact H2]; [|exact Hsv1].
    intros sub x y Hx. unfold save_t1.
    destruct (match sub_steps sub with O => _ | _ => _ end); [intros Hy; injection Hy as <-; exact Hx|].
    apply paired_save, Hx.
  Qed.
End Pad.

Section Padding.
  Context {Y SS CS DI E V MS VF C P : Type} (cneg : C -> C).
  Notation problem := (problem Y SS CS DI E V MS VF C P).
  Notation diffeqsolve := (@diffeqsolve Y SS CS DI E V MS VF C P cneg).

  Lemma normalise_facts (p : problem) c i : normalise cneg p = Some (c, i) ->
    has_root_finder c = pb_root_finder p /\
    in_pad i = (if direction_of p =? 1 then PInf else NInf) /\
    cfg_t0 c = pb_t0 p * direction_of p /\ cfg_t1 c = pb_t1 p * direction_of p.
  Proof.
    unfold normalise, obind. destruct (wrap_controller _ _); [|discriminate].
    destruct (existsb _ _); [discriminate|]. destruct (pb_controller_init _ _ _ _ _ _ _).
    intros H. injection H as <- <-. cbn. auto.
  Qed.
  Lemma direction_cases (p : problem) :
    (pb_t0 p < pb_t1 p /\ direction_of p = 1) \/ (pb_t1 p <= pb_t0 p /\ direction_of p = -1).
  Proof. unfold direction_of. destruct (Z.ltb_spec (pb_t0 p) (pb_t1 p)); auto. Qed.

  Lemma pf_C52_padding (p : problem) (sol : solution Y SS CS V) :
    diffeqsolve p sol -> (pb_t0 p < pb_t1 p \/ pb_root_finder p = false) ->
    Forall2 (fun ts ys =>
        Forall2 (fun x v => match x with Fin _ => v <> None | PInf => v = None | NInf => False end) ts ys)
      (sol_ts sol) (sol_ys sol).
  Proof.
    intros (c & i & o & Hn & (s0 & sf & Hi & Hl & Hf) & ->) Hor.
    destruct (normalise_facts p c i Hn) as (Hrf & Hpad & _).
    assert (Hpair : Forall (paired (in_pad i)) (out_save o)).
    { eapply paired_finish; [| |exact Hf].
      - rewrite Hrf, Hpad. intros Hr. destruct (direction_cases p) as [[? ->]|[? ->]]; [reflexivity|].
        destruct Hor; [lia|congruence].
      - assert (H0 : Forall (paired (in_pad i)) (st_save s0)).
        { eapply paired_init; eauto; rewrite Hpad; destruct (_ =? _); intros; discriminate. }
        unfold loop_final in Hl. destruct (cfg_max_steps c); [subst sf|destruct Hl as (n & -> & _)];
          apply paired_while, H0. }
    cbn. clear - Hpair Hpad. induction Hpair as [|sv l Hsv H IH]; [constructor|]. cbn. constructor; [|exact IH].
    unfold paired in Hsv. clear - Hsv Hpad. induction Hsv as [|x v l l' Hxv H IH]; cbn; constructor; [|exact IH].
    unfold slot in Hxv. rewrite Hpad in Hxv.
    destruct (direction_cases p) as [[? Hd]|[? Hd]]; rewrite Hd in *; cbn in *; destruct x; cbn in *;
      intuition congruence.
  Qed.
End Padding.

Section Batch.
  Context {Y SS CS DI E V MS : Type}.
  Notation config := (config Y SS CS DI E V MS).
  Notation initial := (initial Y SS CS MS).
  Notation state := (state Y SS CS DI V MS).
  Notation outcome := (outcome Y SS CS DI V MS).
  Notation attempt := (attempt Y).

  Lemma nth_map2 {A B D} (f : A -> B -> D) : forall l l' k a b,
    nth_error l k = Some a -> nth_error l' k = Some b -> nth_error (map2 f l l') k = Some (f a b).
  Proof.
    induction l as [|x l IH]; intros [|y l'] [|k] a b; cbn; try discriminate.
    - intros H1 H2. injection H1 as <-. injection H2 as <-. reflexivity.
    - apply IH.
  Qed.

  Lemma pf_C51_loop (cs : list config) (fuel : nat) (ss : list state) (k : nat) (c : config) (s : state) :
    nth_error cs k = Some c -> nth_error ss k = Some s ->
    nth_error (batched_while cs fuel ss) k = Some (while_loop c fuel s).
  Proof.
    intros Hc. revert ss s. induction fuel as [|fuel IH]; intros ss s Hs; [exact Hs|].
    cbn [batched_while while_loop].
    destruct (existsb _ _) eqn:Hany.
    - rewrite (IH _ (if cond_fun c s then body_fun c s else s)).
      + destruct (cond_fun c s) eqn:Hcd; [reflexivity|]. f_equal. destruct fuel; [reflexivity|].
        cbn [while_loop]. rewrite Hcd. reflexivity.
      + rewrite (nth_map2 _ _ _ _ _ _ Hc Hs). reflexivity.
    - destruct (cond_fun c s) eqn:Hcd; [|exact Hs]. exfalso.
      rewrite <- not_true_iff_false in Hany. apply Hany. apply existsb_exists. exists true. split; [|reflexivity].
      rewrite <- Hcd. eapply nth_error_In. apply (nth_map2 cond_fun _ _ _ _ _ Hc Hs).
  Qed.

  Lemma map2_all_zero {A} (f : bool -> A -> fval) l l' :
    (forall m a, f m a = Some 0) -> Forall (fun v => v = Some 0) (map2 f l l').
  Proof. intros H. revert l'. induction l; intros [|b l']; cbn; constructor; auto. Qed.

  Lemma existsb_spec_sub (ss : list state) (s : state) k :
    nth_error ss k = Some s -> event_happened s = true ->
    existsb (fun s => existsb (fun b => b) (st_event_mask s)) ss = true.
  Proof. intros Hs H. apply existsb_exists. exists s. split; [eapply nth_error_In; eauto|exact H]. Qed.

  Lemma pf_C51_finish_partial (cs : list config) (ss : list state) (k m : nat) (c : config) (i : initial)
        (s0 : state) :
    nth_error cs k = Some c -> nth_error ss k = Some s0 -> init_state c i = Some s0 ->
    (forall e rf, cfg_event c = Some e -> ev_root_finder e = Some rf -> keeps_roots rf) ->
    (has_root_finder c = true -> event_happened (while_loop c m s0) = false ->
     forall h a, history c m s0 = h ++ [a] ->
       at_keep a = true /\ at_end a = at_to a /\ at_interp a (at_to a) = at_y a) ->
    nth_error (batched_finish cs (batched_while cs m ss)) k = Some (alone c m s0).
  Proof.
    intros Hc Hs Hi Hkr Hlast. unfold batched_finish.
    rewrite (nth_map2 _ _ _ _ _ _ Hc (pf_C51_loop cs m ss k c s0 Hc Hs)). f_equal.
    unfold alone, finish. set (s := while_loop c m s0) in *.
    set (any := existsb _ _).
    destruct (event_happened s) eqn:Hev.
    { assert (any = true) as ->; [|reflexivity]. subst any.
      eapply existsb_spec_sub; [|exact Hev]. apply (pf_C51_loop cs m ss k c s0 Hc Hs). }
    destruct any; [|reflexivity].
    unfold finish_batched.
    assert (Hft : final_time c true s = final_time c false s); [|rewrite Hft; reflexivity].
    unfold final_time. destruct (cfg_event c) as [e|] eqn:He; [|reflexivity].
    destruct (ev_root_finder e) as [rf|] eqn:Hr; [|reflexivity].
    assert (Hhr : has_root_finder c = true) by (unfold has_root_finder; rewrite He, Hr; reflexivity).
    specialize (Hlast Hhr eq_refl). unfold root_find_event. rewrite Hev.
    rewrite (Hkr e rf eq_refl Hr).
    2:{ unfold to_root_find. apply map2_all_zero. intros. rewrite Z.sub_diag. reflexivity. }
    destruct (init_time _ _ _ Hi) as (I1 & I2 & _).
    destruct (history c m s0) as [|a h _] eqn:Hh using rev_ind.
    - assert (Hss : s = s0).
      { subst s. destruct m as [|m]; [reflexivity|]. cbn [history while_loop] in *. destruct (cond_fun c s0); [discriminate|reflexivity]. }
      rewrite Hss. clear - Hi. unfold init_state, obind in Hi. destruct (omap _ _); [|discriminate].
      destruct (omap2 _ _ _); [|discriminate]. destruct (if cfg_dense c then _ else _); [|discriminate].
      destruct (first_true _ _). injection Hi as <-. reflexivity.
    - destruct (Hlast h a eq_refl) as (K1 & K2 & K3).
      destruct (run_event_fields c e i s0 m h a He Hi Hh) as (F1 & F2 & F3 & F4). fold s in F1, F2, F3, F4.
      rewrite (proj2 (Nat.eqb_neq _ _) F4). rewrite F3, F2, K3.
      destruct (history_snoc _ _ _ _ _ Hh) as (n & Hm & _ & Ha & Hcd & Hw & _).
      assert (Htp : st_tprev s = at_end a).
      { subst s. rewrite Hw, Ha, body_tprev. reflexivity. }
      assert (Hy : st_y s = at_y a).
      { subst s. rewrite Hw, body_y. rewrite Ha. reflexivity. }
      rewrite Htp, Hy, K2. reflexivity.
  Qed.
End Batch.
