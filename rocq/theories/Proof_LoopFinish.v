(** The finishing code: final logs, totality. *)
From Coq Require Import ZArith List Bool Arith Lia.
From Verif Require Import Model_Result Model_Loop Spec_Loop Proof_LoopBasic Proof_LoopSave.
Import ListNotations.
Open Scope Z_scope.

Lemma dus_append {A} (l : list A) x pad k n :
  (n <= k)%nat ->
  dynamic_update_slice (l ++ repeat pad k) (repeat x n) (length l)
  = Some (l ++ repeat x n ++ repeat pad (k - n)).
Proof.
  intros H. unfold dynamic_update_slice. rewrite app_length, !repeat_length.
  rewrite (proj2 (Nat.leb_le _ _)) by lia.
  rewrite Nat.min_l by lia. f_equal.
  rewrite firstn_app, firstn_all, Nat.sub_diag, firstn_O, app_nil_r. f_equal. f_equal.
  rewrite skipn_app, skipn_all2 by lia. cbn [app].
  replace (length l + n - length l)%nat with n by lia.
  replace k with (n + (k - n))%nat at 1 by lia.
  rewrite repeat_app, skipn_app, repeat_length, skipn_all2 by (rewrite repeat_length; lia).
  rewrite Nat.sub_diag. reflexivity.
Qed.

Lemma filter_length_le {A} (f : A -> bool) l : (length (filter f l) <= length l)%nat.
Proof. induction l as [|a l IH]; cbn; [lia|]. destruct (f a); cbn; lia. Qed.

(** Writing what is read back is the identity. *)
Lemma dus_same {A} (l : list A) i x :
  get_clamp l i = Some x -> dynamic_update_slice l [x] i = Some l.
Proof.
  intros H. unfold dynamic_update_slice; cbn [length].
  assert (Hl : (1 <= length l)%nat).
  { destruct l; cbn; [|lia]. unfold get_clamp in H. cbn in H.
    destruct (Nat.min i 0); discriminate. }
  rewrite (proj2 (Nat.leb_le _ _) Hl). f_equal.
  unfold get_clamp in H. set (j := Nat.min i (length l - 1)) in *.
  replace (j + 1)%nat with (S j) by lia.
  rewrite <- (firstn_skipn j l) at 3. rewrite (skipn_nth_error _ _ _ H). reflexivity.
Qed.

Section Finish.
  Context {Y SS CS DI E V MS : Type}.
  Notation config := (config Y SS CS DI E V MS).
  Notation state := (state Y SS CS DI V MS).
  Notation subsaveat := (subsaveat Y V).
  Notation save_state := (save_state V).
  Implicit Types (c : config) (s : state) (sub : subsaveat).

  Lemma save_append (sv : save_state) log pad size t (y : Y) fn rep :
    holds_log sv log pad size -> save_index sv = length log ->
    (length log + rep <= size)%nat ->
    exists sv', save_ t y fn sv rep true = Some sv' /\
      holds_log sv' (log ++ repeat (t, fn t y) rep) pad size /\
      save_index sv' = (length log + rep)%nat.
  Proof.
    intros (Hl & H1 & H2) Hi Hcap. unfold save_. rewrite Hi, H1, H2.
    assert (Hn : (rep <= size - length log)%nat) by lia.
    pose proof (dus_append (map (fun p : Z * V => Fin (fst p)) log) (Fin t) pad _ rep Hn) as D1.
    pose proof (dus_append (map (fun p : Z * V => Some (snd p)) log) (Some (fn t y)) None _ rep Hn)
      as D2.
    rewrite map_length in D1, D2. rewrite D1, D2.
    eexists. split; [reflexivity|]. unfold holds_log; cbn [ss_ts ss_ys save_index].
    rewrite app_length, repeat_length, !map_app, <- !app_assoc.
    assert (Hrep : forall B (f : Z * V -> B) x n, map f (repeat x n) = repeat (f x) n)
      by (intros B f x n; induction n as [|n IHn]; cbn; [|rewrite IHn]; reflexivity).
    rewrite !Hrep. cbn [fst snd].
    replace (size - length log - rep)%nat with (size - (length log + rep))%nat by lia.
    repeat split; auto; lia.
  Qed.

  Lemma save_noop (sv : save_state) t (y : Y) fn :
    length (ss_ts sv) = length (ss_ys sv) -> (0 < length (ss_ts sv))%nat ->
    save_ t y fn sv 1 false =
    Some (SaveState (saveat_ts_index sv) (ss_ts sv) (ss_ys sv) (save_index sv + 1)).
  Proof.
    intros Hl Hp. unfold save_.
    assert (exists a, get_clamp (ss_ts sv) (save_index sv) = Some a) as [a Ha].
    { destruct (get_clamp (ss_ts sv) (save_index sv)) eqn:H; eauto.
      unfold get_clamp in H. apply nth_error_None in H. lia. }
    assert (exists b, get_clamp (ss_ys sv) (save_index sv) = Some b) as [b Hb].
    { destruct (get_clamp (ss_ys sv) (save_index sv)) eqn:H; eauto.
      unfold get_clamp in H. apply nth_error_None in H. lia. }
    rewrite Ha, Hb. cbn [repeat]. rewrite (dus_same _ _ _ Ha), (dus_same _ _ _ Hb). reflexivity.
  Qed.

  Lemma save_empty (sv : save_state) t (y : Y) fn pred :
    ss_ts sv = [] -> save_ t y fn sv 1 pred = None.
  Proof.
    intros H. unfold save_. rewrite H. destruct pred; cbn.
    - reflexivity.
    - unfold get_clamp; cbn. destruct (Nat.min _ 0); reflexivity.
  Qed.

  (** Length of the log. *)
  Lemma drop_while_length {A} (p : A -> bool) l : (length (drop_while p l) <= length l)%nat.
  Proof.
    rewrite <- (take_drop_while p l) at 2. rewrite app_length. lia.
  Qed.
  Lemma rem_after_length rem (accs : list (attempt Y)) :
    (length (rem_after rem accs) <= length rem)%nat.
  Proof.
    revert rem; induction accs as [|a accs IH]; intros rem; cbn; [lia|].
    pose proof (drop_while_length (fun t => t <=? at_to a) rem).
    specialize (IH (drop_while (fun t => t <=? at_to a) rem)). lia.
  Qed.
  Lemma log_steps_length sub rem k accs :
    (length (log_steps sub rem k accs) + length (rem_after rem accs) =
     length rem + slots (sub_steps sub) k (length accs))%nat.
  Proof.
    revert rem k. induction accs as [|a accs IH]; intros rem k; cbn [log_steps rem_after length].
    - unfold slots. destruct (sub_steps sub =? 0)%nat; rewrite ?Nat.add_0_r, ?Nat.sub_diag; lia.
    - rewrite !app_length, map_length, slots_step_keep.
      specialize (IH (drop_while (fun t => t <=? at_to a) rem) (k + 1)%nat).
      assert (Hlr : length rem = (length (take_while (fun t => (t <=? at_to a)%Z) rem)
                     + length (drop_while (fun t => (t <=? at_to a)%Z) rem))%nat)
        by (rewrite <- app_length, take_drop_while; reflexivity).
      destruct (negb (sub_steps sub =? 0)%nat && ((k + 1) mod sub_steps sub =? 0)%nat);
        cbn [length]; lia.
  Qed.

  (** With room for the final value when it is due. *)
  Lemma final_room max_steps sub size (k : nat) :
    out_size max_steps sub = Some size ->
    (forall m, max_steps = Some m -> (k <= m)%nat) ->
    sub_t1 sub = true -> step_due (sub_steps sub) k = false ->
    ((if sub_t0 sub then 1 else 0) + length (sub_ts_list sub)
     + slots (sub_steps sub) 0 k + 1 <= size)%nat.
  Proof.
    intros Hs Hk Ht1 Hdue. destruct (out_size_slots _ _ _ Hs) as (-> & Hnone).
    unfold extra_slot, step_due in *. rewrite Ht1. cbn [andb].
    destruct max_steps as [m|].
    - specialize (Hk m eq_refl). rewrite !slots_zero.
      destruct (Nat.eqb_spec (sub_steps sub) 0) as [H0|H0]; cbn [orb negb andb] in *; [lia|].
      apply Nat.eqb_neq in Hdue.
      assert (Hle : (k / sub_steps sub <= m / sub_steps sub)%nat) by (apply Nat.div_le_mono; lia).
      destruct (Nat.eqb_spec (m mod sub_steps sub) 0) as [Hm|Hm]; cbn [negb]; [|lia].
      pose proof (Nat.div_mod k _ H0) as D1. pose proof (Nat.div_mod m _ H0) as D2.
      pose proof (Nat.mod_upper_bound k _ H0). rewrite Hm in D2.
      assert (k / sub_steps sub < m / sub_steps sub)%nat by nia. lia.
    - rewrite (Hnone eq_refl), !slots_steps0. lia.
  Qed.

  Lemma steps_room max_steps sub size (k : nat) :
    out_size max_steps sub = Some size ->
    (forall m, max_steps = Some m -> (k <= m)%nat) ->
    ((if sub_t0 sub then 1 else 0) + length (sub_ts_list sub)
     + slots (sub_steps sub) 0 k <= size)%nat.
  Proof.
    intros Hs Hk. destruct (out_size_slots _ _ _ Hs) as (-> & Hnone).
    destruct max_steps as [m|].
    - specialize (Hk m eq_refl). pose proof (slots_mono (sub_steps sub) 0 k m Hk). lia.
    - rewrite (Hnone eq_refl), !slots_steps0. lia.
  Qed.

  (** [_save_t1] without a root finder. *)
  Lemma save_t1_norf (sv sv' : save_state) log pad size tf (yf : Y) sub k :
    holds_log sv log pad size -> save_index sv = length log ->
    (sub_t1 sub = true -> step_due (sub_steps sub) k = false -> (length log + 1 <= size)%nat) ->
    save_t1 false k tf yf sub sv = Some sv' ->
    holds_log sv' (log ++ if sub_t1 sub && negb (step_due (sub_steps sub) k)
                          then [(tf, sub_fn sub tf yf)] else []) pad size.
  Proof.
    intros Hh Hi Hroom H. unfold save_t1 in H.
    assert (Hcase : forall pred, pred = sub_t1 sub && negb (step_due (sub_steps sub) k) ->
              save_ tf yf (sub_fn sub) sv 1 pred = Some sv' ->
              holds_log sv' (log ++ if sub_t1 sub && negb (step_due (sub_steps sub) k)
                          then [(tf, sub_fn sub tf yf)] else []) pad size).
    { intros pred Hpred Hsave. rewrite <- Hpred. destruct pred.
      - symmetry in Hpred. apply andb_true_iff in Hpred. destruct Hpred as [P1 P2].
        apply negb_true_iff in P2.
        destruct (save_append sv log pad size tf yf (sub_fn sub) 1 Hh Hi (Hroom P1 P2))
          as (sv1 & S1 & S2 & _).
        rewrite S1 in Hsave. injection Hsave as <-. exact S2.
      - destruct (holds_log_length _ _ _ _ Hh) as (L1 & L2).
        destruct (Nat.eq_dec size 0) as [Hz|Hz].
        + rewrite save_empty in Hsave; [discriminate|]. apply length_zero_iff_nil. lia.
        + rewrite save_noop in Hsave by lia. injection Hsave as <-. rewrite app_nil_r.
          destruct Hh as (A & B & C). repeat split; assumption. }
    assert (Hskip : sub_t1 sub && negb (step_due (sub_steps sub) k) = false ->
              Some sv = Some sv' ->
              holds_log sv' (log ++ if sub_t1 sub && negb (step_due (sub_steps sub) k)
                          then [(tf, sub_fn sub tf yf)] else []) pad size).
    { intros -> Hs. injection Hs as <-. rewrite app_nil_r. exact Hh. }
    destruct (sub_steps sub) as [|[|n]] eqn:Hsteps.
    - cbn [step_due Nat.eqb negb andb] in *. destruct (sub_t1 sub); cbn [negb andb] in *.
      + apply (Hcase true); auto.
      + apply Hskip; auto.
    - apply Hskip; [|exact H]. unfold step_due. cbn. apply andb_false_r.
    - eapply Hcase; [|exact H]. unfold step_due. cbn [Nat.eqb negb andb]. reflexivity.
  Qed.

  (** Without root finder [finish] reports the last state. *)
  Lemma finish_norf_final c s o :
    has_root_finder c = false -> finish c s = Some o ->
    out_tfinal o = st_tprev s /\ out_yfinal o = st_y s /\ out_state o = s /\
    out_result o = where_ (cond_fun c s) max_steps_reached (st_result s).
  Proof.
    intros Hrf H. unfold finish, finish_batched in H.
    assert (Hf : final_time c (event_happened s) s = (st_tprev s, st_y s, st_result s)).
    { unfold final_time, has_root_finder in *. destruct (cfg_event c) as [e|]; [|reflexivity].
      destruct (ev_root_finder e); [discriminate|reflexivity]. }
    rewrite Hf, Hrf in H. unfold obind in H.
    destruct (if cfg_t0 c =? cfg_t1 c then _ else _); [|discriminate].
    destruct (omap2 _ _ _); [|discriminate]. injection H as <-. auto.
  Qed.

  Lemma init_time c i s0 :
    init_state c i = Some s0 ->
    st_tprev s0 = cfg_t0 c /\ st_y s0 = in_y i /\ st_tnext s0 = Z.min (in_tnext i) (cfg_t1 c) /\
    st_num_steps s0 = 0%nat /\ st_num_accepted s0 = 0%nat /\ st_num_rejected s0 = 0%nat /\
    st_made_jump s0 = in_made_jump i /\ st_solver_state s0 = in_solver_state i /\
    st_controller_state s0 = in_controller_state i /\ st_meter s0 = in_meter i.
  Proof.
    unfold init_state, obind. destruct (omap _ _); [|discriminate].
    destruct (omap2 _ _ _); [|discriminate].
    destruct (if cfg_dense c then _ else _); [|discriminate].
    destruct (first_true _ _). intros H; injection H as <-. repeat split.
  Qed.

  (** When [t0 = t1] (and the controller is not a [StepTo]) no step is made. *)
  Lemma no_steps_if_equal c i s0 n :
    (stepto_len c <> None -> cfg_t0 c < cfg_t1 c) ->
    init_state c i = Some s0 -> cfg_t0 c = cfg_t1 c ->
    history c n s0 = [] /\ while_loop c n s0 = s0.
  Proof.
    intros Hst Hi He. destruct (init_time c i s0 Hi) as (Htp & _).
    assert (Hcond : cond_fun c s0 = false).
    { unfold cond_fun. destruct (stepto_len c).
      - assert (cfg_t0 c < cfg_t1 c) by (apply Hst; discriminate). lia.
      - rewrite Htp, He, Z.ltb_irrefl. reflexivity. }
    split; [destruct n; cbn; rewrite ?Hcond; reflexivity|apply while_stuck; exact Hcond].
  Qed.

  (** The final buffers of a solve without root finder. *)
  Theorem finish_logs c i s0 n o :
    has_root_finder c = false ->
    (stepto_len c <> None -> cfg_t0 c < cfg_t1 c) ->
    (forall m', cfg_max_steps c = Some m' -> (n <= m')%nat) ->
    init_state c i = Some s0 ->
    finish c (while_loop c n s0) = Some o ->
    let accs := accepted (history c n s0) in
    Forall2 (fun sub sv =>
        holds_log sv (log_final sub (cfg_t0 c) (cfg_t1 c) (in_y i) accs
                                (out_tfinal o) (out_yfinal o))
                  (in_pad i) (size_of (cfg_max_steps c) sub))
      (cfg_subs c) (out_save o).
  Proof.
    intros Hrf Hst Hm Hi Hf accs. cbn zeta.
    pose proof (loop_logs c i s0 n Hm Hi) as HL. cbn zeta in HL. fold accs in HL.
    destruct (finish_norf_final _ _ _ Hrf Hf) as (Htf & Hyf & Hos & _).
    set (s := while_loop c n s0) in *.
    assert (Hk : st_num_accepted s = length accs).
    { subst s accs. rewrite while_num_accepted, (init_num_accepted c i s0 Hi). reflexivity. }
    assert (Hkm : forall m, cfg_max_steps c = Some m -> (length accs <= m)%nat).
    { intros m Hmm. specialize (Hm m Hmm). pose proof (history_length c n s0).
      subst accs. unfold accepted. pose proof (filter_length_le at_keep (history c n s0)). lia. }
    assert (Hsz : Forall (fun sub => exists size, out_size (cfg_max_steps c) sub = Some size) (cfg_subs c)).
    { clear - Hi. unfold init_state, obind in Hi.
      destruct (omap _ (cfg_subs c)) as [svs|] eqn:H1; [|discriminate]. clear Hi.
      apply omap_spec in H1. induction H1; constructor; auto.
      destruct (alloc_holds _ _ _ _ H) as (size & Hs & _). eauto. }
    unfold finish, finish_batched in Hf.
    assert (Hft : final_time c (event_happened s) s = (st_tprev s, st_y s, st_result s)).
    { unfold final_time, has_root_finder in *. destruct (cfg_event c) as [e|]; [|reflexivity].
      destruct (ev_root_finder e); [discriminate|reflexivity]. }
    rewrite Hft, Hrf in Hf.
    rewrite Htf, Hyf. unfold obind in Hf.
    destruct (Z.eqb_spec (cfg_t0 c) (cfg_t1 c)) as [He|He].
    - (* t0 = t1 *)
      destruct (no_steps_if_equal c i s0 n Hst Hi He) as (Hh & Hs).
      assert (Haccs : accs = []) by (subst accs; rewrite Hh; reflexivity).
      destruct (omap2 _ (cfg_subs c) (st_save s)) as [svs1|] eqn:H1; [|discriminate].
      destruct (omap2 _ (cfg_subs c) svs1) as [svs2|] eqn:H2; [|discriminate].
      injection Hf as <-. cbn [out_save out_tfinal out_yfinal].
      pose proof (omap2_spec _ _ _ _ _ HL H1) as H1'.
      pose proof (omap2_spec _ _ _ _ _ H1' H2) as H2'.
      assert (H3 : Forall2 (fun sub sv => (exists size, out_size (cfg_max_steps c) sub = Some size) /\
                 exists b, (exists b0,
                  sub_inv (in_pad i) (length accs) 0 (extra_slot (cfg_max_steps c) sub) sub b0
          (log_loop sub (cfg_t0 c) (in_y i) accs)
          (rem_after (sub_ts_list sub) accs)
          (size_of (cfg_max_steps c) sub) /\
          save_if_t0_equals_t1 c (st_y s) sub b0 = Some b) /\
              save_t1 false (st_num_accepted s) (st_tprev s) (st_y s) sub b = Some sv) (cfg_subs c) svs2).
      { clear - Hsz H2'. induction H2'; constructor; inversion Hsz; subst; auto. }
      eapply Forall2_impl; [|exact H3]. cbn beta.
      intros sub sv [[size Hsize] [b [[b0 [Hinv Hs1]] Hs2]]].
      destruct Hinv as (Hh0 & Hi0 & Hle & Hrem & Hcap).
      rewrite Hk in Hs2. rewrite Haccs in *. cbn [length rem_after] in *.
      assert (Hlog : length (log_loop sub (cfg_t0 c) (in_y i) []) = (if sub_t0 sub then 1 else 0)%nat).
      { unfold log_loop, log_t0. cbn. rewrite app_nil_r. destruct (sub_t0 sub); reflexivity. }
      unfold size_of in *. rewrite Hsize in *.
      pose proof (steps_room _ _ _ 0%nat Hsize Hkm) as Hr1.
      pose proof (final_room _ _ _ 0%nat Hsize Hkm) as Hr2.
      assert (Hb : holds_log b (log_loop sub (cfg_t0 c) (in_y i) [] ++
                 repeat (cfg_t0 c, sub_fn sub (cfg_t0 c) (st_y s)) (length (sub_ts_list sub)))
                 (in_pad i) size /\
                 save_index b = ((if sub_t0 sub then 1 else 0) + length (sub_ts_list sub))%nat).
      { unfold save_if_t0_equals_t1, sub_ts_list in *. destruct (sub_ts sub) as [ts|].
        - destruct (save_append b0 _ _ _ (cfg_t0 c) (st_y s) (sub_fn sub) (length ts) Hh0 Hi0)
            as (b' & B1 & B2 & B3); [lia|].
          rewrite B1 in Hs1. injection Hs1 as <-. split; [exact B2|lia].
        - injection Hs1 as <-. cbn. rewrite app_nil_r. split; [exact Hh0|lia]. }
      destruct Hb as (Hb & Hbi).
      pose proof (save_t1_norf b sv _ _ _ (st_tprev s) (st_y s) sub 0%nat Hb) as Hfin.
      rewrite app_length, repeat_length, Hlog in Hfin.
      specialize (Hfin Hbi).
      unfold log_final. rewrite (proj2 (Z.eqb_eq _ _) He).
      rewrite app_assoc. apply Hfin; [|exact Hs2].
      intros P1 P2. specialize (Hr2 P1 P2). lia.
    - destruct (omap2 _ (cfg_subs c) (st_save s)) as [svs2|] eqn:H2; [|discriminate].
      injection Hf as <-. cbn [out_save out_tfinal out_yfinal].
      pose proof (omap2_spec _ _ _ _ _ HL H2) as H2'.
      assert (H3 : Forall2 (fun sub sv => (exists size, out_size (cfg_max_steps c) sub = Some size) /\
                 exists b, sub_inv (in_pad i) (length accs) 0 (extra_slot (cfg_max_steps c) sub) sub b
          (log_loop sub (cfg_t0 c) (in_y i) accs)
          (rem_after (sub_ts_list sub) accs)
          (size_of (cfg_max_steps c) sub) /\
              save_t1 false (st_num_accepted s) (st_tprev s) (st_y s) sub b = Some sv) (cfg_subs c) svs2).
      { clear - Hsz H2'. induction H2'; constructor; inversion Hsz; subst; auto. }
      eapply Forall2_impl; [|exact H3]. cbn beta.
      intros sub sv [[size Hsize] [b [Hinv Hs2]]].
      destruct Hinv as (Hh0 & Hi0 & Hle & Hrem & Hcap).
      rewrite Hk in Hs2.
      unfold size_of in *. rewrite Hsize in *.
      unfold log_final. rewrite (proj2 (Z.eqb_neq _ _) He). cbn [app].
      eapply save_t1_norf; eauto.
      intros P1 P2. pose proof (final_room _ _ _ (length accs) Hsize Hkm P1 P2) as Hr.
      unfold log_loop. rewrite app_length.
      pose proof (log_steps_length sub (sub_ts_list sub) 0 accs) as Hlen.
      assert (length (log_t0 sub (cfg_t0 c) (in_y i)) = if sub_t0 sub then 1 else 0)%nat
        by (unfold log_t0; destruct (sub_t0 sub); reflexivity).
      lia.
  Qed.

  (** Totality of the finishing code. *)
  Lemma omap2_total {A B C} (f : A -> B -> option C) l l' (P : A -> B -> Prop) :
    Forall2 P l l' -> (forall a b, In a l -> P a b -> exists x, f a b = Some x) ->
    exists r, omap2 f l l' = Some r.
  Proof.
    intros HF. induction HF as [|a b l l' HP HF IH]; intros Hf; cbn; [eauto|].
    destruct (Hf a b (or_introl eq_refl) HP) as [x Hx]. rewrite Hx. cbn.
    destruct IH as [r Hr]; [intros; apply Hf; auto; right; auto|]. rewrite Hr. cbn. eauto.
  Qed.

  Lemma save_some (sv : save_state) t (y : Y) fn rep pred :
    length (ss_ts sv) = length (ss_ys sv) -> (0 < length (ss_ts sv))%nat ->
    (rep <= length (ss_ts sv))%nat ->
    exists sv', save_ t y fn sv rep pred = Some sv' /\
                length (ss_ts sv') = length (ss_ts sv) /\ length (ss_ys sv') = length (ss_ts sv).
  Proof.
    intros Hl Hp Hr. unfold save_.
    assert (Hdus : forall A (l : list A) x i, (rep <= length l)%nat ->
      exists l', dynamic_update_slice l (repeat x rep) i = Some l' /\ length l' = length l).
    { intros A l x i H. unfold dynamic_update_slice. rewrite repeat_length.
      rewrite (proj2 (Nat.leb_le _ _) H). eexists; split; [reflexivity|].
      rewrite !app_length, firstn_length, skipn_length, repeat_length. lia. }
    assert (exists a, (if pred then Some (Fin t) else get_clamp (ss_ts sv) (save_index sv)) = Some a) as [a Ha].
    { destruct pred; [eauto|]. destruct (get_clamp (ss_ts sv) (save_index sv)) eqn:H; eauto.
      unfold get_clamp in H. apply nth_error_None in H. lia. }
    assert (exists b, (if pred then Some (Some (fn t y)) else get_clamp (ss_ys sv) (save_index sv)) = Some b) as [b Hb].
    { destruct pred; [eauto|]. destruct (get_clamp (ss_ys sv) (save_index sv)) eqn:H; eauto.
      unfold get_clamp in H. apply nth_error_None in H. lia. }
    rewrite Ha, Hb.
    destruct (Hdus _ (ss_ts sv) a (save_index sv) Hr) as (l1 & D1 & L1).
    destruct (Hdus _ (ss_ys sv) b (save_index sv) ltac:(lia)) as (l2 & D2 & L2).
    rewrite D1, D2. eexists. split; [reflexivity|]. cbn. lia.
  Qed.
End Finish.
