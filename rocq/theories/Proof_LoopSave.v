(** The output buffers refine the log of the history. *)
From Coq Require Import ZArith List Bool Arith Lia.
From Verif Require Import Model_Result Model_Loop Spec_Loop Proof_LoopBasic.
Import ListNotations.
Open Scope Z_scope.

Lemma at_set_app {A} (l l' : list A) v x : at_set (l ++ x :: l') (length l) v = l ++ v :: l'.
Proof. induction l as [|a l IH]; cbn; [reflexivity|]. rewrite IH. reflexivity. Qed.

Lemma at_set_length {A} (l : list A) i v : length (at_set l i v) = length l.
Proof. revert i; induction l as [|a l IH]; intros [|i]; cbn; auto. Qed.

Lemma take_drop_while {A} (p : A -> bool) l : take_while p l ++ drop_while p l = l.
Proof.
  induction l as [|a l IH]; cbn; [reflexivity|]. destruct (p a); cbn; [|reflexivity].
  rewrite IH. reflexivity.
Qed.

Lemma get_clamp_lt {A} (l : list A) i : (i < length l)%nat -> get_clamp l i = nth_error l i.
Proof. intros H. unfold get_clamp. f_equal. lia. Qed.

Lemma skipn_nth_error {A} (l : list A) i x :
  nth_error l i = Some x -> skipn i l = x :: skipn (S i) l.
Proof.
  revert i; induction l as [|a l IH]; intros [|i] H; cbn in *; try discriminate.
  - injection H as ->. reflexivity.
  - exact (IH _ H).
Qed.

Lemma Forall2_impl {A B} (P Q : A -> B -> Prop) l l' :
  (forall a b, P a b -> Q a b) -> Forall2 P l l' -> Forall2 Q l l'.
Proof. intros H HF. induction HF; constructor; auto. Qed.

Section Save.
  Context {Y SS CS DI E V MS : Type}.
  Notation config := (config Y SS CS DI E V MS).
  Notation state := (state Y SS CS DI V MS).
  Notation subsaveat := (subsaveat Y V).
  Notation save_state := (save_state V).
  Implicit Types (c : config) (s : state) (sub : subsaveat).

  Lemma holds_log_length (sv : save_state) log pad size :
    holds_log sv log pad size -> length (ss_ts sv) = size /\ length (ss_ys sv) = size.
  Proof.
    intros (H & H1 & H2). rewrite H1, H2, !app_length, !map_length, !repeat_length. lia.
  Qed.

  (** Appending one entry. *)
  Lemma holds_log_append (sv : save_state) log pad size t v idx :
    holds_log sv log pad size -> save_index sv = length log -> (length log < size)%nat ->
    holds_log (SaveState idx (at_set (ss_ts sv) (save_index sv) (Fin t))
                         (at_set (ss_ys sv) (save_index sv) (Some v)) (save_index sv + 1))
              (log ++ [(t, v)]) pad size.
  Proof.
    intros (Hl & H1 & H2) Hi Hlt. unfold holds_log; cbn [ss_ts ss_ys].
    rewrite Hi, H1, H2, app_length; cbn [length].
    replace (size - length log)%nat with (S (size - (length log + 1))) by lia.
    cbn [repeat]. split; [lia|].
    split.
    - rewrite <- (map_length (fun p => Fin (fst p)) log) at 2. rewrite at_set_app.
      rewrite map_app, <- app_assoc. reflexivity.
    - rewrite <- (map_length (fun p => Some (snd p)) log) at 2. rewrite at_set_app.
      rewrite map_app, <- app_assoc. reflexivity.
  Qed.

  (** The inner while loop appends the longest admissible prefix. *)
  Lemma save_ts_loop_spec fuel tnext (ev : Z -> Y) (fn : Z -> Y -> V) ts (sv : save_state) log pad size :
    holds_log sv log pad size -> save_index sv = length log ->
    (saveat_ts_index sv <= length ts)%nat ->
    (length ts - saveat_ts_index sv <= fuel)%nat ->
    (length log + (length ts - saveat_ts_index sv) <= size)%nat ->
    let rem := skipn (saveat_ts_index sv) ts in
    let now := take_while (fun t => t <=? tnext) rem in
    let sv' := save_ts_loop fuel true tnext ev fn ts sv in
    let log' := log ++ map (fun t => (t, fn t (ev t))) now in
    holds_log sv' log' pad size /\ save_index sv' = length log' /\
    (saveat_ts_index sv' <= length ts)%nat /\
    skipn (saveat_ts_index sv') ts = drop_while (fun t => t <=? tnext) rem /\
    saveat_ts_index sv' = (saveat_ts_index sv + length now)%nat.
  Proof.
    revert sv log. induction fuel as [|fuel IH]; intros sv log Hh Hi Hle Hf Hcap; cbn zeta.
    - assert (He : saveat_ts_index sv = length ts) by lia.
      cbn [save_ts_loop]. rewrite He, skipn_all. cbn. rewrite app_nil_r. auto with arith.
    - cbn [save_ts_loop].
      destruct (Nat.eq_dec (saveat_ts_index sv) (length ts)) as [He|Hne].
      + rewrite He, skipn_all. cbn [take_while map drop_while length]. rewrite app_nil_r.
        destruct (get_clamp ts (length ts)); rewrite ?Nat.ltb_irrefl, ?andb_false_r, He, ?skipn_all;
          repeat split; auto; try apply Hh; lia.
      + assert (Hlt : (saveat_ts_index sv < length ts)%nat) by lia.
        rewrite get_clamp_lt by exact Hlt.
        destruct (nth_error ts (saveat_ts_index sv)) as [t|] eqn:Ht;
          [|apply nth_error_None in Ht; lia].
        rewrite (skipn_nth_error _ _ _ Ht). cbn [take_while drop_while].
        rewrite (proj2 (Nat.ltb_lt _ _) Hlt), andb_true_r. cbn [andb].
        destruct (t <=? tnext) eqn:Hc.
        * set (sv1 := SaveState _ _ _ _).
          assert (Hh1 : holds_log sv1 (log ++ [(t, fn t (ev t))]) pad size)
            by (apply holds_log_append; auto; lia).
          specialize (IH sv1 (log ++ [(t, fn t (ev t))]) Hh1).
          cbn [saveat_ts_index save_index sv1] in IH.
          rewrite app_length in IH; cbn [length] in IH.
          replace (saveat_ts_index sv + 1)%nat with (S (saveat_ts_index sv)) in IH by lia.
          specialize (IH ltac:(lia) ltac:(lia) ltac:(lia) ltac:(lia)). cbn zeta in IH.
          rewrite <- app_assoc in IH. cbn [app] in IH.
          subst sv1. cbn [map length].
          destruct IH as (I1 & I2 & I3 & I4 & I5).
          split; [exact I1|]. split; [exact I2|]. split; [exact I3|]. split; [exact I4|].
          rewrite I5. lia.
        * cbn [map length]. rewrite app_nil_r. repeat split; auto; try apply Hh; try lia.
          apply skipn_nth_error; exact Ht.
  Qed.

  Lemma save_ts_loop_reject fuel tnext (ev : Z -> Y) fn ts (sv : save_state) :
    save_ts_loop fuel false tnext ev fn ts sv = sv.
  Proof. destruct fuel; cbn; [reflexivity|]. destruct (get_clamp _ _); reflexivity. Qed.

  (** Number of multiples of [n] in [(k, k + m]]. *)
  Definition slots (n k m : nat) : nat := if (n =? 0)%nat then 0%nat else ((k + m) / n - k / n)%nat.

  Lemma div_succ n k :
    n <> 0%nat ->
    ((k + 1) / n = k / n + if (k + 1) mod n =? 0 then 1 else 0)%nat.
  Proof.
    intros Hn.
    pose proof (Nat.div_mod k n Hn) as H1. pose proof (Nat.div_mod (k + 1) n Hn) as H2.
    pose proof (Nat.mod_upper_bound k n Hn) as B1.
    pose proof (Nat.mod_upper_bound (k + 1) n Hn) as B2.
    destruct (Nat.eqb_spec ((k + 1) mod n) 0) as [H|H].
    - rewrite H in H2. nia.
    - nia.
  Qed.

  Lemma slots_step_keep n k m :
    (slots n k (S m) =
     (if negb (n =? 0) && ((k + 1) mod n =? 0) then 1 else 0) + slots n (k + 1) m)%nat.
  Proof.
    unfold slots. destruct (Nat.eqb_spec n 0) as [H|H]; cbn [negb andb]; [reflexivity|].
    replace (k + S m)%nat with (k + 1 + m)%nat by lia.
    pose proof (div_succ n k H) as D.
    assert ((k + 1) / n <= (k + 1 + m) / n)%nat by (apply Nat.div_le_mono; lia).
    destruct ((k + 1) mod n =? 0)%nat; lia.
  Qed.
  Lemma slots_mono n k m m' : (m <= m')%nat -> (slots n k m <= slots n k m')%nat.
  Proof.
    intros H. unfold slots. destruct (Nat.eqb_spec n 0) as [H0|H0]; [lia|].
    assert ((k + m) / n <= (k + m') / n)%nat by (apply Nat.div_le_mono; lia). lia.
  Qed.
  Lemma slots_zero n m : slots n 0 m = if (n =? 0)%nat then 0%nat else (m / n)%nat.
  Proof.
    unfold slots. destruct (Nat.eqb_spec n 0) as [H0|H0]; [reflexivity|].
    rewrite Nat.div_0_l by exact H0. cbn. lia.
  Qed.

  (** The state of one buffer, relative to a log, with room for [m] more steps. *)
  Definition sub_inv (pad : xtime) (k m extra : nat) sub (sv : save_state) (log : list (Z * V))
             (rem : list Z) (size : nat) : Prop :=
    holds_log sv log pad size /\ save_index sv = length log /\
    (saveat_ts_index sv <= length (sub_ts_list sub))%nat /\
    skipn (saveat_ts_index sv) (sub_ts_list sub) = rem /\
    (length log + length rem + slots (sub_steps sub) k m + extra <= size)%nat.

  (** One accepted step. *)
  Lemma sub_inv_keep pad k m extra sub sv log rem size (a : attempt Y) :
    at_keep a = true ->
    sub_inv pad k (S m) extra sub sv log rem size ->
    sub_inv pad (k + 1) m extra sub
      (save_steps true (k + 1) (at_end a) (at_y a) sub
         (save_ts true (at_to a) (at_interp a) sub sv))
      (log ++ map (fun t => (t, sub_fn sub t (at_interp a t)))
                  (take_while (fun t => t <=? at_to a) rem)
           ++ (if negb (sub_steps sub =? 0)%nat && ((k + 1) mod sub_steps sub =? 0)%nat
               then [(at_end a, sub_fn sub (at_end a) (at_y a))] else []))
      (drop_while (fun t => t <=? at_to a) rem) size.
  Proof.
    intros _ (Hh & Hi & Hle & Hrem & Hcap).
    rewrite slots_step_keep in Hcap.
    set (p := fun t => t <=? at_to a) in *.
    set (log1 := log ++ map (fun t => (t, sub_fn sub t (at_interp a t))) (take_while p rem)).
    set (sv1 := save_ts true (at_to a) (at_interp a) sub sv).
    assert (Hlr : (length rem = length (take_while p rem) + length (drop_while p rem))%nat)
      by (rewrite <- app_length, take_drop_while; reflexivity).
    assert (Hl1 : length log1 = (length log + length (take_while p rem))%nat)
      by (subst log1; rewrite app_length, map_length; reflexivity).
    assert (Hsv1 : holds_log sv1 log1 pad size /\ save_index sv1 = length log1 /\
                   (saveat_ts_index sv1 <= length (sub_ts_list sub))%nat /\
                   skipn (saveat_ts_index sv1) (sub_ts_list sub) = drop_while p rem).
    { subst sv1 log1. unfold save_ts, sub_ts_list in *.
      destruct (sub_ts sub) as [ts|].
      - assert (Hlen : length rem = (length ts - saveat_ts_index sv)%nat)
          by (rewrite <- Hrem, skipn_length; reflexivity).
        pose proof (save_ts_loop_spec (length ts) (at_to a) (at_interp a) (sub_fn sub) ts sv
                      log pad size Hh Hi Hle ltac:(lia) ltac:(lia)) as Hs.
        cbn zeta in Hs. rewrite Hrem in Hs.
        destruct Hs as (S1 & S2 & S3 & S4 & _). auto.
      - rewrite skipn_nil in Hrem. subst rem. cbn. rewrite app_nil_r, skipn_nil. auto. }
    destruct Hsv1 as (S1 & S2 & S3 & S4).
    replace (log ++ map _ (take_while p rem) ++ _)
      with (log1 ++ (if negb (sub_steps sub =? 0)%nat && ((k + 1) mod sub_steps sub =? 0)%nat
                     then [(at_end a, sub_fn sub (at_end a) (at_y a))] else []))
      by (subst log1; rewrite <- app_assoc; reflexivity).
    unfold sub_inv, save_steps.
    destruct (Nat.eqb_spec (sub_steps sub) 0) as [H0|H0]; cbn [negb andb].
    - rewrite app_nil_r. cbn [negb andb] in Hcap. repeat split; auto; try apply S1. 
      destruct (Nat.eqb_spec (sub_steps sub) 0); [|lia]. cbn [negb andb] in Hcap. lia.
    - destruct (Nat.eqb_spec (sub_steps sub) 0) as [|_]; [lia|]. cbn [negb andb] in Hcap.
      destruct ((k + 1) mod sub_steps sub =? 0)%nat.
      + assert (Hlt : (length log1 < size)%nat) by lia.
        split; [apply holds_log_append; assumption|].
        cbn [save_index saveat_ts_index]. rewrite app_length; cbn [length].
        repeat split; auto; lia.
      + rewrite app_nil_r. repeat split; auto; try apply S1. lia.
  Qed.

  Lemma sub_inv_reject pad k m extra sub sv log rem size t y ti (ev : Z -> Y) kk :
    sub_inv pad k (S m) extra sub sv log rem size ->
    sub_inv pad k m extra sub
      (save_steps false kk t y sub (save_ts false ti ev sub sv)) log rem size.
  Proof.
    intros (Hh & Hi & Hle & Hrem & Hcap).
    assert (Heq : save_steps false kk t y sub (save_ts false ti ev sub sv) = sv).
    { unfold save_steps, save_ts. cbn [andb].
      destruct (sub_steps sub =? 0)%nat; destruct (sub_ts sub);
        rewrite ?save_ts_loop_reject; reflexivity. }
    rewrite Heq. repeat split; auto; try apply Hh.
    pose proof (slots_mono (sub_steps sub) k m (S m)). lia.
  Qed.

  (** All buffers: [logs] and [rems] and [sizes] are in step with the list of [SubSaveAt]s. *)
  Inductive subs_inv (pad : xtime) (k m : nat) (ex : subsaveat -> nat) :
    list subsaveat -> list save_state -> list (list (Z * V)) -> list (list Z) -> list nat -> Prop :=
  | subs_nil : subs_inv pad k m ex [] [] [] [] []
  | subs_cons sub sv log rem size subs svs logs rems sizes :
      sub_inv pad k m (ex sub) sub sv log rem size ->
      subs_inv pad k m ex subs svs logs rems sizes ->
      subs_inv pad k m ex (sub :: subs) (sv :: svs) (log :: logs) (rem :: rems) (size :: sizes).

  Fixpoint map3 {A B C D} (f : A -> B -> C -> D) (la : list A) (lb : list B) (lc : list C) :=
    match la, lb, lc with
    | a :: la, b :: lb, x :: lc => f a b x :: map3 f la lb lc
    | _, _, _ => []
    end.

  Lemma subs_inv_keep pad k m ex subs svs logs rems sizes (a : attempt Y) :
    at_keep a = true ->
    subs_inv pad k (S m) ex subs svs logs rems sizes ->
    subs_inv pad (k + 1) m ex subs
      (map2 (save_steps true (k + 1) (at_end a) (at_y a)) subs
            (map2 (save_ts true (at_to a) (at_interp a)) subs svs))
      (map3 (fun sub log rem =>
         log ++ map (fun t => (t, sub_fn sub t (at_interp a t)))
                  (take_while (fun t => t <=? at_to a) rem)
           ++ (if negb (sub_steps sub =? 0)%nat && ((k + 1) mod sub_steps sub =? 0)%nat
               then [(at_end a, sub_fn sub (at_end a) (at_y a))] else [])) subs logs rems)
      (map (drop_while (fun t => t <=? at_to a)) rems) sizes.
  Proof.
    intros Hk H. induction H; cbn; constructor; auto.
    apply sub_inv_keep; assumption.
  Qed.

  Lemma subs_inv_reject pad k m ex subs svs logs rems sizes t y ti (ev : Z -> Y) kk :
    subs_inv pad k (S m) ex subs svs logs rems sizes ->
    subs_inv pad k m ex subs
      (map2 (save_steps false kk t y) subs (map2 (save_ts false ti ev) subs svs))
      logs rems sizes.
  Proof. intros H. induction H; cbn; constructor; auto. apply sub_inv_reject; assumption. Qed.

  Lemma subs_inv_weaken pad k m m' ex subs svs logs rems sizes :
    (m' <= m)%nat -> subs_inv pad k m ex subs svs logs rems sizes ->
    subs_inv pad k m' ex subs svs logs rems sizes.
  Proof.
    intros Hm H. induction H; constructor; auto.
    destruct H as (Hh & Hi & Hle & Hrem & Hcap). repeat split; auto; try apply Hh.
    pose proof (slots_mono (sub_steps sub) k m' m Hm). lia.
  Qed.

  (** Remaining requested times after a list of accepted steps. *)
  Fixpoint rem_after (rem : list Z) (accs : list (attempt Y)) : list Z :=
    match accs with
    | [] => rem
    | a :: accs' => rem_after (drop_while (fun t => t <=? at_to a) rem) accs'
    end.

  (** The main refinement: after any number of iterations every buffer holds its log. *)
  Lemma loop_refines c n : forall s pad ex logs rems sizes,
    subs_inv pad (st_num_accepted s) n ex (cfg_subs c) (st_save s) logs rems sizes ->
    let accs := accepted (history c n s) in
    let s' := while_loop c n s in
    subs_inv pad (st_num_accepted s') 0 ex (cfg_subs c) (st_save s')
      (map3 (fun sub log rem => log ++ log_steps sub rem (st_num_accepted s) accs)
            (cfg_subs c) logs rems)
      (map (fun rem => rem_after rem accs) rems) sizes.
  Proof.
    assert (Hnil : forall s subs svs pad ex logs rems sizes m,
      subs_inv pad (st_num_accepted s) m ex subs svs logs rems sizes ->
      subs_inv pad (st_num_accepted s) 0 ex subs svs
        (map3 (fun sub log rem => log ++ @log_steps Y V sub rem (st_num_accepted s) [])
            subs logs rems)
        (map (fun rem => rem_after rem []) rems) sizes).
    { intros s subs svs pad ex logs rems sizes m H. apply (subs_inv_weaken _ _ m 0) in H; [|lia].
      cbn. replace (map (fun rem => rem) rems) with rems by (symmetry; apply map_id).
      revert H. generalize (st_num_accepted s). intros k H.
      induction H; cbn; constructor; auto. rewrite app_nil_r. assumption. }
    induction n as [|n IH]; intros s pad ex logs rems sizes H; cbn [history while_loop].
    - cbn [accepted filter]. eapply Hnil; eassumption.
    - destruct (cond_fun c s) eqn:Hc; [|cbn [accepted filter]; eapply Hnil; eassumption].
      unfold accepted; cbn [filter]. cbn zeta.
      destruct (at_keep (attempt_of c s)) eqn:Hk.
      + pose proof (subs_inv_keep pad (st_num_accepted s) n ex _ _ _ _ _ _ Hk H) as H1.
        assert (Hn1 : st_num_accepted (body_fun c s) = (st_num_accepted s + 1)%nat)
          by (rewrite body_num_accepted, Hk; reflexivity).
        specialize (IH (body_fun c s) pad ex).
        rewrite Hn1, body_save, Hk in IH. specialize (IH _ _ _ H1). cbn zeta in IH.
        fold (accepted (history c n (body_fun c s))).
        set (accs := accepted (history c n (body_fun c s))) in *.
        rewrite map_map in IH.
        erewrite (eq_ind _ (fun l => map3 _ _ _ _ = l) eq_refl) in IH.
        2:{ instantiate (1 := map3 (fun sub log rem => log ++ log_steps sub rem (st_num_accepted s)
                (attempt_of c s :: accs)) (cfg_subs c) logs rems).
            clear IH. clear - H. revert H. generalize (st_save s). intros svs H.
            induction H; cbn [map3 map]; [reflexivity|]. rewrite IHsubs_inv. f_equal.
            cbn [log_steps]. rewrite <- !app_assoc. reflexivity. }
        exact IH.
      + assert (Hn1 : st_num_accepted (body_fun c s) = st_num_accepted s)
          by (rewrite body_num_accepted, Hk; lia).
        specialize (IH (body_fun c s) pad ex logs rems sizes).
        rewrite Hn1, body_save, Hk in IH.
        apply IH. apply subs_inv_reject. exact H.
  Qed.

  (** Initialisation. *)
  Lemma omap_spec {A B} (f : A -> option B) l r :
    omap f l = Some r -> Forall2 (fun a b => f a = Some b) l r.
  Proof.
    revert r; induction l as [|a l IH]; intros r H; cbn in H.
    - injection H as <-. constructor.
    - destruct (f a) eqn:Ha; cbn in H; [|discriminate].
      destruct (omap f l) eqn:Hl; cbn in H; [|discriminate].
      injection H as <-. constructor; auto.
  Qed.
  Lemma omap2_spec {A B C} (f : A -> B -> option C) l l' r (P : A -> B -> Prop) :
    Forall2 P l l' ->
    omap2 f l l' = Some r ->
    Forall2 (fun a x => exists b, P a b /\ f a b = Some x) l r.
  Proof.
    intros HF. revert r; induction HF as [|a b l l' HP HF IH]; intros r H; cbn in H.
    - injection H as <-. constructor.
    - destruct (f a b) eqn:Ha; cbn in H; [|discriminate].
      destruct (omap2 f l l') eqn:Hl; cbn in H; [|discriminate].
      injection H as <-. constructor; eauto.
  Qed.

  (** Number of slots left for the final value. *)
  Definition extra_slot (max_steps : option nat) sub : nat :=
    if sub_t1 sub && match max_steps with
                     | None => true
                     | Some m => (sub_steps sub =? 0)%nat || negb (m mod sub_steps sub =? 0)%nat
                     end
    then 1%nat else 0%nat.

  Lemma out_size_slots max_steps sub size :
    out_size max_steps sub = Some size ->
    size = ((if sub_t0 sub then 1 else 0) + length (sub_ts_list sub)
           + match max_steps with Some m => slots (sub_steps sub) 0 m | None => 0 end
           + extra_slot max_steps sub)%nat /\
    (max_steps = None -> sub_steps sub = 0%nat).
  Proof.
    unfold out_size, extra_slot, sub_ts_list. intros H.
    destruct max_steps as [m|].
    - rewrite slots_zero.
      destruct (sub_steps sub =? 0)%nat; injection H as <-;
        (split; [destruct (sub_ts sub); reflexivity|intros; discriminate]).
    - destruct (Nat.eqb_spec (sub_steps sub) 0) as [H0|H0]; [|discriminate].
      injection H as <-. split; [destruct (sub_ts sub); reflexivity|auto].
  Qed.

  Lemma slots_steps0 k m : slots 0 k m = 0%nat.
  Proof. reflexivity. Qed.

  Lemma alloc_holds pad max_steps sub sv :
    allocate_output pad max_steps sub = Some sv ->
    exists size, out_size max_steps sub = Some size /\
      holds_log sv [] pad size /\ save_index sv = 0%nat /\ saveat_ts_index sv = 0%nat.
  Proof.
    unfold allocate_output. destruct (out_size max_steps sub) as [n|]; [|discriminate].
    intros H. injection H as <-. exists n. repeat split; cbn; rewrite ?Nat.sub_0_r; auto; lia.
  Qed.

  Lemma dus_repeat {A} (l : list A) x :
    dynamic_update_slice (A:=A) l [x] 0 =
    match l with [] => None | _ :: l' => Some (x :: l') end.
  Proof. destruct l; reflexivity. Qed.

  Lemma save_t0_inv c y0 sub sv sv' pad max_steps size m :
    (forall m', max_steps = Some m' -> (m <= m')%nat) ->
    allocate_output pad max_steps sub = Some sv ->
    out_size max_steps sub = Some size ->
    save_t0 c y0 sub sv = Some sv' ->
    sub_inv pad 0 m (extra_slot max_steps sub) sub sv' (log_t0 sub (cfg_t0 c) y0)
            (sub_ts_list sub) size.
  Proof.
    intros Hm Ha Hs H0.
    destruct (alloc_holds _ _ _ _ Ha) as (size' & Hs' & Hh & Hi & Hti).
    rewrite Hs in Hs'; injection Hs' as <-.
    destruct (out_size_slots _ _ _ Hs) as (Hsz & Hnone).
    assert (Hsl : (slots (sub_steps sub) 0 m <=
                   match max_steps with Some m => slots (sub_steps sub) 0 m | None => 0 end)%nat).
    { destruct max_steps as [m'|].
      - apply slots_mono. auto.
      - rewrite (Hnone eq_refl), slots_steps0. lia. }
    unfold save_t0 in H0. unfold log_t0.
    destruct (sub_t0 sub).
    - destruct Hh as (_ & H1 & H2). cbn [map app length] in H1, H2.
      rewrite Nat.sub_0_r in H1, H2.
      unfold save_ in H0. rewrite H1, H2, Hi in H0. cbn [repeat] in H0.
      rewrite !dus_repeat in H0.
      destruct size as [|size]; [lia|]. cbn [repeat] in H0.
      injection H0 as <-.
      unfold sub_inv, holds_log; cbn [ss_ts ss_ys save_index saveat_ts_index length map app fst snd].
      rewrite Hti, Nat.sub_succ, Nat.sub_0_r. repeat split; auto; try lia.
    - injection H0 as <-. unfold sub_inv. rewrite Hti. cbn [length skipn].
      repeat split; auto; try apply Hh; try lia.
  Qed.

  Definition sizes_of c : list nat :=
    map (fun sub => match out_size (cfg_max_steps c) sub with Some n => n | None => 0%nat end)
        (cfg_subs c).

  Lemma Forall2_subs_inv pad k m ex subs svs logf remf sizef :
    Forall2 (fun sub sv => sub_inv pad k m (ex sub) sub sv (logf sub) (remf sub) (sizef sub)) subs svs ->
    subs_inv pad k m ex subs svs (map logf subs) (map remf subs) (map sizef subs).
  Proof. intros H. induction H; cbn; constructor; auto. Qed.

  Lemma subs_inv_Forall2 pad k m ex subs svs logf remf sizef :
    subs_inv pad k m ex subs svs (map logf subs) (map remf subs) (map sizef subs) ->
    Forall2 (fun sub sv => sub_inv pad k m (ex sub) sub sv (logf sub) (remf sub) (sizef sub)) subs svs.
  Proof.
    revert svs. induction subs as [|sub subs IH]; intros svs H; cbn in H; inversion H; subst;
      constructor; auto.
  Qed.

  Definition size_of (max_steps : option nat) sub : nat :=
    match out_size max_steps sub with Some n => n | None => 0%nat end.

  Lemma init_num_accepted c i s0 : init_state c i = Some s0 -> st_num_accepted s0 = 0%nat.
  Proof.
    unfold init_state, obind. destruct (omap _ _); [|discriminate].
    destruct (omap2 _ _ _); [|discriminate].
    destruct (if cfg_dense c then _ else _); [|discriminate].
    destruct (first_true _ _). intros H; injection H as <-. reflexivity.
  Qed.

  Lemma init_subs_inv c i s0 m :
    (forall m', cfg_max_steps c = Some m' -> (m <= m')%nat) ->
    init_state c i = Some s0 ->
    Forall2 (fun sub sv =>
        sub_inv (in_pad i) 0 m (extra_slot (cfg_max_steps c) sub) sub sv
           (log_t0 sub (cfg_t0 c) (in_y i)) (sub_ts_list sub) (size_of (cfg_max_steps c) sub))
      (cfg_subs c) (st_save s0).
  Proof.
    intros Hm H. unfold init_state, obind in H.
    destruct (omap _ (cfg_subs c)) as [svs|] eqn:H1; [|discriminate].
    destruct (omap2 _ (cfg_subs c) svs) as [svs'|] eqn:H2; [|discriminate].
    destruct (if cfg_dense c then _ else _) as [md|]; [|discriminate].
    destruct (first_true _ _) as [mask had]. injection H as <-. cbn [st_save].
    apply omap_spec in H1. pose proof (omap2_spec _ _ _ _ _ H1 H2) as H3.
    eapply Forall2_impl; [|exact H3].
    intros sub sv (sv0 & Ha & Hs). cbn beta in Ha.
    assert (exists size, out_size (cfg_max_steps c) sub = Some size) as [size Hsize].
    { destruct (alloc_holds _ _ _ _ Ha) as (size & Hsz & _). eauto. }
    unfold size_of. rewrite Hsize. eapply save_t0_inv; eauto.
  Qed.

  (** After the loop every buffer holds exactly the log of the history. *)
  Theorem loop_logs c i s0 n :
    (forall m', cfg_max_steps c = Some m' -> (n <= m')%nat) ->
    init_state c i = Some s0 ->
    let accs := accepted (history c n s0) in
    let s := while_loop c n s0 in
    Forall2 (fun sub sv =>
        sub_inv (in_pad i) (length accs) 0 (extra_slot (cfg_max_steps c) sub) sub sv
          (log_loop sub (cfg_t0 c) (in_y i) accs)
          (rem_after (sub_ts_list sub) accs)
          (size_of (cfg_max_steps c) sub))
      (cfg_subs c) (st_save s).
  Proof.
    intros Hm H0. pose proof (init_subs_inv c i s0 n Hm H0) as Hi.
    apply (Forall2_subs_inv _ _ _ (extra_slot (cfg_max_steps c))
             _ _ (fun sub => log_t0 sub (cfg_t0 c) (in_y i)) sub_ts_list
             (size_of (cfg_max_steps c))) in Hi.
    rewrite <- (init_num_accepted c i s0 H0) in Hi.
    apply loop_refines in Hi. cbn zeta in *.
    rewrite while_num_accepted, (init_num_accepted c i s0 H0) in Hi. cbn [Nat.add] in Hi.
    apply subs_inv_Forall2.
    rewrite map_map in Hi.
    replace (map (fun sub => log_loop sub (cfg_t0 c) (in_y i) (accepted (history c n s0))) (cfg_subs c))
      with (map3 (fun sub log rem => log ++ log_steps sub rem 0 (accepted (history c n s0)))
        (cfg_subs c) (map (fun sub => log_t0 sub (cfg_t0 c) (in_y i)) (cfg_subs c))
        (map sub_ts_list (cfg_subs c))).
    - exact Hi.
    - generalize (cfg_subs c). intros l. clear. induction l as [|sub l IH]; cbn; [reflexivity|].
      rewrite IH. reflexivity.
  Qed.
End Save.
