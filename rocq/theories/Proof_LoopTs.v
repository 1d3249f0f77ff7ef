(** Consequences of the refinement for [SaveAt(ts=...)], [SaveAt(steps=...)], [SaveAt(t1=...)]. *)
From Coq Require Import ZArith List Bool Arith Lia Sorted.
From Verif Require Import Model_Result Model_Loop Spec_Loop Proof_LoopBasic Proof_LoopSave
  Proof_LoopFinish.
Import ListNotations.
Open Scope Z_scope.

Section Ts.
  Context {Y SS CS DI E V MS : Type}.
  Notation config := (config Y SS CS DI E V MS).
  Notation state := (state Y SS CS DI V MS).
  Notation subsaveat := (subsaveat Y V).
  Notation save_state := (save_state V).
  Implicit Types (c : config) (s : state) (sub : subsaveat).

  Lemma tprev_le_t1 c n s : st_tprev s <= cfg_t1 c -> st_tprev (while_loop c n s) <= cfg_t1 c.
  Proof.
    intros H. apply (while_ind c (fun s => st_tprev s <= cfg_t1 c)); [|exact H].
    intros s' _ _. rewrite body_tprev. cbn. lia.
  Qed.

  (** The current point is that of the last accepted step. *)
  Definition last_point (t0 : Z) (y0 : Y) (accs : list (attempt Y)) : Z * Y :=
    last (map (fun a => (at_end a, at_y a)) accs) (t0, y0).

  Lemma last_cons {A} (x : A) l d : last (x :: l) d = last l x.
  Proof.
    revert x d. induction l as [|y l IH]; intros x d; [reflexivity|].
    change (last (x :: y :: l) d) with (last (y :: l) d). rewrite (IH y d), (IH y x). reflexivity.
  Qed.

  Lemma while_last_point c n s :
    rejects_in_place (history c n s) ->
    (st_tprev (while_loop c n s), st_y (while_loop c n s))
    = last_point (st_tprev s) (st_y s) (accepted (history c n s)).
  Proof.
    revert s. induction n as [|n IH]; intros s Hs; cbn [history while_loop] in *; [reflexivity|].
    destruct (cond_fun c s) eqn:Hc; [|reflexivity].
    rewrite IH by (apply Forall_inv_tail in Hs; exact Hs).
    apply Forall_inv in Hs.
    unfold accepted; cbn [filter]. fold (accepted (history c n (body_fun c s))).
    unfold last_point. rewrite body_tprev, body_y.
    destruct (at_keep (attempt_of c s)) eqn:Hk.
    - cbn [map]. rewrite last_cons. reflexivity.
    - rewrite (Hs eq_refl). f_equal. rewrite attempt_of_eq in Hk |- *. cbn [at_keep at_from at_y] in *.
      rewrite Hk. reflexivity.
  Qed.

  (** [take_while]/[drop_while] on sorted lists. *)
  Lemma sorted_drop ts b : Sorted Z.le ts ->
    Forall (fun t => b < t) (drop_while (fun t => t <=? b) ts) /\
    Sorted Z.le (drop_while (fun t => t <=? b) ts).
  Proof.
    induction ts as [|t ts IH]; intros H; cbn; [auto|].
    apply Sorted_inv in H. destruct H as [H1 H2].
    destruct (Z.leb_spec t b); [auto|].
    split; [|constructor; assumption].
    constructor; [lia|].
    assert (HS : StronglySorted Z.le (t :: ts)) by (apply Sorted_StronglySorted; [red; lia|constructor; auto]).
    apply StronglySorted_inv in HS. destruct HS as [_ HF].
    eapply Forall_impl; [|exact HF]. intros; cbn in *; lia.
  Qed.
  Lemma take_while_all ts b : Forall (fun t => t <= b) (take_while (fun t => t <=? b) ts).
  Proof.
    induction ts as [|t ts IH]; cbn; [constructor|].
    destruct (Z.leb_spec t b); constructor; auto.
  Qed.

  Lemma flat_map_ext_in {A B} (f g : A -> list B) l :
    Forall (fun a => f a = g a) l -> flat_map f l = flat_map g l.
  Proof. intros H. induction H as [|a l Ha _ IH]; cbn; [reflexivity|]. rewrite Ha, IH. reflexivity. Qed.
  Lemma flat_map_single {A B} (f : A -> B) l : flat_map (fun a => [f a]) l = map f l.
  Proof. induction l as [|a l IH]; cbn; [|rewrite IH]; reflexivity. Qed.
  Lemma flat_map_nil {A B} (l : list A) : flat_map (fun _ => @nil B) l = [].
  Proof. induction l; auto. Qed.

  (** Requested times only: each is served by the first accepted step reaching it. *)
  Lemma ts_log sub accs : forall rem k,
    sub_steps sub = 0%nat -> Sorted Z.le rem ->
    log_steps sub rem k accs =
    flat_map (fun t => match find (fun a => t <=? at_to a) accs with
                       | Some a => [(t, sub_fn sub t (at_interp a t))]
                       | None => []
                       end) rem.
  Proof.
    induction accs as [|a accs IH]; intros rem k H0 Hs; cbn [log_steps].
    - cbn [find]. symmetry. apply flat_map_nil.
    - destruct (sorted_drop rem (at_to a) Hs) as [D1 D2].
      rewrite (IH _ (k + 1)%nat H0 D2). rewrite H0. cbn [Nat.eqb negb andb app].
      rewrite <- (take_drop_while (fun t => t <=? at_to a) rem) at 3.
      rewrite flat_map_app. f_equal.
      + rewrite <- flat_map_single. apply flat_map_ext_in.
        eapply Forall_impl; [|apply take_while_all]. intros t Ht; cbn beta in *.
        cbn [find]. rewrite (proj2 (Z.leb_le _ _) Ht). reflexivity.
      + apply flat_map_ext_in. eapply Forall_impl; [|exact D1]. intros t Ht; cbn beta in *.
        cbn [find]. rewrite (proj2 (Z.leb_gt _ _) Ht). reflexivity.
  Qed.

  (** Every step only: indices of accepted steps that are due. *)
  Lemma steps_log sub accs : forall k,
    log_steps sub [] k accs =
    flat_map (fun p => if step_due (sub_steps sub) (fst p)
                       then [(at_end (snd p), sub_fn sub (at_end (snd p)) (at_y (snd p)))] else [])
             (combine (seq (k + 1) (length accs)) accs).
  Proof.
    induction accs as [|a accs IH]; intros k; cbn [log_steps length seq combine flat_map]; [reflexivity|].
    cbn [take_while drop_while map app fst snd]. unfold step_due at 1. f_equal.
    rewrite IH. replace (S (k + 1)) with (k + 1 + 1)%nat by lia. reflexivity.
  Qed.

  Lemma in_accepted_history c n s a :
    In a (history c n s) -> exists m, (m < n)%nat /\ a = attempt_of c (while_loop c m s) /\
                                      cond_fun c (while_loop c m s) = true.
  Proof.
    revert s. induction n as [|n IH]; intros s H; cbn in H; [contradiction|].
    destruct (cond_fun c s) eqn:Hc; [|contradiction].
    destruct H as [<-|H].
    - exists 0%nat. repeat split; auto. lia.
    - destruct (IH _ H) as (m & Hm & Ha & Hc'). exists (S m). cbn. rewrite Hc.
      repeat split; auto. lia.
  Qed.

  (** When the loop ends at [t1] without time jumps, the last accepted step ends at [t1]. *)
  Lemma reaches_t1 c n s t :
    rejects_in_place (history c n s) -> no_time_jumps (history c n s) ->
    st_tprev s < st_tprev (while_loop c n s) ->
    t <= st_tprev (while_loop c n s) ->
    exists a, find (fun a => t <=? at_to a) (accepted (history c n s)) = Some a.
  Proof.
    intros Hr Hj Hlt Ht.
    pose proof (while_last_point c n s Hr) as Hl.
    set (accs := accepted (history c n s)) in *.
    assert (Hne : accs <> []).
    { intros He. rewrite He in Hl. unfold last_point in Hl. cbn in Hl. injection Hl; intros. lia. }
    destruct (exists_last Hne) as (l & a & Ha).
    rewrite Ha in Hl. unfold last_point in Hl. rewrite map_app in Hl. cbn [map] in Hl.
    rewrite last_last in Hl. injection Hl as Hl1 Hl2.
    destruct (find (fun a => t <=? at_to a) accs) eqn:Hf; [eauto|].
    exfalso. assert (Hin : In a accs) by (rewrite Ha; apply in_or_app; right; left; reflexivity).
    pose proof (find_none _ _ Hf a Hin) as Hn. cbn beta in Hn. apply Z.leb_gt in Hn.
    assert (Hend : at_end a <= at_to a).
    { subst accs. unfold accepted in Hin. apply filter_In in Hin. destruct Hin as [Hin Hkp].
      unfold no_time_jumps in Hj. rewrite Forall_forall in Hj. rewrite (Hj a Hin Hkp). lia. }
    lia.
  Qed.
End Ts.
