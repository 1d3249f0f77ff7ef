From Coq Require Import QArith Qminmax List Bool Arith Lia Lqa.
From Verif Require Import Model_Meter Spec_Meter.
Import ListNotations.
Open Scope Q_scope.

(** * What one solve prints, as a function of its own calls *)

Fixpoint play (k : kind) (b : option Q) (cs : list call) : list Q :=
  match cs with
  | [] => []
  | CInit :: cs' => 0 :: play k (Some 0) cs'
  | CStep p :: cs' => match b with
                      | None => play k None cs'
                      | Some _ => p :: play k (Some p) cs'
                      end
  | CClose :: cs' => match b with
                     | None => play k None cs'
                     | Some q => close_bar k q ++ play k None cs'
                     end
  end.
Fixpoint left_open (b : option Q) (cs : list call) : option Q :=
  match cs with
  | [] => b
  | CInit :: cs' => left_open (Some 0) cs'
  | CStep p :: cs' => match b with None => left_open None cs' | Some _ => left_open (Some p) cs' end
  | CClose :: cs' => left_open None cs'
  end.
Fixpoint raises (b : option Q) (cs : list call) : nat :=
  match cs with
  | [] => 0
  | CInit :: cs' => raises (Some 0) cs'
  | CStep p :: cs' => match b with None => raises None cs' | Some _ => raises (Some p) cs' end
  | CClose :: cs' => match b with None => S (raises None cs') | Some _ => raises None cs' end
  end.

Definition ok (w : world) : Prop :=
  (forall c i, w_handle w c = Some i -> (i <= w_idx w)%nat) /\
  (forall c c' i, w_handle w c = Some i -> w_handle w c' = Some i -> c = c').

Lemma update_eq {A} (f : nat -> A) k v : update f k v k = v.
Proof. unfold update. now rewrite Nat.eqb_refl. Qed.
Lemma update_ne {A} (f : nat -> A) k v i : i <> k -> update f k v i = f i.
Proof. intros H. unfold update. now destruct (Nat.eqb_spec i k). Qed.

Section Serve.
  Variable kind_of : nat -> kind.

  Lemma serve_ok w e : ok w -> ok (serve kind_of w e).
  Proof.
    intros [B D]. destruct e as [c [|p|]]; cbn [serve].
    - cbn [init_bar]. split; cbn [w_handle w_idx].
      + intros c' i. unfold update. destruct (Nat.eqb_spec c' c).
        * intros [= <-]. lia.
        * intros H. apply B in H. lia.
      + intros c' c'' i. unfold update. destruct (Nat.eqb_spec c' c), (Nat.eqb_spec c'' c).
        * intros; subst; reflexivity.
        * intros [= <-] H. apply B in H. lia.
        * intros H [= <-]. apply B in H. lia.
        * apply D.
    - destruct (w_handle w c); [|easy]. destruct (w_bars w n); easy.
    - destruct (w_handle w c); [|easy]. destruct (w_bars w n); easy.
  Qed.

  Definition raised_by (c : nat) (w : world) : list nat := filter (fun x => (x =? c)%nat) (w_raised w).

  Lemma filter_mine c (ls : list Q) : filter (fun e => (fst e =? c)%nat) (map (pair c) ls) = map (pair c) ls.
  Proof. induction ls; cbn; [reflexivity|]. rewrite Nat.eqb_refl. now f_equal. Qed.
  Lemma filter_other c d (ls : list Q) : d <> c -> filter (fun e => (fst e =? c)%nat) (map (pair d) ls) = [].
  Proof. intros N. induction ls; cbn; [reflexivity|]. destruct (Nat.eqb_spec d c); [easy|assumption]. Qed.
  Lemma printed_mine c w ls i b h r :
    printed c (World i b h (w_out w ++ map (pair c) ls) r) = printed c w ++ ls.
  Proof.
    unfold printed; cbn [w_out]. rewrite filter_app, filter_mine, map_app. f_equal. rewrite map_map.
    now rewrite map_id.
  Qed.
  Lemma printed_other c d w ls i b h r : d <> c ->
    printed c (World i b h (w_out w ++ map (pair d) ls) r) = printed c w.
  Proof.
    intros N. unfold printed; cbn [w_out]. rewrite filter_app, filter_other by assumption. now rewrite app_nil_r.
  Qed.

  Lemma serve_other w c d what : ok w -> d <> c ->
    let w' := serve kind_of w (d, what) in
    printed c w' = printed c w /\ bar_of c w' = bar_of c w /\ raised_by c w' = raised_by c w.
  Proof.
    intros [B D] N. destruct what as [|p|]; cbn [serve init_bar].
    - split; [now apply printed_other|]. split; [|reflexivity].
      unfold bar_of; cbn [w_handle w_bars]. rewrite update_ne by congruence.
      destruct (w_handle w c) eqn:H; [|reflexivity]. apply B in H. apply update_ne. lia.
    - destruct (w_handle w d) as [j|] eqn:Hd; [|easy]. destruct (w_bars w j) eqn:Hj; [|easy].
      cbn [step_bar]. split; [now apply printed_other|]. split; [|reflexivity].
      unfold bar_of; cbn [w_handle w_bars]. destruct (w_handle w c) as [i|] eqn:H; [|reflexivity].
      apply update_ne. intros ->. apply N. eapply D; eassumption.
    - assert (R : forall l, filter (fun x => (x =? c)%nat) (l ++ [d]) = filter (fun x => (x =? c)%nat) l).
      { intros l. rewrite filter_app. cbn. destruct (Nat.eqb_spec d c); [easy|]. apply app_nil_r. }
      destruct (w_handle w d) as [j|] eqn:Hd.
      2: { split; [reflexivity|]. split; [reflexivity|]. unfold raised_by; cbn [w_raised]. apply R. }
      destruct (w_bars w j) eqn:Hj.
      2: { split; [reflexivity|]. split; [reflexivity|]. unfold raised_by; cbn [w_raised]. apply R. }
      split; [now apply printed_other|]. split; [|reflexivity].
      unfold bar_of; cbn [w_handle w_bars]. destruct (w_handle w c) as [i|] eqn:H; [|reflexivity].
      apply update_ne. intros ->. apply N. eapply D; eassumption.
  Qed.

  Lemma calls_of_cons c d what tr :
    calls_of c ((d, what) :: tr) = if (d =? c)%nat then what :: calls_of c tr else calls_of c tr.
  Proof. unfold calls_of. cbn. now destruct (d =? c)%nat. Qed.

  Lemma played c tr : forall w, ok w ->
    let w' := fold_left (serve kind_of) tr w in
    printed c w' = printed c w ++ play (kind_of c) (bar_of c w) (calls_of c tr) /\
    bar_of c w' = left_open (bar_of c w) (calls_of c tr) /\
    raised_by c w' = raised_by c w ++ repeat c (raises (bar_of c w) (calls_of c tr)).
  Proof.
    induction tr as [|[d what] tr IH]; intros w W; cbn [fold_left].
    - cbn. now rewrite !app_nil_r.
    - rewrite calls_of_cons. specialize (IH _ (serve_ok w (d, what) W)).
      destruct (Nat.eqb_spec d c) as [->|N].
      2: { destruct (serve_other w c d what W N) as [P [Q R]]. now rewrite P, Q, R in IH. }
      destruct what as [|p|].
      + cbn [serve init_bar] in *. cbn [play left_open raises].
        rewrite printed_mine in IH.
        match type of IH with context [bar_of c ?w1] => assert (Hb : bar_of c w1 = Some 0) end.
        { unfold bar_of; cbn [w_handle w_bars]. now rewrite !update_eq. }
        rewrite Hb in IH. destruct IH as [IP [IB IR]]. split; [|split; assumption].
        rewrite IP. now rewrite <- app_assoc.
      + cbn [serve] in *. cbn [play left_open raises].
        destruct (w_handle w c) as [i|] eqn:Hc.
        2: { assert (Hw : bar_of c w = None) by (unfold bar_of; now rewrite Hc). now rewrite Hw in *. }
        destruct (w_bars w i) as [b|] eqn:Hi.
        2: { assert (Hw : bar_of c w = None) by (unfold bar_of; now rewrite Hc). now rewrite Hw in *. }
        assert (Hw : bar_of c w = Some b) by (unfold bar_of; now rewrite Hc). rewrite Hw.
        cbn [step_bar] in *. rewrite printed_mine in IH.
        match type of IH with context [bar_of c ?w1] => assert (Hb : bar_of c w1 = Some p) end.
        { unfold bar_of; cbn [w_handle w_bars]. now rewrite Hc, update_eq. }
        rewrite Hb in IH. destruct IH as [IP [IB IR]].
        split; [|split; assumption]. rewrite IP. now rewrite <- app_assoc.
      + cbn [serve] in *. cbn [play left_open raises].
        assert (R : forall i b h o l, raised_by c (World i b h o (w_raised w ++ [c]) ) = raised_by c w ++ [c] /\ l = l :> nat).
        { intros. unfold raised_by. cbn [w_raised]. rewrite filter_app. cbn. now rewrite Nat.eqb_refl. }
        destruct (w_handle w c) as [i|] eqn:Hc.
        2: { unfold bar_of in *. cbn [w_handle w_bars] in *. rewrite Hc in *.
             destruct IH as [IP [IB IR]]. split; [assumption|]. split; [assumption|].
             rewrite IR, (proj1 (R _ _ _ _ 0%nat)). now rewrite <- app_assoc. }
        destruct (w_bars w i) as [b|] eqn:Hi.
        2: { unfold bar_of in *. cbn [w_handle w_bars] in *. rewrite Hc, Hi in *.
             destruct IH as [IP [IB IR]]. split; [assumption|]. split; [assumption|].
             rewrite IR, (proj1 (R _ _ _ _ 0%nat)). now rewrite <- app_assoc. }
        rewrite printed_mine in IH.
        match type of IH with context [bar_of c ?w1] => assert (Hb : bar_of c w1 = None) end.
        { unfold bar_of; cbn [w_handle w_bars]. now rewrite Hc, update_eq. }
        rewrite Hb in IH. assert (Hw : bar_of c w = Some b) by (unfold bar_of; now rewrite Hc).
        rewrite Hw. destruct IH as [IP [IB IR]]. split; [|split; assumption].
        rewrite IP. now rewrite <- app_assoc.
  Qed.

  Lemma world0_ok : ok world0.
  Proof. split; cbn; congruence. Qed.

  Lemma played0 c tr :
    printed c (serve_all kind_of tr) = play (kind_of c) None (calls_of c tr) /\
    bar_of c (serve_all kind_of tr) = left_open None (calls_of c tr) /\
    raised_by c (serve_all kind_of tr) = repeat c (raises None (calls_of c tr)).
  Proof. exact (played c tr world0 world0_ok). Qed.
End Serve.

Lemma calls_of_own c cs : calls_of c (map (pair c) cs) = cs.
Proof.
  induction cs as [|x cs IH]; [reflexivity|]. cbn [map]. rewrite calls_of_cons, Nat.eqb_refl. now f_equal.
Qed.

Lemma pf_C49_isolated (kind_of : nat -> kind) (tr : list (nat * call)) (c : nat) :
  let alone := map (pair c) (calls_of c tr) in
  printed c (serve_all kind_of tr) = printed c (serve_all kind_of alone) /\
  bar_of c (serve_all kind_of tr) = bar_of c (serve_all kind_of alone) /\
  (In c (w_raised (serve_all kind_of tr)) <-> In c (w_raised (serve_all kind_of alone))).
Proof.
  cbn zeta. destruct (played0 kind_of c tr) as [P [B R]].
  destruct (played0 kind_of c (map (pair c) (calls_of c tr))) as [P' [B' R']].
  rewrite calls_of_own in P', B', R'. split; [congruence|]. split; [congruence|].
  assert (H : forall w, In c (w_raised w) <-> In c (raised_by c w)).
  { intros w. unfold raised_by. rewrite filter_In. rewrite Nat.eqb_refl. tauto. }
  rewrite !H, R, R'. tauto.
Qed.

(** * The text meter *)

Fixpoint shown (m : Q) (state : list Q) (rows : list row) : list Q :=
  match rows with
  | [] => []
  | r :: rows' =>
      if text_pred m state r
      then unvmap_min (map snd r) ::
           shown m (map (fun sp : Q * (bool * Q) => if fst (snd sp) then snd (snd sp) else fst sp) (combine state r)) rows'
      else shown m state rows'
  end.
Lemma text_steps_shown m rows : forall state, text_steps m state rows = map CStep (shown m state rows).
Proof.
  induction rows as [|r rows IH]; intros state; [reflexivity|].
  cbn [text_steps shown]. unfold text_step. destruct (text_pred m state r); cbn [app map]; now rewrite IH.
Qed.

Lemma last_cons {A} (p b : A) ps : last (p :: ps) b = last ps p.
Proof.
  revert p b. induction ps as [|q ps IH]; intros p b; [reflexivity|].
  change (last (p :: q :: ps) b) with (last (q :: ps) b). now rewrite !IH.
Qed.
Lemma play_steps k b ps cs : play k (Some b) (map CStep ps ++ cs) = ps ++ play k (Some (last ps b)) cs.
Proof.
  revert b. induction ps as [|p ps IH]; intros b; [reflexivity|].
  cbn [map app play]. now rewrite IH, last_cons.
Qed.
Lemma play_late k ps : play k None (map CStep ps) = [].
Proof. induction ps; [reflexivity|assumption]. Qed.
Lemma raises_steps b ps cs : raises (Some b) (map CStep ps ++ cs) = raises (Some (last ps b)) cs.
Proof.
  revert b. induction ps as [|p ps IH]; intros b; [reflexivity|].
  cbn [map app raises]. now rewrite IH, last_cons.
Qed.
Lemma raises_late ps : raises None (map CStep ps) = 0%nat.
Proof. induction ps; [reflexivity|assumption]. Qed.

(** What a text meter prints. *)
Definition text_lines (ps : list Q) : list Q :=
  0 :: ps ++ (if Qeq_bool (last ps 0) 1 then [] else [1]).
Lemma play_text m n rows more :
  play Text None (text_program m n rows ++ map CStep more) = text_lines (shown m (repeat 0 n) rows).
Proof.
  unfold text_program. rewrite text_steps_shown. cbn [app play]. rewrite <- app_assoc, play_steps.
  cbn [app play close_bar]. rewrite play_late. unfold text_lines. f_equal. f_equal. apply app_nil_r.
Qed.
Lemma raises_text m n rows more : raises None (text_program m n rows ++ map CStep more) = 0%nat.
Proof.
  unfold text_program. rewrite text_steps_shown. cbn [app raises]. rewrite <- app_assoc, raises_steps.
  cbn [app raises]. apply raises_late.
Qed.

(** ** Number of lines *)

Lemma Qltb_iff a b : Qltb a b = true <-> a < b.
Proof.
  unfold Qltb. rewrite negb_true_iff. split; intros H.
  - apply Qnot_le_lt. intros L. apply Qle_bool_iff in L. congruence.
  - apply not_true_is_false. intros L. apply Qle_bool_iff in L. lra.
Qed.

Lemma text_pred_in m state r s a p :
  text_pred m state r = true -> In (s, (a, p)) (combine state r) -> m < p - s \/ p == 1.
Proof.
  unfold text_pred. rewrite forallb_forall. intros H I. specialize (H _ I). cbn in H.
  apply orb_true_iff in H. rewrite Qltb_iff, Qeq_bool_iff in H. exact H.
Qed.

Definition Qnat (j : nat) : Q := inject_Z (Z.of_nat j).
Lemma Qnat_S j : Qnat (S j) == Qnat j + 1.
Proof. unfold Qnat. rewrite Nat2Z.inj_succ. unfold Z.succ. rewrite inject_Z_plus. reflexivity. Qed.
Lemma Qnat_lt a b : Qnat a < Qnat b -> (a < b)%nat.
Proof. unfold Qnat. rewrite <- Zlt_Qlt. lia. Qed.
Lemma Qnat_le a b : Qnat a <= Qnat b -> (a <= b)%nat.
Proof. unfold Qnat. rewrite <- Zle_Qle. lia. Qed.

Section Count.
  Variables (m : Q) (k : nat).
  Hypothesis m_pos : 0 < m.
  Hypothesis k_ceil : is_ceiling (1 / m) k.

  Lemma below_ceiling_lt j x : Qnat j * m <= x -> x < 1 -> (S j <= k)%nat.
  Proof.
    intros A B. apply Qnat_lt. destruct k_ceil as [C _]. fold (Qnat k) in C.
    eapply Qlt_le_trans; [|exact C]. apply Qlt_shift_div_l; [assumption|]. lra.
  Qed.
  Lemma below_ceiling_le j x : Qnat j * m <= x -> x <= 1 -> (j <= k)%nat.
  Proof.
    intros A B. apply Qnat_le. destruct k_ceil as [C _]. fold (Qnat k) in C.
    eapply Qle_trans; [|exact C]. apply Qle_shift_div_l; [assumption|]. lra.
  Qed.

  Definition behind (j : nat) (state : list Q) (r : row) : Prop :=
    Forall2 (fun s ap => fst ap = true -> Qnat j * m <= s /\ s < 1) state r.

  Lemma behind_active j state r p : behind j state r -> In (true, p) r ->
    exists s, In (s, (true, p)) (combine state r) /\ Qnat j * m <= s /\ s < 1.
  Proof.
    induction 1 as [|s ap state r H F IH]; [easy|]. intros [->|I].
    - exists s. split; [now left|]. now apply H.
    - destruct (IH I) as [s' [? ?]]. exists s'. split; [now right|assumption].
  Qed.

  Lemma behind_keep j state : forall r r', behind j state r -> continues r r' -> behind j state r'.
  Proof.
    unfold behind, continues. induction state as [|s state IH]; intros r r' B C.
    - inversion B; subst. inversion C; subst. constructor.
    - inversion B as [|? y ? l B0 B1]; subst. inversion C as [|? z ? l' C0 C1]; subst.
      constructor; [|eapply IH; eassumption]. intros A. apply B0. now apply C0.
  Qed.

  Lemma behind_print j state : forall r r', behind j state r -> continues r r' -> text_pred m state r = true ->
    behind (S j) (map (fun sp : Q * (bool * Q) => if fst (snd sp) then snd (snd sp) else fst sp) (combine state r)) r'.
  Proof.
    unfold behind, continues. induction state as [|s state IH]; intros r r' B C P.
    - inversion B; subst. inversion C; subst. constructor.
    - inversion B as [|? y ? l B0 B1]; subst. inversion C as [|? z ? l' C0 C1]; subst. cbn [combine map].
      unfold text_pred in P. cbn [combine forallb] in P. apply andb_true_iff in P. destruct P as [P0 P].
      constructor.
      + intros A. destruct (C0 A) as [A' L]. cbn [fst snd] in *. rewrite A'. destruct (B0 A') as [L1 L2].
        split; [|exact L]. apply orb_true_iff in P0. rewrite Qltb_iff, Qeq_bool_iff in P0.
        rewrite Qnat_S. destruct P0 as [P0|P0]; lra.
      + apply IH; assumption.
  Qed.

  Lemma shown_count n rows : forall j state r rows', rows = r :: rows' -> behind j state r -> batch_solve n rows ->
    (j + length (shown m state rows) <= k)%nat.
  Proof.
    induction rows as [|r0 rows IH]; intros j state r rows' E B S; [easy|]. injection E as -> ->.
    cbn [batch_solve] in S. destruct S as [Hn [[p Hp] [H1 [C S]]]].
    destruct (behind_active j state r p B Hp) as [s [Hs [L1 L2]]].
    pose proof (below_ceiling_lt j s L1 L2) as K.
    cbn [shown]. destruct rows' as [|r' rows'].
    - destruct (text_pred m state r); cbn; lia.
    - destruct (text_pred m state r) eqn:P.
      + pose proof (IH (Datatypes.S j) _ r' rows' eq_refl (behind_print j state r r' B C P) S) as I.
        cbn [length]. lia.
      + exact (IH j state r' rows' eq_refl (behind_keep j state r r' B C) S).
  Qed.

  Lemma behind_start n : forall r : row, length r = n -> behind 0 (repeat 0 n) r.
  Proof.
    induction n; intros r H; destruct r; try easy; cbn; constructor.
    - intros _. unfold Qnat. change (inject_Z (Z.of_nat 0)) with 0. split; lra.
    - apply IHn. now injection H.
  Qed.

  Lemma lines_count n rows : batch_solve n rows -> (length (text_lines (shown m (repeat 0%Q n) rows)) <= k + 2)%nat.
  Proof.
    intros B. assert (L : (length (shown m (repeat 0%Q n) rows) <= k)%nat).
    { destruct rows as [|r rows]; [cbn; lia|]. destruct (B) as [Hn _].
      apply (shown_count n (r :: rows) 0 _ r rows eq_refl (behind_start n r Hn) B). }
    unfold text_lines. cbn [length]. rewrite app_length. destruct (Qeq_bool _ _); cbn [length]; lia.
  Qed.

  (** ** Increasing *)

  Lemma Qmin_cases a b : Qmin a b = a \/ Qmin a b = b.
  Proof. unfold Qmin, GenericMinMax.gmin. destruct (a ?= b); tauto. Qed.
  Lemma unvmap_min_spec ps : ps <> [] -> In (unvmap_min ps) ps /\ forall p, In p ps -> unvmap_min ps <= p.
  Proof.
    destruct ps as [|p ps]; [easy|]. intros _. cbn [unvmap_min]. revert p.
    induction ps as [|q ps IH]; intros p; cbn [fold_left].
    - split; [now left|]. intros x [->|[]]. lra.
    - destruct (IH (Qmin p q)) as [I L]. split.
      + destruct I as [I|I]; [|now right; right].
        rewrite <- I. destruct (Qmin_cases p q) as [E|E]; rewrite E; cbn; tauto.
      + intros x [<-|[<-|Hx]].
        * eapply Qle_trans; [apply L; now left|]. apply Q.le_min_l.
        * eapply Qle_trans; [apply L; now left|]. apply Q.le_min_r.
        * apply L. now right.
  Qed.

  Definition ahead (L : Q) (state : list Q) (r : row) : Prop :=
    Forall2 (fun s ap => fst ap = true -> L <= s) state r.

  Lemma ahead_in L state r a p : ahead L state r -> In (a, p) r ->
    exists s, In (s, (a, p)) (combine state r) /\ (a = true -> L <= s).
  Proof.
    induction 1 as [|s ap state r H F IH]; [easy|]. intros [->|I].
    - exists s. split; [now left|]. exact H.
    - destruct (IH I) as [s' [? ?]]. exists s'. split; [now right|assumption].
  Qed.
  Lemma ahead_keep L state : forall r r', ahead L state r -> continues r r' -> ahead L state r'.
  Proof.
    unfold ahead, continues. induction state as [|s state IH]; intros r r' B C.
    - inversion B; subst. inversion C; subst. constructor.
    - inversion B as [|? y ? l B0 B1]; subst. inversion C as [|? z ? l' C0 C1]; subst.
      constructor; [|eapply IH; eassumption]. intros A. apply B0. now apply C0.
  Qed.
  Lemma ahead_print L L' state : forall r r', ahead L state r -> continues r r' ->
    (forall a p, In (a, p) r -> L' <= p) ->
    ahead L' (map (fun sp : Q * (bool * Q) => if fst (snd sp) then snd (snd sp) else fst sp) (combine state r)) r'.
  Proof.
    unfold ahead, continues. induction state as [|s state IH]; intros r r' B C P.
    - inversion B; subst. inversion C; subst. constructor.
    - inversion B as [|? y ? l B0 B1]; subst. inversion C as [|? z ? l' C0 C1]; subst. cbn [combine map].
      constructor.
      + intros A. destruct (C0 A) as [A' _]. cbn [fst snd]. rewrite A'. destruct y as [a p]. cbn. apply (P a). now left.
      + apply IH; try assumption. intros a p H. apply (P a). now right.
  Qed.
  Lemma ahead_start n : forall r : row, length r = n -> ahead 0 (repeat 0 n) r.
  Proof.
    induction n; intros r H; destruct r; try easy; cbn; constructor.
    - intros _. lra.
    - apply IHn. now injection H.
  Qed.

  Lemma continues_active r r' p : continues r r' -> In (true, p) r' -> exists q, In (true, q) r /\ q < 1.
  Proof.
    induction 1 as [|[a q] b r r' H F IH]; [easy|]. intros [->|I].
    - destruct (H eq_refl) as [A L]. cbn in A, L. subst a. exists q. split; [now left|exact L].
    - destruct (IH I) as [x [? ?]]. exists x. split; [now right|assumption].
  Qed.

  Lemma shown_spaced n rows : forall L state r rows', rows = r :: rows' -> L < 1 -> ahead L state r ->
    batch_solve n rows -> all_reach_end rows ->
    spaced m (L :: shown m state rows) /\ (forall p, In p (shown m state rows) -> p <= 1).
  Proof.
    induction rows as [|r0 rows IH]; intros L state r rows' E L1 A S R; [easy|]. injection E as -> ->.
    cbn [batch_solve] in S. destruct S as [Hn [[p Hp] [H1 [C S]]]].
    assert (R' : all_reach_end rows') by (intros x q Hx; apply R; now right).
    cbn [shown]. destruct (text_pred m state r) eqn:P.
    - destruct (unvmap_min_spec (map snd r)) as [I M].
      { destruct r; [easy|discriminate]. }
      set (L' := unvmap_min (map snd r)) in *.
      apply in_map_iff in I. destruct I as [[a q] [Hq Iq]]. cbn in Hq. subst q.
      assert (LE : L' <= 1) by (eapply H1; eassumption).
      assert (ST : L < L' /\ (m < L' - L \/ L' == 1)).
      { destruct (ahead_in L state r a L' A Iq) as [s [Hs Ls]]. destruct a.
        - specialize (Ls eq_refl). destruct (text_pred_in _ _ _ _ _ _ P Hs) as [G|G].
          + split; [lra|left; lra].
          + split; [lra|right; exact G].
        - assert (G : L' == 1) by (apply (R r); [now left|exact Iq]). split; [lra|right; exact G]. }
      assert (ALL : forall a' p', In (a', p') r -> L' <= p').
      { intros a' p' H. apply M. apply in_map_iff. now exists (a', p'). }
      destruct rows' as [|r' rows'].
      + cbn [shown spaced]. split; [tauto|]. intros x [<-|[]]. exact LE.
      + assert (L'1 : L' < 1).
        { cbn [batch_solve] in S. destruct S as [_ [[p' Hp'] _]].
          destruct (continues_active r r' p' C Hp') as [q [Hq1 Hq2]]. pose proof (ALL _ _ Hq1). lra. }
        destruct (IH L' _ r' rows' eq_refl L'1 (ahead_print L L' state r r' A C ALL) S R') as [SP LE'].
        split.
        * destruct ST as [ST1 ST2]. split; [exact ST1|]. split; [exact ST2|exact SP].
        * intros x [<-|Hx]; [exact LE|]. now apply LE'.
    - destruct rows' as [|r' rows'].
      + cbn. split; [exact Logic.I|easy].
      + exact (IH L state r' rows' eq_refl L1 (ahead_keep L state r r' A C) S R').
  Qed.

  Lemma spaced_snoc a ps : spaced m (a :: ps) -> last ps a < 1 -> spaced m (a :: ps ++ [1]).
  Proof.
    revert a. induction ps as [|p ps IH]; intros a S L.
    - cbn in *. split; [exact L|]. split; [right; reflexivity|exact Logic.I].
    - rewrite last_cons in L. destruct S as [S1 [S2 S3]]. cbn [app]. split; [exact S1|]. split; [exact S2|].
      now apply IH.
  Qed.

  Lemma spaced_count ls : forall a j, spaced m (a :: ls) -> Qnat j * m <= a -> a <= 1 ->
    (forall x, In x ls -> x <= 1) -> (j + length ls <= k)%nat.
  Proof.
    induction ls as [|b ls IH]; intros a j S J A1 LE.
    - cbn. rewrite Nat.add_0_r. now apply (below_ceiling_le j a).
    - destruct S as [S1 [S2 S3]]. assert (B1 : b <= 1) by (apply LE; now left).
      destruct S2 as [S2|S2].
      + cbn [length]. rewrite Nat.add_succ_r. apply (IH b (Datatypes.S j)); [exact S3| |exact B1|].
        * rewrite Qnat_S. lra.
        * intros x Hx. apply LE. now right.
      + destruct ls as [|c ls].
        * cbn. assert (a < 1) by lra. pose proof (below_ceiling_lt j a J H). lia.
        * destruct S3 as [S3 _]. assert (c <= 1) by (apply LE; right; now left). lra.
  Qed.

  Lemma text_lines_spaced n rows : batch_solve n rows -> all_reach_end rows ->
    spaced m (text_lines (shown m (repeat 0 n) rows)) /\
    (length (text_lines (shown m (repeat 0%Q n) rows)) <= k + 1)%nat.
  Proof.
    intros B R. set (ps := shown m (repeat 0 n) rows).
    assert (SP : spaced m (0 :: ps) /\ (forall p, In p ps -> p <= 1)).
    { destruct rows as [|r rows]; [cbn; tauto|]. destruct (B) as [Hn _].
      apply (shown_spaced n (r :: rows) 0 _ r rows eq_refl); try assumption; [lra|]. now apply ahead_start. }
    destruct SP as [SP LE].
    assert (FULL : spaced m (text_lines ps) /\ forall x, In x (ps ++ (if Qeq_bool (last ps 0) 1 then [] else [1])) -> x <= 1).
    { unfold text_lines. destruct (Qeq_bool (last ps 0) 1) eqn:E.
      - rewrite app_nil_r. tauto.
      - split.
        + apply spaced_snoc; [exact SP|].
          assert (L : last ps 0 <= 1).
          { destruct ps as [|p ps0] eqn:Eps; [cbn; lra|]. apply LE. rewrite last_cons.
            clear. revert p. induction ps0; intros p; [now left|]. rewrite last_cons. right. apply IHps0. }
          apply Qeq_bool_neq in E. lra.
        + intros x Hx. apply in_app_iff in Hx. destruct Hx as [Hx|[<-|[]]]; [now apply LE|lra]. }
    destruct FULL as [FS FL]. split; [exact FS|]. unfold text_lines in *. cbn [length].
    assert (Z0 : Qnat 0 * m <= 0) by (change (Qnat 0) with 0; lra).
    pose proof (spaced_count _ 0 0%nat FS Z0 ltac:(lra) FL). lia.
  Qed.
End Count.

Lemma pf_C49_lines (kind_of : nat -> kind) (tr : list (nat * call)) (c : nat) (m : Q) (k n : nat)
    (rows : list row) (more : list Q) :
  kind_of c = Text -> calls_of c tr = text_program m n rows ++ map CStep more ->
  0 < m -> is_ceiling (1 / m) k -> batch_solve n rows ->
  let ls := printed c (serve_all kind_of tr) in
  hd_error ls = Some 0 /\ last ls 0 == 1 /\ (length ls <= k + 2)%nat /\ ~ In c (w_raised (serve_all kind_of tr)).
Proof.
  intros K C M KC B. cbn zeta. destruct (played0 kind_of c tr) as [P [_ R]]. rewrite P, C, K, play_text.
  split; [reflexivity|]. split; [|split].
  - unfold text_lines. destruct (Qeq_bool (last _ 0) 1) eqn:H.
    + rewrite app_nil_r. apply Qeq_bool_iff in H. now rewrite last_cons.
    + match goal with |- last (0 :: ?ps ++ [1]) 0 == 1 => change (0 :: ps ++ [1]) with ((0 :: ps) ++ [1]) end.
      rewrite last_last. reflexivity.
  - now apply lines_count.
  - rewrite C, raises_text in R. intros I.
    assert (I' : In c (raised_by c (serve_all kind_of tr))).
    { unfold raised_by. apply filter_In. now rewrite Nat.eqb_refl. }
    rewrite R in I'. exact I'.
Qed.

Lemma pf_C49_increasing (kind_of : nat -> kind) (tr : list (nat * call)) (c : nat) (m : Q) (k n : nat)
    (rows : list row) (more : list Q) :
  kind_of c = Text -> calls_of c tr = text_program m n rows ++ map CStep more ->
  0 < m -> is_ceiling (1 / m) k -> batch_solve n rows -> all_reach_end rows ->
  let ls := printed c (serve_all kind_of tr) in spaced m ls /\ (length ls <= k + 1)%nat.
Proof.
  intros K C M KC B R. cbn zeta. destruct (played0 kind_of c tr) as [P _]. rewrite P, C, K, play_text.
  now apply text_lines_spaced.
Qed.

(** * The tqdm meter *)

Definition in_step (j : nat) (state : list nat) (r : row) : Prop :=
  Forall2 (fun s ap => fst ap = true -> s = j) state r.

Lemma in_step_max j state r p : in_step j state r -> Forall (fun s => (s <= j)%nat) state -> In (true, p) r -> list_max state = j.
Proof.
  intros I F A. apply Nat.le_antisymm; [now apply list_max_le|].
  assert (J : In j state).
  { clear F. induction I as [|s ap state r H I IH]; [easy|]. destruct A as [->|A].
    - left. now apply H.
    - right. now apply IH. }
  clear - J. induction state as [|s state IH]; [easy|]. cbn [list_max fold_right]. destruct J as [->|J]; [apply Nat.le_max_l|].
  eapply Nat.le_trans; [now apply IH|]. apply Nat.le_max_r.
Qed.

Lemma in_step_next j state : forall r r', in_step j state r -> continues r r' ->
  in_step (S j) (map (fun sp : nat * (bool * Q) => if fst (snd sp) then S (fst sp) else fst sp) (combine state r)) r'.
Proof.
  unfold in_step, continues. induction state as [|s state IH]; intros r r' B C.
  - inversion B; subst. inversion C; subst. constructor.
  - inversion B as [|? y ? l B0 B1]; subst. inversion C as [|? z ? l' C0 C1]; subst. cbn [combine map]. constructor.
    + intros A. destruct (C0 A) as [A' _]. cbn [fst snd]. rewrite A'. now rewrite (B0 A').
    + now apply IH.
Qed.
Lemma le_next j state (r : row) : Forall (fun s => (s <= j)%nat) state ->
  Forall (fun s => (s <= S j)%nat) (map (fun sp : nat * (bool * Q) => if fst (snd sp) then S (fst sp) else fst sp) (combine state r)).
Proof.
  intros F. revert r. induction F as [|s state H F IH]; intros r; [constructor|].
  destruct r as [|ap r]; [constructor|]. cbn [combine map]. constructor; [|apply IH]. cbn. destruct (fst ap); lia.
Qed.

Lemma div_step j r : (0 < r)%nat ->
  ((j + r) / r = (j + r - 1) / r + (if (j mod r =? 0)%nat then 1 else 0))%nat.
Proof.
  intros R. pose proof (Nat.div_mod j r ltac:(lia)) as D. pose proof (Nat.mod_upper_bound j r ltac:(lia)) as U.
  set (q := (j / r)%nat) in *. set (x := (j mod r)%nat) in *.
  assert (A : ((j + r) / r = S q)%nat).
  { symmetry. apply (Nat.div_unique _ _ _ x); [exact U|]. rewrite D. lia. }
  rewrite A. destruct (Nat.eqb_spec x 0) as [X|X].
  - assert (B : ((j + r - 1) / r = q)%nat).
    { symmetry. apply (Nat.div_unique _ _ _ (r - 1)); [lia|]. rewrite D at 1. lia. }
    rewrite B. lia.
  - assert (B : ((j + r - 1) / r = S q)%nat).
    { symmetry. apply (Nat.div_unique _ _ _ (x - 1)); [lia|]. rewrite D at 1. lia. }
    rewrite B. lia.
Qed.

Lemma tqdm_count n f rows : (0 < f)%nat -> forall j state r rows', rows = r :: rows' -> in_step j state r ->
  Forall (fun s => (s <= j)%nat) state -> batch_solve n rows ->
  (length (tqdm_steps f state rows) + (j + f - 1) / f = (j + length rows + f - 1) / f)%nat /\
  exists ps, tqdm_steps f state rows = map CStep ps.
Proof.
  intros F. induction rows as [|r0 rows IH]; intros j state r rows' E I L S; [easy|]. injection E as -> ->.
  cbn [batch_solve] in S. destruct S as [Hn [[p Hp] [H1 [C S]]]].
  cbn [tqdm_steps]. unfold tqdm_step. rewrite (in_step_max j state r p I L Hp). rewrite app_length.
  pose proof (div_step j f F) as D.
  destruct rows' as [|r' rows'].
  - cbn [tqdm_steps length]. replace (j + 1 + f - 1)%nat with (j + f)%nat by lia. rewrite D.
    split; [destruct (j mod f =? 0)%nat; cbn [length]; lia|].
    destruct (j mod f =? 0)%nat; [now exists [unvmap_min (map snd r)]|now exists []].
  - destruct (IH (Datatypes.S j) _ r' rows' eq_refl (in_step_next j state r r' I C) (le_next j state r L) S) as [IH1 [ps IH2]].
    split.
    + replace (Datatypes.S j + f - 1)%nat with (j + f)%nat in IH1 by lia.
      replace (j + length (r :: r' :: rows') + f - 1)%nat with (Datatypes.S j + length (r' :: rows') + f - 1)%nat by (cbn [length]; lia).
      rewrite <- IH1, D. destruct (j mod f =? 0)%nat; cbn [length]; lia.
    + rewrite IH2. destruct (j mod f =? 0)%nat; [now exists (unvmap_min (map snd r) :: ps)|now exists ps].
Qed.

Lemma in_step_start n : forall r : row, length r = n -> in_step 0 (repeat 0%nat n) r.
Proof.
  induction n; intros r H; destruct r; try easy; cbn; constructor; [reflexivity|]. apply IHn. now injection H.
Qed.
Lemma le_start n : Forall (fun s => (s <= 0)%nat) (repeat 0%nat n).
Proof. induction n; cbn; constructor; [lia|assumption]. Qed.

Lemma pf_C49_tqdm (kind_of : nat -> kind) (tr : list (nat * call)) (c : nat) (refresh_steps n : nat)
    (rows : list row) (more : list Q) :
  kind_of c = Tqdm -> calls_of c tr = tqdm_program refresh_steps n rows ++ map CStep more ->
  (0 < refresh_steps)%nat -> batch_solve n rows ->
  let ls := printed c (serve_all kind_of tr) in
  hd_error ls = Some 0 /\ last ls 0 == 1 /\
  (length ls = 2 + (length rows + refresh_steps - 1) / refresh_steps)%nat.
Proof.
  intros K C F B. cbn zeta. destruct (played0 kind_of c tr) as [P _]. rewrite P, C, K. clear P.
  assert (T : (length (tqdm_steps refresh_steps (repeat 0%nat n) rows) = (length rows + refresh_steps - 1) / refresh_steps)%nat /\
              exists ps, tqdm_steps refresh_steps (repeat 0%nat n) rows = map CStep ps).
  { destruct rows as [|r rows].
    - cbn [tqdm_steps length]. split; [|now exists []]. symmetry. apply Nat.div_small. lia.
    - destruct (B) as [Hn _].
      destruct (tqdm_count n refresh_steps (r :: rows) F 0 _ r rows eq_refl (in_step_start n r Hn) (le_start n) B) as [T1 T2].
      split; [|exact T2]. rewrite (Nat.div_small (0 + refresh_steps - 1)) in T1 by lia. rewrite <- plus_n_O in T1. exact T1. }
  destruct T as [T [ps E]]. unfold tqdm_program. rewrite E in *. rewrite map_length in T.
  cbn [app play]. rewrite <- app_assoc, play_steps. cbn [app play close_bar]. rewrite play_late.
  split; [reflexivity|]. split.
  - change (0 :: ps ++ [1]) with ((0 :: ps) ++ [1]). rewrite last_last. reflexivity.
  - cbn [length]. rewrite app_length. cbn [length]. lia.
Qed.

(** * A batch some of whose elements stop early *)

Definition early_rows : list row :=
  [[(true, 1 # 2); (true, 1 # 2)]; [(false, 6 # 10); (true, 7 # 10)];
   [(false, 6 # 10); (true, 8 # 10)]; [(false, 6 # 10); (true, 1)]].
Lemma pf_C49_early_stop_refuted :
  exists (n : nat) (rows : list row), batch_solve n rows /\
    printed 0 (serve_all (fun _ => Text) (map (pair 0%nat) (text_program (1 # 50) n rows))) =
    [0; 1 # 2; 6 # 10; 6 # 10; 6 # 10; 1].
Proof.
  exists 2%nat, early_rows. split.
  - cbn. unfold continues.
    repeat match goal with
    | |- _ /\ _ => split
    | |- True => exact Logic.I
    | |- exists _, _ => eexists
    | |- Forall2 _ _ _ => constructor
    | |- forall a p, _ \/ _ -> _ => let H := fresh in intros ? ? H; repeat destruct H as [H|H]; try (injection H as <- <-); try easy; lra
    | |- fst _ = true -> _ => cbn; intros; try discriminate
    | |- _ = _ => reflexivity
    | |- _ < _ => cbn; lra
    end.
    1-4: solve [left; reflexivity | right; left; reflexivity].
  - vm_compute. reflexivity.
Qed.
