(** Proofs about the PID controller. *)
From Coq Require Import QArith Qpower Qminmax ZArith List Bool Arith Lia Lqa.
From Verif Require Import Model_Result Model_Loop Spec_Loop Proof_LoopBasic Proof_LoopFinish Proof_LoopRoot
  Proof_PropLoop Model_Float Model_PID
  Spec_PID.
Import ListNotations.
Open Scope Q_scope.

Lemma qle_spec x y : Qle_bool x y = true <-> x <= y.
Proof. apply Qle_bool_iff. Qed.
Lemma qle_false x y : Qle_bool x y = false <-> y < x.
Proof.
  split; intros H.
  - apply Qnot_le_lt. intros H1. apply Qle_bool_iff in H1. congruence.
  - destruct (Qle_bool x y) eqn:He; [|reflexivity]. apply Qle_bool_iff in He. lra.
Qed.

Lemma nonneg_mul a q : nonneg a -> 0 < q -> nonneg (xmul a (QFin q)).
Proof.
  intros [->|(x & -> & Hx)] Hq.
  - left. cbn. unfold sgn_inf. destruct (Qeq_bool q 0) eqn:He.
    + apply Qeq_bool_iff in He. lra.
    + assert (Qle_bool 0 q = true) as -> by (apply qle_spec; lra). reflexivity.
  - right. exists (x * q). split; [reflexivity|]. nra.
Qed.
Lemma nonneg_mul_l a q : nonneg a -> 0 < q -> nonneg (xmul (QFin q) a).
Proof.
  intros H Hq. assert (xmul (QFin q) a = xmul a (QFin q) \/ exists x, a = QFin x) as [->|[x ->]].
  { destruct a; cbn; eauto. }
  - apply nonneg_mul; assumption.
  - destruct H as [?|(y & Hy & H0)]; [discriminate|]. injection Hy as ->.
    right. exists (q * y). split; [reflexivity|nra].
Qed.
Lemma clip_bounds x lo hi : nonneg x -> lo <= hi ->
  exists f, xclip x (QFin lo) (QFin hi) = QFin f /\ lo <= f /\ f <= hi.
Proof.
  intros Hx Hle. unfold xclip.
  destruct Hx as [->|(q & -> & Hq)]; cbn [xmax xle].
  - cbn. exists hi. split; [reflexivity|lra].
  - destruct (Qle_bool q lo) eqn:E1.
    + cbn. assert (Qle_bool lo hi = true) as -> by (apply qle_spec; exact Hle).
      exists lo. split; [reflexivity|lra].
    + apply qle_false in E1. cbn. destruct (Qle_bool q hi) eqn:E2.
      * apply qle_spec in E2. exists q. split; [reflexivity|lra].
      * apply qle_false in E2. exists hi. split; [reflexivity|lra].
Qed.

Lemma inv_nonneg e : nonneg e -> nonneg (xdiv (QFin 1) e).
Proof.
  intros [->|(q & -> & Hq)]; cbn.
  - right. exists 0. split; [reflexivity|lra].
  - destruct (Qeq_bool q 0) eqn:He.
    + left. reflexivity.
    + right. exists (1 / q). split; [reflexivity|]. apply Qle_shift_div_l; [|lra].
      apply Qeq_bool_neq in He. destruct (Qlt_le_dec 0 q); [assumption|]. exfalso. apply He. lra.
Qed.

Lemma inv_stored e : nonneg (xdiv (QFin 1) e) ->
  positive (if xeq (xdiv (QFin 1) e) (QFin 0) || is_inf (xdiv (QFin 1) e) then QFin 1 else xdiv (QFin 1) e).
Proof.
  intros Hinv. destruct (xeq (xdiv (QFin 1) e) (QFin 0) || is_inf (xdiv (QFin 1) e)) eqn:Hx.
  - exists 1. split; [reflexivity|lra].
  - apply orb_false_elim in Hx. destruct Hx as [Hx1 Hx2].
    destruct Hinv as [Hi|(q & Hi & Hq)]; rewrite Hi in *; [discriminate|].
    exists q. split; [reflexivity|]. unfold xeq in Hx1. cbn in Hx1.
    destruct (Qle_bool q 0) eqn:E1.
    + apply qle_spec in E1. assert (H : Qle_bool 0 q = true) by (apply qle_spec; exact Hq).
      rewrite H in Hx1. discriminate.
    + apply qle_false in E1. exact E1.
Qed.

Lemma factor_bounds p keep inv s :
  pid_ok p -> pid_state_ok s -> nonneg inv ->
  exists f, pid_factor p keep inv (prev_inv_scaled_error s) (prev_prev_inv_scaled_error s) = QFin f /\
    (if keep then 1 else factormin p) <= f /\ f <= (if keep then factormax p else safety p).
Proof.
  intros Hp [Hs1 Hs2] Hi. unfold pid_factor.
  assert (Hpos : forall x c, positive x -> positive (if Qeq_bool c 0 then QFin 1 else power p x c)).
  { intros x c Hx. destruct (Qeq_bool c 0); [exists 1; split; [reflexivity|lra]|]. apply (ok_power p Hp), Hx. }
  apply clip_bounds.
  - destruct (Hpos _ (dcoeff p / error_order p) Hs2) as (q3 & -> & H3).
    destruct (Hpos _ (- (pcoeff p + 2 * dcoeff p) / error_order p) Hs1) as (q2 & -> & H2).
    apply nonneg_mul; [|exact H3]. apply nonneg_mul; [|exact H2].
    apply nonneg_mul_l; [|pose proof (ok_factormin p Hp); pose proof (ok_safety p Hp); lra].
    destruct (Qeq_bool _ 0); [right; exists 1; split; [reflexivity|lra]|].
    apply (ok_power_nonneg p Hp), Hi.
  - destruct keep; [apply (ok_factormax p Hp)|apply (ok_safety p Hp)].
Qed.

Lemma xmin_fin a b : exists c, xmin (QFin a) (QFin b) = QFin c /\ c <= a /\ c <= b /\ (c = a \/ c = b).
Proof.
  cbn. destruct (Qle_bool a b) eqn:E1.
  - apply qle_spec in E1. exists a. repeat split; auto; lra.
  - apply qle_false in E1. exists b. repeat split; auto; lra.
Qed.
Lemma xmax_fin a b : exists c, xmax (QFin a) (QFin b) = QFin c /\ a <= c /\ b <= c /\ (c = a \/ c = b).
Proof.
  cbn. destruct (Qle_bool a b) eqn:E1.
  - apply qle_spec in E1. exists b. repeat split; auto; lra.
  - apply qle_false in E1. exists a. repeat split; auto; lra.
Qed.

(** The whole of [pid_adapt] on sane inputs. *)
Lemma pid_adapt_spec p t0 t1 y0 y1 err s :
  pid_ok p -> pid_state_ok s -> t0 <= t1 -> scaled_error p y0 y1 err <> QNaN ->
  let r := pid_adapt p (QFin t0) (QFin t1) y0 y1 err s in
  po_t0 r = QFin (if po_keep r then t1 else t0) /\
  exists f dt1 dt,
    (if po_keep r then 1 else factormin p) <= f /\ f <= (if po_keep r then factormax p else safety p) /\
    (dt1 == (t1 - t0) * f \/ (exists M, dtmax p = Some M /\ dt1 = M /\ M <= (t1 - t0) * f)) /\
    (forall M, dtmax p = Some M -> dt1 <= M) /\
    (dt = dt1 \/ exists m, dtmin p = Some m /\ dt = m /\ (dt1 <= m \/ (at_dtmin s = true /\ f == 1))) /\
    (forall m, dtmin p = Some m -> m <= dt) /\
    po_t1 r = QFin ((if po_keep r then t1 else t0) + dt) /\
    (forall m, dtmin p = Some m -> at_dtmin (po_state r) = false -> m < dt /\ dt = dt1) /\
    (forall m, dtmin p = Some m -> force_dtmin p = false ->
       (po_result r = dt_min_reached <-> dt1 < m)) /\
    (po_result r = successful \/ po_result r = dt_min_reached) /\
    pid_state_ok (po_state r).
Proof.
  intros Hp Hs Ht He r.
  assert (Hn : nonneg (scaled_error p y0 y1 err)).
  { destruct (ok_norm p Hp (map2 (fun yy e => scale_leaf p (fst yy) (snd yy) e) (combine y0 y1) err)) as [H|H].
    - exfalso. apply He. exact H.
    - exact H. }
  pose proof (inv_nonneg _ Hn) as Hinv.
  set (keep := po_keep r).
  assert (Hkeep : (match dtmin p with Some _ => xlt (scaled_error p y0 y1 err) (QFin 1) || at_dtmin s
                   | None => xlt (scaled_error p y0 y1 err) (QFin 1) end) = keep).
  { unfold keep, r, pid_adapt. destruct (dtmin p); reflexivity. }
  destruct (factor_bounds p keep _ s Hp Hs Hinv) as (f & Hf & Hf1 & Hf2).
  assert (Hmul : xmul (xsub (QFin t1) (QFin t0)) (QFin f) = QFin ((t1 + - t0) * f)) by reflexivity.
  assert (Hst : pid_state_ok (po_state r)).
  { unfold r, pid_adapt. rewrite Hkeep.
    destruct (dtmin p); cbn [po_state]; clearbody keep.
    all: destruct Hs as [Hs1 Hs2]; destruct keep; (split; cbn [prev_inv_scaled_error prev_prev_inv_scaled_error]; [|assumption]);
      try assumption.
    all: apply inv_stored; assumption. }
  split.
  { unfold r, pid_adapt. rewrite Hkeep.
    destruct (dtmin p); cbn [po_t0]; destruct keep; reflexivity. }
  assert (H1 : exists dt1, (match dtmax p with Some m => xmin (QFin ((t1 + - t0) * f)) (QFin m)
                                         | None => QFin ((t1 + - t0) * f) end) = QFin dt1 /\
            (dt1 == (t1 - t0) * f \/ (exists M, dtmax p = Some M /\ dt1 = M /\ M <= (t1 - t0) * f)) /\
            (forall M, dtmax p = Some M -> dt1 <= M)).
  { destruct (dtmax p) as [M|].
    - destruct (xmin_fin ((t1 + - t0) * f) M) as (cc & -> & H1 & H2 & H3). exists cc.
      split; [reflexivity|]. split.
      + destruct H3 as [-> | ->]; [left; reflexivity|]. right. exists M. repeat split. exact H1.
      + intros M' HM. injection HM as <-. exact H2.
    - eexists. split; [reflexivity|]. split; [left; reflexivity|]. intros; discriminate. }
  destruct H1 as (dt1 & Hdt1 & Hd1 & Hd2).
  assert (Hr : r = let '(dt, result, at_min) :=
      match dtmin p with
      | None => (QFin dt1, successful, at_dtmin s)
      | Some m =>
          let result := if negb (force_dtmin p) && xlt (QFin dt1) (QFin m) then dt_min_reached else successful in
          let dt := if at_dtmin s && xeq (QFin f) (QFin 1) then QFin m else QFin dt1 in
          let at_min := xle dt (QFin m) in
          (xmax dt (QFin m), result, at_min)
      end in
      PidOut keep (QFin (if keep then t1 else t0)) (xadd (QFin (if keep then t1 else t0)) dt)
        (PidState (prev_inv_scaled_error (po_state r)) (prev_prev_inv_scaled_error (po_state r)) at_min) result).
  { unfold r, pid_adapt. rewrite Hkeep, Hf, Hmul, Hdt1.
    destruct (dtmin p); cbn [po_state prev_inv_scaled_error prev_prev_inv_scaled_error];
      destruct keep; reflexivity. }
  exists f, dt1.
  destruct (dtmin p) as [m|] eqn:Hm.
  - set (dt2 := if at_dtmin s && xeq (QFin f) (QFin 1) then m else dt1).
    assert (Hdt2 : (if at_dtmin s && xeq (QFin f) (QFin 1) then QFin m else QFin dt1) = QFin dt2)
      by (unfold dt2; destruct (at_dtmin s && _); reflexivity).
    cbv zeta in Hr. rewrite Hdt2 in Hr.
    destruct (xmax_fin dt2 m) as (dt & Hdt & G1 & G2 & G3). rewrite Hdt in Hr. exists dt.
    assert (Hat : at_dtmin (po_state r) = Qle_bool dt2 m) by (rewrite Hr; reflexivity).
    assert (Hres : po_result r = if negb (force_dtmin p) && xlt (QFin dt1) (QFin m)
                                 then dt_min_reached else successful) by (rewrite Hr; reflexivity).
    assert (Ht1 : po_t1 r = QFin ((if keep then t1 else t0) + dt)) by (rewrite Hr; reflexivity).
    assert (Hf01 : at_dtmin s && xeq (QFin f) (QFin 1) = true -> at_dtmin s = true /\ f == 1).
    { intros H. apply andb_prop in H. destruct H as [Ha Hx]. split; [exact Ha|].
      unfold xeq in Hx. cbn in Hx. apply andb_prop in Hx. destruct Hx as [Hx1 Hx2].
      apply qle_spec in Hx1. apply qle_spec in Hx2. lra. }
    split; [exact Hf1|]. split; [exact Hf2|]. split; [exact Hd1|]. split; [exact Hd2|].
    split.
    { unfold dt2 in *. destruct (at_dtmin s && xeq (QFin f) (QFin 1)) eqn:Hb.
      - right. exists m. split; [reflexivity|]. split; [destruct G3; assumption|]. right. apply Hf01. reflexivity.
      - destruct G3 as [-> | ->]; [left; reflexivity|]. right. exists m. split; [reflexivity|]. split; [reflexivity|].
        left. exact G1. }
    split; [intros m' Hm'; injection Hm' as <-; exact G2|]. split; [exact Ht1|].
    split.
    { intros m' Hm' Hat'. injection Hm' as <-. rewrite Hat in Hat'. apply qle_false in Hat'.
      unfold dt2 in *. destruct (at_dtmin s && xeq (QFin f) (QFin 1)); [exfalso; lra|].
      destruct G3 as [-> | ->]; [split; [exact Hat'|reflexivity]|exfalso; lra]. }
    split.
    { intros m' Hm' Hfd. injection Hm' as <-. rewrite Hres, Hfd. cbn.
      destruct (Qle_bool m dt1) eqn:E1; cbn.
      - apply qle_spec in E1. split; [discriminate|intros; exfalso; lra].
      - apply qle_false in E1. split; [intros; exact E1|reflexivity]. }
    split; [|exact Hst]. rewrite Hres. destruct (negb _ && _); auto.
  - exists dt1. cbv zeta in Hr.
    split; [exact Hf1|]. split; [exact Hf2|]. split; [exact Hd1|]. split; [exact Hd2|].
    split; [left; reflexivity|]. split; [intros; discriminate|].
    split; [rewrite Hr; reflexivity|]. split; [intros; discriminate|]. split; [intros; discriminate|].
    split; [rewrite Hr; left; reflexivity|exact Hst].
Qed.

Lemma pf_C22_step_size_change_partial (p : pid_controller) (t0 t1 : Q) (y0 y1 err : tree) (s : pid_state) :
  pid_ok p -> pid_state_ok s -> t0 < t1 -> scaled_error p y0 y1 err <> QNaN ->
  dtmin p = None -> dtmax p = None ->
  let r := pid_adapt p (QFin t0) (QFin t1) y0 y1 err s in
  pid_state_ok (po_state r) /\
  exists dt, po_t0 r = QFin (if po_keep r then t1 else t0) /\
    po_t1 r = QFin ((if po_keep r then t1 else t0) + dt) /\ 0 < dt /\
    (po_keep r = true -> t1 - t0 <= dt /\ dt <= factormax p * (t1 - t0)) /\
    (po_keep r = false -> factormin p * (t1 - t0) <= dt /\ dt <= safety p * (t1 - t0)).
Proof.
  intros Hp Hs Ht He Hm HM r.
  destruct (pid_adapt_spec p t0 t1 y0 y1 err s Hp Hs ltac:(lra) He)
    as (H0 & f & dt1 & dt & F1 & F2 & D1 & _ & D3 & _ & T1 & _ & _ & _ & St).
  fold r in H0, F1, F2, T1, St. split; [exact St|]. exists dt. split; [exact H0|]. split; [exact T1|].
  destruct D1 as [D1|(M & HM' & _)]; [|congruence].
  destruct D3 as [->|(m & Hm' & _)]; [|congruence].
  pose proof (ok_factormin p Hp). pose proof (ok_factormax p Hp).
  destruct (po_keep r).
  - split; [nra|]. split; [intros _; split; nra|discriminate].
  - split; [nra|]. split; [discriminate|intros _; split; nra].
Qed.

Lemma pf_C22_dtmin_dtmax_partial (p : pid_controller) (t0 t1 : Q) (y0 y1 err : tree) (s : pid_state) :
  pid_ok p -> pid_state_ok s -> t0 < t1 -> scaled_error p y0 y1 err <> QNaN ->
  let r := pid_adapt p (QFin t0) (QFin t1) y0 y1 err s in
  pid_state_ok (po_state r) /\
  exists dt, po_t0 r = QFin (if po_keep r then t1 else t0) /\
    po_t1 r = QFin ((if po_keep r then t1 else t0) + dt) /\ 0 < dt /\
    (forall m, dtmin p = Some m -> m <= dt) /\
    (forall M, dtmax p = Some M -> dt <= M) /\
    (dt <= (if po_keep r then factormax p else safety p) * (t1 - t0) \/ dtmin p = Some dt) /\
    ((if po_keep r then 1 else factormin p) * (t1 - t0) <= dt \/ (exists M, dtmax p = Some M /\ M <= dt) \/
     (at_dtmin s = true /\ dtmin p = Some dt)).
Proof.
  intros Hp Hs Ht He r.
  destruct (pid_adapt_spec p t0 t1 y0 y1 err s Hp Hs ltac:(lra) He)
    as (H0 & f & dt1 & dt & F1 & F2 & D1 & D2 & D3 & D4 & T1 & _ & _ & _ & St).
  fold r in H0, F1, F2, T1, St. split; [exact St|]. exists dt. split; [exact H0|]. split; [exact T1|].
  pose proof (ok_factormin p Hp). pose proof (ok_factormax p Hp).
  assert (Hf0 : 0 < f) by (destruct (po_keep r); lra).
  assert (Hpos1 : 0 < dt1).
  { destruct D1 as [D1|(M & HM & -> & _)]; [nra|]. apply (ok_dtmax p Hp). exact HM. }
  assert (Hub : dt1 <= (if po_keep r then factormax p else safety p) * (t1 - t0)).
  { destruct D1 as [D1|(M & HM & -> & Hle)]; destruct (po_keep r); nra. }
  split.
  { destruct D3 as [->|(m & Hm & -> & _)]; [exact Hpos1|]. apply (ok_dtmin p Hp). exact Hm. }
  split; [exact D4|]. split.
  { intros M HM. destruct D3 as [->|(m & Hm & -> & _)]; [apply D2; exact HM|].
    apply (ok_min_max p Hp); assumption. }
  split.
  { destruct D3 as [->|(m & Hm & -> & _)]; [left; exact Hub|right; exact Hm]. }
  destruct D3 as [->|(m & Hm & -> & Hle)].
  - destruct D1 as [D1|(M & HM & -> & Hle)]; [|right; left; exists M; split; [exact HM|apply Qle_refl]].
    left. destruct (po_keep r); nra.
  - destruct Hle as [Hle|[Ha _]]; [|auto].
    destruct D1 as [D1|(M & HM & -> & HleM)].
    + left. destruct (po_keep r); nra.
    + right. left. exists M. split; [exact HM|]. exact Hle.
Qed.

Lemma pf_C22_initial (p : pid_controller) (t0 dt0 : Q) :
  pid_ok p -> 0 < dt0 ->
  pid_state_ok (snd (pid_init p (QFin t0) (QFin dt0))) /\
  exists dt, fst (pid_init p (QFin t0) (QFin dt0)) = QFin (t0 + dt) /\ 0 < dt /\
    (forall m, dtmin p = Some m -> m <= dt) /\ (forall M, dtmax p = Some M -> dt <= M).
Proof.
  intros Hp Hd. split.
  { split; exists 1; (split; [reflexivity|lra]). }
  unfold pid_init. cbv zeta.
  assert (H1 : exists dt1, (match dtmax p with Some m => xmin (QFin dt0) (QFin m) | None => QFin dt0 end) = QFin dt1
            /\ 0 < dt1 /\ forall M, dtmax p = Some M -> dt1 <= M).
  { destruct (dtmax p) as [M|] eqn:HM.
    - destruct (xmin_fin dt0 M) as (q & -> & H1 & H2 & H3). exists q. split; [reflexivity|]. split.
      + destruct H3 as [-> | ->]; [exact Hd|]. apply (ok_dtmax p Hp). exact HM.
      + intros M' HM'. injection HM' as <-. exact H2.
    - exists dt0. split; [reflexivity|]. split; [exact Hd|]. intros; discriminate. }
  destruct H1 as (dt1 & -> & P1 & B1).
  destruct (dtmin p) as [m|] eqn:Hm.
  - destruct (xmax_fin dt1 m) as (q & -> & H1 & H2 & H3). exists q. split; [reflexivity|].
    split; [lra|]. split; [intros m' Hm'; injection Hm' as <-; exact H2|].
    intros M HM. destruct H3 as [-> | ->]; [auto|]. apply (ok_min_max p Hp); assumption.
  - exists dt1. split; [reflexivity|]. split; [exact P1|]. split; [intros; discriminate|exact B1].
Qed.

Lemma keep_eq p t0 t1 y0 y1 err s :
  po_keep (pid_adapt p t0 t1 y0 y1 err s) =
  match dtmin p with Some _ => xlt (scaled_error p y0 y1 err) (QFin 1) || at_dtmin s
                   | None => xlt (scaled_error p y0 y1 err) (QFin 1) end.
Proof. unfold pid_adapt. destruct (dtmin p); reflexivity. Qed.

Lemma scaled_nonneg p y0 y1 err : pid_ok p ->
  scaled_error p y0 y1 err = QNaN \/ nonneg (scaled_error p y0 y1 err).
Proof. intros Hp. apply (ok_norm p Hp). Qed.

Lemma xlt_one x : x = QNaN \/ nonneg x -> (xlt x (QFin 1) = true <-> exists q, x = QFin q /\ q < 1).
Proof.
  intros [->|[->|(q & -> & Hq)]]; cbn.
  - split; [discriminate|intros (q & H & _); discriminate].
  - split; [discriminate|intros (q & H & _); discriminate].
  - rewrite negb_true_iff, qle_false. split.
    + intros H. exists q. auto.
    + intros (q' & H & Hlt). injection H as ->. exact Hlt.
Qed.

Lemma pf_C23_accept_iff (p : pid_controller) (t0 t1 : xq) (y0 y1 err : tree) (s : pid_state) :
  pid_ok p ->
  let r := pid_adapt p t0 t1 y0 y1 err s in
  (po_keep r = true <->
   (exists q, scaled_error p y0 y1 err = QFin q /\ q < 1) \/ (dtmin p <> None /\ at_dtmin s = true)) /\
  (po_keep r = false ->
   po_t0 r = t0 /\ prev_inv_scaled_error (po_state r) = prev_inv_scaled_error s /\
   prev_prev_inv_scaled_error (po_state r) = prev_prev_inv_scaled_error s) /\
  (po_keep r = true -> po_t0 r = t1).
Proof.
  intros Hp r. split; [|split].
  - unfold r. rewrite keep_eq.
    pose proof (xlt_one _ (scaled_nonneg p y0 y1 err Hp)) as Hx.
    destruct (dtmin p).
    + rewrite orb_true_iff, Hx. split; (intros [H|H]; [left; exact H|right]).
      * split; [discriminate|exact H].
      * apply H.
    + rewrite Hx. split; [auto|]. intros [H|[H _]]; [exact H|congruence].
  - unfold r. rewrite keep_eq. intros Hk. unfold pid_adapt.
    destruct (dtmin p); rewrite Hk; cbn; auto.
  - unfold r. rewrite keep_eq. intros Hk. unfold pid_adapt.
    destruct (dtmin p); rewrite Hk; cbn; auto.
Qed.

Lemma map2_In {A B C} (f : A -> B -> C) l1 l2 x y i :
  nth_error l1 i = Some x -> nth_error l2 i = Some y -> In (f x y) (map2 f l1 l2).
Proof.
  revert l2 i. induction l1 as [|a l1 IH]; intros [|b l2] [|i] H1 H2; try discriminate; cbn in *.
  - injection H1 as ->. injection H2 as ->. left. reflexivity.
  - right. eapply IH; eauto.
Qed.

Lemma xdiv_special e d : is_nan e || is_inf e = true -> is_nan (xdiv e d) || is_inf (xdiv e d) = true.
Proof.
  destruct e as [| | |q]; try discriminate; destruct d as [| | |d]; cbn; auto;
    destruct (Qle_bool 0 d); auto.
Qed.

Lemma pf_C23_bad_error_rejected (p : pid_controller) (t0 t1 : xq) (y0 y1 err : tree) (s : pid_state)
      (leaf0 leaf1 leaf : list xq) (i j : nat) (x a b : xq) :
  norm_detects p -> (dtmin p = None \/ at_dtmin s = false) ->
  nth_error y0 i = Some leaf0 -> nth_error y1 i = Some leaf1 -> nth_error err i = Some leaf ->
  nth_error leaf0 j = Some a -> nth_error leaf1 j = Some b -> nth_error leaf j = Some x ->
  length leaf1 = length leaf0 ->
  is_nan x || is_inf x = true ->
  po_keep (pid_adapt p t0 t1 y0 y1 (map (map nan_inf) err) s) = false.
Proof.
  intros Hn Hd H0 H1 He Ha Hb Hx Hlen Hbad.
  assert (Hs : scaled_error p y0 y1 (map (map nan_inf) err) = QPInf \/
               scaled_error p y0 y1 (map (map nan_inf) err) = QNaN).
  { unfold scaled_error.
    assert (Hc : nth_error (combine y0 y1) i = Some (leaf0, leaf1)).
    { clear - H0 H1. revert y1 i H0 H1. induction y0 as [|u y0 IH]; intros [|w y1] [|i]; cbn; try discriminate.
      - intros H1 H2. injection H1 as ->. injection H2 as ->. reflexivity.
      - apply IH. }
    assert (He' : nth_error (map (map nan_inf) err) i = Some (map nan_inf leaf))
      by (apply map_nth_error; exact He).
    assert (Hx' : nth_error (map nan_inf leaf) j = Some (nan_inf x)) by (apply map_nth_error; exact Hx).
    set (ys := map2 (fun a b => xmax (xabs a) (xabs b)) leaf0 (if existsb is_nan leaf1 then leaf0 else leaf1)).
    assert (exists y, nth_error ys j = Some y) as [y Hy].
    { destruct (nth_error ys j) as [y|] eqn:Hy; [eauto|]. exfalso. apply nth_error_None in Hy.
      assert (Hl : length ys = length leaf0).
      { unfold ys. assert (G : forall (l1 l2 : list xq), length l2 = length l1 ->
          length (map2 (fun a b => xmax (xabs a) (xabs b)) l1 l2) = length l1).
        { clear. induction l1 as [|? l1 IH]; intros [|? l2]; cbn; try discriminate; auto. }
        apply G. destruct (existsb is_nan leaf1); auto. }
      rewrite Hl in Hy. apply nth_error_None in Hy. congruence. }
    eapply Hn.
    - apply (map2_In _ _ _ _ _ _ Hc He').
    - cbn [fst snd]. unfold scale_leaf. fold ys.
      apply (map2_In (fun e a => xdiv e (xadd (QFin (atol p)) (xmul a (QFin (rtol p))))) _ _ _ _ _ Hx' Hy).
    - apply xdiv_special. destruct x; cbn in *; auto; discriminate. }
  rewrite keep_eq.
  assert (Hlt : xlt (scaled_error p y0 y1 (map (map nan_inf) err)) (QFin 1) = false)
    by (destruct Hs as [-> | ->]; reflexivity).
  rewrite Hlt. destruct (dtmin p); [|reflexivity]. destruct Hd as [Hd|Hd]; [discriminate|].
  rewrite Hd. reflexivity.
Qed.

Lemma pf_C24_rejections_bounded_partial (p : pid_controller) (m t0 t1 : Q) (s : pid_state) (n k : nat) :
  pid_ok p -> pid_state_ok s -> dtmin p = Some m -> t0 < t1 ->
  safety p ^ Z.of_nat k * (t1 - t0) <= m ->
  rejections p t0 t1 s n -> (n <= k + 1)%nat.
Proof.
  intros Hp Hs Hm Ht Hk Hr. revert k Hs Ht Hk.
  induction Hr as [|t1 s y0 y1 err n t1' q He r Hkeep Hres Hq Ht1' Hle Hr IH]; intros k Hs Ht Hk; [lia|].
  destruct (pid_adapt_spec p t0 t1 y0 y1 err s Hp Hs ltac:(lra) He)
    as (H0 & f & dt1 & dt & F1 & F2 & D1 & D2 & D3 & D4 & T1 & A1 & _ & _ & St).
  fold r in H0, F1, F2, T1, A1, St. rewrite Hkeep in *.
  destruct (at_dtmin (po_state r)) eqn:Hat.
  - assert (n = 0%nat); [|lia]. destruct Hr as [|t1' s' y0' y1' err' n t1'' q' He' r' Hkeep' _ _ _ _ _]; [reflexivity|].
    exfalso. unfold r' in Hkeep'. rewrite keep_eq, Hm, Hat, orb_true_r in Hkeep'. discriminate.
  - destruct (A1 m Hm eq_refl) as [Hlt Hdt].
    assert (Hub : dt1 <= safety p * (t1 - t0)).
    { destruct D1 as [D1|(M & HM & -> & HleM)]; nra. }
    assert (Hq' : t1' - t0 <= dt).
    { rewrite T1 in Hq. injection Hq as Hq. rewrite <- Hq in Hle. lra. }
    pose proof (ok_safety1 p Hp). pose proof (ok_factormin p Hp). pose proof (ok_safety p Hp).
    destruct k as [|k].
    + exfalso. cbn in Hk. rewrite Hdt in Hlt. nra.
    + assert (n <= k + 1)%nat; [|lia]. apply (IH k St Ht1').
      rewrite Nat2Z.inj_succ in Hk. unfold Z.succ in Hk.
      rewrite Qpower_plus in Hk by lra. cbn in Hk.
      assert (0 < safety p ^ Z.of_nat k) by (apply Qpower_0_lt; lra).
      rewrite Hdt in *. nra.
Qed.

Section PidLoop.
  Context {SS DI V MS : Type}.
  Notation config := (config tree SS pid_state DI tree V MS).
  Notation initial := (initial tree SS pid_state MS).
  Notation state := (state tree SS pid_state DI V MS).
  Notation attempt := (attempt tree).
  Notation outcome := (outcome tree SS pid_state DI V MS).

  (** One step of the controller in ordinals. *)
  Lemma pid_loop_spec val rnd p a b y0 y1 err s :
    rounding val rnd -> pid_ok p -> (forall l, norm p l <> QNaN) -> pid_state_ok s -> (a <= b)%Z ->
    let ao := pid_loop_adapt val rnd p a b y0 y1 err s in
    ao_tprev ao = (if ao_keep ao then b else a) /\ (ao_tprev ao <= ao_tnext ao)%Z /\
    ao_jump ao = false /\
    pid_state_ok (ao_state ao) /\ (ao_result ao = successful \/ ao_result ao = dt_min_reached) /\
    (forall m, dtmin p = Some m ->
       (at_dtmin s = true -> ao_keep ao = true) /\
       (rnd (val (ao_tprev ao) + m)%Q <= ao_tnext ao)%Z /\
       (a = b -> at_dtmin (ao_state ao) = true) /\
       (ao_keep ao = false -> at_dtmin (ao_state ao) = false ->
        m < val b - val a /\ (ao_tnext ao <= rnd (val a + safety p * (val b - val a))%Q)%Z)).
  Proof.
    intros Hr Hp Hn Hs Hab ao.
    pose proof (rd_val _ _ Hr _ _ Hab) as Hv.
    destruct (pid_adapt_spec p (val a) (val b) y0 y1 err s Hp Hs Hv (Hn _))
      as (H0 & f & dt1 & dt & F1 & F2 & D1 & D2 & D3 & D4 & T1 & A1 & _ & R1 & St).
    set (r := pid_adapt p (QFin (val a)) (QFin (val b)) y0 y1 err s) in *.
    assert (Hk : ao_keep ao = po_keep r) by reflexivity.
    assert (Htp : ao_tprev ao = if po_keep r then b else a).
    { unfold ao, pid_loop_adapt. fold r. cbn [ao_tprev]. rewrite H0. destruct (po_keep r); apply (rd_id _ _ Hr). }
    assert (Hvp : (if po_keep r then val b else val a) = val (ao_tprev ao))
      by (rewrite Htp; destruct (po_keep r); reflexivity).
    assert (Htn : ao_tnext ao = rnd (val (ao_tprev ao) + dt)).
    { unfold ao at 1, pid_loop_adapt. fold r. cbn [ao_tnext]. rewrite T1, Hvp. reflexivity. }
    pose proof (ok_factormin p Hp). pose proof (ok_safety p Hp). pose proof (ok_safety1 p Hp).
    assert (Hf : 0 < f) by (destruct (po_keep r); lra).
    assert (Hd1 : 0 <= dt1).
    { destruct D1 as [D1|(M & HM & -> & _)]; [nra|]. apply Qlt_le_weak, (ok_dtmax p Hp), HM. }
    assert (Hd : 0 <= dt).
    { destruct D3 as [->|(m & Hm & -> & _)]; [exact Hd1|]. apply Qlt_le_weak, (ok_dtmin p Hp), Hm. }
    split; [rewrite Hk; exact Htp|]. split.
    { rewrite Htn. rewrite <- (rd_id _ _ Hr (ao_tprev ao)) at 1. apply (rd_mono _ _ Hr). lra. }
    split; [reflexivity|]. split; [exact St|]. split; [exact R1|].
    intros m Hm. split; [|split; [|split]].
    - intros Hat. rewrite Hk. unfold r. rewrite keep_eq, Hm, Hat, orb_true_r. reflexivity.
    - rewrite Htn. apply (rd_mono _ _ Hr). specialize (D4 m Hm). lra.
    - intros Heq. change (at_dtmin (po_state r) = true).
      destruct (at_dtmin (po_state r)) eqn:Hat; [reflexivity|]. exfalso.
      destruct (A1 m Hm eq_refl) as [Hlt Hdt]. pose proof (ok_dtmin p Hp m Hm).
      subst b. assert (Hz : (val a - val a) * f == 0) by ring.
      rewrite Hdt in Hlt. destruct D1 as [D1|(M & HM & -> & HleM)]; lra.
    - intros Hkf Hat. rewrite Hk in Hkf. change (at_dtmin (po_state r) = false) in Hat.
      destruct (A1 m Hm Hat) as [Hlt Hdt]. rewrite Hkf in *. rewrite Htp in *.
      assert (Hub : dt1 <= safety p * (val b - val a)).
      { destruct D1 as [D1|(M & HM & -> & HleM)]; nra. }
      split; [rewrite Hdt in Hlt; nra|]. rewrite Htn. apply (rd_mono _ _ Hr). rewrite Hdt. lra.
  Qed.

  Lemma pid_contract val rnd p (c : config) :
    rounding val rnd -> pid_ok p -> (forall l, norm p l <> QNaN) ->
    (forall a b y0 y1 err s, adapt c a b y0 y1 err s = pid_loop_adapt val rnd p a b y0 y1 err s) ->
    controller_contract c (fun _ _ s => pid_state_ok s).
  Proof.
    intros Hr Hp Hn Ha tprev tnext y y1 err cs HI Hle Ht1 _. rewrite Ha.
    destruct (pid_loop_spec val rnd p tprev tnext y y1 err cs Hr Hp Hn HI Hle)
      as (T & T' & _ & St & _). cbv zeta. split; [|split].
    - intros Hk. rewrite T, Hk. lia.
    - intros Hk. rewrite T, Hk. reflexivity.
    - intros _. split; assumption.
  Qed.

  Lemma pf_C02_pid_times (val : Z -> Q) (rnd : Q -> Z) (p : pid_controller) (c : config) (i : initial)
        (h : list attempt) (o : outcome) :
    rounding val rnd -> pid_ok p -> pid_solve val rnd p c i -> midpoint_ok c -> solve_run c i h o ->
    (forall a, In a h -> (cfg_t0 c <= at_from a /\ at_from a <= at_to a /\ at_to a <= cfg_t1 c)%Z) /\
    (forall h1 a b h2, h = h1 ++ a :: b :: h2 ->
       at_from b = if at_keep a then at_to a else at_from a).
  Proof.
    intros Hr Hp (Ha & Hst & Hs & Ht & Ht01 & Hn) Hm Hrun.
    assert (Hcc := pid_contract val rnd p c Hr Hp Hn Ha).
    destruct (pf_C02_times_in_interval c i h o _ Hrun Hcc Hm ltac:(lia) ltac:(lia) Hs) as (A & B & _).
    split; [exact A|]. intros h1 a b h2 Hh.
    destruct Hrun as (s0 & n & Hi & _ & -> & _).
    destruct (B h1 a b h2 Hh) as (_ & _ & Br).
    destruct (at_keep a) eqn:Hk; [|auto].
    destruct (history_linked _ _ _ _ _ _ _ Hh) as [L _]. rewrite L.
    assert (Ha' : In a (history c n s0)) by (rewrite Hh; apply in_or_app; right; left; reflexivity).
    pose proof (A a Ha') as (_ & _ & Hto).
    (* the attempt comes from a state with sane controller state *)
    pose proof (run_time_inv c i s0 (fun _ _ s => pid_state_ok s) ltac:(lia) ltac:(lia) Hs Hi) as Hti.
    assert (G : forall n s, time_inv c (fun _ _ s => pid_state_ok s) s -> In a (history c n s) ->
                at_end a = at_to a).
    { clear - Hk Hto Hr Hp Hn Ha Hcc Hm. intros n. induction n as [|n IH]; intros s HI Hin; [destruct Hin|].
      cbn [history] in Hin. destruct (cond_fun c s) eqn:Hc; [|destruct Hin]. destruct Hin as [Heq|Hin].
      - destruct HI as (_ & _ & HI). destruct (HI (cond_successful _ _ Hc)) as (H1 & H2 & H3).
        subst a. unfold attempt_of in Hk, Hto |- *. cbn [at_keep at_to at_end] in Hk, Hto |- *.
        revert Hk. rewrite Ha. intros Hk.
        destruct (pid_loop_spec val rnd p (st_tprev s) (st_tnext s) (st_y s)
                    (so_y (solver_step c (st_tprev s) (st_tnext s) (st_y s) (st_solver_state s) (st_made_jump s)))
                    (nan_to_inf c (so_error (solver_step c (st_tprev s) (st_tnext s) (st_y s) (st_solver_state s) (st_made_jump s))))
                    (st_controller_state s) Hr Hp Hn H3 H1) as (T & _).
        cbv zeta in T. rewrite Hk in T. rewrite T. lia.
      - apply (IH (body_fun c s)); [|exact Hin]. apply time_inv_body; assumption. }
    apply (G n s0 Hti Ha').
  Qed.

  (** Termination with [dtmin].  A measure that decreases with every step. *)
  Definition short (val : Z -> Q) (m : Q) (a b : Z) : bool := Qle_bool (val b - val a) m.
  Definition sub_measure (val : Z -> Q) (m : Q) (a b : Z) (at_min : bool) : Z :=
    if at_min then (if a <? b then 1 else 2)%Z
    else if short val m a b then 3 else (4 + (b - a))%Z.
  Definition pid_inv (val : Z -> Q) (m : Q) (c : config) (s : state) : Prop :=
    (cfg_t0 c <= st_tprev s <= cfg_t1 c)%Z /\
    (cond_fun c s = true ->
     pid_state_ok (st_controller_state s) /\
     (st_tprev s <= st_tnext s <= cfg_t1 c)%Z /\
     (at_dtmin (st_controller_state s) = false -> (st_tprev s < st_tnext s)%Z)).
  Definition measure (val : Z -> Q) (m : Q) (c : config) (s : state) : Z :=
    ((cfg_t1 c - st_tprev s) * (cfg_t1 c - cfg_t0 c + 5)
     + sub_measure val m (st_tprev s) (st_tnext s) (at_dtmin (st_controller_state s)))%Z.

  Lemma pid_step val rnd p (c : config) m s :
    rounding val rnd -> pid_ok p -> dtmin p = Some m -> (forall l, norm p l <> QNaN) ->
    (forall a b y0 y1 err s, adapt c a b y0 y1 err s = pid_loop_adapt val rnd p a b y0 y1 err s) ->
    stepto_len c = None -> midpoint_ok c -> dtmin_resolved val rnd p c m ->
    pid_inv val m c s -> cond_fun c s = true ->
    pid_inv val m c (body_fun c s) /\
    (cond_fun c (body_fun c s) = true -> (measure val m c (body_fun c s) < measure val m c s)%Z).
  Proof.
    intros Hr Hp Hm Hn Ha Hst Hmid Hres (Ht & HI) Hc.
    destruct (HI Hc) as (Hs & Hb & Hlt). clear HI.
    pose proof (cond_lt_t1 _ _ Hc Hst) as Hat1.
    unfold pid_inv, measure.
    rewrite body_tprev, body_tnext, body_controller_state, attempt_of_eq, floor_lt.
    cbn [at_end at_keep].
    assert (Hao : do_adapt c s = pid_loop_adapt val rnd p (st_tprev s) (st_tnext s) (st_y s)
              (so_y (do_step c s)) (nan_to_inf c (so_error (do_step c s))) (st_controller_state s)).
    { unfold do_adapt. apply Ha. }
    destruct (pid_loop_spec val rnd p (st_tprev s) (st_tnext s) (st_y s)
              (so_y (do_step c s)) (nan_to_inf c (so_error (do_step c s))) (st_controller_state s)
              Hr Hp Hn Hs ltac:(lia)) as (T1 & T2 & _ & S1 & _ & Hd).
    rewrite <- Hao in T1, T2, S1, Hd. destruct (Hd m Hm) as (D1 & D2 & D3 & D4). clear Hd Hao.
    assert (Hlt1 : cond_fun c (body_fun c s) = true -> (at_end (attempt_of c s) < cfg_t1 c)%Z).
    { intros Hc'. rewrite <- body_tprev. apply (cond_lt_t1 _ _ Hc' Hst). }
    rewrite attempt_of_eq in Hlt1. cbn [at_end] in Hlt1.
    set (ao := do_adapt c s) in *. clearbody ao.
    set (a := st_tprev s) in *. set (b := st_tnext s) in *. set (t1 := cfg_t1 c) in *.
    set (cs := st_controller_state s) in *.
    destruct (ao_keep ao) eqn:Hk.
    - rewrite T1. rewrite (Z.min_l b t1) in * by lia.
      unfold clip_to_end.
      assert (Hnext : cond_fun c (body_fun c s) = true ->
                (b < (if (t1 - 100 <? ao_tnext ao)%Z then t1 else ao_tnext ao) <= t1)%Z).
      { intros Hc'. specialize (Hlt1 Hc').
        destruct (Hres b ltac:(fold t1; lia)) as (R1 & _). rewrite T1 in D2.
        destruct (Z.ltb_spec (t1 - 100) (ao_tnext ao)); lia. }
      split; [split; [lia|intros Hc'; specialize (Hnext Hc'); split; [exact S1|lia]]|].
      intros Hc'. specialize (Hnext Hc'). specialize (Hlt1 Hc').
      set (b' := if (t1 - 100 <? ao_tnext ao)%Z then t1 else ao_tnext ao) in *. clearbody b'.
      destruct (Z.eq_dec a b) as [Heq|Hne].
      + specialize (D3 Heq). rewrite D3. rewrite <- Heq in *.
        assert (Hats : at_dtmin cs = true).
        { destruct (at_dtmin cs) eqn:Hx; [reflexivity|]. specialize (Hlt eq_refl). lia. }
        rewrite Hats. unfold sub_measure.
        destruct (Z.ltb_spec a b'); destruct (Z.ltb_spec a a); lia.
      + assert (Hsub : (0 <= sub_measure val m a b (at_dtmin cs))%Z).
        { unfold sub_measure. destruct (at_dtmin cs); [destruct (Z.ltb_spec a b); lia|].
          destruct (short val m a b); lia. }
        assert (Hsub' : (sub_measure val m b b' (at_dtmin (ao_state ao)) < t1 - cfg_t0 c + 5)%Z).
        { unfold sub_measure. destruct (at_dtmin (ao_state ao)); [destruct (Z.ltb_spec b b'); lia|].
          destruct (short val m b b'); lia. }
        assert (Hm1 : ((t1 - b) * (t1 - cfg_t0 c + 5) + (t1 - cfg_t0 c + 5) <= (t1 - a) * (t1 - cfg_t0 c + 5))%Z) by nia.
        lia.
    - rewrite T1. rewrite (Z.min_l a t1) in * by lia.
      assert (Hats : at_dtmin cs = false).
      { destruct (at_dtmin cs) eqn:Hx; [|reflexivity]. specialize (D1 eq_refl). discriminate. }
      specialize (Hlt Hats). rewrite Hats.
      destruct (Hres a ltac:(fold t1; lia)) as (R1 & R2 & R3 & R4). fold t1 in R2, R3, R4.
      unfold clip_to_end.
      set (b' := if (t1 - 100 <? ao_tnext ao)%Z then midpoint c a t1 else ao_tnext ao).
      pose proof (Hmid a t1 ltac:(lia)) as Hmm.
      assert (Hb' : (a <= b' <= t1)%Z).
      { unfold b'. destruct (Z.ltb_spec (t1 - 100) (ao_tnext ao)); lia. }
      destruct (at_dtmin (ao_state ao)) eqn:Hat'.
      + split; [split; [lia|intros _; split; [exact S1|split; [lia|discriminate]]]|].
        intros _. unfold sub_measure.
        assert (Hx : ((if (a <? b')%Z then 1 else 2) < (if short val m a b then 3 else 4 + (b - a)))%Z).
        { destruct (Z.ltb_spec a b'); destruct (short val m a b); lia. }
        lia.
      + destruct (D4 eq_refl eq_refl) as [Hlong Hle].
        specialize (R2 b ltac:(lia) Hlong).
        assert (Hv1 : m < val t1 - val a).
        { pose proof (rd_val _ _ Hr b t1 ltac:(lia)). lra. }
        specialize (R3 Hv1). rewrite T1 in D2.
        assert (Hab' : (a < b')%Z).
        { unfold b'. destruct (Z.ltb_spec (t1 - 100) (ao_tnext ao)); lia. }
        split; [split; [lia|intros _; split; [exact S1|split; [lia|intros _; exact Hab']]]|].
        intros _. unfold sub_measure.
        assert (Hsh : short val m a b = false) by (apply qle_false; exact Hlong).
        rewrite Hsh.
        destruct (short val m a b') eqn:Hsh'; [lia|].
        apply qle_false in Hsh'.
        assert (Hbb : (b' < b)%Z); [|lia].
        unfold b' in *. destruct (Z.ltb_spec (t1 - 100) (ao_tnext ao)); [|lia].
        specialize (R4 Hsh'). lia.
  Qed.

  Lemma pf_C24_solve_terminates_partial (val : Z -> Q) (rnd : Q -> Z) (p : pid_controller) (m : Q) (c : config)
        (i : initial) (s0 : state) :
    rounding val rnd -> pid_ok p -> pid_solve val rnd p c i -> dtmin p = Some m -> midpoint_ok c ->
    dtmin_resolved val rnd p c m -> init_state c i = Some s0 ->
    exists n, cond_fun c (while_loop c n s0) = false.
  Proof.
    intros Hr Hp (Ha & Hst & Hs & Ht & Ht01 & Hn) Hm Hmid Hres Hi.
    assert (Hinv : pid_inv val m c s0).
    { destruct (init_time _ _ _ Hi) as (I1 & _ & I3 & _ & _ & _ & _ & _ & I4 & _).
      unfold pid_inv. rewrite I1, I3, I4. split; [lia|]. intros _. split; [exact Hs|]. lia. }
    assert (G : forall k s, pid_inv val m c s -> (measure val m c s <= Z.of_nat k)%Z ->
                exists n, cond_fun c (while_loop c n s) = false).
    { clear s0 Hi Hinv. induction k as [|k IH]; intros s HI Hk;
        (destruct (cond_fun c s) eqn:Hc; [|exists 0%nat; exact Hc]);
        destruct (pid_step val rnd p c m s Hr Hp Hm Hn Ha Hst Hmid Hres HI Hc) as [HI' Hdec];
        (destruct (cond_fun c (body_fun c s)) eqn:Hc';
          [specialize (Hdec eq_refl)|exists 1%nat; cbn [while_loop]; rewrite Hc; exact Hc']).
      - exfalso. destruct HI' as [Ht' HI']. destruct (HI' Hc') as (_ & Hb & Hlt).
        assert (0 <= measure val m c (body_fun c s))%Z; [|lia].
        unfold measure, sub_measure.
        assert (0 <= (cfg_t1 c - st_tprev (body_fun c s)) * (cfg_t1 c - cfg_t0 c + 5))%Z by nia.
        destruct (at_dtmin _); [destruct (_ <? _)%Z; lia|]. destruct (short _ _ _ _); lia.
      - destruct (IH (body_fun c s) HI' ltac:(lia)) as [n Hn']. exists (S n).
        cbn [while_loop]. rewrite Hc. exact Hn'. }
    apply (G (Z.to_nat (Z.max 0 (measure val m c s0))) s0 Hinv). lia.
  Qed.
End PidLoop.

(** Reporting that [dtmin] was reached. *)
Lemma pf_C24_dtmin_reported (p : pid_controller) (t0 t1 : Q) (y0 y1 err : tree) (s : pid_state) :
  pid_ok p -> pid_state_ok s -> t0 < t1 -> scaled_error p y0 y1 err <> QNaN ->
  let r := pid_adapt p (QFin t0) (QFin t1) y0 y1 err s in
  (po_result r = successful \/ po_result r = dt_min_reached) /\
  (po_result r = dt_min_reached ->
     force_dtmin p = false /\ exists m, dtmin p = Some m /\
     po_t1 r = QFin ((if po_keep r then t1 else t0) + m)) /\
  (po_result r = successful -> force_dtmin p = false \/ dtmin p = None ->
     exists dt, po_t1 r = QFin ((if po_keep r then t1 else t0) + dt) /\
       dt <= (if po_keep r then factormax p else safety p) * (t1 - t0)) /\
  (forall m, force_dtmin p = false -> dtmin p = Some m ->
     (if po_keep r then factormax p else safety p) * (t1 - t0) < m -> po_result r = dt_min_reached).
Proof.
  intros Hp Hs Ht He r.
  assert (Hforce : po_result r = dt_min_reached -> force_dtmin p = false /\ dtmin p <> None).
  { unfold r, pid_adapt. destruct (dtmin p) as [m|]; cbn [po_result]; [|discriminate].
    destruct (force_dtmin p); cbn [negb andb]; [discriminate|]. split; [reflexivity|discriminate]. }
  destruct (pid_adapt_spec p t0 t1 y0 y1 err s Hp Hs ltac:(lra) He)
    as (H0 & f & dt1 & dt & F1 & F2 & D1 & D2 & D3 & D4 & T1 & _ & Rm & Rs & _).
  fold r in H0, F1, F2, T1, Rm, Rs.
  pose proof (ok_factormin p Hp). pose proof (ok_factormax p Hp).
  assert (Hf0 : 0 < f) by (destruct (po_keep r); lra).
  assert (Hub : dt1 <= (if po_keep r then factormax p else safety p) * (t1 - t0)).
  { destruct D1 as [D1|(M & HM & -> & Hle)]; destruct (po_keep r); nra. }
  split; [exact Rs|]. split; [|split].
  - intros Hr. destruct (Hforce Hr) as (Hf & Hm). split; [exact Hf|].
    destruct (dtmin p) as [m|] eqn:Em; [|congruence]. exists m. split; [reflexivity|].
    assert (dt1 < m) by (apply (Rm m eq_refl Hf); exact Hr).
    rewrite T1. destruct D3 as [->|(m' & Hm' & -> & _)]; [|injection Hm' as <-; reflexivity].
    pose proof (D4 m eq_refl). exfalso. lra.
  - intros Hr Hf. exists dt. split; [exact T1|]. destruct D3 as [->|(m' & Hm' & -> & _)]; [exact Hub|].
    destruct Hf as [Hf|Hf]; [|congruence].
    destruct (Qlt_le_dec dt1 m') as [Hlt|Hle]; [|lra].
    pose proof (proj2 (Rm m' Hm' Hf) Hlt). congruence.
  - intros m Hf Hm Hlt. apply (Rm m Hm Hf). lra.
Qed.

(** When the scaled error is not NaN. *)
Lemma map2_In_inv {A B C} (f : A -> B -> C) l1 l2 z :
  In z (map2 f l1 l2) -> exists x y, In x l1 /\ In y l2 /\ z = f x y.
Proof.
  revert l2. induction l1 as [|a l1 IH]; intros [|b l2]; cbn; try tauto.
  intros [<-|H]; [exists a, b; auto|]. destruct (IH _ H) as (x & y & ? & ? & ?). exists x, y. auto.
Qed.
Lemma pf_C23_scaled_error_not_nan (p : pid_controller) (y0 y1 err : tree) :
  0 < atol p -> 0 <= rtol p ->
  (forall l, (forall leaf x, In leaf l -> In x leaf -> x <> QNaN) -> norm p l <> QNaN) ->
  (forall leaf x, In leaf y0 -> In x leaf -> exists q, x = QFin q) ->
  (forall leaf, In leaf y1 -> In QNaN leaf \/ forall x, In x leaf -> exists q, x = QFin q) ->
  scaled_error p y0 y1 (map (map nan_inf) err) <> QNaN.
Proof.
  intros Ha Hr Hn H0 H1. unfold scaled_error. apply Hn. intros leaf x Hleaf Hx.
  apply map2_In_inv in Hleaf. destruct Hleaf as ((l0 & l1) & e & Hc & He & ->). cbn [fst snd] in Hx.
  apply in_combine_l in Hc as Hc0. apply in_combine_r in Hc as Hc1.
  unfold scale_leaf in Hx. apply map2_In_inv in Hx. destruct Hx as (u & a & Hu & Hain & ->).
  assert (Hfin : exists q, a = QFin q /\ 0 <= q).
  { apply map2_In_inv in Hain. destruct Hain as (b & c & Hb & Hcc & ->).
    destruct (H0 _ _ Hc0 Hb) as (qb & ->).
    assert (exists qc, c = QFin qc) as (qc & ->).
    { destruct (existsb is_nan l1) eqn:En; [eapply H0; eauto|].
      destruct (H1 _ Hc1) as [Hnan|Hall]; [|auto].
      assert (existsb is_nan l1 = true) by (apply existsb_exists; exists QNaN; auto). congruence. }
    cbn [xabs]. destruct (xmax_fin (Qabs.Qabs qb) (Qabs.Qabs qc)) as (q & Hq & L1 & _ & _). rewrite Hq. exists q.
    split; [reflexivity|]. pose proof (Qabs.Qabs_nonneg qb). lra. }
  destruct Hfin as (q & -> & Hq). cbn [xmul xadd].
  assert (Hd : Qeq_bool (atol p + q * rtol p) 0 = false).
  { destruct (Qeq_bool (atol p + q * rtol p) 0) eqn:E0; [|reflexivity]. apply Qeq_bool_eq in E0. nra. }
  assert (Hu' : u <> QNaN).
  { apply in_map_iff in He. destruct He as (e' & <- & _). apply in_map_iff in Hu. destruct Hu as (u' & <- & _).
    destruct u'; discriminate. }
  destruct u as [| | |u]; [congruence| | |]; cbn [xdiv].
  - destruct (Qle_bool 0 _); discriminate.
  - destruct (Qle_bool 0 _); discriminate.
  - rewrite Hd. discriminate.
Qed.
