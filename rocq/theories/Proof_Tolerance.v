(** The error of a whole solve: accumulation of local errors, and tolerances. *)
From Coq Require Import QArith Qabs ZArith Reals Qreals List Bool Arith Lia.
From Verif Require Import Model_Result Model_Loop Spec_Loop Proof_LoopBasic Proof_LoopFinish Proof_PropLoop
  Model_Float Model_PID Spec_PID Proof_PID Spec_PidEnd Proof_PidEnd Spec_Tolerance.
From Coq Require Lqa Lra.
Import ListNotations.
Open Scope R_scope.

Section Accumulate.
  Context {Y SS CS DI E V MS W : Type}.
  Notation config := (config Y SS CS DI E V MS).
  Notation initial := (initial Y SS CS MS).
  Notation attempt := (attempt Y).
  Notation outcome := (outcome Y SS CS DI V MS).

  Lemma grown_app (emb : Y -> W) time d flow L t l1 l2 :
    grown_errors emb time d flow L t (l1 ++ l2) = grown_errors emb time d flow L t l1 + grown_errors emb time d flow L t l2.
  Proof. unfold grown_errors. induction l1 as [|a l1 IH]; cbn [app fold_right]; [ring|]. rewrite IH. ring. Qed.
  Lemma grown_shift (emb : Y -> W) time d flow L s t l :
    grown_errors emb time d flow L t l = exp (L * (t - s)) * grown_errors emb time d flow L s l.
  Proof.
    unfold grown_errors. induction l as [|a l IH]; cbn [fold_right]; [ring|]. rewrite IH, Rmult_plus_distr_l, <- Rmult_assoc, <- exp_plus.
    do 3 f_equal. ring.
  Qed.

  Lemma windermere (c : config) (emb : Y -> W) time d flow L z : exact_flow d flow L ->
    forall accs t y ss j pre, solver_run c t y ss j accs -> no_time_jumps accs ->
    (forall a, In a accs -> time (at_from a) <= time (at_to a)) -> z <= time t ->
    forall x0, d (emb y) (flow z (time t) x0) <= grown_errors emb time d flow L (time t) pre ->
    forall l1 a l2, accs = l1 ++ a :: l2 ->
      d (emb (at_y a)) (flow z (time (at_to a)) x0) <=
      grown_errors emb time d flow L (time (at_to a)) (pre ++ l1 ++ [a]).
  Proof.
    intros HF. induction accs as [|a accs IH]; intros t y ss j pre RUN NJ FW Hz x0 H0 l1 a0 l2 Heq.
    { destruct l1; discriminate. }
    inversion RUN as [|t' y' ss' j' a' j'' accs' Ha1 Ha2 Ha3 Ha4 Ha5 Ha6 Ha7]. subst.
    inversion NJ as [|a' accs' NJ1 NJ2]. subst.
    specialize (NJ1 Ha4). pose proof (FW a (or_introl eq_refl)) as Hfw.
    assert (ONE : d (emb (at_y a)) (flow z (time (at_to a)) x0) <= grown_errors emb time d flow L (time (at_to a)) (pre ++ [a])).
    { rewrite grown_app. cbn [grown_errors fold_right].
      rewrite (grown_shift emb time d flow L (time (at_from a)) (time (at_to a)) pre).
      replace (L * (time (at_to a) - time (at_to a))) with 0 by ring. rewrite exp_0.
      pose proof (fl_triangle _ _ _ HF (emb (at_y a)) (flow (time (at_from a)) (time (at_to a)) (emb (at_yprev a)))
                    (flow z (time (at_to a)) x0)) as TR.
      pose proof (fl_compose _ _ _ HF z (time (at_from a)) (time (at_to a)) x0 Hz Hfw) as EC.
      rewrite <- EC in TR |- *.
      pose proof (fl_rate _ _ _ HF (time (at_from a)) (time (at_to a)) (emb (at_yprev a)) (flow z (time (at_from a)) x0) Hfw) as RA.
      unfold local_error at 1.
      assert (G : exp (L * (time (at_to a) - time (at_from a))) * d (emb (at_yprev a)) (flow z (time (at_from a)) x0) <=
                  exp (L * (time (at_to a) - time (at_from a))) * grown_errors emb time d flow L (time (at_from a)) pre).
      { apply Rmult_le_compat_l; [left; apply exp_pos|exact H0]. }
      Lra.lra. }
    destruct l1 as [|b l1]; injection Heq as <- Hl.
    - cbn [app]. exact ONE.
    - subst accs. replace (pre ++ (a :: l1) ++ [a0]) with ((pre ++ [a]) ++ l1 ++ [a0])
        by (rewrite <- app_assoc; reflexivity).
      rewrite NJ1 in Ha7. eapply (IH _ _ _ _ (pre ++ [a]) Ha7 NJ2).
      + intros a' Hin. apply FW. right. exact Hin.
      + Lra.lra.
      + exact ONE.
      + reflexivity.
  Qed.

  Lemma pf_C74_accumulate (c : config) (i : initial) (h : list attempt) (o : outcome)
        (emb : Y -> W) (time : Z -> R) (d : W -> W -> R) (flow : R -> R -> W -> W) (L : R) :
    solve_run c i h o -> exact_flow d flow L -> rejects_in_place h -> no_time_jumps h ->
    (forall a, In a h -> at_keep a = true -> time (at_from a) <= time (at_to a)) ->
    let exact := fun t => flow (time (cfg_t0 c)) t (emb (in_y i)) in
    (forall l1 a l2, accepted h = l1 ++ a :: l2 ->
       d (emb (at_y a)) (exact (time (at_to a))) <= grown_errors emb time d flow L (time (at_to a)) (l1 ++ [a])) /\
    (stepto_len c = None -> (cfg_t0 c <= cfg_t1 c)%Z -> results_ok c -> rf_results_ok c -> out_result o = successful ->
       d (emb (out_yfinal o)) (exact (time (cfg_t1 c))) <= grown_errors emb time d flow L (time (cfg_t1 c)) (accepted h)).
  Proof.
    intros RUN HF RIP NJ FW exact.
    pose proof (pf_C08_accepted_steps_run c i h o RUN RIP) as SR.
    assert (INA : forall a, In a (accepted h) -> In a h /\ at_keep a = true) by (intros a' Ha'; apply filter_In in Ha'; exact Ha').
    assert (NJ' : no_time_jumps (accepted h)).
    { apply List.Forall_forall. intros a Ha. destruct (INA a Ha) as [H1 H2]. intros K.
      unfold no_time_jumps in NJ. rewrite List.Forall_forall in NJ. apply (NJ a H1 K). }
    assert (ALL : forall l1 a l2, accepted h = l1 ++ a :: l2 ->
       d (emb (at_y a)) (exact (time (at_to a))) <= grown_errors emb time d flow L (time (at_to a)) (l1 ++ [a])).
    { intros l1 a l2 Heq. apply (windermere c emb time d flow L (time (cfg_t0 c)) HF (accepted h) _ _ _ _ [] SR NJ'
         (fun a Ha => FW a (proj1 (INA a Ha)) (proj2 (INA a Ha))) (Rle_refl _) (emb (in_y i))) with (l2 := l2); [|exact Heq].
      rewrite (fl_start _ _ _ HF), (fl_self _ _ _ HF). cbn. apply Rle_refl. }
    split; [exact ALL|]. intros ST Ht RO RFO OK.
    destruct (pf_C03_success_reaches_t1 c i h o RUN ST Ht RO RFO OK) as (TF & CUR). specialize (CUR RIP). unfold current in CUR.
    destruct (accepted h) as [|a0 accs0] eqn:EH.
    - cbn in CUR. injection CUR as CT CY. rewrite CY. rewrite <- TF, CT. unfold exact.
      rewrite (fl_start _ _ _ HF), (fl_self _ _ _ HF). cbn. apply Rle_refl.
    - destruct (@exists_last _ (a0 :: accs0)) as (accs & a & EA); [discriminate|]. rewrite EA in *.
      rewrite map_app in CUR. cbn [map] in CUR. rewrite last_last in CUR. injection CUR as CT CY.
      rewrite CY. specialize (ALL accs a [] eq_refl).
      assert (Hin : In a (accs ++ [a])) by (apply in_or_app; right; left; reflexivity).
      unfold no_time_jumps in NJ'. rewrite List.Forall_forall in NJ'.
      assert (EEnd : at_end a = at_to a) by (apply (NJ' a Hin); apply INA, Hin).
      rewrite <- TF, CT, EEnd. exact ALL.
  Qed.
End Accumulate.

(** Without [dtmin] the controller keeps its contract even if errors are NaN. *)
Lemma xclip_cases x lo hi : (lo <= hi)%Q ->
  xclip x (QFin lo) (QFin hi) = QNaN \/ exists f, xclip x (QFin lo) (QFin hi) = QFin f /\ (lo <= f)%Q /\ (f <= hi)%Q.
Proof.
  intros H. unfold xclip. destruct x as [| | |q].
  - left. reflexivity.
  - right. exists hi. cbn. split; [reflexivity|]. Lqa.lra.
  - right. exists lo. cbn. destruct (Qle_bool lo hi) eqn:E1; [split; [reflexivity|Lqa.lra]|]. apply qle_false in E1. Lqa.lra.
  - right. destruct (xmax_fin q lo) as (m & -> & M1 & M2 & M3). destruct (xmin_fin m hi) as (n & -> & N1 & N2 & N3).
    exists n. split; [reflexivity|]. destruct N3 as [-> | ->]; Lqa.lra.
Qed.

Section Tolerance.
  Context {SS DI V MS W : Type}.
  Notation config := (config tree SS pid_state DI tree V MS).
  Notation initial := (initial tree SS pid_state MS).
  Notation state := (state tree SS pid_state DI V MS).
  Notation attempt := (attempt tree).
  Notation outcome := (outcome tree SS pid_state DI V MS).

  Lemma pid_contract_nan val rnd p (c : config) :
    rounding val rnd -> pid_ok p -> dtmin p = None ->
    (forall a b y0 y1 err s, adapt c a b y0 y1 err s = pid_loop_adapt val rnd p a b y0 y1 err s) ->
    controller_contract c (fun _ _ s => pid_state_ok s) /\
    (forall a b y0 y1 err s, ao_keep (adapt c a b y0 y1 err s) = true -> ao_tprev (adapt c a b y0 y1 err s) = b) /\
    (forall a b y0 y1 err s, ao_keep (adapt c a b y0 y1 err s) = xlt (scaled_error p y0 y1 err) (QFin 1)) /\
    (forall a b y0 y1 err s, ao_result (adapt c a b y0 y1 err s) = successful).
  Proof.
    intros Hr Hp Hm Ha.
    assert (Hkeep : forall a b y0 y1 err s, ao_keep (adapt c a b y0 y1 err s) = xlt (scaled_error p y0 y1 err) (QFin 1)).
    { intros. rewrite Ha. unfold pid_loop_adapt, pid_adapt. rewrite Hm. reflexivity. }
    assert (Htp : forall a b y0 y1 err s, ao_tprev (adapt c a b y0 y1 err s) =
                    if ao_keep (adapt c a b y0 y1 err s) then b else a).
    { intros. rewrite Ha. unfold pid_loop_adapt, pid_adapt. rewrite Hm. cbn [ao_tprev ao_keep po_t0 po_keep].
      destruct (xlt _ _); apply (rd_id _ _ Hr). }
    split; [|split; [|split; [exact Hkeep|]]].
    2:{ intros a b y0 y1 err s K. rewrite Htp, K. reflexivity. }
    2:{ intros. rewrite Ha. unfold pid_loop_adapt, pid_adapt. rewrite Hm. reflexivity. }
    intros tprev tnext y y1 err cs HI Hle Ht1 _. cbv zeta. rewrite Htp.
    split; [intros ->; lia|]. split; [intros ->; reflexivity|]. intros _.
    destruct (scaled_error p y y1 err) eqn:Es.
    1:{ (* NaN *)
      rewrite Hkeep, Es. cbn [xlt]. rewrite Ha. unfold pid_loop_adapt, pid_adapt. rewrite Hm, Es.
      cbn [ao_tnext ao_state po_t1 po_state xlt].
      split; [|destruct HI; split; assumption].
      pose proof (ok_factormin p Hp) as Pf. pose proof (ok_safety p Hp) as Ps.
      match goal with |- context [pid_factor ?a ?b ?c ?d ?e] =>
        assert (F : pid_factor a b c d e = QNaN \/ exists f, pid_factor a b c d e = QFin f /\ (factormin p <= f)%Q);
        [|destruct F as [-> | (f & -> & F1)]] end.
      { unfold pid_factor.
        match goal with |- context [xclip ?x (QFin ?lo) (QFin ?hi)] =>
          destruct (xclip_cases x lo hi Ps) as [-> | (f & -> & F1 & F2)] end; [left; reflexivity|].
        right. exists f. split; [reflexivity|exact F1]. }
      - cbn [xsub xmul xadd]. destruct (dtmax p); cbn; exact Hle.
      - pose proof (rd_val _ _ Hr _ _ Hle) as Hv. cbn [xsub xmul xadd].
        assert (Hdt : (0 <= (val tnext + - val tprev) * f)%Q) by Lqa.nra.
        assert (G : forall q, (0 <= q)%Q -> (tprev <= rnd (val tprev + q)%Q)%Z).
        { intros q Hq. rewrite <- (rd_id _ _ Hr tprev) at 1. apply (rd_mono _ _ Hr). Lqa.lra. }
        destruct (dtmax p) as [M|] eqn:HM; [|apply G, Hdt].
        match goal with |- context [xmin ?a ?b] => change (xmin a b) with (xmin (QFin ((val tnext + - val tprev) * f)) (QFin M)) end.
        destruct (xmin_fin ((val tnext + - val tprev) * f) M) as (m & -> & _ & _ & [-> | ->]);
          cbn [xadd]; apply G; [exact Hdt|]. pose proof (ok_dtmax p Hp M HM). Lqa.lra. }
    all: assert (Hn : scaled_error p y y1 err <> QNaN) by (rewrite Es; discriminate);
      rewrite <- (Htp tprev tnext y y1 err cs), Ha;
      destruct (pid_real val rnd p tprev tnext y y1 err cs Hr Hp Hn HI Hle Hm) as (T1 & S1 & f & dt & T2 & F1 & F2 & D);
      (split; [|exact S1]); rewrite T2;
      rewrite <- (rd_id _ _ Hr (ao_tprev (pid_loop_adapt val rnd p tprev tnext y y1 err cs))) at 1;
      apply (rd_mono _ _ Hr);
      pose proof (ok_factormin p Hp) as Pf; pose proof (ok_dtmax p Hp) as Pm;
      pose proof (rd_val _ _ Hr _ _ Hle) as Hv;
      (assert (Hdt : (0 <= dt)%Q); [|Lqa.lra]);
      (destruct D as [D|(M & HM & -> & _)];
       [rewrite D; destruct (ao_keep _); Lqa.nra|apply Qlt_le_weak; auto]).
  Qed.

  (** From the scaled errors back to the errors. *)
  Lemma leaf_back p B w : (0 < atol p)%Q -> (0 <= rtol p)%Q ->
    forall y0 y1 err, length y1 = length y0 -> length err = length y0 ->
    List.Forall (fun x => exists r, x = QFin r /\ (Qabs r <= B)%Q) y0 ->
    List.Forall (fun x => exists r, x = QFin r /\ (Qabs r <= B)%Q) y1 ->
    List.Forall (fun x => exists r, x = QFin r /\ (Qabs r <= w)%Q) (scale_leaf p y0 y1 err) ->
    List.Forall (fun x => exists r, x = QFin r /\ (Qabs r <= w * (atol p + rtol p * B))%Q) err.
  Proof.
    intros HA HR y0 y1 err L1 L2 H0 H1. unfold scale_leaf.
    assert (NN : existsb is_nan y1 = false).
    { clear - H1. induction H1 as [|x l (r & -> & _) _ IH]; [reflexivity|]. cbn. exact IH. }
    rewrite NN. clear NN. revert y1 err L1 L2 H1.
    induction H0 as [|x0 y0 (r0 & -> & B0) _ IH]; intros [|x1 y1] [|e err] L1 L2 H1 HS; try discriminate; [constructor|].
    inversion H1 as [|? ? (r1 & -> & B1) H1']. subst. cbn [xabs] in HS.
    cbn in HS. inversion HS as [|? ? HD HS']. subst. clear HS H1.
    constructor; [|apply (IH y1 err); [cbn in L1; lia|cbn in L2; lia|exact H1'|exact HS']].
    clear IH HS' H1' L1 L2 y0 y1 err.
    change (exists r, xdiv e (xadd (QFin (atol p)) (xmul (xmax (QFin (Qabs r0)) (QFin (Qabs r1))) (QFin (rtol p)))) = QFin r /\ (Qabs r <= w)%Q) in HD.
    assert (XM : exists m, xmax (QFin (Qabs r0)) (QFin (Qabs r1)) = QFin m /\ (0 <= m)%Q /\ (m <= B)%Q).
    { destruct (xmax_fin (Qabs r0) (Qabs r1)) as (m & E1 & M1 & M2 & M3). exists m. split; [exact E1|].
      pose proof (Qabs_nonneg r0). split; [Lqa.lra|]. destruct M3 as [-> | ->]; assumption. }
    destruct XM as (m & EM & M0 & MB). rewrite EM in HD. cbn [xmul xadd] in HD.
    set (D := (atol p + m * rtol p)%Q) in *.
    assert (HD0 : (0 < D)%Q) by (unfold D; Lqa.nra).
    assert (HDB : (D <= atol p + rtol p * B)%Q) by (unfold D; Lqa.nra). clearbody D.
    destruct HD as (r & Er & Hr). unfold xdiv in Er.
    assert (Q0 : Qle_bool 0 D = true) by (apply Qle_bool_iff; Lqa.lra).
    destruct e as [| | |q]; try rewrite Q0 in Er; try discriminate Er.
    destruct (Qeq_bool D 0) eqn:ED; [apply Qeq_bool_iff in ED; Lqa.lra|].
    injection Er as <-. exists q. split; [reflexivity|].
    assert (EQ : (q == q / D * D)%Q) by (field; Lqa.lra).
    pose proof (Qabs_nonneg (q / D)) as PN.
    assert (EA : (Qabs q == Qabs (q / D) * D)%Q).
    { rewrite EQ at 1. rewrite Qabs_Qmult, (Qabs_pos D) by Lqa.lra. reflexivity. }
    rewrite EA. set (v := Qabs (q / D)) in *. clearbody v. Lqa.nra.
  Qed.
  Lemma tree_back p B w : (0 < atol p)%Q -> (0 <= rtol p)%Q ->
    forall y0 y1 err, shape y1 = shape y0 -> shape err = shape y0 ->
    bounded_tree B y0 -> bounded_tree B y1 -> norm_controls p w -> xlt (scaled_error p y0 y1 err) (QFin 1) = true ->
    bounded_tree (w * (atol p + rtol p * B)) err.
  Proof.
    intros HA HR y0 y1 err S1 S2 H0 H1 HN HX. apply HN in HX. clear HN. unfold bounded_tree, shape in *.
    revert y1 err S1 S2 H1 HX. induction H0 as [|l0 y0 HL0 _ IH]; intros [|l1 y1] [|e err] S1 S2 H1 HX; try discriminate; [constructor|].
    inversion H1 as [|? ? HL1 H1']. subst. cbn in S1, S2, HX. injection S1 as SL1 S1. injection S2 as SL2 S2.
    inversion HX as [|? ? HXL HX']. subst.
    constructor; [apply (leaf_back p B w HA HR l0 l1 e); assumption|apply (IH y1 err); assumption].
  Qed.

  Lemma in_history (c : config) n : forall s a, In a (history c n s) -> exists s', a = attempt_of c s'.
  Proof.
    induction n as [|n IH]; intros s a Hin; [destruct Hin|]. cbn [history] in Hin.
    destruct (cond_fun c s); [|destruct Hin]. destruct Hin as [<-|Hin]; [eexists; reflexivity|]. apply (IH _ _ Hin).
  Qed.

  Lemma grown_le (emb : tree -> W) time d flow L M t t0 : 0 <= L -> 0 <= M -> forall l,
    (forall a, In a l -> t0 <= time (at_to a) /\ local_error emb time d flow a <= M) ->
    grown_errors emb time d flow L t l <= exp (L * (t - t0)) * M * INR (length l).
  Proof.
    intros HL HM l H. unfold grown_errors. induction l as [|a l IH]; cbn [fold_right length]; [cbn; Lra.lra|].
    rewrite S_INR. destruct (H a (or_introl eq_refl)) as [T1 E1].
    specialize (IH (fun a' Ha' => H a' (or_intror Ha'))).
    assert (G : exp (L * (t - time (at_to a))) * local_error emb time d flow a <= exp (L * (t - t0)) * M).
    { apply Rle_trans with (exp (L * (t - time (at_to a))) * M).
      - apply Rmult_le_compat_l; [left; apply exp_pos|exact E1].
      - apply Rmult_le_compat_r; [exact HM|].
        assert (LE : L * (t - time (at_to a)) <= L * (t - t0)) by (apply Rmult_le_compat_l; Lra.lra).
        destruct LE as [LT| ->]; [left; apply exp_increasing, LT|apply Rle_refl]. }
    Lra.lra.
  Qed.

  Lemma pf_C74_tolerance (val : Z -> Q) (rnd : Q -> Z) (p : pid_controller) (c : config) (i : initial)
        (h : list attempt) (o : outcome) (emb : tree -> W) (d : W -> W -> R) (flow : R -> R -> W -> W)
        (L kappa : R) (w B : Q) :
    let time := fun z => Q2R (val z) in
    rounding val rnd -> pid_ok p -> dtmin p = None -> pid_run val rnd p c i -> midpoint_ok c -> solve_run c i h o ->
    (0 < atol p)%Q -> (0 <= rtol p)%Q -> (0 <= w)%Q -> norm_controls p w -> keeps_shape c ->
    exact_flow d flow L -> 0 <= L -> 0 <= kappa -> reliable c emb time d flow kappa B -> (0 <= B)%Q ->
    (forall a, In a (accepted h) -> bounded_tree B (at_yprev a) /\ bounded_tree B (at_y a)) ->
    let exact := fun t => flow (time (cfg_t0 c)) t (emb (in_y i)) in
    let tolerance := Q2R (atol p + rtol p * B)%Q in
    (forall a, In a (accepted h) -> local_error emb time d flow a <= kappa * Q2R w * tolerance) /\
    (forall l1 a l2, accepted h = l1 ++ a :: l2 ->
       d (emb (at_y a)) (exact (time (at_to a))) <=
       exp (L * (time (at_to a) - time (cfg_t0 c))) * (kappa * Q2R w * tolerance) * INR (length (l1 ++ [a]))) /\
    (results_ok c -> rf_results_ok c -> out_result o = successful ->
       d (emb (out_yfinal o)) (exact (time (cfg_t1 c))) <=
       exp (L * (time (cfg_t1 c) - time (cfg_t0 c))) * (kappa * Q2R w * tolerance) * INR (length (accepted h))).
  Proof.
    intros time Hr Hp Hm HRUN Hmid RUN HA HR HW HN HS HF HL HK HREL HB HBD exact tolerance.
    destruct HRUN as (Ha & Hst & Hs & Ht & Ht01).
    destruct (pid_contract_nan val rnd p c Hr Hp Hm Ha) as (CC & TP & KP & _).
    destruct (pf_C02_times_in_interval c i h o (fun _ _ s => pid_state_ok s) RUN CC Hmid ltac:(lia) ltac:(lia) Hs) as (RG & _ & RIP).
    assert (TM : forall a b, (a <= b)%Z -> time a <= time b).
    { intros a b Hab. unfold time. apply Qle_Rle, (rd_val _ _ Hr), Hab. }
    assert (AT : forall a, In a h -> exists s, a = attempt_of c s).
    { destruct RUN as (s0 & n & _ & _ & -> & _). apply in_history. }
    assert (NJ : no_time_jumps h).
    { apply List.Forall_forall. intros a Hin K. destruct (AT a Hin) as (s & ->). destruct (RG _ Hin) as (R1 & R2 & R3).
      rewrite attempt_of_eq in *. cbn [at_end at_to at_keep at_from] in *. unfold do_adapt in *. rewrite (TP _ _ _ _ _ _ K). lia. }
    assert (TOL0 : 0 <= tolerance).
    { unfold tolerance. rewrite <- RMicromega.Q2R_0. apply Qle_Rle. Lqa.nra. }
    assert (TQ : (0 <= w * (atol p + rtol p * B))%Q) by (apply Qmult_le_0_compat; [exact HW|Lqa.nra]).
    assert (W0 : 0 <= Q2R w) by (rewrite <- RMicromega.Q2R_0; apply Qle_Rle, HW).
    assert (LOC : forall a, In a (accepted h) -> local_error emb time d flow a <= kappa * Q2R w * tolerance).
    { intros a Hin. destruct (HBD a Hin) as [B0 B1]. apply filter_In in Hin. destruct Hin as [Hin K].
      destruct (RG a Hin) as (R1 & R2 & R3). destruct (AT a Hin) as (s & ->). rewrite attempt_of_eq in *.
      unfold local_error. cbn [at_end at_to at_keep at_from at_y at_yprev] in *. rewrite K in *.
      unfold do_adapt in K. rewrite KP in K. unfold do_step in *.
      destruct (HS (st_tprev s) (st_tnext s) (st_y s) (st_solver_state s) (st_made_jump s)) as [S1 S2].
      pose proof (tree_back p B w HA HR _ _ _ S1 S2 B0 B1 HN K) as BE.
      pose proof (HREL _ _ _ _ _ _ R1 R2 R3 TQ B0 B1 BE) as E1.
      unfold tolerance. rewrite Rmult_assoc, <- Q2R_mult. exact E1. }
    assert (M0 : 0 <= kappa * Q2R w * tolerance) by (apply Rmult_le_pos; [apply Rmult_le_pos; assumption|assumption]).
    destruct (pf_C74_accumulate c i h o emb time d flow L RUN HF RIP NJ) as [ACC FIN].
    { intros a Hin _. destruct (RG a Hin) as (R1 & R2 & R3). apply TM, R2. }
    assert (IN : forall a, In a (accepted h) -> time (cfg_t0 c) <= time (at_to a) /\
                   local_error emb time d flow a <= kappa * Q2R w * tolerance).
    { intros a Hin. split; [|apply LOC, Hin]. apply filter_In in Hin. destruct (RG a (proj1 Hin)) as (R1 & R2 & R3). apply TM. lia. }
    split; [exact LOC|]. split.
    - intros l1 a l2 Heq. eapply Rle_trans; [apply (ACC l1 a l2 Heq)|]. apply grown_le; try assumption.
      intros a' Ha'. apply IN. rewrite Heq. apply in_app_or in Ha'. apply in_or_app. destruct Ha' as [Ha'|[<-|[]]]; [left; exact Ha'|right; left; reflexivity].
    - intros RO RFO OK. eapply Rle_trans; [apply (FIN Hst ltac:(lia) RO RFO OK)|]. apply grown_le; assumption.
  Qed.
End Tolerance.
