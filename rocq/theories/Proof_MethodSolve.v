(** Whole solves with a constant step size as sequences of steps: C82. *)
From Coq Require Import ZArith Reals List Bool Arith Lia Lra.
From Verif Require Import Model_Result Model_Loop Model_Fixed Model_Solvers Spec_Loop Spec_Fixed Spec_Solvers Spec_MethodOrder
  Proof_LoopBasic Proof_LoopFinish Proof_PropLoop Proof_Fixed.
Import ListNotations.
Open Scope R_scope.

Section Constant.
  Context {Y SS DI V MS : Type}.
  Notation config := (config Y SS (const_state Z) DI (option Y) V MS).
  Notation initial := (initial Y SS (const_state Z) MS).
  Notation outcome := (outcome Y SS (const_state Z) DI V MS).

  Lemma history_steps (m : method Y SS DI) (time : Z -> R) (c : config) (H : R) n : forall s,
    (forall a b y s j, solver_step c a b y s j = me_step m (time a) (time b) y s j) ->
    (forall a b y y1 e s, ao_jump (adapt c a b y y1 e s) = false) -> st_made_jump s = false ->
    (forall a, In a (history c n s) -> at_keep a = true /\ at_end a = at_to a /\ time (at_to a) = time (at_from a) + H) ->
    forall k a, nth_error (history c n s) k = Some a -> exists s',
      steps m (time (st_tprev s)) (grid (time (st_tprev s)) H (S k)) (st_y s) (st_solver_state s) = (at_y a, s') /\
      ((forall b, In b (history c n s) -> is_okay (at_solver_result b) = true) ->
       good_steps m (time (st_tprev s)) (grid (time (st_tprev s)) H (S k)) (st_y s) (st_solver_state s) (at_y a) s').
  Proof.
    induction n as [|n IH]; intros s ST NJ MJ EV k b Hb; [destruct k; discriminate|].
    cbn [history] in *. destruct (cond_fun c s); [|destruct k; discriminate].
    specialize (IH (body_fun c s) ST NJ). rewrite body_y, body_tprev, body_solver_state, body_made_jump in IH.
    destruct (EV _ (or_introl eq_refl)) as (K & EN & TM).
    pose proof (attempt_of_eq c s) as AE. set (a := attempt_of c s) in *. rewrite K in IH. rewrite EN in IH.
    assert (EY : at_y a = so_y (me_step m (time (st_tprev s)) (time (at_to a)) (st_y s) (st_solver_state s) false)).
    { rewrite AE in K |- *. cbn [at_keep at_y at_to] in *. rewrite K. unfold do_step. rewrite ST, MJ. reflexivity. }
    assert (ER : at_solver_result a = so_result (me_step m (time (st_tprev s)) (time (at_to a)) (st_y s) (st_solver_state s) false)).
    { rewrite AE. cbn [at_solver_result at_to]. unfold do_step. rewrite ST, MJ. reflexivity. }
    assert (FR : at_from a = st_tprev s) by (rewrite AE; reflexivity). rewrite FR in TM.
    assert (TO : at_to a = st_tnext s) by (rewrite AE; reflexivity).
    destruct k as [|k].
    - injection Hb as <-. cbn [grid steps]. rewrite <- TM, <- EY. eexists. split; [reflexivity|].
      intros OK. rewrite EY. apply good_cons; [rewrite <- ER; apply OK; left; reflexivity|]. constructor.
    - cbn [nth_error] in Hb.
      specialize (IH (NJ _ _ _ _ _ _) (fun b Hb => EV b (or_intror Hb)) k b Hb). destruct IH as (s' & E & G). exists s'.
      unfold do_step in E, G. rewrite ST, MJ, <- TO in E, G. rewrite EY in E, G.
      change (grid (time (st_tprev s)) H (S (S k))) with (time (st_tprev s) + H :: grid (time (st_tprev s) + H) H (S k)). rewrite <- TM.
      split; [exact E|]. intros OK. apply good_cons; [rewrite <- ER; apply OK; left; reflexivity|]. apply G. intros x Hx. apply OK. right. exact Hx.
  Qed.

  Lemma pf_C82_constant (m : method Y SS DI) (p : time_ops Z) (dt0 : Z) (c : config) (i : initial) (h : list (attempt Y)) (o : outcome) (time : Z -> R) (t0 H : R) :
    const_solve p dt0 c i -> (0 <= intended_steps p (cfg_t0 c) (cfg_t1 c) dt0)%Z -> solve_run c i h o -> results_ok c -> rf_results_ok c ->
    (forall a b y s j, solver_step c a b y s j = me_step m (time a) (time b) y s j) -> in_made_jump i = false ->
    (forall k, (k <= length h)%nat -> time (const_point p (cfg_t0 c) (cfg_t1 c) dt0 k) = t0 + INR k * H) ->
    (forall k a, nth_error h k = Some a ->
       time (at_to a) = t0 + INR (S k) * H /\ at_y a = fst (steps m t0 (grid t0 H (S k)) (in_y i) (in_solver_state i))) /\
    (cfg_event c = None -> out_result o = successful ->
       time (cfg_t1 c) = t0 + INR (length h) * H /\ 
       exists s, steps m t0 (grid t0 H (length h)) (in_y i) (in_solver_state i) = (out_yfinal o, s) /\
         good_steps m t0 (grid t0 H (length h)) (in_y i) (in_solver_state i) (out_yfinal o) s).
  Proof.
    intros CS NN RUN RO RFO ST MJ TI.
    destruct (pf_C25_steps p dt0 c i h o CS NN RUN RO RFO) as (TS & KE & LT & FIN). cbv zeta in TS, LT, FIN. set (P := const_point p (cfg_t0 c) (cfg_t1 c) dt0) in *.
    assert (AT : forall k a, nth_error h k = Some a -> at_from a = P k /\ at_to a = P (S k) /\ (k < length h)%nat).
    { intros k a Ha. assert (LK : (k < length h)%nat) by (apply nth_error_Some; congruence).
      apply (map_nth_error (fun a => (at_from a, at_to a))) in Ha. rewrite TS in Ha.
      rewrite (map_nth_error _ k (seq 0 (length h)) (d := k)) in Ha; [injection Ha as <- <-; auto|].
      rewrite (nth_error_nth' _ 0%nat) by (rewrite seq_length; exact LK). rewrite seq_nth by exact LK. reflexivity. }
    assert (EV : forall a, In a h -> at_keep a = true /\ at_end a = at_to a /\ time (at_to a) = time (at_from a) + H).
    { intros a Ha. rewrite Forall_forall in KE. destruct (KE a Ha) as (A1 & A2). split; [exact A1|]. split; [exact A2|].
      destruct (In_nth_error _ _ Ha) as (k & Hk). destruct (AT k a Hk) as (-> & -> & LK). rewrite !TI by lia. rewrite S_INR. ring. }
    pose proof CS as (AD & _ & SL & LT01 & _).
    assert (NJ : forall a b y y1 e s, ao_jump (adapt c a b y y1 e s) = false) by (intros a b y y1 e s; rewrite AD; reflexivity).
    assert (ALL : forall k a, nth_error h k = Some a -> exists s', steps m t0 (grid t0 H (S k)) (in_y i) (in_solver_state i) = (at_y a, s') /\
              ((forall b, In b h -> is_okay (at_solver_result b) = true) -> good_steps m t0 (grid t0 H (S k)) (in_y i) (in_solver_state i) (at_y a) s')).
    { pose proof RUN as (s0 & n & Hi & _ & Hh & _). destruct (init_time _ _ _ Hi) as (I1 & I2 & _ & _ & _ & _ & I3 & I4 & _).
      assert (T0 : time (st_tprev s0) = t0). { rewrite I1. specialize (TI 0%nat ltac:(lia)). cbn in TI. change (P 0%nat) with (cfg_t0 c) in TI. rewrite TI. ring. }
      pose proof (history_steps m time c H n s0 ST NJ ltac:(congruence)) as HS. rewrite <- Hh in HS. specialize (HS EV).
      rewrite T0, I2, I4 in HS. exact HS. }
    split.
    - intros k a Ha. destruct (AT k a Ha) as (_ & -> & LK). split; [apply TI; lia|]. destruct (ALL k a Ha) as (s' & E & _). rewrite E. reflexivity.
    - intros NE OK.
      assert (RIP : rejects_in_place h). { unfold rejects_in_place. rewrite Forall_forall. intros a Ha E. destruct (EV a Ha). congruence. }
      destruct (pf_C03_success_reaches_t1 c i h o RUN SL ltac:(lia) RO RFO OK) as (TF & CUR). specialize (CUR RIP).
      assert (AC : accepted h = h).
      { unfold accepted. assert (G : forall l : list (attempt Y), (forall a, In a l -> at_keep a = true) -> filter at_keep l = l).
        { induction l as [|a l IH]; intros F; [reflexivity|]. cbn. rewrite (F a (or_introl eq_refl)). f_equal. apply IH. intros b Hb. apply F. right. exact Hb. }
        apply G. intros a Ha. apply EV. exact Ha. }
      rewrite AC in CUR. unfold current in CUR.
      specialize (FIN OK). assert (TE : time (cfg_t1 c) = t0 + INR (length h) * H) by (rewrite <- FIN; apply TI; lia). split; [exact TE|].
      assert (HD : h = [] \/ exists h' a, h = h' ++ [a]).
      { destruct h as [|x l]; [left; reflexivity|right]. destruct (@exists_last _ (x :: l)) as (h' & a & E); [discriminate|]. eauto. }
      destruct HD as [->|(h' & a & ->)].
      + cbn in CUR. injection CUR as _ ->. exists (in_solver_state i). split; [reflexivity|constructor].
      + rewrite map_app in CUR. cbn [map] in CUR. rewrite last_last in CUR. injection CUR as _ ->.
        destruct (ALL (length h') a) as (s' & E & G). { rewrite nth_error_app2 by lia. rewrite Nat.sub_diag. reflexivity. }
        assert (LN : length (h' ++ [a]) = S (length h')) by (rewrite app_length; cbn; lia). rewrite LN. exists s'. split; [exact E|]. apply G.
        destruct (pf_C12_first_failure_wins c i h' a o RUN NE) as (F & NB & _).
        assert (FS : forall b, In b (h' ++ [a]) -> attempt_result b = successful).
        { intros b Hb. apply in_app_or in Hb as [Hb|[<-|[]]]; [rewrite Forall_forall in F; apply F; exact Hb|].
          destruct (attempt_result a) eqn:EA; try reflexivity; rewrite NB in OK by discriminate; discriminate. }
        intros b Hb. specialize (FS b Hb). destruct (EV b Hb) as (K & _). unfold attempt_result in FS. rewrite K in FS.
        destruct (at_solver_result b); try reflexivity; discriminate.
  Qed.
End Constant.
