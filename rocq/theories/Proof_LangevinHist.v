(** Histories of the Langevin solvers: what the state holds after any number of steps. *)
From Coq Require Import Reals List Bool Lia Lra Psatz.
From Coquelicot Require Import Coquelicot.
From Verif Require Import Model_Langevin Spec_Langevin Proof_LangevinCoeffs Proof_LangevinFresh.
Import ListNotations.
Open Scope R_scope.

Lemma isclose_iff a b : isclose a b (1 / 10 ^ 10) (1 / 10 ^ 12) = true <-> taken_equal a b.
Proof.
  unfold isclose, Rleb, taken_equal. replace (1 / 10 ^ 12 + 1 / 10 ^ 10 * Rabs b) with (/ 10 ^ 12 + / 10 ^ 10 * Rabs b) by field.
  destruct (Rle_dec _ _); split; intros; (assumption || reflexivity || discriminate || contradiction).
Qed.

(** What every state of a history holds. *)
Definition holds {D : Type} {C : Type -> Type} (S : foster_langevin D C) (dims : list D) (T : langevin_terms D) (hs : list R)
  (st : langevin_state D C) : Prop :=
  ls_gamma st = lt_gamma_drift T /\ ls_u st = lt_u_drift T /\
  ls_rho st = (fun d => sqrt (2 * lt_gamma_drift T d * lt_u_drift T d)) /\
  ls_taylor_coeffs st = (fun d => fl_tay S (lt_gamma_drift T d)) /\
  (exists tl, hs = ls_h st :: tl) /\
  (exists hm newer older, hs = newer ++ hm :: older /\ all_taken_equal (newer ++ [hm]) /\
     (forall d, In d dims -> ls_coeffs st d = fresh S (lt_gamma_drift T) hm d)).

Lemma init_some {D : Type} {C : Type -> Type} (S : foster_langevin D C) dims T h x0 st :
  langevin_init S dims T h x0 = Some st ->
  st = LState (lt_gamma_drift T) (lt_u_drift T) h (fun d => fl_tay S (lt_gamma_drift T d))
         (recompute_coeffs S dims h (lt_gamma_drift T) (fun d => fl_tay S (lt_gamma_drift T d)))
         (fun d => sqrt (2 * lt_gamma_drift T d * lt_u_drift T d))
         (if fl_is_fsal S then Some (lt_grad_f T x0) else None).
Proof. unfold langevin_init. destruct (forallb _ dims); [|discriminate]. intros H. injection H as <-. reflexivity. Qed.

Lemma step_some {D : Type} {C : Type -> Type} (S : foster_langevin D C) dims T oc h lv y st j y' e st' :
  langevin_step S dims T oc h lv y st j = Some (y', e, st') ->
  exists pf x v f,
    fl_compute_step S h lv (fst y) (snd y) (ls_gamma st) (ls_u st) (lt_grad_f T)
      (if isclose (ls_h st) h (1 / 10 ^ 10) (1 / 10 ^ 12) && oc then ls_coeffs st
       else recompute_coeffs S dims h (ls_gamma st) (ls_taylor_coeffs st)) (ls_rho st) pf = (x, v, f, e) /\
    y' = (x, v) /\ (j = StaticFalse -> pf = ls_prev_f st) /\
    (pf = ls_prev_f st \/ pf = Some (lt_grad_f T (fst y))) /\
    st' = LState (ls_gamma st) (ls_u st) h (ls_taylor_coeffs st)
      (if isclose (ls_h st) h (1 / 10 ^ 10) (1 / 10 ^ 12) && oc then ls_coeffs st
       else recompute_coeffs S dims h (ls_gamma st) (ls_taylor_coeffs st)) (ls_rho st) f.
Proof.
  unfold langevin_step. set (k := if _ && oc then _ else _). clearbody k. intros H.
  assert (exists pf, (j = StaticFalse -> pf = ls_prev_f st) /\ (pf = ls_prev_f st \/ pf = Some (lt_grad_f T (fst y))) /\
    (let '(x_out, v_out, f_fsal, error) :=
        fl_compute_step S h lv (fst y) (snd y) (ls_gamma st) (ls_u st) (lt_grad_f T) k (ls_rho st) pf in
      Some ((x_out, v_out), error, LState (ls_gamma st) (ls_u st) h (ls_taylor_coeffs st) k (ls_rho st) f_fsal)) = Some (y', e, st'))
    as (pf & H1 & H2 & H3).
  { destruct j as [|b].
    - exists (ls_prev_f st). auto.
    - destruct (ls_prev_f st) as [p|]; [|discriminate]. eexists. split; [discriminate|]. split; [|exact H]. destruct b; auto. }
  destruct (fl_compute_step _ _ _ _ _ _ _ _ _ _ _) as [[[x v] f] er] eqn:Ek. injection H3 as <- <- <-.
  exists pf, x, v, f. auto.
Qed.

Lemma history_holds {D : Type} {C : Type -> Type} (S : foster_langevin D C) (dims : list D) (T : langevin_terms D) hs y st :
  history S dims T hs y st -> holds S dims T hs st.
Proof.
  induction 1 as [h x0 v0 st Hi|hs y st oc h lv j y' e st' Hh IH Hs].
  - rewrite (init_some _ _ _ _ _ _ Hi). unfold holds. cbn [ls_gamma ls_u ls_rho ls_taylor_coeffs ls_h ls_coeffs].
    repeat split; [exists []; reflexivity|]. exists h, [], []. repeat split. intros d Hd. apply recompute_fresh. exact Hd.
  - destruct IH as (I1 & I2 & I3 & I4 & (tl & I5) & (hm & nw & od & E & HA & HF)).
    destruct (step_some _ _ _ _ _ _ _ _ _ _ _ _ Hs) as (pf & x & v & f & Hk & Hy & Hj & Hp & ->).
    unfold holds. cbn [ls_gamma ls_u ls_rho ls_taylor_coeffs ls_h ls_coeffs]. repeat (split; [assumption|]).
    split; [exists hs; reflexivity|].
    destruct (isclose (ls_h st) h (1 / 10 ^ 10) (1 / 10 ^ 12) && oc) eqn:Ec.
    + apply andb_true_iff in Ec. destruct Ec as [Ec _]. apply isclose_iff in Ec.
      exists hm, (h :: nw), od. split; [cbn; now rewrite E|]. split; [|exact HF].
      rewrite I5 in E. destruct nw as [|h1 nw]; cbn in E |- *; injection E as E0 E1; subst; split; auto.
    + exists h, [], hs. split; [reflexivity|]. split; [exact I|]. intros d Hd. rewrite I1, I4. apply recompute_fresh. exact Hd.
Qed.

Lemma all_equal_none_drifts (h : R) nw hm od :
  all_taken_equal (nw ++ [hm]) -> none_drifts (nw ++ hm :: od) -> forall h' , hd hm nw = h' -> h' = hm.
Proof.
  revert h. induction nw as [|a nw IH]; intros h HA HN h' <-; [reflexivity|].
  cbn [hd]. destruct nw as [|b nw].
  - cbn in HA, HN. destruct HA as [HA _], HN as [[->|HN] _]; [reflexivity|contradiction].
  - cbn in HA, HN. destruct HA as [HA HA'], HN as [HN HN'].
    specialize (IH b HA' HN' b eq_refl). destruct HN as [->|HN]; [exact IH|contradiction].
Qed.

(** The coefficients a step uses are those of the step size [hm] of an earlier step (or its own), all step sizes since then
    having been taken to be the same as the one before; the drift since then is bounded. *)
Lemma drift_bound nw hm h : all_taken_equal (h :: nw ++ [hm]) -> Rabs (h - hm) <= slack (h :: nw).
Proof.
  revert h. induction nw as [|a nw IH]; intros h.
  - cbn [app all_taken_equal slack]. unfold taken_equal. intros [H _]. rewrite Rabs_minus_sym. lra.
  - intros H. cbn in H. destruct H as [H H']. specialize (IH a H'). unfold taken_equal in H.
    cbn [slack] in *. replace (h - hm) with ((h - a) + (a - hm)) by ring. eapply Rle_trans; [apply Rabs_triang|].
    rewrite (Rabs_minus_sym h a). lra.
Qed.

Lemma pf_C53_coefficients_age (D : Type) (C : Type -> Type) (S : foster_langevin D C) (dims : list D) (T : langevin_terms D)
    (hs : list R) (y : (D -> R) * (D -> R)) (st : langevin_state D C) (others_close : bool) (h : R) (lv : levy D)
    (j : jump_flag) (y' : (D -> R) * (D -> R)) (e : option ((D -> R) * (D -> R))) (st' : langevin_state D C) :
  history S dims T hs y st ->
  langevin_step S dims T others_close h lv y st j = Some (y', e, st') ->
  exists (k : D -> C R) (pf f : option (D -> R)) (hm : R) (newer older : list R),
    fl_compute_step S h lv (fst y) (snd y) (lt_gamma_drift T) (lt_u_drift T) (lt_grad_f T) k
      (fun d => sqrt (2 * lt_gamma_drift T d * lt_u_drift T d)) pf = (fst y', snd y', f, e) /\
    (forall d, In d dims -> k d = fresh S (lt_gamma_drift T) hm d) /\
    h :: hs = newer ++ hm :: older /\ all_taken_equal (newer ++ [hm]) /\ Rabs (h - hm) <= slack newer.
Proof.
  intros Hh Hs. assert (Hh' : history S dims T (h :: hs) y' st') by (econstructor; eassumption).
  destruct (history_holds _ _ _ _ _ _ Hh) as (I1 & I2 & I3 & I4 & _).
  destruct (step_some _ _ _ _ _ _ _ _ _ _ _ _ Hs) as (pf & x & v & f & Hk & Hy & Hj & Hp & Es).
  destruct (history_holds _ _ _ _ _ _ Hh') as (_ & _ & _ & _ & _ & (hm & nw & od & E & HA & HF)).
  rewrite I1, I2, I3 in Hk.
  exists (ls_coeffs st'), pf, f, hm, nw, od. repeat split; auto.
  - rewrite Hy. cbn [fst snd]. rewrite <- Hk, Es. cbn [ls_coeffs]. rewrite I1. reflexivity.
  - destruct nw as [|a nw]; cbn in E; injection E as E0 E1; subst.
    + cbn [slack]. rewrite Rminus_eq_0, Rabs_R0. lra.
    + apply drift_bound. exact HA.
Qed.

(** If every step size is the same as the one before it, or one that is not taken to be the same, the coefficients are those
    of the current step. *)
Lemma pf_C53_current_partial (D : Type) (C : Type -> Type) (S : foster_langevin D C) (dims : list D) (T : langevin_terms D)
    (hs : list R) (y : (D -> R) * (D -> R)) (st : langevin_state D C) (others_close : bool) (h : R) (lv : levy D)
    (j : jump_flag) (y' : (D -> R) * (D -> R)) (e : option ((D -> R) * (D -> R))) (st' : langevin_state D C) :
  history S dims T hs y st ->
  langevin_step S dims T others_close h lv y st j = Some (y', e, st') ->
  none_drifts (h :: hs) ->
  exists (k : D -> C R) (pf f : option (D -> R)),
    fl_compute_step S h lv (fst y) (snd y) (lt_gamma_drift T) (lt_u_drift T) (lt_grad_f T) k
      (fun d => sqrt (2 * lt_gamma_drift T d * lt_u_drift T d)) pf = (fst y', snd y', f, e) /\
    (forall d, In d dims -> k d = fresh S (lt_gamma_drift T) h d).
Proof.
  intros Hh Hs Hn.
  destruct (pf_C53_coefficients_age _ _ _ _ _ _ _ _ _ _ _ _ _ _ _ Hh Hs) as (k & pf & f & hm & nw & od & Hk & HF & E & HA & _).
  exists k, pf, f. split; [exact Hk|]. intros d Hd. rewrite (HF d Hd). f_equal.
  rewrite E in Hn. assert (hd hm nw = h) as Eh by (destruct nw; cbn in E |- *; congruence).
  symmetry. exact (all_equal_none_drifts h nw hm od HA Hn h Eh).
Qed.

(** The gradient kept from one step to the next is that at the current position; QUICSORT keeps none. *)
Lemma pf_C53_gradient_reused (D : Type) (th : R) (dims : list D) (T : langevin_terms D) (hs : list R)
    (y : (D -> R) * (D -> R)) :
  (forall st, history (ALIGN th) dims T hs y st -> ls_prev_f st = Some (lt_grad_f T (fst y))) /\
  (forall st, history (ShOULD th) dims T hs y st -> ls_prev_f st = Some (lt_grad_f T (fst y))) /\
  (forall st, history (QUICSORT th) dims T hs y st -> ls_prev_f st = None).
Proof.
  repeat split; intros st H; destruct H as [h x0 v0 st Hi|hs y st oc h lv j y' e st' Hh Hs];
    try (rewrite (init_some _ _ _ _ _ _ Hi); reflexivity);
    destruct (step_some _ _ _ _ _ _ _ _ _ _ _ _ Hs) as (pf & x & v & f & Hk & -> & _ & _ & ->);
    cbn [ls_prev_f fst]; cbn [fl_compute_step ALIGN ShOULD QUICSORT] in Hk;
    unfold align_compute_step, should_compute_step, quicsort_compute_step in Hk; injection Hk as <- <- <- <-; reflexivity.
Qed.

(** [init] succeeds exactly if drift and diffusion have the same arguments; thereafter ALIGN and ShOULD never raise; QUICSORT
    raises on every step if [made_jump] is traced. *)
Lemma pf_C53_raises (D : Type) (th : R) (dims : list D) (T : langevin_terms D) :
  (forall (C : Type -> Type) (S : foster_langevin D C) (h : R) (x0 : D -> R),
     langevin_init S dims T h x0 <> None <->
     (forall d, In d dims -> lt_gamma_drift T d = lt_gamma_diffusion T d /\ lt_u_drift T d = lt_u_diffusion T d)) /\
  (forall (hs : list R) (y : (D -> R) * (D -> R)) (oc : bool) (h : R) (lv : levy D) (j : jump_flag),
     (forall st, history (ALIGN th) dims T hs y st -> langevin_step (ALIGN th) dims T oc h lv y st j <> None) /\
     (forall st, history (ShOULD th) dims T hs y st -> langevin_step (ShOULD th) dims T oc h lv y st j <> None) /\
     (forall st, history (QUICSORT th) dims T hs y st ->
        (langevin_step (QUICSORT th) dims T oc h lv y st j = None <-> j <> StaticFalse))).
Proof.
  split.
  - intros C S h x0. unfold langevin_init.
    assert (forallb (fun d => Reqb (lt_gamma_drift T d) (lt_gamma_diffusion T d) && Reqb (lt_u_drift T d) (lt_u_diffusion T d)) dims = true <->
      (forall d, In d dims -> lt_gamma_drift T d = lt_gamma_diffusion T d /\ lt_u_drift T d = lt_u_diffusion T d)) as Hf.
    { rewrite forallb_forall. split; intros H d Hd; specialize (H d Hd).
      - apply andb_true_iff in H. unfold Reqb in H. destruct H as [Ha Hb].
        destruct (Req_EM_T _ _) in Ha; [|discriminate]. destruct (Req_EM_T _ _) in Hb; [|discriminate]. auto.
      - destruct H as [-> ->]. unfold Reqb. destruct (Req_EM_T _ _); [|contradiction]. destruct (Req_EM_T _ _); [reflexivity|contradiction]. }
    destruct (forallb _ dims).
    + split; [intros _; apply Hf; reflexivity|discriminate].
    + split; [intros H; now destruct H|]. intros H. apply Hf in H. discriminate.
  - intros hs y oc h lv j. destruct (pf_C53_gradient_reused D th dims T hs y) as (HA & HB & HC).
    repeat split.
    + intros st Hst. specialize (HA st Hst). unfold langevin_step. rewrite HA. destruct j; discriminate.
    + intros st Hst. specialize (HB st Hst). unfold langevin_step. rewrite HB. destruct j; discriminate.
    + intros Hn ->. specialize (HC st H). unfold langevin_step in Hn. discriminate.
    + intros Hj. specialize (HC st H). unfold langevin_step. rewrite HC. destruct j; [contradiction|reflexivity].
Qed.

Lemma free_init g h x0 : exists st, langevin_init (ALIGN (1 / 10)) [tt] (free_terms g) h x0 = Some st.
Proof.
  unfold langevin_init. destruct (forallb _ [tt]) eqn:Ef; [eexists; reflexivity|].
  cbn in Ef. unfold Reqb in Ef. destruct (Req_EM_T g g); [|contradiction]. destruct (Req_EM_T 1 1); [|contradiction]. discriminate.
Qed.
Lemma free_fresh h : fresh (D := unit) (ALIGN (1 / 10)) (fun _ => 0) h tt = ALIGNCoeffs 1 h (h / 2) 1 h.
Proof.
  unfold fresh. cbn [ALIGN fl_taylor_threshold fl_map fl_tay]. destruct (Rlt_dec _ _) as [_|n]; [|exfalso; apply n; lra].
  poly. f_equal; field.
Qed.
Lemma free_step g st oc h y j : exists y' e st', langevin_step (ALIGN (1 / 10)) [tt] (free_terms g) oc h no_noise y st j = Some (y', e, st') \/ ls_prev_f st = None.
Proof.
  unfold langevin_step. destruct (ls_prev_f st) as [p|].
  - destruct j; do 3 eexists; left; reflexivity.
  - exists y, None, st. right. reflexivity.
Qed.

(** A step of the free particle without friction, given the coefficients in the state. *)
Lemma free_move hs y st h hm :
  history (ALIGN (1 / 10)) [tt] (free_terms 0) hs y st -> snd y tt = 1 ->
  ls_coeffs st tt = ALIGNCoeffs 1 hm (hm / 2) 1 hm -> taken_equal (ls_h st) h ->
  exists y' e st', langevin_step (ALIGN (1 / 10)) [tt] (free_terms 0) true h no_noise y st StaticFalse = Some (y', e, st') /\
    fst y' tt = fst y tt + hm /\ snd y' tt = 1 /\ ls_h st' = h /\ ls_coeffs st' tt = ALIGNCoeffs 1 hm (hm / 2) 1 hm.
Proof.
  intros Hh Hv Hk He.
  destruct (free_step 0 st true h y StaticFalse) as (y' & e & st' & [Hs|Hs]).
  2:{ rewrite (proj1 (pf_C53_gradient_reused _ (1 / 10) [tt] (free_terms 0) hs y) st Hh) in Hs. discriminate. }
  exists y', e, st'. split; [exact Hs|].
  pose proof (proj1 (pf_C53_gradient_reused _ (1 / 10) [tt] (free_terms 0) hs y) st Hh) as Hf.
  destruct (step_some _ _ _ _ _ _ _ _ _ _ _ _ Hs) as (pf & x & v & f & Hc & -> & Hj & _ & ->).
  rewrite (Hj eq_refl), Hf in Hc.
  apply isclose_iff in He. rewrite He in Hc |- *. cbn [andb] in Hc |- *.
  cbn [fl_compute_step ALIGN] in Hc. unfold align_compute_step in Hc. injection Hc as <- <- <- <-.
  cbn [fst snd ls_h ls_coeffs]. rewrite Hk. cbn. rewrite Hv. repeat split; lra.
Qed.

Definition growth : R := 1 + / 10 ^ 10.
Lemma growth_pos : 1 < growth. Proof. unfold growth. lra. Qed.
Lemma growth_pow n : 0 < growth ^ n. Proof. apply pow_lt. pose proof growth_pos. lra. Qed.
Lemma taken_equal_growth n : taken_equal (growth ^ n) (growth ^ (n + 1)).
Proof.
  unfold taken_equal. rewrite pow_add, pow_1. pose proof (growth_pow n) as Hp. set (q := growth ^ n) in *. clearbody q.
  assert (Hq : q - q * growth = - (q * / 10 ^ 10)) by (unfold growth; ring). rewrite Hq.
  assert (H10 : 0 < / 10 ^ 10) by lra. assert (H12 : 0 < / 10 ^ 12) by lra.
  assert (0 < q * / 10 ^ 10) by (apply Rmult_lt_0_compat; lra).
  assert (Hg : q * growth = q + q * / 10 ^ 10) by (unfold growth; ring).
  rewrite Rabs_Ropp, !Rabs_pos_eq; [|rewrite Hg; lra|lra].
  rewrite Hg. assert (0 < / 10 ^ 10 * (q * / 10 ^ 10)) by (apply Rmult_lt_0_compat; lra). lra.
Qed.
Lemma drifting n : exists hs y st, history (ALIGN (1 / 10)) [tt] (free_terms 0) hs y st /\ length hs = Datatypes.S n /\
  all_taken_equal hs /\ ls_h st = growth ^ n /\ snd y tt = 1 /\ ls_coeffs st tt = ALIGNCoeffs 1 1 (1 / 2) 1 1.
Proof.
  induction n as [|n (hs & y & st & Hh & Hl & HA & Hg & Hv & Hk)].
  - destruct (free_init 0 1 (fun _ => 0)) as [st Hi]. exists [1], ((fun _ => 0), (fun _ => 1)), st.
    split; [constructor; exact Hi|]. rewrite (init_some _ _ _ _ _ _ Hi). cbn [ls_h ls_coeffs snd length pow].
    repeat split; auto. rewrite (recompute_fresh (ALIGN (1 / 10))) by (left; reflexivity).
    replace (lt_gamma_drift (free_terms 0)) with (fun _ : unit => 0) by reflexivity. rewrite free_fresh. reflexivity.
  - destruct (free_move hs y st (growth ^ (n + 1)) 1 Hh Hv Hk) as (y' & e & st' & Hs & _ & Hv' & Hg' & Hk').
    { rewrite Hg. apply taken_equal_growth. }
    exists (growth ^ (n + 1) :: hs), y', st'. split; [econstructor; eassumption|].
    split; [cbn; now rewrite Hl|]. split.
    { destruct (history_holds _ _ _ _ _ _ Hh) as (_ & _ & _ & _ & (tl & ->) & _). cbn. split; [|exact HA].
      rewrite Hg. apply taken_equal_growth. }
    rewrite Hg'. repeat split; auto. f_equal. lia.
Qed.

(** The claim that the coefficients are those of the current step is false: after enough slowly growing steps, a free particle
    of velocity one moves by one in a step of any given length. *)
Lemma pf_C53_drift_refuted :
  forall B : R, exists (hs : list R) (y y' : (unit -> R) * (unit -> R)) (st st' : langevin_state unit align_coeffs)
    (h : R) (e : option ((unit -> R) * (unit -> R))),
    history (ALIGN (1 / 10)) [tt] (free_terms 0) hs y st /\ all_taken_equal (h :: hs) /\
    langevin_step (ALIGN (1 / 10)) [tt] (free_terms 0) true h no_noise y st StaticFalse = Some (y', e, st') /\
    B < h /\ snd y tt = 1 /\ fst y' tt = fst y tt + 1.
Proof.
  intros B. assert (exists n, B < growth ^ n) as [n Hn].
  { pose proof growth_pos. destruct (Pow_x_infinity growth ltac:(rewrite Rabs_pos_eq; lra) (B + 1)) as [N HN].
    exists N. specialize (HN N (le_n N)). rewrite Rabs_pos_eq in HN; [lra|]. left. apply growth_pow. }
  destruct (drifting n) as (hs & y & st & Hh & Hl & HA & Hg & Hv & Hk).
  destruct (free_move hs y st (growth ^ (n + 1)) 1 Hh Hv Hk) as (y' & e & st' & Hs & Hx & _).
  { rewrite Hg. apply taken_equal_growth. }
  exists hs, y, y', st, st', (growth ^ (n + 1)), e. repeat split; auto.
  - destruct (history_holds _ _ _ _ _ _ Hh) as (_ & _ & _ & _ & (tl & ->) & _). cbn. split; [|exact HA].
    rewrite Hg. apply taken_equal_growth.
  - rewrite pow_add, pow_1. pose proof growth_pos. pose proof (growth_pow n). nra.
Qed.

(** Steps shorter than [10^-12] are all taken to be of the same size: after [init] with [h0], a step [h] moves the particle
    by [h0]. *)
Lemma pf_C53_tiny_steps_refuted :
  exists (h0 h : R) (y y' : (unit -> R) * (unit -> R)) (st st' : langevin_state unit align_coeffs)
    (e : option ((unit -> R) * (unit -> R))),
    history (ALIGN (1 / 10)) [tt] (free_terms 0) [h0] y st /\
    langevin_step (ALIGN (1 / 10)) [tt] (free_terms 0) true h no_noise y st StaticFalse = Some (y', e, st') /\
    0 < h /\ h0 = 1000 * h /\ snd y tt = 1 /\ fst y' tt = fst y tt + 1000 * h.
Proof.
  destruct (free_init 0 (1000 * / 10 ^ 15) (fun _ => 0)) as [st Hi].
  set (y := ((fun _ : unit => 0), (fun _ : unit => 1)) : (unit -> R) * (unit -> R)).
  assert (Hh : history (ALIGN (1 / 10)) [tt] (free_terms 0) [1000 * / 10 ^ 15] y st) by (constructor; exact Hi).
  destruct (free_move _ y st (/ 10 ^ 15) (1000 * / 10 ^ 15) Hh eq_refl) as (y' & e & st' & Hs & Hx & _).
  - rewrite (init_some _ _ _ _ _ _ Hi). cbn [ls_coeffs]. rewrite (recompute_fresh (ALIGN (1 / 10))) by (left; reflexivity).
    replace (lt_gamma_drift (free_terms 0)) with (fun _ : unit => 0) by reflexivity. apply free_fresh.
  - rewrite (init_some _ _ _ _ _ _ Hi). cbn [ls_h]. unfold taken_equal. rewrite !Rabs_pos_eq; lra.
  - exists (1000 * / 10 ^ 15), (/ 10 ^ 15), y, y', st, st', e. repeat split; auto. lra.
Qed.

(** What an element of a batch computes depends on the step sizes of the other elements. *)
Lemma pf_C53_batch_refuted :
  exists (h : R) (y y' y'' : (unit -> R) * (unit -> R)) (st st' st'' : langevin_state unit align_coeffs)
    (e e' : option ((unit -> R) * (unit -> R))),
    history (ALIGN (1 / 10)) [tt] (free_terms 0) [1] y st /\
    langevin_step (ALIGN (1 / 10)) [tt] (free_terms 0) true h no_noise y st StaticFalse = Some (y', e, st') /\
    langevin_step (ALIGN (1 / 10)) [tt] (free_terms 0) false h no_noise y st StaticFalse = Some (y'', e', st'') /\
    fst y' tt <> fst y'' tt.
Proof.
  destruct (free_init 0 1 (fun _ => 0)) as [st Hi].
  set (y := ((fun _ : unit => 0), (fun _ : unit => 1)) : (unit -> R) * (unit -> R)).
  assert (Hh : history (ALIGN (1 / 10)) [tt] (free_terms 0) [1] y st) by (constructor; exact Hi).
  destruct (free_move _ y st growth 1 Hh eq_refl) as (y' & e & st' & Hs & Hx & _).
  - rewrite (init_some _ _ _ _ _ _ Hi). cbn [ls_coeffs]. rewrite (recompute_fresh (ALIGN (1 / 10))) by (left; reflexivity).
    replace (lt_gamma_drift (free_terms 0)) with (fun _ : unit => 0) by reflexivity. apply free_fresh.
  - rewrite (init_some _ _ _ _ _ _ Hi). cbn [ls_h]. pose proof (taken_equal_growth 0) as Ht. cbn [pow Nat.add] in Ht.
    rewrite Rmult_1_r in Ht. exact Ht.
  - destruct (free_step 0 st false growth y StaticFalse) as (y'' & e' & st'' & [Hs'|Hf]).
    2:{ rewrite (init_some _ _ _ _ _ _ Hi) in Hf. discriminate. }
    exists growth, y, y', y'', st, st', st'', e, e'. repeat split; auto.
    destruct (step_some _ _ _ _ _ _ _ _ _ _ _ _ Hs') as (pf & x & v & f & Hc & -> & Hj & _ & _).
    rewrite (Hj eq_refl), (init_some _ _ _ _ _ _ Hi), andb_false_r in Hc.
    cbn [fl_compute_step ALIGN ls_gamma ls_u ls_taylor_coeffs ls_rho ls_prev_f fl_is_fsal] in Hc.
    unfold align_compute_step in Hc. injection Hc as Ex _ _ _. cbn [fst]. rewrite <- Ex, Hx.
    pose proof (recompute_fresh (D := unit) (ALIGN (1 / 10)) [tt] growth (fun _ => 0) tt (or_introl eq_refl)) as Hr.
    rewrite free_fresh in Hr.
    match type of Hr with (@eq _ ?l _) => match goal with |- context [recompute_coeffs ?a ?b ?c ?d ?e tt] =>
      change (recompute_coeffs a b c d e tt) with l end end.
    rewrite Hr. cbn. pose proof growth_pos. lra.
Qed.

(** Backwards in time, [h * gamma] is negative and always below the threshold: the Taylor coefficients are used however large
    it is.  With friction one, no force and no noise, the velocity grows by a factor of [exp 10] over a step of [-10]; the step
    gives less than half of that. *)
Lemma exp_mult_INR n x : exp (INR n * x) = exp x ^ n.
Proof.
  induction n as [|n IH]; [cbn [INR pow]; rewrite Rmult_0_l; apply exp_0|].
  rewrite S_INR, Rmult_plus_distr_r, exp_plus, IH, Rmult_1_l. cbn [pow]. ring.
Qed.
Lemma exp_10 : 3300 < exp 10.
Proof.
  assert (H : 3 / 2 < exp (1 / 2)) by (pose proof (exp_ineq1 (1 / 2) ltac:(lra)); lra).
  replace 10 with (INR 20 * (1 / 2)) by (cbn [INR]; field). rewrite exp_mult_INR.
  apply Rlt_le_trans with ((3 / 2) ^ 20); [lra|]. apply pow_incr. lra.
Qed.
Lemma pf_C53_backward_refuted :
  exists (y y' : (unit -> R) * (unit -> R)) (st st' : langevin_state unit align_coeffs)
    (e : option ((unit -> R) * (unit -> R))),
    history (ALIGN (1 / 10)) [tt] (free_terms 1) [- (10)] y st /\
    langevin_step (ALIGN (1 / 10)) [tt] (free_terms 1) true (- (10)) no_noise y st StaticFalse = Some (y', e, st') /\
    snd y tt = 1 /\ 0 < snd y' tt < exp (- 1 * - (10)) / 2 /\
    al_beta (align_direct (- (10)) 1) = exp (- 1 * - (10)).
Proof.
  destruct (free_init 1 (- (10)) (fun _ => 0)) as [st Hi].
  set (y := ((fun _ : unit => 0), (fun _ : unit => 1)) : (unit -> R) * (unit -> R)).
  assert (Hh : history (ALIGN (1 / 10)) [tt] (free_terms 1) [- (10)] y st) by (constructor; exact Hi).
  destruct (free_step 1 st true (- (10)) y StaticFalse) as (y' & e & st' & [Hs|Hf]).
  2:{ rewrite (init_some _ _ _ _ _ _ Hi) in Hf. discriminate. }
  exists y, y', st, st', e. split; [exact Hh|]. split; [exact Hs|]. split; [reflexivity|].
  replace (- 1 * - (10)) with 10 by ring. split.
  2:{ unfold align_direct. cbn [al_beta]. f_equal. ring. }
  destruct (step_some _ _ _ _ _ _ _ _ _ _ _ _ Hs) as (pf & x & v & f & Hc & -> & Hj & _ & _).
  rewrite (Hj eq_refl), (init_some _ _ _ _ _ _ Hi) in Hc. cbn [ls_h ls_coeffs ls_gamma ls_u ls_taylor_coeffs ls_rho ls_prev_f] in Hc.
  assert (Ht : isclose (- (10)) (- (10)) (1 / 10 ^ 10) (1 / 10 ^ 12) = true).
  { apply isclose_iff. unfold taken_equal. rewrite Rminus_eq_0, Rabs_R0, Rabs_Ropp, Rabs_pos_eq; lra. }
  rewrite Ht in Hc. cbn [andb] in Hc.
  cbn [fl_compute_step ALIGN fl_is_fsal] in Hc.
  unfold align_compute_step in Hc. injection Hc as _ Ev _ _. cbn [snd]. rewrite <- Ev.
  pose proof (recompute_fresh (D := unit) (ALIGN (1 / 10)) [tt] (- (10)) (fun _ => 1) tt (or_introl eq_refl)) as Hr.
  cbv beta. set (k := recompute_coeffs _ _ _ _ _ tt).
  assert (Ek : k = fresh (D := unit) (ALIGN (1 / 10)) (fun _ => 1) (- (10)) tt) by exact Hr. clearbody k. rewrite Ek.
  unfold fresh. cbn [ALIGN fl_taylor_threshold fl_map fl_tay]. destruct (Rlt_dec _ _) as [_|n]; [|exfalso; apply n; lra].
  cbn [lv_w lv_h no_noise free_terms lt_grad_f lt_u_drift snd y].
  poly. pose proof exp_10. lra.
Qed.

(** After a jump to another force the gradient is that of the new force. *)
Lemma pf_C53_jump (D : Type) (th : R) (dims : list D) (T : langevin_terms D) (grad' : (D -> R) -> D -> R) (hs : list R)
    (y : (D -> R) * (D -> R)) (others_close : bool) (h : R) (lv : levy D) :
  let T' := LTerms (lt_gamma_drift T) (lt_u_drift T) (lt_gamma_diffusion T) (lt_u_diffusion T) grad' in
  (forall st, history (ALIGN th) dims T hs y st ->
     langevin_step (ALIGN th) dims T' others_close h lv y st (Traced true) =
     langevin_step (ALIGN th) dims T' others_close h lv y
       (LState (ls_gamma st) (ls_u st) (ls_h st) (ls_taylor_coeffs st) (ls_coeffs st) (ls_rho st) (Some (grad' (fst y)))) StaticFalse) /\
  (forall st, history (ShOULD th) dims T hs y st ->
     langevin_step (ShOULD th) dims T' others_close h lv y st (Traced true) =
     langevin_step (ShOULD th) dims T' others_close h lv y
       (LState (ls_gamma st) (ls_u st) (ls_h st) (ls_taylor_coeffs st) (ls_coeffs st) (ls_rho st) (Some (grad' (fst y)))) StaticFalse).
Proof.
  cbv zeta. destruct (pf_C53_gradient_reused D th dims T hs y) as (HA & HB & _).
  split; intros st H; unfold langevin_step; cbn [ls_prev_f ls_h ls_gamma ls_u ls_taylor_coeffs ls_coeffs ls_rho lt_grad_f];
    [rewrite (HA st H)|rewrite (HB st H)]; reflexivity.
Qed.
