(** Proofs about changes of units with adaptive step sizes. *)
From Coq Require Import QArith Qabs Qminmax Lqa ZArith List Bool Arith Lia Setoid.
From Verif Require Import Model_Result Model_Loop Model_Float Model_PID Spec_Loop Spec_PID Spec_Units Spec_Related Proof_Related Model_Clip.
Import ListNotations.
Open Scope Q_scope.

Lemma qle_scale k x y x' y' : 0 < k -> x' == k * x -> y' == k * y -> Qle_bool x y = Qle_bool x' y'.
Proof.
  intros K Hx Hy. apply eq_true_iff_eq. rewrite !Qle_bool_iff, Hx, Hy. symmetry. apply Qmult_le_l, K.
Qed.
Lemma qeq_scale k x x' : 0 < k -> x' == k * x -> Qeq_bool x 0 = Qeq_bool x' 0.
Proof.
  intros K Hx. apply eq_true_iff_eq. rewrite !Qeq_bool_iff, Hx. split; intros H; [rewrite H; ring|].
  destruct (Qmult_integral _ _ H) as [Q|Q]; [|exact Q]. rewrite Q in K. destruct (Qlt_irrefl _ K).
Qed.
Lemma qle0_scale k x x' : 0 < k -> x' == k * x -> Qle_bool 0 x = Qle_bool 0 x'.
Proof. intros K H. apply (qle_scale k); [exact K|ring|exact H]. Qed.

Section Scale.
  Variables (k : Q) (K : 0 < k).
  Lemma times_le a a' b b' : times k a a' -> times k b b' -> xle a b = xle a' b'.
  Proof. destruct a, a'; cbn; intros Ha; try contradiction; destruct b, b'; cbn; intros Hb; try contradiction; try reflexivity. apply (qle_scale k); assumption. Qed.
  Lemma times_lt a a' b b' : times k a a' -> times k b b' -> xlt a b = xlt a' b'.
  Proof.
    intros Ha Hb. pose proof (times_le _ _ _ _ Hb Ha) as Q.
    destruct a, a'; cbn in Ha; try contradiction; destruct b, b'; cbn in Hb; try contradiction; cbn in *; rewrite ?Q; reflexivity.
  Qed.
  Lemma times_eq a a' b b' : times k a a' -> times k b b' -> xeq a b = xeq a' b'.
  Proof. intros Ha Hb. unfold xeq. rewrite (times_le a a' b b'), (times_le b b' a a') by assumption. reflexivity. Qed.
  Lemma times_min a a' b b' : times k a a' -> times k b b' -> times k (xmin a b) (xmin a' b').
  Proof.
    intros Ha Hb. pose proof (times_le _ _ _ _ Ha Hb) as Q. unfold xmin. rewrite <- Q.
    destruct a, a'; cbn in Ha; try contradiction; destruct b, b'; cbn in Hb; try contradiction; try exact Logic.I; destruct (xle _ _); cbn; assumption || exact Logic.I.
  Qed.
  Lemma times_max a a' b b' : times k a a' -> times k b b' -> times k (xmax a b) (xmax a' b').
  Proof.
    intros Ha Hb. pose proof (times_le _ _ _ _ Ha Hb) as Q. unfold xmax. rewrite <- Q.
    destruct a, a'; cbn in Ha; try contradiction; destruct b, b'; cbn in Hb; try contradiction; try exact Logic.I; destruct (xle _ _); cbn; assumption || exact Logic.I.
  Qed.
  Lemma times_add a a' b b' : times k a a' -> times k b b' -> times k (xadd a b) (xadd a' b').
  Proof. destruct a, a'; cbn; intros Ha; try contradiction; destruct b, b'; cbn; intros Hb; try contradiction; try exact Logic.I. rewrite Ha, Hb. ring. Qed.
  Lemma times_neg a a' : times k a a' -> times k (xneg a) (xneg a').
  Proof. destruct a, a'; cbn; intros Ha; try contradiction; try exact Logic.I. rewrite Ha. ring. Qed.
  Lemma times_sub a a' b b' : times k a a' -> times k b b' -> times k (xsub a b) (xsub a' b').
  Proof. intros Ha Hb. apply times_add; [exact Ha|apply times_neg, Hb]. Qed.
  Lemma times_abs a a' : times k a a' -> times k (xabs a) (xabs a').
  Proof. destruct a, a'; cbn; intros Ha; try contradiction; try exact Logic.I. rewrite Ha, Qabs_Qmult, (Qabs_pos k) by (apply Qlt_le_weak, K). reflexivity. Qed.
  Lemma times_nan a a' : times k a a' -> is_nan a = is_nan a'.
  Proof. destruct a, a'; cbn; intros Ha; try contradiction; reflexivity. Qed.
  Lemma times_inf a a' : times k a a' -> is_inf a = is_inf a'.
  Proof. destruct a, a'; cbn; intros Ha; try contradiction; reflexivity. Qed.
  Lemma sgn_scale x x' : x' == k * x -> sgn_inf x = sgn_inf x'.
  Proof. intros H. unfold sgn_inf. rewrite (qeq_scale k x x' K H), (qle0_scale k x x' K H). reflexivity. Qed.
End Scale.
Lemma times_refl a : times 1 a a.
Proof. destruct a; cbn; try exact Logic.I. ring. Qed.
Lemma times_special k m a : (forall q, a <> QFin q) -> times k a a /\ times m a a.
Proof. destruct a; intros H; try (split; exact Logic.I). destruct (H q eq_refl). Qed.
Lemma sgn_self k x : times k (sgn_inf x) (sgn_inf x) /\ times k (xneg (sgn_inf x)) (xneg (sgn_inf x)).
Proof. unfold sgn_inf. destruct (Qeq_bool x 0), (Qle_bool 0 x); cbn; auto. Qed.
Lemma times_mul k m a a' b b' : 0 < k -> 0 < m -> times k a a' -> times m b b' -> times (k * m) (xmul a b) (xmul a' b').
Proof.
  intros K M Ha Hb. destruct a, a'; cbn in Ha; try contradiction; destruct b, b'; cbn in Hb; try contradiction; cbn; try exact Logic.I;
    try (rewrite <- (sgn_scale m M _ _ Hb); apply sgn_self); try (rewrite <- (sgn_scale k K _ _ Ha); apply sgn_self).
  rewrite Ha, Hb. ring.
Qed.
Lemma times_div k m a a' b b' : 0 < k -> 0 < m -> times k a a' -> times m b b' -> times (k / m) (xdiv a b) (xdiv a' b').
Proof.
  intros K M Ha Hb. destruct a, a'; cbn in Ha; try contradiction; destruct b, b'; cbn in Hb; try contradiction; cbn; try exact Logic.I;
    try (rewrite <- (qle0_scale m _ _ M Hb); destruct (Qle_bool 0 _); exact Logic.I); try ring.
  rewrite <- (qeq_scale m _ _ M Hb). destruct (Qeq_bool _ 0) eqn:E.
  - rewrite <- (sgn_scale k K _ _ Ha). apply sgn_self.
  - cbn. rewrite Ha, Hb. apply Qeq_bool_neq in E. field. split; [exact E|]. intros Q. rewrite Q in M. destruct (Qlt_irrefl _ M).
Qed.
Lemma times_compat k k' a b : k == k' -> times k a b -> times k' a b.
Proof. destruct a, b; cbn; auto. intros E H. rewrite H, E. reflexivity. Qed.

Lemma scale_leaf_units k c p p' y0 y0' y1 y1' e e' : 0 < k -> in_units k c p p' -> Forall2 (times k) y0 y0' -> Forall2 (times k) y1 y1' -> Forall2 (times k) e e' ->
  Forall2 (times 1) (scale_leaf p y0 y1 e) (scale_leaf p' y0' y1' e').
Proof.
  intros K U H0 H1 HE. unfold scale_leaf.
  assert (N : existsb is_nan y1 = existsb is_nan y1').
  { clear -H1. induction H1 as [|x x' l l' Hx _ IH]; [reflexivity|]. cbn. rewrite (times_nan k _ _ Hx), IH. reflexivity. }
  rewrite <- N.
  assert (HY : Forall2 (times k) (if existsb is_nan y1 then y0 else y1) (if existsb is_nan y1 then y0' else y1')) by (destruct (existsb is_nan y1); assumption).
  revert HY. generalize (if existsb is_nan y1 then y0 else y1) (if existsb is_nan y1 then y0' else y1'). clear N H1 y1 y1'. intros z z' HZ.
  assert (HM : Forall2 (times k) (map2 (fun a b => xmax (xabs a) (xabs b)) y0 z) (map2 (fun a b => xmax (xabs a) (xabs b)) y0' z')).
  { clear -K H0 HZ. revert z z' HZ. induction H0 as [|x x' l l' Hx _ IH]; intros z z' HZ; [constructor|]. destruct HZ as [|w w' m m' Hw HZ]; [constructor|].
    cbn. constructor; [|apply IH, HZ]. apply times_max; [exact K| |]; apply times_abs; assumption. }
  revert HM. generalize (map2 (fun a b => xmax (xabs a) (xabs b)) y0 z) (map2 (fun a b => xmax (xabs a) (xabs b)) y0' z'). clear -K U HE. intros w w' HW.
  revert w w' HW. induction HE as [|x x' l l' Hx _ IH]; intros w w' HW; [constructor|]. destruct HW as [|v v' m m' Hv HW]; [constructor|]. cbn. constructor; [|apply IH, HW].
  destruct U as (UA & _ & _ & UR & _). rewrite UR.
  apply (times_compat (k / k)). { field. intros Q. rewrite Q in K. destruct (Qlt_irrefl _ K). }
  apply times_div; [exact K|exact K|exact Hx|]. apply (times_add k (QFin (atol p)) (QFin (atol p'))); [exact UA|].
  apply (times_compat (k * 1)); [ring|]. apply times_mul; [exact K|reflexivity|exact Hv|apply times_refl].
Qed.
Lemma pf_C79_scaled_error (k c : Q) (p p' : pid_controller) (y0 y0' y1 y1' e e' : tree) :
  0 < k -> numeric p -> in_units k c p p' -> tree_times k y0 y0' -> tree_times k y1 y1' -> tree_times k e e' ->
  same_number (scaled_error p y0 y1 e) (scaled_error p' y0' y1' e').
Proof.
  intros K (NN & _) U H0 H1 HE. unfold scaled_error. pose proof U as (_ & _ & _ & _ & UN & _). rewrite UN. apply NN.
  unfold tree_times in *. revert y1 y1' H1 e e' HE. induction H0 as [|x x' l l' Hx _ IH]; intros y1 y1' H1 e e' HE; [constructor|].
  destruct H1 as [|w w' m m' Hw H1]; [constructor|]. destruct HE as [|v v' n n' Hv HE]; [constructor|]. cbn. constructor; [|apply (IH m m' H1 n n' HE)].
  apply (scale_leaf_units k c); assumption.
Qed.
Lemma factor_units k c p p' keep a a' b b' d d' : numeric p -> in_units k c p p' -> same_number a a' -> same_number b b' -> same_number d d' ->
  same_number (pid_factor p keep a b d) (pid_factor p' keep a' b' d').
Proof.
  intros (_ & NP) (_ & _ & _ & _ & _ & UP & U1 & U2 & U3 & _ & U4 & U5 & U6 & U7) Ha Hb Hd.
  unfold pid_factor. rewrite UP, U1, U2, U3, U4, U5, U6, U7. unfold xclip.
  assert (F : forall q x x', same_number x x' -> same_number (if Qeq_bool q 0 then QFin 1 else power p x q) (if Qeq_bool q 0 then QFin 1 else power p x' q)).
  { intros q x x' H. destruct (Qeq_bool q 0); [apply times_refl|apply NP, H]. }
  assert (M : forall x x' z z', same_number x x' -> same_number z z' -> same_number (xmul x z) (xmul x' z')).
  { intros x x' z z' Hx Hz. apply (times_compat (1 * 1)); [ring|]. apply times_mul; try reflexivity; assumption. }
  apply times_min; [reflexivity| |apply times_refl]. apply times_max; [reflexivity| |apply times_refl].
  apply M; [apply M; [apply M; [apply times_refl|]|]|]; apply F; assumption.
Qed.

Lemma pf_C79_init (k c : Q) (p p' : pid_controller) (t0 t0' dt0 dt0' : xq) :
  0 < c -> in_units k c p p' -> times c t0 t0' -> times c dt0 dt0' ->
  times c (fst (pid_init p t0 dt0)) (fst (pid_init p' t0' dt0')) /\ same_state (snd (pid_init p t0 dt0)) (snd (pid_init p' t0' dt0')).
Proof.
  intros C (_ & UM & UX & _) H0 HD. unfold pid_init. cbn [fst snd]. split; [|repeat split; apply times_refl]. apply times_add; [exact H0|].
  assert (Q : times c (match dtmax p with Some m => xmin dt0 (QFin m) | None => dt0 end) (match dtmax p' with Some m => xmin dt0' (QFin m) | None => dt0' end)).
  { destruct (dtmax p), (dtmax p'); cbn in UX; try contradiction; [|exact HD]. apply times_min; [exact C|exact HD|exact UX]. }
  destruct (dtmin p), (dtmin p'); cbn in UM; try contradiction; [|exact Q]. apply times_max; [exact C|exact Q|exact UM].
Qed.

Lemma pf_C79_adapt (k c : Q) (p p' : pid_controller) (t0 t0' t1 t1' : xq) (y0 y0' y1 y1' e e' : tree) (s s' : pid_state) :
  0 < k -> 0 < c -> numeric p -> in_units k c p p' -> times c t0 t0' -> times c t1 t1' ->
  tree_times k y0 y0' -> tree_times k y1 y1' -> tree_times k e e' -> same_state s s' ->
  let r := pid_adapt p t0 t1 y0 y1 e s in
  let r' := pid_adapt p' t0' t1' y0' y1' e' s' in
  po_keep r = po_keep r' /\ times c (po_t0 r) (po_t0 r') /\ times c (po_t1 r) (po_t1 r') /\ same_state (po_state r) (po_state r') /\
  po_result r = po_result r'.
Proof.
  intros K C N U H0 H1 HY0 HY1 HE (S1 & S2 & S3).
  pose proof (pf_C79_scaled_error k c p p' y0 y0' y1 y1' e e' K N U HY0 HY1 HE) as SE.
  cbn zeta. unfold pid_adapt.
  set (sc := scaled_error p y0 y1 e) in *. set (sc' := scaled_error p' y0' y1' e') in *. clearbody sc sc'.
  assert (one : 0 < 1) by reflexivity.
  assert (LT : xlt sc (QFin 1) = xlt sc' (QFin 1)) by (apply (times_lt 1 one); [exact SE|apply times_refl]).
  rewrite <- LT, <- S3.
  assert (KE : (match dtmin p with Some _ => xlt sc (QFin 1) || at_dtmin s | None => xlt sc (QFin 1) end) =
               (match dtmin p' with Some _ => xlt sc (QFin 1) || at_dtmin s | None => xlt sc (QFin 1) end)).
  { pose proof U as (_ & UM & _). destruct (dtmin p), (dtmin p'); cbn in UM; try contradiction; reflexivity. }
  rewrite <- KE. set (keep := match dtmin p with Some _ => xlt sc (QFin 1) || at_dtmin s | None => xlt sc (QFin 1) end). clearbody keep. clear KE LT.
  assert (INV : same_number (xdiv (QFin 1) sc) (xdiv (QFin 1) sc')).
  { apply (times_compat (1 / 1)); [reflexivity|]. apply times_div; [exact one|exact one|apply times_refl|exact SE]. }
  set (inv := xdiv (QFin 1) sc) in *. set (inv' := xdiv (QFin 1) sc') in *. clearbody inv inv'.
  pose proof (factor_units k c p p' keep _ _ _ _ _ _ N U INV S1 S2) as FA.
  set (f := pid_factor p keep inv _ _) in *. set (f' := pid_factor p' keep inv' _ _) in *. clearbody f f'.
  assert (DT : times c (xmul (xsub t1 t0) f) (xmul (xsub t1' t0') f')).
  { apply (times_compat (c * 1)); [ring|]. apply times_mul; [exact C|exact one|apply times_sub; assumption|exact FA]. }
  set (dt := xmul (xsub t1 t0) f) in *. set (dt' := xmul (xsub t1' t0') f') in *. clearbody dt dt'.
  assert (IN2 : same_number (if xeq inv (QFin 0) || is_inf inv then QFin 1 else inv) (if xeq inv' (QFin 0) || is_inf inv' then QFin 1 else inv')).
  { rewrite <- (times_inf 1 _ _ INV), <- (times_eq 1 one inv inv' (QFin 0) (QFin 0) INV (times_refl _)). destruct (_ || _); [apply times_refl|exact INV]. }
  set (i2 := if xeq inv (QFin 0) || is_inf inv then QFin 1 else inv) in *. set (i2' := if xeq inv' (QFin 0) || is_inf inv' then QFin 1 else inv') in *. clearbody i2 i2'.
  pose proof U as (_ & UM & UX & _ & _ & _ & _ & _ & _ & UF & _). rewrite UF.
  assert (DX : times c (match dtmax p with Some m => xmin dt (QFin m) | None => dt end) (match dtmax p' with Some m => xmin dt' (QFin m) | None => dt' end)).
  { destruct (dtmax p), (dtmax p'); cbn in UX; try contradiction; [|exact DT]. apply times_min; [exact C|exact DT|exact UX]. }
  set (dx := match dtmax p with Some m => xmin dt (QFin m) | None => dt end) in *. set (dx' := match dtmax p' with Some m => xmin dt' (QFin m) | None => dt' end) in *. clearbody dx dx'.
  assert (FE : xeq f (QFin 1) = xeq f' (QFin 1)) by (apply (times_eq 1 one); [exact FA|apply times_refl]).
  assert (TN : times c (if keep then t1 else t0) (if keep then t1' else t0')) by (destruct keep; assumption).
  assert (ST : forall b, same_state (PidState (if keep then i2 else prev_inv_scaled_error s) (if keep then prev_inv_scaled_error s else prev_prev_inv_scaled_error s) b)
                (PidState (if keep then i2' else prev_inv_scaled_error s') (if keep then prev_inv_scaled_error s' else prev_prev_inv_scaled_error s') b)).
  { intros b. destruct keep; (split; [|split; [|reflexivity]]); cbn; assumption. }
  destruct (dtmin p) as [m|], (dtmin p') as [m'|]; cbn in UM; try contradiction.
  - rewrite <- FE. assert (TM : times c (QFin m) (QFin m')) by exact UM.
    rewrite <- (times_lt c C dx dx' (QFin m) (QFin m') DX TM).
    assert (D2 : times c (if at_dtmin s && xeq f (QFin 1) then QFin m else dx) (if at_dtmin s && xeq f (QFin 1) then QFin m' else dx')) by (destruct (_ && _); assumption).
    rewrite <- (times_le c C _ _ _ _ D2 TM). cbn [po_keep po_t0 po_t1 po_state po_result].
    split; [reflexivity|]. split; [exact TN|]. split; [apply times_add; [exact TN|]; apply times_max; assumption|]. split; [apply ST|reflexivity].
  - cbn [po_keep po_t0 po_t1 po_state po_result]. split; [reflexivity|]. split; [exact TN|]. split; [apply times_add; [exact TN|exact DX]|]. split; [apply ST|reflexivity].
Qed.

Section Solve.
  Context {SS DI V MS SS' DI' V' MS' : Type}.
  Notation config := (config tree SS pid_state DI tree V MS).
  Notation config' := (Model_Loop.config tree SS' pid_state DI' tree V' MS').
  Lemma controllers_units k c val val' rnd rnd' p p' (g : config) (g' : config') : 0 < k -> 0 < c -> numeric p -> in_units k c p p' -> clocks c val val' rnd rnd' ->
    (forall a b y0 y1 err s, adapt g a b y0 y1 err s = pid_loop_adapt val rnd p a b y0 y1 err s) ->
    (forall a b y0 y1 err s, adapt g' a b y0 y1 err s = pid_loop_adapt val' rnd' p' a b y0 y1 err s) ->
    controllers_related (tree_times k) same_state (tree_times k) g g'.
  Proof.
    intros K C N U (CV & CR) A A' a b y y' y1 y1' e e' s s' HY HY1 HE HS. cbn zeta. rewrite A, A'. unfold pid_loop_adapt.
    destruct (pf_C79_adapt k c p p' (QFin (val a)) (QFin (val' a)) (QFin (val b)) (QFin (val' b)) y y' y1 y1' e e' s s' K C N U (CV a) (CV b) HY HY1 HE HS) as (R1 & R2 & R3 & R4 & R5).
    cbn zeta in *. cbn [ao_keep ao_tprev ao_tnext ao_jump ao_state ao_result].
    assert (O : forall x x' d, times c x x' -> match x with QFin q => rnd q | _ => d end = match x' with QFin q => rnd' q | _ => d end).
    { intros x x' d. destruct x, x'; cbn; intros H; try contradiction; try reflexivity. symmetry. apply CR, H. }
    rewrite R1, R5, (O _ _ b R2), (O _ _ b R3). auto 10.
  Qed.
  Lemma pf_C79_solve (k c : Q) (val val' : Z -> Q) (rnd rnd' : Q -> Z) (p p' : pid_controller)
        (RS : SS -> SS' -> Prop) (RD : DI -> DI' -> Prop) (RV : V -> V' -> Prop) (g : config) (g' : config')
        (i : initial tree SS pid_state MS) (i' : initial tree SS' pid_state MS') (o : outcome tree SS pid_state DI V MS) :
    0 < k -> 0 < c -> numeric p -> in_units k c p p' -> clocks c val val' rnd rnd' ->
    (forall a b y0 y1 err s, adapt g a b y0 y1 err s = pid_loop_adapt val rnd p a b y0 y1 err s) ->
    (forall a b y0 y1 err s, adapt g' a b y0 y1 err s = pid_loop_adapt val' rnd' p' a b y0 y1 err s) ->
    steps_related (tree_times k) RS RD (tree_times k) g g' -> interpolations_related (tree_times k) RD g g' ->
    stepto_len g = stepto_len g' -> (forall a b, midpoint g a b = midpoint g' a b) ->
    Forall2 (sub_related (tree_times k) RV) (cfg_subs g) (cfg_subs g') -> cfg_dense g = cfg_dense g' ->
    opt_related (event_related (tree_times k)) (cfg_event g) (cfg_event g') ->
    cfg_t0 g = cfg_t0 g' -> cfg_t1 g = cfg_t1 g' -> cfg_max_steps g = cfg_max_steps g' ->
    initials_related (tree_times k) RS same_state i i' -> solves g i o ->
    exists o', solves g' i' o' /\ outcomes_related (tree_times k) RS same_state RD RV o o'.
  Proof.
    intros K C N U CL A A' H1 H2 H3 H4 H5 H6 H7 H8 H9 H10 HI HS.
    apply (pf_C76_related (tree_times k) RS same_state RD (tree_times k) RV g g' i i' o); [|exact HI|exact HS].
    unfold configs_related. repeat (split; [first [assumption | eapply (controllers_units k c); eassumption]|]). assumption.
  Qed.
End Solve.

(** [ClipStepSizeController] adds nothing that depends on units. *)
Section Clip.
  Context {Y E IS Y' E' IS' SS DI V MS SS' DI' V' MS' : Type}.
  Lemma pf_C79_clip (RY : Y -> Y' -> Prop) (RE : E -> E' -> Prop) (RI : IS -> IS' -> Prop)
        (k : clip_controller Y E IS) (k' : clip_controller Y' E' IS')
        (g : config Y SS (clip_state IS) DI E V MS) (g' : config Y' SS' (clip_state IS') DI' E' V' MS')
        (h : config Y SS IS DI E V MS) (h' : config Y' SS' IS' DI' E' V' MS') :
    adapt g = clip_adapt k -> adapt g' = clip_adapt k' -> adapt h = controller_adapt k -> adapt h' = controller_adapt k' ->
    controllers_related RY RI RE h h' -> controllers_related RY (same_clip RI) RE g g'.
  Proof.
    intros G G' H H' R a b y y' y1 y1' e e' s s' HY HY1 HE (S1 & S2 & S3 & S4). cbn zeta. rewrite G, G'.
    pose proof (R a b y y' y1 y1' e e' (inner_state s) (inner_state s') HY HY1 HE S4) as Q. cbn zeta in Q. rewrite H, H' in Q.
    destruct Q as (Q1 & Q2 & Q3 & Q4 & Q5 & Q6). unfold clip_adapt. rewrite <- Q1, <- Q2, <- Q3, <- Q4, <- Q6, <- S1, <- S2, <- S3.
    destruct (adapt_steps _ _ _) as (n1 & si). destruct (adapt_jumps _ _ _ _) as (((n0 & n1') & mj) & ji). destruct (adapt_rejects _ _ _ _ _) as ((n2 & r) & ri).
    cbn. unfold same_clip. cbn. auto 12.
  Qed.
End Clip.
