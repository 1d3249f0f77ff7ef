(** The adaptive controller and units: C79. *)
From Coq Require Import QArith Qround ZArith List Bool Arith Lia.
From Verif Require Import Model_Result Model_Loop Spec_Loop Model_Float Model_PID Model_Clip Spec_PID Spec_Units Spec_Related Proof_PropLoop Proof_Units Ex_Units Ex_Loop.
Import ListNotations.
Open Scope Q_scope.

(** C79: the scaled error does not depend on the unit of the solution, if [atol] is given in the same unit.  (NaN and infinite
    values included.) *)
  Theorem C79_scaled_error :
    forall (k c : Q) (p p' : pid_controller) (y0 y0' y1 y1' e e' : tree),
    0 < k -> numeric p -> in_units k c p p' -> tree_times k y0 y0' -> tree_times k y1 y1' -> tree_times k e e' ->
  same_number (scaled_error p y0 y1 e) (scaled_error p' y0' y1' e').
  Proof. exact pf_C79_scaled_error. Qed.
(** C79: nor does the first step depend on units. *)
  Theorem C79_init :
    forall (k c : Q) (p p' : pid_controller) (t0 t0' dt0 dt0' : xq),
    0 < c -> in_units k c p p' -> times c t0 t0' -> times c dt0 dt0' ->
  times c (fst (pid_init p t0 dt0)) (fst (pid_init p' t0' dt0')) /\ same_state (snd (pid_init p t0 dt0)) (snd (pid_init p' t0' dt0')).
  Proof. exact pf_C79_init. Qed.
(** C79: nor do decisions, and the next step is the same in the new unit of time. *)
  Theorem C79_adapt :
    forall (k c : Q) (p p' : pid_controller) (t0 t0' t1 t1' : xq) (y0 y0' y1 y1' e e' : tree) (s s' : pid_state),
    0 < k -> 0 < c -> numeric p -> in_units k c p p' -> times c t0 t0' -> times c t1 t1' ->
  tree_times k y0 y0' -> tree_times k y1 y1' -> tree_times k e e' -> same_state s s' ->
  let r := pid_adapt p t0 t1 y0 y1 e s in
  let r' := pid_adapt p' t0' t1' y0' y1' e' s' in
  po_keep r = po_keep r' /\ times c (po_t0 r) (po_t0 r') /\ times c (po_t1 r) (po_t1 r') /\ same_state (po_state r) (po_state r') /\
  po_result r = po_result r'.
  Proof. exact pf_C79_adapt. Qed.

Section Solve.
  Context {SS DI V MS SS' DI' V' MS' : Type}.
  Notation config := (config tree SS pid_state DI tree V MS).
  Notation config' := (Model_Loop.config tree SS' pid_state DI' tree V' MS').
  (** C79: a whole solve with adaptive steps: if the solver's steps do not depend on the units then neither do the attempts,
      the accepted steps, the statistics and the result, and all values returned are those in the new units. *)
  Theorem C79_solve :
    forall (k c : Q) (val val' : Z -> Q) (rnd rnd' : Q -> Z) (p p' : pid_controller) (RS : SS -> SS' -> Prop) (RD : DI -> DI' -> Prop) (RV : V -> V' -> Prop) (g : config) (g' : config') (i : initial tree SS pid_state MS) (i' : initial tree SS' pid_state MS') (o : outcome tree SS pid_state DI V MS),
    0 < k -> 0 < c -> numeric p -> in_units k c p p' -> clocks c val val' rnd rnd' ->
    (forall a b y0 y1 err s, adapt g a b y0 y1 err s = pid_loop_adapt val rnd p a b y0 y1 err s) ->
    (forall a b y0 y1 err s, adapt g' a b y0 y1 err s = pid_loop_adapt val' rnd' p' a b y0 y1 err s) ->
    steps_related (tree_times k) RS RD (tree_times k) g g' -> interpolations_related (tree_times k) RD g g' ->
    stepto_len g = stepto_len g' -> (forall a b, midpoint g a b = midpoint g' a b) ->
    Forall2 (sub_related (tree_times k) RV) (cfg_subs g) (cfg_subs g') -> cfg_dense g = cfg_dense g' ->
    opt_related (event_related (tree_times k)) (cfg_event g) (cfg_event g') ->
    cfg_t0 g = cfg_t0 g' -> cfg_t1 g = cfg_t1 g' -> cfg_max_steps g = cfg_max_steps g' ->
    initials_related (tree_times k) RS same_state i i' -> solves g i o ->
    exists o', solves g' i' o' /\ outcomes_related (tree_times k) RS same_state RD RV o o'.
  Proof. exact pf_C79_solve. Qed.
End Solve.

Section Clip.
  Context {Y E IS Y' E' IS' SS DI V MS SS' DI' V' MS' : Type}.
  (** C79: a [ClipStepSizeController] around controllers that decide alike decides alike. *)
  Theorem C79_clip :
    forall (RY : Y -> Y' -> Prop) (RE : E -> E' -> Prop) (RI : IS -> IS' -> Prop) (k : clip_controller Y E IS) (k' : clip_controller Y' E' IS') (g : config Y SS (clip_state IS) DI E V MS) (g' : config Y' SS' (clip_state IS') DI' E' V' MS') (h : config Y SS IS DI E V MS) (h' : config Y' SS' IS' DI' E' V' MS'),
    adapt g = clip_adapt k -> adapt g' = clip_adapt k' -> adapt h = controller_adapt k -> adapt h' = controller_adapt k' ->
    controllers_related RY RI RE h h' -> controllers_related RY (same_clip RI) RE g g'.
  Proof. exact pf_C79_clip. Qed.
End Clip.

(** C79: ... with a time to step to, one to jump at, and storage for rejected steps. *)
Example C79_clip_instance :
  let h := decay_cfg 1 1 in
  let h' := decay_cfg 1000 (1#3) in
  let k c := ClipController c (Some [300%Z]) (Some [700%Z]) (Some 4%nat) in
  let g := with_adapt h (clip_adapt (k (adapt h))) in
  let g' := with_adapt h' (clip_adapt (k (adapt h'))) in
  controllers_related (tree_times 1000) (same_clip same_state) (tree_times 1000) g g'.
Proof.
  cbn zeta. eapply C79_clip with (h := decay_cfg 1 1) (h' := decay_cfg 1000 (1#3)); try reflexivity.
  apply (controllers_units 1000 (1#3) (tick 1) (tick (1#3)) (round_tick 1) (round_tick (1#3)) (unit_pid 1 1) (unit_pid 1000 (1#3))); try reflexivity.
  - apply unit_pid_numeric.
  - apply unit_pid_in_units.
  - apply ticks. reflexivity.
Qed.

(** C79: decay with rejected steps, in metres and seconds, and in units of 1/1000 metre and 3 seconds. *)
Example C79_instance : numeric (unit_pid 1 1) /\ in_units 1000 (1#3) (unit_pid 1 1) (unit_pid 1000 (1#3)) /\
  clocks (1#3) (tick 1) (tick (1#3)) (round_tick 1) (round_tick (1#3)) /\
  exists o o', solves (decay_cfg 1 1) (decay_initial 1) o /\ solves (decay_cfg 1000 (1#3)) (decay_initial 1000) o' /\
    out_result o = successful /\ (st_num_rejected (out_state o) = 3)%nat /\ st_num_steps (out_state o') = st_num_steps (out_state o) /\
    tree_times 1000 (out_yfinal o) (out_yfinal o').
Proof.
  assert (H1 := unit_pid_numeric 1 1). assert (H2 := unit_pid_in_units 1000 (1#3)). assert (H3 := ticks (1#3) eq_refl).
  split; [exact H1|]. split; [exact H2|]. split; [exact H3|].
  assert (Q : exists o, solves (decay_cfg 1 1) (decay_initial 1) o /\ out_result o = successful /\ (st_num_rejected (out_state o) = 3)%nat).
  { assert (R : exists h o, solve_run (decay_cfg 1 1) (decay_initial 1) h o /\ (out_result o, st_num_rejected (out_state o)) = (successful, 3%nat)).
    { apply runs. vm_compute. reflexivity. }
    destruct R as (h & o & R & E). injection E as E1 E2. exists o. split; [apply run_solves; exists h; exact R|auto]. }
  destruct Q as (o & S & R1 & R2).
  destruct (C79_solve 1000 (1#3) (tick 1) (tick (1#3)) (round_tick 1) (round_tick (1#3)) (unit_pid 1 1) (unit_pid 1000 (1#3)) eq (tree_times 1000) (tree_times 1000)
              (decay_cfg 1 1) (decay_cfg 1000 (1#3)) (decay_initial 1) (decay_initial 1000) o) as (o' & S' & O); try reflexivity; try assumption.
  - apply decay_related; reflexivity.
  - intros a b d d' t H. exact H.
  - constructor; [|constructor]. repeat split. intros t y y' H. exact H.
  - apply decay_initials.
  - exists o, o'. destruct O as (_ & O1 & _ & _ & O2 & _). auto 10.
Qed.

Print Assumptions C79_scaled_error.
Print Assumptions C79_init.
Print Assumptions C79_adapt.
Print Assumptions C79_solve.
Print Assumptions C79_clip.
