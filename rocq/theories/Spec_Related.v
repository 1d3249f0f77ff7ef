(** Vocabulary for two solves side by side: what it means that related inputs are treated alike. *)
From Coq Require Import ZArith List Bool Arith.
From Verif Require Import Model_Result Model_Loop Spec_Loop.
Import ListNotations.
Open Scope Z_scope.

Definition opt_related {A B : Type} (P : A -> B -> Prop) (a : option A) (b : option B) : Prop :=
  match a, b with Some a, Some b => P a b | None, None => True | _, _ => False end.

Section Related.
  Context {Y SS CS DI E V MS Y' SS' CS' DI' E' V' MS' : Type}.
  Notation config := (config Y SS CS DI E V MS).
  Notation config' := (Model_Loop.config Y' SS' CS' DI' E' V' MS').
  (** Relations between the solutions, solver states, controller states, dense infos, error estimates and saved
      values of the two solves. *)
  Variables (RY : Y -> Y' -> Prop) (RS : SS -> SS' -> Prop) (RC : CS -> CS' -> Prop)
            (RD : DI -> DI' -> Prop) (RE : E -> E' -> Prop) (RV : V -> V' -> Prop).

  (** From related values the solvers step to related values, with the same result. *)
  Definition steps_related (c : config) (c' : config') : Prop :=
    forall a b y y' s s' j, RY y y' -> RS s s' ->
      let so := solver_step c a b y s j in
      let so' := solver_step c' a b y' s' j in
      RY (so_y so) (so_y so') /\ RE (nan_to_inf c (so_error so)) (nan_to_inf c' (so_error so')) /\
      RD (so_dense so) (so_dense so') /\ RS (so_state so) (so_state so') /\ so_result so = so_result so'.
  Definition interpolations_related (c : config) (c' : config') : Prop :=
    forall a b d d' t, RD d d' -> RY (interpolate c a b d t) (interpolate c' a b d' t).
  (** On related values the controllers take the same decisions. *)
  Definition controllers_related (c : config) (c' : config') : Prop :=
    forall a b y y' y1 y1' e e' s s', RY y y' -> RY y1 y1' -> RE e e' -> RC s s' ->
      let ao := adapt c a b y y1 e s in
      let ao' := adapt c' a b y' y1' e' s' in
      ao_keep ao = ao_keep ao' /\ ao_tprev ao = ao_tprev ao' /\ ao_tnext ao = ao_tnext ao' /\ ao_jump ao = ao_jump ao' /\
      RC (ao_state ao) (ao_state ao') /\ ao_result ao = ao_result ao'.
  (** The same times are saved, of related values related functions. *)
  Definition sub_related (s : subsaveat Y V) (s' : subsaveat Y' V') : Prop :=
    sub_t0 s = sub_t0 s' /\ sub_t1 s = sub_t1 s' /\ sub_ts s = sub_ts s' /\ sub_steps s = sub_steps s' /\
    forall t y y', RY y y' -> RV (sub_fn s t y) (sub_fn s' t y').
  (** Events see no difference. *)
  Definition cond_related (f : cond_fn Y) (f' : cond_fn Y') : Prop :=
    match f, f' with
    | BoolCond f, BoolCond f' => forall t y y', RY y y' -> f t y = f' t y'
    | RealCond f d, RealCond f' d' => d = d' /\ forall t y y', RY y y' -> f t y = f' t y'
    | _, _ => False
    end.
  Definition event_related (e : event Y) (e' : event Y') : Prop :=
    Forall2 cond_related (ev_cond_fn e) (ev_cond_fn e') /\ ev_root_finder e = ev_root_finder e'.
  Definition configs_related (c : config) (c' : config') : Prop :=
    steps_related c c' /\ interpolations_related c c' /\ controllers_related c c' /\
    stepto_len c = stepto_len c' /\ (forall a b, midpoint c a b = midpoint c' a b) /\
    Forall2 sub_related (cfg_subs c) (cfg_subs c') /\ cfg_dense c = cfg_dense c' /\
    opt_related event_related (cfg_event c) (cfg_event c') /\
    cfg_t0 c = cfg_t0 c' /\ cfg_t1 c = cfg_t1 c' /\ cfg_max_steps c = cfg_max_steps c'.
  Definition initials_related (i : initial Y SS CS MS) (i' : initial Y' SS' CS' MS') : Prop :=
    RY (in_y i) (in_y i') /\ in_tnext i = in_tnext i' /\ in_made_jump i = in_made_jump i' /\
    RS (in_solver_state i) (in_solver_state i') /\ RC (in_controller_state i) (in_controller_state i') /\ in_pad i = in_pad i'.

  (** Saved output: the same times, related values, the same empty entries. *)
  Definition saves_related (s : save_state V) (s' : save_state V') : Prop :=
    ss_ts s = ss_ts s' /\ Forall2 (opt_related RV) (ss_ys s) (ss_ys s').
  (** What the user sees of two solves: final time and value, result, statistics, output, dense output, event. *)
  Definition outcomes_related (o : outcome Y SS CS DI V MS) (o' : outcome Y' SS' CS' DI' V' MS') : Prop :=
    out_tfinal o = out_tfinal o' /\ RY (out_yfinal o) (out_yfinal o') /\ out_result o = out_result o' /\
    Forall2 saves_related (out_save o) (out_save o') /\
    let s := out_state o in
    let s' := out_state o' in
    st_num_steps s = st_num_steps s' /\ st_num_accepted s = st_num_accepted s' /\ st_num_rejected s = st_num_rejected s' /\
    st_dense_ts s = st_dense_ts s' /\ Forall2 (opt_related RD) (st_dense_infos s) (st_dense_infos s') /\
    st_event_mask s = st_event_mask s' /\
    RS (st_solver_state s) (st_solver_state s') /\ RC (st_controller_state s) (st_controller_state s') /\
    st_made_jump s = st_made_jump s'.
End Related.
