(** Theorems about two solves side by side, and about quantities conserved: C76, C77. *)
From Coq Require Import ZArith Reals QArith Qreals List Bool Arith Lia Lra FunctionalExtensionality.
From Verif Require Import Model_Result Model_Loop Model_RK Model_Tableaus Model_Terms Model_Interp Model_DenseOutput Spec_Loop Spec_RK Spec_RKLoop
  Spec_Convergence Spec_Frame Spec_Related Spec_RelatedRK Spec_Invariant
  Proof_PropLoop Proof_Related Proof_RelatedRK Proof_Invariant Ex_Loop Ex_RK Ex_Frame Ex_Related.
Import ListNotations.
Open Scope R_scope.

Section Related.
  Context {Y SS CS DI E V MS Y' SS' CS' DI' E' V' MS' : Type}.
  Notation config := (config Y SS CS DI E V MS).
  Notation config' := (Model_Loop.config Y' SS' CS' DI' E' V' MS').
  (** C76: if the components of two solves treat related values alike, then so do the solves: every outcome of the
      first has a counterpart of the second, with the same times, result, statistics and event mask, and with related
      final values, saved values and dense output. *)
  Theorem C76_related :
    forall (RY : Y -> Y' -> Prop) (RS : SS -> SS' -> Prop) (RC : CS -> CS' -> Prop) (RD : DI -> DI' -> Prop) (RE : E -> E' -> Prop) (RV : V -> V' -> Prop) (c : config) (c' : config') (i : initial Y SS CS MS) (i' : initial Y' SS' CS' MS') (o : outcome Y SS CS DI V MS),
    configs_related RY RS RC RD RE RV c c' -> initials_related RY RS RC i i' -> solves c i o ->
    exists o', solves c' i' o' /\ outcomes_related RY RS RC RD RV o o'.
  Proof. exact pf_C76_related. Qed.
End Related.

Section Coordinates.
  Context {I I' J J' C CS CS' V V' MS MS' : Type}.
  Notation Y := (I -> R).
  Notation Y' := (I' -> R).
  Notation DI := (Y * Y * list (list Y))%type.
  Notation DI' := (Y' * Y' * list (list Y'))%type.
  Notation config := (config Y (solver_state J) CS DI (option Y) V MS).
  Notation config' := (Model_Loop.config Y' (solver_state J') CS' DI' (option Y') V' MS').
  Notation initial := (initial Y (solver_state J) CS MS).
  Notation initial' := (Model_Loop.initial Y' (solver_state J') CS' MS').
  (** C76: a solve by an explicit Runge--Kutta method, in new coordinates (other units, another order of the components,
      fewer components if these do not depend on the others): if the controllers take the same decisions then final value, saved
      values and dense output are the old ones in new coordinates. *)
  Theorem C76_coordinates :
    forall (fr : frame I I') (c : config) (c' : config') (i : initial) (i' : initial') (sv : solver I J C) (sv' : solver I' J' C) (s : nat) (interp : interpolation) (time : Z -> R) (RC : CS -> CS' -> Prop) (RV : V -> V' -> Prop) (o : outcome Y (solver_state J) CS DI V MS),
    at_rest fr -> fr_shift fr = 0 -> affine_interpolation (length (sv_parts sv)) s interp ->
    explicit_solve c i sv s interp time -> explicit_solve c' i' sv' s interp time ->
    parts_follow fr (sv_parts sv) (sv_parts sv') ->
    controllers_related (same_point fr) RC (same_error fr) c c' ->
    stepto_len c = stepto_len c' -> (forall a b, midpoint c a b = midpoint c' a b) ->
    Forall2 (sub_related (same_point fr) RV) (cfg_subs c) (cfg_subs c') -> cfg_dense c = cfg_dense c' ->
    opt_related (event_related (same_point fr)) (cfg_event c) (cfg_event c') ->
    cfg_t0 c = cfg_t0 c' -> cfg_t1 c = cfg_t1 c' -> cfg_max_steps c = cfg_max_steps c' ->
    in_y i' = point fr 0 (in_y i) -> in_tnext i = in_tnext i' -> in_made_jump i = in_made_jump i' ->
    RC (in_controller_state i) (in_controller_state i') -> in_pad i = in_pad i' ->
    solves c i o ->
    exists o', solves c' i' o' /\ outcomes_related (same_point fr) (fun _ _ => True) RC (same_dense fr) RV o o'.
  Proof. exact pf_C76_coordinates. Qed.
End Coordinates.

(** C76: the dense output of the methods shipped is affine, as required. *)
  Theorem C76_interpolations :
    forall (s : nat),
    (0 < s)%nat -> affine_interpolation 1 s hermite_from_k /\ affine_interpolation 1 s dopri5_interpolation /\
  affine_interpolation 1 s tsit5_interpolation /\ affine_interpolation 1 s dopri8_interpolation.
  Proof. exact pf_C76_interpolations. Qed.
  Theorem C76_mixed_interpolations :
    forall (s : nat) (coeffs : list (list Q)),
    (0 < s)%nat -> affine_interpolation 2 s sil3_interpolation /\ affine_interpolation 2 s (kencarp_interpolation coeffs).
  Proof. exact pf_C76_mixed_interpolations. Qed.

Section Kept.
  Context {Y SS CS DI E V MS : Type}.
  (** C77: what steps and interpolation preserve holds of all that a solve returns: final value, saved values,
      dense output. *)
  Theorem C77_kept :
    forall (c : config Y SS CS DI E V MS) (i : initial Y SS CS MS) (P : Y -> Prop) (PS : SS -> Prop) (PD : DI -> Prop) (Q : V -> Prop) (o : outcome Y SS CS DI V MS),
    (forall a b y s j, P y -> PS s -> let so := solver_step c a b y s j in P (so_y so) /\ PS (so_state so) /\ PD (so_dense so)) ->
    (forall a b d t, PD d -> P (interpolate c a b d t)) ->
    (forall sub t y, In sub (cfg_subs c) -> P y -> Q (sub_fn sub t y)) ->
    P (in_y i) -> PS (in_solver_state i) -> solves c i o ->
    P (out_yfinal o) /\ PS (st_solver_state (out_state o)) /\
    (forall s v, In s (out_save o) -> In (Some v) (ss_ys s) -> Q v) /\
    (forall d, In (Some d) (st_dense_infos (out_state o)) -> PD d).
  Proof. exact pf_C77_kept. Qed.
End Kept.

Section Total.
  Context {I J C CS V MS : Type}.
  Notation Y := (I -> R).
  Notation DI := (Y * Y * list (list Y))%type.
  Notation config := (config Y (solver_state J) CS DI (option Y) V MS).
  Notation initial := (initial Y (solver_state J) CS MS).
  Notation outcome := (outcome Y (solver_state J) CS DI V MS).
  (** C77: if the equation conserves a weighted sum of components then so does a solve by an explicit Runge--Kutta method
      in the final value, all saved values and the dense output at all times, for all step sizes. *)
  Theorem C77_total :
    forall (c : config) (i : initial) (sv : solver I J C) (s : nat) (interp : interpolation) (time : Z -> R) (w : list (I * R)) (Q : V -> Prop) (o : outcome),
    explicit_solve c i sv s interp time -> affine_interpolation (length (sv_parts sv)) s interp -> conserves w (sv_parts sv) ->
    (forall sub t y, In sub (cfg_subs c) -> total w y = total w (in_y i) -> Q (sub_fn sub t y)) ->
    solves c i o ->
    total w (out_yfinal o) = total w (in_y i) /\
    (forall sv v, In sv (out_save o) -> In (Some v) (ss_ys sv) -> Q v) /\
    (forall d a b t, In (Some d) (st_dense_infos (out_state o)) -> total w (interpolate c a b d t) = total w (in_y i)).
  Proof. exact pf_C77_total. Qed.
  (** C77: and so do implicit and mixed methods, at all accepted steps and between them, as long as the root finder succeeds. *)
  Theorem C77_total_steps :
    forall (c : config) (i : initial) (h : list (attempt Y)) (o : outcome) (sv : solver I J C) (s : nat) (interp : interpolation) (time : Z -> R) (others : Z -> Z -> Y -> solver_state J -> bool -> bool) (Inv : Z -> Z -> CS -> Prop) (w : list (I * R)),
    solve_run c i h o -> solver_step c = rk_solver_step sv time others -> interpolate c = rk_interpolate interp time ->
    valid_parts s (sv_parts sv) -> fsal_at_ends (sv_parts sv) ->
    exact_root_finder (sv_root_finder sv) \/ explicit_parts (sv_parts sv) ->
    controller_contract c Inv -> announces_jumps c -> midpoint_ok c ->
    (cfg_t0 c <= cfg_t1 c)%Z -> (cfg_t0 c <= in_tnext i)%Z ->
    Inv (cfg_t0 c) (Z.min (in_tnext i) (cfg_t1 c)) (in_controller_state i) ->
    coherent (sv_parts sv) (time (cfg_t0 c)) (in_y i) (in_made_jump i) (in_solver_state i) ->
    affine_interpolation (length (sv_parts sv)) s interp -> conserves w (sv_parts sv) ->
    (forall a, In a (accepted h) -> is_okay (at_solver_result a) = true) ->
    forall a, In a (accepted h) -> total w (at_y a) = total w (in_y i) /\ forall t, total w (at_interp a t) = total w (in_y i).
  Proof. exact pf_C77_total_steps. Qed.
End Total.

(** C76: two equations without coupling, solved jointly by Dopri5, and one of them alone. *)
Example C76_instance :
  let y := fun b : bool => if b then 1 else 2 in
  let c := pair_cfg joint_sv true in
  let c' := pair_cfg alone_sv tt in
  let i := pair_initial joint_sv y in
  let i' := pair_initial alone_sv (fun _ => 1) in
  at_rest first_only /\ affine_interpolation (length (sv_parts joint_sv)) 7 dopri5_interpolation /\
  explicit_solve c i joint_sv 7 dopri5_interpolation time_of /\ explicit_solve c' i' alone_sv 7 dopri5_interpolation time_of /\
  parts_follow first_only (sv_parts joint_sv) (sv_parts alone_sv) /\
  controllers_related (same_point first_only) eq (same_error first_only) c c' /\
  Forall2 (sub_related (same_point first_only) eq) (cfg_subs c) (cfg_subs c') /\
  in_y i' = point first_only 0 (in_y i) /\
  exists o o', solves c i o /\ solves c' i' o' /\ out_result o = successful /\ map ss_ys (out_save o') = map ss_ys (out_save o) /\
    out_yfinal o' = (fun _ => out_yfinal o true) /\
    map (fun s => ss_ts s) (out_save o) <> [] /\ st_num_rejected (out_state o) = 1%nat.
Proof.
  cbv zeta. set (y := fun b : bool => if b then 1 else 2).
  assert (H0 : at_rest first_only) by (intros p; reflexivity).
  assert (H1 : affine_interpolation (length (sv_parts joint_sv)) 7 dopri5_interpolation) by (apply C76_interpolations; lia).
  assert (H2 := pair_solve joint_f true y). assert (H3 := pair_solve alone_f tt (fun _ => 1)). cbv zeta in H2, H3.
  assert (H4 : controllers_related (same_point first_only) eq (same_error first_only) (pair_cfg joint_sv true) (pair_cfg alone_sv tt)).
  { intros a b u u' u1 u1' e e' s s' _ _ _ <-. cbn [pair_cfg adapt]. unfold pair_adapt. destruct (s mod 3 =? 2)%nat; auto 10. }
  assert (H5 : Forall2 (sub_related (same_point first_only) eq) (cfg_subs (pair_cfg joint_sv true)) (cfg_subs (pair_cfg alone_sv tt))).
  { constructor; [|constructor]. repeat (split; [reflexivity|]). intros t u u' ->. rewrite first_only_point. reflexivity. }
  assert (H6 : in_y (pair_initial alone_sv (fun _ => 1)) = point first_only 0 (in_y (pair_initial joint_sv y))) by (rewrite first_only_point; reflexivity).
  do 4 (split; [assumption|]). split; [exact joint_alone|]. do 3 (split; [assumption|]).
  destruct (runs (pair_cfg joint_sv true) (pair_initial joint_sv y)
              (fun _ o => out_result o = successful /\ map (fun s => ss_ts s) (out_save o) <> [] /\ st_num_rejected (out_state o) = 1%nat)) as (h & o & RUN & OK & LEN).
  { vm_compute. split; [reflexivity|]. split; [discriminate|reflexivity]. }
  assert (SO : solves (pair_cfg joint_sv true) (pair_initial joint_sv y) o) by (apply run_solves; exists h; exact RUN).
  destruct (C76_coordinates first_only (pair_cfg joint_sv true) (pair_cfg alone_sv tt) (pair_initial joint_sv y) (pair_initial alone_sv (fun _ => 1))
              joint_sv alone_sv 7 dopri5_interpolation time_of eq eq o H0 eq_refl H1 H2 H3 joint_alone H4 eq_refl (fun _ _ => eq_refl) H5 eq_refl Logic.I
              eq_refl eq_refl eq_refl H6 eq_refl eq_refl eq_refl eq_refl SO) as (o' & SO' & OR).
  exists o, o'. split; [exact SO|]. split; [exact SO'|]. split; [exact OK|]. destruct OR as (_ & YF & _ & SV & _). split; [|split; [|exact LEN]].
  - clear -SV. induction SV as [|s s' l l' (_ & B) Hl IH]; [reflexivity|]. cbn [map]. f_equal; [|exact IH].
    clear -B. induction B as [|v v' k k' Hv Hk IH]; [reflexivity|]. f_equal; [|exact IH]. destruct v, v'; try contradiction; [cbn in Hv; congruence|reflexivity].
  - rewrite YF. apply first_only_point.
Qed.

(** C77: an exchange between two places, by Dopri5; and with one direction treated implicitly, by Sil3. *)
Example C77_instance :
  let sv := frame_solver dopri5_tableau exchange in
  let c := pair_cfg sv true in
  let i := pair_initial sv (fun b => if b then 1 else 2) in
  explicit_solve c i sv 7 dopri5_interpolation time_of /\ affine_interpolation (length (sv_parts sv)) 7 dopri5_interpolation /\
  conserves both (sv_parts sv) /\ ~ conserves [(true, 1)] (sv_parts sv) /\
  (exists o, solves c i o /\ out_result o = successful /\ out_yfinal o true + out_yfinal o false = 3) /\
  conserves both [(sil3_explicit_tableau, ode_term (exchange_half true)); (sil3_implicit_tableau, ode_term (exchange_half false))].
Proof.
  cbv zeta. set (sv := frame_solver dopri5_tableau exchange). set (y := fun b : bool => if b then 1 else 2).
  assert (H1 : affine_interpolation (length (sv_parts sv)) 7 dopri5_interpolation) by (apply C76_interpolations; lia).
  assert (H2 := pair_solve exchange true y). cbv zeta in H2. fold sv in H2.
  split; [exact H2|]. split; [exact H1|]. split; [apply exchange_conserves|]. split.
  { intros H. specialize (H _ _ (or_introl eq_refl) 1 y 0 1). cbn in H. unfold exchange, y in H. cbn in H. lra. }
  split; [|apply exchange_half_conserves].
  destruct (runs (pair_cfg sv true) (pair_initial sv y) (fun _ o => out_result o = successful)) as (h & o & RUN & OK); [vm_compute; reflexivity|].
  assert (SO : solves (pair_cfg sv true) (pair_initial sv y) o) by (apply run_solves; exists h; exact RUN).
  exists o. split; [exact SO|]. split; [exact OK|].
  destruct (C77_total (pair_cfg sv true) (pair_initial sv y) sv 7 dopri5_interpolation time_of both (fun _ => True) o H2 H1 (exchange_conserves _) (fun _ _ _ _ _ => Logic.I) SO) as (T & _).
  unfold total, both in T. cbn [fold_right fst snd pair_initial in_y] in T. unfold y in T. lra.
Qed.

Print Assumptions C76_related.
Print Assumptions C76_coordinates.
Print Assumptions C76_interpolations.
Print Assumptions C76_mixed_interpolations.
Print Assumptions C77_kept.
Print Assumptions C77_total.
Print Assumptions C77_total_steps.
