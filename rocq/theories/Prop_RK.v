(** Theorems about Runge--Kutta solvers: C28, C29, C36. *)
From Coq Require Import ZArith Reals QArith Qreals List Bool Arith Lia Lra.
From Verif Require Import Model_Result Model_Loop Spec_Loop Model_Clip Spec_Clip Ex_Loop.
From Verif Require Import Model_RK Model_Tableaus Model_Terms Spec_RK Spec_RKLoop.
From Verif Require Import Proof_RKProp Proof_RKLoop Proof_RKShipped Ex_RK.
Import ListNotations.
Open Scope R_scope.

Section Step.
  Context {I J C : Type}.

  (** C28: a step of an explicit solver solves the textbook equations, which have one solution. *)
  Theorem C28_step :
    forall (sv : solver I J C) s t0 t1 y0 others state made_jump,
    valid_parts s (sv_parts sv) -> explicit_parts (sv_parts sv) ->
    fsal_at_ends (sv_parts sv) ->
    coherent (sv_parts sv) t0 y0 made_jump state ->
    let out := rk_step sv t0 t1 y0 others state made_jump in
    (exists k, rk_equations s (sv_parts sv) t0 t1 y0 k) /\
    (forall k, rk_equations s (sv_parts sv) t0 t1 y0 k ->
       (forall x, ro_y out x = rk_solution s (sv_parts sv) y0 k x) /\
       (exists e, ro_error out = Some e /\ forall x, e x = rk_error s (sv_parts sv) k x) /\
       (forall m i x, (m < length (sv_parts sv))%nat -> (i < s)%nat ->
          nth i (nth m (ro_k out) []) (fun _ => 0) x = k m i x) /\
       ro_result out = successful).
  Proof. exact pf_C28_step. Qed.
  (** C28: the implementation's shortcuts (reusing the last vector field evaluation, evaluating
      [vf_prod] instead of [vf] and [prod], evaluating for others in a batch) do not change it. *)
  Theorem C28_shortcuts :
    forall (sv sv' : solver I J C) s t0 t1 y0 others others' state state' made_jump made_jump',
    sv_parts sv = sv_parts sv' ->
    valid_parts s (sv_parts sv) -> explicit_parts (sv_parts sv) ->
    fsal_at_ends (sv_parts sv) ->
    coherent (sv_parts sv) t0 y0 made_jump state ->
    coherent (sv_parts sv) t0 y0 made_jump' state' ->
    let out := rk_step sv t0 t1 y0 others state made_jump in
    let out' := rk_step sv' t0 t1 y0 others' state' made_jump' in
    ro_y out = ro_y out' /\ ro_error out = ro_error out' /\ ro_k out = ro_k out' /\
    ro_result out = ro_result out'.
  Proof. exact pf_C28_shortcuts. Qed.
  (** C36: for an implicit or mixed solver, every stage satisfies its equation if the step succeeds;
      if any stage's root find failed then the error estimate is withheld (so that an adaptive
      controller rejects the step). *)
  Theorem C36_stages :
    forall (sv : solver I J C) s t0 t1 y0 others state made_jump,
    valid_parts s (sv_parts sv) -> exact_root_finder (sv_root_finder sv) ->
    fsal_at_ends (sv_parts sv) ->
    coherent (sv_parts sv) t0 y0 made_jump state ->
    let out := rk_step sv t0 t1 y0 others state made_jump in
    (is_okay (ro_result out) = true ->
       exists k, rk_equations s (sv_parts sv) t0 t1 y0 k /\
         (forall x, ro_y out x = rk_solution s (sv_parts sv) y0 k x) /\
         (exists e, ro_error out = Some e /\ forall x, e x = rk_error s (sv_parts sv) k x) /\
         (forall m i x, (m < length (sv_parts sv))%nat -> (i < s)%nat ->
            nth i (nth m (ro_k out) []) (fun _ => 0) x = k m i x)) /\
    (is_okay (ro_result out) = false -> ro_error out = None).
  Proof. exact pf_C36_stages. Qed.
End Step.

Section Loop.
  Context {I J C CS V MS : Type}.
  Notation Y := (I -> R).
  Notation DI := (Y * Y * list (list Y))%type.
  Notation config := (config Y (solver_state J) CS DI (option Y) V MS).
  Notation initial := (initial Y (solver_state J) CS MS).
  Open Scope Z_scope.

  (** C28, C36: during a whole solve, including rejected steps, jumps and events. *)
  Theorem C28_solve :
    forall (c : config) (i : initial) (h : list (attempt Y)) o (sv : solver I J C) s time others (Inv : Z -> Z -> CS -> Prop),
    solve_run c i h o ->
    solver_step c = rk_solver_step sv time others ->
    valid_parts s (sv_parts sv) -> fsal_at_ends (sv_parts sv) ->
    exact_root_finder (sv_root_finder sv) \/ explicit_parts (sv_parts sv) ->
    controller_contract c Inv -> announces_jumps c -> midpoint_ok c ->
    cfg_t0 c <= cfg_t1 c -> cfg_t0 c <= in_tnext i ->
    Inv (cfg_t0 c) (Z.min (in_tnext i) (cfg_t1 c)) (in_controller_state i) ->
    coherent (sv_parts sv) (time (cfg_t0 c)) (in_y i) (in_made_jump i) (in_solver_state i) ->
    forall a, In a h -> at_keep a = true -> is_okay (at_solver_result a) = true ->
    exists k, rk_equations s (sv_parts sv) (time (at_from a)) (time (at_to a)) (at_yprev a) k /\
      forall x, at_y a x = rk_solution s (sv_parts sv) (at_yprev a) k x.
  Proof. exact pf_C28_solve. Qed.
  (** C29: a solve that reuses the last vector field evaluation (when first-same-as-last) returns the
      same as one which never does. *)
  Theorem C29_cache :
    forall (c : config) (i : initial) (sv : solver I J C) s time others (Inv : Z -> Z -> CS -> Prop),
    solver_step c = rk_solver_step sv time others ->
    valid_parts s (sv_parts sv) -> fsal_at_ends (sv_parts sv) ->
    (sv_calculate_jacobian sv = first_stage -> use_fsal sv = false) ->
    explicit_parts (sv_parts sv) \/
      (exact_root_finder (sv_root_finder sv) /\ solves_explicit (sv_root_finder sv)) ->
    controller_contract c Inv -> announces_jumps c -> midpoint_ok c ->
    cfg_t0 c <= cfg_t1 c -> cfg_t0 c <= in_tnext i ->
    Inv (cfg_t0 c) (Z.min (in_tnext i) (cfg_t1 c)) (in_controller_state i) ->
    coherent (sv_parts sv) (time (cfg_t0 c)) (in_y i) (in_made_jump i) (in_solver_state i) ->
    let always := set_step c (rk_solver_step sv time (fun _ _ _ _ _ => true)) in
    forall o, solves c i o <-> solves always i o.
  Proof. exact pf_C29_cache. Qed.
End Loop.

Section Jumps.
  Context {I J C V MS IS : Type}.
  Notation Y := (I -> R).
  Notation DI := (Y * Y * list (list Y))%type.
  Notation config := (config Y (solver_state J) (clip_state IS) DI (option Y) V MS).
  Notation initial := (initial Y (solver_state J) (clip_state IS) MS).
  Open Scope Z_scope.

  (** C29: in particular with jumps. *)
  Theorem C29_cache_jumps :
    forall (k : clip_controller Y (option Y) IS) (c : config) (i : initial) inner_t1 inner0 (sv : solver I J C) s time others,
    clip_solve k c i inner_t1 inner0 -> inner_no_jumps (controller_adapt k) ->
    store_rejected_steps k <> Some 0%nat -> spaced (ts_of (jump_ts k)) ->
    (forall j, In j (ts_of (jump_ts k)) ->
       cfg_t0 c + 1 < j /\ (store_rejected_steps k = None \/ j <= cfg_t1 c - 100 \/ cfg_t1 c < j)) ->
    solver_step c = rk_solver_step sv time others ->
    valid_parts s (sv_parts sv) -> fsal_at_ends (sv_parts sv) ->
    (sv_calculate_jacobian sv = first_stage -> use_fsal sv = false) ->
    explicit_parts (sv_parts sv) \/
      (exact_root_finder (sv_root_finder sv) /\ solves_explicit (sv_root_finder sv)) ->
    coherent (sv_parts sv) (time (cfg_t0 c)) (in_y i) (in_made_jump i) (in_solver_state i) ->
    let always := set_step c (rk_solver_step sv time (fun _ _ _ _ _ => true)) in
    forall o, solves c i o <-> solves always i o.
  Proof. exact pf_C29_cache_jumps. Qed.
End Jumps.

(** C28, C29, C36: the tableaus shipped satisfy the conditions. *)
  Theorem C28_shipped_tableaus :
    forall tab,
    In tab shipped_tableaus ->
  post_init_ok tab = true /\ (fsal tab = true -> ends_at_ends tab).
  Proof. exact pf_C28_shipped_tableaus. Qed.

(** C28: Heun's method on [y' = -y]. *)
Example C28_step_instance h :
  valid_parts 2 (sv_parts (solver_of heun_tableau)) /\ explicit_parts (sv_parts (solver_of heun_tableau)) /\
  fsal_at_ends (sv_parts (solver_of heun_tableau)) /\
  coherent (sv_parts (solver_of heun_tableau)) 0 (fun _ => 1) false None /\
  ro_y (rk_step (solver_of heun_tableau) 0 h (fun _ => 1) false None false) tt = 1 - h + h * h / 2.
Proof.
  assert (V : valid_parts 2 (sv_parts (solver_of heun_tableau))) by (apply solver_of_valid; reflexivity).
  assert (X : explicit_parts (sv_parts (solver_of heun_tableau))) by (intros ? ? [E|[]]; injection E as <- <-; reflexivity).
  assert (F : fsal_at_ends (sv_parts (solver_of heun_tableau))) by (apply solver_of_ends; discriminate).
  split; [exact V|]. split; [exact X|]. split; [exact F|]. split; [exact Logic.I|].
  destruct (C28_step (solver_of heun_tableau) 2 0 h (fun _ => 1) false None false V X F Logic.I) as (_ & H).
  destruct (H (fun _ i _ => match i with O => - h | _ => - h * (1 - h) end)) as (-> & _).
  - intros [|m] tab trm i E; [injection E as <- <-|destruct m; discriminate].
    intros Hi []. assert (Hi' : i = 0%nat \/ i = 1%nat) by lia. destruct Hi' as [-> | ->];
      unfold stage_value, coef_a, coef_c; cbn; unfold Q2R; cbn; field.
  - unfold rk_solution, combination, coef_b. cbn. unfold Q2R. cbn. field.
Qed.

(** C28: Dopri5 with a stored evaluation and without. *)
Example C28_shortcuts_instance :
  let ps := sv_parts (solver_of dopri5_tableau) in
  valid_parts 7 ps /\ explicit_parts ps /\ fsal_at_ends ps /\
  coherent ps 0 (fun _ => 1) false (Some (false, [fun _ => -(1)])) /\
  coherent ps 0 (fun _ => 1) true (Some (false, [fun _ => 17])) /\
  coherent ps 0 (fun _ => 1) false (rk_init (solver_of dopri5_tableau)) /\
  ~ coherent ps 0 (fun _ => 1) false (Some (false, [fun _ => 17])).
Proof.
  cbn zeta. split; [apply solver_of_valid; reflexivity|].
  split; [intros ? ? [E|[]]; injection E as <- <-; reflexivity|].
  split; [apply solver_of_ends; split; reflexivity|].
  split; [split; [reflexivity|right; right]|].
  { intros [|m] tab trm f E E'; [|destruct m; discriminate]. injection E as <- <-. injection E' as <-. reflexivity. }
  split; [split; [reflexivity|right; left; reflexivity]|].
  split; [split; [reflexivity|left; reflexivity]|].
  intros (_ & [H|[H|H]]); try discriminate. specialize (H 0%nat _ _ _ eq_refl eq_refl tt). cbn in H. lra.
Qed.

(** C36: an implicit (Kvaerno3) and a mixed (Sil3) solver. *)
Example C36_stages_instance :
  valid_parts 4 (sv_parts (solver_of kvaerno3_tableau)) /\ fsal_at_ends (sv_parts (solver_of kvaerno3_tableau)) /\
  implicit kvaerno3_tableau = true /\ use_fsal (solver_of kvaerno3_tableau) = true /\
  valid_parts 4 (sv_parts imex) /\ fsal_at_ends (sv_parts imex) /\ use_fsal imex = true /\
  exact_root_finder affine_rf /\ solves_explicit affine_rf.
Proof.
  split; [apply solver_of_valid; reflexivity|]. split; [apply solver_of_ends; split; reflexivity|].
  split; [reflexivity|]. split; [reflexivity|]. split; [exact imex_valid|]. split; [exact imex_ends|].
  split; [reflexivity|]. split; [exact affine_rf_exact|exact affine_rf_explicit].
Qed.

(** C28, C29: a solve with Dopri5 and rejected steps. *)
Example C28_C29_solve_instance :
  let sv := solver_of dopri5_tableau in
  let c := rk_cfg sv (fun _ _ _ _ _ => false) in
  let i := rk_initial sv in
  solver_step c = rk_solver_step sv time_of (fun _ _ _ _ _ => false) /\
  controller_contract c (fun _ _ _ => True) /\ announces_jumps c /\ midpoint_ok c /\
  coherent (sv_parts sv) (time_of (cfg_t0 c)) (in_y i) (in_made_jump i) (in_solver_state i) /\
  exists h o, solve_run c i h o /\
    map (fun a => (at_from a, at_to a, at_keep a, at_solver_result a)) h
    = [(0, 300, true, successful); (300, 600, true, successful); (600, 900, false, successful);
       (600, 750, true, successful); (750, 1000, true, successful)]%Z /\
    out_result o = successful.
Proof.
  cbn zeta. split; [reflexivity|]. split; [apply rk_contract|]. split; [apply rk_announces|].
  split; [apply rk_midpoint|]. split; [split; [reflexivity|left; reflexivity]|].
  apply runs. vm_compute. auto.
Qed.

Print Assumptions C28_step.
Print Assumptions C28_shortcuts.
Print Assumptions C36_stages.
Print Assumptions C28_solve.
Print Assumptions C29_cache.
Print Assumptions C29_cache_jumps.
Print Assumptions C28_shipped_tableaus.
