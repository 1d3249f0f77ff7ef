(** Implicit solvers in the integration loop: C36. *)
From Coq Require Import ZArith Reals List Bool Arith Lia Lra.
From Verif Require Import Model_Result Model_Loop Spec_Loop Model_Clip Spec_Clip Proof_LoopBasic Proof_PropLoop.
From Verif Require Import Model_RK Spec_RK Spec_RKLoop Proof_RKLoop Model_Terms Model_Solvers Spec_Solvers.
Import ListNotations.

Section Loop.
  Context {I J C CS V MS : Type}.
  Notation Y := (I -> R).
  Notation DI := (Y * Y * list (list Y))%type.
  Notation config := (config Y (solver_state J) CS DI (option Y) V MS).
  Notation initial := (initial Y (solver_state J) CS MS).
  Notation outcome := (outcome Y (solver_state J) CS DI V MS).
  Open Scope Z_scope.

  Lemma failed_no_error (sv : solver I J C) t0 t1 y0 others state mj :
    is_okay (ro_result (rk_step sv t0 t1 y0 others state mj)) = false -> ro_error (rk_step sv t0 t1 y0 others state mj) = None.
  Proof.
    unfold rk_step. destruct (match state with Some (a, b) => (a, b) | None => _ end) as (a & b). cbn [ro_result ro_error].
    intros ->. reflexivity.
  Qed.

  Lemma accepted_okay (c : config) (sv : solver I J C) time others :
    solver_step c = rk_solver_step sv time others -> rejects_missing_error c ->
    forall n s a, In a (history c n s) -> at_keep a = true -> is_okay (at_solver_result a) = true.
  Proof.
    intros STEP RE. induction n as [|n IH]; intros s a Ha K; [destruct Ha|]. cbn [history] in Ha.
    destruct (cond_fun c s); [|destruct Ha]. destruct Ha as [<-|Ha]; [|exact (IH _ _ Ha K)].
    unfold attempt_of in *. cbn [at_keep at_solver_result] in *. rewrite STEP in *.
    destruct (is_okay _) eqn:OK; [reflexivity|]. exfalso. unfold rk_solver_step in *. cbn [so_result so_error] in *.
    rewrite (failed_no_error _ _ _ _ _ _ _ OK), RE in K. discriminate.
  Qed.

  Lemma pf_C36_solve (c : config) (i : initial) (h : list (attempt Y)) (o : outcome) (sv : solver I J C) s time others (Inv : Z -> Z -> CS -> Prop) :
    solve_run c i h o ->
    solver_step c = rk_solver_step sv time others -> rejects_missing_error c ->
    valid_parts s (sv_parts sv) -> fsal_at_ends (sv_parts sv) ->
    exact_root_finder (sv_root_finder sv) ->
    controller_contract c Inv -> announces_jumps c -> midpoint_ok c ->
    cfg_t0 c <= cfg_t1 c -> cfg_t0 c <= in_tnext i ->
    Inv (cfg_t0 c) (Z.min (in_tnext i) (cfg_t1 c)) (in_controller_state i) ->
    coherent (sv_parts sv) (time (cfg_t0 c)) (in_y i) (in_made_jump i) (in_solver_state i) ->
    forall a, In a h -> at_keep a = true ->
    exists k, rk_equations s (sv_parts sv) (time (at_from a)) (time (at_to a)) (at_yprev a) k /\
      forall x, at_y a x = rk_solution s (sv_parts sv) (at_yprev a) k x.
  Proof.
    intros RUN STEP RE VP FE EX CC AJ MID Ht Ht' HI CO a Ha K.
    eapply (pf_C28_solve c i h o sv s time others Inv); eauto.
    destruct RUN as (s0 & n & _ & _ & -> & _). eapply accepted_okay; eauto.
  Qed.

  Lemma pf_C36_failures_retried (c : config) (i : initial) (h : list (attempt Y)) (a : attempt Y) (o : outcome) (sv : solver I J C) time others :
    solve_run c i (h ++ [a]) o -> cfg_event c = None ->
    solver_step c = rk_solver_step sv time others -> rejects_missing_error c ->
    (forall tprev tnext y y1 err cs, ao_result (adapt c tprev tnext y y1 err cs) = successful) ->
    out_result o = successful \/ out_result o = max_steps_reached.
  Proof.
    intros RUN EV STEP RE CR. destruct (pf_C12_first_failure_wins c i h a o RUN EV) as (_ & _ & H). apply H.
    destruct RUN as (s0 & n & _ & _ & Hh & _).
    assert (Ha : In a (history c n s0)) by (rewrite <- Hh; apply in_or_app; right; left; reflexivity).
    assert (Hc : at_controller_result a = successful).
    { clear Hh. revert s0 Ha. induction n as [|n IH]; intros s0 Ha; [destruct Ha|]. cbn [history] in Ha.
      destruct (cond_fun c s0); [|destruct Ha]. destruct Ha as [<-|Ha]; [apply CR|exact (IH _ Ha)]. }
    unfold attempt_result. rewrite Hc. destruct (at_keep a) eqn:K; [|reflexivity].
    pose proof (accepted_okay c sv time others STEP RE n s0 a Ha K) as OK. destruct (at_solver_result a); try discriminate; reflexivity.
  Qed.
End Loop.
