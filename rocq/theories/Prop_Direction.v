(** Theorems about backward-in-time solves, padding and batches: C16, C51, C52. *)
From Coq Require Import ZArith List Bool Arith Lia.
From Verif Require Import Model_Result Model_Loop Spec_Loop Model_Clip Model_Dense Model_Direction
  Spec_Direction Proof_Direction Proof_Batch Ex_Loop.
Import ListNotations.
Open Scope Z_scope.

Section Theorems.
  Context {Y SS CS DI E V MS VF C P : Type} (cneg : C -> C).
  Notation problem := (problem Y SS CS DI E V MS VF C P).
  Notation diffeqsolve := (@diffeqsolve Y SS CS DI E V MS VF C P cneg).
  Notation reflect := (@reflect Y SS CS DI E V MS VF C P cneg).

  (** C16: a backward solve returns exactly the solution of the reflected problem with its times
      negated: saved times and values, dense output, statistics, result and final states. *)
  Theorem C16_reflection :
    forall (p : problem) (sol : solution Y SS CS V),
    pb_t1 p < pb_t0 p -> event_ignores_time p ->
    diffeqsolve p sol -> diffeqsolve (reflect p) (mirror sol).
  Proof. exact (pf_C16_reflection cneg). Qed.
  Theorem C16_reflection_converse :
    forall (p : problem) (sol : solution Y SS CS V),
    pb_t1 p < pb_t0 p -> event_ignores_time p ->
    diffeqsolve (reflect p) sol -> diffeqsolve p (mirror sol).
  Proof. exact (pf_C16_reflection_converse cneg). Qed.
  (** C52: unused entries of [sol.ts] are [+inf] and the corresponding values padding, and used
      entries are finite with a value; for forward solves, and backward ones without a root finder. *)
  Theorem C52_padding :
    forall (p : problem) (sol : solution Y SS CS V),
    diffeqsolve p sol -> (pb_t0 p < pb_t1 p \/ pb_root_finder p = false) ->
    Forall2 (fun ts ys =>
        Forall2 (fun x v => match x with Fin _ => v <> None | PInf => v = None | NInf => False end) ts ys)
      (sol_ts sol) (sol_ys sol).
  Proof. exact (pf_C52_padding cneg). Qed.
End Theorems.

Section Batch.
  Context {Y SS CS DI E V MS : Type}.
  Notation config := (config Y SS CS DI E V MS).
  Notation initial := (initial Y SS CS MS).
  Notation state := (state Y SS CS DI V MS).
  Notation attempt := (attempt Y).

  (** C51: in a batched loop each element is what it is on its own. *)
  Theorem C51_loop :
    forall (cs : list config) (fuel : nat) (ss : list state) (k : nat) (c : config) (s : state),
    nth_error cs k = Some c -> nth_error ss k = Some s ->
    nth_error (batched_while cs fuel ss) k = Some (while_loop c fuel s).
  Proof. exact pf_C51_loop. Qed.
  (** C51: so is its outcome.  Partial: if the element has no event and its solve has a root finder, its
      last step must have been accepted and its interpolant exact (refuted otherwise). *)
  Theorem C51_finish_partial :
    forall (cs : list config) (ss : list state) (k m : nat) (c : config) (i : initial) (s0 : state),
    nth_error cs k = Some c -> nth_error ss k = Some s0 -> init_state c i = Some s0 ->
    (forall e rf, cfg_event c = Some e -> ev_root_finder e = Some rf -> keeps_roots rf) ->
    (has_root_finder c = true -> event_happened (while_loop c m s0) = false ->
     forall h a, history c m s0 = h ++ [a] ->
       at_keep a = true /\ at_end a = at_to a /\ at_interp a (at_to a) = at_y a) ->
    nth_error (batched_finish cs (batched_while cs m ss)) k = Some (alone c m s0).
  Proof. exact pf_C51_finish_partial. Qed.
End Batch.

(** A concrete problem: [dy = vf dx] on integers, one stage, [vf = 1] or the sign of time, linear
    interpolation; the controls are integers. *)
Definition d_term : term Z Z Z := Term (fun t y => if t <? 300 then 1 else 2) (fun a b => b - a) Z.mul.
Definition d_step (T : term Z Z Z) (a b y : Z) (ss : nat) (j : bool) : step_out Z nat (Z * Z) unit :=
  StepOut (y + term_prod T (term_vf T a y) (term_contr T a b)) tt
          (a, y) (S ss) successful.
Definition d_problem (t0 t1 : Z) (subs : list (subsaveat Z Z)) (ev : option (event Z))
           (k : controller unit) : problem Z nat nat (Z * Z) unit Z nat Z Z unit :=
  Problem d_term (fun _ _ _ _ => 0%nat) d_step ex_interp k
          (fun _ _ t0 t1 y dt0 => (t0 + 250, 0%nat)) (fun _ => ex_adapt) (fun e => e)
          (fun a b => a + (b - a) / 2) (fun _ _ n _ => S n) 0%nat subs true ev t0 t1 None
          (Some 9%nat) false 10.
Definition d_run (p : problem Z nat nat (Z * Z) unit Z nat Z Z unit)
  : option (solution Z nat nat Z) :=
  match normalise Z.opp p with
  | Some (c, i) => option_map (to_solution (direction_of p) c i) (solve c i)
  | None => None
  end.
Lemma d_runs p (Q : solution Z nat nat Z -> Prop) :
  match d_run p with Some s => Q s | None => False end ->
  exists s, diffeqsolve Z.opp p s /\ Q s.
Proof.
  unfold d_run. destruct (normalise Z.opp p) as [[c i]|] eqn:Hn; [|tauto].
  destruct (solve c i) as [o|] eqn:Hs; [|cbn; tauto]. cbn. intros H. eexists. split; [|exact H].
  exists c, i, o. split; [exact Hn|]. split; [|reflexivity].
  unfold solve, obind in Hs. destruct (init_state c i) as [s0|] eqn:Hi; [|discriminate].
  destruct (cfg_max_steps c) as [m|] eqn:Hm; [|discriminate].
  exists s0, (while_loop c m s0). split; [exact Hi|]. split; [|exact Hs].
  unfold loop_final. rewrite Hm. reflexivity.
Qed.
Definition sub_t (ts : list Z) : subsaveat Z Z := SubSaveAt true false (Some ts) 1 (fun t y => 2 * y + t).

(** A backward solve from 1000 to 0 and its reflection: some steps rejected, [ts] and [steps] saved, and
    padding at the end. *)
Example C16_C52_instance :
  let p := d_problem 1000 0 [sub_t [990; 300; 0]] None
             (CClip (CPID tt) (Some [500; 600]) None (Some 3%nat)) in
  pb_t1 p < pb_t0 p /\ event_ignores_time p /\ pb_root_finder p = false /\
  (exists s, diffeqsolve Z.opp p s /\
     (sol_ts s = [[Fin 1000; Fin 990; Fin 750; Fin 600; Fin 300; Fin 300; Fin 0; Fin 0;
                   PInf; PInf; PInf; PInf; PInf]] /\
      sol_num_rejected s = 1%nat /\ sol_result s = successful /\
      map (fun t => sol_evaluate s t true) [1001; 990; 300; 0; -1]
      = [None; Some 20; Some (-490); Some (-1090); None])) /\
  (exists s, diffeqsolve Z.opp (reflect Z.opp p) s /\
     (sol_ts s = [[Fin (-1000); Fin (-990); Fin (-750); Fin (-600); Fin (-300); Fin (-300);
                   Fin 0; Fin 0; PInf; PInf; PInf; PInf; PInf]])).
Proof.
  cbn zeta. split; [cbn; lia|]. split; [exact I|]. split; [reflexivity|].
  split; apply d_runs; vm_compute; repeat split.
Qed.

(** C16, full claim with events refuted: an event function that looks at the time receives negated
    time on a backward solve.  The event "t <= 300" is met on the first step already, while it is only
    met at the end of the step to 300 in the reflected problem. *)
Theorem C16_event_refuted :
  exists (p : problem Z nat nat (Z * Z) unit Z nat Z Z unit) s s',
    pb_t1 p < pb_t0 p /\ diffeqsolve Z.opp p s /\ diffeqsolve Z.opp (reflect Z.opp p) s' /\
    pb_event p = Some (Event [BoolCond (fun t y => t <=? 300)] None) /\
    sol_num_steps s = 0%nat /\ sol_num_steps s' = 4%nat /\
    sol_ts s <> map (map mirror_time) (sol_ts s').
Proof.
  exists (d_problem 1000 0 [sub_t []] (Some (Event [BoolCond (fun t y => t <=? 300)] None)) CConstant).
  destruct (d_runs (d_problem 1000 0 [sub_t []]
    (Some (Event [BoolCond (fun t y => t <=? 300)] None)) CConstant)
    (fun s => sol_num_steps s = 0%nat /\ sol_ts s = [[Fin 1000; PInf; PInf; PInf; PInf; PInf; PInf; PInf; PInf; PInf]]))
    as (s & Hs & H1 & H2); [vm_compute; split; reflexivity|].
  destruct (d_runs (reflect Z.opp (d_problem 1000 0 [sub_t []]
    (Some (Event [BoolCond (fun t y => t <=? 300)] None)) CConstant))
    (fun s => sol_num_steps s = 4%nat /\
       sol_ts s = [[Fin (-1000); Fin (-750); Fin (-600); Fin (-300); PInf; PInf; PInf; PInf; PInf; PInf]]))
    as (s' & Hs' & H1' & H2'); [vm_compute; split; reflexivity|].
  exists s, s'. split; [cbn; lia|]. split; [exact Hs|]. split; [exact Hs'|]. split; [reflexivity|].
  split; [exact H1|]. split; [exact H1'|]. rewrite H2, H2'. vm_compute. discriminate.
Qed.

(** C52, full claim refuted: a backward solve truncated by an event with a root finder has [-inf]
    entries (deleted) among its unused entries, before [+inf] (never used). *)
Theorem C52_backward_event_refuted :
  exists (p : problem Z nat nat (Z * Z) unit Z nat Z Z unit) s,
    diffeqsolve Z.opp p s /\ pb_t1 p < pb_t0 p /\ sol_result s = event_occurred /\
    map (fun ts => firstn 7 ts) (sol_ts s) = [[Fin 1000; Fin 750; Fin 600; Fin 340; NInf; NInf; PInf]].
Proof.
  exists (d_problem 1000 0 [SubSaveAt true false (Some [320; 310]) 1 (fun t y => y)]
            (Some (Event [RealCond (fun t y => Some (t + 340)) None] (Some ex_rf_bracketing))) CConstant).
  apply d_runs. vm_compute. repeat split.
Qed.

Definition c_b (root : Z) (m : nat) : config Z nat nat (Z * Z) unit Z nat :=
  ex_cfg 1000 m [sub_of false true (Some [3; 400; 540]) 0]
         (Some (Event [RealCond (fun t y => Some (t - root)) None] (Some (fun f lo hi start =>
            if forallb (fun v => match v with Some 0 => true | _ => false end) (f start) then (start, None)
            else ex_rf_bracketing f lo hi start)))).
(** A batch of two solves, one of them stopped by its event. *)
Example C51_instance :
  exists s1 s2, init_state (c_b 530 9) ex_init = Some s1 /\ init_state (c_b 2000 9) ex_init = Some s2 /\
    (forall e rf, cfg_event (c_b 2000 9) = Some e -> ev_root_finder e = Some rf -> keeps_roots rf) /\
    event_happened (while_loop (c_b 2000 9) 9 s2) = false /\
    event_happened (while_loop (c_b 530 9) 9 s1) = true /\
    (forall h a, history (c_b 2000 9) 9 s2 = h ++ [a] ->
       at_keep a = true /\ at_end a = at_to a /\ at_interp a (at_to a) = at_y a) /\
    nth_error (batched_finish [c_b 530 9; c_b 2000 9]
                 (batched_while [c_b 530 9; c_b 2000 9] 9 [s1; s2])) 1 =
    Some (alone (c_b 2000 9) 9 s2).
Proof.
  destruct (init_state (c_b 530 9) ex_init) as [s1|] eqn:H1; [|discriminate].
  destruct (init_state (c_b 2000 9) ex_init) as [s2|] eqn:H2; [|discriminate].
  assert (Hk : forall e rf, cfg_event (c_b 2000 9) = Some e -> ev_root_finder e = Some rf -> keeps_roots rf).
  { intros e rf He Hr. injection He as <-. injection Hr as <-. intros f lo hi start Hall.
    assert (forallb (fun v => match v with Some 0 => true | _ => false end) (f start) = true) as ->; [|reflexivity].
    apply forallb_forall. rewrite Forall_forall in Hall. intros v Hv. rewrite (Hall v Hv). reflexivity. }
  assert (Hlast : forall h a, history (c_b 2000 9) 9 s2 = h ++ [a] ->
       at_keep a = true /\ at_end a = at_to a /\ at_interp a (at_to a) = at_y a).
  { intros h a Hh. assert (Hl : last (history (c_b 2000 9) 9 s2) a = a) by (rewrite Hh; apply last_last).
    revert Hl. injection H2 as <-. vm_compute. intros <-. repeat split. }
  exists s1, s2. split; [reflexivity|]. split; [reflexivity|]. split; [exact Hk|].
  assert (E2 : event_happened (while_loop (c_b 2000 9) 9 s2) = false) by (injection H2 as <-; vm_compute; reflexivity).
  split; [exact E2|]. split; [injection H1 as <-; vm_compute; reflexivity|]. split; [exact Hlast|].
  eapply pf_C51_finish_partial; eauto; reflexivity.
Qed.

(** C51, full claim refuted: if an element runs out of steps on a rejected step, then an event in
    another element moves its final time and value to the end of that rejected step. *)
Theorem C51_rejected_step_refuted :
  exists (c c' : config Z nat nat (Z * Z) unit Z nat) s s' o o',
    init_state c ex_init = Some s /\ init_state c' ex_init = Some s' /\
    event_happened (while_loop c 2 s) = false /\
    alone c 2 s = Some o /\
    nth_error (batched_finish [c; c'] (batched_while [c; c'] 2 [s; s'])) 0 = Some (Some o') /\
    out_tfinal o = 250 /\ out_tfinal o' = 550 /\ out_yfinal o = 260 /\ out_yfinal o' = 560 /\
    map ss_ts (out_save o) = [[Fin 3; Fin 250; PInf; PInf]] /\
    map ss_ts (out_save o') = [[Fin 3; Fin 550; PInf; PInf]].
Proof.
  exists (c_b 2000 2), (c_b 30 2).
  destruct (init_state (c_b 2000 2) ex_init) as [s|] eqn:H1; [|discriminate].
  destruct (init_state (c_b 30 2) ex_init) as [s'|] eqn:H2; [|discriminate].
  injection H1 as <-. injection H2 as <-.
  eexists _, _, _, _. split; [reflexivity|]. split; [reflexivity|].
  vm_compute. repeat split.
Qed.

Print Assumptions C16_reflection.
Print Assumptions C16_reflection_converse.
Print Assumptions C52_padding.
Print Assumptions C51_loop.
Print Assumptions C51_finish_partial.
Print Assumptions C16_event_refuted.
Print Assumptions C52_backward_event_refuted.
Print Assumptions C51_rejected_step_refuted.
