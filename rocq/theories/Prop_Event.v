(** Theorems about events: C09, C10, C11. *)
From Coq Require Import ZArith List Bool Arith Lia Sorting.Sorted.
From Verif Require Import Model_Result Model_Loop Spec_Loop Proof_PropLoop
  Proof_PropLoop2 Proof_LoopResume Ex_Loop.
Import ListNotations.
Open Scope Z_scope.

Section Theorems.
  Context {Y SS CS DI E V MS : Type}.
  Notation config := (config Y SS CS DI E V MS).
  Notation initial := (initial Y SS CS MS).
  Notation outcome := (outcome Y SS CS DI V MS).
  Notation state := (state Y SS CS DI V MS).
  Notation attempt := (attempt Y).

  (** C09: the mask has at most one True entry; one if an event ended the solve; and if it has one
      then the result is an event or an error of the root finder. *)
  Theorem C09_mask_count :
    forall (c : config) (i : initial) (h : list attempt) (o : outcome),
    solve_run c i h o -> results_ok c -> rf_results_ok c ->
    (count_occ bool_dec (st_event_mask (out_state o)) true <= 1)%nat /\
    (out_result o = event_occurred ->
     has_root_finder c = false ->
     count_occ bool_dec (st_event_mask (out_state o)) true = 1%nat) /\
    (count_occ bool_dec (st_event_mask (out_state o)) true = 1%nat ->
     out_result o = event_occurred \/
     (has_root_finder c = true /\ out_result o <> successful /\
      out_result o <> max_steps_reached)).
  Proof. exact pf_C09_mask_count. Qed.
  (** C09: the True entry is the first condition that was met on the last step. *)
  Theorem C09_mask_first :
    forall (c : config) (i : initial) (h : list attempt) (a : attempt) (o : outcome) (e : event Y) (k : nat),
    solve_run c i (h ++ [a]) o -> cfg_event c = Some e -> event_defined e ->
    (nth_error (st_event_mask (out_state o)) k = Some true <->
     (exists cf, nth_error (ev_cond_fn e) k = Some cf /\
                 crosses cf (at_from a) (at_yprev a) (at_end a) (at_y a)) /\
     (forall j cf, (j < k)%nat -> nth_error (ev_cond_fn e) j = Some cf ->
                   ~ crosses cf (at_from a) (at_yprev a) (at_end a) (at_y a))).
  Proof. exact pf_C09_mask_first. Qed.
  (** C10: no condition was met on any step before the last, and an event is reported exactly if the
      last step was accepted and met a condition. *)
  Theorem C10_first_crossing :
    forall (c : config) (i : initial) (h : list attempt) (a : attempt) (o : outcome) (e : event Y),
    solve_run c i (h ++ [a]) o -> cfg_event c = Some e -> event_defined e -> results_ok c ->
    rejects_in_place (h ++ [a]) ->
    (forall b cf, In b h -> In cf (ev_cond_fn e) ->
       ~ crosses cf (at_from b) (at_yprev b) (at_end b) (at_y b)) /\
    ((exists k, nth_error (st_event_mask (out_state o)) k = Some true) <->
     at_keep a = true /\
     exists cf, In cf (ev_cond_fn e) /\ crosses cf (at_from a) (at_yprev a) (at_end a) (at_y a)).
  Proof. exact pf_C10_first_crossing. Qed.
  (** C10: the case of a solve that made no step: only a boolean condition true at the start. *)
  Theorem C10_initial :
    forall (c : config) (i : initial) (o : outcome) (e : event Y),
    solve_run c i [] o -> cfg_event c = Some e ->
    ((exists k, nth_error (st_event_mask (out_state o)) k = Some true) <->
     exists f, In (BoolCond f) (ev_cond_fn e) /\ f (cfg_t0 c) (in_y i) = true).
  Proof. exact pf_C10_initial. Qed.
  (** C11: the event time lies in the last step and the final value is the interpolant there. *)
  Theorem C11_event_time :
    forall (c : config) (i : initial) (h : list attempt) (a : attempt) (o : outcome) (e : event Y) (rf : root_finder) (Inv : Z -> Z -> CS -> Prop),
    solve_run c i (h ++ [a]) o -> cfg_event c = Some e -> ev_root_finder e = Some rf ->
    bracketing rf ->
    controller_contract c Inv -> midpoint_ok c -> cfg_t0 c <= cfg_t1 c -> cfg_t0 c <= in_tnext i ->
    Inv (cfg_t0 c) (Z.min (in_tnext i) (cfg_t1 c)) (in_controller_state i) ->
    (exists k, nth_error (st_event_mask (out_state o)) k = Some true) ->
    at_from a <= out_tfinal o <= at_to a /\
    out_yfinal o = at_interp a (out_tfinal o).
  Proof. exact pf_C11_event_time. Qed.
  (** C11: the function given to the root finder: the condition that triggered, evaluated on the
      interpolant, and zero for the others. *)
  Theorem C11_root_function :
    forall (c : config) (e : event Y) (s : state) (t : Z) (k : nat) cf,
    length (st_event_mask s) = length (ev_cond_fn e) ->
    (forall j, nth_error (st_event_mask s) j = Some true -> j = k) ->
    nth_error (st_event_mask s) k = Some true -> nth_error (ev_cond_fn e) k = Some cf ->
    let v := to_root_find c e s true t in
    (forall j, j <> k -> (j < length (ev_cond_fn e))%nat -> nth_error v j = Some (Some 0)) /\
    nth_error v k = Some (match cf with
                          | RealCond f _ => f t (event_interp c s t)
                          | BoolCond _ => Some (st_event_tnext s - t)
                          end).
  Proof. exact pf_C11_root_function. Qed.
  (** C11: what is saved is what was saved up to the event time, then (if requested) the final value.
      If the buffer is full, which needs [steps] due at a last step whose end is at most the event
      time, the final value replaces the last entry instead. *)
  Theorem C11_truncation :
    forall (c : config) (i : initial) (h : list attempt) (o : outcome) (Inv : Z -> Z -> CS -> Prop),
    solve_run c i h o -> has_root_finder c = true ->
    controller_contract c Inv -> midpoint_ok c -> cfg_t0 c < cfg_t1 c -> cfg_t0 c <= in_tnext i ->
    Inv (cfg_t0 c) (Z.min (in_tnext i) (cfg_t1 c)) (in_controller_state i) ->
    (in_pad i = PInf \/ in_pad i = NInf) ->
    Forall (fun sub => Sorted Z.le (sub_ts_list sub) /\
                       Forall (fun t => cfg_t0 c <= t) (sub_ts_list sub) /\
                       (sub_steps sub = 0%nat \/
                        forall a t, In a (accepted h) -> In t (sub_ts_list sub) ->
                                    at_to a < t -> at_end a <= t)) (cfg_subs c) ->
    Forall2 (fun sub sv =>
        let n := allocated (cfg_max_steps c) sub in
        let log := log_event_in n sub (cfg_t0 c) (in_y i) (accepted h) (out_tfinal o) (out_yfinal o) in
        holds_log_inf sv log n /\
        ((step_due (sub_steps sub) (length (accepted h)) = true ->
          exists l a, accepted h = l ++ [a] /\ out_tfinal o < at_end a) ->
         log = log_event sub (cfg_t0 c) (in_y i) (accepted h) (out_tfinal o) (out_yfinal o)))
      (cfg_subs c) (out_save o).
  Proof. exact pf_C11_truncation. Qed.
  (** C11: no saved time is after the final time. *)
  Theorem C11_nothing_after_final :
    forall (c : config) (i : initial) (h : list attempt) (o : outcome),
    solve_run c i h o -> has_root_finder c = true -> cfg_t0 c <= out_tfinal o ->
    Forall (fun sv => Forall (fun x => match x with Fin t => t <= out_tfinal o | _ => True end) (ss_ts sv))
           (out_save o).
  Proof. exact pf_C11_nothing_after_final. Qed.
End Theorems.

Definition ev2 : event Z :=
  Event [RealCond (fun t y => Some (t - 2000)) None; ex_real_event 530; ex_bool_event 520]
        (Some ex_rf_bracketing).
Definition c_ev : config Z nat nat (Z * Z) unit Z nat :=
  ex_cfg 1000 9 [sub_of false true (Some [3; 400; 540; 1000]) 0; sub_of false true None 1]
         (Some ev2).

(** Two conditions are met on the fourth step [[400, 700]]: the mask names the first of them, the
    event time is its root, and the value saved at 540 is deleted. *)
Example C09_C10_C11_instance :
  results_ok c_ev /\ rf_results_ok c_ev /\ bracketing ex_rf_bracketing /\
  event_defined ev2 /\ controller_contract c_ev (fun _ _ _ => True) /\ midpoint_ok c_ev /\
  has_root_finder c_ev = true /\
  exists h o, solve_run c_ev ex_init h o /\
    (rejects_in_place h /\ out_result o = event_occurred /\ st_event_mask (out_state o) = [false; true; false] /\
     map at_to h = [250; 550; 400; 700] /\ out_tfinal o = 530 /\ out_yfinal o = 540 /\
     map ss_ts (out_save o)
     = [[Fin 3; Fin 400; Fin 530; PInf; PInf];
        [Fin 250; Fin 400; Fin 530; PInf; PInf; PInf; PInf; PInf; PInf]]).
Proof.
  split; [apply ex_results_ok|]. split; [apply ex_rf_ok_ev|].
  split; [apply ex_rf_brackets|].
  split. { intros cf t y [<-|[<-|[<-|[]]]]; cbn; auto; discriminate. }
  split; [apply ex_contract|]. split; [apply ex_midpoint|]. split; [reflexivity|].
  apply runs. vm_compute. split; [repeat constructor; discriminate|]. auto 8.
Qed.

(** C11 with a full buffer: as many steps accepted as there is room for, and no event. *)
Example C11_full_instance :
  let c := ex_cfg 500 2 [sub_of false true (Some [3]) 1; sub_of false false None 1]
                  (Some (Event [ex_real_event 2000] (Some ex_rf_bracketing))) in
  exists h o, solve_run c (Initial 10 250 false 0%nat 2%nat 0%nat PInf) h o /\
    (map at_to h = [250; 500] /\ out_tfinal o = 500 /\
     map (allocated (Some 2%nat)) (cfg_subs c) = [3%nat; 2%nat] /\
     map ss_ts (out_save o) = [[Fin 3; Fin 250; Fin 500]; [Fin 250; Fin 500]]).
Proof. cbv zeta. apply runs. vm_compute. auto. Qed.

Example C10_initial_instance :
  exists h o, solve_run (ex_cfg 1000 3 [] (Some (Event [ex_real_event 0; ex_bool_event 0] None))) ex_init h o /\
    (h = [] /\ st_event_mask (out_state o) = [false; true] /\ out_result o = event_occurred).
Proof. apply runs. vm_compute. auto. Qed.

(** C10 needs [event_defined]: a condition that is NaN counts as a sign change even on a rejected
    step, and ends the solve. *)
Theorem C10_nan_triggers_on_rejected_refuted :
  exists (c : config Z nat nat (Z * Z) unit Z nat) i h o,
    solve_run c i h o /\
    (map at_keep h = [false] /\ out_result o = event_occurred /\
     st_event_mask (out_state o) = [true] /\ out_tfinal o = 0).
Proof.
  exists (ex_cfg 1000 9 [] (Some (Event [RealCond (fun t y => if t =? 0 then None else Some 1) None] None))),
    (Initial 10 250 false 0%nat 1%nat 0%nat PInf).
  apply runs. vm_compute. auto.
Qed.

Print Assumptions C09_mask_count.
Print Assumptions C09_mask_first.
Print Assumptions C10_first_crossing.
Print Assumptions C10_initial.
Print Assumptions C11_event_time.
Print Assumptions C11_root_function.
Print Assumptions C11_truncation.
Print Assumptions C11_nothing_after_final.
Print Assumptions C10_nan_triggers_on_rejected_refuted.
