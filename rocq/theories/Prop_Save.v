(** Theorems about what is saved: C04, C05, C06, C07, C13, C14, C56. *)
From Coq Require Import ZArith List Bool Arith Lia Sorting.Sorted.
From Verif Require Import Model_Result Model_Loop Spec_Loop Proof_PropLoop
  Proof_PropLoop2 Proof_LoopResume Ex_Loop.
Import ListNotations.
Open Scope Z_scope.

Section Theorems.
  Context {Y SS CS DI E V MS : Type}.
  Notation config := (config Y SS CS DI E V MS).
  Notation initial := (initial Y SS CS MS).
  Notation outcome := (outcome Y SS CS DI V MS).
  Notation attempt := (attempt Y).

  (** C04: a successful solve with [SaveAt(ts=ts)] saves exactly [ts], each with the interpolant of
      the first accepted step that ends at or after it. *)
  Theorem C04_saveat_ts :
    forall (c : config) (i : initial) (h : list attempt) (o : outcome) (j : nat) (sub : subsaveat Y V) (ts : list Z),
    solve_run c i h o -> has_root_finder c = false -> stepto_len c = None ->
    results_ok c -> rejects_in_place h -> no_time_jumps h ->
    cfg_t0 c < cfg_t1 c ->
    nth_error (cfg_subs c) j = Some sub ->
    sub_ts sub = Some ts -> sub_t0 sub = false -> sub_t1 sub = false -> sub_steps sub = 0%nat ->
    Sorted Z.le ts -> Forall (fun t => t <= cfg_t1 c) ts ->
    out_result o = successful ->
    exists sv, nth_error (out_save o) j = Some sv /\
      ss_ts sv = map Fin ts /\
      Forall2 (fun t v => exists a, find (fun a => t <=? at_to a) (accepted h) = Some a /\
                                    v = Some (sub_fn sub t (at_interp a t))) ts (ss_ys sv).
  Proof. exact pf_C04_saveat_ts. Qed.
  (** C04: whatever the result, a prefix of [ts] is saved, and the rest is padding. *)
  Theorem C04_early_stop_prefix :
    forall (c : config) (i : initial) (h : list attempt) (o : outcome) (j : nat) (sub : subsaveat Y V) (ts : list Z),
    solve_run c i h o -> has_root_finder c = false -> cfg_t0 c < cfg_t1 c ->
    nth_error (cfg_subs c) j = Some sub ->
    sub_ts sub = Some ts -> sub_t0 sub = false -> sub_t1 sub = false -> sub_steps sub = 0%nat ->
    Sorted Z.le ts ->
    let served := take_while (fun t => existsb (fun a => t <=? at_to a) (accepted h)) ts in
    exists sv, nth_error (out_save o) j = Some sv /\
      ss_ts sv = map Fin served ++ repeat (in_pad i) (length ts - length served) /\
      skipn (length served) (ss_ys sv) = repeat None (length ts - length served) /\
      forall k t, nth_error served k = Some t ->
        exists a, find (fun a => t <=? at_to a) (accepted h) = Some a /\
                  nth_error (ss_ys sv) k = Some (Some (sub_fn sub t (at_interp a t))).
  Proof. exact pf_C04_early_stop_prefix. Qed.
  (** C04: the degenerate solve with [t0 = t1]. *)
  Theorem C04_t0_equals_t1 :
    forall (c : config) (i : initial) (h : list attempt) (o : outcome) (j : nat) (sub : subsaveat Y V) (ts : list Z),
    solve_run c i h o -> has_root_finder c = false -> stepto_len c = None ->
    cfg_t0 c = cfg_t1 c ->
    nth_error (cfg_subs c) j = Some sub ->
    sub_ts sub = Some ts -> sub_t0 sub = false -> sub_t1 sub = false -> sub_steps sub = 0%nat ->
    exists sv, nth_error (out_save o) j = Some sv /\
      ss_ts sv = repeat (Fin (cfg_t0 c)) (length ts) /\
      ss_ys sv = repeat (Some (sub_fn sub (cfg_t0 c) (in_y i))) (length ts).
  Proof. exact pf_C04_t0_equals_t1. Qed.
  (** C05: the buffers hold exactly the values produced, in order, then padding. *)
  Theorem C05_storage :
    forall (c : config) (i : initial) (h : list attempt) (o : outcome),
    solve_run c i h o -> has_root_finder c = false ->
    (stepto_len c <> None -> cfg_t0 c < cfg_t1 c) ->
    Forall2 (fun sub sv =>
        let log := log_final sub (cfg_t0 c) (cfg_t1 c) (in_y i) (accepted h)
                             (out_tfinal o) (out_yfinal o) in
        let n := allocated (cfg_max_steps c) sub in
        (length log <= n)%nat /\
        ss_ts sv = map (fun p => Fin (fst p)) log ++ repeat (in_pad i) (n - length log) /\
        ss_ys sv = map (fun p => Some (snd p)) log ++ repeat None (n - length log))
      (cfg_subs c) (out_save o).
  Proof. exact pf_C05_storage. Qed.
  (** C05: no exception is raised on saving, provided every [SubSaveAt] has some storage. *)
  Theorem C05_no_exception :
    forall (c : config) (i : initial) (m : nat),
    cfg_max_steps c = Some m ->
    Forall (fun sub => (0 < allocated (Some m) sub)%nat) (cfg_subs c) ->
    exists o, solve c i = Some o.
  Proof. exact pf_C05_no_exception. Qed.
  (** C06: [SaveAt(steps=n)] *)
  Theorem C06_saveat_steps :
    forall (c : config) (i : initial) (h : list attempt) (o : outcome) (j n m : nat) (sub : subsaveat Y V),
    solve_run c i h o -> has_root_finder c = false ->
    (stepto_len c <> None -> cfg_t0 c < cfg_t1 c) ->
    nth_error (cfg_subs c) j = Some sub -> sub_ts sub = None -> sub_t0 sub = false ->
    sub_t1 sub = false -> sub_steps sub = S n -> cfg_max_steps c = Some m ->
    let saved := map (step_point sub) (select (fun k => k mod (S n) =? 0)%nat (accepted h)) in
    exists sv, nth_error (out_save o) j = Some sv /\
      holds_log sv saved (in_pad i) (m / S n).
  Proof. exact pf_C06_saveat_steps. Qed.
  (** C07: [SaveAt(t1=True, steps=n)] saves the multiples of [n] and the last step, once each;
      provided that a step was accepted and there is no root finder. *)
  Theorem C07_saveat_t1_steps_partial :
    forall (c : config) (i : initial) (h : list attempt) (o : outcome) (j n : nat) (sub : subsaveat Y V),
    solve_run c i h o -> has_root_finder c = false -> rejects_in_place h ->
    cfg_t0 c < cfg_t1 c ->
    nth_error (cfg_subs c) j = Some sub -> sub_ts sub = None -> sub_t0 sub = false ->
    sub_t1 sub = true -> sub_steps sub = S n ->
    accepted h <> [] ->
    let saved := map (step_point sub)
                     (select (fun k => (k mod S n =? 0) || (k =? length (accepted h)))%nat (accepted h)) in
    exists sv, nth_error (out_save o) j = Some sv /\
      holds_log sv saved (in_pad i) (allocated (cfg_max_steps c) sub).
  Proof. exact pf_C07_saveat_t1_steps_partial. Qed.
  (** C07: with [SaveAt(t1=True)] and no [steps] the last entry is the final time and value. *)
  Theorem C07_saveat_t1_partial :
    forall (c : config) (i : initial) (h : list attempt) (o : outcome) (j : nat) (sub : subsaveat Y V),
    solve_run c i h o -> has_root_finder c = false ->
    (stepto_len c <> None -> cfg_t0 c < cfg_t1 c) ->
    nth_error (cfg_subs c) j = Some sub -> sub_t1 sub = true -> sub_steps sub = 0%nat ->
    exists sv log, nth_error (out_save o) j = Some sv /\
      holds_log sv (log ++ [(out_tfinal o, sub_fn sub (out_tfinal o) (out_yfinal o))])
                (in_pad i) (allocated (cfg_max_steps c) sub).
  Proof. exact pf_C07_saveat_t1_partial. Qed.
  (** C07: the same for every combination of [t0], [ts] and [steps]: the last entry is the final time
      and value, unless [steps] is given and no step was accepted. *)
  Theorem C07_final_entry :
    forall (c : config) (i : initial) (h : list attempt) (o : outcome) (j : nat) (sub : subsaveat Y V),
    solve_run c i h o -> has_root_finder c = false -> rejects_in_place h ->
    cfg_t0 c < cfg_t1 c ->
    nth_error (cfg_subs c) j = Some sub -> sub_t1 sub = true ->
    sub_steps sub = 0%nat \/ accepted h <> [] ->
    exists sv log, nth_error (out_save o) j = Some sv /\
      holds_log sv (log ++ [(out_tfinal o, sub_fn sub (out_tfinal o) (out_yfinal o))])
                (in_pad i) (allocated (cfg_max_steps c) sub).
  Proof. exact pf_C07_final_entry. Qed.
  (** C56: saved times are sorted and lie in [[t0, t1]].  If both [ts] and [steps] are requested, no
      requested time may lie in a time jump. *)
  Theorem C56_saved_times_sorted :
    forall (c : config) (i : initial) (h : list attempt) (o : outcome) (Inv : Z -> Z -> CS -> Prop),
    solve_run c i h o -> has_root_finder c = false ->
    (stepto_len c <> None -> cfg_t0 c < cfg_t1 c) ->
    controller_contract c Inv -> midpoint_ok c ->
    cfg_t0 c <= cfg_t1 c -> cfg_t0 c <= in_tnext i ->
    Inv (cfg_t0 c) (Z.min (in_tnext i) (cfg_t1 c)) (in_controller_state i) ->
    Forall (fun sub => Sorted Z.le (sub_ts_list sub) /\
                       Forall (fun t => cfg_t0 c <= t) (sub_ts_list sub) /\
                       (sub_steps sub = 0%nat \/
                        forall a t, In a (accepted h) -> In t (sub_ts_list sub) ->
                                    at_to a < t -> at_end a <= t)) (cfg_subs c) ->
    Forall2 (fun sub sv => exists log n,
        ss_ts sv = map Fin log ++ repeat (in_pad i) n /\ StronglySorted Z.le log /\
        Forall (fun t => cfg_t0 c <= t <= cfg_t1 c) log) (cfg_subs c) (out_save o).
  Proof. exact pf_C56_saved_times_sorted. Qed.
End Theorems.

Section Pairs.
  Context {Y SS CS DI E V MS1 V1 V2 MS2 : Type}.
  (** C13: two solves that differ only in what is observed make the same steps and have the same
      outcome. *)
  Theorem C13_observing_does_not_disturb :
    forall (c1 : config Y SS CS DI E V1 MS1) (c2 : config Y SS CS DI E V2 MS2) i1 i2 h1 h2 o1 o2,
    same_numerics c1 c2 -> cfg_t0 c1 = cfg_t0 c2 -> cfg_max_steps c1 = cfg_max_steps c2 ->
    same_start i1 i2 -> rf_extensional c2 ->
    solve_run c1 i1 h1 o1 -> solve_run c2 i2 h2 o2 ->
    Forall2 attempt_eq h1 h2 /\
    out_tfinal o1 = out_tfinal o2 /\ out_yfinal o1 = out_yfinal o2 /\
    out_result o1 = out_result o2 /\
    st_num_steps (out_state o1) = st_num_steps (out_state o2) /\
    st_num_accepted (out_state o1) = st_num_accepted (out_state o2) /\
    st_num_rejected (out_state o1) = st_num_rejected (out_state o2) /\
    st_solver_state (out_state o1) = st_solver_state (out_state o2) /\
    st_controller_state (out_state o1) = st_controller_state (out_state o2) /\
    st_made_jump (out_state o1) = st_made_jump (out_state o2) /\
    st_event_mask (out_state o1) = st_event_mask (out_state o2).
  Proof. exact pf_C13_observing_does_not_disturb. Qed.
  (** C14: what is saved for a [SubSaveAt] does not depend on what else is saved. *)
  Theorem C14_subs_independent :
    forall (c1 : config Y SS CS DI E V MS1) (c2 : config Y SS CS DI E V MS2) i1 i2 h1 h2 o1 o2 (j1 j2 : nat) (sub : subsaveat Y V),
    same_numerics c1 c2 -> cfg_t0 c1 = cfg_t0 c2 -> cfg_max_steps c1 = cfg_max_steps c2 ->
    same_start i1 i2 -> rf_extensional c2 ->
    nth_error (cfg_subs c1) j1 = Some sub -> nth_error (cfg_subs c2) j2 = Some sub ->
    solve_run c1 i1 h1 o1 -> solve_run c2 i2 h2 o2 ->
    exists sv, nth_error (out_save o1) j1 = Some sv /\ nth_error (out_save o2) j2 = Some sv.
  Proof. exact pf_C14_subs_independent. Qed.
End Pairs.

(** Non-vacuity. *)
Definition sub_ts4 : subsaveat Z Z := sub_of false false (Some [3; 400; 400; 1000]) 0.
Definition c_save : config Z nat nat (Z * Z) unit Z nat :=
  ex_cfg 1000 9 [sub_ts4; sub_of false false None 2; sub_of false true None 3;
                 sub_of true true None 0] None.

Example C04_C05_C06_C07_instance :
  results_ok c_save /\
  has_root_finder c_save = false /\ Sorted Z.le [3; 400; 400; 1000] /\
  exists h o, solve_run c_save ex_init h o /\
    (rejects_in_place h /\ no_time_jumps h /\ out_result o = successful /\ map at_keep h = [true; false; true; true; true] /\
     map (fun s => (ss_ts s, ss_ys s)) (out_save o) =
     [([Fin 3; Fin 400; Fin 400; Fin 1000], [Some 26; Some 820; Some 820; Some 2020]);
      ([Fin 400; Fin 1000; PInf; PInf], [Some 820; Some 2020; None; None]);
      ([Fin 700; Fin 1000; PInf], [Some 1420; Some 2020; None]);
      ([Fin 0; Fin 1000], [Some 20; Some 2020])]).
Proof.
  split; [apply ex_results_ok|]. split; [reflexivity|]. split; [repeat constructor; lia|].
  apply runs. vm_compute. do 2 (split; [repeat constructor; discriminate|]). auto.
Qed.

(** A solve that is cut off: two of four requested times are served. *)
Example C04_early_stop_instance :
  exists h o, solve_run (ex_cfg 1000 2 [sub_of false false (Some [3; 250; 400; 1000]) 0] None) ex_init h o /\
    (out_result o = max_steps_reached /\
     map ss_ts (out_save o) = [[Fin 3; Fin 250; PInf; PInf]]).
Proof. apply runs. vm_compute. auto. Qed.

Example C04_t0_equals_t1_instance :
  exists h o, solve_run (ex_cfg 0 2 [sub_of false false (Some [0; 0]) 0] None) ex_init h o /\
    (out_result o = successful /\ map ss_ts (out_save o) = [[Fin 0; Fin 0]] /\
     map ss_ys (out_save o) = [[Some 20; Some 20]]).
Proof. apply runs. vm_compute. auto. Qed.

Example C05_no_exception_instance :
  Forall (fun sub => (0 < allocated (Some 9%nat) sub)%nat) (cfg_subs c_save).
Proof. repeat constructor; vm_compute; lia. Qed.

Example C56_instance :
  controller_contract c_save (fun _ _ _ => True) /\ midpoint_ok c_save /\
  Forall (fun sub => Sorted Z.le (sub_ts_list sub) /\
                     Forall (fun t => cfg_t0 c_save <= t) (sub_ts_list sub) /\
                     sub_steps sub = 0%nat) [sub_ts4].
Proof.
  split; [apply ex_contract|]. split; [apply ex_midpoint|].
  repeat constructor; cbn; lia.
Qed.

Example C13_C14_instance :
  same_numerics c_save (ex_cfg 1000 9 [sub_of true true (Some [1; 2]) 2; sub_ts4] None) /\
  rf_extensional (ex_cfg 1000 9 [sub_of true true (Some [1; 2]) 2; sub_ts4] None) /\
  same_start ex_init ex_init /\
  exists h o, solve_run (ex_cfg 1000 9 [sub_of true true (Some [1; 2]) 2; sub_ts4] None) ex_init h o /\
    nth_error (map ss_ts (out_save o)) 1 = Some [Fin 3; Fin 400; Fin 400; Fin 1000].
Proof.
  split; [constructor; reflexivity|]. split; [apply ex_rf_ext|]. split; [repeat split|].
  apply runs. vm_compute. reflexivity.
Qed.

(** C05: without storage the final call of [_save] raises: [SaveAt(steps=2)] with [max_steps=1]. *)
Theorem C05_no_storage_refuted :
  exists (c : config Z nat nat (Z * Z) unit Z nat) i m,
    cfg_max_steps c = Some m /\ cfg_subs c = [sub_of false false None 2] /\ solve c i = None.
Proof. exists (ex_cfg 1000 1 [sub_of false false None 2] None), ex_init, 1%nat. auto. Qed.

(** C07: with [SaveAt(t1=True, steps=n)] nothing is saved if no step was made. *)
Theorem C07_no_final_value_refuted :
  exists (c : config Z nat nat (Z * Z) unit Z nat) i h o,
    solve_run c i h o /\
    (cfg_subs c = [sub_of false true None 1] /\ out_result o = event_occurred /\
     out_tfinal o = 0 /\ map ss_ts (out_save o) = [[PInf; PInf; PInf]]).
Proof.
  exists (ex_cfg 1000 3 [sub_of false true None 1] (Some (Event [ex_bool_event 0] None))), ex_init.
  apply runs. vm_compute. auto.
Qed.

(** C07 (and C06): with a root finder and no event, [SaveAt(steps=1)] saves the final value twice. *)
Theorem C07_saved_twice_refuted :
  exists (c : config Z nat nat (Z * Z) unit Z nat) i h o,
    solve_run c i h o /\
    (cfg_subs c = [sub_of false false None 1] /\ out_result o = successful /\
     length (accepted h) = 4%nat /\
     map ss_ts (out_save o) = [[Fin 250; Fin 400; Fin 700; Fin 1000; Fin 1000; PInf; PInf]]).
Proof.
  exists (ex_cfg 1000 7 [sub_of false false None 1]
            (Some (Event [ex_real_event 2000] (Some ex_rf_bracketing)))), ex_init.
  apply runs. vm_compute. auto.
Qed.


Print Assumptions C04_saveat_ts.
Print Assumptions C04_early_stop_prefix.
Print Assumptions C04_t0_equals_t1.
Print Assumptions C05_storage.
Print Assumptions C05_no_exception.
Print Assumptions C06_saveat_steps.
Print Assumptions C07_saveat_t1_steps_partial.
Print Assumptions C07_saveat_t1_partial.
Print Assumptions C07_final_entry.
Print Assumptions C56_saved_times_sorted.
Print Assumptions C13_observing_does_not_disturb.
Print Assumptions C14_subs_independent.
Print Assumptions C05_no_storage_refuted.
Print Assumptions C07_no_final_value_refuted.
Print Assumptions C07_saved_twice_refuted.
