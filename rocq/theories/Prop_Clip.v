(** Theorems about solves with [ClipStepSizeController]: C17 to C21, and C02 for this controller. *)
From Coq Require Import ZArith List Bool Arith Lia Sorting.Sorted Sorting.Permutation.
From Verif Require Import Model_Result Model_Loop Spec_Loop Model_Clip Spec_Clip Proof_Clip
  Proof_ClipLoop Proof_ClipRej Ex_Loop Ex_Clip.
Import ListNotations.
Open Scope Z_scope.

Section Theorems.
  Context {Y SS IS DI E V MS : Type}.
  Notation clip_controller := (clip_controller Y E IS).
  Notation config := (config Y SS (clip_state IS) DI E V MS).
  Notation initial := (initial Y SS (clip_state IS) MS).
  Notation outcome := (outcome Y SS (clip_state IS) DI V MS).
  Notation attempt := (attempt Y).

  (** C02: with this controller all steps lie in [[t0, t1]], follow each other without going back,
      and rejected steps are retried from the same time. *)
  Theorem C02_clip_times :
    forall (k : clip_controller) (c : config) (i : initial) (inner_t1 : Z) (inner0 : IS) (h : list attempt) (o : outcome),
    clip_solve k c i inner_t1 inner0 -> inner_no_jumps (controller_adapt k) ->
    store_rejected_steps k <> Some 0%nat -> spaced (ts_of (jump_ts k)) ->
    (forall j, In j (ts_of (jump_ts k)) ->
       cfg_t0 c + 1 < j /\
       (store_rejected_steps k = None \/ j <= cfg_t1 c - 100 \/ cfg_t1 c < j)) ->
    solve_run c i h o ->
    (forall a, In a h -> cfg_t0 c <= at_from a /\ at_from a <= at_to a /\ at_to a <= cfg_t1 c) /\
    (forall h1 a b h2, h = h1 ++ a :: b :: h2 ->
       at_from a <= at_from b /\
       (at_keep a = true -> at_to a <= at_from b) /\
       (at_keep a = false -> at_from b = at_from a)) /\
    rejects_in_place h.
  Proof. exact pf_C02_clip_times. Qed.
  (** C17: no step passes over an element of [step_ts].  The full claim (for every element strictly
      inside a step) is refuted below.  Partial: elements within one float of the start of the step,
      and elements in the last 100 floats before [t1], are excluded. *)
  Theorem C17_no_crossing_partial :
    forall (k : clip_controller) (c : config) (i : initial) (inner_t1 : Z) (inner0 : IS) (h : list attempt) (o : outcome) (a : attempt) (x : Z),
    clip_solve k c i inner_t1 inner0 -> solve_run c i h o ->
    In a h -> In x (ts_of (step_ts k)) -> x <= cfg_t1 c - 100 ->
    (at_from a + 2 < x -> at_to a <= x) /\
    (spaced (ts_of (step_ts k)) -> at_from a + 1 < x -> at_to a <= x).
  Proof. exact pf_C17_no_crossing_partial. Qed.
  (** C17: each element of [step_ts] is reached.  Partial: up to one float (an accepted step may end
      at the float just before it, see below), away from the ends and from jumps. *)
  Theorem C17_stepped_to_partial :
    forall (k : clip_controller) (c : config) (i : initial) (inner_t1 : Z) (inner0 : IS) (h : list attempt) (o : outcome) (x : Z),
    clip_solve k c i inner_t1 inner0 -> solve_run c i h o -> inner_no_jumps (controller_adapt k) ->
    results_ok c -> rf_results_ok c -> out_result o = successful ->
    spaced (ts_of (step_ts k)) -> In x (ts_of (step_ts k)) ->
    (forall j, In j (ts_of (jump_ts k)) -> j < x - 3 \/ x + 1 < j) ->
    cfg_t0 c + 1 < x -> x <= cfg_t1 c - 100 ->
    exists a, In a (accepted h) /\ (at_to a = x \/ at_to a = x - 1).
  Proof. exact pf_C17_stepped_to_partial. Qed.
  (** C17: the times that a controller uses are the given ones, multiplied by the direction of time and in increasing
      order, whatever their order was; so the assumption of order in [clip_solve] is always met. *)
  Theorem C17_constructed :
    forall (Y IS E : Type) (direction : Z) (inner : Z -> Z -> Y -> Y -> E -> IS -> adapt_out IS) (steps jumps : option (list Z)) (store : option nat),
    let k := clip_new direction inner steps jumps store in
  Sorted Z.le (ts_of (step_ts k)) /\ Permutation (ts_of (step_ts k)) (map (fun t => direction * t) (ts_of steps)) /\
  Sorted Z.le (ts_of (jump_ts k)) /\ Permutation (ts_of (jump_ts k)) (map (fun t => direction * t) (ts_of jumps)) /\
  (step_ts k = None <-> steps = None) /\ (jump_ts k = None <-> jumps = None) /\
  controller_adapt k = inner /\ store_rejected_steps k = store.
  Proof. exact pf_C17_constructed. Qed.
  Example C17_constructed_instance (inner : Z -> Z -> Y -> Y -> E -> IS -> adapt_out IS) :
    step_ts (clip_new (-1) inner (Some [3; 1; 2]) None None) = Some [-3; -2; -1].
  Proof. reflexivity. Qed.
  (** C18: no step contains a jump, not even at its ends.  Partial: jumps at least three floats
      apart, not at [t0] and not in the last 100 floats before [t1]; otherwise refuted below. *)
  Theorem C18_steps_avoid_jumps_partial :
    forall (k : clip_controller) (c : config) (i : initial) (inner_t1 : Z) (inner0 : IS) (h : list attempt) (o : outcome) (a : attempt) (j : Z),
    clip_solve k c i inner_t1 inner0 -> solve_run c i h o -> spaced (ts_of (jump_ts k)) ->
    In a h -> In j (ts_of (jump_ts k)) -> j <= cfg_t1 c - 100 -> j <> cfg_t0 c ->
    ~ (at_from a <= j <= at_to a).
  Proof. exact pf_C18_steps_avoid_jumps_partial. Qed.
  (** C18: the step following an accepted one is told about a jump exactly if there was one, and
      then starts after it. *)
  Theorem C18_jump_taken :
    forall (k : clip_controller) (c : config) (i : initial) (inner_t1 : Z) (inner0 : IS) (h1 h2 : list attempt) (o : outcome) (a b : attempt),
    clip_solve k c i inner_t1 inner0 -> inner_no_jumps (controller_adapt k) ->
    solve_run c i (h1 ++ a :: b :: h2) o -> at_keep a = true ->
    (In (at_to a) (ts_of (jump_ts k)) /\ at_from b = at_to a + 1 /\ at_jump b = true) \/
    (In (at_to a + 1) (ts_of (jump_ts k)) /\ at_from b = at_to a + 2 /\ at_jump b = true) \/
    (~ In (at_to a) (ts_of (jump_ts k)) /\ ~ In (at_to a + 1) (ts_of (jump_ts k)) /\
     at_from b = at_to a /\ at_jump b = false).
  Proof. exact pf_C18_jump_taken. Qed.
  (** C19: whatever the hint, the index found is the number of elements that are at most [t]. *)
  Theorem C19_hint_irrelevant :
    forall (t : Z) (ts : list Z) (hint : nat),
    Sorted Z.le ts -> (hint <= length ts)%nat ->
  let i := find_idx_with_hint t ts hint in
  (i <= length ts)%nat /\
  (forall j x, nth_error ts j = Some x -> ((j < i)%nat <-> x <= t)).
  Proof. exact pf_C19_hint_irrelevant. Qed.
  (** C20: each rejected end is later reached by an accepted step.  Partial: no attempt ends
      strictly inside the last 100 floats before [t1]. *)
  Theorem C20_rejected_ends_accepted_partial :
    forall (k : clip_controller) (c : config) (i : initial) (inner_t1 : Z) (inner0 : IS) (h1 h2 : list attempt) (a : attempt) (o : outcome) (n : nat),
    clip_solve k c i inner_t1 inner0 -> inner_no_jumps (controller_adapt k) ->
    store_rejected_steps k = Some (S n) ->
    spaced (ts_of (jump_ts k)) ->
    (forall j, In j (ts_of (jump_ts k)) ->
       cfg_t0 c + 1 < j /\ (j <= cfg_t1 c - 100 \/ cfg_t1 c < j)) ->
    solve_run c i (h1 ++ a :: h2) o -> results_ok c -> rf_results_ok c ->
    Forall (fun a => at_to a = cfg_t1 c \/ at_to a <= cfg_t1 c - 100) (h1 ++ a :: h2) ->
    out_result o = successful -> at_keep a = false ->
    exists b, In b (accepted h2) /\ at_to b = at_to a.
  Proof. exact pf_C20_rejected_ends_accepted_partial. Qed.
  (** C20: until then, no later attempt ends after it. *)
  Theorem C20_not_passed_partial :
    forall (k : clip_controller) (c : config) (i : initial) (inner_t1 : Z) (inner0 : IS) (h1 l1 l2 : list attempt) (a b : attempt) (o : outcome) (n : nat),
    clip_solve k c i inner_t1 inner0 -> inner_no_jumps (controller_adapt k) ->
    store_rejected_steps k = Some (S n) ->
    spaced (ts_of (jump_ts k)) ->
    (forall j, In j (ts_of (jump_ts k)) ->
       cfg_t0 c + 1 < j /\ (j <= cfg_t1 c - 100 \/ cfg_t1 c < j)) ->
    solve_run c i (h1 ++ a :: l1 ++ b :: l2) o ->
    Forall (fun a => at_to a = cfg_t1 c \/ at_to a <= cfg_t1 c - 100) (h1 ++ a :: l1 ++ b :: l2) ->
    at_keep a = false ->
    (forall b', In b' l1 -> at_keep b' = true -> at_to b' <> at_to a) ->
    at_to b <= at_to a.
  Proof. exact pf_C20_not_passed_partial. Qed.
  (** C20: no internal error.  Partial in the same way; refuted without this below. *)
  Theorem C20_no_internal_error_partial :
    forall (k : clip_controller) (c : config) (i : initial) (inner_t1 : Z) (inner0 : IS) (h : list attempt) (o : outcome) (n : nat) (a : attempt),
    clip_solve k c i inner_t1 inner0 -> inner_no_jumps (controller_adapt k) ->
    store_rejected_steps k = Some (S n) ->
    spaced (ts_of (jump_ts k)) ->
    (forall j, In j (ts_of (jump_ts k)) ->
       cfg_t0 c + 1 < j /\ (j <= cfg_t1 c - 100 \/ cfg_t1 c < j)) ->
    (forall a b y y1 e s, ao_result (controller_adapt k a b y y1 e s) <> internal_error) ->
    solve_run c i h o ->
    Forall (fun a => at_to a = cfg_t1 c \/ at_to a <= cfg_t1 c - 100) h ->
    In a h -> at_controller_result a <> internal_error.
  Proof. exact pf_C20_no_internal_error_partial. Qed.
  (** C20: overflow is reported only if more steps were rejected than there is storage for. *)
  Theorem C20_overflow :
    forall (k : clip_controller) (c : config) (i : initial) (inner_t1 : Z) (inner0 : IS) (h1 h2 : list attempt) (a : attempt) (o : outcome) (n : nat),
    clip_solve k c i inner_t1 inner0 -> inner_no_jumps (controller_adapt k) ->
    store_rejected_steps k = Some (S n) ->
    spaced (ts_of (jump_ts k)) ->
    (forall j, In j (ts_of (jump_ts k)) ->
       cfg_t0 c + 1 < j /\ (j <= cfg_t1 c - 100 \/ cfg_t1 c < j)) ->
    (forall a b y y1 e s, ao_result (controller_adapt k a b y y1 e s) <> max_steps_rejected) ->
    solve_run c i (h1 ++ a :: h2) o ->
    at_controller_result a = max_steps_rejected ->
    at_keep a = false /\ (S n <= length (filter (fun b => negb (at_keep b)) h1))%nat.
  Proof. exact pf_C20_overflow. Qed.
  (** C21: all requested times are saved, with the value of the interpolant of the first accepted
      step that reaches them.  Partial: jumps three floats apart and away from [t0]; a requested time
      at [t1] or the float before must not be near a jump. *)
  Theorem C21_requested_times_saved_partial :
    forall (k : clip_controller) (c : config) (i : initial) (inner_t1 : Z) (inner0 : IS) (h : list attempt) (o : outcome) (n : nat) (sub : subsaveat Y V) (ts : list Z) (l : nat) (t : Z),
    clip_solve k c i inner_t1 inner0 -> solve_run c i h o -> inner_no_jumps (controller_adapt k) ->
    results_ok c -> has_root_finder c = false -> out_result o = successful ->
    spaced (ts_of (jump_ts k)) ->
    ~ In (cfg_t0 c) (ts_of (jump_ts k)) -> ~ In (cfg_t0 c + 1) (ts_of (jump_ts k)) ->
    nth_error (cfg_subs c) n = Some sub ->
    sub_ts sub = Some ts -> sub_t0 sub = false -> sub_t1 sub = false -> sub_steps sub = 0%nat ->
    Sorted Z.le ts -> nth_error ts l = Some t -> t <= cfg_t1 c ->
    (t <= cfg_t1 c - 2 \/
     (~ In (cfg_t1 c) (ts_of (jump_ts k)) /\ ~ In (cfg_t1 c - 1) (ts_of (jump_ts k)))) ->
    exists sv a, nth_error (out_save o) n = Some sv /\ nth_error (ss_ts sv) l = Some (Fin t) /\
      find (fun a => t <=? at_to a) (accepted h) = Some a /\
      nth_error (ss_ys sv) l = Some (Some (sub_fn sub t (at_interp a t))).
  Proof. exact pf_C21_requested_times_saved_partial. Qed.
End Theorems.

(** A run that meets all hypotheses: four elements of [step_ts], one jump at 600; two steps are
    rejected and their ends are reached later. *)
Definition k1 := ex_clip (Some [100; 300; 500; 800]) (Some [600]) (Some 3%nat).
Definition c1 := ex_clip_cfg k1 1000 [sub_of false false (Some [200; 599; 600; 1000]) 0].
Definition i1 := ex_clip_init k1 250
  [(true, 250); (true, 450); (true, 480); (false, 430); (false, 380); (true, 420); (true, 600);
   (true, 700); (true, 900); (true, 1200)].

Example C02_C17_C18_C20_C21_instance :
  (exists first s, clip_solve k1 c1 i1 first s) /\ inner_no_jumps (controller_adapt k1) /\
  spaced (ts_of (step_ts k1)) /\ spaced (ts_of (jump_ts k1)) /\ results_ok c1 /\ rf_results_ok c1 /\
  has_root_finder c1 = false /\
  (forall j, In j (ts_of (jump_ts k1)) ->
     cfg_t0 c1 + 1 < j /\ (j <= cfg_t1 c1 - 100 \/ cfg_t1 c1 < j)) /\
  (forall a b y y1 e s, ao_result (controller_adapt k1 a b y y1 e s) = successful) /\
  exists h o, solve_run c1 i1 h o /\
    (out_result o = successful /\
     Forall (fun t => t = cfg_t1 c1 \/ t <= cfg_t1 c1 - 100) (map at_to h) /\
     map (fun a => (at_from a, at_to a, at_keep a, at_jump a)) h
     = [(0, 100, true, false); (100, 250, true, false); (250, 300, true, false);
        (300, 480, false, false); (300, 430, false, false); (300, 380, true, false);
        (380, 420, true, false); (420, 430, true, false); (430, 480, true, false);
        (480, 500, true, false); (500, 599, true, false); (601, 800, true, true);
        (800, 1000, true, false)] /\
     map ss_ts (out_save o) = [[Fin 200; Fin 599; Fin 600; Fin 1000]]).
Proof.
  split. { eexists. eexists. apply ex_clip_solve; try lia; cbn; repeat constructor; lia. }
  split; [apply ex_inner_no_jumps|].
  split. { intros x y. cbn. lia. }
  split. { intros x y. cbn. lia. }
  split. { apply ex_clip_results_ok. unfold k1. eauto. }
  split; [apply ex_clip_rf_ok|]. split; [reflexivity|].
  split. { intros j [<-|[]]. cbn. lia. }
  split. { intros a b y y1 e s. cbn. destruct s as [|[[] t] s]; reflexivity. }
  apply runs. vm_compute. split; [reflexivity|]. split; [|split; reflexivity].
  repeat (apply Forall_cons; [first [left; reflexivity | right; discriminate]|]). apply Forall_nil.
Qed.

(** C19: any hint will do. *)
Example C19_instance : map (find_idx_with_hint 5 [1; 5; 5; 9]) [0; 1; 2; 3; 4]%nat = repeat 3%nat 5.
Proof. reflexivity. Qed.

(** C20: overflow of storage for two rejected steps. *)
Definition k2 := ex_clip None None (Some 2%nat).
Example C20_overflow_instance :
  exists h o, solve_run (ex_clip_cfg k2 1000 [])
                        (ex_clip_init k2 800 [(false, 700); (false, 600); (false, 500)]) h o /\
    (map (fun a => (at_to a, at_keep a, at_controller_result a)) h
     = [(800, false, successful); (700, false, successful); (600, false, max_steps_rejected)] /\
     out_result o = max_steps_rejected).
Proof. apply runs. vm_compute. auto. Qed.

(** C17 in full is false: a step that ends at the float just before an element of [step_ts] is
    taken to have reached it, and the next step passes over the element. *)
Theorem C17_no_crossing_refuted :
  exists k (c : config Z nat (clip_state script) (Z * Z) unit Z nat) i first s h o a x,
    clip_solve k c i first s /\ inner_no_jumps (controller_adapt k) /\ solve_run c i h o /\
    out_result o = successful /\ In a h /\ In x (ts_of (step_ts k)) /\ x <= cfg_t1 c - 100 /\
    at_from a < x < at_to a.
Proof.
  set (k := ex_clip (Some [500]) None None). set (s := [(true, 499); (true, 800)]).
  assert (H : exists h o, solve_run (ex_clip_cfg k 1000 []) (ex_clip_init k 250 s) h o /\
             (out_result o = successful /\
              exists a, nth_error h 2 = Some a /\ at_from a = 499 /\ at_to a = 800)).
  { apply runs. vm_compute. split; [reflexivity|]. eexists. split; [reflexivity|]. auto. }
  destruct H as (h & o & Hr & Ho & a & Ha & H1 & H2).
  exists k, (ex_clip_cfg k 1000 []), (ex_clip_init k 250 s), 250, s, h, o, a, 500.
  split. { apply ex_clip_solve; try lia; cbn; repeat constructor. }
  split; [apply ex_inner_no_jumps|]. split; [exact Hr|]. split; [exact Ho|].
  split; [eapply nth_error_In; exact Ha|]. split; [left; reflexivity|]. cbn. lia.
Qed.

(** C18 in full is false: a jump within 100 floats of [t1] is stepped over. *)
Theorem C18_near_t1_refuted :
  exists k (c : config Z nat (clip_state script) (Z * Z) unit Z nat) i first s h o a j,
    clip_solve k c i first s /\ inner_no_jumps (controller_adapt k) /\ solve_run c i h o /\
    out_result o = successful /\ In a h /\ In j (ts_of (jump_ts k)) /\ at_jump a = false /\
    at_keep a = true /\ cfg_t0 c < at_from a /\ at_from a < j < at_to a.
Proof.
  set (k := ex_clip None (Some [950]) None). set (s := [(true, 4990)]).
  assert (H : exists h o, solve_run (ex_clip_cfg k 1000 []) (ex_clip_init k 500 s) h o /\
             (out_result o = successful /\
              exists a, nth_error h 1 = Some a /\ at_from a = 500 /\ at_to a = 1000 /\
                        at_jump a = false /\ at_keep a = true)).
  { apply runs. vm_compute. split; [reflexivity|]. eexists. split; [reflexivity|]. auto. }
  destruct H as (h & o & Hr & Ho & a & Ha & H1 & H2 & H3 & H4).
  exists k, (ex_clip_cfg k 1000 []), (ex_clip_init k 500 s), 500, s, h, o, a, 950.
  split. { apply ex_clip_solve; try lia; cbn; repeat constructor. }
  split; [apply ex_inner_no_jumps|]. split; [exact Hr|]. split; [exact Ho|].
  split; [eapply nth_error_In; exact Ha|]. split; [left; reflexivity|].
  split; [exact H3|]. split; [exact H4|]. cbn. lia.
Qed.

(** C18: jumps at adjacent floats give a step of length zero. *)
Theorem C18_zero_length_step_refuted :
  exists k (c : config Z nat (clip_state script) (Z * Z) unit Z nat) i first s h o a,
    clip_solve k c i first s /\ inner_no_jumps (controller_adapt k) /\ solve_run c i h o /\
    out_result o = successful /\ In a h /\ at_keep a = true /\ at_from a = at_to a /\
    In (at_to a) (ts_of (jump_ts k)).
Proof.
  set (k := ex_clip None (Some [500; 501; 502]) None). set (s := [(true, 4990)]).
  assert (H : exists h o, solve_run (ex_clip_cfg k 1000 []) (ex_clip_init k 800 s) h o /\
             (out_result o = successful /\
              exists a, nth_error h 1 = Some a /\ at_from a = 501 /\ at_to a = 501 /\
                        at_keep a = true)).
  { apply runs. vm_compute. split; [reflexivity|]. eexists. split; [reflexivity|]. auto. }
  destruct H as (h & o & Hr & Ho & a & Ha & H1 & H2 & H3).
  exists k, (ex_clip_cfg k 1000 []), (ex_clip_init k 800 s), 800, s, h, o, a.
  split. { apply ex_clip_solve; try lia; cbn; repeat constructor; lia. }
  split; [apply ex_inner_no_jumps|]. split; [exact Hr|]. split; [exact Ho|].
  split; [eapply nth_error_In; exact Ha|]. split; [exact H3|]. rewrite H1, H2. cbn. auto.
Qed.

(** C20: the internal error is reachable: the end of the rejected first step is within 100 floats
    of [t1], so the step that should end there is lengthened to [t1]. *)
Theorem C20_internal_error_refuted :
  exists k (c : config Z nat (clip_state script) (Z * Z) unit Z nat) i first s h o,
    clip_solve k c i first s /\ inner_no_jumps (controller_adapt k) /\ solve_run c i h o /\
    (forall a b y y1 e s, ao_result (controller_adapt k a b y y1 e s) = successful) /\
    (forall a b y ss j, b <= cfg_t1 c -> so_result (solver_step c a b y ss j) = successful) /\
    out_result o = internal_error.
Proof.
  set (k := ex_clip None None (Some 5%nat)). set (s := [(false, 500); (true, 4990)]).
  assert (H : exists h o, solve_run (ex_clip_cfg k 1000 []) (ex_clip_init k 950 s) h o /\
             out_result o = internal_error).
  { apply runs. vm_compute. reflexivity. }
  destruct H as (h & o & Hr & Ho).
  exists k, (ex_clip_cfg k 1000 []), (ex_clip_init k 950 s), 950, s, h, o.
  split. { apply ex_clip_solve; try lia; cbn; repeat constructor. }
  split; [apply ex_inner_no_jumps|]. split; [exact Hr|].
  split. { intros a b y y1 e s'. cbn. destruct s' as [|[[] t] s']; reflexivity. }
  split; [|exact Ho]. intros a b y ss j Hb. cbn in *. destruct (50000 <=? b) eqn:Hc; [|reflexivity].
  apply Z.leb_le in Hc. lia.
Qed.

(** C21 is false if [t1] itself is a jump: the first step is clipped to the float before, from which
    the time jumps to [t1]; the requested time [t1] is never saved although the solve succeeds. *)
Theorem C21_requested_t1_refuted :
  exists k (c : config Z nat (clip_state script) (Z * Z) unit Z nat) i first s h o sub sv,
    clip_solve k c i first s /\ inner_no_jumps (controller_adapt k) /\ solve_run c i h o /\
    has_root_finder c = false /\ out_result o = successful /\
    cfg_subs c = [sub] /\ sub_ts sub = Some [200; cfg_t1 c] /\
    out_save o = [sv] /\ ss_ts sv = [Fin 200; PInf].
Proof.
  set (k := ex_clip None (Some [1000]) None). set (s := @nil (bool * Z)).
  set (sub := sub_of false false (Some [200; 1000]) 0).
  assert (H : exists h o, solve_run (ex_clip_cfg k 1000 [sub]) (ex_clip_init k 5000 s) h o /\
             (out_result o = successful /\
              exists sv, out_save o = [sv] /\ ss_ts sv = [Fin 200; PInf])).
  { apply runs. vm_compute. split; [reflexivity|]. eexists. split; [reflexivity|]. auto. }
  destruct H as (h & o & Hr & Ho & sv & H1 & H2).
  exists k, (ex_clip_cfg k 1000 [sub]), (ex_clip_init k 5000 s), 5000, s, h, o, sub, sv.
  split. { apply ex_clip_solve; try lia; cbn; repeat constructor. }
  split; [apply ex_inner_no_jumps|]. split; [exact Hr|]. split; [reflexivity|]. split; [exact Ho|].
  split; [reflexivity|]. split; [reflexivity|]. auto.
Qed.

(** C21 is false if a jump time is requested together with [steps=True]: the times come out of
    order. *)
Theorem C21_order_refuted :
  exists k (c : config Z nat (clip_state script) (Z * Z) unit Z nat) i first s h o sv rest,
    clip_solve k c i first s /\ inner_no_jumps (controller_adapt k) /\ solve_run c i h o /\
    out_result o = successful /\ out_save o = [sv] /\ ss_ts sv = Fin 501 :: Fin 500 :: rest.
Proof.
  set (k := ex_clip None (Some [500]) None). set (s := @nil (bool * Z)).
  set (sub := sub_of false false (Some [500]) 1).
  assert (H : exists h o, solve_run (ex_clip_cfg k 1000 [sub]) (ex_clip_init k 800 s) h o /\
             (out_result o = successful /\
              exists sv rest, out_save o = [sv] /\ ss_ts sv = Fin 501 :: Fin 500 :: rest)).
  { apply runs. vm_compute. split; [reflexivity|]. eexists. eexists. split; reflexivity. }
  destruct H as (h & o & Hr & Ho & sv & rest & H1 & H2).
  exists k, (ex_clip_cfg k 1000 [sub]), (ex_clip_init k 800 s), 800, s, h, o, sv, rest.
  split. { apply ex_clip_solve; try lia; cbn; repeat constructor. }
  split; [apply ex_inner_no_jumps|]. auto.
Qed.

Print Assumptions C02_clip_times.
Print Assumptions C17_no_crossing_partial.
Print Assumptions C17_stepped_to_partial.
Print Assumptions C17_constructed.
Print Assumptions C18_steps_avoid_jumps_partial.
Print Assumptions C18_jump_taken.
Print Assumptions C19_hint_irrelevant.
Print Assumptions C20_rejected_ends_accepted_partial.
Print Assumptions C20_not_passed_partial.
Print Assumptions C20_no_internal_error_partial.
Print Assumptions C20_overflow.
Print Assumptions C21_requested_times_saved_partial.
Print Assumptions C17_no_crossing_refuted.
Print Assumptions C18_near_t1_refuted.
Print Assumptions C18_zero_length_step_refuted.
Print Assumptions C20_internal_error_refuted.
Print Assumptions C21_requested_t1_refuted.
Print Assumptions C21_order_refuted.
