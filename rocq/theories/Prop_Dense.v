(** Theorems about dense output: C15, C43. *)
From Coq Require Import ZArith List Bool Arith Lia Sorting.Sorted.
From Verif Require Import Model_Result Model_Loop Spec_Loop Model_Dense Spec_Dense Proof_Dense Ex_Loop.
Import ListNotations.
Open Scope Z_scope.

Section Knots.
  Context {Y DI : Type}.
  Notation dense := (dense_interpolation Y DI).

  (** C43: at [t] the interval between the knots [prev] and [next] is used if it contains [t]; at an
      inner knot the earlier interval with [left=True], the later one with [left=False].  Repeated
      knots are allowed. *)
  Theorem C43_interval :
    forall (d : dense) (ks : list Z) (dis : list DI) (t : Z) (left : bool) (j : nat) (prev next : Z) (info : DI),
    has_knots d ks dis ->
    nth_error ks j = Some prev -> nth_error ks (S j) = Some next -> nth_error dis j = Some info ->
    (if left then (prev < t \/ (j = 0%nat /\ prev <= t)) /\ t <= next
     else prev <= t /\ (t < next \/ (S (S j) = length ks /\ t <= next))) ->
    dense_evaluate d t left = Some (dn_cls d prev next info t).
  Proof. exact pf_C43_interval. Qed.
  (** C43: for every time in range some interval containing it is used. *)
  Theorem C43_covered :
    forall (d : dense) (ks : list Z) (dis : list DI) (t k0 k1 : Z) (left : bool),
    has_knots d ks dis -> (2 <= length ks)%nat ->
    nth_error ks 0 = Some k0 -> nth_error ks (length ks - 1) = Some k1 -> k0 <= t <= k1 ->
    exists j prev next info, nth_error ks j = Some prev /\ nth_error ks (S j) = Some next /\
      nth_error dis j = Some info /\ prev <= t <= next /\
      dense_evaluate d t left = Some (dn_cls d prev next info t).
  Proof. exact pf_C43_covered. Qed.
  (** C43: out of range the value is NaN. *)
  Theorem C43_outside :
    forall (d : dense) (ks : list Z) (dis : list DI) (t k0 k1 : Z) (left : bool),
    has_knots d ks dis -> (2 <= length ks)%nat ->
    nth_error ks 0 = Some k0 -> nth_error ks (length ks - 1) = Some k1 -> (t < k0 \/ k1 < t) ->
    dense_evaluate d t left = None.
  Proof. exact pf_C43_outside. Qed.
  (** C43: no steps at all: [y0] at [t0], NaN elsewhere. *)
  Theorem C43_trivial :
    forall (d : dense) (t : Z) (left : bool),
    dn_ts_size d = 1%nat ->
    dense_evaluate d t left = if t =? dn_t0_if_trivial d then Some (dn_y0_if_trivial d) else None.
  Proof. exact pf_C43_trivial. Qed.
End Knots.

Section Solves.
  Context {Y SS CS DI E V MS : Type}.
  Notation config := (config Y SS CS DI E V MS).
  Notation initial := (initial Y SS CS MS).
  Notation outcome := (outcome Y SS CS DI V MS).
  Notation attempt := (attempt Y).

  (** C15: the values saved by [SaveAt(ts)] are those of the dense output of the same solve, and are
      all defined. *)
  Theorem C15_saved_values :
    forall (c : config) (i : initial) (h : list attempt) (o : outcome) (j : nat) (sub : subsaveat Y V) (ts : list Z),
    solve_run c i h o -> cfg_dense c = true ->
    has_root_finder c = false -> stepto_len c = None -> results_ok c ->
    rejects_in_place h -> no_time_jumps h -> (forall a, In a h -> at_from a <= at_to a) ->
    cfg_t0 c < cfg_t1 c -> nth_error (cfg_subs c) j = Some sub ->
    sub_ts sub = Some ts -> sub_t0 sub = false -> sub_t1 sub = false -> sub_steps sub = 0%nat ->
    Sorted Z.le ts -> Forall (fun t => cfg_t0 c <= t <= cfg_t1 c) ts ->
    out_result o = successful ->
    exists sv, nth_error (out_save o) j = Some sv /\ ss_ts sv = map Fin ts /\
      ss_ys sv = map (fun t => option_map (sub_fn sub t) (dense_evaluate (sol_interpolation c i o) t true)) ts /\
      Forall (fun t => dense_evaluate (sol_interpolation c i o) t true <> None) ts.
  Proof. exact pf_C15_saved_values. Qed.
  (** C15: whatever the result of the solve, up to the last accepted step the dense output at [t] is
      the interpolant of the first accepted step that ends at or after [t] -- the value [SaveAt(ts)]
      saves by C04. *)
  Theorem C15_dense_is_saveat_ts :
    forall (c : config) (i : initial) (h : list attempt) (o : outcome) (t : Z) (a : attempt),
    solve_run c i h o -> cfg_dense c = true -> rejects_in_place h -> no_time_jumps h ->
    (forall a, In a h -> at_from a <= at_to a) ->
    cfg_t0 c <= t -> find (fun a => t <=? at_to a) (accepted h) = Some a ->
    dense_evaluate (sol_interpolation c i o) t true = Some (at_interp a t).
  Proof. exact pf_C15_dense_is_saveat_ts. Qed.
  (** C15: before [t0] and after the end of the last accepted step it is NaN. *)
  Theorem C15_outside :
    forall (c : config) (i : initial) (h : list attempt) (o : outcome) (t : Z) (left : bool),
    solve_run c i h o -> cfg_dense c = true -> rejects_in_place h -> no_time_jumps h ->
    (forall a, In a h -> at_from a <= at_to a) ->
    (t < cfg_t0 c \/ fst (current (cfg_t0 c) (in_y i) (accepted h)) < t) ->
    dense_evaluate (sol_interpolation c i o) t left = None.
  Proof. exact pf_C15_outside. Qed.
  (** C15: if no step was accepted. *)
  Theorem C15_trivial :
    forall (c : config) (i : initial) (h : list attempt) (o : outcome) (t : Z) (left : bool),
    solve_run c i h o -> cfg_dense c = true -> accepted h = [] ->
    dense_evaluate (sol_interpolation c i o) t left = if t =? cfg_t0 c then Some (in_y i) else None.
  Proof. exact pf_C15_trivial. Qed.
End Solves.

Definition c_dense : config Z nat nat (Z * Z) unit Z nat :=
  ex_cfg 1000 9 [sub_of false false (Some [0; 3; 250; 251; 640; 1000]) 0] None.
Example C15_C43_instance :
  cfg_dense c_dense = true /\ has_root_finder c_dense = false /\ results_ok c_dense /\
  exists h o, solve_run c_dense ex_init h o /\
    (rejects_in_place h /\ no_time_jumps h /\ (forall a, In a h -> at_from a <= at_to a) /\
     map at_keep h = [true; false; true; true; true] /\ out_result o = successful /\
     map ss_ys (out_save o) = [[Some 20; Some 26; Some 520; Some 522; Some 1300; Some 2020]] /\
     map (fun t => dense_evaluate (sol_interpolation c_dense ex_init o) t true) [-1; 0; 250; 251; 1000; 1001]
     = [None; Some 10; Some 260; Some 261; Some 1010; None] /\
     exists dis, has_knots (sol_interpolation c_dense ex_init o) [0; 250; 400; 700; 1000] dis).
Proof.
  split; [reflexivity|]. split; [reflexivity|]. split; [apply ex_results_ok|].
  apply runs. vm_compute. split; [repeat constructor; discriminate|].
  split; [repeat constructor; discriminate|].
  split; [intros a H; repeat (destruct H as [<- | H]; [discriminate|]); destruct H|].
  split; [reflexivity|]. split; [reflexivity|]. split; [reflexivity|]. split; [reflexivity|].
  eexists [_; _; _; _]. split; [exists 5%nat; split; reflexivity|].
  split; [reflexivity|]. split; [reflexivity|].
  repeat (constructor; [|repeat constructor; discriminate]). constructor.
Qed.

(** C15, full claim (dense output ends at the final time, like saved output) refuted: an event with
    a root finder moves the final time back to 530 within the step [[400, 700]], and what
    [SaveAt(ts)] saved later is deleted; but the dense output extends to 700. *)
Theorem C15_event_refuted :
  exists (c : config Z nat nat (Z * Z) unit Z nat) h o,
    solve_run c ex_init h o /\ cfg_dense c = true /\ rejects_in_place h /\ no_time_jumps h /\
    out_result o = event_occurred /\ out_tfinal o = 530 /\
    map ss_ts (out_save o) = [[Fin 3; Fin 400; PInf; PInf]] /\
    dense_evaluate (sol_interpolation c ex_init o) 540 true = Some 550 /\
    dense_t1 (sol_interpolation c ex_init o) = Some (Fin 700).
Proof.
  exists (ex_cfg 1000 9 [sub_of false false (Some [3; 400; 540; 1000]) 0]
            (Some (Event [ex_real_event 530] (Some ex_rf_bracketing)))).
  apply runs. vm_compute. split; [reflexivity|]. split; [repeat constructor; discriminate|].
  split; [repeat constructor; discriminate|]. repeat split.
Qed.

Print Assumptions C43_interval.
Print Assumptions C43_covered.
Print Assumptions C43_outside.
Print Assumptions C43_trivial.
Print Assumptions C15_saved_values.
Print Assumptions C15_dense_is_saveat_ts.
Print Assumptions C15_outside.
Print Assumptions C15_trivial.
Print Assumptions C15_event_refuted.
