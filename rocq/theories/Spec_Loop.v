(** Specification vocabulary for the integration loop: the history of attempted steps, and what
    a [SubSaveAt] is supposed to save, as a function of that history only. *)
From Coq Require Import ZArith List Bool Arith.
From Verif Require Import Model_Result Model_Loop.
Import ListNotations.
Open Scope Z_scope.

Section Spec.
  Context {Y SS CS DI E V MS : Type}.
  Notation config := (config Y SS CS DI E V MS).
  Notation state := (state Y SS CS DI V MS).
  Notation subsaveat := (subsaveat Y V).

  (** One call of the solver over [[at_from, at_to]] from the value [at_yprev], together with
      the verdict of the controller.  [at_end], [at_y]: current time and solution afterwards;
      [at_jump]: the flag [made_jump] passed to the solver; [at_interp]: the interpolant. *)
  Record attempt := Attempt {
    at_from : Z; at_yprev : Y; at_jump : bool; at_to : Z; at_keep : bool; at_end : Z; at_y : Y;
    at_interp : Z -> Y; at_solver_result : RESULTS; at_controller_result : RESULTS
  }.

  (** The attempt made by one execution of the loop body from [s]. *)
  Definition attempt_of (c : config) (s : state) : attempt :=
    let so := solver_step c (st_tprev s) (st_tnext s) (st_y s) (st_solver_state s)
                          (st_made_jump s) in
    let ao := adapt c (st_tprev s) (st_tnext s) (st_y s) (so_y so)
                    (nan_to_inf c (so_error so)) (st_controller_state s) in
    Attempt (st_tprev s) (st_y s) (st_made_jump s) (st_tnext s) (ao_keep ao)
            (Z.min (ao_tprev ao) (cfg_t1 c))
            (if ao_keep ao then so_y so else st_y s)
            (interpolate c (st_tprev s) (st_tnext s) (so_dense so))
            (so_result so) (ao_result ao).

  (** All attempts made from [s] with at most [n] iterations, in order. *)
  Fixpoint history (c : config) (n : nat) (s : state) : list attempt :=
    match n with
    | O => []
    | S n' => if cond_fun c s then attempt_of c s :: history c n' (body_fun c s) else []
    end.

  (** The accepted ones. *)
  Definition accepted (h : list attempt) : list attempt := filter at_keep h.

  (** Longest prefix satisfying [p], and the rest. *)
  Fixpoint take_while {A} (p : A -> bool) (l : list A) : list A :=
    match l with
    | [] => []
    | x :: l' => if p x then x :: take_while p l' else []
    end.
  Fixpoint drop_while {A} (p : A -> bool) (l : list A) : list A :=
    match l with
    | [] => []
    | x :: l' => if p x then drop_while p l' else l
    end.

  (** What is to be saved because of [ts] and [steps] over a list of accepted steps:
      [rem] are the requested times not yet saved, [k] the number of steps accepted before. *)
  Fixpoint log_steps (sub : subsaveat) (rem : list Z) (k : nat) (accs : list attempt)
    : list (Z * V) :=
    match accs with
    | [] => []
    | a :: accs' =>
        map (fun t => (t, sub_fn sub t (at_interp a t)))
            (take_while (fun t => t <=? at_to a) rem)
        ++ (if negb (sub_steps sub =? 0)%nat && ((k + 1) mod sub_steps sub =? 0)%nat
            then [(at_end a, sub_fn sub (at_end a) (at_y a))] else [])
        ++ log_steps sub (drop_while (fun t => t <=? at_to a) rem) (k + 1) accs'
    end.

  (** What is to be saved at the start. *)
  Definition log_t0 (sub : subsaveat) (t0 : Z) (y0 : Y) : list (Z * V) :=
    if sub_t0 sub then [(t0, sub_fn sub t0 y0)] else [].

  Definition sub_ts_list (sub : subsaveat) : list Z :=
    match sub_ts sub with Some ts => ts | None => [] end.

  (** Everything saved before the finishing code. *)
  Definition log_loop (sub : subsaveat) (t0 : Z) (y0 : Y) (accs : list attempt)
    : list (Z * V) :=
    log_t0 sub t0 y0 ++ log_steps sub (sub_ts_list sub) 0 accs.

  (** A buffer that holds a log followed by padding. *)
  Definition holds_log (s : save_state V) (log : list (Z * V)) (pad : xtime) (size : nat) : Prop :=
    (length log <= size)%nat /\
    ss_ts s = map (fun p => Fin (fst p)) log ++ repeat pad (size - length log) /\
    ss_ys s = map (fun p => Some (snd p)) log ++ repeat None (size - length log).

  (** The documented contract of a step size controller ([base.py]), with an invariant [Inv] on
      (start, end, controller state): an accepted step moves on to its end or later, a rejected step
      is retried from the same start, and (unless it fails) the proposed end is not before the
      proposed start. *)
  Definition controller_contract (c : config) (Inv : Z -> Z -> CS -> Prop) : Prop :=
    forall tprev tnext y y1 err cs,
      Inv tprev tnext cs -> tprev <= tnext -> tnext <= cfg_t1 c ->
      (stepto_len c = None -> tprev < cfg_t1 c) ->
      let ao := adapt c tprev tnext y y1 err cs in
      (ao_keep ao = true -> tnext <= ao_tprev ao) /\
      (ao_keep ao = false -> ao_tprev ao = tprev) /\
      (ao_result ao = successful ->
       (ao_tprev ao <= ao_tnext ao) /\
       (let tp := Z.min (ao_tprev ao) (cfg_t1 c) in
        Inv tp (clip_to_end (midpoint c) tp (ao_tnext ao) (cfg_t1 c)
                            (t1_clip_floor (cfg_t1 c)) (ao_keep ao)) (ao_state ao))).

  (** In this history there are no time jumps: after an accepted step, the time is its end. *)
  Definition no_time_jumps (h : list attempt) : Prop :=
    Forall (fun a => at_keep a = true -> at_end a = at_to a) h.

  (** In this history rejected steps leave the time unchanged. *)
  Definition rejects_in_place (h : list attempt) : Prop :=
    Forall (fun a => at_keep a = false -> at_end a = at_from a) h.

  (** A controller for which both always hold. *)
  Definition plain_controller (c : config) : Prop :=
    forall tprev tnext y y1 err cs,
      let ao := adapt c tprev tnext y y1 err cs in
      ao_tprev ao = if ao_keep ao then tnext else tprev.

  (** Solver and controller do not themselves report the two outcomes reserved to the loop. *)
  Definition results_ok (c : config) : Prop :=
    (forall a b y ss j, let r := so_result (solver_step c a b y ss j) in
        r <> event_occurred /\ r <> max_steps_reached) /\
    (forall a b y y1 e cs, let r := ao_result (adapt c a b y y1 e cs) in
        r <> event_occurred /\ r <> max_steps_reached).

  (** The floating point midpoint of [a <= b] lies in [[a, b]]. *)
  Definition midpoint_ok (c : config) : Prop :=
    forall a b, a <= b -> a <= midpoint c a b <= b.

End Spec.
Arguments attempt : clear implicits.

Section SpecFinal.
  Context {Y SS CS DI E V MS : Type}.
  Notation subsaveat := (subsaveat Y V).

  (** Whether the [k]-th accepted step is one of those saved by [steps=n]. *)
  Definition step_due (n k : nat) : bool := negb (n =? 0)%nat && (k mod n =? 0)%nat.

  (** Everything a solve without root finder is to save for [sub]. *)
  Definition log_final (sub : subsaveat) (t0 t1 : Z) (y0 : Y) (accs : list (attempt Y))
             (tfinal : Z) (yfinal : Y) : list (Z * V) :=
    log_loop sub t0 y0 accs
    ++ (if t0 =? t1 then repeat (t0, sub_fn sub t0 yfinal) (length (sub_ts_list sub)) else [])
    ++ (if sub_t1 sub && negb (step_due (sub_steps sub) (length accs))
        then [(tfinal, sub_fn sub tfinal yfinal)] else []).
End SpecFinal.

Section SpecEvent.
  Context {Y SS CS DI E V MS : Type}.

  (** A condition function is met on going from [(t, y)] to [(t', y')].  Real-valued functions
      are compared by sign, [None] is NaN and never counts as met. *)
  Definition crosses (cf : cond_fn Y) (t : Z) (y : Y) (t' : Z) (y' : Y) : Prop :=
    match cf with
    | BoolCond f => f t' y' = true
    | RealCond f dir =>
        match f t y, f t' y' with
        | Some a, Some b =>
            match dir with
            | None => Z.sgn a <> Z.sgn b
            | Some true => a <= 0 /\ 0 < b
            | Some false => 0 < a /\ b <= 0
            end
        | _, _ => False
        end
    end.

  (** Real-valued condition functions are never NaN. *)
  Definition event_defined (e : event Y) : Prop :=
    forall cf t y, In cf (ev_cond_fn e) ->
      match cf with BoolCond _ => True | RealCond f _ => f t y <> None end.

  (** The error, if any, with which an attempt ends: a solver error (of an accepted step) takes
      precedence over one of the controller. *)
  Definition attempt_result (a : attempt Y) : RESULTS :=
    if at_keep a
    then match at_solver_result a with
         | successful | event_occurred => at_controller_result a
         | r => r
         end
    else at_controller_result a.
End SpecEvent.

Section SpecRun.
  Context {Y SS CS DI E V MS : Type}.

  (** A complete solve with history [h] and outcome [o].  With [max_steps=None] it is a solve
      whose loop ends by itself. *)
  Definition solve_run (c : config Y SS CS DI E V MS) (i : initial Y SS CS MS)
             (h : list (attempt Y)) (o : outcome Y SS CS DI V MS) : Prop :=
    exists s0 n, init_state c i = Some s0 /\
      match cfg_max_steps c with
      | Some m => n = m
      | None => cond_fun c (while_loop c n s0) = false
      end /\
      h = history c n s0 /\ finish c (while_loop c n s0) = Some o.

  (** A buffer that holds a log followed by entries that are all infinite. *)
  Definition holds_log_inf (s : save_state V) (log : list (Z * V)) (size : nat) : Prop :=
    exists suf, length suf = (size - length log)%nat /\ (length log <= size)%nat /\
      ss_ts s = map (fun p => Fin (fst p)) log ++ suf /\
      Forall (fun x => x = PInf \/ x = NInf) suf /\
      ss_ys s = map (fun p => Some (snd p)) log ++ repeat None (size - length log).

  (** What is to be saved when an event with a root finder ends the solve at [tfinal]. *)
  Definition log_event (sub : subsaveat Y V) (t0 : Z) (y0 : Y) (accs : list (attempt Y))
             (tfinal : Z) (yfinal : Y) : list (Z * V) :=
    filter (fun p => fst p <=? tfinal) (log_loop sub t0 y0 accs)
    ++ (if sub_t1 sub || step_due (sub_steps sub) (length accs)
        then [(tfinal, sub_fn sub tfinal yfinal)] else []).

  (** The same in a buffer of [size] entries: if it is already full, the final value replaces the
      last entry. *)
  Definition log_event_in (size : nat) (sub : subsaveat Y V) (t0 : Z) (y0 : Y)
             (accs : list (attempt Y)) (tfinal : Z) (yfinal : Y) : list (Z * V) :=
    let kept := filter (fun p => fst p <=? tfinal) (log_loop sub t0 y0 accs) in
    if sub_t1 sub || step_due (sub_steps sub) (length accs)
    then (if (length kept <? size)%nat then kept else removelast kept)
         ++ [(tfinal, sub_fn sub tfinal yfinal)]
    else kept.

  (** A root finder that stays in its bracket (and terminates with some value). *)
  Definition bracketing (rf : root_finder) : Prop :=
    forall f lo hi start, lo <= hi -> lo <= fst (rf f lo hi start) <= hi.

  (** A root finder that fails does so with a genuine error. *)
  Definition rf_results_ok (c : config Y SS CS DI E V MS) : Prop :=
    forall e rf f lo hi start r, cfg_event c = Some e -> ev_root_finder e = Some rf ->
      snd (rf f lo hi start) = Some r -> r <> successful /\ r <> max_steps_reached.

  (** The loop still has work to do: [t1] not reached, or (with [StepTo]) not all steps made. *)
  Definition unfinished (c : config Y SS CS DI E V MS) (s : state Y SS CS DI V MS) : Prop :=
    match stepto_len c with
    | Some k => (st_num_steps s < k - 1)%nat
    | None => st_tprev s < cfg_t1 c
    end.

  (** A list of accepted steps that is a run of the solver: each starts where the previous one
      left the time, from the value and the solver state that the previous one returned. *)
  Inductive solver_run (c : config Y SS CS DI E V MS) : Z -> Y -> SS -> bool -> list (attempt Y) -> Prop :=
  | run_nil t y ss j : solver_run c t y ss j []
  | run_cons t y ss j a j' accs :
      at_from a = t -> at_yprev a = y -> at_jump a = j -> at_keep a = true ->
      at_y a = so_y (solver_step c t (at_to a) y ss j) ->
      at_interp a = interpolate c t (at_to a) (so_dense (solver_step c t (at_to a) y ss j)) ->
      solver_run c (at_end a) (at_y a) (so_state (solver_step c t (at_to a) y ss j)) j' accs ->
      solver_run c t y ss j (a :: accs).
End SpecRun.

Section SpecMore.
  (** The elements of a list numbered from 1, and those whose number satisfies [p]. *)
  Definition numbered {A} (l : list A) : list (nat * A) := combine (seq 1 (length l)) l.
  Definition select {A} (p : nat -> bool) (l : list A) : list A :=
    map snd (filter (fun q => p (fst q)) (numbered l)).

  Context {Y SS CS DI E V MS : Type}.
  (** The time reached by an accepted step with the value saved there. *)
  Definition step_point (sub : subsaveat Y V) (a : attempt Y) : Z * V :=
    (at_end a, sub_fn sub (at_end a) (at_y a)).

  (** The current time and solution after a list of accepted steps. *)
  Definition current (t0 : Z) (y0 : Y) (accs : list (attempt Y)) : Z * Y :=
    last (map (fun a => (at_end a, at_y a)) accs) (t0, y0).

  (** A root finder depends on its function only through its values. *)
  Definition rf_extensional (c : config Y SS CS DI E V MS) : Prop :=
    forall rf e f g lo hi st, cfg_event c = Some e -> ev_root_finder e = Some rf ->
      (forall t, f t = g t) -> rf f lo hi st = rf g lo hi st.

  (** Storage allocated for a [SubSaveAt], as documented: one slot for [t0], one per requested
      time, one per possible multiple of [n] steps, and one for [t1] unless the last possible step
      is saved anyway. *)
  Definition allocated (max_steps : option nat) (sub : subsaveat Y V) : nat :=
    ((if sub_t0 sub then 1 else 0) + length (sub_ts_list sub)
     + match sub_steps sub, max_steps with S n, Some m => m / S n | _, _ => 0 end
     + (if sub_t1 sub && match sub_steps sub, max_steps with
                         | S n, Some m => negb (m mod S n =? 0)
                         | _, _ => true
                         end then 1 else 0))%nat.
End SpecMore.

Section SpecPair.
  Context {Y SS CS DI E V1 MS1 V2 MS2 : Type}.
  Notation config1 := (config Y SS CS DI E V1 MS1).
  Notation config2 := (config Y SS CS DI E V2 MS2).

  (** Two configurations that pose the same problem and differ at most in what is observed
      ([SaveAt], dense output, progress meter) and in the nominal [t0] and [max_steps]. *)
  Record same_numerics (c1 : config1) (c2 : config2) : Prop := {
    sn_step : forall a b y ss j, solver_step c1 a b y ss j = solver_step c2 a b y ss j;
    sn_nan : forall e, nan_to_inf c1 e = nan_to_inf c2 e;
    sn_interp : forall a b d t, interpolate c1 a b d t = interpolate c2 a b d t;
    sn_adapt : forall a b y y1 e cs, adapt c1 a b y y1 e cs = adapt c2 a b y y1 e cs;
    sn_stepto : stepto_len c1 = stepto_len c2;
    sn_mid : forall a b, midpoint c1 a b = midpoint c2 a b;
    sn_event : cfg_event c1 = cfg_event c2;
    sn_t1 : cfg_t1 c1 = cfg_t1 c2
  }.

  (** The same initial values. *)
  Definition same_start (i1 : initial Y SS CS MS1) (i2 : initial Y SS CS MS2) : Prop :=
    in_y i1 = in_y i2 /\ in_tnext i1 = in_tnext i2 /\ in_made_jump i1 = in_made_jump i2 /\
    in_solver_state i1 = in_solver_state i2 /\ in_controller_state i1 = in_controller_state i2 /\
    in_pad i1 = in_pad i2.

  (** Attempts up to extensional equality of the interpolants. *)
  Record attempt_eq (a b : attempt Y) : Prop := {
    ae_from : at_from a = at_from b; ae_yprev : at_yprev a = at_yprev b;
    ae_jump : at_jump a = at_jump b;
    ae_to : at_to a = at_to b; ae_keep : at_keep a = at_keep b; ae_end : at_end a = at_end b;
    ae_y : at_y a = at_y b; ae_interp : forall t, at_interp a t = at_interp b t;
    ae_sr : at_solver_result a = at_solver_result b;
    ae_cr : at_controller_result a = at_controller_result b
  }.
End SpecPair.
