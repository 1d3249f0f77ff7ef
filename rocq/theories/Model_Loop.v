(** The integration loop.  Models [/repo/diffrax/_integrate.py] functions [_save],
    [_clip_to_end], [loop] and the parts of [diffeqsolve] that build its initial state.

    Conventions (see DESIGN.md): a time is the ordinal [z : Z] of a floating point number,
    so [nextafter] is [+1] and [prevbefore] is [-1].  All times here are in normalised
    (increasing) time, as in [loop]. *)
From Coq Require Import ZArith List Bool Arith.
From Verif Require Import Model_Result.
Import ListNotations.
Open Scope Z_scope.

(** [eqxi.nextafter] and [eqxi.prevbefore] on ordinals. *)
Definition nextafter (t : Z) : Z := t + 1.
Definition prevbefore (t : Z) : Z := t - 1.

(** Entries of the [ts] buffers: [_integrate.py:1296] fills them with [direction * inf]. *)
Inductive xtime : Set := Fin (t : Z) | PInf | NInf.

(** [ts > t] and [ts < inf], as used in [unsave], [_integrate.py:800-804]. *)
Definition xgt (x : xtime) (t : Z) : bool :=
  match x with Fin z => t <? z | PInf => true | NInf => false end.
Definition xlt_inf (x : xtime) : bool :=
  match x with PInf => false | _ => true end.

(** Values of real-valued event functions: only the sign matters in the loop, so a float is
    represented by its ordinal (0 is zero) and NaN by [None]. *)
Definition fval : Set := option Z.
(** [jnp.sign]; NaN is propagated. *)
Definition fsign (v : fval) : fval := option_map Z.sgn v.
(** IEEE comparisons: [!=] is true on NaN; [<=] and [>] are false on NaN. *)
Definition f_ne (a b : fval) : bool :=
  match a, b with Some x, Some y => negb (x =? y) | _, _ => true end.
Definition f_le0 (a : fval) : bool := match a with Some x => x <=? 0 | None => false end.
Definition f_gt0 (a : fval) : bool := match a with Some x => 0 <? x | None => false end.

(** Array primitives.  [x.at[i].set(v)]: out of bounds writes are dropped (JAX scatter). *)
Fixpoint at_set {A} (l : list A) (i : nat) (v : A) : list A :=
  match l, i with
  | [], _ => []
  | _ :: l', O => v :: l'
  | x :: l', S i' => x :: at_set l' i' v
  end.
(** [x[i]] with traced [i]: out of bounds reads clamp to the last element (JAX gather).
    [None] only on an empty array. *)
Definition get_clamp {A} (l : list A) (i : nat) : option A :=
  nth_error l (Nat.min i (length l - 1)).
(** [lax.dynamic_update_slice_in_dim]: the start index is clamped so that the update fits;
    an update longer than the operand is a [TypeError] ([None]). *)
Definition dynamic_update_slice {A} (l upd : list A) (i : nat) : option (list A) :=
  if (length upd <=? length l)%nat then
    let i' := Nat.min i (length l - length upd) in
    Some (firstn i' l ++ upd ++ skipn (i' + length upd) l)
  else None.

Section Loop.
  (** Y: solutions; SS: solver states; CS: controller states; DI: dense infos; E: error
      estimates; V: values returned by [SubSaveAt.fn]; MS: progress meter states. *)
  Context {Y SS CS DI E V MS : Type}.

  (** [_saveat.py:17-60] [SubSaveAt]; [fn] is closed over [args]. *)
  Record subsaveat := SubSaveAt {
    sub_t0 : bool;
    sub_t1 : bool;
    sub_ts : option (list Z);
    sub_steps : nat;
    sub_fn : Z -> Y -> V
  }.

  (** [_event.py:20-120] [Event]: the PyTree of condition functions is flattened to a list;
      each is boolean-valued, or real-valued with a direction.  The extra keyword arguments
      ([terms], [solver], ...) are constant during a solve, so the functions are closed over them. *)
  Inductive cond_fn :=
  | BoolCond (f : Z -> Y -> bool)
  | RealCond (f : Z -> Y -> fval) (direction : option bool).

  Inductive event_value : Set := VBool (b : bool) | VReal (v : fval).

  (** [optx.root_find(f, root_finder, y0=start, options={lower, upper}, throw=False)]:
      an oracle from the function, bounds and start to a value and, on failure, its result. *)
  Definition root_finder := (Z -> list fval) -> Z -> Z -> Z -> Z * option RESULTS.

  Record event := Event {
    ev_cond_fn : list cond_fn;
    ev_root_finder : option root_finder
  }.

  (** What [solver.step] returns, [_integrate.py:373]. *)
  Record step_out := StepOut {
    so_y : Y; so_error : E; so_dense : DI; so_state : SS; so_result : RESULTS
  }.

  (** What [stepsize_controller.adapt_step_size] returns, [_integrate.py:389-396]. *)
  Record adapt_out := AdaptOut {
    ao_keep : bool; ao_tprev : Z; ao_tnext : Z; ao_jump : bool; ao_state : CS;
    ao_result : RESULTS
  }.

  (** The keyword arguments of [loop], [_integrate.py:302-318], closed over [terms] and [args].
      [stepto_len] is [Some (len ts)] when the controller is a [StepTo] (isinstance test on
      line 356).  [midpoint tprev t1] is the floating point [tprev + 0.5 * (t1 - tprev)].
      [meter_step] is the progress meter composed with [linear_rescale(t0, _, t1)].
      [nan_to_inf] is the replacement on line 386. *)
  Record config := Config {
    solver_step : Z -> Z -> Y -> SS -> bool -> step_out;
    nan_to_inf : E -> E;
    interpolate : Z -> Z -> DI -> Z -> Y;
    adapt : Z -> Z -> Y -> Y -> E -> CS -> adapt_out;
    stepto_len : option nat;
    midpoint : Z -> Z -> Z;
    meter_step : MS -> Z -> MS;
    cfg_subs : list subsaveat;
    cfg_dense : bool;
    cfg_event : option event;
    cfg_t0 : Z;
    cfg_t1 : Z;
    cfg_max_steps : option nat
  }.

  (** [_integrate.py:68-72] *)
  Record save_state := SaveState {
    saveat_ts_index : nat;
    ss_ts : list xtime;
    ss_ys : list (option V);   (* [None] is the [inf] padding *)
    save_index : nat
  }.

  (** [_integrate.py:75-110].  The event fields are those of the case [event is not None];
      they are constant dummies otherwise.  [event_dense_info] is [None] while it holds the
      zeros of line 1363. *)
  Record state := State {
    st_y : Y;
    st_tprev : Z;
    st_tnext : Z;
    st_made_jump : bool;
    st_solver_state : SS;
    st_controller_state : CS;
    st_meter : MS;
    st_result : RESULTS;
    st_num_steps : nat;
    st_num_accepted : nat;
    st_num_rejected : nat;
    st_save : list save_state;
    st_dense_ts : list xtime;
    st_dense_infos : list (option DI);
    st_dense_index : nat;
    st_event_tprev : Z;
    st_event_tnext : Z;
    st_event_dense : option DI;
    st_event_values : list event_value;
    st_event_mask : list bool
  }.

  (** [_integrate.py:244-275] [_save].  [repeat] copies are written. *)
  Definition save_ (t : Z) (y : Y) (fn : Z -> Y -> V) (s : save_state) (rep : nat)
             (pred : bool) : option save_state :=
    match (if pred then Some (Fin t) else get_clamp (ss_ts s) (save_index s)),
          (if pred then Some (Some (fn t y)) else get_clamp (ss_ys s) (save_index s)) with
    | Some t_to_save, Some y_to_save =>
        match dynamic_update_slice (ss_ts s) (repeat t_to_save rep) (save_index s),
              dynamic_update_slice (ss_ys s) (repeat y_to_save rep) (save_index s) with
        | Some ts, Some ys =>
            Some (SaveState (saveat_ts_index s) ts ys (save_index s + rep))
        | _, _ => None
        end
    | _, _ => None
    end.

  (** [_integrate.py:278-284] *)
  Definition clip_to_end (mid : Z -> Z -> Z) (tprev tnext t1 floor : Z) (keep : bool) : Z :=
    let clip := floor <? tnext in
    let tclip := if keep then t1 else mid tprev t1 in
    if clip then tclip else tnext.

  (** [_integrate.py:319-322]: [prevbefore] applied 100 times. *)
  Definition t1_clip_floor (t1 : Z) : Z := Nat.iter 100 prevbefore t1.

  (** [_integrate.py:355-363] *)
  Definition cond_fun (c : config) (s : state) : bool :=
    let out := match stepto_len c with
               | Some n => (st_num_steps s <? n - 1)%nat
               | None => st_tprev s <? cfg_t1 c
               end in
    out && is_successful (st_result s).

  (** [_integrate.py:456-487] [save_ts_impl]: the inner while loop, [fuel = len(ts)].
      [ts[index]] is read with a clamped index, so the order of the conjuncts is irrelevant. *)
  Fixpoint save_ts_loop (fuel : nat) (keep : bool) (tnext : Z) (ev : Z -> Y)
           (fn : Z -> Y -> V) (ts : list Z) (s : save_state) : save_state :=
    match fuel with
    | O => s
    | S fuel' =>
        match get_clamp ts (saveat_ts_index s) with
        | Some t =>
            if keep && (t <=? tnext) && (saveat_ts_index s <? length ts)%nat then
              save_ts_loop fuel' keep tnext ev fn ts
                (SaveState (saveat_ts_index s + 1)
                           (at_set (ss_ts s) (save_index s) (Fin t))
                           (at_set (ss_ys s) (save_index s) (Some (fn t (ev t))))
                           (save_index s + 1))
            else s
        | None => s
        end
    end.

  (** [_integrate.py:451-454] *)
  Definition save_ts (keep : bool) (tnext : Z) (ev : Z -> Y) (sub : subsaveat)
             (s : save_state) : save_state :=
    match sub_ts sub with
    | Some ts => save_ts_loop (length ts) keep tnext ev (sub_fn sub) ts s
    | None => s
    end.

  (** [_integrate.py:493-524].  [y_to_save] only matters when [should_save]. *)
  Definition save_steps (keep : bool) (num_accepted : nat) (tprev : Z) (y : Y)
             (sub : subsaveat) (s : save_state) : save_state :=
    if (sub_steps sub =? 0)%nat then s
    else
      let should_save := keep && (num_accepted mod sub_steps sub =? 0)%nat in
      if should_save then
        SaveState (saveat_ts_index s)
                  (at_set (ss_ts s) (save_index s) (Fin tprev))
                  (at_set (ss_ys s) (save_index s) (Some (sub_fn sub tprev y)))
                  (save_index s + 1)
      else s.

  (** [jtu.tree_map(f, saveat.subs, save_state)] on flattened trees. *)
  Fixpoint map2 {A B C} (f : A -> B -> C) (l : list A) (l' : list B) : list C :=
    match l, l' with
    | a :: l, b :: l' => f a b :: map2 f l l'
    | _, _ => []
    end.

  (** Evaluating a condition function. *)
  Definition cond_value (cf : cond_fn) (t : Z) (y : Y) : event_value :=
    match cf with
    | BoolCond f => VBool (f t y)
    | RealCond f _ => VReal (f t y)
    end.

  (** [_integrate.py:586-607]: whether an event triggers.  A change of dtype raises an
      exception in the code; it cannot happen here as the dtype is part of [cond_fn]. *)
  Definition event_triggers (cf : cond_fn) (old new : event_value) : bool :=
    match cf, old, new with
    | RealCond _ direction, VReal o, VReal n =>
        match direction with
        | None => f_ne (fsign o) (fsign n)
        | Some true => f_le0 (fsign o) && f_gt0 (fsign n)
        | Some false => f_gt0 (fsign o) && f_le0 (fsign n)
        end
    | BoolCond _, _, VBool b => b
    | _, _, _ => false
    end.

  (** [_integrate.py:623-628] and [1415-1420]: only the first True is kept.
      [first_true had mask] returns the new mask and [had_event]. *)
  Fixpoint first_true (had : bool) (mask : list bool) : list bool * bool :=
    match mask with
    | [] => ([], had)
    | m :: mask' =>
        let '(l, h) := first_true (m || had) mask' in (m && negb had :: l, h)
    end.

  (** The part of [body_fun_aux] that does numerics and decides; shared sub-expressions. *)
  Definition do_step (c : config) (s : state) : step_out :=
    solver_step c (st_tprev s) (st_tnext s) (st_y s) (st_solver_state s) (st_made_jump s).
  Definition do_adapt (c : config) (s : state) : adapt_out :=
    let so := do_step c s in
    adapt c (st_tprev s) (st_tnext s) (st_y s) (so_y so) (nan_to_inf c (so_error so))
          (st_controller_state s).

  (** [_integrate.py:365-662] [body_fun_aux].  The static/traced distinction of
      [_handle_static] (lines 343-353) is an optimisation and not modelled. *)
  Definition body_fun (c : config) (s : state) : state :=
    let so := do_step c s in
    let ao := do_adapt c s in
    let keep := ao_keep ao in
    let tprev := Z.min (ao_tprev ao) (cfg_t1 c) in
    let tnext := clip_to_end (midpoint c) tprev (ao_tnext ao) (cfg_t1 c)
                             (t1_clip_floor (cfg_t1 c)) keep in
    let y := if keep then so_y so else st_y s in
    let solver_state := if keep then so_state so else st_solver_state s in
    let made_jump := if keep then ao_jump ao else st_made_jump s in
    let solver_result := where_ keep (so_result so) successful in
    let result := where_ (is_okay (st_result s)) solver_result (st_result s) in
    let result := where_ (is_okay result) (ao_result ao) result in
    let num_accepted := (st_num_accepted s + if keep then 1 else 0)%nat in
    let num_rejected := (st_num_rejected s + if keep then 0 else 1)%nat in
    let ev := interpolate c (st_tprev s) (st_tnext s) (so_dense so) in
    let save1 := map2 (save_ts keep (st_tnext s) ev) (cfg_subs c) (st_save s) in
    let save2 := map2 (save_steps keep num_accepted tprev y) (cfg_subs c) save1 in
    let dense_on := cfg_dense c && keep in
    let dense_ts := if dense_on then at_set (st_dense_ts s) (st_dense_index s + 1) (Fin tprev)
                    else st_dense_ts s in
    let dense_infos := if dense_on
                       then at_set (st_dense_infos s) (st_dense_index s) (Some (so_dense so))
                       else st_dense_infos s in
    let dense_index := (st_dense_index s + if dense_on then 1 else 0)%nat in
    let '(etp, etn, edi, evals, emask, result) :=
      match cfg_event c with
      | None => (st_event_tprev s, st_event_tnext s, st_event_dense s, st_event_values s,
                 st_event_mask s, result)
      | Some e =>
          let vals := map (fun cf => cond_value cf tprev y) (ev_cond_fn e) in
          let raw := map2 (fun cf ov => event_triggers cf (fst ov) (snd ov)) (ev_cond_fn e)
                          (combine (st_event_values s) vals) in
          let '(mask, had_event) := first_true false raw in
          (st_tprev s, st_tnext s, Some (so_dense so), vals, mask,
           where_ had_event event_occurred result)
      end in
    {| st_y := y; st_tprev := tprev; st_tnext := tnext; st_made_jump := made_jump;
       st_solver_state := solver_state; st_controller_state := ao_state ao;
       st_meter := meter_step c (st_meter s) tprev;
       st_result := result;
       st_num_steps := st_num_steps s + 1;
       st_num_accepted := num_accepted; st_num_rejected := num_rejected;
       st_save := save2;
       st_dense_ts := dense_ts; st_dense_infos := dense_infos; st_dense_index := dense_index;
       st_event_tprev := etp; st_event_tnext := etn; st_event_dense := edi;
       st_event_values := evals; st_event_mask := emask |}.

  (** [outer_while_loop(cond_fun, body_fun, init_state, max_steps=fuel)],
      [_integrate.py:685-687]. *)
  Fixpoint while_loop (c : config) (fuel : nat) (s : state) : state :=
    match fuel with
    | O => s
    | S fuel' => if cond_fun c s then while_loop c fuel' (body_fun c s) else s
    end.

  (** The possible final states of the loop: unique when [max_steps] is given; otherwise the
      state in which an unbounded while loop halts, if it does. *)
  Definition loop_final (c : config) (s0 sf : state) : Prop :=
    match cfg_max_steps c with
    | Some m => sf = while_loop c m s0
    | None => exists n, sf = while_loop c n s0 /\ cond_fun c sf = false
    end.

  (** [_integrate.py:1273-1303] [_allocate_output]: the length of the output;
      [None] is the [ValueError] of line 1284. *)
  Definition out_size (max_steps : option nat) (sub : subsaveat) : option nat :=
    let a := (if sub_t0 sub then 1 else 0)%nat in
    let b := match sub_ts sub with Some ts => length ts | None => 0%nat end in
    let n := sub_steps sub in
    match (if (n =? 0)%nat then Some 0%nat
           else match max_steps with None => None | Some m => Some (m / n)%nat end) with
    | None => None
    | Some d =>
        let e := if sub_t1 sub &&
                    match max_steps with
                    | None => true
                    | Some m => (n =? 0)%nat || negb (m mod n =? 0)%nat
                    end
                 then 1%nat else 0%nat in
        Some (a + b + d + e)%nat
    end.

  (** [_integrate.py:1294-1303]; [pad] is [direction * inf]. *)
  Definition allocate_output (pad : xtime) (max_steps : option nat) (sub : subsaveat)
    : option save_state :=
    match out_size max_steps sub with
    | None => None
    | Some n => Some (SaveState 0 (repeat pad n) (repeat None n) 0)
    end.

  (** [_integrate.py:329-334] [save_t0]. *)
  Definition save_t0 (c : config) (y0 : Y) (sub : subsaveat) (s : save_state)
    : option save_state :=
    if sub_t0 sub then save_ (cfg_t0 c) y0 (sub_fn sub) s 1 true else Some s.

  Definition obind {A B} (o : option A) (f : A -> option B) : option B :=
    match o with Some a => f a | None => None end.

  Fixpoint omap2 {A B C} (f : A -> B -> option C) (l : list A) (l' : list B)
    : option (list C) :=
    match l, l' with
    | a :: l, b :: l' =>
        obind (f a b) (fun x => obind (omap2 f l l') (fun r => Some (x :: r)))
    | _, _ => Some []
    end.
  Fixpoint omap {A B} (f : A -> option B) (l : list A) : option (list B) :=
    match l with
    | a :: l => obind (f a) (fun x => obind (omap f l) (fun r => Some (x :: r)))
    | [] => Some []
    end.

  (** Arguments of [diffeqsolve] that set the initial state: [y0], the proposed first [tnext],
      [made_jump], solver, controller and meter states.  [pad] is [direction * inf]. *)
  Record initial := Initial {
    in_y : Y; in_tnext : Z; in_made_jump : bool; in_solver_state : SS;
    in_controller_state : CS; in_meter : MS; in_pad : xtime
  }.

  (** [_integrate.py:1368-1402]: initial value and mask of an event. *)
  Definition init_mask (v : event_value) : bool :=
    match v with VBool b => b | VReal _ => false end.

  (** [_integrate.py:1250-1450] (initial [State]), with [loop]'s own initialisation, lines
      324-341.  [None] is one of the two [ValueError]s about [max_steps=None]. *)
  Definition init_state (c : config) (i : initial) : option state :=
    obind (omap (allocate_output (in_pad i) (cfg_max_steps c)) (cfg_subs c)) (fun sv =>
    obind (omap2 (save_t0 c (in_y i)) (cfg_subs c) sv) (fun sv =>
    obind (if cfg_dense c then cfg_max_steps c else Some 0%nat) (fun m =>
      let vals := match cfg_event c with
                  | None => []
                  | Some e => map (fun cf => cond_value cf (cfg_t0 c) (in_y i)) (ev_cond_fn e)
                  end in
      let '(mask, had) := first_true false (map init_mask vals) in
      Some {| st_y := in_y i; st_tprev := cfg_t0 c; st_tnext := Z.min (in_tnext i) (cfg_t1 c);
              st_made_jump := in_made_jump i; st_solver_state := in_solver_state i;
              st_controller_state := in_controller_state i; st_meter := in_meter i;
              st_result := where_ had event_occurred successful;
              st_num_steps := 0; st_num_accepted := 0; st_num_rejected := 0;
              st_save := sv;
              st_dense_ts := if cfg_dense c then Fin (cfg_t0 c) :: repeat PInf m else [];
              st_dense_infos := if cfg_dense c then repeat None m else [];
              st_dense_index := 0;
              st_event_tprev := cfg_t0 c; st_event_tnext := cfg_t0 c;
              st_event_dense := None; st_event_values := vals; st_event_mask := mask |}))).

  (** What [loop] leaves behind that becomes observable in [Solution]. *)
  Record outcome := Outcome {
    out_state : state;
    out_save : list save_state;
    out_tfinal : Z;
    out_yfinal : Y;
    out_result : RESULTS
  }.

  (** [_integrate.py:704-708] and [776-779]: evaluating the last step's interpolant.  With the
      dummy dense info (no step made) the value is never used by the root find (see the
      comment on lines 1342-1362), we return [y]. *)
  Definition event_interp (c : config) (s : state) (t : Z) : Y :=
    match st_event_dense s with
    | Some di => interpolate c (st_event_tprev s) (st_event_tnext s) di t
    | None => st_y s
    end.

  (** [_integrate.py:710-759] [_to_root_find]. *)
  Definition to_root_find (c : config) (e : event) (s : state) (happened : bool) (t : Z)
    : list fval :=
    let distance := Some (st_event_tnext s - t) in
    map2 (fun (m : bool) cf =>
            let value :=
              if m then match cond_value cf t (event_interp c s t) with
                        | VBool _ => distance
                        | VReal v => v
                        end
              else Some 0 in
            if happened then value else distance)
         (st_event_mask s) (ev_cond_fn e).

  (** [_integrate.py:701]: [max(mask) > 0]. *)
  Definition event_happened (s : state) : bool := existsb (fun b => b) (st_event_mask s).

  (** [_integrate.py:703-785] [_root_find]. *)
  Definition root_find_event (c : config) (e : event) (rf : root_finder) (s : state)
    : Z * Y * RESULTS :=
    let '(tfinal, err) := rf (to_root_find c e s (event_happened s))
                             (st_event_tprev s) (st_event_tnext s) (st_event_tnext s) in
    let yfinal := if (st_num_steps s =? 0)%nat then st_y s else event_interp c s tfinal in
    (tfinal, yfinal, match err with None => st_result s | Some r => r end).

  (** [_integrate.py:691-695, 791-795].  [any_batch] is the batch-wide [unvmap_any(...)], which
      outside of [vmap] is [event_happened s]. *)
  Definition final_time (c : config) (any_batch : bool) (s : state) : Z * Y * RESULTS :=
    match cfg_event c with
    | Some e => match ev_root_finder e with
                | Some rf => if any_batch then root_find_event c e rf s
                             else (st_tprev s, st_y s, st_result s)
                | None => (st_tprev s, st_y s, st_result s)
                end
    | None => (st_tprev s, st_y s, st_result s)
    end.

  Definition has_root_finder (c : config) : bool :=
    match cfg_event c with
    | Some e => match ev_root_finder e with Some _ => true | None => false end
    | None => false
    end.

  (** [_integrate.py:798-817] [unsave].  [saveat_ts_index] is not read afterwards. *)
  Definition unsave (tfinal : Z) (s : save_state) : save_state :=
    let n := length (filter (fun t => xgt t tfinal && xlt_inf t) (ss_ts s)) in
    SaveState (saveat_ts_index s - n)
              (map (fun t => if xgt t tfinal then PInf else t) (ss_ts s))
              (map2 (fun t y => if xgt t tfinal then None else y) (ss_ts s) (ss_ys s))
              (save_index s - n).

  (** [_integrate.py:823-828] [_save_if_t0_equals_t1]. *)
  Definition save_if_t0_equals_t1 (c : config) (yfinal : Y) (sub : subsaveat) (s : save_state)
    : option save_state :=
    match sub_ts sub with
    | Some ts => save_ (cfg_t0 c) yfinal (sub_fn sub) s (length ts) true
    | None => Some s
    end.

  (** [_integrate.py:847-875] [_save_t1]; the static [pred is not False] of line 871 holds
      unless [pred] is a Python [False]. *)
  Definition save_t1 (rf : bool) (num_accepted : nat) (tfinal : Z) (yfinal : Y)
             (sub : subsaveat) (s : save_state) : option save_state :=
    let via_steps := match sub_steps sub with
                     | O => false
                     | S O => true
                     | n => (num_accepted mod n =? 0)%nat
                     end in
    let pred := if rf then sub_t1 sub || via_steps else sub_t1 sub && negb via_steps in
    let statically_false :=
      match sub_steps sub with
      | O => negb (sub_t1 sub)
      | S O => if rf then false else true
      | _ => false     (* a traced value, never literally [False] *)
      end in
    if statically_false then Some s
    else save_ tfinal yfinal (sub_fn sub) s 1 pred.

  (** [_integrate.py:688-885]: everything after the main loop. *)
  Definition finish_batched (c : config) (any_batch : bool) (s : state) : option outcome :=
    let '(tfinal, yfinal, result) := final_time c any_batch s in
    let sv := if has_root_finder c then map (unsave tfinal) (st_save s) else st_save s in
    obind (if cfg_t0 c =? cfg_t1 c
           then omap2 (save_if_t0_equals_t1 c yfinal) (cfg_subs c) sv else Some sv) (fun sv =>
    obind (omap2 (save_t1 (has_root_finder c) (st_num_accepted s) tfinal yfinal)
                 (cfg_subs c) sv) (fun sv =>
    Some (Outcome s sv tfinal yfinal
                  (where_ (cond_fun c s) max_steps_reached result)))).

  Definition finish (c : config) (s : state) : option outcome :=
    finish_batched c (event_happened s) s.

  (** A complete solve in normalised time: initialise, loop, finish. *)
  Definition solves (c : config) (i : initial) (o : outcome) : Prop :=
    exists s0 sf, init_state c i = Some s0 /\ loop_final c s0 sf /\ finish c sf = Some o.

  (** The same as a function, when [max_steps] is given. *)
  Definition solve (c : config) (i : initial) : option outcome :=
    obind (init_state c i) (fun s0 =>
    obind (cfg_max_steps c) (fun m => finish c (while_loop c m s0))).

End Loop.
Arguments subsaveat : clear implicits.
Arguments cond_fn : clear implicits.
Arguments event : clear implicits.
Arguments config : clear implicits.
Arguments save_state : clear implicits.
Arguments state : clear implicits.
Arguments initial : clear implicits.
Arguments outcome : clear implicits.
Arguments step_out : clear implicits.
Arguments adapt_out : clear implicits.
