(** The clipping step size controller.  Models [/repo/diffrax/_step_size_controller/clip.py].
    Times are ordinals of floats, as in [Model_Loop]. *)
From Coq Require Import ZArith List Bool Arith.
From Verif Require Import Model_Result Model_Loop.
Import ListNotations.
Open Scope Z_scope.

(** [clip.py:54-61] [_get_t] for an index in [{0, 1, ...}]; [None] is [inf]. *)
Definition get_t (i : nat) (ts : list Z) : option Z :=
  if (i =? length ts)%nat then None else nth_error ts (Nat.min i (length ts - 1)).

(** The same for the index of rejected steps, which may be [-1]: JAX wraps negative indices. *)
Definition get_tz (i : Z) (ts : list Z) : option Z :=
  if i <? 0 then nth_error ts (length ts - Z.to_nat (- i)) else get_t (Z.to_nat i) ts.

(** [jnp.minimum(_t, t)] where [_t] may be [inf]. *)
Definition min_opt (o : option Z) (t : Z) : Z :=
  match o with Some x => Z.min x t | None => t end.

(** [clip.py:64-75] [_clip_t].  [prevbefore(inf)] is the largest finite float; it is treated as
    [inf], which makes no difference as [t] is finite. *)
Definition clip_t (t : Z) (x : option Z) (before : bool) : Z :=
  min_opt (if before then option_map prevbefore x else x) t.

(** [clip.py:78-98] [_bump_next_t0] *)
Definition bump_next_t0 (next_t0 : Z) (ts : list Z) : Z * bool :=
  let nextafter_next_t0 := nextafter next_t0 in
  let made_jump1 := existsb (Z.eqb nextafter_next_t0) ts in
  let made_jump2 := existsb (Z.eqb next_t0) ts in
  let t := if made_jump1 then nextafter nextafter_next_t0 else next_t0 in
  let t := if made_jump2 then nextafter_next_t0 else t in
  (t, made_jump1 || made_jump2).

(** [clip.py:108-109, 115]: the first while loop.  [ts[_i]] is only inspected when [_i < len(ts)];
    the fuel is the number of remaining elements. *)
Fixpoint search_up (fuel : nat) (t : Z) (ts : list Z) (i : nat) : nat :=
  match fuel with
  | O => i
  | S fuel' =>
      match nth_error ts i with
      | Some x => if x <=? t then search_up fuel' t ts (i + 1) else i
      | None => i
      end
  end.

(** [clip.py:111-112, 116]: the second while loop. *)
Fixpoint search_down (t : Z) (ts : list Z) (i : nat) : nat :=
  match i with
  | O => O
  | S i' => match get_clamp ts i' with
            | Some x => if t <? x then search_down t ts i' else i
            | None => i
            end
  end.

(** [clip.py:101-117] [_find_idx_with_hint], for [ts] not [None]. *)
Definition find_idx_with_hint (t : Z) (ts : list Z) (hint : nat) : nat :=
  search_down t ts (search_up (length ts) t ts hint).

(** [jnp.searchsorted(ts, t, side="right")] on a sorted array. *)
Definition searchsorted_right (ts : list Z) (t : Z) : nat :=
  length (filter (fun x => x <=? t) ts).

(** [jnp.sort] *)
Fixpoint insert (x : Z) (l : list Z) : list Z :=
  match l with
  | [] => [x]
  | y :: l' => if x <=? y then x :: l else y :: insert x l'
  end.
Definition sort (l : list Z) : list Z := fold_right insert [] l.

Section Clip.
  Context {Y E IS : Type}.

  (** [clip.py:169-173]: the fields of the controller; [controller_adapt] is the inner controller.
      [callback_on_reject], for testing, is not modelled. *)
  Record clip_controller := ClipController {
    controller_adapt : Z -> Z -> Y -> Y -> E -> IS -> adapt_out IS;
    step_ts : option (list Z);
    jump_ts : option (list Z);
    store_rejected_steps : option nat
  }.

  (** [clip.py:29-33] *)
  Record clip_state := ClipState {
    step_info : option (nat * list Z);
    jump_info : option (nat * list Z);
    reject_info : option (Z * list Z);
    inner_state : IS
  }.

  (** [clip.py:188-226] [__init__] (sorting) followed by [wrap], [clip.py:236-245]; [inner] is
      already wrapped.  Multiplication by [direction] is exact. *)
  Definition clip_new (direction : Z) (inner : Z -> Z -> Y -> Y -> E -> IS -> adapt_out IS)
             (steps jumps : option (list Z)) (store : option nat) : clip_controller :=
    let w := option_map (fun l => sort (map (Z.mul direction) (sort l))) in
    ClipController inner (w steps) (w jumps) store.

  (** [clip.py:247-302] [init]; [inner_t1], [inner0] is what the inner controller returns.  The
      dtype checks and upcasts are not modelled. *)
  Definition clip_init (k : clip_controller) (t0 inner_t1 : Z) (inner0 : IS) : Z * clip_state :=
    let t1 := inner_t1 in
    let '(t1, si) :=
      match step_ts k with
      | None => (t1, None)
      | Some ts => let i := searchsorted_right ts t0 in
                   (clip_t t1 (get_t i ts) false, Some (i, ts))
      end in
    let '(t1, ji) :=
      match jump_ts k with
      | None => (t1, None)
      | Some ts => let i := searchsorted_right ts t0 in
                   (clip_t t1 (get_t i ts) true, Some (i, ts))
      end in
    let ri := match store_rejected_steps k with
              | None => None
              | Some n => Some (Z.of_nat n, repeat 0 n)
              end in
    (t1, ClipState si ji ri inner0).

  (** [clip.py:355-373]: the [step_ts] part of [adapt_step_size]. *)
  Definition adapt_steps (next_t0 next_t1 : Z) (si : option (nat * list Z))
    : Z * option (nat * list Z) :=
    match si with
    | None => (next_t1, None)
    | Some (i, ts) =>
        let '(next_t0', _) := bump_next_t0 next_t0 ts in
        let i := find_idx_with_hint next_t0' ts i in
        (clip_t next_t1 (get_t i ts) false, Some (i, ts))
    end.

  (** [clip.py:374-400]: the [jump_ts] part. *)
  Definition adapt_jumps (next_t0 next_t1 : Z) (made_jump : bool) (ji : option (nat * list Z))
    : Z * Z * bool * option (nat * list Z) :=
    match ji with
    | None => (next_t0, next_t1, made_jump, None)
    | Some (i, ts) =>
        let '(next_t0, made_jump2) := bump_next_t0 next_t0 ts in
        let next_t1 := Z.max (nextafter next_t0) next_t1 in
        let i := find_idx_with_hint next_t0 ts i in
        (next_t0, clip_t next_t1 (get_t i ts) true, made_jump || made_jump2, Some (i, ts))
    end.

  (** [clip.py:401-425]: the [store_rejected_steps] part.  [ts.at[-1].set] wraps around; writes
      past the end are dropped; reads past the end are clamped. *)
  Definition adapt_rejects (t1 next_t1 : Z) (keep : bool) (result : RESULTS)
             (ri : option (Z * list Z)) : Z * RESULTS * option (Z * list Z) :=
    match ri with
    | None => (next_t1, result, None)
    | Some (i, ts) =>
        let rejected_t := get_tz i ts in
        let gt := match rejected_t with Some r => r <? t1 | None => false end in
        let eq := match rejected_t with Some r => t1 =? r | None => false end in
        let result := where_ (gt && is_okay result) internal_error result in
        let i := i + (if eq then 1 else 0) in
        let i := i - (if keep then 0 else 1) in
        let result := where_ ((i <? 0) && is_okay result) max_steps_rejected result in
        let j := if i <? 0 then (length ts - Z.to_nat (- i))%nat else Z.to_nat i in
        let ts := match (if keep then get_clamp ts j else Some t1) with
                  | Some new_rejected_t => at_set ts j new_rejected_t
                  | None => ts
                  end in
        (clip_t next_t1 (get_tz i ts) false, result, Some (i, ts))
    end.

  (** [clip.py:304-428] [adapt_step_size] *)
  Definition clip_adapt (k : clip_controller) (t0 t1 : Z) (y0 y1 : Y) (err : E)
             (s : clip_state) : adapt_out clip_state :=
    let ao := controller_adapt k t0 t1 y0 y1 err (inner_state s) in
    let keep := ao_keep ao in
    let next_t0 := ao_tprev ao in
    let '(next_t1, si) := adapt_steps next_t0 (ao_tnext ao) (step_info s) in
    let '(next_t0, next_t1, made_jump, ji) :=
      adapt_jumps next_t0 next_t1 (ao_jump ao) (jump_info s) in
    let '(next_t1, result, ri) := adapt_rejects t1 next_t1 keep (ao_result ao) (reject_info s) in
    AdaptOut keep next_t0 next_t1 made_jump (ClipState si ji ri (ao_state ao)) result.
End Clip.
Arguments clip_controller : clear implicits.
Arguments clip_state : clear implicits.
