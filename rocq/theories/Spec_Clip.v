(** Specification vocabulary for the clipping step size controller. *)
From Coq Require Import ZArith List Bool Arith Sorting.Sorted.
From Verif Require Import Model_Result Model_Loop Spec_Loop Model_Clip.
Import ListNotations.
Open Scope Z_scope.

Section SpecClip.
  Context {Y SS IS DI E V MS : Type}.

  (** What is asked of the wrapped controller: after an accepted step it starts the next one at the
      end of that step (or later), it retries a rejected step from the same time, and it does not
      propose to end a step before its start. *)
  Record inner_ok (inner : Z -> Z -> Y -> Y -> E -> IS -> adapt_out IS) : Prop := {
    io_keep : forall a b y y1 e s, a <= b -> ao_keep (inner a b y y1 e s) = true ->
                b <= ao_tprev (inner a b y y1 e s);
    io_reject : forall a b y y1 e s, ao_keep (inner a b y y1 e s) = false ->
                ao_tprev (inner a b y y1 e s) = a;
    io_next : forall a b y y1 e s, a <= b ->
                ao_tprev (inner a b y y1 e s) <= ao_tnext (inner a b y y1 e s)
  }.
  (** The wrapped controller makes no jumps of its own. *)
  Definition inner_no_jumps (inner : Z -> Z -> Y -> Y -> E -> IS -> adapt_out IS) : Prop :=
    forall a b y y1 e s, ao_jump (inner a b y y1 e s) = false /\
      (ao_keep (inner a b y y1 e s) = true -> ao_tprev (inner a b y y1 e s) = b).

  Definition ts_of (o : option (list Z)) : list Z := match o with Some l => l | None => [] end.

  (** Times at least three floats apart. *)
  Definition spaced (l : list Z) : Prop := forall x y, In x l -> In y l -> x < y -> x + 2 < y.

  (** A solve whose step size controller is the clipping controller [k], initialised by it. *)
  Definition clip_solve (k : clip_controller Y E IS)
             (c : config Y SS (clip_state IS) DI E V MS) (i : initial Y SS (clip_state IS) MS)
             (inner_t1 : Z) (inner0 : IS) : Prop :=
    (forall a b y y1 e s, adapt c a b y y1 e s = clip_adapt k a b y y1 e s) /\
    (in_tnext i, in_controller_state i) = clip_init k (cfg_t0 c) inner_t1 inner0 /\
    cfg_t0 c <= inner_t1 /\ inner_ok (controller_adapt k) /\
    Sorted Z.le (ts_of (step_ts k)) /\ Sorted Z.le (ts_of (jump_ts k)) /\
    stepto_len c = None /\ cfg_t0 c < cfg_t1 c /\ midpoint_ok c.
End SpecClip.
