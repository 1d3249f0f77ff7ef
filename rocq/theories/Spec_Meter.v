(** Specification vocabulary for progress meters. *)
From Coq Require Import QArith List Bool Arith.
From Verif Require Import Model_Meter.
Import ListNotations.
Open Scope Q_scope.

(** The calls of the solve [c] in a trace of the calls of all solves, *)
Definition calls_of (c : nat) (tr : list (nat * call)) : list call :=
  map snd (filter (fun e => (fst e =? c)%nat) tr).
(** and what it printed. *)
Definition printed (c : nat) (w : world) : list Q :=
  map snd (filter (fun e => (fst e =? c)%nat) (w_out w)).
(** The content of its bar, if it is open. *)
Definition bar_of (c : nat) (w : world) : option Q :=
  match w_handle w c with Some i => w_bars w i | None => None end.

(** The iterations of a batch of solves: some element is active in each of them; an element that is
    active has been active before, and had not reached its end then; progress is at most 1. *)
Definition continues (r r' : row) : Prop :=
  Forall2 (fun a b => fst b = true -> fst a = true /\ snd a < 1) r r'.
Fixpoint batch_solve (n : nat) (rows : list row) : Prop :=
  match rows with
  | [] => True
  | r :: rows' =>
      length r = n /\ (exists p, In (true, p) r) /\ (forall a p, In (a, p) r -> p <= 1) /\
      match rows' with r' :: _ => continues r r' | [] => True end /\
      batch_solve n rows'
  end.
(** Elements of the batch that are done have reached their end. *)
Definition all_reach_end (rows : list row) : Prop :=
  forall r p, In r rows -> In (false, p) r -> p == 1.

(** Every line shows more progress than the one before it: by more than [m], except that the last
    line may follow closely. *)
Fixpoint spaced (m : Q) (ls : list Q) : Prop :=
  match ls with
  | a :: ((b :: _) as ls') => a < b /\ (m < b - a \/ b == 1) /\ spaced m ls'
  | _ => True
  end.

(** The smallest integer that is at least [x] *)
Definition is_ceiling (x : Q) (k : nat) : Prop :=
  x <= inject_Z (Z.of_nat k) /\ inject_Z (Z.of_nat k) < x + 1.
