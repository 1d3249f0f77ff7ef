(** Specification vocabulary: linear stability. *)
From Coq Require Import Reals List.
From Verif Require Import Model_RK.
Import ListNotations.
Open Scope R_scope.

(** [y' = lambda_k y] for any number of complex components [y_k], with [lambda_k = re k + i im k].  A complex number is a pair
    of reals, at the positions [(k, false)] and [(k, true)]. *)
Definition modes {K : Type} (re im : K -> R) (t : R) (y : K * bool -> R) : K * bool -> R :=
  fun x => let k := fst x in
    if snd x then im k * y (k, false) + re k * y (k, true) else re k * y (k, false) - im k * y (k, true).

(** [|y_k|] and [|lambda_k|] *)
Definition amplitude {K : Type} (y : K * bool -> R) (k : K) : R := sqrt (y (k, false) ^ 2 + y (k, true) ^ 2).
Definition rate {K : Type} (re im : K -> R) (k : K) : R := sqrt (re k ^ 2 + im k ^ 2).

(** The vector fields of a method with [n] terms of which only the last one, the implicit one, is not zero. *)
Definition last_field {I : Type} (n : nat) (f : R -> (I -> R) -> I -> R) : list (R -> (I -> R) -> I -> R) :=
  repeat (fun _ _ _ => 0) (n - 1) ++ [f].
