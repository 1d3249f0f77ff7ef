(** Vocabulary for backward solves that ignore the gradients of parameters in the error. *)
From Coq Require Import QArith ZArith List.
From Verif Require Import Model_Float Model_PID.
Import ListNotations.

(** Two augmented states with the same solution and the same gradient with respect to it, which have [n] leaves together; the
    gradients of parameters may differ, also in number. *)
Definition same_leading (n : nat) (l l' : tree) : Prop := firstn n l = firstn n l'.
