(** The seminorm for backward solves.  Models [/repo/diffrax/_misc.py] [adjoint_rms_seminorm] (lines 85-116). *)
From Coq Require Import QArith List.
From Verif Require Import Model_Float Model_PID.
Import ListNotations.

(** [_misc.py:85-116]: [x] is the tuple [(y, a_y, a_args, a_terms)]; that other values raise is not modelled.  [rms_norm], a
    function of [optimistix], is a parameter. *)
Definition adjoint_rms_seminorm (rms_norm : tree -> xq) (x : tree * tree * tree * tree) : xq :=
  let '(y, a_y, a_args, a_terms) := x in rms_norm (y ++ a_y).
(** PyTrees are lists of leaves in this model; this splits the list of all leaves if [y] has [n], [a_y] has [m] and [a_args] has [k]
    leaves. *)
Definition split4 (n m k : nat) (l : tree) : tree * tree * tree * tree :=
  (firstn n l, firstn m (skipn n l), firstn k (skipn (n + m) l), skipn (n + m + k) l).
(** [PIDController(norm=adjoint_rms_seminorm)]: [p] with this norm *)
Definition seminorm_controller (rms_norm : tree -> xq) (n m k : nat) (p : pid_controller) : pid_controller :=
  PIDController (rtol p) (atol p) (fun l => adjoint_rms_seminorm rms_norm (split4 n m k l)) (power p) (pcoeff p) (icoeff p) (dcoeff p)
                (dtmin p) (dtmax p) (force_dtmin p) (factormin p) (factormax p) (safety p) (error_order p).
