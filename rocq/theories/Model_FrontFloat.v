(** The test on the sign of [dt0] in floating point arithmetic, for any precision [prec] and smallest exponent [emin]:
    (24, -149) is [float32], (53, -1074) is [float64].  A floating point number is the real number that it represents;
    overflow, infinities and NaN are not modelled. *)
From Coq Require Import ZArith Reals.
From Flocq Require Import Core.Core.
Open Scope R_scope.

Section FrontFloat.
  Context (emin prec : Z).
  (** Rounding to nearest, ties to even, with gradual underflow. *)
  Definition fl (x : R) : R := round radix2 (FLT_exp emin prec) ZnearestE x.
  (** [x] is a floating point number. *)
  Definition is_float (x : R) : Prop := generic_format radix2 (FLT_exp emin prec) x.
  (** [_integrate.py:1043-1044]: [(t1 - t0) * dt0 < 0] *)
  Definition wrong_sign_float (t0 t1 dt0 : R) : bool := Rlt_bool (fl (fl (t1 - t0) * dt0)) 0.
End FrontFloat.
