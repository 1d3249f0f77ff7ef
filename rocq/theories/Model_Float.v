(** Floating point numbers with special values but exact arithmetic: rationals, two infinities and
    NaN.  Rounding, overflow and signed zeros are not modelled; the rules for special values are those
    of IEEE 754, as used by JAX. *)
From Coq Require Import QArith Qabs List Bool.
Import ListNotations.
Open Scope Q_scope.

Inductive xq := QNaN | QPInf | QNInf | QFin (q : Q).

Definition sgn_inf (q : Q) : xq := if Qeq_bool q 0 then QNaN else if Qle_bool 0 q then QPInf else QNInf.
Definition xneg (a : xq) : xq :=
  match a with QNaN => QNaN | QPInf => QNInf | QNInf => QPInf | QFin q => QFin (- q) end.
Definition xadd (a b : xq) : xq :=
  match a, b with
  | QNaN, _ | _, QNaN => QNaN
  | QPInf, QNInf | QNInf, QPInf => QNaN
  | QPInf, _ | _, QPInf => QPInf
  | QNInf, _ | _, QNInf => QNInf
  | QFin x, QFin y => QFin (x + y)
  end.
Definition xsub (a b : xq) : xq := xadd a (xneg b).
Definition xmul (a b : xq) : xq :=
  match a, b with
  | QNaN, _ | _, QNaN => QNaN
  | QPInf, QPInf | QNInf, QNInf => QPInf
  | QPInf, QNInf | QNInf, QPInf => QNInf
  | QPInf, QFin q | QFin q, QPInf => sgn_inf q
  | QNInf, QFin q | QFin q, QNInf => xneg (sgn_inf q)
  | QFin x, QFin y => QFin (x * y)
  end.
(** Division by zero takes the zero to be positive. *)
Definition xdiv (a b : xq) : xq :=
  match a, b with
  | QNaN, _ | _, QNaN => QNaN
  | QFin x, QFin y => if Qeq_bool y 0 then sgn_inf x else QFin (x / y)
  | QFin _, _ => QFin 0
  | QPInf, QFin y => if Qle_bool 0 y then QPInf else QNInf
  | QNInf, QFin y => if Qle_bool 0 y then QNInf else QPInf
  | _, _ => QNaN
  end.
Definition xabs (a : xq) : xq :=
  match a with QNaN => QNaN | QPInf | QNInf => QPInf | QFin q => QFin (Qabs q) end.
(** Comparisons; false if an operand is NaN. *)
Definition xle (a b : xq) : bool :=
  match a, b with
  | QNaN, _ | _, QNaN => false
  | QNInf, _ | _, QPInf => true
  | QFin x, QFin y => Qle_bool x y
  | _, _ => false
  end.
Definition xlt (a b : xq) : bool :=
  match a, b with
  | QNaN, _ | _, QNaN => false
  | _, _ => negb (xle b a)
  end.
Definition xeq (a b : xq) : bool := xle a b && xle b a.
(** [jnp.minimum] and [jnp.maximum], which propagate NaN. *)
Definition xmin (a b : xq) : xq :=
  match a, b with QNaN, _ | _, QNaN => QNaN | _, _ => if xle a b then a else b end.
Definition xmax (a b : xq) : xq :=
  match a, b with QNaN, _ | _, QNaN => QNaN | _, _ => if xle a b then b else a end.
(** [jnp.clip(x, min=lo, max=hi)] *)
Definition xclip (x lo hi : xq) : xq := xmin (xmax x lo) hi.
Definition is_nan (a : xq) : bool := match a with QNaN => true | _ => false end.
Definition is_inf (a : xq) : bool := match a with QPInf | QNInf => true | _ => false end.
