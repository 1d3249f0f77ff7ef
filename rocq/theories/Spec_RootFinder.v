(** Specification vocabulary for root finding. *)
From Coq Require Import QArith List Bool Arith.
From Verif Require Import Model_Result Model_Float Model_RootFinder.
Import ListNotations.

Section Spec.
  Context {Y F : Type}.
  (** The iterates [y - J^{-1} f(y)]. *)
  Fixpoint iterate (c : chord Y F) (y0 : Y) (n : nat) : Y :=
    match n with O => y0 | S n => let y := iterate c y0 n in ch_sub c y (fst (ch_solve c (ch_fn c y))) end.
  (** The result of the linear solve of step [n >= 1], and the size of its update. *)
  Definition linear_result (c : chord Y F) (y0 : Y) (n : nat) : RESULTS := snd (ch_solve c (ch_fn c (iterate c y0 (n - 1)))).
  Definition update_size (c : chord Y F) (y0 : Y) (n : nat) : xq :=
    ch_size c (fst (ch_solve c (ch_fn c (iterate c y0 (n - 1))))) (iterate c y0 n).

  (** Sizes come from a norm. *)
  Definition norm_sizes (c : chord Y F) : Prop :=
    forall d y, ch_size c d y = QNaN \/ ch_size c d y = QPInf \/ exists q, ch_size c d y = QFin q /\ (0 <= q)%Q.

  (** The last update is negligible. *)
  Definition negligible (c : chord Y F) (d : xq) : Prop := exists q, d = QFin q /\ (q < ch_resolution c)%Q.
  (** The updates decrease, and so fast that (extrapolated) the sum of all further ones is below [kappa]. *)
  Definition contracting (c : chord Y F) (d d' : xq) : Prop :=
    exists q q', d = QFin q /\ d' = QFin q' /\ (0 < q)%Q /\ (q < q')%Q /\ (q * q < ch_kappa c * (q' - q))%Q.
End Spec.
