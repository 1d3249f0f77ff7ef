(** Specification vocabulary for dense output. *)
From Coq Require Import ZArith List Bool Arith Sorting.Sorted.
From Verif Require Import Model_Result Model_Loop Spec_Loop Model_Dense.
Import ListNotations.
Open Scope Z_scope.

Section SpecDense.
  Context {Y DI : Type}.
  (** A dense interpolation with knots [ks] and infos [dis], padded. *)
  Definition has_knots (d : dense_interpolation Y DI) (ks : list Z) (dis : list DI) : Prop :=
    (exists p, dn_ts d = map Fin ks ++ repeat PInf p /\
               dn_infos d = map Some dis ++ repeat None p) /\
    dn_ts_size d = length ks /\ length ks = S (length dis) /\
    StronglySorted Z.le ks.
End SpecDense.
