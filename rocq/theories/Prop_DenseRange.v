(** Theorems about the range of dense output: C15, C43. *)
From Coq Require Import ZArith List Bool Arith Lia Sorting.Sorted.
From Verif Require Import Model_Result Model_Loop Spec_Loop Model_Dense Spec_Dense Proof_DenseRange Ex_Loop Prop_Dense.
Import ListNotations.
Open Scope Z_scope.

Section Knots.
  Context {Y DI : Type}.
  Notation dense := (dense_interpolation Y DI).
  (** C43: the interpolation reports the first and the last knot as its ends. *)
  Theorem C43_ends :
    forall (d : dense) (ks : list Z) (dis : list DI) (k0 k1 : Z),
    has_knots d ks dis -> (2 <= length ks)%nat ->
    nth_error ks 0 = Some k0 -> nth_error ks (length ks - 1) = Some k1 ->
    dense_t0 d = Some (Fin k0) /\ dense_t1 d = Some (Fin k1).
  Proof. exact pf_C43_ends. Qed.
End Knots.

Section Solves.
  Context {Y SS CS DI E V MS : Type}.
  Notation config := (config Y SS CS DI E V MS).
  Notation initial := (initial Y SS CS MS).
  Notation outcome := (outcome Y SS CS DI V MS).
  Notation attempt := (attempt Y).
  (** C15: the dense output of a solve reports the range from [t0] to the end of the last accepted step. *)
  Theorem C15_range :
    forall (c : config) (i : initial) (h : list attempt) (o : outcome),
    solve_run c i h o -> cfg_dense c = true -> rejects_in_place h -> no_time_jumps h ->
    (forall a, In a h -> at_from a <= at_to a) ->
    dense_t0 (sol_interpolation c i o) = Some (Fin (cfg_t0 c)) /\
    dense_t1 (sol_interpolation c i o) = Some (Fin (fst (current (cfg_t0 c) (in_y i) (accepted h)))).
  Proof. exact pf_C15_range. Qed.
End Solves.

(** The solve of [C15_C43_instance]. *)
Example C15_range_instance :
  exists h o, solve_run c_dense ex_init h o /\ cfg_dense c_dense = true /\
    dense_t0 (sol_interpolation c_dense ex_init o) = Some (Fin 0) /\ dense_t1 (sol_interpolation c_dense ex_init o) = Some (Fin 1000).
Proof.
  destruct C15_C43_instance as (D & _ & _ & h & o & RUN & RIP & NTJ & LE & _ & _ & _ & _ & dis & HK).
  exists h, o. split; [exact RUN|]. split; [exact D|].
  exact (C43_ends _ _ _ 0 1000 HK ltac:(cbn; lia) eq_refl eq_refl).
Qed.

Print Assumptions C43_ends.
Print Assumptions C15_range.
