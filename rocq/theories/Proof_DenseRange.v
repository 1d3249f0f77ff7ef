(** The range of dense output: C43, C15. *)
From Coq Require Import ZArith List Bool Arith Lia Sorting.Sorted.
From Verif Require Import Model_Result Model_Loop Spec_Loop Model_Dense Spec_Dense Proof_Dense.
Import ListNotations.
Open Scope Z_scope.

Section Knots.
  Context {Y DI : Type}.
  Notation dense := (dense_interpolation Y DI).

  Lemma pf_C43_ends (d : dense) (ks : list Z) (dis : list DI) (k0 k1 : Z) :
    has_knots d ks dis -> (2 <= length ks)%nat ->
    nth_error ks 0 = Some k0 -> nth_error ks (length ks - 1) = Some k1 ->
    dense_t0 d = Some (Fin k0) /\ dense_t1 d = Some (Fin k1).
  Proof.
    intros ((p & Hts & _) & Hsz & Hl & Hs) Hlen H0 H1. unfold dense_t0, dense_t1. rewrite Hsz, Hts.
    destruct (Nat.eqb_spec (length ks) 1); [lia|].
    change 0 with (Z.of_nat 0). rewrite (get_wrap_nat _ 0 _ (knot_nth ks p 0 k0 H0)).
    replace (Z.of_nat (length ks) - 1) with (Z.of_nat (length ks - 1)) by lia.
    rewrite (get_wrap_nat _ _ _ (knot_nth ks p _ k1 H1)). split; reflexivity.
  Qed.
End Knots.

Section Solve.
  Context {Y SS CS DI E V MS : Type}.
  Notation config := (config Y SS CS DI E V MS).
  Notation initial := (initial Y SS CS MS).
  Notation outcome := (outcome Y SS CS DI V MS).
  Notation attempt := (attempt Y).

  Lemma pf_C15_range (c : config) (i : initial) (h : list attempt) (o : outcome) :
    solve_run c i h o -> cfg_dense c = true -> rejects_in_place h -> no_time_jumps h ->
    (forall a, In a h -> at_from a <= at_to a) ->
    dense_t0 (sol_interpolation c i o) = Some (Fin (cfg_t0 c)) /\
    dense_t1 (sol_interpolation c i o) = Some (Fin (fst (current (cfg_t0 c) (in_y i) (accepted h)))).
  Proof.
    intros Hrun Hd Hrj Hnj Hle.
    destruct (sol_has_knots c i h o Hrun Hd Hrj Hnj Hle) as (dis & Hk & _).
    destruct (accepted h) as [|b accs] eqn:Hacc.
    - destruct Hk as (_ & Hsz & _). cbn [map length] in Hsz. unfold dense_t0, dense_t1. rewrite Hsz. split; reflexivity.
    - rewrite <- Hacc in *.
      apply (pf_C43_ends _ _ _ (cfg_t0 c) (fst (current (cfg_t0 c) (in_y i) (accepted h))) Hk); [rewrite Hacc; cbn; lia|reflexivity|].
      unfold current. clear. destruct (accepted h) as [|a l] using rev_ind; [reflexivity|].
      rewrite !map_app. cbn [map]. rewrite last_last. cbn [length fst].
      rewrite app_length, !map_length. cbn [length].
      replace (S (length l + 1) - 1)%nat with (S (length l)) by lia. cbn [nth_error].
      rewrite nth_error_app2 by (rewrite map_length; lia). rewrite map_length, Nat.sub_diag. reflexivity.
  Qed.
End Solve.
