(** Theorems about the root finder of implicit solvers: C37. *)
From Coq Require Import QArith Qabs Lqa List Bool Arith Lia.
From Verif Require Import Model_Result Model_Float Model_RootFinder Spec_RootFinder Proof_RootFinder.
Import ListNotations.
Open Scope Q_scope.

Section VeryChord.
  Context {Y F : Type}.
  (** C37: success is reported if and only if there were at least two steps, the last linear solve succeeded, and
      the last update is negligible or the last two updates contract fast enough (so both are finite).  A failed
      linear solve is reported as such, anything else after two steps as divergence. *)
  Theorem C37_result :
    forall (c : chord Y F) (continue_ : bool -> RESULTS -> bool) (max_steps : nat) (y0 y : Y) (r : RESULTS) (n : nat),
    norm_sizes c -> root_find c continue_ max_steps y0 = (y, r, n) ->
    (n <= max_steps)%nat /\ y = iterate c y0 n /\
    (r = successful <->
       (2 <= n)%nat /\ linear_result c y0 n = successful /\
       (negligible c (update_size c y0 n) \/ contracting c (update_size c y0 n) (update_size c y0 (n - 1)))) /\
    ((1 <= n)%nat -> linear_result c y0 n <> successful -> r = linear_result c y0 n) /\
    ((2 <= n)%nat -> linear_result c y0 n = successful -> r = successful \/ r = nonlinear_divergence).
  Proof. exact pf_C37_result. Qed.
  (** C37: it does not stop before two steps unless the linear solve fails. *)
  Theorem C37_at_least_two :
    forall (c : chord Y F) (continue_ : bool -> RESULTS -> bool) (max_steps : nat) (y0 y : Y) (r : RESULTS) (n : nat),
    continue_ false successful = true -> (2 <= max_steps)%nat ->
    root_find c continue_ max_steps y0 = (y, r, n) -> linear_result c y0 1 = successful ->
    (2 <= n)%nat.
  Proof. exact pf_C37_at_least_two. Qed.
  (** C37: if the rate observed over the last two steps bounds the rate of contraction towards the root, then after
      success the distance to the root is below [kappa], or the last update was negligible. *)
  Theorem C37_accuracy :
    forall (c : chord Y F) (continue_ : bool -> RESULTS -> bool) (max_steps : nat) (y0 y root : Y) (n : nat) (dist : Y -> Y -> Q),
    norm_sizes c -> root_find c continue_ max_steps y0 = (y, successful, n) ->
    (forall a b z, dist a z <= dist a b + dist b z) ->
    (forall m, (1 <= m)%nat -> exists q, update_size c y0 m = QFin q /\ q == dist (iterate c y0 (m - 1)) (iterate c y0 m)) ->
    dist (iterate c y0 n) root * dist (iterate c y0 (n - 2)) (iterate c y0 (n - 1)) <=
      dist (iterate c y0 (n - 1)) (iterate c y0 n) * dist (iterate c y0 (n - 1)) root ->
    negligible c (update_size c y0 n) \/ dist y root < ch_kappa c.
  Proof. exact pf_C37_accuracy. Qed.
End VeryChord.

(** The square root of 2 from 3/2, with tolerance [1/1000]: successful after three steps. *)
Definition sqrt2 : chord Q Q :=
  Chord (fun y => y * y - 2) (fun f => (f / 3, successful)) (fun y d => Qred (y - d)) (fun d _ => QFin (Qred (1000 * Qabs d))) (1 # 100) (1 # 10000000000000).
Lemma sqrt2_norm : norm_sizes sqrt2.
Proof.
  intros d y. right. right. eexists. split; [reflexivity|]. rewrite Qred_correct. pose proof (Qabs_nonneg d). lra.
Qed.
Example C37_result_instance :
  norm_sizes sqrt2 /\
  let '(y, r, n) := root_find sqrt2 (fun t _ => negb t) 10 (3 # 2) in
  r = successful /\ n = 3%nat /\ y * y - 2 < 1 # 1000 /\ ~ y * y == 2.
Proof. split; [exact sqrt2_norm|]. vm_compute. repeat split; discriminate. Qed.
(** Iterates that grow are reported as divergence; a failed linear solve as such. *)
Example C37_divergence_instance :
  let f := fun r => Chord (fun y => y) (fun f => (4 * f, r)) (fun y d => Qred (y - d)) (fun d _ => QFin (Qabs d)) (1 # 100) (1 # 10000000000000) : chord Q Q in
  root_find (f successful) (fun t _ => negb t) 10 1 = (9, nonlinear_divergence, 2%nat) /\
  root_find (f (other_error 5)) (fun t _ => negb t) 10 1 = (-3 # 1, other_error 5, 1%nat).
Proof. split; reflexivity. Qed.

(** [y = 1] with a slope that is off by a factor of two: updates are halved in each step. *)
Definition halving : chord Q Q :=
  Chord (fun y => y - 1) (fun f => (f / 2, successful)) (fun y d => Qred (y - d)) (fun d _ => QFin (1000 * Qabs d)) (1 # 100) (1 # 10000000000000).
Definition halving_dist (a b : Q) : Q := 1000 * Qabs (a - b).
Example C37_accuracy_instance :
  norm_sizes halving /\
  (exists y, root_find halving (fun t _ => negb t) 20 0 = (y, successful, 17%nat) /\ halving_dist y 1 < ch_kappa halving) /\
  (forall a b z, halving_dist a z <= halving_dist a b + halving_dist b z) /\
  (forall m, (1 <= m)%nat -> exists q, update_size halving 0 m = QFin q /\ q == halving_dist (iterate halving 0 (m - 1)) (iterate halving 0 m)) /\
  halving_dist (iterate halving 0 17) 1 * halving_dist (iterate halving 0 15) (iterate halving 0 16) <=
    halving_dist (iterate halving 0 16) (iterate halving 0 17) * halving_dist (iterate halving 0 16) 1.
Proof.
  split; [|split; [|split; [|split]]].
  - intros d y. right. right. eexists. split; [reflexivity|]. pose proof (Qabs_nonneg d). lra.
  - eexists. split; [vm_compute; reflexivity|]. vm_compute. reflexivity.
  - intros a b z. unfold halving_dist. pose proof (Qabs_triangle (a - b) (b - z)) as H.
    setoid_replace (a - b + (b - z)) with (a - z) in H by ring. lra.
  - intros [|m] H; [lia|]. eexists. split; [reflexivity|]. unfold halving_dist. cbn [iterate]. replace (S m - 1)%nat with m by lia.
    set (y := iterate halving 0 m). cbn [halving ch_sub ch_fn ch_solve fst]. rewrite Qred_correct. setoid_replace (y - (y - (y - 1) / 2)) with ((y - 1) / 2) by ring. reflexivity.
  - vm_compute. discriminate.
Qed.

Print Assumptions C37_result.
Print Assumptions C37_at_least_two.
Print Assumptions C37_accuracy.
