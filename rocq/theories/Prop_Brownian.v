(** Theorems about Brownian paths: C44, C45, C46. *)
From Coq Require Import Reals List Bool Lra Lia.
From Verif Require Import Model_Brownian Spec_Brownian Proof_Brownian Proof_Levy Proof_CovPath Proof_CovLevyInc Ex_Brownian Ex_Levy.
Import ListNotations.
Open Scope R_scope.

(** C44: every query within the interval gets an answer. *)
  Theorem C44_terminates :
    forall (V : Type) (o : ops V) (smp : sampler V) (la : levy_area) (spl : spline) (eps : R) (vt : tree),
    proper vt -> exists enough, forall fuel t0 t1, (enough <= fuel)%nat -> within vt t0 ->
  match t1 with Some t1 => within vt t1 | None => True end ->
  evaluate o smp la spl eps vt fuel t0 t1 <> None.
  Proof. exact pf_C44_terminates. Qed.
Example C44_terminates_instance : proper sample_tree /\ within sample_tree (1 / 3) /\ within sample_tree (3 / 2).
Proof. split; [exact sample_proper|]. unfold within, sample_tree; cbn; lra. Qed.
(** There are such queries: evaluating as in the examples below, with samples for which they are not trivial. *)
Lemma sample_answers (la : levy_area) (eps tol : R) : 0 < tol -> exists fuel, forall s t, 0 <= s <= 2 -> 0 <= t <= 2 ->
  (exists x, evaluate real_ops some_samples la Sqrt eps (with_tol sample_tree tol) fuel s (Some t) = Some x) /\
  (exists x, evaluate real_ops some_samples la Sqrt eps (with_tol sample_tree tol) fuel s None = Some x).
Proof.
  intros T. destruct (pf_C44_terminates R real_ops some_samples la Sqrt eps (with_tol sample_tree tol)) as [n Hn].
  { split; cbn; lra. }
  exists n. intros s t Hs Ht.
  assert (W : within (with_tol sample_tree tol) s /\ within (with_tol sample_tree tol) t) by (unfold within; cbn; lra).
  pose proof (Hn n s (Some t) (Nat.le_refl _) (proj1 W) (proj2 W)) as A.
  pose proof (Hn n s None (Nat.le_refl _) (proj1 W) I) as B.
  destruct (evaluate _ _ _ _ _ _ _ s (Some t)); [|congruence]. destruct (evaluate _ _ _ _ _ _ _ s None); [eauto|congruence].
Qed.

(** C44: the path starts at zero, together with its integrals, *)
  Theorem C44_start :
    forall (smp : sampler R) (la : levy_area) (spl : spline) (eps : R) (vt : tree) (fuel : nat) (x : increment R),
    degenerate_is_mean real_ops smp -> proper vt ->
  evaluate real_ops smp la spl eps vt fuel (vt_t0 vt) None = Some x ->
  inc_dt x = 0 /\ inc_W x = 0 /\ inc_H x = 0 /\ inc_K x = 0.
  Proof. exact pf_C44_start. Qed.
(** and ends, whatever the tolerance, at a normal sample scaled by the square root of the length. *)
  Theorem C44_end :
    forall (smp : sampler R) (la : levy_area) (spl : spline) (eps : R) (vt : tree) (fuel : nat) (x : increment R),
    degenerate_is_mean real_ops smp -> proper vt ->
  evaluate real_ops smp la spl eps vt fuel (vt_t1 vt) None = Some x ->
  inc_dt x = length vt /\ inc_W x = sqrt (length vt) * normal smp (split (vt_key vt) 1).
  Proof. exact pf_C44_end. Qed.
Example C44_start_instance : degenerate_is_mean real_ops some_samples /\ proper sample_tree /\
  (forall la eps, exists fuel x, evaluate real_ops some_samples la Sqrt eps sample_tree fuel (vt_t0 sample_tree) None = Some x) /\
  normal some_samples (split (vt_key sample_tree) 1) = - 1.
Proof.
  split; [intros k; reflexivity|]. split; [exact sample_proper|]. split; [|cbn; lra].
  intros la eps. destruct (sample_answers la eps (/ 8) ltac:(lra)) as [f H]. exists f. apply (H 0 0); lra.
Qed.
(** C44: an increment is the difference of the values at its ends. *)
  Theorem C44_increment :
    forall (smp : sampler R) (la : levy_area) (spl : spline) (eps : R) (vt : tree) (fuel : nat) (s t : R) (x y z : increment R),
    evaluate real_ops smp la spl eps vt fuel s None = Some x ->
  evaluate real_ops smp la spl eps vt fuel t None = Some y ->
  evaluate real_ops smp la spl eps vt fuel s (Some t) = Some z ->
  inc_dt z = inc_dt y - inc_dt x /\ inc_W z = inc_W y - inc_W x.
  Proof. exact pf_C44_increment. Qed.
Example C44_increment_instance : forall la eps, exists fuel x y z,
  evaluate real_ops some_samples la Sqrt eps sample_tree fuel (1 / 3) None = Some x /\
  evaluate real_ops some_samples la Sqrt eps sample_tree fuel (2 / 3) None = Some y /\
  evaluate real_ops some_samples la Sqrt eps sample_tree fuel (1 / 3) (Some (2 / 3)) = Some z.
Proof.
  intros la eps. destruct (sample_answers la eps (/ 8) ltac:(lra)) as [f H]. exists f.
  destruct (H (1 / 3) (2 / 3) ltac:(lra) ltac:(lra)) as [[z Z] [x X]].
  destruct (H (2 / 3) 1 ltac:(lra) ltac:(lra)) as [_ [y Y]]. exists x, y, z. auto.
Qed.
(** C44: increments add up. *)
  Theorem C44_additive :
    forall (smp : sampler R) (la : levy_area) (spl : spline) (eps : R) (vt : tree) (fuel : nat) (s t u : R) (x y z : increment R),
    evaluate real_ops smp la spl eps vt fuel s (Some t) = Some x ->
  evaluate real_ops smp la spl eps vt fuel t (Some u) = Some y ->
  evaluate real_ops smp la spl eps vt fuel s (Some u) = Some z ->
  inc_dt z = inc_dt x + inc_dt y /\ inc_W z = inc_W x + inc_W y.
  Proof. exact pf_C44_additive. Qed.
Example C44_additive_instance : forall la eps, exists fuel x y z,
  evaluate real_ops some_samples la Sqrt eps sample_tree fuel (1 / 3) (Some (2 / 3)) = Some x /\
  evaluate real_ops some_samples la Sqrt eps sample_tree fuel (2 / 3) (Some 1) = Some y /\
  evaluate real_ops some_samples la Sqrt eps sample_tree fuel (1 / 3) (Some 1) = Some z.
Proof.
  intros la eps. destruct (sample_answers la eps (/ 8) ltac:(lra)) as [f H]. exists f.
  destruct (H (1 / 3) (2 / 3) ltac:(lra) ltac:(lra)) as [[x X] _].
  destruct (H (2 / 3) 1 ltac:(lra) ltac:(lra)) as [[y Y] _].
  destruct (H (1 / 3) 1 ltac:(lra) ltac:(lra)) as [[z Z] _]. exists x, y, z. auto.
Qed.
(** C44: values and increments between times that a tolerance resolves do not change with a finer tolerance. *)
  Theorem C44_tolerance :
    forall (smp : sampler R) (la : levy_area) (spl : spline) (eps : R) (vt : tree) (tol : R) (fuel fuel' n k : nat) (t0 : R) (t1 : option R) (x x' : increment R),
    degenerate_is_mean real_ops smp -> proper vt ->
  resolves vt n -> resolves (with_tol vt tol) n ->
  dyadic vt n k t0 -> match t1 with Some t1 => exists k', dyadic vt n k' t1 | None => True end ->
  evaluate real_ops smp la spl eps vt fuel t0 t1 = Some x ->
  evaluate real_ops smp la spl eps (with_tol vt tol) fuel' t0 t1 = Some x' -> x = x'.
  Proof. exact pf_C44_tolerance. Qed.
Example C44_tolerance_instance :
  degenerate_is_mean real_ops some_samples /\ proper sample_tree /\
  resolves sample_tree 4 /\ resolves (with_tol sample_tree (/ 100)) 4 /\
  dyadic sample_tree 4 3 (3 / 8) /\ (exists k', dyadic sample_tree 4 k' (3 / 4)) /\
  forall la eps, exists fuel fuel' x x',
  evaluate real_ops some_samples la Sqrt eps sample_tree fuel (3 / 8) (Some (3 / 4)) = Some x /\
  evaluate real_ops some_samples la Sqrt eps (with_tol sample_tree (/ 100)) fuel' (3 / 8) (Some (3 / 4)) = Some x'.
Proof.
  destruct sample_resolves as (A & B & C & D).
  split; [intros k; reflexivity|]. split; [exact sample_proper|]. do 3 (split; [assumption|]). split; [exists 6%nat; exact D|].
  intros la eps. destruct (sample_answers la eps (/ 8) ltac:(lra)) as [f H]. destruct (sample_answers la eps (/ 100) ltac:(lra)) as [f' H'].
  destruct (H (3 / 8) (3 / 4) ltac:(lra) ltac:(lra)) as [[x X] _]. destruct (H' (3 / 8) (3 / 4) ltac:(lra) ltac:(lra)) as [[x' X'] _].
  exists f, f', x, x'. auto.
Qed.

(** C45: the values have the covariance of Brownian motion, for all times that the tolerance tells apart. *)
  Theorem C45_covariance :
    forall (V : Type) (o : ops V) (smp : sampler V) (cov : V -> V -> R) (la : levy_area) (eps : R) (vt : tree) (fuel fuel' : nat) (s t : R) (x y : increment V),
    is_covariance o cov -> independent_samples smp cov -> degenerate_is_mean o smp -> proper vt ->
  told_apart vt s t ->
  evaluate o smp la Sqrt eps vt fuel s None = Some x ->
  evaluate o smp la Sqrt eps vt fuel' t None = Some y ->
  cov (inc_W x) (inc_W y) = s - vt_t0 vt.
  Proof. exact pf_C45_covariance. Qed.
(** C45: increments have the right variance and are uncorrelated with later ones. *)
  Theorem C45_increments :
    forall (V : Type) (o : ops V) (smp : sampler V) (cov : V -> V -> R) (la : levy_area) (eps : R) (vt : tree) (fuel fuel' : nat) (s t s' t' : R) (x y : increment V),
    is_covariance o cov -> independent_samples smp cov -> degenerate_is_mean o smp -> proper vt ->
  told_apart vt s t -> told_apart vt t s' -> told_apart vt s' t' ->
  evaluate o smp la Sqrt eps vt fuel s (Some t) = Some x ->
  evaluate o smp la Sqrt eps vt fuel' s' (Some t') = Some y ->
  cov (inc_W x) (inc_W x) = t - s /\ cov (inc_W x) (inc_W y) = 0.
  Proof. exact pf_C45_increments. Qed.
Example C45_instance :
  is_covariance formal_ops formal_cov /\ independent_samples formal_sampler formal_cov /\ degenerate_is_mean formal_ops formal_sampler /\
  proper sample_tree /\ told_apart sample_tree (1 / 3) (2 / 3) /\ told_apart sample_tree (2 / 3) 1 /\ told_apart sample_tree 1 (3 / 2) /\
  forall la eps, exists fuel x y,
  evaluate formal_ops formal_sampler la Sqrt eps sample_tree fuel (1 / 3) (Some (2 / 3)) = Some x /\
  evaluate formal_ops formal_sampler la Sqrt eps sample_tree fuel 1 (Some (3 / 2)) = Some y.
Proof.
  destruct sample_told_apart as (A & B & C).
  split; [exact formal_covariance|]. split; [exact formal_samples|]. split; [exact formal_degenerate|]. split; [exact sample_proper|].
  do 3 (split; [assumption|]). intros la eps.
  destruct (pf_C44_terminates formal formal_ops formal_sampler la Sqrt eps sample_tree sample_proper) as [n Hn].
  exists n.
  assert (W : forall t, 0 <= t <= 2 -> within sample_tree t) by (intros; unfold within; cbn; lra).
  pose proof (Hn n (1 / 3) (Some (2 / 3)) (Nat.le_refl _) (W (1 / 3) ltac:(lra)) (W (2 / 3) ltac:(lra))) as X.
  pose proof (Hn n 1 (Some (3 / 2)) (Nat.le_refl _) (W 1 ltac:(lra)) (W (3 / 2) ltac:(lra))) as Y.
  destruct (evaluate _ _ _ _ _ _ _ (1 / 3) _); [|congruence]. destruct (evaluate _ _ _ _ _ _ _ 1 _); [eauto|congruence].
Qed.
(** C45: over the times told apart, the Levy areas have the variance of those of Brownian motion, and are uncorrelated with the
    increment and with each other; *)
  Theorem C45_levy :
    forall (V : Type) (o : ops V) (smp : sampler V) (cov : V -> V -> R) (la : levy_area) (eps : R) (vt : tree) (fuel : nat) (s t : R) (x : increment V),
    is_covariance o cov -> independent_samples smp cov -> degenerate_is_mean o smp -> proper vt ->
  told_apart vt s t ->
  evaluate o smp la Sqrt eps vt fuel s (Some t) = Some x ->
  (la <> BM -> apart eps vt s t -> cov (inc_H x) (inc_H x) = (t - s) / 12) /\
  (la = STT -> apart2 eps vt s t -> cov (inc_K x) (inc_K x) = (t - s) / 720) /\
  cov (inc_W x) (inc_H x) = 0 /\ cov (inc_W x) (inc_K x) = 0 /\ cov (inc_H x) (inc_K x) = 0.
  Proof. exact pf_C45_levy. Qed.
(** increments and Levy areas over one interval are uncorrelated with those over later ones; *)
  Theorem C45_levy_independent :
    forall (V : Type) (o : ops V) (smp : sampler V) (cov : V -> V -> R) (la : levy_area) (eps : R) (vt : tree) (fuel fuel' : nat) (s t s' t' : R) (x y : increment V),
    is_covariance o cov -> independent_samples smp cov -> degenerate_is_mean o smp -> proper vt ->
  told_apart vt s t -> told_apart vt t s' -> told_apart vt s' t' ->
  evaluate o smp la Sqrt eps vt fuel s (Some t) = Some x ->
  evaluate o smp la Sqrt eps vt fuel' s' (Some t') = Some y ->
  forall a b : V, In a [inc_W x; inc_H x; inc_K x] -> In b [inc_W y; inc_H y; inc_K y] -> cov a b = 0.
  Proof. exact pf_C45_levy_independent. Qed.
(** and the same holds of the values that a single time gives. *)
  Theorem C45_levy_single :
    forall (V : Type) (o : ops V) (smp : sampler V) (cov : V -> V -> R) (la : levy_area) (eps : R) (vt : tree) (fuel : nat) (t : R) (x : increment V),
    is_covariance o cov -> independent_samples smp cov -> degenerate_is_mean o smp -> proper vt ->
  evaluate o smp la Sqrt eps vt fuel t None = Some x ->
  (la = ST -> apart eps vt (vt_t0 vt) t -> cov (inc_H x) (inc_H x) = (t - vt_t0 vt) / 12) /\
  (la = STT -> apart2 eps vt (vt_t0 vt) t ->
   cov (inc_H x) (inc_H x) = (t - vt_t0 vt) / 12 /\ cov (inc_K x) (inc_K x) = (t - vt_t0 vt) / 720) /\
  cov (inc_W x) (inc_H x) = 0 /\ cov (inc_W x) (inc_K x) = 0 /\ cov (inc_H x) (inc_K x) = 0.
  Proof. exact pf_C45_levy_single. Qed.
Example C45_levy_instance : let eps := / 2 ^ 23 in
  apart eps sample_tree (1 / 3) (2 / 3) /\ apart2 eps sample_tree (1 / 3) (2 / 3) /\
  apart eps sample_tree (vt_t0 sample_tree) 1 /\ apart2 eps sample_tree (vt_t0 sample_tree) 1.
Proof. cbv zeta. unfold apart, apart2, length, sample_tree; cbn [vt_t0 vt_t1]. repeat split; lra. Qed.
(** C45: but not for all times: within the tolerance, the values are correlated otherwise. *)
  Theorem C45_below_tolerance :
    exists (vt : tree) (s t : R), proper vt /\ within vt s /\ within vt t /\ s < t /\
  forall (V : Type) (o : ops V) (smp : sampler V) (cov : V -> V -> R) (eps : R) (fuel : nat) (x y : increment V),
  is_covariance o cov -> independent_samples smp cov ->
  evaluate o smp BM Sqrt eps vt fuel s None = Some x ->
  evaluate o smp BM Sqrt eps vt fuel t None = Some y ->
  cov (inc_W x) (inc_W y) <> s - vt_t0 vt.
  Proof. exact pf_C45_below_tolerance. Qed.
(** C45: [UnsafeBrownianPath] gives increments, and Levy areas, of the right variance that are uncorrelated. *)
  Theorem C45_unsafe :
    forall (V : Type) (o : ops V) (smp : sampler V) (cov : V -> V -> R) (la : levy_area) (k : key) (t0 t1 : R),
    is_covariance o cov -> independent_samples smp cov -> t0 <= t1 ->
  let x := unsafe_evaluate o smp la k t0 t1 in
  inc_dt x = t1 - t0 /\ cov (inc_W x) (inc_W x) = t1 - t0 /\
  (la <> BM -> cov (inc_H x) (inc_H x) = (t1 - t0) / 12 /\ cov (inc_W x) (inc_H x) = 0) /\
  (la = STT -> cov (inc_K x) (inc_K x) = (t1 - t0) / 720 /\ cov (inc_W x) (inc_K x) = 0 /\ cov (inc_H x) (inc_K x) = 0).
  Proof. exact pf_C45_unsafe. Qed.
Example C45_unsafe_instance : is_covariance formal_ops formal_cov /\ independent_samples formal_sampler formal_cov /\
  inc_H (unsafe_evaluate formal_ops formal_sampler ST [3%nat] 0 4) = [(sqrt (4 - 0) / sqrt 12 * 1, ([1%nat; 3%nat], 0%nat))].
Proof. split; [exact formal_covariance|]. split; [exact formal_samples|]. reflexivity. Qed.

(** C46: Chen's relation for the space-time Levy area, for times that are not too close. *)
  Theorem C46_chen_H :
    forall (smp : sampler R) (la : levy_area) (spl : spline) (eps : R) (vt : tree) (fuel : nat) (s t u : R) (x y z : increment R),
    proper vt -> 0 < eps -> la <> BM -> apart eps vt s t -> apart eps vt t u ->
  evaluate real_ops smp la spl eps vt fuel s (Some t) = Some x ->
  evaluate real_ops smp la spl eps vt fuel t (Some u) = Some y ->
  evaluate real_ops smp la spl eps vt fuel s (Some u) = Some z ->
  chen_H (t - s) (u - t) x y z.
  Proof. exact pf_C46_chen_H. Qed.
(** C46: Chen's relation for the space-time-time Levy area, for times that are further apart. *)
  Theorem C46_chen_K :
    forall (smp : sampler R) (spl : spline) (eps : R) (vt : tree) (fuel : nat) (s t u : R) (x y z : increment R),
    proper vt -> 0 < eps <= 1 -> apart2 eps vt s t -> apart2 eps vt t u ->
  evaluate real_ops smp STT spl eps vt fuel s (Some t) = Some x ->
  evaluate real_ops smp STT spl eps vt fuel t (Some u) = Some y ->
  evaluate real_ops smp STT spl eps vt fuel s (Some u) = Some z ->
  chen_K (t - s) (u - t) x y z.
  Proof. exact pf_C46_chen_K. Qed.
(** C46: a single time is the same as the increment from the start. *)
  Theorem C46_single :
    forall (smp : sampler R) (la : levy_area) (spl : spline) (eps : R) (vt : tree) (fuel : nat) (t : R) (x y : increment R),
    degenerate_is_mean real_ops smp -> proper vt -> 0 < eps <= 1 -> apart2 eps vt (vt_t0 vt) t ->
  evaluate real_ops smp la spl eps vt fuel t None = Some x ->
  evaluate real_ops smp la spl eps vt fuel (vt_t0 vt) (Some t) = Some y ->
  x = y.
  Proof. exact pf_C46_single. Qed.
Example C46_instance : let eps := / 2 ^ 23 in
  degenerate_is_mean real_ops some_samples /\ proper sample_tree /\ 0 < eps <= 1 /\
  apart eps sample_tree (1 / 3) (2 / 3) /\ apart eps sample_tree (2 / 3) 1 /\
  apart2 eps sample_tree (1 / 3) (2 / 3) /\ apart2 eps sample_tree (2 / 3) 1 /\ apart2 eps sample_tree (vt_t0 sample_tree) 1.
Proof.
  cbv zeta. split; [intros k; reflexivity|]. split; [exact sample_proper|]. split; [lra|]. exact sample_apart.
Qed.
(** The relations are those of the integrals of a path. *)
Example C46_integrals : forall X : R -> R, continuity X -> forall s t u, s < t -> t < u ->
  chen_H (t - s) (u - t) (levy_of X s t) (levy_of X t u) (levy_of X s u) /\
  chen_K (t - s) (u - t) (levy_of X s t) (levy_of X t u) (levy_of X s u).
Proof. exact continuous_paths_chen. Qed.
(** C46: closer than that, the space-time-time Levy area is returned as zero, and Chen's relation fails; *)
  Theorem C46_small_steps_refuted :
    exists (smp : sampler R) (vt : tree) (s t u : R) (x y z : increment R), forall fuel,
  let eps := / 2 ^ 23 in
  degenerate_is_mean real_ops smp /\ proper vt /\ apart eps vt s t /\ apart eps vt t u /\
  evaluate real_ops smp STT Sqrt eps vt fuel s (Some t) = Some x /\
  evaluate real_ops smp STT Sqrt eps vt fuel t (Some u) = Some y /\
  evaluate real_ops smp STT Sqrt eps vt fuel s (Some u) = Some z /\
  ~ chen_K (t - s) (u - t) x y z.
  Proof. exact pf_C46_small_steps_refuted. Qed.
(** and then the space-time Levy area from the start is zero when asked for by a single time, but not as an increment. *)
  Theorem C46_single_refuted :
    exists (smp : sampler R) (vt : tree) (t : R) (x y : increment R), forall fuel,
  let eps := / 2 ^ 23 in
  degenerate_is_mean real_ops smp /\ proper vt /\ apart eps vt (vt_t0 vt) t /\
  evaluate real_ops smp STT Sqrt eps vt fuel t None = Some x /\
  evaluate real_ops smp STT Sqrt eps vt fuel (vt_t0 vt) (Some t) = Some y /\
  inc_H x <> inc_H y.
  Proof. exact pf_C46_single_refuted. Qed.

Print Assumptions C44_terminates.
Print Assumptions C44_start.
Print Assumptions C44_end.
Print Assumptions C44_increment.
Print Assumptions C44_additive.
Print Assumptions C44_tolerance.
Print Assumptions C45_covariance.
Print Assumptions C45_increments.
Print Assumptions C45_levy.
Print Assumptions C45_levy_independent.
Print Assumptions C45_levy_single.
Print Assumptions C45_below_tolerance.
Print Assumptions C45_unsafe.
Print Assumptions C46_chen_H.
Print Assumptions C46_chen_K.
Print Assumptions C46_single.
Print Assumptions C46_small_steps_refuted.
Print Assumptions C46_single_refuted.
