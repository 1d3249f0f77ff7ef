(** Concrete interpolations: instances and counterexamples. *)
From Coq Require Import Reals List Bool Arith ZArith Lia Lra Sorting.Sorted.
From Verif Require Import Model_Loop Model_Dense Model_Interp Spec_Interp Proof_Interp
  Proof_InterpGlobal Proof_InterpFill Proof_InterpHermite.
Import ListNotations.
Open Scope R_scope.

Lemma impl_eq pt v d ti tn w : pt < tn ->
  hermite_impl (pt, v, d) ti (tn, w)
  = hermite_coeffs ti (cubic_at (hermite_coeffs pt v d tn w) (ti - pt))
                   (cubic_deriv_at (hermite_coeffs pt v d tn w) (ti - pt)) tn w.
Proof.
  intros H. unfold hermite_impl. cbn [fst snd].
  destruct (two_knots pt tn (hermite_coeffs pt v d tn w) ti true H) as [-> ->]. reflexivity.
Qed.

Lemma sorted_0123 : StronglySorted Rlt [0; 1; 2; 3].
Proof. repeat constructor; lra. Qed.
Lemma cubic_eval_at ts qs t left j q : StronglySorted Rlt ts -> brackets ts left t j -> nth_error qs j = Some q ->
  cubic_evaluate ts qs t left = cubic_at q (t - at_ ts j) /\
  cubic_derivative ts qs t left = cubic_deriv_at q (t - at_ ts j).
Proof.
  intros Hs Hb Hq. unfold cubic_evaluate, cubic_derivative.
  rewrite (index_brackets _ _ _ _ (lt_le_sorted _ Hs) Hb). destruct Hb as (Hj & _).
  rewrite (getQ_at _ _ _ Hq), getR_at by lia. split; reflexivity.
Qed.
Ltac hermite_compute :=
  unfold backward_hermite_coefficients;
  cbn [tl hd last combine reverse_scan isnan map fst snd removelast start_value fill_forward
       fill_forward_scan hermite_forward_scan map3 nth_error];
  rewrite !impl_eq by (cbn [fst snd]; lra); reflexivity.
Ltac bracket j := split; [cbn; lia|split; [try (left; reflexivity); right; cbn; lra
                                          |try (left; reflexivity); right; cbn; lra]].

Lemma pf_C40_gap_discontinuous_refuted :
  exists ts ys d0 t a b, StronglySorted Rlt ts /\ length ys = length ts /\
    cubic_evaluate ts (backward_hermite_coefficients false ts ys (Some (Some d0)) None) t true = Some a /\
    cubic_evaluate ts (backward_hermite_coefficients false ts ys (Some (Some d0)) None) t false = Some b /\
    a <> b.
Proof.
  exists [0; 1; 2; 3], [Some 0; None; None; Some 27], 0, 2, (31/2), 16.
  split; [apply sorted_0123|]. split; [reflexivity|]. split; [|split; [|lra]].
  - edestruct (cubic_eval_at [0; 1; 2; 3] (backward_hermite_coefficients false [0; 1; 2; 3]
      [Some 0; None; None; Some 27] (Some (Some 0)) None) 2 true 1) as [-> _];
      [apply sorted_0123|bracket 1%nat|hermite_compute|].
    cbn. f_equal. field.
  - edestruct (cubic_eval_at [0; 1; 2; 3] (backward_hermite_coefficients false [0; 1; 2; 3]
      [Some 0; None; None; Some 27] (Some (Some 0)) None) 2 false 2) as [-> _];
      [apply sorted_0123|bracket 2%nat|hermite_compute|].
    cbn. f_equal. field.
Qed.

Lemma pf_C40_gap_derivative_refuted :
  exists ts ys d0 t a b, StronglySorted Rlt ts /\ length ys = length ts /\
    (exists i v, nth_error ts i = Some t /\ observed ys i v) /\
    cubic_derivative ts (backward_hermite_coefficients false ts ys (Some (Some d0)) None) t true = Some a /\
    cubic_derivative ts (backward_hermite_coefficients false ts ys (Some (Some d0)) None) t false = Some b /\
    a <> b.
Proof.
  exists [0; 1; 2; 3], [Some 0; None; Some 8; Some 9], 0, 2, 5, 4.
  split; [apply sorted_0123|]. split; [reflexivity|].
  split; [exists 2%nat, 8; split; reflexivity|]. split; [|split; [|lra]].
  - edestruct (cubic_eval_at [0; 1; 2; 3] (backward_hermite_coefficients false [0; 1; 2; 3]
      [Some 0; None; Some 8; Some 9] (Some (Some 0)) None) 2 true 1) as [_ ->];
      [apply sorted_0123|bracket 1%nat|hermite_compute|].
    cbn. f_equal. field.
  - edestruct (cubic_eval_at [0; 1; 2; 3] (backward_hermite_coefficients false [0; 1; 2; 3]
      [Some 0; None; Some 8; Some 9] (Some (Some 0)) None) 2 false 2) as [_ ->];
      [apply sorted_0123|bracket 2%nat|hermite_compute|].
    cbn. f_equal. field.
Qed.

(** [replace_nans_at_start] replaces the first value even if it is not NaN. *)
Lemma pf_C40_replacement (ff : bool) (ts : list R) (ys : list num) (r : R) (j : nat) (w : R) (left : bool) :
  StronglySorted Rlt ts -> (2 <= length ts)%nat -> length ys = length ts ->
  (0 < j)%nat -> observed ys j w ->
  cubic_evaluate ts (backward_hermite_coefficients ff ts ys None (Some (Some r))) (at_ ts 0) left = Some r.
Proof.
  intros Hs Hl Hlen Hj Hw.
  destruct ts as [|tf ts1]; [cbn in Hl; lia|]. destruct ys as [|yf ys1]; [cbn in Hlen; lia|].
  cbn in Hl, Hlen. assert (Hne : (1 <= length ts1)%nat) by lia. assert (Hlen' : length ys1 = length ts1) by lia.
  rewrite (hm_eq ff tf yf ts1 ys1 None (Some (Some r)) Hne Hlen').
  apply (hm_start ff tf yf ts1 ys1 None (Some (Some r)) Hs Hne Hlen' ltac:(discriminate) j w r); auto; lia.
Qed.
Lemma pf_C40_replacement_refuted :
  exists ts ys r v, StronglySorted Rlt ts /\ length ys = length ts /\
    (forall i, (i < length ts)%nat -> exists x, observed ys i x) /\ observed ys 0 v /\
    cubic_evaluate ts (backward_hermite_coefficients false ts ys None (Some (Some r))) (at_ ts 0) true <> Some v.
Proof.
  exists [0; 1; 2; 3], [Some 0; Some 1; Some 2; Some 3], 5, 0.
  split; [apply sorted_0123|]. split; [reflexivity|]. split.
  { intros i Hi. do 4 (destruct i as [|i]; [eexists; reflexivity|]). cbn in Hi. lia. }
  split; [reflexivity|].
  rewrite (pf_C40_replacement false _ _ 5 1 1 true sorted_0123); [|cbn; lia|reflexivity|lia|reflexivity].
  intros [= E]. lra.
Qed.

(** [fill_forward_nans_at_end]: the spline is not that of the filled data, and NaN remains if only the
    first value is known. *)
Lemma pf_C40_fill_end_refuted :
  (exists ts ys t a b, StronglySorted Rlt ts /\ length ys = length ts /\
    cubic_evaluate ts (backward_hermite_coefficients true ts ys None None) t true = Some a /\
    cubic_evaluate ts (backward_hermite_coefficients true ts (fill_forward ys None) None None) t true = Some b /\
    a <> b) /\
  (exists ts ys t v, StronglySorted Rlt ts /\ length ys = length ts /\ observed ys 0 v /\
    cubic_evaluate ts (backward_hermite_coefficients true ts ys None None) t true = None).
Proof.
  split.
  - exists [0; 1; 2; 3], [Some 0; Some 1; None; None], 2, (5/4), 1.
    split; [apply sorted_0123|]. split; [reflexivity|]. split; [|split; [|lra]].
    + edestruct (cubic_eval_at [0; 1; 2; 3] (backward_hermite_coefficients true [0; 1; 2; 3]
        [Some 0; Some 1; None; None] None None) 2 true 1) as [-> _];
        [apply sorted_0123|bracket 1%nat|hermite_compute|].
      cbn. f_equal. field.
    + edestruct (cubic_eval_at [0; 1; 2; 3] (backward_hermite_coefficients true [0; 1; 2; 3]
        (fill_forward [Some 0; Some 1; None; None] None) None None) 2 true 1) as [-> _];
        [apply sorted_0123|bracket 1%nat|hermite_compute|].
      cbn. f_equal. field.
  - exists [0; 1], [Some 7; None], (1/2), 7.
    assert (S01 : StronglySorted Rlt [0; 1]) by (repeat constructor; lra).
    split; [exact S01|]. split; [reflexivity|]. split; [reflexivity|].
    edestruct (cubic_eval_at [0; 1] (backward_hermite_coefficients true [0; 1]
        [Some 7; None] None None) (1/2) true 0) as [-> _]; [exact S01|bracket 0%nat|hermite_compute|].
    reflexivity.
Qed.

(** [linear_interpolation]: with nothing observed, the replacement is not used although it is passed and
    trailing values are to be filled. *)
Lemma pf_C41_replacement_refuted :
  exists ts ys r, StronglySorted Rlt ts /\ length ys = length ts /\ missing ys 0 /\
    nth_error (linear_interpolation true ts ys (Some (Some r))) 0 <> Some (Some r).
Proof.
  exists [0; 1; 2; 3], [None; None; None; None], 5. split; [apply sorted_0123|]. split; [reflexivity|].
  split; [reflexivity|]. rewrite pf_C41_nothing_observed; [discriminate|apply sorted_0123|cbn; lia|reflexivity|cbn; lia|].
  intros k Hk. cbn in Hk. do 4 (destruct k as [|k]; [reflexivity|]). lia.
Qed.

(** Increments of data that is a tuple, list or dict of arrays raise a [TypeError]. *)
Lemma pf_C39_increment_pytree_refuted :
  exists ts ys a b v w, StronglySorted Rlt ts /\
    linear_evaluate_tree ts ys a true = Node [Leaf (Some v)] /\
    linear_evaluate_tree ts ys b true = Node [Leaf (Some w)] /\
    linear_increment_tree ts ys a b true = None.
Proof.
  exists [0; 1; 2; 3], (Node [Leaf (map Some [4; 5; 6; 7])]), 0, 1, 4, 5.
  split; [apply sorted_0123|].
  assert (E : forall t v, (t = 0 /\ v = 4) \/ (t = 1 /\ v = 5) ->
     linear_evaluate_tree [0; 1; 2; 3] (Node [Leaf (map Some [4; 5; 6; 7])]) t true = Node [Leaf (Some v)]).
  { intros t v H. unfold linear_evaluate_tree. cbn [tree_map map]. do 3 f_equal.
    destruct H as [[-> ->]|[-> ->]].
    - apply (pf_C39_knots [0; 1; 2; 3] [4; 5; 6; 7] true 0); try reflexivity; [apply sorted_0123|cbn; lia].
    - apply (pf_C39_knots [0; 1; 2; 3] [4; 5; 6; 7] true 1); try reflexivity; [apply sorted_0123|cbn; lia]. }
  split; [apply E; auto|]. split; [apply E; auto|]. reflexivity.
Qed.

(** *** Instances *)
Lemma ex_C38 : degree_le 3 (fun x => x * x * x) /\ derivable_pt_lim (fun x => x * x * x) 1 3 /\
  derivable_pt_lim (fun x => x * x * x) 3 27 /\
  third_order 1 3 1 27 ((3 - 1) * 3) ((3 - 1) * 27) 2 = 8.
Proof.
  assert (P : forall x, poly [0; 0; 0; 1] x = x * x * x) by (intros x; cbn; ring).
  assert (D : forall x l, l = dpoly [0; 0; 0; 1] x -> derivable_pt_lim (fun x => x * x * x) x l).
  { intros x l ->. apply (deriv_ext (poly [0; 0; 0; 1])); [exact P|apply poly_deriv]. }
  assert (H1 : derivable_pt_lim (fun x => x * x * x) 1 3) by (apply D; cbn; ring).
  assert (H2 : derivable_pt_lim (fun x => x * x * x) 3 27) by (apply D; cbn; ring).
  assert (Hd : degree_le 3 (fun x => x * x * x)).
  { exists [0; 0; 0; 1]. split; [cbn; lia|]. intros x. symmetry. apply P. }
  repeat split; try assumption.
  pose proof (pf_C38_third_order_exact (fun x => x * x * x) 1 3 3 27 ltac:(lra) Hd H1 H2 2) as E.
  cbn beta in E. replace (1 * 1 * 1) with 1 in E by ring. replace (3 * 3 * 3) with 27 in E by ring.
  rewrite E. ring.
Qed.
Lemma ex_C39 : StronglySorted Rlt [0; 1; 2; 3] /\ brackets [0; 1; 2; 3] true 2 1 /\
  brackets [0; 1; 2; 3] false 2 2 /\ brackets [0; 1; 2; 3] true (5 / 2) 2 /\
  linear_evaluate [0; 1; 2; 3] [Some 0; None; Some 4; Some 8] (5 / 2) true = Some 6 /\
  linear_evaluate [0; 1; 2; 3] [Some 0; None; Some 4; Some 8] 2 true = None /\
  linear_evaluate [0; 1; 2; 3] [Some 0; None; Some 4; Some 8] 2 false = Some 4.
Proof.
  assert (B1 : brackets [0; 1; 2; 3] true 2 1) by bracket 1%nat.
  assert (B2 : brackets [0; 1; 2; 3] false 2 2) by bracket 2%nat.
  assert (B3 : brackets [0; 1; 2; 3] true (5/2) 2) by bracket 2%nat.
  pose proof (lt_le_sorted _ sorted_0123) as Hs.
  repeat split; try exact sorted_0123; try exact (proj1 B1); try exact (proj1 (proj2 B1)); try exact (proj2 (proj2 B1));
    try exact (proj1 B2); try exact (proj1 (proj2 B2)); try exact (proj2 (proj2 B2));
    try exact (proj1 B3); try exact (proj1 (proj2 B3)); try exact (proj2 (proj2 B3)).
  - rewrite (proj1 (pf_C39_interval [0; 1; 2; 3] [Some 0; None; Some 4; Some 8] true (5/2) 4 8 2 Hs eq_refl B3 eq_refl eq_refl)).
    unfold line, at_. cbn. f_equal. field.
  - apply (pf_C39_missing [0; 1; 2; 3] [Some 0; None; Some 4; Some 8] true 2 1 Hs eq_refl B1). left. reflexivity.
  - rewrite (proj1 (pf_C39_interval [0; 1; 2; 3] [Some 0; None; Some 4; Some 8] false 2 4 8 2 Hs eq_refl B2 eq_refl eq_refl)).
    unfold line, at_. cbn. f_equal. field.
Qed.
Lemma ex_C40 : exists f f', (forall t, cubic_evaluate [0; 1; 2; 3]
     (backward_hermite_coefficients false [0; 1; 2; 3] (map Some [0; 1; 4; 9]) None None) t true = Some (f t)) /\
   (forall t, derivable_pt_lim f t (f' t)) /\ f 2 = 4 /\ f' 2 = 3 /\ f' 0 = 1.
Proof.
  destruct (pf_C40_smooth false [0; 1; 2; 3] [0; 1; 4; 9] None true sorted_0123 ltac:(cbn; lia) eq_refl)
    as (f & f' & H1 & _ & H3 & _ & H5 & H6 & H7).
  exists f, f'. split; [exact H1|]. split; [exact H3|]. split; [exact (H5 2%nat ltac:(cbn; lia))|].
  split.
  - pose proof (H6 1%nat ltac:(cbn; lia)) as E. unfold at_, slope in E. cbn in E. rewrite E. field.
  - unfold at_, slope in H7. cbn in H7. rewrite H7. field.
Qed.
Lemma ex_C41 : linear_interpolation true [0; 1; 2; 3] [Some 0; None; Some 4; None] None
  = [Some 0; Some 2; Some 4; Some 4].
Proof.
  assert (L : length (linear_interpolation true [0; 1; 2; 3] [Some 0; None; Some 4; None] None) = 4%nat) by reflexivity.
  pose proof (pf_C41_observed true [0; 1; 2; 3] [Some 0; None; Some 4; None] None 0 0 sorted_0123 ltac:(cbn; lia) eq_refl eq_refl) as H0.
  assert (M1 : all_missing [Some 0; None; Some 4; None] 1 2) by (intros k Hk; assert (k = 1%nat) as -> by lia; reflexivity).
  assert (M3 : all_missing [Some 0; None; Some 4; None] 3 4) by (intros k Hk; assert (k = 3%nat) as -> by lia; reflexivity).
  pose proof (pf_C41_interior true [0; 1; 2; 3] [Some 0; None; Some 4; None] None 0 1 2 0 4 sorted_0123 ltac:(cbn; lia) eq_refl ltac:(lia) eq_refl eq_refl M1) as H1.
  pose proof (pf_C41_observed true [0; 1; 2; 3] [Some 0; None; Some 4; None] None 2 4 sorted_0123 ltac:(cbn; lia) eq_refl eq_refl) as H2.
  pose proof (pf_C41_trailing true [0; 1; 2; 3] [Some 0; None; Some 4; None] None 2 3 4 sorted_0123 ltac:(cbn; lia) eq_refl ltac:(cbn; lia) eq_refl M3) as H3.
  destruct (linear_interpolation true [0; 1; 2; 3] [Some 0; None; Some 4; None] None) as [|a [|b [|c [|d [|e l]]]]]; try discriminate.
  cbn in H0, H1, H2, H3. injection H0 as ->. injection H1 as ->. injection H2 as ->. injection H3 as ->.
  f_equal. f_equal. unfold line, at_. cbn. f_equal. field.
Qed.
Lemma ex_C42 : rectilinear_interpolation [0; 1; 2] [Some 5; None; Some 7] None
  = ([0; 1; 1; 2; 2], [Some 5; Some 5; Some 5; Some 5; Some 7]).
Proof. reflexivity. Qed.
