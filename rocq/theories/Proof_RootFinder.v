(** Proofs about the root finder. *)
From Coq Require Import QArith Qabs Lqa List Bool Arith Lia.
From Verif Require Import Model_Result Model_Float Model_RootFinder Spec_RootFinder.
Import ListNotations.
Open Scope Q_scope.

Lemma ql x y : Qle_bool x y = true <-> x <= y.
Proof. apply Qle_bool_iff. Qed.
Lemma qlf x y : Qle_bool x y = false <-> y < x.
Proof.
  split; intros H.
  - destruct (Qlt_le_dec y x) as [L|L]; [exact L|]. apply ql in L. congruence.
  - destruct (Qle_bool x y) eqn:E; [|reflexivity]. apply ql in E. lra.
Qed.
Lemma xlt_fin x y : xlt (QFin x) (QFin y) = true <-> x < y.
Proof. cbn. rewrite negb_true_iff. apply qlf. Qed.

Lemma ratio q q' : 0 < q -> q < q' -> q * (q / q') / (1 - q / q') == q * q / (q' - q).
Proof. intros H H'. field. split; lra. Qed.

Section VeryChord.
  Context {Y F : Type}.

  Lemma small_iff (c : chord Y F) d : norm_sizes c -> (exists a b, d = ch_size c a b) ->
    small_ (ch_resolution c) d = true <-> negligible c d.
  Proof.
    intros N (a & b & ->). specialize (N a b). unfold small_, negligible. destruct N as [-> | [-> | (q & -> & Hq)]].
    - split; [discriminate|intros (q & H & _); discriminate].
    - split; [discriminate|intros (q & H & _); discriminate].
    - rewrite xlt_fin. split; [intros H; exists q; auto|intros (q1 & E & H); injection E as <-; exact H].
  Qed.
  Lemma xmul_r0 a : xmul a (QFin 0) = match a with QFin q => QFin (q * 0) | _ => QNaN end.
  Proof. destruct a; reflexivity. Qed.

  Lemma converged_iff (c : chord Y F) d d' : norm_sizes c -> (exists a b, d = ch_size c a b) -> (exists a b, d' = ch_size c a b) ->
    let rate := xdiv d d' in
    negb (diverged_ rate) && converged_ (xdiv (xmul d rate) (xsub (QFin 1) rate)) (ch_kappa c) = true <-> contracting c d d'.
  Proof.
    intros N (a & b & ->) (a' & b' & ->). cbv zeta. pose proof (N a b) as N1. pose proof (N a' b') as N2.
    unfold contracting.
    destruct N1 as [-> | [-> | (q & -> & Hq)]].
    { split; [discriminate|intros (x & y & H & _); discriminate]. }
    { split; [|intros (x & y & H & _); discriminate]. intros H. exfalso.
      destruct N2 as [N2 | [N2 | (q' & N2 & Hq')]]; rewrite N2 in H; cbn in H; try discriminate. destruct (Qle_bool 0 q'); cbn in H; discriminate. }
    destruct N2 as [-> | [-> | (q' & -> & Hq')]].
    { split; [discriminate|intros (x & y & _ & H & _); discriminate]. }
    { split; [|intros (x & y & _ & H & _); discriminate]. intros H. exfalso. cbn in H. unfold converged_ in H. apply andb_prop in H as (H & _).
      apply xlt_fin in H. unfold Qdiv in H. ring_simplify in H. lra. }
    cbn [xdiv]. destruct (Qeq_bool q' 0) eqn:E.
    { apply Qeq_bool_iff in E. split.
      - unfold sgn_inf. destruct (Qeq_bool q 0), (Qle_bool 0 q); cbn; discriminate.
      - intros (x & y & H1 & H2 & H3 & H4 & _). injection H1 as <-. injection H2 as <-. lra. }
    assert (Hq'' : 0 < q'). { assert (~ q' == 0) by (rewrite <- Qeq_bool_iff; congruence). lra. }
    assert (R0 : 0 <= q / q') by (apply Qle_shift_div_l; lra).
    unfold diverged_. cbn [is_nan is_inf orb xmul xsub xneg xadd xdiv]. unfold converged_.
    assert (E1 : 1 + - (q / q') == (q' - q) / q') by (field; lra).
    destruct (Qeq_bool (1 + - (q / q')) 0) eqn:E2.
    { apply Qeq_bool_iff in E2. rewrite E1 in E2.
      assert (EQ : q' - q == 0). { setoid_replace (q' - q) with ((q' - q) / q' * q') by (field; lra). rewrite E2. ring. }
      split.
      - unfold sgn_inf. destruct (Qeq_bool (q * (q / q')) 0), (Qle_bool 0 (q * (q / q'))); cbn; rewrite ?andb_false_r; discriminate.
      - intros (x & y & H1 & H2 & H3 & H4 & _). injection H1 as <-. injection H2 as <-. lra. }
    assert (NE : ~ 1 + - (q / q') == 0) by (rewrite <- Qeq_bool_iff; congruence).
    assert (NQ : ~ q' - q == 0). { intros H. apply NE. rewrite E1, H. field. lra. }
    assert (FE : q * (q / q') / (1 + - (q / q')) == q * q / (q' - q)) by (field; repeat split; lra).
    rewrite !andb_true_iff, !xlt_fin, negb_true_iff. split.
    - intros (_ & H1 & H2). rewrite FE in H1, H2.
      assert (Q1 : 0 < q' - q).
      { destruct (Qlt_le_dec 0 (q' - q)) as [L|L]; [exact L|]. exfalso. assert (LL : 0 < - (q' - q)) by lra.
        assert (X : q * q / (q' - q) == - (q * q / - (q' - q))) by (field; lra). rewrite X in H1.
        assert (0 <= q * q / - (q' - q)) by (apply Qle_shift_div_l; [exact LL|nra]). lra. }
      assert (Q0 : 0 < q). { destruct (Qlt_le_dec 0 q) as [L|L]; [exact L|]. assert (Z : q == 0) by lra. rewrite Z in H1.
        assert (X : 0 * 0 / (q' - 0) == 0) by (field; lra). rewrite X in H1. lra. }
      exists q, q'. repeat split; auto; [lra|].
      assert (X : q * q == q * q / (q' - q) * (q' - q)) by (field; lra). rewrite X. apply Qmult_lt_r; assumption.
    - intros (x & y & EX & EY & H3 & H4 & H5). injection EX as <-. injection EY as <-. rewrite FE.
      split; [|split].
      + cbn. rewrite negb_false_iff. apply ql. apply Qle_shift_div_r; lra.
      + apply Qlt_shift_div_l; nra.
      + apply Qlt_shift_div_r; lra.
  Qed.

  (** The state after [n] steps *)
  Lemma loop_state (c : chord Y F) k fuel y0 : exists n, (n <= fuel)%nat /\
    root_find_loop c k fuel y0 chord_init =
      (iterate c y0 n, match n with
                       | O => chord_init
                       | 1%nat => ChordState (update_size c y0 1) QPInf (linear_result c y0 1) 1
                       | S (S m) => ChordState (update_size c y0 n) (update_size c y0 (S m)) (linear_result c y0 n) n
                       end) /\
    (forall m, (m < n)%nat -> (m < 2)%nat -> m <> 0%nat -> k (negb (is_successful (linear_result c y0 m))) (linear_result c y0 m) = true) /\
    ((n < fuel)%nat -> (n < 2)%nat -> k (match n with O => false | _ => negb (is_successful (linear_result c y0 n)) end)
       (match n with O => successful | _ => linear_result c y0 n end) = false).
  Proof.
    set (st := fun n => match n with
                       | O => chord_init
                       | 1%nat => ChordState (update_size c y0 1) QPInf (linear_result c y0 1) 1
                       | S (S m) => ChordState (update_size c y0 n) (update_size c y0 (S m)) (linear_result c y0 n) n
                       end).
    assert (ST : forall n, chord_step c (iterate c y0 n) (st n) = (iterate c y0 (S n), st (S n))).
    { intros n. unfold chord_step. destruct (ch_solve c (ch_fn c (iterate c y0 n))) as (d & r) eqn:E.
      cbn [iterate]. rewrite E. cbn [fst]. f_equal.
      assert (U : update_size c y0 (S n) = ch_size c d (ch_sub c (iterate c y0 n) d)).
      { unfold update_size. cbn [iterate]. replace (S n - 1)%nat with n by lia. rewrite E. reflexivity. }
      assert (L : linear_result c y0 (S n) = r).
      { unfold linear_result. replace (S n - 1)%nat with n by lia. rewrite E. reflexivity. }
      destruct n as [|[|m]]; cbn [st cs_diffsize cs_step chord_init]; rewrite <- U, <- L; f_equal. lia. }
    assert (TE : forall n, (n < 2)%nat -> chord_terminate c (st n) =
      (match n with O => false | _ => negb (is_successful (linear_result c y0 n)) end, match n with O => successful | _ => linear_result c y0 n end)).
    { intros [|[|n]] H; [reflexivity| |lia]. unfold chord_terminate. cbn [st cs_step cs_result Nat.leb andb where_].
      destruct (linear_result c y0 1); reflexivity. }
    assert (G : forall fuel n0, exists n, (n0 <= n)%nat /\ (n <= n0 + fuel)%nat /\
      root_find_loop c k fuel (iterate c y0 n0) (st n0) = (iterate c y0 n, st n) /\
      (forall m, (n0 <= m)%nat -> (m < n)%nat -> (m < 2)%nat -> m <> 0%nat -> k (negb (is_successful (linear_result c y0 m))) (linear_result c y0 m) = true) /\
      ((n < n0 + fuel)%nat -> (n < 2)%nat -> k (match n with O => false | _ => negb (is_successful (linear_result c y0 n)) end)
         (match n with O => successful | _ => linear_result c y0 n end) = false)).
    { clear fuel. induction fuel as [|fuel IH]; intros n0.
      - exists n0. split; [lia|]. split; [lia|]. split; [reflexivity|]. split; intros; lia.
      - cbn [root_find_loop]. destruct (chord_terminate c (st n0)) as (t & r) eqn:E. destruct (k t r) eqn:K.
        + rewrite ST. destruct (IH (S n0)) as (n & H1 & H2 & H3 & H4 & H5). exists n. split; [lia|]. split; [lia|]. split; [exact H3|].
          split; [|intros; apply H5; lia].
          intros m Hm Hm' Hm2 Hm0. destruct (Nat.eq_dec m n0) as [->|NE]; [|apply H4; lia].
          rewrite TE in E by lia. destruct n0; [lia|]. injection E as <- <-. exact K.
        + exists n0. split; [lia|]. split; [lia|]. split; [reflexivity|]. split; [intros; lia|].
          intros _ H2. rewrite TE in E by lia. injection E as <- <-. exact K. }
    destruct (G fuel 0%nat) as (n & _ & H2 & H3 & H4 & H5). exists n. split; [lia|]. split; [exact H3|]. split; [intros; apply H4; lia|].
    intros; apply H5; lia.
  Qed.

  Lemma pf_C37_result : forall (c : chord Y F) (continue_ : bool -> RESULTS -> bool) (max_steps : nat) (y0 y : Y) (r : RESULTS) (n : nat),
    norm_sizes c -> root_find c continue_ max_steps y0 = (y, r, n) ->
    (n <= max_steps)%nat /\ y = iterate c y0 n /\
    (r = successful <->
       (2 <= n)%nat /\ linear_result c y0 n = successful /\
       (negligible c (update_size c y0 n) \/ contracting c (update_size c y0 n) (update_size c y0 (n - 1)))) /\
    ((1 <= n)%nat -> linear_result c y0 n <> successful -> r = linear_result c y0 n) /\
    ((2 <= n)%nat -> linear_result c y0 n = successful -> r = successful \/ r = nonlinear_divergence).
  Proof.
    intros c k fuel y0 y r n N H. unfold root_find in H.
    destruct (loop_state c k fuel y0) as (n' & Hn & E & _). rewrite E in H. clear E.
    match type of H with context [chord_terminate c ?s] => set (st := s) in * end.
    assert (Es : cs_step st = n') by (destruct n' as [|[|m]]; reflexivity).
    destruct (chord_terminate c st) as (t & r0) eqn:T. injection H as <- Hr Hn'. rewrite Es in Hn'. subst n'.
    split; [exact Hn|]. split; [reflexivity|].
    destruct n as [|[|m]].
    - cbn in T. injection T as <- <-. cbn in Hr. subst r. split; [|split; lia]. split; [discriminate|intros (X & _); lia].
    - unfold chord_terminate in T. cbn [st cs_step cs_result Nat.leb andb where_] in T.
      destruct (linear_result c y0 1) eqn:L; cbn in T; injection T as <- <-; cbn in Hr; subst r;
        (split; [split; [discriminate|intros (X & _); lia]|split; [congruence|lia]]).
    - unfold chord_terminate in T. cbn [st cs_step cs_result cs_diffsize cs_diffsize_prev Nat.leb andb] in T.
      pose proof (small_iff c (update_size c y0 (S (S m))) N (ex_intro _ _ (ex_intro _ _ eq_refl))) as S1.
      pose proof (converged_iff c (update_size c y0 (S (S m))) (update_size c y0 (S m)) N (ex_intro _ _ (ex_intro _ _ eq_refl)) (ex_intro _ _ (ex_intro _ _ eq_refl))) as S2.
      cbv zeta in S2. replace (S (S m) - 1)%nat with (S m) by lia.
      set (d := update_size c y0 (S (S m))) in *. set (d' := update_size c y0 (S m)) in *.
      set (sm := small_ (ch_resolution c) d) in *. set (dv := diverged_ (xdiv d d')) in *.
      set (cv := converged_ (xdiv (xmul d (xdiv d d')) (xsub (QFin 1) (xdiv d d'))) (ch_kappa c)) in *. clearbody sm dv cv.
      destruct (linear_result c y0 (S (S m))) eqn:L; cbn in T;
        try (injection T as <- <-; cbn in Hr; subst r; split; [split; [discriminate|intros (_ & X & _); discriminate]|split; [reflexivity|discriminate]]).
      split; [|split; [congruence|]].
      + split.
        * intros ->. split; [lia|]. split; [reflexivity|].
          destruct sm, dv, cv; cbn in T; injection T as <- <-; cbn in Hr; try discriminate; try (left; apply S1; reflexivity); right; apply S2; reflexivity.
        * intros (_ & _ & X).
          assert (B : sm = true \/ negb dv && cv = true) by (destruct X as [X|X]; [left; apply S1, X|right; apply S2, X]).
          destruct sm, dv, cv; cbn in T; injection T as <- <-; cbn in Hr; subst r; try reflexivity; destruct B; discriminate.
      + intros _ _. destruct sm, dv, cv; cbn in T; injection T as <- <-; cbn in Hr; subst r; auto.
  Qed.

  (** Not before two steps, if the driver goes on when told so. *)
  Lemma pf_C37_at_least_two : forall (c : chord Y F) (continue_ : bool -> RESULTS -> bool) (max_steps : nat) (y0 y : Y) (r : RESULTS) (n : nat),
    continue_ false successful = true -> (2 <= max_steps)%nat ->
    root_find c continue_ max_steps y0 = (y, r, n) -> linear_result c y0 1 = successful ->
    (2 <= n)%nat.
  Proof.
    intros c k fuel y0 y r n K Hf H L. unfold root_find in H.
    destruct (loop_state c k fuel y0) as (n' & Hn & E & _ & Hk). rewrite E in H. clear E.
    match type of H with context [chord_terminate c ?s] => set (st := s) in * end.
    assert (Es : cs_step st = n') by (destruct n' as [|[|m]]; reflexivity).
    destruct (chord_terminate c st) as (t & r0). injection H as _ _ Hn'. rewrite Es in Hn'. subst n'.
    destruct n as [|[|n]]; [| |lia]; exfalso; specialize (Hk ltac:(lia) ltac:(lia)).
    - congruence.
    - rewrite L in Hk. cbn in Hk. congruence.
  Qed.

  (** If the observed rate bounds the true rate of contraction towards the root, then success through the
      contraction estimate means that the root is within [kappa]. *)
  Lemma pf_C37_accuracy : forall (c : chord Y F) (continue_ : bool -> RESULTS -> bool) (max_steps : nat) (y0 y root : Y) (n : nat) (dist : Y -> Y -> Q),
    norm_sizes c -> root_find c continue_ max_steps y0 = (y, successful, n) ->
    (forall a b z, dist a z <= dist a b + dist b z) ->
    (forall m, (1 <= m)%nat -> exists q, update_size c y0 m = QFin q /\ q == dist (iterate c y0 (m - 1)) (iterate c y0 m)) ->
    dist (iterate c y0 n) root * dist (iterate c y0 (n - 2)) (iterate c y0 (n - 1)) <=
      dist (iterate c y0 (n - 1)) (iterate c y0 n) * dist (iterate c y0 (n - 1)) root ->
    negligible c (update_size c y0 n) \/ dist y root < ch_kappa c.
  Proof.
    intros c k fuel y0 y root n dist N H TR SZ RT.
    destruct (pf_C37_result c k fuel y0 y successful n N H) as (_ & -> & R & _ & _).
    destruct (proj1 R eq_refl) as (H2 & _ & [X|X]); [left; exact X|right].
    destruct X as (q & q' & E & E' & P & P' & K).
    destruct (SZ n ltac:(lia)) as (x & Ex & Dx). rewrite E in Ex. injection Ex as <-.
    destruct (SZ (n - 1)%nat ltac:(lia)) as (x & Ex & Dx'). rewrite E' in Ex. injection Ex as <-.
    replace (n - 1 - 1)%nat with (n - 2)%nat in Dx' by lia. rewrite <- Dx, <- Dx' in RT.
    pose proof (TR (iterate c y0 (n - 1)) (iterate c y0 n) root) as T1. rewrite <- Dx in T1.
    set (e := dist (iterate c y0 n) root) in *. set (e' := dist (iterate c y0 (n - 1)) root) in *.
    assert (A : e * (q' - q) <= q * q) by nra.
    destruct (Qlt_le_dec e (ch_kappa c)) as [L|L]; [exact L|]. exfalso. nra.
  Qed.
End VeryChord.
