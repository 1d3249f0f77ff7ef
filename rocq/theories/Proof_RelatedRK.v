(** Whole Runge--Kutta solves in new coordinates. *)
From Coq Require Import ZArith Reals QArith Qreals List Bool Arith Lia Lra FunctionalExtensionality.
From Verif Require Import Model_Result Model_Loop Model_RK Model_Tableaus Model_Terms Model_Interp Model_DenseOutput Spec_Loop Spec_RK Spec_RKLoop
  Spec_Convergence Spec_Frame Spec_Related Spec_RelatedRK
  Proof_RKStep Proof_RK Proof_RKProp Proof_RKLoop Proof_Frame Proof_Related.
Import ListNotations.
Open Scope R_scope.

Lemma list_ext {A : Type} (d : A) (l l' : list A) : length l = length l' -> (forall i, (i < length l)%nat -> nth i l d = nth i l' d) -> l = l'.
Proof. intros L H. apply (nth_ext l l' d d L H). Qed.

Section Step.
  Context {I I' J J' C : Type}.
  Variable fr : frame I I'.
  Hypothesis (AR : at_rest fr) (SH : fr_shift fr = 0).
  Definition shaped {X C0 : Type} (ps : list (tableau * term X X C0)) := length ps.

  Lemma step_always {X F C0 : Type} (sv : solver X F C0) t0 t1 y b f0 j :
    rk_step sv t0 t1 y true (Some (b, f0)) j = rk_step sv t0 t1 y true (Some (true, f0)) false.
  Proof. destruct b, j; reflexivity. Qed.
  Lemma step_always_none {X F C0 : Type} (sv : solver X F C0) t0 t1 y j :
    rk_step sv t0 t1 y true None j = rk_step sv t0 t1 y true None false.
  Proof. destruct j; reflexivity. Qed.
  Definition state_ok {X F C0 : Type} (ps : list (tableau * term X F C0)) (s : solver_state F) : Prop :=
    match s with None => True | Some (_, f0) => length f0 = length ps end.
  Definition dense_ok {X : Type} (n s : nat) (d : (X -> R) * (X -> R) * list (list (X -> R))) : Prop :=
    length (snd d) = n /\ forall m, (m < n)%nat -> length (nth m (snd d) []) = s.

  (** Any step with the first stage evaluated is one from a fresh state. *)
  Lemma fresh_state {X F C0 : Type} (sv : solver X F C0) t0 t1 y (s : solver_state F) j : state_ok (sv_parts sv) s ->
    exists s0, coherent (sv_parts sv) t0 y false s0 /\ rk_step sv t0 t1 y true s j = rk_step sv t0 t1 y true s0 false.
  Proof.
    destruct s as [(b & f0)|]; intros H.
    - exists (Some (true, f0)). split; [split; [exact H|left; reflexivity]|apply step_always].
    - exists None. split; [exact Logic.I|apply step_always_none].
  Qed.

  Lemma step_in_frame (sv : solver I J C) (sv' : solver I' J' C) s t0 t1 y st st' j j' :
    valid_parts s (sv_parts sv) -> explicit_parts (sv_parts sv) -> fsal_at_ends (sv_parts sv) ->
    valid_parts s (sv_parts sv') -> explicit_parts (sv_parts sv') -> fsal_at_ends (sv_parts sv') ->
    parts_follow fr (sv_parts sv) (sv_parts sv') -> state_ok (sv_parts sv) st -> state_ok (sv_parts sv') st' ->
    let out := rk_step sv t0 t1 y true st j in
    let out' := rk_step sv' t0 t1 (point fr 0 y) true st' j' in
    ro_y out' = point fr 0 (ro_y out) /\ ro_error out' = option_map (vector fr) (ro_error out) /\
    ro_k out' = map (map (vector fr)) (ro_k out) /\ ro_result out' = ro_result out /\
    state_ok (sv_parts sv) (ro_state out) /\ state_ok (sv_parts sv') (ro_state out') /\
    dense_ok (length (sv_parts sv)) s (y, ro_y out, ro_k out).
  Proof.
    intros V X FE V' X' FE' PF SO SO'. cbv zeta.
    destruct (fresh_state sv t0 t1 y st j SO) as (s0 & CO & ->).
    destruct (fresh_state sv' t0 t1 (point fr 0 y) st' j' SO') as (s0' & CO' & ->).
    set (out := rk_step sv t0 t1 y true s0 false). set (out' := rk_step sv' t0 t1 (point fr 0 y) true s0' false).
    assert (P0 : forall t u, point fr t u = point fr 0 u) by (intros; apply point_rest, AR).
    assert (CO2 : coherent (sv_parts sv') (t0 + fr_shift fr) (point fr t0 y) false s0') by (rewrite SH, (P0 t0), Rplus_0_r; exact CO').
    pose proof (pf_C75_explicit_step fr sv sv' s t0 t1 y true true s0 s0' false false V X FE V' X' FE' PF (or_introl AR) CO CO2) as T.
    cbv zeta in T. rewrite SH, (P0 t0), (P0 t1), !Rplus_0_r in T. fold out out' in T. destruct T as (TY & TE).
    pose proof (explicit_none sv X) as NI. pose proof (explicit_none sv' X') as NI'.
    pose proof (explicit_result sv t0 t1 y true s0 false NI) as OK. fold out in OK.
    pose proof (explicit_result sv' t0 t1 (point fr 0 y) true s0' false NI') as OK'. fold out' in OK'.
    destruct (step_correct sv s V t0 t1 y true s0 false CO (fsal_ends _ FE)) as (k & EQ & _ & _ & (LK & HK) & ST).
    { fold out. rewrite OK. reflexivity. } { right. exact NI. }
    destruct (step_correct sv' s V' t0 t1 (point fr 0 y) true s0' false CO' (fsal_ends _ FE')) as (k' & EQ' & _ & _ & (LK' & HK') & ST').
    { fold out'. rewrite OK'. reflexivity. } { right. exact NI'. }
    fold out in LK, HK, ST. fold out' in LK', HK', ST'.
    split; [exact TY|]. split; [exact TE|]. split; [|split; [rewrite OK, OK'; reflexivity|split; [|split]]].
    - destruct (pf_C75_stages fr s (sv_parts sv) (sv_parts sv') t0 t1 y k) as (k2 & EQ2 & _ & _ & K2); try assumption.
      { apply V. }
      { intros tab trm Hin. apply (proj1 (proj2 V)) in Hin. apply Hin. }
      { intros tab trm Hin. apply (proj1 (proj2 V')) in Hin. apply Hin. }
      { left. exact AR. }
      rewrite SH, (P0 t0), !Rplus_0_r in EQ2.
      pose proof (explicit_unique sv' s t0 t1 _ k' k2 V' X' EQ' EQ2) as U.
      destruct PF as (L & _).
      apply (list_ext []); [rewrite map_length, LK, LK'; exact L|]. rewrite LK'. intros m Hm.
      change (@nil (I' -> R)) with (map (vector fr) []) at 2. rewrite map_nth.
      destruct (HK' m Hm) as (L1' & N'). rewrite L in Hm. destruct (HK m Hm) as (L1 & N).
      apply (list_ext vzero); [rewrite map_length, L1, L1'; reflexivity|]. rewrite L1'. intros i Hi.
      rewrite (N' i Hi). rewrite (nth_indep _ vzero (vector fr vzero)) by (rewrite map_length, L1; exact Hi). rewrite map_nth, (N i Hi).
      apply functional_extensionality. intros p. rewrite (U i m) by (rewrite ?L; assumption). rewrite K2, (AR p). ring.
    - rewrite ST. destruct (use_fsal sv); [cbn; apply map_length|exact Logic.I].
    - rewrite ST'. destruct (use_fsal sv'); [cbn; apply map_length|exact Logic.I].
    - split; [exact LK|]. intros m Hm. apply (HK m Hm).
  Qed.
End Step.

Section Solve.
  Context {I I' J J' C CS CS' V V' MS MS' : Type}.
  Notation Y := (I -> R).
  Notation Y' := (I' -> R).
  Notation DI := (Y * Y * list (list Y))%type.
  Notation DI' := (Y' * Y' * list (list Y'))%type.
  Notation config := (config Y (solver_state J) CS DI (option Y) V MS).
  Notation config' := (Model_Loop.config Y' (solver_state J') CS' DI' (option Y') V' MS').
  Notation initial := (initial Y (solver_state J) CS MS).
  Notation initial' := (Model_Loop.initial Y' (solver_state J') CS' MS').

  Lemma interp_in_frame (fr : frame I I') n s interp t0 t1 (y0 y1 : Y) (k : list (list Y)) t p : affine_interpolation n s interp ->
    length k = n -> (forall m, (m < n)%nat -> length (nth m k []) = s) -> at_rest fr ->
    interp t0 t1 (point fr 0 y0 p) (point fr 0 y1 p) (map (map (fun u => u p)) (map (map (vector fr)) k)) t
    = point fr 0 (fun x => interp t0 t1 (y0 x) (y1 x) (map (map (fun u => u x)) k) t) p.
  Proof.
    intros AF LK LM AR. destruct (AF t0 t1 t) as (w0 & w1 & w & W & F).
    assert (SH : forall (A B : Type) (g : A -> B) (l : list (list A)), (forall m, (m < n)%nat -> length (nth m l []) = s) ->
                 forall m, (m < n)%nat -> length (nth m (map (map g) l) []) = s).
    { intros A B g l H m Hm. change (@nil B) with (map g []). rewrite map_nth, map_length. apply H, Hm. }
    rewrite F; [|rewrite !map_length; exact LK|apply SH, SH, LM].
    unfold point at 3. rewrite (lin_ext (fr_matrix fr) _ (fun x => (w0 * y0 x + w1 * y1 x) + sum_n n (fun m => sum_n s (fun i => w m i * nth i (nth m k []) (fun _ => 0) x)))).
    2:{ intros x. rewrite F; [|rewrite !map_length; exact LK|apply SH, LM]. f_equal. apply sum_n_ext. intros m Hm. apply sum_n_ext. intros i Hi.
        change (@nil R) with (map (fun u : Y => u x) []). rewrite map_nth. f_equal. apply (map_nth (fun u : Y => u x) _ (fun _ => 0)). }
    rewrite !lin_plus, !lin_scal, lin_sum. unfold point.
    replace (fr_origin fr p) with (w0 * fr_origin fr p + w1 * fr_origin fr p) at 3 by (rewrite <- Rmult_plus_distr_r, W; ring).
    rewrite (AR p).
    assert (Q : sum_n n (fun m => sum_n s (fun i => w m i * nth i (nth m (map (map (fun u : Y' => u p)) (map (map (vector fr)) k)) []) 0))
                = sum_n n (fun m => linear_map (fr_matrix fr) (fun x => sum_n s (fun i => w m i * nth i (nth m k []) (fun _ => 0) x)) p)).
    { apply sum_n_ext. intros m Hm. rewrite lin_sum. apply sum_n_ext. intros i Hi. rewrite lin_scal. f_equal.
      change (@nil R) with (map (fun u : Y' => u p) (map (vector fr) [])). rewrite map_map, (map_nth (fun x => map (fun u : Y' => u p) (map (vector fr) x))).
      rewrite map_map. rewrite (nth_indep _ 0 (vector fr (fun _ => 0) p)) by (rewrite map_length, LM; [exact Hi|exact Hm]).
      rewrite (map_nth (fun x => vector fr x p)). reflexivity. }
    rewrite Q. ring.
  Qed.

  Lemma pf_C76_coordinates (fr : frame I I') (c : config) (c' : config') (i : initial) (i' : initial')
        (sv : solver I J C) (sv' : solver I' J' C) (s : nat) (interp : interpolation) (time : Z -> R)
        (RC : CS -> CS' -> Prop) (RV : V -> V' -> Prop) (o : outcome Y (solver_state J) CS DI V MS) :
    at_rest fr -> fr_shift fr = 0 -> affine_interpolation (length (sv_parts sv)) s interp ->
    explicit_solve c i sv s interp time -> explicit_solve c' i' sv' s interp time ->
    parts_follow fr (sv_parts sv) (sv_parts sv') ->
    controllers_related (same_point fr) RC (same_error fr) c c' ->
    stepto_len c = stepto_len c' -> (forall a b, midpoint c a b = midpoint c' a b) ->
    Forall2 (sub_related (same_point fr) RV) (cfg_subs c) (cfg_subs c') -> cfg_dense c = cfg_dense c' ->
    opt_related (event_related (same_point fr)) (cfg_event c) (cfg_event c') ->
    cfg_t0 c = cfg_t0 c' -> cfg_t1 c = cfg_t1 c' -> cfg_max_steps c = cfg_max_steps c' ->
    in_y i' = point fr 0 (in_y i) -> in_tnext i = in_tnext i' -> in_made_jump i = in_made_jump i' ->
    RC (in_controller_state i) (in_controller_state i') -> in_pad i = in_pad i' ->
    solves c i o ->
    exists o', solves c' i' o' /\ outcomes_related (same_point fr) (fun _ _ => True) RC (same_dense fr) RV o o'.
  Proof.
    intros AR SH AF ES ES' PF CR H1 H2 H3 H4 H5 H6 H7 H8 Q1 Q2 Q3 Q4 Q5 SO.
    destruct ES as ((oth & E1) & E2 & E3 & VP & EX & FE & JF & (Inv & CC & IV) & AJ & MO & L1 & L2 & CO).
    destruct ES' as ((oth' & E1') & E2' & E3' & VP' & EX' & FE' & JF' & (Inv' & CC' & IV') & AJ' & MO' & L1' & L2' & CO').
    pose proof (pf_C29_cache c i sv s time oth Inv E1 VP FE JF (or_introl EX) CC AJ MO L1 L2 IV CO o) as (G & _). cbv zeta in G. specialize (G SO).
    pose proof (pf_C29_cache c' i' sv' s time oth' Inv' E1' VP' FE' JF' (or_introl EX') CC' AJ' MO' L1' L2' IV' CO') as G'. cbv zeta in G'.
    set (al := set_step c _) in *. set (al' := set_step c' _) in *.
    set (RS := fun (a : solver_state J) (b : solver_state J') => state_ok (sv_parts sv) a /\ state_ok (sv_parts sv') b).
    set (RD := fun (d : DI) (d' : DI') => same_dense fr d d' /\ dense_ok (length (sv_parts sv)) s d).
    destruct (pf_C76_related (same_point fr) RS RC RD (same_error fr) RV al al' i i' o) as (o' & S' & OR); [| |exact G|].
    - split.
      { intros a b y y' st st' j -> (K & K'). cbn [al al' set_step solver_step nan_to_inf]. rewrite E3, E3'. unfold rk_solver_step. cbn [so_y so_error so_dense so_state so_result].
        destruct (step_in_frame fr AR SH sv sv' s (time a) (time b) y st st' j j VP EX FE VP' EX' FE' PF K K') as (T1 & T2 & T3 & T4 & T5 & T6 & T7).
        split; [exact T1|]. split; [exact T2|]. split; [|split; [split; assumption|symmetry; exact T4]].
        split; [|exact T7]. unfold same_dense. rewrite T1, T3. reflexivity. }
      split.
      { intros a b d d' t (SD & (D1 & D2)). destruct d as [[y0 y1] k]. cbn [snd] in D1, D2. unfold same_dense in SD. subst d'.
        cbn [al al' set_step interpolate]. rewrite E2, E2'. unfold rk_interpolate, same_point. apply functional_extensionality. intros p.
        apply (interp_in_frame fr _ _ interp _ _ _ _ _ _ _ AF D1 D2 AR). }
      split; [exact CR|]. repeat (split; [assumption|]). assumption.
    - split; [exact Q1|]. repeat (split; [assumption|]). split; [split|split; assumption].
      + destruct (in_solver_state i) as [(b & f)|]; [apply CO|exact Logic.I].
      + destruct (in_solver_state i') as [(b & f)|]; [apply CO'|exact Logic.I].
    - exists o'. split; [apply G', S'|]. destruct OR as (O1 & O2 & O3 & O4 & O5 & O6 & O7 & O8 & O9 & O10 & O11 & O12 & O13).
      unfold outcomes_related. repeat (split; [first [assumption|exact Logic.I]|]). split.
      { clear -O9. induction O9 as [|a b l l' Hab Hl IH]; constructor; [|exact IH]. destruct a, b; cbn in *; try tauto. apply Hab. }
      repeat (split; [first [assumption|exact Logic.I]|]). assumption.
  Qed.
End Solve.

(** The interpolations of the explicit methods are affine. *)
Lemma tensordot_sum (c k : list R) n : length k = n -> tensordot c k = sum_n n (fun i => nth i c 0 * nth i k 0).
Proof.
  revert c n. induction k as [|y k IH]; intros c n L; destruct n; try discriminate; [destruct c; reflexivity|].
  injection L as L. rewrite sum_n_shift. destruct c as [|x c].
  - cbn [tensordot nth]. rewrite sum_n_0 by (intros [|i] _; ring). ring.
  - cbn [tensordot nth]. rewrite (IH c n L). reflexivity.
Qed.
Lemma last_nth (k : list R) s : length k = s -> (0 < s)%nat -> last k 0 = nth (s - 1) k 0.
Proof.
  intros <- H. destruct (exists_last (l := k)) as (l & a & ->); [destruct k; [cbn in H; lia|discriminate]|].
  rewrite last_last, app_length. cbn [length]. replace (length l + 1 - 1)%nat with (length l) by lia. rewrite app_nth2, Nat.sub_diag by lia. reflexivity.
Qed.
Lemma pick s (k : list R) i0 a : (i0 < s)%nat -> sum_n s (fun i => (if (i =? i0)%nat then a else 0) * nth i k 0) = a * nth i0 k 0.
Proof.
  intros H. rewrite (sum_n_one s i0 _ H); [rewrite Nat.eqb_refl; reflexivity|]. intros i _ N. destruct (Nat.eqb_spec i i0); [contradiction|ring].
Qed.
Lemma pf_C76_interpolations (s : nat) :
  (0 < s)%nat -> affine_interpolation 1 s hermite_from_k /\ affine_interpolation 1 s dopri5_interpolation /\
  affine_interpolation 1 s tsit5_interpolation /\ affine_interpolation 1 s dopri8_interpolation.
Proof.
  intros S0.
  assert (ONE : forall ks : list (list R), length ks = 1%nat -> (forall m, (m < 1)%nat -> length (nth m ks []) = s) -> exists k, ks = [k] /\ length k = s).
  { intros [|k [|? ?]] L H; try discriminate. exists k. split; [reflexivity|apply (H 0%nat); lia]. }
  assert (HD : forall k : list R, hd 0 k = nth 0 k 0) by (intros [|? ?]; reflexivity).
  split; [|split; [|split]]; intros t0 t1 t.
  - set (th := linear_rescale t0 t t1).
    exists (1 - (3 * th ^ 2 - 2 * th ^ 3)), (3 * th ^ 2 - 2 * th ^ 3),
      (fun _ i => (if (i =? 0)%nat then th ^ 3 - 2 * th ^ 2 + th else 0) + (if (i =? s - 1)%nat then th ^ 3 - th ^ 2 else 0)).
    split; [ring|]. intros y0 y1 ks L H. destruct (ONE ks L H) as (k & -> & LK). cbn [sum_n nth].
    rewrite (sum_n_ext s _ (fun i => (if (i =? 0)%nat then th ^ 3 - 2 * th ^ 2 + th else 0) * nth i k 0 + (if (i =? s - 1)%nat then th ^ 3 - th ^ 2 else 0) * nth i k 0)) by (intros; ring).
    rewrite sum_n_plus, !pick by lia. unfold hermite_from_k, third_order, poly_interp, third_order_coeffs, only_k. cbn [hd]. rewrite HD, (last_nth k s LK S0).
    fold th. unfold polyval. cbn. ring.
  - set (th := linear_rescale t0 t t1).
    set (q := 16 * th ^ 4 - 32 * th ^ 3 + 16 * th ^ 2). set (p1 := - 8 * th ^ 4 + 14 * th ^ 3 - 5 * th ^ 2).
    exists (1 - p1), p1,
      (fun _ i => q * nth i (map Q2R dopri5_c_mid) 0 + ((if (i =? 0)%nat then - 2 * th ^ 4 + 5 * th ^ 3 - 4 * th ^ 2 + th else 0) + (if (i =? s - 1)%nat then 2 * th ^ 4 - 3 * th ^ 3 + th ^ 2 else 0))).
    split; [ring|]. intros y0 y1 ks L H. destruct (ONE ks L H) as (k & -> & LK). cbn [sum_n nth].
    rewrite (sum_n_ext s _ (fun i => q * (nth i (map Q2R dopri5_c_mid) 0 * nth i k 0) + ((if (i =? 0)%nat then - 2 * th ^ 4 + 5 * th ^ 3 - 4 * th ^ 2 + th else 0) * nth i k 0 + (if (i =? s - 1)%nat then 2 * th ^ 4 - 3 * th ^ 3 + th ^ 2 else 0) * nth i k 0))) by (intros; ring).
    rewrite !sum_n_plus, !pick, sum_n_scal, <- (tensordot_sum _ k s LK) by lia. unfold dopri5_interpolation, fourth_order, poly_interp, fourth_order_coeffs, only_k. cbn [hd].
    rewrite HD, (last_nth k s LK S0). fold th. generalize (tensordot (map Q2R dopri5_c_mid) k). intros T. unfold polyval, q, p1. cbn. ring.
  - exists 1, 0, (fun _ i => nth i (tsit5_b (linear_rescale t0 t t1)) 0). split; [ring|].
    intros y0 y1 ks L H. destruct (ONE ks L H) as (k & -> & LK). cbn [sum_n nth]. unfold tsit5_interpolation, only_k. cbn [hd].
    rewrite (tensordot_sum _ k s LK). ring.
  - exists 1, 0, (fun _ i => nth i (row_weights dopri8_coeffs (linear_rescale t0 t t1)) 0). split; [ring|].
    intros y0 y1 ks L H. destruct (ONE ks L H) as (k & -> & LK). cbn [sum_n nth]. unfold dopri8_interpolation, only_k. cbn [hd].
    rewrite (tensordot_sum _ k s LK). ring.
Qed.
Lemma map2_plus (k k' : list R) : length k = length k' ->
  length (map2 Rplus k k') = length k /\ forall i, nth i (map2 Rplus k k') 0 = nth i k 0 + nth i k' 0.
Proof.
  revert k'. induction k as [|x k IH]; intros [|x' k'] L; try discriminate; [split; [reflexivity|intros [|i]; cbn; ring]|].
  injection L as L. destruct (IH k' L) as (A & B). split; [cbn; rewrite A; reflexivity|]. intros [|i]; cbn; [reflexivity|apply B].
Qed.
Lemma pf_C76_mixed_interpolations (s : nat) (coeffs : list (list Q)) :
  (0 < s)%nat -> affine_interpolation 2 s sil3_interpolation /\ affine_interpolation 2 s (kencarp_interpolation coeffs).
Proof.
  intros S0.
  assert (TWO : forall ks : list (list R), length ks = 2%nat -> (forall m, (m < 2)%nat -> length (nth m ks []) = s) ->
                exists k k', ks = [k; k'] /\ length k = s /\ length k' = s).
  { intros [|k [|k' [|? ?]]] L H; try discriminate. exists k, k'. split; [reflexivity|]. split; [apply (H 0%nat); lia|apply (H 1%nat); lia]. }
  assert (HD : forall k : list R, hd 0 k = nth 0 k 0) by (intros [|? ?]; reflexivity).
  split; intros t0 t1 t.
  - set (th := linear_rescale t0 t t1).
    set (wt := fun i => (if (i =? 0)%nat then th ^ 3 - 2 * th ^ 2 + th else 0) + (if (i =? s - 1)%nat then th ^ 3 - th ^ 2 else 0)).
    exists (1 - (3 * th ^ 2 - 2 * th ^ 3)), (3 * th ^ 2 - 2 * th ^ 3), (fun _ i => wt i).
    assert (WT : forall k, sum_n s (fun i => wt i * nth i k 0) = (th ^ 3 - 2 * th ^ 2 + th) * nth 0 k 0 + (th ^ 3 - th ^ 2) * nth (s - 1) k 0).
    { intros k. unfold wt. rewrite (sum_n_ext s _ (fun i => (if (i =? 0)%nat then th ^ 3 - 2 * th ^ 2 + th else 0) * nth i k 0 + (if (i =? s - 1)%nat then th ^ 3 - th ^ 2 else 0) * nth i k 0)) by (intros; ring).
      rewrite sum_n_plus, !pick by lia. reflexivity. }
    split; [ring|]. intros y0 y1 ks L H. destruct (TWO ks L H) as (k & k' & -> & LK & LK'). cbn [sum_n nth]. rewrite !WT.
    unfold sil3_interpolation, third_order, poly_interp, third_order_coeffs, explicit_k, implicit_k. cbn [nth]. rewrite !HD, (last_nth k s LK S0), (last_nth k' s LK' S0).
    fold th. unfold polyval. cbn. ring.
  - exists 1, 0, (fun _ i => nth i (row_weights coeffs (linear_rescale t0 t t1)) 0). split; [ring|].
    intros y0 y1 ks L H. destruct (TWO ks L H) as (k & k' & -> & LK & LK'). cbn [sum_n nth]. unfold kencarp_interpolation, explicit_k, implicit_k. cbn [nth].
    destruct (map2_plus k k') as (ML & MN); [congruence|].
    rewrite (tensordot_sum _ _ s) by congruence. rewrite (sum_n_ext s _ (fun i => nth i (row_weights coeffs (linear_rescale t0 t t1)) 0 * nth i k 0 + nth i (row_weights coeffs (linear_rescale t0 t t1)) 0 * nth i k' 0)) by (intros i _; rewrite MN; ring).
    rewrite sum_n_plus. ring.
Qed.
