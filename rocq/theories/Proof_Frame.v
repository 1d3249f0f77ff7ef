(** Changes of coordinates commute with steps. *)
From Coq Require Import Reals QArith Qreals List Bool Arith Lia Lra FunctionalExtensionality.
From Verif Require Import Model_Result Model_Loop Model_RK Model_Terms Model_Solvers Model_SRK Spec_RK Spec_SRK Spec_Frame
  Proof_RKStep Proof_RKProp Proof_SRK Proof_SRKProps.
Import ListNotations.
Open Scope R_scope.

Section Lin.
  Context {I I' : Type}.
  Variable rows : I' -> list (I * R).
  Lemma lin_plus u w p : linear_map rows (fun x => u x + w x) p = linear_map rows u p + linear_map rows w p.
  Proof. unfold linear_map. induction (rows p) as [|e l IH]; cbn; [ring|rewrite IH; ring]. Qed.
  Lemma lin_scal a u p : linear_map rows (fun x => a * u x) p = a * linear_map rows u p.
  Proof. unfold linear_map. induction (rows p) as [|e l IH]; cbn; [ring|rewrite IH; ring]. Qed.
  Lemma lin_zero p : linear_map rows (fun _ => 0) p = 0.
  Proof. unfold linear_map. induction (rows p) as [|e l IH]; cbn; [ring|rewrite IH; ring]. Qed.
  Lemma lin_ext u w p : (forall x, u x = w x) -> linear_map rows u p = linear_map rows w p.
  Proof. intros H. f_equal. apply functional_extensionality, H. Qed.
  Lemma lin_sum n (k : nat -> I -> R) p :
    linear_map rows (fun x => sum_n n (fun i => k i x)) p = sum_n n (fun i => linear_map rows (k i) p).
  Proof. induction n as [|n IH]; cbn [sum_n]; [apply lin_zero|]. rewrite lin_plus, IH. reflexivity. Qed.
  Lemma lin_minus u w p : linear_map rows (fun x => u x - w x) p = linear_map rows u p - linear_map rows w p.
  Proof.
    rewrite (lin_ext _ (fun x => u x + (-1) * w x)) by (intros; ring). rewrite lin_plus, lin_scal. ring.
  Qed.
End Lin.

Section RKFrame.
  Context {I I' J J' C : Type}.
  Variable fr : frame I I'.
  Notation parts := (list (tableau * term I J C)).
  Notation parts' := (list (tableau * term I' J' C)).

  Definition moved (h : R) (k : nat -> nat -> I -> R) : nat -> nat -> I' -> R :=
    fun m i p => vector fr (k m i) p + (if (m =? 0)%nat then h else 0) * fr_velocity fr p.

  Lemma combine_moved (coef : tableau -> nat -> R) s (ps : parts) (ps' : parts') h k p tab0 trm0 :
    parts_follow fr ps ps' -> nth_error ps 0 = Some (tab0, trm0) ->
    sum_n (length ps') (fun m => match nth_error ps' m with
      | Some (tab, _) => sum_n s (fun j => coef tab j * moved h k m j p) | None => 0 end) =
    vector fr (fun x => sum_n (length ps) (fun m => match nth_error ps m with
      | Some (tab, _) => sum_n s (fun j => coef tab j * k m j x) | None => 0 end)) p
    + sum_n s (coef tab0) * (h * fr_velocity fr p).
  Proof.
    intros (L & F) H0. rewrite L. unfold vector. rewrite lin_sum.
    assert (T : sum_n s (coef tab0) * (h * fr_velocity fr p) =
                sum_n (length ps) (fun m => match nth_error ps m with
                  | Some (tab, _) => sum_n s (coef tab) * ((if (m =? 0)%nat then h else 0) * fr_velocity fr p) | None => 0 end)).
    { rewrite (sum_n_one (length ps) 0).
      - cbv beta. rewrite H0. reflexivity.
      - destruct ps; [discriminate|cbn; lia].
      - intros i _ Hi. destruct (nth_error ps i) as [[tab trm]|]; [|reflexivity].
        destruct (Nat.eqb_spec i 0); [contradiction|]. ring. }
    rewrite T, <- sum_n_plus. apply sum_n_ext. intros m Hm.
    destruct (nth_error ps m) as [[tab trm]|] eqn:E1.
    2:{ apply nth_error_None in E1. lia. }
    destruct (F m tab trm E1) as (trm' & -> & _). rewrite lin_sum.
    unfold moved. rewrite (Rmult_comm (sum_n s (coef tab))), <- sum_n_scal, <- sum_n_plus. apply sum_n_ext. intros j _.
    rewrite lin_scal. unfold vector. ring.
  Qed.

  Lemma point_rest t t' y : at_rest fr -> point fr t y = point fr t' y.
  Proof. intros H. apply functional_extensionality. intros p. unfold point. rewrite H. ring. Qed.

  Lemma pf_C75_stages (s : nat) (ps : list (tableau * term I J C)) (ps' : list (tableau * term I' J' C))
        (t0 t1 : R) (y0 : I -> R) (k : nat -> nat -> I -> R) :
    ps <> [] -> parts_follow fr ps ps' ->
    (forall tab trm, In (tab, trm) ps -> consistent_term trm) -> (forall tab trm, In (tab, trm) ps' -> consistent_term trm) ->
    at_rest fr \/ times_are_row_sums s ps ->
    rk_equations s ps t0 t1 y0 k ->
    exists k', rk_equations s ps' (t0 + fr_shift fr) (t1 + fr_shift fr) (point fr t0 y0) k' /\
      rk_solution s ps' (point fr t0 y0) k' = point fr t1 (rk_solution s ps y0 k) /\
      rk_error s ps' k' = vector fr (rk_error s ps k) /\
      forall m i p, k' m i p = vector fr (k m i) p + (if (m =? 0)%nat then t1 - t0 else 0) * fr_velocity fr p.
  Proof.
    intros NE PF CT CT' TS EQ.
    destruct (nth_error ps 0) as [[tab0 trm0]|] eqn:H0; [|destruct ps; [contradiction|discriminate]].
    set (h := t1 - t0). exists (moved h k).
    assert (SV : forall i, (i < s)%nat -> forall tab trm, In (tab, trm) ps ->
              stage_value s ps' (point fr t0 y0) (moved h k) i = point fr (t0 + coef_c tab i * h) (stage_value s ps y0 k i)).
    { intros i Hi tab trm Hin. apply functional_extensionality. intros p. unfold stage_value.
      rewrite (combine_moved (fun tab j => coef_a tab i j) s ps ps' h k p tab0 trm0 PF H0).
      unfold point, vector. rewrite lin_plus. cbv beta. destruct TS as [AR|TS].
      - rewrite (AR p). ring.
      - destruct (TS _ _ H0) as (RS & _). rewrite (RS tab trm i Hin Hi). change (sum_n s (fun j => coef_a tab0 i j)) with (sum_n s (coef_a tab0 i)). ring. }
    split; [|split; [|split; [|reflexivity]]].
    - intros m tab trm' i H1 Hi p. destruct PF as (L & F).
      destruct (nth_error ps m) as [[tab1 trm]|] eqn:E1.
      2:{ apply nth_error_None in E1. assert (m < length ps')%nat by (apply nth_error_Some; rewrite H1; discriminate). lia. }
      destruct (F m tab1 trm E1) as (trm1 & E2 & SC & IF). rewrite H1 in E2. injection E2 as <- <-.
      pose proof (nth_error_In _ _ E1) as Hin. pose proof (nth_error_In _ _ H1) as Hin'.
      rewrite <- (CT' _ _ Hin'), SC, (SV i Hi _ _ Hin).
      replace (t0 + fr_shift fr + coef_c tab i * (t1 + fr_shift fr - (t0 + fr_shift fr))) with ((t0 + coef_c tab i * h) + fr_shift fr)
        by (unfold h; ring).
      rewrite IF. unfold moved. f_equal.
      apply lin_ext. intros x. rewrite (EQ m tab trm i E1 Hi x), (CT _ _ Hin). reflexivity.
    - apply functional_extensionality. intros p. unfold rk_solution, combination.
      rewrite (combine_moved coef_b s ps ps' h k p tab0 trm0 PF H0). unfold point, vector. rewrite lin_plus.
      destruct TS as [AR|TS]; [rewrite (AR p); ring|]. destruct (TS _ _ H0) as (_ & -> & _). unfold h. ring.
    - apply functional_extensionality. intros p. unfold rk_error, combination.
      rewrite (combine_moved coef_e s ps ps' h k p tab0 trm0 PF H0). unfold vector.
      destruct TS as [AR|TS]; [rewrite (AR p); ring|]. destruct (TS _ _ H0) as (_ & _ & ->). ring.
  Qed.

  Lemma pf_C75_explicit_step (sv : solver I J C) (sv' : solver I' J' C) (s : nat) (t0 t1 : R) (y0 : I -> R)
        (others others' : bool) (state : solver_state J) (state' : solver_state J') (made_jump made_jump' : bool) :
    valid_parts s (sv_parts sv) -> explicit_parts (sv_parts sv) -> fsal_at_ends (sv_parts sv) ->
    valid_parts s (sv_parts sv') -> explicit_parts (sv_parts sv') -> fsal_at_ends (sv_parts sv') ->
    parts_follow fr (sv_parts sv) (sv_parts sv') ->
    at_rest fr \/ times_are_row_sums s (sv_parts sv) ->
    coherent (sv_parts sv) t0 y0 made_jump state ->
    coherent (sv_parts sv') (t0 + fr_shift fr) (point fr t0 y0) made_jump' state' ->
    let out := rk_step sv t0 t1 y0 others state made_jump in
    let out' := rk_step sv' (t0 + fr_shift fr) (t1 + fr_shift fr) (point fr t0 y0) others' state' made_jump' in
    ro_y out' = point fr t1 (ro_y out) /\ ro_error out' = option_map (vector fr) (ro_error out).
  Proof.
    intros V X FE V' X' FE' PF TS CO CO' out out'.
    destruct (pf_C28_step sv s t0 t1 y0 others state made_jump V X FE CO) as ((k & EQ) & SOL).
    destruct (SOL k EQ) as (SY & (e & SE & SEx) & _). fold out in SY, SE.
    destruct (pf_C75_stages s (sv_parts sv) (sv_parts sv') t0 t1 y0 k) as (k' & EQ' & S1 & S2 & _); try assumption.
    { apply V. }
    { intros tab trm Hin. apply (proj1 (proj2 V)) in Hin. apply Hin. }
    { intros tab trm Hin. apply (proj1 (proj2 V')) in Hin. apply Hin. }
    destruct (pf_C28_step sv' s (t0 + fr_shift fr) (t1 + fr_shift fr) (point fr t0 y0) others' state' made_jump' V' X' FE' CO') as (_ & SOL').
    destruct (SOL' k' EQ') as (SY' & (e' & SE' & SEx') & _). fold out' in SY', SE'.
    split.
    - apply functional_extensionality. intros p. rewrite SY', S1. f_equal.
      f_equal. apply functional_extensionality. intros x. rewrite SY. reflexivity.
    - rewrite SE, SE'. cbn [option_map]. f_equal. apply functional_extensionality. intros p. rewrite SEx', S2.
      f_equal. f_equal. apply functional_extensionality. intros x. rewrite SEx. reflexivity.
  Qed.
End RKFrame.

Section SRKFrame.
  Context {I I' J J' J2 J2' K : Type}.
  Variable fr : frame I I'.

  Lemma lin_vector n (c : nat -> R) (k : nat -> I -> R) p :
    lin n c (fun i => vector fr (k i)) p = vector fr (lin n c k) p.
  Proof. unfold lin, vector. rewrite lin_sum. apply sum_n_ext. intros i _. rewrite lin_scal. reflexivity. Qed.
  Lemma lin_moved n (c : nat -> R) (k : nat -> I -> R) h p :
    lin n c (fun i q => vector fr (k i) q + h * fr_velocity fr q) p = vector fr (lin n c k) p + sum_n n c * (h * fr_velocity fr p).
  Proof.
    rewrite <- lin_vector. unfold lin. rewrite (Rmult_comm (sum_n n c)), <- sum_n_scal, <- sum_n_plus. apply sum_n_ext. intros i _. ring.
  Qed.
  Lemma lin_below n (c : nat -> R) j (k k' : nat -> I' -> R) p :
    (forall i, (j <= i)%nat -> c i = 0) -> (forall i, (i < j)%nat -> (i < n)%nat -> k i = k' i) -> lin n c k p = lin n c k' p.
  Proof.
    intros H0 H. unfold lin. apply sum_n_ext. intros i Hi. destruct (Nat.lt_ge_cases i j) as [L|L].
    - rewrite (H i L Hi). reflexivity.
    - rewrite (H0 i L). ring.
  Qed.
  Lemma lin_all n (c : nat -> R) (k k' : nat -> I' -> R) p :
    (forall i, (i < n)%nat -> k i = k' i) -> lin n c k p = lin n c k' p.
  Proof. intros H. unfold lin. apply sum_n_ext. intros i Hi. rewrite (H i Hi). reflexivity. Qed.
  Lemma lower_zero a j i : (j <= i)%nat -> lower_entry a j i = 0.
  Proof. intros H. unfold lower_entry. destruct (Nat.ltb_spec i j); [lia|reflexivity]. Qed.
  Lemma noise_lower tab o : spost_init_ok tab = true -> is_additive_noise tab = false ->
    In o [Some (st_coeffs_w tab); st_coeffs_hh tab; st_coeffs_kk tab] -> forall j i, (j <= i)%nat -> noise_a o j i = 0.
  Proof.
    intros OK NA Hin j i Hji. unfold spost_init_ok in OK. cbv zeta in OK.
    repeat (apply andb_prop in OK; destruct OK as [OK ?]).
    assert (G : forall c, is_additive c = false -> noise_a (Some c) j i = 0).
    { intros [a b|a b e] Hc; [discriminate|]. apply lower_zero, Hji. }
    rewrite NA in *. destruct Hin as [<-|[<-|[<-|[]]]].
    - apply G, NA.
    - destruct (st_coeffs_hh tab) as [c|]; [|reflexivity]. apply G.
      match goal with H : opt_all _ (Some c) = true |- _ => cbn in H; apply andb_prop in H; destruct H as [H _]; apply eqb_prop in H; exact H end.
    - destruct (st_coeffs_kk tab) as [c|]; [|reflexivity]. apply G.
      match goal with H : opt_all _ (Some c) = true |- _ => cbn in H; apply andb_prop in H; destruct H as [_ H]; apply andb_prop in H; destruct H as [H _]; apply eqb_prop in H; exact H end.
  Qed.

  Lemma pf_C75_srk_general (tab : stableau) (drift : term I J R) (drift' : term I' J' R)
        (diffusion : term I J2 (K -> R)) (diffusion' : term I' J2' (K -> R)) (levy levy' : R -> R -> bm_inc K)
        (t0 t1 : R) (y0 : I -> R) (jump jump' : bool) :
    spost_init_ok tab = true -> ignored_unused tab -> is_additive_noise tab = false ->
    at_rest fr \/ sde_row_sums tab ->
    (forall h, increments_follow fr drift drift' h h) -> (forall w, increments_follow fr diffusion diffusion' w 0) ->
    levy' (t0 + fr_shift fr) (t1 + fr_shift fr) = levy t0 t1 ->
    let out := me_step (srk tab drift diffusion levy) t0 t1 y0 tt jump in
    let out' := me_step (srk tab drift' diffusion' levy') (t0 + fr_shift fr) (t1 + fr_shift fr) (point fr t0 y0) tt jump' in
    so_y out' = point fr t1 (so_y out) /\ so_error out' = option_map (vector fr) (so_error out).
  Proof.
    intros OK IU NA RS DF NF LV out out'.
    destruct (pf_C54_equations I J J2 K tab drift diffusion levy t0 t1 y0 jump OK IU NA) as (f & w & h & k & EQ & SY & SE).
    destruct (pf_C54_equations I' J' J2' K tab drift' diffusion' levy' (t0 + fr_shift fr) (t1 + fr_shift fr) (point fr t0 y0) jump' OK IU NA)
      as (f2 & w2 & h2 & k2 & EQ2 & SY2 & SE2).
    fold out in SY, SE. fold out' in SY2, SE2. rewrite LV in EQ2.
    set (n := length (st_b_sol tab)) in *. set (H := t1 - t0).
    set (fm := fun i q => vector fr (f i) q + H * fr_velocity fr q).
    assert (ALL : forall j, (j < n)%nat -> f2 j = fm j /\ w2 j = vector fr (w j) /\ h2 j = vector fr (h j) /\ k2 j = vector fr (k j)).
    { intros j. induction j as [j IH] using lt_wf_ind. intros Hj.
      destruct (EQ j Hj) as (E1 & E2 & E3 & E4). destruct (EQ2 j Hj) as (F1 & F2 & F3 & F4). cbv zeta in *.
      assert (ST : stage_state tab (point fr t0 y0) f2 w2 h2 k2 j = point fr (t0 + column_c tab j * H) (stage_state tab y0 f w h k j)).
      { apply functional_extensionality. intros p. unfold stage_state. fold n.
        rewrite (lin_below n (lower_entry (st_a tab) j) j f2 fm p) by (intros; first [apply lower_zero; assumption|apply IH; assumption]).
        rewrite (lin_below n (noise_a (Some (st_coeffs_w tab)) j) j w2 (fun i => vector fr (w i)) p)
          by (intros; first [apply (noise_lower tab); [exact OK|exact NA|cbn; auto|assumption]|apply IH; assumption]).
        rewrite (lin_below n (noise_a (st_coeffs_hh tab) j) j h2 (fun i => vector fr (h i)) p)
          by (intros; first [apply (noise_lower tab); [exact OK|exact NA|cbn; auto|assumption]|apply IH; assumption]).
        rewrite (lin_below n (noise_a (st_coeffs_kk tab) j) j k2 (fun i => vector fr (k i)) p)
          by (intros; first [apply (noise_lower tab); [exact OK|exact NA|cbn; auto|assumption]|apply IH; assumption]).
        unfold fm. rewrite lin_moved, !lin_vector. unfold point, vector. rewrite !lin_plus.
        destruct RS as [AR|(RS & _)]; [rewrite (AR p); ring|]. fold n in RS. rewrite (RS j Hj). ring. }
      rewrite ST in F1, F2, F3, F4.
      replace (t0 + fr_shift fr + column_c tab j * (t1 + fr_shift fr - (t0 + fr_shift fr))) with ((t0 + column_c tab j * H) + fr_shift fr)
        in F1, F2, F3, F4 by (unfold H; ring).
      replace (t1 + fr_shift fr - (t0 + fr_shift fr)) with H in F1 by (unfold H; ring).
      fold H in E1, E2, E3, E4.
      split; [|split; [|split]]; apply functional_extensionality; intros p; unfold fm.
      - rewrite F1, E1. apply DF.
      - rewrite F2, E2, NF. ring.
      - rewrite F3, E3, NF. ring.
      - rewrite F4, E4, NF. ring. }
    assert (A1 : forall c p, lin n c f2 p = vector fr (lin n c f) p + sum_n n c * (H * fr_velocity fr p)).
    { intros c p. rewrite (lin_all n c f2 fm p) by (intros; apply ALL; assumption). apply lin_moved. }
    assert (A2 : forall c p, lin n c w2 p = vector fr (lin n c w) p).
    { intros c p. rewrite (lin_all n c w2 (fun i => vector fr (w i)) p) by (intros; apply ALL; assumption). apply lin_vector. }
    assert (A3 : forall c p, lin n c h2 p = vector fr (lin n c h) p).
    { intros c p. rewrite (lin_all n c h2 (fun i => vector fr (h i)) p) by (intros; apply ALL; assumption). apply lin_vector. }
    assert (A4 : forall c p, lin n c k2 p = vector fr (lin n c k) p).
    { intros c p. rewrite (lin_all n c k2 (fun i => vector fr (k i)) p) by (intros; apply ALL; assumption). apply lin_vector. }
    split.
    - apply functional_extensionality. intros p. rewrite SY2, A1, A2, A3, A4.
      unfold point at 2. rewrite (lin_ext _ _ _ p SY), !lin_plus. unfold point, vector.
      destruct RS as [AR|(_ & RS & _)]; [rewrite (AR p); ring|]. fold n in RS. rewrite RS. unfold H. ring.
    - rewrite SE2, SE. destruct (st_b_error tab) as [e|] eqn:EB; [|reflexivity]. cbn [option_map]. f_equal.
      apply functional_extensionality. intros p. rewrite A1, A2, A3, A4. unfold vector. rewrite !lin_plus.
      destruct RS as [AR|(_ & _ & RS)]; [rewrite (AR p); ring|]. fold n in RS. rewrite (RS e EB). ring.
  Qed.

  Lemma pf_C75_srk_additive (tab : stableau) (drift : term I J R) (drift' : term I' J' R)
        (diffusion : term I J2 (K -> R)) (diffusion' : term I' J2' (K -> R)) (levy levy' : R -> R -> bm_inc K)
        (t0 t1 : R) (y0 : I -> R) (jump jump' : bool) :
    spost_init_ok tab = true -> ignored_unused tab -> is_additive_noise tab = true ->
    at_rest fr \/ sde_row_sums tab ->
    (forall h, increments_follow fr drift drift' h h) -> (forall w, increments_follow fr diffusion diffusion' w 0) ->
    consistent_term diffusion -> consistent_term diffusion' -> linear_term diffusion -> linear_term diffusion' ->
    (forall t y z, t_vf diffusion' t y = t_vf diffusion' t z) ->
    levy' (t0 + fr_shift fr) (t1 + fr_shift fr) = levy t0 t1 ->
    let out := me_step (srk tab drift diffusion levy) t0 t1 y0 tt jump in
    let out' := me_step (srk tab drift' diffusion' levy') (t0 + fr_shift fr) (t1 + fr_shift fr) (point fr t0 y0) tt jump' in
    so_y out' = point fr t1 (so_y out) /\ so_error out' = option_map (vector fr) (so_error out).
  Proof.
    intros OK IU NA RS DF NF CD CD' LD LD' AD LV out out'.
    destruct (pf_C54_additive_equations I J J2 K tab drift diffusion levy t0 t1 y0 jump OK IU NA) as (f & EQ & SY & SE).
    destruct (pf_C54_additive_equations I' J' J2' K tab drift' diffusion' levy' (t0 + fr_shift fr) (t1 + fr_shift fr) (point fr t0 y0) jump' OK IU NA)
      as (f2 & EQ2 & SY2 & SE2).
    fold out in SY, SE. fold out' in SY2, SE2. rewrite LV in EQ2, SY2.
    set (n := length (st_b_sol tab)) in *. set (H := t1 - t0).
    assert (PR : forall t u y, t_prod diffusion' (t_vf diffusion' (t + fr_shift fr) (point fr t0 y0)) u = vector fr (t_prod diffusion (t_vf diffusion t y) u)).
    { intros t u y. apply functional_extensionality. intros p. rewrite (AD _ (point fr t0 y0) (point fr t y)).
      rewrite <- CD', NF. rewrite Rmult_0_l, Rplus_0_r. apply lin_ext. intros x. apply CD. }
    rewrite !(PR t0 _ y0) in EQ2, SY2.
    set (W := t_prod diffusion (t_vf diffusion t0 y0) (bm_W (levy t0 t1))) in *.
    set (HH := t_prod diffusion (t_vf diffusion t0 y0) (bm_H (levy t0 t1))) in *.
    set (KK := t_prod diffusion (t_vf diffusion t0 y0) (bm_K (levy t0 t1))) in *.
    set (fm := fun i q => vector fr (f i) q + H * fr_velocity fr q).
    assert (ALL : forall j, (j < n)%nat -> f2 j = fm j).
    { intros j. induction j as [j IH] using lt_wf_ind. intros Hj.
      pose proof (EQ j Hj) as E1. pose proof (EQ2 j Hj) as F1.
      match type of F1 with _ = t_vf_prod drift' _ ?z _ => assert (ST : z =
        point fr (t0 + column_c tab j * H) (fun x => y0 x + lin n (lower_entry (st_a tab) j) f x + noise_a (Some (st_coeffs_w tab)) j 0 * W x
                        + noise_a (st_coeffs_hh tab) j 0 * HH x + noise_a (st_coeffs_kk tab) j 0 * KK x)) end.
      { apply functional_extensionality. intros p. fold n.
        rewrite (lin_below n (lower_entry (st_a tab) j) j f2 fm p) by (intros; first [apply lower_zero; assumption|apply IH; assumption]).
        unfold fm. rewrite lin_moved. unfold point, vector. rewrite !lin_plus, !lin_scal.
        destruct RS as [AR|(RS & _)]; [rewrite (AR p); ring|]. fold n in RS. rewrite (RS j Hj). ring. }
      rewrite ST in F1. fold n H in E1.
      replace (t0 + fr_shift fr + column_c tab j * (t1 + fr_shift fr - (t0 + fr_shift fr))) with ((t0 + column_c tab j * H) + fr_shift fr)
        in F1 by (unfold H; ring).
      replace (t1 + fr_shift fr - (t0 + fr_shift fr)) with H in F1 by (unfold H; ring).
      apply functional_extensionality; intros p; unfold fm. rewrite F1, E1. apply DF. }
    assert (A1 : forall c p, lin n c f2 p = vector fr (lin n c f) p + sum_n n c * (H * fr_velocity fr p)).
    { intros c p. rewrite (lin_all n c f2 fm p) by (intros; apply ALL; assumption). apply lin_moved. }
    split.
    - apply functional_extensionality. intros p. rewrite SY2, A1.
      assert (TV : forall u, t_prod diffusion' (fun j => 1 / 2 * (t_vf diffusion' (t1 + fr_shift fr) (point fr t0 y0) j - t_vf diffusion' (t0 + fr_shift fr) (point fr t0 y0) j)) u p
                   = vector fr (t_prod diffusion (fun j => 1 / 2 * (t_vf diffusion t1 y0 j - t_vf diffusion t0 y0 j)) u) p).
      { intros u.
        assert (S1 : forall (X Y : J2' -> R), t_prod diffusion' (fun j => 1 / 2 * (X j - Y j)) u p = 1/2 * t_prod diffusion' X u p + (- (1/2)) * t_prod diffusion' Y u p).
        { intros X Y. rewrite <- LD'. f_equal. apply functional_extensionality. intros j. ring. }
        rewrite S1, !(PR _ _ y0). unfold vector. rewrite <- !lin_scal, <- lin_plus. apply lin_ext. intros x. rewrite <- LD.
        f_equal. apply functional_extensionality. intros j. ring. }
      rewrite TV. unfold point at 2. rewrite (lin_ext _ _ _ p SY), !lin_plus, !lin_scal. unfold point, vector.
      destruct RS as [AR|(_ & RS & _)]; [rewrite (AR p); ring|]. fold n in RS. rewrite RS. unfold H. ring.
    - rewrite SE2, SE. destruct (st_b_error tab) as [e|] eqn:EB; [|reflexivity]. cbn [option_map]. f_equal.
      apply functional_extensionality. intros p. rewrite A1.
      destruct RS as [AR|(_ & _ & RS)]; [rewrite (AR p); ring|]. fold n in RS. rewrite (RS e EB). ring.
  Qed.
End SRKFrame.

Section OtherFrames.
  Context {I I' : Type}.
  Variable fr : frame I I'.

  Lemma pf_C75_euler (J J' C : Type) (m : term I J C) (m' : term I' J' C) (t0 t1 : R) (y0 : I -> R) (jump jump' : bool) :
    drift_follows fr m m' ->
    so_y (me_step (euler m') (t0 + fr_shift fr) (t1 + fr_shift fr) (point fr t0 y0) tt jump')
    = point fr t1 (so_y (me_step (euler m) t0 t1 y0 tt jump)).
  Proof.
    intros (SC & IF). apply functional_extensionality. intros p. cbn. unfold vadd. rewrite SC, IF.
    unfold point, vector. rewrite lin_plus. ring.
  Qed.

  Lemma pf_C75_euler_heun (J J' C L L' D : Type) (drift : term I J C) (drift' : term I' J' C) (diffusion : term I L D) (diffusion' : term I' L' D)
        (t0 t1 : R) (y0 : I -> R) (jump jump' : bool) :
    drift_follows fr drift drift' -> noise_follows fr diffusion diffusion' ->
    so_y (me_step (euler_heun drift' diffusion') (t0 + fr_shift fr) (t1 + fr_shift fr) (point fr t0 y0) tt jump')
    = point fr t1 (so_y (me_step (euler_heun drift diffusion) t0 t1 y0 tt jump)).
  Proof.
    intros (SC & IF) (SN & NF). apply functional_extensionality. intros p. cbn [me_step euler_heun so_y]. rewrite SC, SN. unfold vadd, vscale.
    assert (G0 : forall y, (fun i => point fr t0 y i + t_vf_prod diffusion' (t0 + fr_shift fr) (point fr t0 y) (t_contr diffusion t0 t1) i)
                 = point fr t0 (fun i => y i + t_vf_prod diffusion t0 y (t_contr diffusion t0 t1) i)).
    { intros y. apply functional_extensionality. intros q. rewrite NF. unfold point, vector. rewrite lin_plus. ring. }
    rewrite (G0 y0), IF, !NF. unfold point, vector. rewrite !lin_plus, lin_scal, lin_plus. ring.
  Qed.

  Lemma pf_C75_leapfrog (J J' C : Type) (m : term I J C) (m' : term I' J' C) (tm1 t0 t1 : R) (ym1 y0 : I -> R) (jump jump' : bool) :
    drift_follows fr m m' ->
    let out := me_step (leapfrog_midpoint m) t0 t1 y0 (tm1, ym1) jump in
    let out' := me_step (leapfrog_midpoint m') (t0 + fr_shift fr) (t1 + fr_shift fr) (point fr t0 y0)
                        (tm1 + fr_shift fr, point fr tm1 ym1) jump' in
    so_y out' = point fr t1 (so_y out) /\
    so_state out' = (fst (so_state out) + fr_shift fr, point fr (fst (so_state out)) (snd (so_state out))).
  Proof.
    intros (SC & IF). cbn. split; [|reflexivity]. apply functional_extensionality. intros p. unfold vadd. rewrite SC, IF.
    unfold point, vector. rewrite lin_plus. ring.
  Qed.

  Lemma pf_C75_reversible_heun (J J' C : Type) (m : term I J C) (m' : term I' J' C) (t0 t1 : R) (yhat y0 : I -> R) (jump : bool) :
    drift_follows fr m m' -> consistent_term m -> consistent_term m' -> linear_term m -> linear_term m' ->
    let state s yh := (yh, t_vf m s yh) in
    let state' s yh := (yh, t_vf m' s yh) in
    let out := me_step (reversible_heun m) t0 t1 y0 (state t0 yhat) jump in
    let out' := me_step (reversible_heun m') (t0 + fr_shift fr) (t1 + fr_shift fr) (point fr t0 y0)
                        (state' (t0 + fr_shift fr) (point fr t0 yhat)) jump in
    so_y out' = point fr t1 (so_y out) /\ so_error out' = option_map (vector fr) (so_error out) /\
    exists yhat1, so_state out = state t1 yhat1 /\ so_state out' = state' (t1 + fr_shift fr) (point fr t1 yhat1).
  Proof.
    intros (SC & IF) CT CT' LT LT' state state'.
    set (y := if jump then y0 else yhat).
    set (yhat1 := vadd (vsub (vscale 2 y0) yhat) (t_prod m (t_vf m t0 y) (t_contr m t0 t1))).
    assert (PR : forall t z, t_prod m' (t_vf m' (t + fr_shift fr) (point fr t z)) (t_contr m t0 t1)
                 = fun p => vector fr (t_prod m (t_vf m t z) (t_contr m t0 t1)) p + (t1 - t0) * fr_velocity fr p).
    { intros t z. apply functional_extensionality. intros p. rewrite <- CT', IF. f_equal. apply lin_ext. intros x. apply CT. }
    assert (Y1 : vadd (vsub (vscale 2 (point fr t0 y0)) (point fr t0 yhat))
                   (t_prod m' (t_vf m' (t0 + fr_shift fr) (point fr t0 y)) (t_contr m t0 t1)) = point fr t1 yhat1).
    { rewrite PR. apply functional_extensionality. intros p. unfold yhat1, vadd, vsub, vscale, point, vector.
      rewrite lin_plus, lin_minus, lin_scal. ring. }
    assert (EV : (if jump then t_vf m t0 y0 else t_vf m t0 yhat) = t_vf m t0 y) by (unfold y; destruct jump; reflexivity).
    assert (EV' : (if jump then t_vf m' (t0 + fr_shift fr) (point fr t0 y0) else t_vf m' (t0 + fr_shift fr) (point fr t0 yhat))
                  = t_vf m' (t0 + fr_shift fr) (point fr t0 y)) by (unfold y; destruct jump; reflexivity).
    cbn [me_step reversible_heun state state' so_y so_error so_state]. cbv zeta. rewrite EV, EV', SC, Y1. fold yhat1.
    assert (LA : forall a b p, t_prod m' (fun j => a * t_vf m' (t0 + fr_shift fr) (point fr t0 y) j + b * t_vf m' (t1 + fr_shift fr) (point fr t1 yhat1) j) (t_contr m t0 t1) p
             = vector fr (t_prod m (fun j => a * t_vf m t0 y j + b * t_vf m t1 yhat1 j) (t_contr m t0 t1)) p + (a + b) * ((t1 - t0) * fr_velocity fr p)).
    { intros a b p. rewrite LT', !PR.
      unfold vector.
      rewrite (lin_ext _ (t_prod m (fun j => a * t_vf m t0 y j + b * t_vf m t1 yhat1 j) (t_contr m t0 t1))
                 (fun x => a * t_prod m (t_vf m t0 y) (t_contr m t0 t1) x + b * t_prod m (t_vf m t1 yhat1) (t_contr m t0 t1) x)) by (intros; apply LT).
      rewrite lin_plus, !lin_scal. ring. }
    split; [|split].
    - apply functional_extensionality. intros p. unfold vadd, vscale.
      replace (fun i => t_vf m' (t0 + fr_shift fr) (point fr t0 y) i + t_vf m' (t1 + fr_shift fr) (point fr t1 yhat1) i)
        with (fun i => 1 * t_vf m' (t0 + fr_shift fr) (point fr t0 y) i + 1 * t_vf m' (t1 + fr_shift fr) (point fr t1 yhat1) i)
        by (apply functional_extensionality; intros; ring).
      replace (fun i => t_vf m t0 y i + t_vf m t1 yhat1 i)
        with (fun i => 1 * t_vf m t0 y i + 1 * t_vf m t1 yhat1 i)
        by (apply functional_extensionality; intros; ring).
      rewrite LA. unfold point, vector. rewrite (lin_plus _ y0), lin_scal. field.
    - cbn [option_map]. f_equal. apply functional_extensionality. intros p. unfold vscale, vsub, vector.
      rewrite lin_scal.
      replace (fun i => t_vf m' (t1 + fr_shift fr) (point fr t1 yhat1) i - t_vf m' (t0 + fr_shift fr) (point fr t0 y) i)
        with (fun i => (-1) * t_vf m' (t0 + fr_shift fr) (point fr t0 y) i + 1 * t_vf m' (t1 + fr_shift fr) (point fr t1 yhat1) i)
        by (apply functional_extensionality; intros; ring).
      replace (fun i => t_vf m t1 yhat1 i - t_vf m t0 y i)
        with (fun i => (-1) * t_vf m t0 y i + 1 * t_vf m t1 yhat1 i)
        by (apply functional_extensionality; intros; ring).
      rewrite LA. unfold vector. ring.
    - exists yhat1. split; [reflexivity|]. unfold state'. rewrite SC, Y1. reflexivity.
  Qed.

  Lemma lin_derivable (rows : I' -> list (I * R)) (c : R -> I -> R) (v : I -> R) p :
    (forall x, derivable_pt_lim (fun s => c s x) 0 (v x)) ->
    derivable_pt_lim (fun s => linear_map rows (c s) p) 0 (linear_map rows v p).
  Proof.
    intros H. unfold linear_map. induction (rows p) as [|e l IH]; cbn [fold_right].
    - apply derivable_pt_lim_const.
    - apply (derivable_pt_lim_plus (fun s => snd e * c s (fst e)) (fun s => fold_right (fun e r => snd e * c s (fst e) + r) 0 l)); [|exact IH].
      apply (derivable_pt_lim_scal (fun s => c s (fst e)) (snd e)). apply H.
  Qed.
  (** A directional derivative in the new coordinates. *)
  Lemma directional_follows (g : (I -> R) -> I -> R) (g' : (I' -> R) -> I' -> R) t y v d d' :
    (forall z p, g' (point fr t z) p = vector fr (g z) p) ->
    directional g y v d -> directional g' (point fr t y) (vector fr v) d' -> d' = vector fr d.
  Proof.
    intros HG HD HD'. apply functional_extensionality. intros p.
    set (c := fun s : R => fun x => y x + s * v x).
    assert (C0 : c 0 = y) by (apply functional_extensionality; intros x; unfold c; ring).
    assert (CV : forall x, derivable_pt_lim (fun s => c s x) 0 (v x)).
    { intros x eps He. exists (mkposreal 1 Rlt_0_1). intros h Hh _. unfold c.
      replace ((y x + (0 + h) * v x - (y x + 0 * v x)) / h - v x) with 0 by (field; exact Hh). rewrite Rabs_R0. exact He. }
    assert (D1 : derivable_pt_lim (fun s => g' (point fr t (c s)) p) 0 (d' p)).
    { apply (HD' (fun s => point fr t (c s))); [rewrite C0; reflexivity|]. intros q. unfold point.
      pose proof (lin_derivable (fr_matrix fr) c v q CV) as LD.
      replace (vector fr v q) with (linear_map (fr_matrix fr) v q + 0 + 0) by (unfold vector; ring).
      apply (derivable_pt_lim_plus (fun s => linear_map (fr_matrix fr) (c s) q + fr_origin fr q) (fun _ => t * fr_velocity fr q));
        [|apply derivable_pt_lim_const].
      apply (derivable_pt_lim_plus (fun s => linear_map (fr_matrix fr) (c s) q) (fun _ => fr_origin fr q)); [exact LD|apply derivable_pt_lim_const]. }
    assert (D2 : derivable_pt_lim (fun s => linear_map (fr_matrix fr) (g (c s)) p) 0 (linear_map (fr_matrix fr) d p)).
    { apply (lin_derivable (fr_matrix fr) (fun s => g (c s)) d p). intros x. apply (HD c C0 CV). }
    apply (uniqueness_limite (fun s => g' (point fr t (c s)) p) 0); [exact D1|].
    replace (fun s => g' (point fr t (c s)) p) with (fun s => linear_map (fr_matrix fr) (g (c s)) p); [exact D2|].
    apply functional_extensionality. intros s. rewrite HG. reflexivity.
  Qed.

  Lemma pf_C75_stratonovich_milstein (J J' C L L' D : Type) (drift : term I J C) (drift' : term I' J' C)
        (diffusion : term I L D) (diffusion' : term I' L' D)
        (jvp : ((I -> R) -> I -> R) -> (I -> R) -> (I -> R) -> I -> R) (jvp' : ((I' -> R) -> I' -> R) -> (I' -> R) -> (I' -> R) -> I' -> R)
        (t0 t1 : R) (y0 : I -> R) (jump jump' : bool) :
    correct_jvp jvp -> correct_jvp jvp' ->
    (forall w y v, exists d, directional (fun z => t_vf_prod diffusion t0 z w) y v d) ->
    (forall w y v, exists d, directional (fun z => t_vf_prod diffusion' (t0 + fr_shift fr) z w) y v d) ->
    drift_follows fr drift drift' -> noise_follows fr diffusion diffusion' ->
    so_y (me_step (stratonovich_milstein jvp' drift' diffusion') (t0 + fr_shift fr) (t1 + fr_shift fr) (point fr t0 y0) tt jump')
    = point fr t1 (so_y (me_step (stratonovich_milstein jvp drift diffusion) t0 t1 y0 tt jump)).
  Proof.
    intros HJ HJ' HD HD' (SC & IF) (SN & NF). apply functional_extensionality. intros p.
    cbn [me_step stratonovich_milstein so_y]. cbv zeta. pose proof (SN t0 t1) as SN1. pose proof (SC t0 t1) as SC1. rewrite SC1, SN1. set (w := t_contr diffusion t0 t1).
    assert (GV : forall y, t_vf_prod diffusion' (t0 + fr_shift fr) (point fr t0 y) w = vector fr (t_vf_prod diffusion t0 y w)).
    { intros y. apply functional_extensionality. intros q. rewrite NF. ring. }
    rewrite GV. set (v := t_vf_prod diffusion t0 y0 w).
    destruct (HD w y0 v) as (d & Hd). destruct (HD' w (point fr t0 y0) (vector fr v)) as (d' & Hd').
    rewrite (HJ _ _ _ _ Hd), (HJ' _ _ _ _ Hd').
    rewrite (directional_follows (fun z => t_vf_prod diffusion t0 z w) (fun z => t_vf_prod diffusion' (t0 + fr_shift fr) z w) t0 y0 v d d');
      [|intros z q; rewrite GV; reflexivity|exact Hd|exact Hd'].
    unfold vadd, vscale. rewrite IF. unfold point, vector. rewrite !lin_plus, lin_scal. ring.
  Qed.

  Lemma pf_C75_ito_milstein (K : Type) (eqb : K -> K -> bool) (ks : list K)
        (f : R -> (I -> R) -> I -> R) (f' : R -> (I' -> R) -> I' -> R)
        (g : R -> (I -> R) -> I * K -> R) (g' : R -> (I' -> R) -> I' * K -> R)
        (Dg : R -> (I -> R) -> (I -> R) -> I * K -> R) (Dg' : R -> (I' -> R) -> (I' -> R) -> I' * K -> R)
        (path path' : R -> R -> K -> R)
        (jvp : ((I -> R) -> I * K -> R) -> (I -> R) -> (I -> R) -> I * K -> R)
        (jvp' : ((I' -> R) -> I' * K -> R) -> (I' -> R) -> (I' -> R) -> I' * K -> R)
        (t0 t1 : R) (y0 : I -> R) (jump jump' : bool) :
    (forall t y v, directional (g t) y v (Dg t y v)) -> (forall t y v, directional (g' t) y v (Dg' t y v)) ->
    correct_jvp jvp -> correct_jvp jvp' ->
    (forall t y p, f' (t + fr_shift fr) (point fr t y) p = vector fr (f t y) p + fr_velocity fr p) ->
    (forall t y p k, g' (t + fr_shift fr) (point fr t y) (p, k) = vector fr (fun x => g t y (x, k)) p) ->
    path' (t0 + fr_shift fr) (t1 + fr_shift fr) = path t0 t1 ->
    so_y (me_step (ito_milstein eqb ks jvp' (ode_term f') (control_term ks g' path')) (t0 + fr_shift fr) (t1 + fr_shift fr) (point fr t0 y0) tt jump')
    = point fr t1 (so_y (me_step (ito_milstein eqb ks jvp (ode_term f) (control_term ks g path)) t0 t1 y0 tt jump)).
  Proof.
    intros HD HD' HJ HJ' HF HG HP. apply functional_extensionality. intros p.
    cbn [me_step ito_milstein so_y ode_term control_term with_default_vf_prod t_vf t_prod t_contr t_vf_prod]. rewrite HP.
    replace (t1 + fr_shift fr - (t0 + fr_shift fr)) with (t1 - t0) by ring.
    assert (CG : forall y w, contract ks (g' (t0 + fr_shift fr) (point fr t0 y)) w = vector fr (contract ks (g t0 y) w)).
    { intros y w. apply functional_extensionality. intros q. unfold contract.
      induction ks as [|k l IH]; cbn [fold_right]; [unfold vector; rewrite lin_zero; reflexivity|].
      rewrite IH, HG. unfold vector. rewrite lin_plus. f_equal. rewrite Rmult_comm, <- lin_scal. apply lin_ext. intros x. ring. }
    assert (CJ : forall v w, contract ks (jvp' (g' (t0 + fr_shift fr)) (point fr t0 y0) (vector fr v)) w
                 = vector fr (contract ks (jvp (g t0) y0 v) w)).
    { intros v w. rewrite (HJ _ _ _ _ (HD t0 y0 v)), (HJ' _ _ _ _ (HD' (t0 + fr_shift fr) (point fr t0 y0) (vector fr v))).
      assert (DD : forall k, (fun q => Dg' (t0 + fr_shift fr) (point fr t0 y0) (vector fr v) (q, k)) = vector fr (fun x => Dg t0 y0 v (x, k))).
      { intros k. apply (directional_follows (fun z x => g t0 z (x, k)) (fun z q => g' (t0 + fr_shift fr) z (q, k)) t0 y0 v).
        - intros z q. apply HG.
        - intros c C0 CV x. apply (HD t0 y0 v c C0 CV (x, k)).
        - intros c C0 CV q. apply (HD' (t0 + fr_shift fr) (point fr t0 y0) (vector fr v) c C0 CV (q, k)). }
      apply functional_extensionality. intros q. unfold contract. clear CG.
      induction ks as [|k l IH]; cbn [fold_right]; [unfold vector; rewrite lin_zero; reflexivity|].
      pose proof (f_equal (fun u => u q) (DD k)) as Dk. cbv beta in Dk. rewrite IH, Dk. unfold vector. rewrite lin_plus. f_equal.
      rewrite Rmult_comm, <- lin_scal. apply lin_ext. intros x. ring. }
    assert (SO : forall A (l : list A) (u : A -> I -> R), linear_map (fr_matrix fr) (fun x => sum_over l (fun a => u a x)) p = sum_over l (fun a => linear_map (fr_matrix fr) (u a) p)).
    { intros A l u. unfold sum_over. induction l as [|a l IH]; cbn [fold_right]; [apply lin_zero|]. rewrite lin_plus, IH. reflexivity. }
    change (fun y : I' -> R => g' (t0 + fr_shift fr) y) with (g' (t0 + fr_shift fr)). change (fun y : I -> R => g t0 y) with (g t0).
    unfold vadd, vscale.
    match goal with |- _ = point fr t1 ?u p => change (point fr t1 u p) with (linear_map (fr_matrix fr) u p + fr_origin fr p + t1 * fr_velocity fr p) end.
    change (point fr t0 y0 p) with (linear_map (fr_matrix fr) y0 p + fr_origin fr p + t0 * fr_velocity fr p).
    rewrite !lin_plus, !lin_scal.
    rewrite HF, CG. rewrite SO.
    assert (SS : forall l (u u' : K -> R), (forall k, u k = u' k) -> sum_over l u = sum_over l u').
    { intros l u u' Hu. f_equal. apply functional_extensionality, Hu. }
    erewrite (SS ks (fun k1 => sum_over ks _)).
    2:{ intros k1. rewrite CG. erewrite (SS ks). 2:{ intros k2. rewrite CJ. reflexivity. } reflexivity. }
    erewrite (SS ks (fun a => linear_map _ _ _)).
    2:{ intros k1. rewrite SO. erewrite (SS ks). 2:{ intros k2.
        rewrite (lin_ext _ _ (fun x => (path t0 t1 k1 * path t0 t1 k2 - (if eqb k1 k2 then t1 - t0 else 0)) *
           contract ks (jvp (g t0) y0 (contract ks (g t0 y0) (unit_control eqb k1))) (unit_control eqb k2) x)) by (intros; ring).
        rewrite lin_scal, Rmult_comm. reflexivity. } reflexivity. }
    unfold vector. ring.
  Qed.
End OtherFrames.
