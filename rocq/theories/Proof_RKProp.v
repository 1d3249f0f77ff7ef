(** Proofs of C28 and of the Runge--Kutta part of C36. *)
From Coq Require Import Reals QArith Qabs Qreals List Bool Arith Lia Lra FunctionalExtensionality.
From Verif Require Import Model_Result Model_RK Spec_RK Proof_RKStep Proof_RK.
Import ListNotations.
Open Scope R_scope.

Section RKProp.
  Context {I J C : Type}.
  Implicit Types (sv : solver I J C).

  Lemma fsal_ends sv : fsal_at_ends (sv_parts sv) ->
    use_fsal sv = true -> forall tab m, In (tab, m) (sv_parts sv) -> ends_at_ends tab.
  Proof.
    intros H U tab m Hi. apply (H tab m Hi). unfold use_fsal in U. apply andb_prop in U as (U & _).
    rewrite forallb_forall in U. apply U. apply in_map_iff. exists (tab, m). split; [reflexivity|exact Hi].
  Qed.

  Lemma explicit_none sv : explicit_parts (sv_parts sv) -> implicit_index sv = None.
  Proof.
    unfold explicit_parts, implicit_index. intros H. destruct (find_index implicit _) eqn:E; [|reflexivity].
    apply find_index_some in E as (tab & N & T). apply nth_error_In, in_map_iff in N as ((tab' & m) & <- & N).
    apply H in N. cbn in T. congruence.
  Qed.

  Lemma explicit_successful sv t0 t1 y0 : implicit_index sv = None -> forall l st,
    sg_result sv st = successful ->
    sg_result sv (fold_left (rk_stage sv t0 t1 y0) l st) = successful.
  Proof.
    intros N. induction l as [|i l IH]; intros st H; [exact H|]. cbn [fold_left]. apply IH.
    unfold rk_stage. rewrite N. exact H.
  Qed.
  Lemma explicit_result sv t0 t1 y0 others state mj : implicit_index sv = None ->
    ro_result (rk_step sv t0 t1 y0 others state mj) = successful.
  Proof.
    intros N. unfold rk_step.
    destruct (match state with Some (a, b) => (a, b) | None => _ end) as (a & b). cbn [ro_result].
    apply explicit_successful; [exact N|reflexivity].
  Qed.

  (** The equations of an explicit method have at most one solution. *)
  Lemma explicit_unique sv s t0 t1 y0 k k' :
    valid_parts s (sv_parts sv) -> explicit_parts (sv_parts sv) ->
    rk_equations s (sv_parts sv) t0 t1 y0 k -> rk_equations s (sv_parts sv) t0 t1 y0 k' ->
    forall i m, (m < length (sv_parts sv))%nat -> (i < s)%nat -> forall x, k m i x = k' m i x.
  Proof.
    intros V EX K K'. induction i as [i IH] using lt_wf_ind. intros m Hm Hi x.
    destruct (part_exists sv m Hm) as (tab & trm & P).
    rewrite (K _ _ _ i P Hi x), (K' _ _ _ i P Hi x). f_equal. f_equal.
    extensionality z. unfold stage_value. f_equal. apply sum_n_ext. intros m' Hm'.
    destruct (part_exists sv m' Hm') as (tab' & trm' & P'). rewrite P'. apply sum_n_ext. intros j Hj.
    unfold coef_a. destruct (j <? i)%nat eqn:L.
    - apply Nat.ltb_lt in L. rewrite (IH j L m' Hm' Hj z). reflexivity.
    - destruct (j =? i)%nat; [|lra]. pose proof (EX tab' trm' (nth_error_In _ _ P')) as E.
      unfold implicit in E. destruct (tab_a_diagonal tab'); [discriminate|]. lra.
  Qed.

  Lemma combination_ext coef s (ps : list (tableau * term I J C)) k k' x :
    (forall m i, (m < length ps)%nat -> (i < s)%nat -> k m i x = k' m i x) ->
    combination coef s ps k x = combination coef s ps k' x.
  Proof.
    intros H. unfold combination. apply sum_n_ext. intros m Hm.
    destruct (nth_error ps m) as [(tab & trm)|]; [|reflexivity]. apply sum_n_ext. intros i Hi.
    rewrite H by assumption. reflexivity.
  Qed.

  Lemma pf_C28_step (sv : solver I J C) s t0 t1 y0 others state made_jump :
    valid_parts s (sv_parts sv) -> explicit_parts (sv_parts sv) ->
    fsal_at_ends (sv_parts sv) ->
    coherent (sv_parts sv) t0 y0 made_jump state ->
    let out := rk_step sv t0 t1 y0 others state made_jump in
    (exists k, rk_equations s (sv_parts sv) t0 t1 y0 k) /\
    (forall k, rk_equations s (sv_parts sv) t0 t1 y0 k ->
       (forall x, ro_y out x = rk_solution s (sv_parts sv) y0 k x) /\
       (exists e, ro_error out = Some e /\ forall x, e x = rk_error s (sv_parts sv) k x) /\
       (forall m i x, (m < length (sv_parts sv))%nat -> (i < s)%nat ->
          nth i (nth m (ro_k out) []) (fun _ => 0) x = k m i x) /\
       ro_result out = successful).
  Proof.
    intros V EX EE CO out.
    pose proof (explicit_none sv EX) as NI.
    pose proof (explicit_result sv t0 t1 y0 others state made_jump NI) as OK. fold out in OK.
    destruct (step_correct sv s V t0 t1 y0 others state made_jump CO (fsal_ends _ EE)) as (k & EQ & HY & HE & (_ & HK) & _).
    { fold out. rewrite OK. reflexivity. }
    { right. exact NI. }
    fold out in HY, HE, HK. split; [eauto|]. intros k' EQ'.
    pose proof (explicit_unique sv s t0 t1 y0 k' k V EX EQ' EQ) as U.
    repeat split.
    - intros x. rewrite HY. unfold rk_solution. f_equal. apply combination_ext. intros. symmetry. apply U; assumption.
    - exists (rk_error s (sv_parts sv) k). split; [exact HE|]. intros x. unfold rk_error.
      apply combination_ext. intros. symmetry. apply U; assumption.
    - intros m i x Hm Hi. destruct (HK m Hm) as (_ & HKi). specialize (HKi i Hi). unfold vzero in HKi.
      rewrite HKi. symmetry. apply U; assumption.
    - exact OK.
  Qed.

  (** The shortcuts do not matter: neither the cache nor the choice between [vf] and [vf_prod]. *)
  Lemma pf_C28_shortcuts (sv sv' : solver I J C) s t0 t1 y0 others others' state state' made_jump made_jump' :
    sv_parts sv = sv_parts sv' ->
    valid_parts s (sv_parts sv) -> explicit_parts (sv_parts sv) ->
    fsal_at_ends (sv_parts sv) ->
    coherent (sv_parts sv) t0 y0 made_jump state ->
    coherent (sv_parts sv) t0 y0 made_jump' state' ->
    let out := rk_step sv t0 t1 y0 others state made_jump in
    let out' := rk_step sv' t0 t1 y0 others' state' made_jump' in
    ro_y out = ro_y out' /\ ro_error out = ro_error out' /\ ro_k out = ro_k out' /\
    ro_result out = ro_result out'.
  Proof.
    intros PS V EX EE CO CO' out out'.
    pose proof (explicit_none sv EX) as NI. assert (NI' : implicit_index sv' = None).
    { apply explicit_none. rewrite <- PS. exact EX. }
    pose proof (explicit_result sv t0 t1 y0 others state made_jump NI) as OK. fold out in OK.
    pose proof (explicit_result sv' t0 t1 y0 others' state' made_jump' NI') as OK'. fold out' in OK'.
    destruct (step_correct sv s V t0 t1 y0 others state made_jump CO) as (k & EQ & HY & HE & (LK & HK) & _).
    { apply fsal_ends. exact EE. } { fold out. rewrite OK. reflexivity. } { right. exact NI. }
    assert (V' : valid_parts s (sv_parts sv')) by (rewrite <- PS; exact V).
    rewrite PS in CO', EE.
    destruct (step_correct sv' s V' t0 t1 y0 others' state' made_jump' CO') as (k' & EQ' & HY' & HE' & (LK' & HK') & _).
    { apply fsal_ends. exact EE. } { fold out'. rewrite OK'. reflexivity. } { right. exact NI'. }
    fold out in HY, HE, HK, LK. fold out' in HY', HE', HK', LK'.
    rewrite <- PS in EQ', HY', HE', HK', LK'.
    pose proof (explicit_unique sv s t0 t1 y0 k k' V EX EQ EQ') as U.
    repeat split.
    - rewrite HY, HY'. extensionality x. unfold rk_solution. f_equal. apply combination_ext. intros. apply U; assumption.
    - rewrite HE, HE'. f_equal. extensionality x. apply combination_ext. intros. apply U; assumption.
    - apply (list_eq_nth _ (fun m => nth_error (ro_k out') m) (length (sv_parts sv))); auto.
      intros m Hm. destruct (HK m Hm) as (L1 & H1). destruct (HK' m Hm) as (L2 & H2).
      destruct (nth_error_lt (ro_k out) m) as (b & Hb); [lia|]. destruct (nth_error_lt (ro_k out') m) as (b' & Hb'); [lia|].
      rewrite Hb, Hb'. f_equal. rewrite (nth_of_error _ _ _ _ Hb) in L1, H1. rewrite (nth_of_error _ _ _ _ Hb') in L2, H2.
      apply (list_eq_nth _ (fun i => nth_error b' i) s); auto. intros i Hi.
      destruct (nth_error_lt b i) as (v & Hv); [lia|]. destruct (nth_error_lt b' i) as (v' & Hv'); [lia|].
      specialize (H1 i Hi). specialize (H2 i Hi). rewrite (nth_of_error _ _ _ _ Hv) in H1. rewrite (nth_of_error _ _ _ _ Hv') in H2.
      rewrite Hv, Hv'. f_equal. rewrite H1, H2. extensionality x. apply U; assumption.
    - congruence.
  Qed.

  (** C36: a successful implicit step solves the equations; otherwise the error is infinite. *)
  Lemma pf_C36_stages (sv : solver I J C) s t0 t1 y0 others state made_jump :
    valid_parts s (sv_parts sv) -> exact_root_finder (sv_root_finder sv) ->
    fsal_at_ends (sv_parts sv) ->
    coherent (sv_parts sv) t0 y0 made_jump state ->
    let out := rk_step sv t0 t1 y0 others state made_jump in
    (is_okay (ro_result out) = true ->
       exists k, rk_equations s (sv_parts sv) t0 t1 y0 k /\
         (forall x, ro_y out x = rk_solution s (sv_parts sv) y0 k x) /\
         (exists e, ro_error out = Some e /\ forall x, e x = rk_error s (sv_parts sv) k x) /\
         (forall m i x, (m < length (sv_parts sv))%nat -> (i < s)%nat ->
            nth i (nth m (ro_k out) []) (fun _ => 0) x = k m i x)) /\
    (is_okay (ro_result out) = false -> ro_error out = None).
  Proof.
    intros V EX EE CO out. split.
    - intros OK. destruct (step_correct sv s V t0 t1 y0 others state made_jump CO (fsal_ends _ EE) OK (or_introl EX))
        as (k & EQ & HY & HE & (_ & HK) & _). fold out in HY, HE, HK.
      exists k. repeat split; auto.
      + intros x. rewrite HY. reflexivity.
      + exists (rk_error s (sv_parts sv) k). split; [exact HE|reflexivity].
      + intros m i x Hm Hi. destruct (HK m Hm) as (_ & H). specialize (H i Hi). unfold vzero in H. rewrite H. reflexivity.
    - unfold out, rk_step.
      destruct (match state with Some (a, b) => (a, b) | None => _ end) as (a & b). cbn [ro_result ro_error].
      intros ->. reflexivity.
  Qed.
End RKProp.
