(** The cached first stage changes nothing: one step. *)
From Coq Require Import Reals QArith Qreals List Bool Arith Lia Lra FunctionalExtensionality.
From Verif Require Import Model_Result Model_RK Spec_RK Spec_RKLoop Proof_RKStep Proof_RK Proof_RKProp.
Import ListNotations.
Open Scope R_scope.

Section Cache.
  Context {I J C : Type}.
  Variable sv : solver I J C.
  Variable s : nat.
  Hypothesis V : valid_parts s (sv_parts sv).
  Hypothesis FE : fsal_at_ends (sv_parts sv).
  Hypothesis FIRST : sv_calculate_jacobian sv = first_stage -> use_fsal sv = false.
  Hypothesis RF : implicit_index sv = None \/
    (exact_root_finder (sv_root_finder sv) /\ solves_explicit (sv_root_finder sv)).
  Variables (t0 t1 : R) (y0 : I -> R).
  Notation ps := (sv_parts sv).
  Notation M := (length ps).

  (** Equal but for Jacobians that will not be looked at. *)
  Record agree (a b : stage_state sv) : Prop := {
    ag_yi : sg_yi sv a = sg_yi sv b;
    ag_f1 : sg_f1 sv a = sg_f1 sv b;
    ag_fs : sg_fs sv a = sg_fs sv b;
    ag_ks : sg_ks sv a = sg_ks sv b;
    ag_result : sg_result sv a = sg_result sv b;
    ag_jac : sv_calculate_jacobian sv = second_stage ->
             sg_jac_f sv a = sg_jac_f sv b /\ sg_jac_k sv a = sg_jac_k sv b
  }.

  Lemma choose_agree {A} stage (fresh : A) old old' : use_fsal sv = true ->
    (sv_calculate_jacobian sv = second_stage -> old = old') ->
    choose_jac sv stage fresh old = choose_jac sv stage fresh old'.
  Proof.
    intros U H. unfold choose_jac. destruct (sv_calculate_jacobian sv) eqn:K; try reflexivity.
    - rewrite FIRST in U by reflexivity. discriminate.
    - rewrite H by reflexivity. reflexivity.
  Qed.

  Lemma agree_stage i a b : use_fsal sv = true -> agree a b ->
    agree (rk_stage sv t0 t1 y0 a i) (rk_stage sv t0 t1 y0 b i).
  Proof.
    intros U [E1 E2 E3 E4 E5 E6].
    assert (PE : stage_partial sv t0 t1 y0 i a = stage_partial sv t0 t1 y0 i b).
    { unfold stage_partial. rewrite E3, E4. reflexivity. }
    unfold rk_stage. rewrite PE, E3, E4, E5.
    destruct (implicit_index sv) as [p|] eqn:Ip.
    2:{ split; cbn; auto. }
    destruct (nth_error (map snd ps) p) as [trm|]; [|split; cbn; auto].
    destruct (nth_error (controls sv t0 t1) p) as [ctl|]; [|split; cbn; auto].
    unfold implicit_stage. rewrite eval_fs_eq, U, E3.
    rewrite (choose_agree i _ (sg_jac_f sv a) (sg_jac_f sv b) U) by (intros K; apply E6; exact K).
    destruct (rf_f _ _ _ _ _) as (fi & r). split; cbn; auto.
  Qed.

  Lemma agree_fold l : use_fsal sv = true -> forall a b, agree a b ->
    agree (fold_left (rk_stage sv t0 t1 y0) l a) (fold_left (rk_stage sv t0 t1 y0) l b).
  Proof.
    intros U. induction l as [|i l IH]; intros a b H; [exact H|]. cbn [fold_left]. apply IH, agree_stage; assumption.
  Qed.

  Lemma map2_set_set {A} (u v : list A) (bufs : list (list A)) : length u = length v ->
    map2 (set_nth 0) v (map2 (set_nth 0) u bufs) = map2 (set_nth 0) v bufs.
  Proof.
    revert v bufs. induction u as [|x u IH]; intros [|z v] bufs L; try discriminate; [reflexivity|].
    destruct bufs as [|b bufs]; [reflexivity|]. cbn [map2]. rewrite IH by (cbn in L; lia). f_equal.
    destruct b; reflexivity.
  Qed.

  Lemma fsal_part tab trm m : use_fsal sv = true -> nth_error ps m = Some (tab, trm) ->
    coef_c tab 0 = 0 /\ Q2R (diagonal_or_zero tab 0) = 0.
  Proof.
    intros U P. split.
    - destruct (fsal_ends sv FE U tab trm (nth_error_In _ _ P)) as (Z & _). cbn. apply Qeq_eqR in Z.
      rewrite Z. apply RMicromega.Q2R_0.
    - unfold use_fsal in U. apply andb_prop in U as (U & _). rewrite forallb_forall in U.
      specialize (U tab ltac:(eapply nth_error_In, part_tabs; eauto)). unfold fsal in U.
      apply andb_prop in U as (_ & U). unfold explicit_first_stage in U. unfold diagonal_or_zero.
      destruct (tab_a_diagonal tab); [|apply RMicromega.Q2R_0].
      apply Qeq_bool_eq, Qeq_eqR in U. rewrite U. apply RMicromega.Q2R_0.
  Qed.

  Lemma stage_time_0 tab trm m : use_fsal sv = true -> nth_error ps m = Some (tab, trm) ->
    stage_time t0 t1 (nthQ (embed_c tab) 0) = t0.
  Proof. intros U P. rewrite stage_time_spec. destruct (fsal_part _ _ _ U P) as (-> & _). lra. Qed.

  Lemma partial_0 st : shape sv s st -> stage_partial sv t0 t1 y0 0 st = y0.
  Proof.
    intros SH. rewrite (partial_eq sv s V) by exact SH. extensionality x. unfold row_sum.
    rewrite sum_n_0; [lra|]. intros m Hm. destruct (part_exists sv m Hm) as (tab & trm & P). rewrite P.
    apply sum_n_0. intros j Hj. cbn [embed nth]. rewrite nth_repeat, RMicromega.Q2R_0. lra.
  Qed.

  Lemma vf_all_now : use_fsal sv = true ->
    map2 (fun trm t => t_vf trm t y0) (map snd ps)
      (map (fun tab => stage_time t0 t1 (nthQ (embed_c tab) 0)) (map fst ps)) = vf_now sv t0 y0.
  Proof.
    intros U.
    apply (list_eq_nth _ (fun m => nth_error (vf_now sv t0 y0) m) M).
    - rewrite map2_length, !map_length. lia.
    - intros m Hm. destruct (part_exists sv m Hm) as (tab & trm & P).
      rewrite nth_error_map2, (part_terms sv _ _ _ P), nth_error_map, (part_tabs sv _ _ _ P).
      cbn [option_map]. rewrite (stage_time_0 _ _ _ U P). unfold vf_now. rewrite nth_error_map, P. reflexivity.
    - unfold vf_now. rewrite map_length. reflexivity.
    - reflexivity.
  Qed.

  Lemma patch_same {A} (v : A) xs p : implicit_index sv = Some p -> nth_error xs p = Some v ->
    patch sv (Some v) xs = xs.
  Proof.
    intros Ip N. unfold patch. rewrite Ip. clear Ip. revert p N. clear. induction xs as [|x xs IH]; intros [|p] N; cbn in *; try congruence.
    rewrite IH by exact N. reflexivity.
  Qed.

  Variable state : solver_state J.

  (** Evaluating the first stage arrives where the cache starts. *)
  Lemma first_stage_is_cache (f0 : list (J -> R)) : use_fsal sv = true ->
    length f0 = M -> let zeros := map (fun _ => vzero) f0 in
    forall mk, mk = (fun f => {| sg_yi := y0; sg_f1 := if use_fsal sv then f else [];
             sg_jac_f := initial_jac_f sv t0 t1 y0; sg_jac_k := initial_jac_k sv t0 t1 y0;
             sg_fs := if store_fs sv then map2 (set_nth 0) f (map (fun _ => repeat vzero (nstages sv)) (map snd ps)) else [];
             sg_ks := if store_fs sv then []
                else if use_fsal sv then map2 (set_nth 0) (prod_all sv t0 t1 f) (map (fun _ => repeat vzero (nstages sv)) (map snd ps))
                else map (fun _ => repeat vzero (nstages sv)) (map snd ps);
             sg_result := successful |}) ->
    agree (rk_stage sv t0 t1 y0 (mk zeros) 0) (mk (vf_now sv t0 y0)).
  Proof.
    intros U L zeros mk EM.
    assert (LZ : length zeros = M) by (unfold zeros; rewrite map_length; exact L).
    assert (LN : length (vf_now sv t0 y0) = M) by (unfold vf_now; rewrite map_length; reflexivity).
    assert (SH : shape sv s (mk zeros)).
    { subst mk. unfold shape. cbn [sg_fs sg_ks]. destruct (store_fs sv) eqn:SF.
      - destruct (zero_buffers sv s V (@vzero J)) as (Z1 & Z2). apply map2_set_shape; assumption.
      - destruct (zero_buffers sv s V (@vzero I)) as (Z1 & Z2). rewrite U.
        apply map2_set_shape; [apply prod_all_length; exact LZ|assumption|assumption]. }
    assert (FI : forall v p, implicit_index sv = Some p -> forall tab trm, nth_error ps p = Some (tab, trm) ->
       v = t_vf trm t0 y0 ->
       patch sv (Some v) (map2 (fun trm t => t_vf trm t y0) (map snd ps)
          (map (fun tab => stage_time t0 t1 (nthQ (embed_c tab) 0)) (map fst ps))) = vf_now sv t0 y0).
    { intros v p Ip tab trm P ->. rewrite vf_all_now by exact U. apply (patch_same _ _ p Ip).
      unfold vf_now. rewrite nth_error_map, P. reflexivity. }
    assert (PL : forall f, length f = M -> length (prod_all sv t0 t1 f) = M) by (intros; apply prod_all_length; assumption).
    unfold rk_stage. rewrite (partial_0 _ SH). rewrite eval_fs_eq, U.
    destruct (implicit_index sv) as [p|] eqn:Ip.
    - destruct RF as [N|(EX & SE)]; [discriminate|].
      destruct (the_implicit sv s V p Ip) as (tab & trm & P & HI & _).
      assert (HT : implicit_tableau sv p = tab).
      { unfold implicit_tableau. apply nth_of_error. exact (part_tabs sv _ _ _ P). }
      rewrite (part_terms sv _ _ _ P), (part_controls sv t0 t1 _ _ _ P).
      unfold implicit_stage. rewrite eval_fs_eq, U, HT.
      destruct (fsal_part _ _ _ U P) as (_ & D0). rewrite D0, (stage_time_0 _ _ _ U P).
      set (rel := implicit_relation_f 0 _ _ _ _).
      match goal with |- context [choose_jac sv 0 ?fr ?old] => set (j := choose_jac sv 0 fr old) in * end.
      match goal with |- context [rf_f _ j 0 rel ?g] => set (gs := g) in * end.
      assert (REL : forall f x, rel f x = f x - t_vf trm t0 y0 x).
      { intros f x. unfold rel, implicit_relation_f, vsub. f_equal. f_equal. extensionality w.
        unfold vadd, vscale. lra. }
      pose proof (SE j 0%nat rel gs _ REL) as OK.
      destruct (rf_f (sv_root_finder sv) j 0 rel gs) as (v & r) eqn:ER. cbn [snd] in OK. subst r.
      assert (VV : v = t_vf trm t0 y0).
      { extensionality x. pose proof (proj1 EX _ _ _ _ _ _ ER eq_refl x) as Hx. rewrite REL in Hx. lra. }
      assert (YY : vadd y0 (vscale 0 (t_prod trm v (t_contr trm t0 t1))) = y0).
      { extensionality w. unfold vadd, vscale. lra. }
      rewrite YY. unfold vf_all. rewrite (FI v p eq_refl tab trm P VV).
      assert (SF : store_fs sv = true).
      { rewrite store_fs_eq, U. unfold has_implicit. rewrite Ip. reflexivity. }
      subst mk. rewrite SF, U. split; cbn [sg_yi sg_f1 sg_fs sg_ks sg_result sg_jac_f sg_jac_k]; auto.
      + apply map2_set_set. congruence.
      + intros K2.
        assert (JF0 : exists j0, initial_jac_f sv t0 t1 y0 = Some j0).
        { unfold initial_jac_f. rewrite Ip, (part_terms sv _ _ _ P), (part_controls sv t0 t1 _ _ _ P), eval_fs_eq, U. eauto. }
        assert (JK0 : initial_jac_k sv t0 t1 y0 = None).
        { unfold initial_jac_k. rewrite Ip, (part_terms sv _ _ _ P), (part_controls sv t0 t1 _ _ _ P), eval_fs_eq, U. reflexivity. }
        destruct JF0 as (j0 & JF0). split; [|symmetry; exact JK0].
        unfold j, choose_jac. rewrite K2. cbn [Nat.eqb sg_jac_f]. rewrite JF0. reflexivity.
    - unfold vf_all. unfold patch. rewrite vf_all_now by exact U.
      assert (SF : store_fs sv = false).
      { rewrite store_fs_eq, U. unfold has_implicit. rewrite Ip. reflexivity. }
      subst mk. rewrite SF, U. split; cbn [sg_yi sg_f1 sg_fs sg_ks sg_result sg_jac_f sg_jac_k]; auto.
      apply map2_set_set. rewrite !PL; congruence.
  Qed.

  (** One step: whether the first stage is evaluated or read from the cache does not matter. *)
  Theorem step_cache others made_jump : coherent ps t0 y0 made_jump state ->
    rk_step sv t0 t1 y0 others state made_jump = rk_step sv t0 t1 y0 true state made_jump.
  Proof.
    intros CO. unfold rk_step.
    destruct state as [(first & f0)|]; [|reflexivity].
    cbn [coherent] in CO. destruct CO as (L & CO).
    replace (first || made_jump || true) with true by (destruct first, made_jump; reflexivity).
    destruct (first || made_jump || others) eqn:EV; [reflexivity|].
    apply orb_false_iff in EV as (EV & EO). apply orb_false_iff in EV as (EF & EJ). subst first.
    assert (U : use_fsal sv = true \/ use_fsal sv = false) by (destruct (use_fsal sv); auto).
    destruct U as [U|U]; rewrite U.
    2:{ assert (SF : store_fs sv = false) by (rewrite store_fs_eq, U; reflexivity). rewrite SF. reflexivity. }
    assert (EQ : f0 = vf_now sv t0 y0).
    { apply (list_eq_nth _ (fun m => nth_error (vf_now sv t0 y0) m) M); auto.
      2:{ unfold vf_now. rewrite map_length. reflexivity. }
      intros m Hm. destruct (part_exists sv m Hm) as (tab & trm & P).
      destruct (nth_error_lt f0 m) as (f & Hf); [lia|]. rewrite Hf.
      unfold vf_now. rewrite nth_error_map, P. cbn. f_equal. extensionality x.
      destruct CO as [C1|[C1|C1]]; [discriminate|congruence|]. exact (C1 m tab trm f P Hf x). }
    subst f0.
    pose proof (first_stage_is_cache _ U L _ eq_refl) as A. cbv beta in A. rewrite U in A.
    pose proof (two_stages sv s V) as S2.
    assert (SQ : seq 0 (nstages sv - 0) = 0%nat :: seq 1 (nstages sv - 1)).
    { rewrite (nst sv s V). replace (s - 0)%nat with (S (s - 1)) by lia. reflexivity. }
    rewrite SQ. cbn [fold_left].
    match type of A with agree ?x ?y => set (fz := x) in *; set (fc := y) in * end.
    pose proof (agree_fold (seq 1 (nstages sv - 1)) U fz fc A) as [A1 A2 A3 A4 A5 _].
    rewrite A1, A2, A3, A4, A5. reflexivity.
  Qed.
End Cache.
