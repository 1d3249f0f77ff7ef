(** Proofs about Runge--Kutta steps: C28, C36. *)
From Coq Require Import Reals QArith Qabs Qreals List Bool Arith Lia Lra FunctionalExtensionality.
From Verif Require Import Model_Result Model_RK Spec_RK Proof_RKStep.
Import ListNotations.
Open Scope R_scope.

Section Step.
  Context {I J C : Type}.
  Variable sv : solver I J C.
  Variable s : nat.
  Hypothesis V : valid_parts s (sv_parts sv).
  Variables (t0 t1 : R) (y0 : I -> R).
  Notation ps := (sv_parts sv).
  Notation M := (length ps).
  Notation kview := (kview sv t0 t1).
  Notation shape := (shape sv s).
  Notation exactly := (exact_root_finder (sv_root_finder sv) \/ implicit_index sv = None).

  (** Stage [i] only looks at the stages before it, and itself. *)
  Lemma stage_value_ext k k' i : (i < s)%nat ->
    (forall m j, (m < M)%nat -> (j <= i)%nat -> k m j = k' m j) ->
    stage_value s ps y0 k i = stage_value s ps y0 k' i.
  Proof.
    intros Hi H. extensionality x. unfold stage_value. f_equal. apply sum_n_ext. intros m Hm.
    destruct (nth_error ps m) as [(tab & trm)|]; [|reflexivity]. apply sum_n_ext. intros j Hj.
    destruct (le_dec j i) as [L|L]; [rewrite H by assumption; reflexivity|].
    unfold coef_a. replace (j <? i)%nat with false by (symmetry; apply Nat.ltb_ge; lia).
    replace (j =? i)%nat with false by (symmetry; apply Nat.eqb_neq; lia). lra.
  Qed.

  Definition stages_done (st : stage_state sv) (i : nat) : Prop :=
    forall m tab trm, nth_error ps m = Some (tab, trm) -> forall x,
      kview st m i x =
      t_prod trm (t_vf trm (t0 + coef_c tab i * (t1 - t0)) (stage_value s ps y0 (kview st) i))
        (t_contr trm t0 t1) x.

  Lemma fold_stages n : forall i st, (i + n = s)%nat -> shape st ->
    let fin := fold_left (rk_stage sv t0 t1 y0) (seq i n) st in
    shape fin /\
    (forall m j, (m < M)%nat -> (j < i)%nat -> kview fin m j = kview st m j) /\
    (is_okay (sg_result sv fin) = true -> is_okay (sg_result sv st) = true) /\
    (is_okay (sg_result sv fin) = true -> exactly ->
     (forall j, (i <= j < s)%nat -> stages_done fin j) /\
     ((0 < n)%nat -> sg_yi sv fin = stage_value s ps y0 (kview fin) (s - 1) /\
        (use_fsal sv = true -> length (sg_f1 sv fin) = M /\
         forall m tab trm, nth_error ps m = Some (tab, trm) ->
           nth_error (sg_f1 sv fin) m =
           Some (t_vf trm (t0 + coef_c tab (s - 1) * (t1 - t0)) (sg_yi sv fin))))).
  Proof.
    induction n as [|n IH]; intros i st E SH fin.
    - cbn in fin. subst fin. repeat split; auto; intros; lia.
    - cbn [seq fold_left] in fin. set (st' := rk_stage sv t0 t1 y0 st i) in *.
      destruct (stage_correct sv s V t0 t1 y0 st i ltac:(lia) SH) as (SH' & OLD & OKS & NEW).
      fold st' in SH', OLD, OKS, NEW.
      destruct (IH (S i) st' ltac:(lia) SH') as (F1 & F2 & F3 & F4).
      fold fin in F1, F2, F3, F4.
      split; [exact F1|]. split; [|split].
      + intros m j Hm Hj. rewrite F2 by (auto; lia). apply OLD; [exact Hm|lia].
      + intros H. auto.
      + intros OK EX. destruct (F4 OK EX) as (G1 & G2). destruct (NEW (F3 OK) EX) as (N1 & N2 & N3).
        assert (SV : stage_value s ps y0 (kview fin) i = stage_value s ps y0 (kview st') i).
        { apply stage_value_ext; [lia|]. intros m j Hm Hj. apply F2; [exact Hm|lia]. }
        split.
        * intros j Hj. destruct (Nat.eq_dec j i) as [->|N]; [|apply G1; lia].
          intros m tab trm P x. rewrite F2 by (try lia; eapply part_lt; eauto).
          rewrite (N1 _ _ _ P x), SV, N2. reflexivity.
        * intros _. destruct n as [|n].
          -- cbn in fin. subst fin. replace (s - 1)%nat with i by lia. split; [exact N2|exact N3].
          -- apply G2. lia.
  Qed.

  Lemma stage_value_0 k : stage_value s ps y0 k 0 = fun x => y0 x + combination (fun tab j => coef_a tab 0 j) s ps k x.
  Proof. reflexivity. Qed.

  Lemma solution_last k :
    forallb (fun tab => lower_b_sol_equal tab && diagonal_b_sol_equal tab) (map fst ps) = true ->
    stage_value s ps y0 k (s - 1) = rk_solution s ps y0 k.
  Proof.
    intros H. extensionality x. unfold stage_value, rk_solution, combination. f_equal. apply sum_n_ext.
    intros m Hm. destruct (part_exists sv m Hm) as (tab & trm & P). rewrite P. apply sum_n_ext. intros j Hj.
    rewrite forallb_forall in H. specialize (H tab ltac:(eapply nth_error_In, part_tabs; eauto)).
    apply andb_prop in H as (H1 & H2).
    rewrite (last_row s); auto. eapply part_shaped; eauto.
  Qed.
  Lemma fsal_last : use_fsal sv = true ->
    forallb (fun tab => lower_b_sol_equal tab && diagonal_b_sol_equal tab) (map fst ps) = true.
  Proof.
    unfold use_fsal. intros H. apply andb_prop in H as (H & _). rewrite forallb_forall in *.
    intros tab Hi. apply H in Hi. unfold fsal in Hi. apply andb_prop in Hi. apply Hi.
  Qed.
  Lemma ssal_last : forallb ssal (map fst ps) = true ->
    forallb (fun tab => lower_b_sol_equal tab && diagonal_b_sol_equal tab) (map fst ps) = true.
  Proof.
    rewrite !forallb_forall. intros H tab Hi. apply H in Hi. unfold ssal in Hi. apply andb_prop in Hi. apply Hi.
  Qed.

  (** The buffers at the start. *)
  Lemma zero_buffers {A} (z : A) : length (map (fun _ : term I J C => repeat z (nstages sv)) (map snd ps)) = M /\
    forall m, (m < M)%nat -> length (nth m (map (fun _ : term I J C => repeat z (nstages sv)) (map snd ps)) []) = s.
  Proof.
    split; [rewrite !map_length; reflexivity|]. intros m Hm.
    destruct (part_exists sv m Hm) as (tab & trm & P).
    erewrite nth_of_error; [|rewrite nth_error_map, (part_terms sv _ _ _ P); reflexivity].
    rewrite repeat_length. apply nst. exact V.
  Qed.

  Lemma rows_map2 coef_of (k : nat -> nat -> I -> R) (ks : list (list (I -> R))) x :
    (forall tab, In tab (map fst ps) -> length (coef_of tab) = s) ->
    length ks = M -> (forall m, (m < M)%nat -> length (nth m ks []) = s) ->
    (forall m j, (m < M)%nat -> (j < s)%nat -> nth j (nth m ks []) vzero = k m j) ->
    sum_n (length (map2 (fun tab k => vector_tree_dot (coef_of tab) k) (map fst ps) ks))
      (fun m => nth m (map2 (fun tab k => vector_tree_dot (coef_of tab) k) (map fst ps) ks) vzero x) =
    combination (fun tab i => Q2R (nth i (coef_of tab) 0%Q)) s ps k x.
  Proof.
    intros HC L SL HK. unfold combination. rewrite map2_length, map_length, L, Nat.min_id.
    apply sum_n_ext. intros m Hm. destruct (part_exists sv m Hm) as (tab & trm & P). rewrite P.
    destruct (nth_error_lt ks m) as (b & Hb); [lia|].
    erewrite nth_of_error; [|rewrite nth_error_map2, (part_tabs sv _ _ _ P), Hb; reflexivity].
    rewrite vdot_sum. pose proof (SL m Hm) as SM. rewrite (nth_of_error _ _ _ _ Hb) in SM. rewrite SM.
    apply sum_n_ext. intros j Hj. pose proof (HK m j Hm Hj) as K. rewrite (nth_of_error _ _ _ _ Hb) in K.
    rewrite K. reflexivity.
  Qed.

  Lemma list_eq_nth {A} (l : list A) (f : nat -> option A) n :
    length l = n -> (forall i, (i < n)%nat -> nth_error l i = f i) ->
    forall l', length l' = n -> (forall i, (i < n)%nat -> nth_error l' i = f i) -> l = l'.
  Proof.
    revert f n. induction l as [|a l IH]; intros f n L H l' L' H'; destruct l' as [|b l']; cbn in *; subst n; try lia.
    - reflexivity.
    - f_equal.
      + specialize (H 0%nat ltac:(lia)). specialize (H' 0%nat ltac:(lia)). cbn in *. congruence.
      + apply (IH (fun i => f (S i)) (length l)); auto; try lia.
        * intros i Hi. apply (H (S i)). lia.
        * intros i Hi. apply (H' (S i)). lia.
  Qed.

  Definition vf_now (t : R) (y : I -> R) : list (J -> R) := map (fun p => t_vf (snd p) t y) ps.

  Lemma two_stages : (2 <= s)%nat.
  Proof.
    destruct V as (N & _). destruct (nth_error ps 0) as [(tab & trm)|] eqn:E.
    - apply (sh_s s tab). eapply part_shaped; eauto.
    - destruct ps; [congruence|discriminate].
  Qed.

  Theorem step_correct others state made_jump :
    coherent ps t0 y0 made_jump state ->
    (use_fsal sv = true -> forall tab m, In (tab, m) ps -> ends_at_ends tab) ->
    let out := rk_step sv t0 t1 y0 others state made_jump in
    is_okay (ro_result out) = true -> exactly ->
    exists k, rk_equations s ps t0 t1 y0 k /\
      ro_y out = rk_solution s ps y0 k /\
      ro_error out = Some (rk_error s ps k) /\
      (length (ro_k out) = M /\ forall m, (m < M)%nat ->
         length (nth m (ro_k out) []) = s /\
         forall i, (i < s)%nat -> nth i (nth m (ro_k out) []) vzero = k m i) /\
      ro_state out = (if use_fsal sv then Some (false, vf_now t1 (ro_y out)) else None).
  Proof.
    intros CO EE out OK EX. unfold out, rk_step in OK |- *.
    assert (S2 : (2 <= s)%nat).
    { exact two_stages. }
    set (f0' := match state with Some (_, f0) => f0 | None => map (fun _ => vzero) (map snd ps) end).
    set (first := match state with Some (b, _) => b | None => true end).
    assert (L0 : length f0' = M).
    { unfold f0'. unfold coherent in CO. destruct state as [(b & f)|]; [apply CO|rewrite !map_length; reflexivity]. }
    replace (match state with Some (a, b) => (a, b) | None => (true, map (fun _ => vzero) (map snd ps)) end)
      with (first, f0') in OK |- * by (unfold first, f0'; destruct state as [(b & f)|]; reflexivity).
    set (ev := first || made_jump || others) in *.
    set (f0 := if ev then map (fun _ => vzero) f0' else f0') in *.
    set (ini := if use_fsal sv then (if ev then 0%nat else 1%nat) else 0%nat) in *.
    match type of OK with context [fold_left _ _ ?x] => set (init := x) in * end.
    set (fin := fold_left (rk_stage sv t0 t1 y0) (seq ini (nstages sv - ini)) init) in *.
    cbn [ro_result] in OK.
    assert (LF0 : length f0 = M) by (unfold f0; destruct ev; rewrite ?map_length; exact L0).
    assert (SI : shape init).
    { unfold shape, Proof_RKStep.shape, init. cbn [sg_fs sg_ks]. destruct (store_fs sv) eqn:SF.
      - destruct (zero_buffers (@vzero J)) as (Z1 & Z2). apply map2_set_shape; assumption.
      - destruct (zero_buffers (@vzero I)) as (Z1 & Z2). destruct (use_fsal sv); [|split; assumption].
        apply map2_set_shape; [apply prod_all_length; exact LF0|assumption|assumption]. }
    assert (INI : (ini <= 1)%nat) by (unfold ini; destruct (use_fsal sv), ev; lia).
    assert (FE : fold_left (rk_stage sv t0 t1 y0) (seq ini (s - ini)) init = fin)
      by (unfold fin; rewrite (nst sv s V); reflexivity).
    pose proof (fold_stages (s - ini) ini init ltac:(lia) SI) as FF. cbv zeta in FF. rewrite FE in FF.
    clear FE. clearbody fin. destruct FF as (F1 & F2 & F3 & F4).
    destruct (F4 OK EX) as (G1 & G2). destruct (G2 ltac:(lia)) as (Y & FS). clear F4 G2.
    set (k := kview fin).
    assert (EQ : rk_equations s ps t0 t1 y0 k).
    { intros m tab trm i P Hi x. destruct (le_dec ini i) as [LE|LE]; [apply (G1 i); [lia|exact P]|].
      assert (i = 0%nat) by lia. assert (I1 : ini = 1%nat) by lia. subst i.
      assert (UF : use_fsal sv = true) by (unfold ini in I1; destruct (use_fsal sv); [reflexivity|discriminate]).
      assert (EV : ev = false) by (unfold ini in I1; rewrite UF in I1; destruct ev; [discriminate|reflexivity]).
      pose proof (part_lt sv _ _ P) as Hm.
      unfold k. rewrite F2 by lia.
      (* the cached value *)
      unfold ev in EV. apply orb_false_iff in EV as (EV & EO). apply orb_false_iff in EV as (EF & EJ).
      assert (CF : exists f, nth_error f0 m = Some f /\ forall x, f x = t_vf trm t0 y0 x).
      { destruct (nth_error_lt f0 m) as (f & Hf); [lia|]. exists f. split; [exact Hf|].
        unfold coherent in CO. unfold first in EF. destruct state as [(b & fl)|]; [|discriminate].
        subst b. destruct CO as (_ & [C1|[C1|C1]]); [discriminate|congruence|].
        unfold f0, ev in Hf. unfold first in Hf. rewrite EJ, EO in Hf. cbn in Hf. unfold f0' in Hf.
        exact (C1 m tab trm f P Hf). }
      destruct CF as (f & Hf & CF).
      assert (KI : kview init m 0 = t_prod trm f (t_contr trm t0 t1)).
      { unfold kview, Proof_RKStep.kview, init. cbn [sg_fs sg_ks]. destruct (store_fs sv) eqn:SF.
        - rewrite P. destruct (zero_buffers (@vzero J)) as (Z1 & Z2).
          rewrite (nth_map2_set 0 f0 _ m f vzero 0 Hf); [reflexivity|lia|].
          rewrite Z2 by exact Hm. lia.
        - rewrite UF. destruct (zero_buffers (@vzero I)) as (Z1 & Z2).
          rewrite (nth_map2_set 0 _ _ m _ vzero 0 (prod_nth sv t0 t1 f0 m tab trm f P Hf)); [reflexivity|lia|].
          rewrite Z2 by exact Hm. lia. }
      rewrite KI. f_equal.
      extensionality z. rewrite CF. f_equal.
      - assert (C0 : coef_c tab 0 = 0).
        { cbn. destruct (EE UF tab trm (nth_error_In _ _ P)) as (Z & _). apply Qeq_eqR in Z. rewrite Z. apply RMicromega.Q2R_0. }
        rewrite C0. lra.
      - extensionality w. unfold stage_value. rewrite sum_n_0; [lra|]. intros m' Hm'.
        destruct (part_exists sv m' Hm') as (tab' & trm' & P'). rewrite P'. apply sum_n_0. intros j Hj.
        unfold coef_a. cbn [Nat.ltb Nat.leb]. destruct (j =? 0)%nat eqn:EJ0; [|lra].
        assert (Z : match tab_a_diagonal tab' with Some d => Q2R (nth 0 d 0%Q) | None => 0 end = 0).
        { unfold use_fsal in UF. apply andb_prop in UF as (UF & _). rewrite forallb_forall in UF.
          specialize (UF tab' ltac:(eapply nth_error_In, part_tabs; eauto)). unfold fsal in UF.
          apply andb_prop in UF as (_ & UF). unfold explicit_first_stage in UF.
          destruct (tab_a_diagonal tab') as [d|]; [|reflexivity].
          apply Qeq_bool_eq, Qeq_eqR in UF. unfold nthQ in UF. rewrite UF. apply RMicromega.Q2R_0. }
        rewrite Z. lra. }
    match goal with |- context [ro_k {| ro_y := _; ro_error := _; ro_k := ?x; ro_state := _; ro_result := _ |}] =>
      set (KS := x) end.
    assert (KL : length KS = M /\ forall m, (m < M)%nat -> length (nth m KS []) = s /\
              forall i, (i < s)%nat -> nth i (nth m KS []) vzero = k m i).
    { unfold KS, k, kview, Proof_RKStep.kview. unfold shape, Proof_RKStep.shape in F1. destruct (store_fs sv); destruct F1 as (L1 & L2).
      - split; [rewrite map2_length, combine_length, map_length, controls_length; lia|].
        intros m Hm. destruct (part_exists sv m Hm) as (tab & trm & P).
        destruct (nth_error_lt (sg_fs sv fin) m) as (b & Hb); [lia|].
        pose proof (L2 m Hm) as Lb. rewrite (nth_of_error _ _ _ _ Hb) in Lb |- *.
        erewrite nth_of_error.
        2:{ rewrite nth_error_map2, nth_error_combine, (part_terms sv _ _ _ P), (part_controls sv t0 t1 _ _ _ P), Hb. reflexivity. }
        cbn [fst snd]. split; [rewrite map_length; exact Lb|]. intros i Hi.
        destruct (nth_error_lt b i) as (f & Hf); [lia|].
        erewrite nth_of_error; [|rewrite nth_error_map, Hf; reflexivity]. rewrite P, (nth_of_error _ _ _ _ Hf). reflexivity.
      - split; [exact L1|]. intros m Hm. split; [apply L2, Hm|]. intros i Hi. reflexivity. }
    exists k. cbn [ro_y ro_error ro_k ro_state ro_result]. rewrite OK.
    match goal with |- context [if forallb ssal (map fst ps) then ?a else ?b] =>
      set (Y1 := if forallb ssal (map fst ps) then a else b) end.
    assert (HB : forall tab, In tab (map fst ps) -> length (tab_b_sol tab) = s /\ length (tab_b_error tab) = s).
    { intros tab Hi. apply in_map_iff in Hi as ((tab' & trm) & <- & Hi). apply In_nth_error in Hi as (m & P). cbn [fst].
      pose proof (part_shaped sv s V m tab' trm P) as SH. split; [apply (sh_b _ _ SH)|apply (sh_e _ _ SH)]. }
    assert (YS : Y1 = rk_solution s ps y0 k).
    { unfold Y1. destruct (forallb ssal (map fst ps)) eqn:SS.
      - rewrite Y. apply solution_last, ssal_last, SS.
      - extensionality x. rewrite vsum_sum. unfold rk_solution. f_equal.
        apply (rows_map2 tab_b_sol k KS x).
        + intros tab Hi. apply HB, Hi.
        + exact (proj1 KL).
        + intros m Hm. exact (proj1 (proj2 KL m Hm)).
        + intros m j Hm Hj. exact (proj2 (proj2 KL m Hm) j Hj). }
    split; [exact EQ|]. split; [exact YS|]. split; [|split; [exact KL|]].
    - f_equal. extensionality x.
      assert (RE : sum_n (length (map2 (fun tab k => vector_tree_dot (tab_b_error tab) k) (map fst ps) KS))
          (fun m => nth m (map2 (fun tab k => vector_tree_dot (tab_b_error tab) k) (map fst ps) KS) vzero x) =
          rk_error s ps k x).
      { apply (rows_map2 tab_b_error k KS x).
        + intros tab Hi. apply HB, Hi.
        + exact (proj1 KL).
        + intros m Hm. exact (proj1 (proj2 KL m Hm)).
        + intros m j Hm Hj. exact (proj2 (proj2 KL m Hm) j Hj). }
      rewrite <- RE. clear RE.
      destruct (map2 (fun tab k => vector_tree_dot (tab_b_error tab) k) (map fst ps) KS) as [|e es]; [reflexivity|].
      rewrite vsum_sum. cbn [length]. rewrite sum_n_shift. reflexivity.
    - destruct (use_fsal sv) eqn:UF; [|reflexivity]. destruct (FS eq_refl) as (LF & NF).
      f_equal. f_equal.
      assert (Y1E : Y1 = sg_yi sv fin) by (rewrite YS, Y; symmetry; apply solution_last, fsal_last, UF).
      apply (list_eq_nth _ (fun m => nth_error (vf_now t1 Y1) m) M); auto.
      + intros m Hm. destruct (part_exists sv m Hm) as (tab & trm & P). rewrite (NF _ _ _ P).
        unfold vf_now. rewrite nth_error_map, P. cbn [option_map snd]. rewrite Y1E. f_equal. f_equal.
        assert (CC : coef_c tab (s - 1) = 1).
        { destruct (EE eq_refl tab trm (nth_error_In _ _ P)) as (_ & Z).
          pose proof (part_shaped sv s V m tab trm P) as SH. rewrite last_nth, (sh_c _ _ SH) in Z.
          unfold coef_c. destruct (s - 1)%nat as [|q] eqn:SQ; [lia|]. replace (S q - 1)%nat with q in Z by lia.
          apply Qeq_eqR in Z. rewrite Z. apply RMicromega.Q2R_1. }
        rewrite CC. lra.
      + unfold vf_now. rewrite map_length. reflexivity.
  Qed.
End Step.
