(** Proofs about stochastic Runge--Kutta methods: the step computes the equations in the documentation. *)
From Coq Require Import Reals List Bool Arith Lia Lra FunctionalExtensionality.
From Verif Require Import Model_Result Model_Loop Model_RK Model_Terms Model_Solvers Model_SRK Spec_RK Spec_SRK Proof_RKStep.
Import ListNotations.
Open Scope R_scope.

Section Buffers.
  Context {I : Type}.
  Notation Y := (I -> R).
  Definition buffer (n : nat) (ign : nat -> bool) (j : nat) (L : nat -> Y) : list Y :=
    map (fun i => if ((i <? j)%nat && negb (ign i))%bool then L i else vzero) (seq 0 n).
  Lemma buffer_length n ign j L : length (buffer n ign j L) = n.
  Proof. unfold buffer. rewrite map_length, seq_length. reflexivity. Qed.
  Lemma buffer_nth n ign j L i : (i < n)%nat ->
    nth i (buffer n ign j L) vzero = if ((i <? j)%nat && negb (ign i))%bool then L i else vzero.
  Proof.
    intros H. unfold buffer.
    set (f := fun i => if ((i <? j)%nat && negb (ign i))%bool then L i else vzero).
    rewrite (nth_indep _ vzero (f 0%nat)) by (rewrite map_length, seq_length; lia).
    rewrite (map_nth f), seq_nth by lia. reflexivity.
  Qed.
  Lemma buffer_zeros n ign L : repeat vzero n = buffer n ign 0 L.
  Proof.
    unfold buffer. generalize 0%nat at 2 as s. induction n; intros s; cbn [repeat seq map]; [reflexivity|].
    rewrite (IHn (S s)). reflexivity.
  Qed.
  Lemma buffer_ext n ign j L L' : (forall i, (i < j)%nat -> L i = L' i) -> buffer n ign j L = buffer n ign j L'.
  Proof.
    intros H. apply map_ext. intros i. destruct (Nat.ltb_spec i j); cbn; [|reflexivity].
    rewrite H by lia. reflexivity.
  Qed.
  Lemma buffer_skip n ign j L : ign j = true -> buffer n ign j L = buffer n ign (S j) L.
  Proof.
    intros H. apply map_ext. intros i. destruct (Nat.eq_dec i j) as [->|N].
    - rewrite H, andb_false_r, andb_false_r. reflexivity.
    - replace (i <? S j)%nat with (i <? j)%nat; [reflexivity|].
      destruct (Nat.ltb_spec i j), (Nat.ltb_spec i (S j)); try reflexivity; lia.
  Qed.
  Lemma buffer_set n ign j L : (j < n)%nat -> ign j = false -> set_nth j (L j) (buffer n ign j L) = buffer n ign (S j) L.
  Proof.
    intros Hj H. apply nth_ext with (d := vzero) (d' := vzero); [rewrite set_nth_length, !buffer_length; reflexivity|].
    intros i Hi. rewrite set_nth_length, buffer_length in Hi. rewrite nth_set_nth, buffer_length, !buffer_nth by lia.
    replace (j <? n)%nat with true by (symmetry; apply Nat.ltb_lt; lia). rewrite andb_true_r.
    destruct (Nat.eqb_spec i j) as [->|N].
    - replace (j <? S j)%nat with true by (symmetry; apply Nat.ltb_lt; lia). rewrite H. reflexivity.
    - replace (i <? S j)%nat with (i <? j)%nat; [reflexivity|].
      destruct (Nat.ltb_spec i j), (Nat.ltb_spec i (S j)); try reflexivity; lia.
  Qed.

  Lemma sum_prev_stages_spec (a : list R) : forall (b : list Y) n x, length a = n -> length b = n ->
    sum_prev_stages b a x = sum_n n (fun i => nth i a 0 * nth i b vzero x).
  Proof.
    induction a as [|c a IH]; intros [|u b] n x Ha Hb; cbn in Ha, Hb; subst n; try discriminate; [reflexivity|].
    rewrite sum_n_shift. cbn [sum_prev_stages nth]. unfold vadd at 1, vscale at 1. f_equal.
    apply IH; [reflexivity|]. congruence.
  Qed.

  (** A row whose entries at values not computed are zero *)
  Lemma sum_buffer n ign j (L : nat -> Y) (row : list R) (c : nat -> R) x :
    length row = n -> (forall i, (i < n)%nat -> nth i row 0 = c i) ->
    (forall i, (i < n)%nat -> (j <= i)%nat \/ ign i = true -> c i = 0) ->
    sum_prev_stages (buffer n ign j L) row x = lin n c L x.
  Proof.
    intros Hl Hc Hz. rewrite (sum_prev_stages_spec row _ n) by (auto; apply buffer_length).
    apply sum_n_ext. intros i Hi. rewrite Hc, buffer_nth by lia.
    destruct (Nat.ltb_spec i j); cbn; [destruct (ign i) eqn:Gi; cbn|].
    - rewrite Hz by auto. unfold vzero. ring.
    - reflexivity.
    - rewrite Hz by auto. unfold vzero. ring.
  Qed.
End Buffers.

Lemma shape_lower_nth i a j : shape_lower i a = true -> (j < length a)%nat -> length (nth j a []) = S (i + j).
Proof.
  revert i j. induction a as [|r a IH]; intros i j H Hj; cbn in *; [lia|].
  apply andb_true_iff in H as [H1 H2]. apply Nat.eqb_eq in H1. destruct j; [lia|].
  rewrite (IH (S i) j H2) by lia. lia.
Qed.
Lemma embed_row a j : shape_lower 0 a = true -> (j < S (length a))%nat ->
  length (nth j (rembed_a_lower a) []) = S (length a) /\
  forall i, (i < S (length a))%nat -> nth i (nth j (rembed_a_lower a) []) 0 = lower_entry a j i.
Proof.
  intros H Hj. unfold rembed_a_lower.
  replace (nth j (map (rpad_row (S (length a))) ([] :: a)) []) with (rpad_row (S (length a)) (nth j ([] :: a) [])).
  2: { rewrite <- (map_nth (rpad_row (S (length a))) ([] :: a) [] j). apply nth_indep. rewrite map_length. cbn. lia. }
  assert (L : length (nth j ([] :: a) []) = j).
  { destruct j; cbn; [reflexivity|]. rewrite (shape_lower_nth 0 a j H) by lia. lia. }
  unfold rpad_row. split.
  - rewrite app_length, repeat_length, L. lia.
  - intros i Hi. unfold lower_entry. destruct (Nat.ltb_spec i j) as [Lt|Ge].
    + rewrite app_nth1 by lia. destruct j; [lia|]. cbn [nth]. replace (S j - 1)%nat with j by lia. reflexivity.
    + rewrite app_nth2 by lia. apply nth_repeat.
Qed.
Lemma lower_entry_diag a j i : (j <= i)%nat -> lower_entry a j i = 0.
Proof. intros H. unfold lower_entry. destruct (Nat.ltb_spec i j); [lia|reflexivity]. Qed.
Lemma map2_map {A B C} (f : A -> B -> C) (g : A -> B) (l : list A) : map2 f l (map g l) = map (fun x => f x (g x)) l.
Proof. induction l; cbn; [reflexivity|]. rewrite IHl. reflexivity. Qed.

(** What the assertions of the constructor say *)
Lemma post_init_parts tab : spost_init_ok tab = true ->
  let n := length (st_b_sol tab) in
  n = S (length (st_a tab)) /\ shape_lower 0 (st_a tab) = true /\
  (forall e, st_b_error tab = Some e -> length e = n) /\
  check n (st_coeffs_w tab) = true /\
  (forall c, st_coeffs_hh tab = Some c -> is_additive c = is_additive_noise tab /\ check n c = true) /\
  (forall c, st_coeffs_kk tab = Some c -> is_additive c = is_additive_noise tab /\ check n c = true /\ st_coeffs_hh tab <> None).
Proof.
  unfold spost_init_ok. cbv zeta. intros H.
  repeat (apply andb_true_iff in H as [H ?]).
  apply Nat.eqb_eq in H. repeat match goal with X : Nat.eqb _ _ = true |- _ => apply Nat.eqb_eq in X end.
  split; [lia|]. split; [assumption|]. split.
  { intros e E. rewrite E in *. cbn in *. repeat match goal with X : Nat.eqb _ _ = true |- _ => apply Nat.eqb_eq in X end. assumption. }
  split; [assumption|]. split.
  - intros c E. rewrite E in *. cbn [opt_all] in *.
    match goal with X : Bool.eqb (is_additive c) _ && _ = true |- _ => apply andb_true_iff in X as [X1 X2] end.
    apply eqb_prop in X1. auto.
  - intros c E. rewrite E in *. cbn [opt_all] in *.
    match goal with X : negb _ && _ = true |- _ => apply andb_true_iff in X as [X0 X3] end.
    apply andb_true_iff in X3 as [X1 X2]. apply eqb_prop in X1. split; [auto|]. split; [auto|].
    intros N. rewrite N in X0. discriminate.
Qed.

Section General.
  Context {I J J' K : Type}.
  Notation Y := (I -> R).
  Context (tab : stableau) (drift : term I J R) (diffusion : term I J' (K -> R)) (levy : R -> R -> bm_inc K).
  Context (t0 t1 : R) (y0 : Y).
  Hypothesis OK : spost_init_ok tab = true.
  Hypothesis UN : ignored_unused tab.
  Let n := length (st_b_sol tab).
  Let ignf := ignored (st_ignore_stage_f tab).
  Let igng := ignored (st_ignore_stage_g tab).
  Let tm j := t0 + column_c tab j * (t1 - t0).
  Lemma stage_time_tm j : stage_time tab t0 t1 j = tm j.
  Proof. unfold stage_time, tm, st_embed_c, st_h. destruct j; reflexivity. Qed.

  Lemma drift_row j : (j < n)%nat -> forall (F : nat -> Y),
    drift_sum tab (buffer n ignf j F) j = lin n (lower_entry (st_a tab) j) F.
  Proof.
    intros Hj F. extensionality x. unfold drift_sum.
    destruct (post_init_parts tab OK) as (N & S & _). fold n in N.
    destruct (embed_row (st_a tab) j S ltac:(lia)) as [L E].
    apply sum_buffer; [lia| |].
    - intros i Hi. apply E. lia.
    - intros i Hi [Ge|G]; [apply lower_entry_diag; lia|]. destruct UN as [U _]. apply (U i G).
  Qed.

  (** Additive noise *)
  Section Additive.
    Let carry j := fold_left (additive_stage tab drift diffusion levy t0 t1 y0) (seq 0 j) (make_zeros tab).
    Let noise j : Y :=
      add_levy_to_w (nth j (additive_a (st_coeffs_w tab)) 0) (map (fun c => nth j (additive_a c) 0) (st_coeffs_levy tab))
        (w_kg0 diffusion levy t0 t1 y0) (levy_kg0 tab diffusion levy t0 t1 y0).
    Let z j : Y := vadd (vadd y0 (drift_sum tab (carry j) j)) (noise j).
    Let F j : Y := t_vf_prod drift (tm j) (z j) (t1 - t0).
    Lemma additive_carry j : (j <= n)%nat -> carry j = buffer n ignf j F.
    Proof.
      induction j; intros Hj; [unfold carry; cbn [seq fold_left]; apply buffer_zeros|].
      unfold carry. rewrite seq_S, fold_left_app. cbn [fold_left plus]. fold (carry j).
      change (additive_stage tab drift diffusion levy t0 t1 y0 (carry j) j) with (insert_kf tab drift t0 t1 (carry j) (z j) j).
      unfold insert_kf. fold (ignf j). rewrite stage_time_tm. change (t_vf_prod drift (tm j) (z j) (st_h t0 t1)) with (F j).
      rewrite IHj by lia. destruct (ignf j) eqn:G.
      - apply buffer_skip. exact G.
      - apply buffer_set; [lia|exact G].
    Qed.
    Lemma noise_val j x : is_additive_noise tab = true ->
      noise j x = noise_a (Some (st_coeffs_w tab)) j 0 * t_prod diffusion (t_vf diffusion t0 y0) (bm_W (levy t0 t1)) x
        + noise_a (st_coeffs_hh tab) j 0 * t_prod diffusion (t_vf diffusion t0 y0) (bm_H (levy t0 t1)) x
        + noise_a (st_coeffs_kk tab) j 0 * t_prod diffusion (t_vf diffusion t0 y0) (bm_K (levy t0 t1)) x.
    Proof.
      intros A. destruct (post_init_parts tab OK) as (_ & _ & _ & _ & HH & KK).
      unfold noise, st_coeffs_levy, levy_kg0, add_levy_to_w, w_kg0, st_bm, g0, noise_a, entry.
      unfold is_additive_noise in *. destruct (st_coeffs_w tab) as [aw bw|]; [|discriminate].
      destruct (st_coeffs_hh tab) as [ch|]; [destruct (HH ch eq_refl) as [A1 _]; destruct ch as [ah bh|]; [|discriminate]|];
      (destruct (st_coeffs_kk tab) as [ck|]; [destruct (KK ck eq_refl) as (A2 & _ & NN); try (exfalso; apply NN; reflexivity); (destruct ck as [ak bk|]; [|discriminate])|]);
      cbn [opt_list app map levy_sum additive_a]; unfold vadd, vscale, vzero; ring.
    Qed.
    Lemma additive_F j : is_additive_noise tab = true -> (j < n)%nat ->
      z j = fun x => y0 x + lin n (lower_entry (st_a tab) j) F x
        + noise_a (Some (st_coeffs_w tab)) j 0 * t_prod diffusion (t_vf diffusion t0 y0) (bm_W (levy t0 t1)) x
        + noise_a (st_coeffs_hh tab) j 0 * t_prod diffusion (t_vf diffusion t0 y0) (bm_H (levy t0 t1)) x
        + noise_a (st_coeffs_kk tab) j 0 * t_prod diffusion (t_vf diffusion t0 y0) (bm_K (levy t0 t1)) x.
    Proof.
      intros A Hj. extensionality x. unfold z, vadd. rewrite additive_carry, drift_row, noise_val by (auto; lia). ring.
    Qed.
    Lemma error_drift (L : nat -> Y) e : st_b_error tab = Some e ->
      sum_prev_stages (buffer n ignf n L) e = lin n (entry e) L.
    Proof.
      intros E. extensionality x. destruct (post_init_parts tab OK) as (_ & _ & HE & _).
      apply sum_buffer; [apply HE; exact E|reflexivity|].
      intros i Hi [Ge|G]; [lia|]. apply (proj1 UN i G). exact E.
    Qed.
    Lemma result_drift (L : nat -> Y) : sum_prev_stages (buffer n ignf n L) (st_b_sol tab) = lin n (entry (st_b_sol tab)) L.
    Proof.
      extensionality x. apply (sum_buffer n ignf n L (st_b_sol tab) (entry (st_b_sol tab)) x); [reflexivity|reflexivity|].
      intros i Hi [Ge|G]; [lia|]. destruct (proj1 UN i G) as (_ & U & _). exact U.
    Qed.

    Lemma additive_main : is_additive_noise tab = true ->
      let p := t_prod diffusion in
      let g0 := t_vf diffusion t0 y0 in
      let g1 := t_vf diffusion t1 y0 in
      let bm := levy t0 t1 in
      let out := srk_step tab drift diffusion levy t0 t1 y0 in
      additive_equations tab drift t0 t1 y0 (p g0 (bm_W bm)) (p g0 (bm_H bm)) (p g0 (bm_K bm)) F /\
      (forall x, so_y out x = y0 x + lin n (entry (st_b_sol tab)) F x
         + noise_b (Some (st_coeffs_w tab)) 0 * p g0 (bm_W bm) x + noise_b (st_coeffs_hh tab) 0 * p g0 (bm_H bm) x
         + noise_b (st_coeffs_kk tab) 0 * p g0 (bm_K bm) x
         + p (fun j => 1 / 2 * (g1 j - g0 j))
             (match st_coeffs_hh tab with Some _ => fun k => bm_W bm k - 2 * bm_H bm k | None => bm_W bm end) x) /\
      so_error out = option_map (fun e => lin n (entry e) F) (st_b_error tab).
    Proof.
      intros A. cbv zeta. split; [|split].
      - intros j Hj. unfold F at 1. rewrite (additive_F j A Hj). reflexivity.
      - intros x. unfold srk_step. rewrite A. unfold additive_step, srk_finish. cbn [so_y]. cbv zeta.
        change (seq 0 (st_n tab)) with (seq 0 n). fold (carry n). rewrite additive_carry by lia. rewrite result_drift.
        unfold vadd at 1 2 3. rewrite Rplus_assoc. rewrite (Rplus_assoc _ _ (t_prod _ _ _ _)).
        rewrite !Rplus_assoc. do 2 f_equal.
        destruct (post_init_parts tab OK) as (_ & _ & _ & _ & HH & KK).
        unfold st_coeffs_levy, levy_kg0, add_levy_to_w, w_kg0, st_bm, g_delta, g0, noise_b, vscale at 1, vsub at 1.
        unfold is_additive_noise in *. destruct (st_coeffs_w tab) as [aw bw|]; [|discriminate].
        destruct (st_coeffs_hh tab) as [ch|]; [destruct (HH ch eq_refl) as [A1 _]; destruct ch as [ah bh|]; [|discriminate]|];
        (destruct (st_coeffs_kk tab) as [ck|]; [destruct (KK ck eq_refl) as (A2 & _ & NN); try (exfalso; apply NN; reflexivity); (destruct ck as [ak bk|]; [|discriminate])|]);
        cbn [opt_list app map levy_sum additive_b]; unfold vadd, vscale, vsub, vzero; ring.
      - unfold srk_step. rewrite A. unfold additive_step, srk_finish. cbn [so_error]. cbv zeta.
        change (seq 0 (st_n tab)) with (seq 0 n). fold (carry n). rewrite additive_carry by lia.
        destruct (st_b_error tab) as [e|] eqn:Ee; [|reflexivity]. cbn [option_map]. f_equal. apply error_drift. exact Ee.
    Qed.
  End Additive.

  (** General noise *)
  Section Noise.
    Hypothesis A : is_additive_noise tab = false.
    Let init : list Y * list Y * list (list Y) := (make_zeros tab, make_zeros tab, map (fun _ => make_zeros tab) (st_coeffs_levy tab)).
    Let gz (c : list Y * list Y * list (list Y)) (j : nat) : Y :=
      let '(h_kfs, w_kgs, levylist_kgs) := c in
      vadd (vadd y0 (drift_sum tab h_kfs j))
        (fold_left vadd
           (map2 (fun c levy_gs => sum_prev_stages levy_gs (nth j (rembed_a_lower (general_a c)) [])) (st_coeffs_levy tab) levylist_kgs)
           (sum_prev_stages w_kgs (nth j (rembed_a_lower (general_a (st_coeffs_w tab))) []))).
    Let carry j := fold_left (general_stage tab drift diffusion levy t0 t1 y0) (seq 0 j) init.
    Let z j : Y := gz (carry j) j.
    Let F j : Y := t_vf_prod drift (tm j) (z j) (t1 - t0).
    Let G (area : K -> R) j : Y := t_vf_prod diffusion (tm j) (z j) area.
    Let areas := st_levy_areas tab levy t0 t1.
    Lemma levy_lengths {B} (b : B) : map (fun _ => b) (st_coeffs_levy tab) = map (fun _ => b) areas.
    Proof.
      destruct (post_init_parts tab OK) as (_ & _ & _ & _ & _ & KK). unfold st_coeffs_levy, areas, st_levy_areas.
      destruct (st_coeffs_hh tab), (st_coeffs_kk tab) as [ck|]; try reflexivity.
      exfalso. apply (KK ck eq_refl). reflexivity.
    Qed.
    Lemma general_carry j : (j <= n)%nat ->
      carry j = (buffer n ignf j F, buffer n igng j (G (bm_W (levy t0 t1))), map (fun a => buffer n igng j (G a)) areas).
    Proof.
      induction j; intros Hj.
      { unfold carry, init. cbn [seq fold_left]. rewrite levy_lengths. f_equal; [f_equal; apply buffer_zeros|].
        apply map_ext. intros a. apply buffer_zeros. }
      unfold carry. rewrite seq_S, fold_left_app. cbn [fold_left plus]. fold (carry j).
      pose proof (eq_refl (z j)) as Ez. unfold z at 1 in Ez. rewrite IHj in * by lia. unfold gz in Ez.
      unfold general_stage. rewrite Ez. unfold insert_kf. fold (ignf j). fold (igng j). rewrite stage_time_tm. fold (F j).
      replace (if ignf j then buffer n ignf j F else set_nth j (t_vf_prod drift (tm j) (z j) (st_h t0 t1)) (buffer n ignf j F))
        with (buffer n ignf (S j) F).
      2: { destruct (ignf j) eqn:G0; [symmetry; apply buffer_skip; exact G0|]. symmetry. apply (buffer_set n ignf j F); [lia|exact G0]. }
      destruct (igng j) eqn:G0.
      - f_equal; [f_equal; apply buffer_skip; exact G0|]. apply map_ext. intros a. apply buffer_skip. exact G0.
      - f_equal; [f_equal; apply (buffer_set n igng j (G (bm_W (levy t0 t1)))); [lia|exact G0]|].
        change (st_levy_areas tab levy t0 t1) with areas. rewrite map2_map. apply map_ext. intros a.
        apply (buffer_set n igng j (G a)); [lia|exact G0].
    Qed.

    Lemma noise_row c j (L : nat -> Y) : In (Some c) [Some (st_coeffs_w tab); st_coeffs_hh tab; st_coeffs_kk tab] ->
      check n c = true -> is_additive c = false -> (j < n)%nat ->
      sum_prev_stages (buffer n igng j L) (nth j (rembed_a_lower (general_a c)) []) = lin n (noise_a (Some c) j) L.
    Proof.
      intros Ic Hc Ac Hj. extensionality x. destruct c as [|a b e]; [discriminate|]. cbn [check] in Hc.
      apply andb_true_iff in Hc as [Hc H4]. apply andb_true_iff in Hc as [Hc H3]. apply andb_true_iff in Hc as [H1 H2].
      apply Nat.eqb_eq in H2, H4. destruct (embed_row a j H1 ltac:(lia)) as [L1 E]. cbn [general_a].
      apply sum_buffer; [lia| |].
      - intros i Hi. apply E. lia.
      - intros i Hi [Ge|G1]; [apply lower_entry_diag; lia|].
        destruct (proj2 UN A i G1 _ Ic) as [U _]. apply U.
    Qed.
    Lemma noise_weights c (L : nat -> Y) : In (Some c) [Some (st_coeffs_w tab); st_coeffs_hh tab; st_coeffs_kk tab] ->
      check n c = true -> is_additive c = false ->
      sum_prev_stages (buffer n igng n L) (general_b c) = lin n (noise_b (Some c)) L.
    Proof.
      intros Ic Hc Ac. extensionality x. destruct c as [|a b e]; [discriminate|]. cbn [check] in Hc.
      apply andb_true_iff in Hc as [Hc H4]. apply Nat.eqb_eq in H4.
      apply sum_buffer; [exact H4|reflexivity|].
      intros i Hi [Ge|G1]; [lia|]. destruct (proj2 UN A i G1 _ Ic) as (_ & U & _). exact U.
    Qed.
    Lemma noise_errors c e (L : nat -> Y) : In (Some c) [Some (st_coeffs_w tab); st_coeffs_hh tab; st_coeffs_kk tab] ->
      check n c = true -> is_additive c = false -> general_e c = Some e ->
      sum_prev_stages (buffer n igng n L) e = lin n (noise_e (Some c)) L.
    Proof.
      intros Ic Hc Ac E. extensionality x. destruct c as [|a b e']; [discriminate|]. cbn [general_e] in E. subst e'. cbn [check] in Hc.
      apply andb_true_iff in Hc as [Hc H4]. apply andb_true_iff in Hc as [Hc H3]. cbn [opt_all] in H3. apply Nat.eqb_eq in H3, H4.
      apply sum_buffer; [congruence|reflexivity|].
      intros i Hi [Ge|G1]; [lia|]. destruct (proj2 UN A i G1 _ Ic) as (_ & _ & U). exact U.
    Qed.
    Lemma lin_0 (m : nat) (L : nat -> Y) x : lin m (fun _ => 0) L x = 0.
    Proof. unfold lin. apply sum_n_0. intros. ring. Qed.

    Notation GW := (G (bm_W (levy t0 t1))).
    Notation GH := (G (bm_H (levy t0 t1))).
    Notation GK := (G (bm_K (levy t0 t1))).
    (** Combining the contributions of [W], [H] and [K]. *)
    Lemma fold_noise (q : coeffs -> list Y -> Y) (r : option coeffs -> nat -> R) j :
      (forall c L, In (Some c) [Some (st_coeffs_w tab); st_coeffs_hh tab; st_coeffs_kk tab] ->
         check n c = true -> is_additive c = false -> q c (buffer n igng j L) = lin n (r (Some c)) L) ->
      (forall i, r None i = 0) ->
      fold_left vadd (map2 q (st_coeffs_levy tab) (map (fun a => buffer n igng j (G a)) areas)) (q (st_coeffs_w tab) (buffer n igng j GW))
      = fun x => lin n (r (Some (st_coeffs_w tab))) GW x + lin n (r (st_coeffs_hh tab)) GH x + lin n (r (st_coeffs_kk tab)) GK x.
    Proof.
      intros Q Z. destruct (post_init_parts tab OK) as (_ & _ & _ & W & HH & KK). fold n in W, HH, KK.
      assert (Z' : forall (L : nat -> Y) x, lin n (r None) L x = 0).
      { intros L x. unfold lin. apply sum_n_0. intros. rewrite Z. ring. }
      rewrite Q by (auto; left; reflexivity).
      unfold st_coeffs_levy, areas, st_levy_areas, st_bm.
      destruct (st_coeffs_hh tab) as [ch|]; [destruct (HH ch eq_refl) as [A1 C1]; rewrite A in A1|];
      (destruct (st_coeffs_kk tab) as [ck|]; [destruct (KK ck eq_refl) as (A2 & C2 & NN); rewrite A in A2; try (exfalso; apply NN; reflexivity)|]);
      cbn [opt_list app map map2 fold_left]; extensionality x; rewrite ?Q by (auto; cbn; auto); unfold vadd; rewrite ?Z'; ring.
    Qed.

    Lemma general_z j : (j < n)%nat -> z j = stage_state tab y0 F GW GH GK j.
    Proof.
      intros Hj. unfold z. rewrite general_carry by lia. unfold gz. rewrite drift_row by exact Hj.
      rewrite (fold_noise (fun c levy_gs => sum_prev_stages levy_gs (nth j (rembed_a_lower (general_a c)) [])) (fun o => noise_a o j)).
      - extensionality x. unfold vadd, stage_state. fold n. ring.
      - intros c L Ic Cc Ac. apply noise_row; assumption.
      - reflexivity.
    Qed.

    Lemma general_main :
      let out := srk_step tab drift diffusion levy t0 t1 y0 in
      srk_equations tab drift diffusion t0 t1 y0 (levy t0 t1) F GW GH GK /\
      (forall x, so_y out x = y0 x + lin n (entry (st_b_sol tab)) F x + lin n (noise_b (Some (st_coeffs_w tab))) GW x
         + lin n (noise_b (st_coeffs_hh tab)) GH x + lin n (noise_b (st_coeffs_kk tab)) GK x) /\
      so_error out = option_map (fun e => fun x => lin n (entry e) F x + lin n (noise_e (Some (st_coeffs_w tab))) GW x
         + lin n (noise_e (st_coeffs_hh tab)) GH x + lin n (noise_e (st_coeffs_kk tab)) GK x) (st_b_error tab).
    Proof.
      cbv zeta. split; [|split].
      - intros j Hj. cbv zeta. fold (tm j). rewrite <- general_z by exact Hj. auto.
      - intros x. unfold srk_step. rewrite A. unfold general_step. change (seq 0 (st_n tab)) with (seq 0 n). fold init.
        fold (carry n). rewrite general_carry by lia. unfold srk_finish. cbn [so_y]. cbv zeta.
        rewrite result_drift.
        rewrite (fold_noise (fun c levy_gs => sum_prev_stages levy_gs (general_b c)) noise_b).
        + unfold vadd. ring.
        + intros c L Ic Cc Ac. apply noise_weights; assumption.
        + reflexivity.
      - unfold srk_step. rewrite A. unfold general_step. change (seq 0 (st_n tab)) with (seq 0 n). fold init.
        fold (carry n). rewrite general_carry by lia. unfold srk_finish. cbn [so_error]. cbv zeta.
        destruct (st_b_error tab) as [e|] eqn:Ee; [|reflexivity]. cbn [option_map]. f_equal.
        rewrite (error_drift F e Ee).
        assert (P : has_b_error (st_coeffs_w tab) = true /\ opt_all has_b_error (st_coeffs_hh tab) = true /\ opt_all has_b_error (st_coeffs_kk tab) = true).
        { pose proof OK as O. unfold spost_init_ok in O. cbv zeta in O. rewrite Ee, A in O. cbn [is_none orb] in O.
          repeat (apply andb_true_iff in O as [O ?]). repeat match goal with X : _ && _ = true |- _ => apply andb_true_iff in X as [? ?] end. auto. }
        destruct P as (P1 & P2 & P3).
        assert (PP : forall c, has_b_error c = true -> exists e, general_e c = Some e).
        { intros [|? ? [e0|]] X; try discriminate X. eexists. reflexivity. }
        destruct (PP _ P1) as [ew Ew]. rewrite Ew.
        set (q := fun c levy_gs => sum_prev_stages levy_gs match general_e c with Some e => e | None => [] end).
        assert (R0 : sum_prev_stages (buffer n igng n GW) ew = q (st_coeffs_w tab) (buffer n igng n GW)) by (unfold q; rewrite Ew; reflexivity).
        change (@sum_prev_stages I) with (@sum_prev_stages I) in *. rewrite R0.
        rewrite (fold_noise q noise_e).
        + extensionality x. unfold vadd. ring.
        + intros c L Ic Cc Ac. unfold q.
          assert (Hc : has_b_error c = true).
          { cbn [In] in Ic. destruct Ic as [E|[E|[E|[]]]]; [injection E as <-; exact P1| |].
            - rewrite E in P2. exact P2.
            - rewrite E in P3. exact P3. }
          destruct (PP _ Hc) as [e0 E0]. rewrite E0. apply noise_errors; assumption.
        + reflexivity.
    Qed.
  End Noise.
End General.
