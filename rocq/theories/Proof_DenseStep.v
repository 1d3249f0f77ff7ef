(** The dense output of the steps of the shipped solvers on smooth equations. *)
From Coq Require Import ZArith Reals QArith Qreals Qabs List Bool Arith Lia Lra.
From Verif Require Import Model_Result Model_RK Model_Tableaus Model_Terms Model_Orders Model_Interp Model_DenseOutput.
From Verif Require Import Spec_RK Spec_Order Spec_DenseOrder Proof_Terms Proof_BSeries Proof_RK Proof_RKProp Proof_RKStep Proof_Order Proof_OrderStep
  Proof_RKShipped Proof_OrderCheck Proof_DenseOrder Proof_DenseCheck Proof_DenseMethods Proof_DenseSolvers.
Import ListNotations.
Open Scope R_scope.

(** ** What the constructors check, for a list of tableaus *)
Definition valid_tabsb (s : nat) (tabs : list tableau) : bool :=
  forallb (fun t => post_init_ok t && (num_stages t =? s)%nat && (negb (fsal t) || ends_at_endsb t)) tabs &&
  (length (filter implicit tabs) <=? 1)%nat && negb (match tabs with [] => true | _ => false end).

Lemma two_true {A} (f : A -> bool) l : forall p q a b, nth_error l p = Some a -> nth_error l q = Some b ->
  f a = true -> f b = true -> (length (filter f l) <= 1)%nat -> p = q.
Proof.
  assert (Z : forall l q b, nth_error l q = Some b -> f b = true -> (0 < length (filter f l))%nat).
  { clear l. intros l q b H F. apply nth_error_In in H. assert (I : In b (filter f l)) by (apply filter_In; split; assumption).
    destruct (filter f l); [destruct I|cbn; lia]. }
  induction l as [|x l IH]; intros p q a b Hp Hq Fa Fb HL; [destruct p; discriminate|].
  destruct p as [|p], q as [|q]; cbn in Hp, Hq; auto.
  - injection Hp as ->. cbn in HL. rewrite Fa in HL. cbn in HL. pose proof (Z _ _ _ Hq Fb). lia.
  - injection Hq as ->. cbn in HL. rewrite Fb in HL. cbn in HL. pose proof (Z _ _ _ Hp Fa). lia.
  - f_equal. eapply IH; eauto. cbn in HL. destruct (f x); cbn in HL; lia.
Qed.

Lemma good_order d q eps : good d q eps -> dense_order (dm_interpolation d) (tabs_of d) (stages d) eps q.
Proof.
  intros (W & deg & e & IN & HQ & He & HC). exists (fun tab j i => Q2R (W tab j i)), deg. split; [exact IN|].
  intros t th Hn Hp Hs Hth. eapply Rle_trans; [|exact He].
  apply (columns_conditions (tabs_of d) (stages d) W deg q e); auto. lia.
Qed.

Section DenseStep.
  Context {I : Type}.
  Notation Y := (I -> R).

  Lemma nth_error_parts : forall tabs (fs : list (R -> Y -> Y)) p tab trm, nth_error (ode_parts (combine tabs fs)) p = Some (tab, trm) ->
    nth_error tabs p = Some tab /\ exists f, trm = ode_term f.
  Proof.
    induction tabs as [|tab0 tabs IH]; intros [|f fs] [|p] tab trm H; try discriminate; cbn in H.
    - injection H as <- <-. split; [reflexivity|]. exists f. reflexivity.
    - apply IH in H. exact H.
  Qed.

  Lemma valid_tabs s tabs (fs : list (R -> Y -> Y)) : length tabs = length fs -> valid_tabsb s tabs = true ->
    valid_parts s (ode_parts (combine tabs fs)) /\ fsal_at_ends (ode_parts (combine tabs fs)).
  Proof.
    intros LE H. unfold valid_tabsb in H. apply andb_prop in H as (H & N). apply andb_prop in H as (H & U). rewrite forallb_forall in H.
    apply Nat.leb_le in U.
    assert (X : forall tab trm, In (tab, trm) (ode_parts (combine tabs fs)) -> In tab tabs /\ exists f, trm = ode_term f).
    { intros tab trm Hin. apply In_nth_error in Hin as (p & Hp). apply nth_error_parts in Hp as (Hp & Hf). split; [|exact Hf].
      eapply nth_error_In, Hp. }
    split; [split; [|split]|].
    - destruct tabs as [|t tabs], fs as [|f fs]; try discriminate.
    - intros tab trm Hin. destruct (X _ _ Hin) as (Ht & f & ->). specialize (H _ Ht). apply andb_prop in H as (H & _).
      apply andb_prop in H as (H1 & H2). apply Nat.eqb_eq in H2. repeat split; auto. intros a b u v c x. cbn. ring.
    - intros p q tab tab' m m' Hp Hq Fa Fb. apply nth_error_parts in Hp as (Hp & _). apply nth_error_parts in Hq as (Hq & _).
      eapply (two_true implicit tabs); eauto.
    - intros tab trm Hin F. destruct (X _ _ Hin) as (Ht & f & ->). specialize (H _ Ht). apply andb_prop in H as (_ & H).
      rewrite F in H. cbn in H. unfold ends_at_endsb in H. apply andb_prop in H as (H1 & H2). split; apply Qeq_bool_eq; assumption.
  Qed.

  (** The result of a step as a linear combination of the stages *)
  Lemma step_y_value (sv : solver I I R) s tabs (fs : list (R -> Y -> Y)) t0 h y0 others state mj :
    length tabs = length fs -> sv_parts sv = ode_parts (combine tabs fs) ->
    valid_parts s (sv_parts sv) -> fsal_at_ends (sv_parts sv) ->
    coherent (sv_parts sv) t0 y0 mj state ->
    (exact_root_finder (sv_root_finder sv) \/ implicit_index sv = None) ->
    let out := rk_step sv t0 (t0 + h) y0 others state mj in
    is_okay (ro_result out) = true ->
    forall x, ro_y out x = y0 x + sum_n (length tabs) (fun c => sum_n s (fun i => coef_b (part_tableau tabs c) i * stages_of out c i x)).
  Proof.
    intros LE PS VP FE CO EX out OK x.
    destruct (step_correct sv s VP t0 (t0 + h) y0 others state mj CO (fsal_ends _ FE) OK EX) as (k & _ & HY & _ & (L1 & L2) & _).
    fold out in HY, L1, L2.
    assert (LP : length (sv_parts sv) = length tabs) by (rewrite PS; unfold ode_parts; rewrite map_length, combine_length; lia).
    rewrite LP in L1, L2.
    assert (SO : forall c i x, (c < length tabs)%nat -> (i < s)%nat -> stages_of out c i x = k c i x).
    { intros c i z Hc Hi. unfold stages_of. destruct (L2 c Hc) as (_ & HK). specialize (HK i Hi). unfold vzero in HK. rewrite HK. reflexivity. }
    rewrite HY. unfold rk_solution, combination. rewrite LP. f_equal. apply sum_n_ext. intros c Hc.
    destruct (nth_error (sv_parts sv) c) as [(tab & trm)|] eqn:E.
    - rewrite PS in E. apply nth_error_parts in E as (E & _). unfold part_tableau. rewrite (nth_error_nth _ _ _ E).
      apply sum_n_ext. intros i Hi. rewrite SO by assumption. reflexivity.
    - apply nth_error_None in E. lia.
  Qed.

  (** The dense output as a linear combination of the stages *)
  Lemma dense_step_value (sv : solver I I R) s tabs (fs : list (R -> Y -> Y)) interp w t0 h y0 others state mj :
    length tabs = length fs -> sv_parts sv = ode_parts (combine tabs fs) ->
    valid_parts s (sv_parts sv) -> fsal_at_ends (sv_parts sv) -> interpolates interp tabs s w -> 0 < h ->
    coherent (sv_parts sv) t0 y0 mj state ->
    (exact_root_finder (sv_root_finder sv) \/ implicit_index sv = None) ->
    let out := rk_step sv t0 (t0 + h) y0 others state mj in
    is_okay (ro_result out) = true ->
    forall th x, dense_value interp t0 (t0 + h) y0 out (t0 + th * h) x =
      y0 x + sum_n (length fs) (fun c => sum_n s (fun i => w (part_tableau tabs c) th i * stages_of out c i x)).
  Proof.
    intros LE PS VP FE IN Hh CO EX out OK th x.
    destruct (step_correct sv s VP t0 (t0 + h) y0 others state mj CO (fsal_ends _ FE) OK EX) as (k & _ & HY & _ & (L1 & L2) & _).
    fold out in HY, L1, L2.
    assert (LP : length (sv_parts sv) = length tabs) by (rewrite PS; unfold ode_parts; rewrite map_length, combine_length; lia).
    rewrite LP in L1, L2.
    unfold dense_value.
    assert (KS : map (map (fun k => k x)) (ro_k out) = map (fun c => map (fun i => stages_of out c i x) (seq 0 s)) (seq 0 (length tabs))).
    { apply nth_ext with (d := []) (d' := []); rewrite !map_length, ?seq_length; [exact L1|].
      intros c Hc. rewrite L1 in Hc.
      rewrite (nth_indep _ [] (map (fun k => k x) [])) by (rewrite map_length; lia). rewrite map_nth.
      rewrite (nth_indep (map _ (seq _ _)) [] ((fun c => map (fun i => stages_of out c i x) (seq 0 s)) 0%nat)) by (rewrite map_length, seq_length; lia).
      rewrite (map_nth (fun c => map (fun i => stages_of out c i x) (seq 0 s))), seq_nth by lia. cbn [plus].
      destruct (L2 c Hc) as (LS & _).
      apply nth_ext with (d := 0) (d' := 0); rewrite !map_length, ?seq_length; [exact LS|]. intros i Hi. rewrite LS in Hi.
      transitivity (nth i (nth c (ro_k out) []) (fun _ => 0) x); [exact (map_nth (fun k : Y => k x) _ (fun _ => 0) i)|].
      rewrite (nth_indep (map _ (seq _ _)) 0 (stages_of out c 0 x)) by (rewrite map_length, seq_length; lia).
      rewrite (map_nth (fun i => stages_of out c i x)), seq_nth by lia. reflexivity. }
    rewrite KS.
    assert (YS : ro_y out x = y0 x + sum_n (length tabs) (fun c => sum_n s (fun i => coef_b (part_tableau tabs c) i * stages_of out c i x))).
    { apply (step_y_value sv s tabs fs t0 h y0 others state mj); assumption. }
    rewrite YS, (IN t0 h th (y0 x) (fun c i => stages_of out c i x) Hh), LE. reflexivity.
  Qed.

  Lemma pf_C58_step :
    forall (fs : list (R -> Y -> Y)) (q : nat) (t0 : R) (y0 : Y) (T : R) (y : R -> Y),
    0 < T -> (forall f, In f fs -> smooth q f t0 y0) -> exact_solution fs t0 y0 T y ->
    exists K, forall (sv : solver I I R) (tabs : list tableau) (s : nat) (interp : interpolation) (eps : R),
      length tabs = length fs -> sv_parts sv = ode_parts (combine tabs fs) ->
      valid_parts s (sv_parts sv) -> explicit_parts (sv_parts sv) -> fsal_at_ends (sv_parts sv) ->
      0 <= eps -> dense_order interp tabs s eps q ->
      exists C h0, 0 < h0 /\ forall h theta others state made_jump, 0 < h <= h0 -> 0 <= theta <= 1 ->
        coherent (sv_parts sv) t0 y0 made_jump state ->
        let out := rk_step sv t0 (t0 + h) y0 others state made_jump in
        bounded (fun x => dense_value interp t0 (t0 + h) y0 out (t0 + theta * h) x - y (t0 + theta * h) x)
                (K * eps * h + C * h ^ (q + 1)).
  Proof.
    intros fs q t0 y0 T y HT SM EX. destruct (dense_up_to q fs t0 y0 T y HT SM EX) as (K & HK & O).
    exists K. intros sv tabs s interp eps LE PS VP XP FE He (W & deg & IN & DC).
    set (k := fun h => stages_of (rk_step sv t0 (t0 + h) y0 false None false)).
    assert (KQ : forall h, rk_equations s (sv_parts sv) t0 (t0 + h) y0 (k h)).
    { intros h. destruct (pf_C28_step sv s t0 (t0 + h) y0 false None false VP XP FE Logic.I) as ((k' & Hk') & H).
      destruct (H k' Hk') as (_ & _ & Hk & _). eapply equations_ext; [|exact Hk']. intros m i x Hm Hi. symmetry. apply Hk; assumption. }
    assert (FAM : rk_family s (combine tabs fs) t0 y0 T k).
    { split.
      - intros h _. rewrite <- PS. apply KQ.
      - apply (explicit_vanish q s tabs fs t0 y0 T k HT LE SM).
        + intros c i j Hij. rewrite <- (combine_fst tabs fs LE). apply coef_a_explicit; [rewrite <- PS; exact XP|exact Hij].
        + intros h _. rewrite <- PS. apply KQ. }
    destruct (O tabs s k T LE HT FAM W deg eps He DC) as (C & h0 & HC & H0 & B).
    exists C, h0. split; [exact H0|]. intros h th others state mj Hh Hth CO out x.
    destruct (pf_C28_step sv s t0 (t0 + h) y0 others state mj VP XP FE CO) as (_ & HS).
    destruct (HS (k h) (KQ h)) as (_ & _ & Hk & OK). fold out in Hk, OK.
    rewrite (dense_step_value sv s tabs fs interp _ t0 h y0 others state mj LE PS VP FE IN);
      [|lra|exact CO|right; apply explicit_none, XP|fold out; rewrite OK; reflexivity]. fold out.
    replace (q + 1)%nat with (S q) by lia. eapply Rle_trans; [|apply (B h th Hh Hth x)]. right. do 3 f_equal.
    apply sum_n_ext. intros c Hc. apply sum_n_ext. intros i Hi. f_equal. unfold stages_of. apply Hk; [|exact Hi].
    rewrite PS. unfold ode_parts. rewrite map_length, combine_length. lia.
  Qed.

  Lemma pf_C58_implicit_step :
    forall (fs : list (R -> Y -> Y)) (q : nat) (t0 : R) (y0 : Y) (T : R) (y : R -> Y),
    0 < T -> (forall f, In f fs -> smooth q f t0 y0) -> exact_solution fs t0 y0 T y ->
    exists K, forall (sv : solver I I R) (tabs : list tableau) (s : nat) (interp : interpolation) (eps : R)
        (others : R -> bool) (state : R -> solver_state I) (made_jump : R -> bool),
      length tabs = length fs -> sv_parts sv = ode_parts (combine tabs fs) ->
      valid_parts s (sv_parts sv) -> exact_root_finder (sv_root_finder sv) -> fsal_at_ends (sv_parts sv) ->
      0 <= eps -> dense_order interp tabs s eps q ->
      let out h := rk_step sv t0 (t0 + h) y0 (others h) (state h) (made_jump h) in
      (forall h, 0 < h <= T -> coherent (sv_parts sv) t0 y0 (made_jump h) (state h) /\ is_okay (ro_result (out h)) = true) ->
      (forall delta, 0 < delta -> exists h1, 0 < h1 /\ forall h i, 0 < h <= h1 -> (i < s)%nat ->
         bounded (fun x => stage_value s (sv_parts sv) y0 (stages_of (out h)) i x - y0 x) delta) ->
      exists C h0, 0 < h0 /\ forall h theta, 0 < h <= h0 -> 0 <= theta <= 1 ->
        bounded (fun x => dense_value interp t0 (t0 + h) y0 (out h) (t0 + theta * h) x - y (t0 + theta * h) x)
                (K * eps * h + C * h ^ (q + 1)).
  Proof.
    intros fs q t0 y0 T y HT SM EX. destruct (dense_up_to q fs t0 y0 T y HT SM EX) as (K & HK & O).
    exists K. intros sv tabs s interp eps others state mj LE PS VP RF FE He (W & deg & IN & DC) out OK VAN.
    set (k := fun h => stages_of (out h)).
    assert (FAM : rk_family s (combine tabs fs) t0 y0 T k).
    { split; [|rewrite <- PS; exact VAN]. intros h Hh. rewrite <- PS. destruct (OK h Hh) as (CO & OKh).
      destruct (pf_C36_stages sv s t0 (t0 + h) y0 (others h) (state h) (mj h) VP RF FE CO) as (H & _).
      destruct (H OKh) as (k' & E & _ & _ & Hk). fold (out h) in *.
      eapply equations_ext; [|exact E]. intros m i x Hm Hi. symmetry. apply Hk; assumption. }
    destruct (O tabs s k T LE HT FAM W deg eps He DC) as (C & h0 & HC & H0 & B).
    exists C, (Rmin T h0). split; [apply Rmin_pos; lra|]. intros h th Hh Hth x.
    pose proof (Rmin_l T h0). pose proof (Rmin_r T h0). destruct (OK h ltac:(lra)) as (CO & OKh).
    unfold out at 1.
    rewrite (dense_step_value sv s tabs fs interp _ t0 h y0 (others h) (state h) (mj h) LE PS VP FE IN);
      [|lra|exact CO|left; exact RF|exact OKh]. fold (out h).
    replace (q + 1)%nat with (S q) by lia. apply (B h th ltac:(lra) Hth x).
  Qed.

  Lemma pf_C58_solvers : forall (d : dense_method) (q : nat) (eps : R) (tab : tableau) (f : R -> Y -> Y) (t0 : R) (y0 : Y) (T : R) (y : R -> Y),
    In (d, q, eps) [(heun_dense, 2%nat, 0); (midpoint_dense, 1%nat, 0); (ralston_dense, 1%nat, 0); (bosh3_dense, 3%nat, 0);
                    (dopri5_dense, 4%nat, 0); (tsit5_dense, 4%nat, / IZR (10 ^ 15)); (dopri8_dense, 5%nat, / IZR (10 ^ 13))] ->
    m_tableaus (dm_method d) = [tab] ->
    0 < T -> smooth q f t0 y0 -> exact_solution [f] t0 y0 T y ->
    exists K, forall sv : solver I I R, sv_parts sv = [(tab, ode_term f)] ->
    exists C h0, 0 < h0 /\ forall h theta others state made_jump, 0 < h <= h0 -> 0 <= theta <= 1 ->
      coherent (sv_parts sv) t0 y0 made_jump state ->
      let out := rk_step sv t0 (t0 + h) y0 others state made_jump in
      bounded (fun x => dense_value (dm_interpolation d) t0 (t0 + h) y0 out (t0 + theta * h) x - y (t0 + theta * h) x)
              (K * eps * h + C * h ^ (q + 1)).
  Proof.
    intros d q eps tab f t0 y0 T y Hd Ht HT SM EX.
    assert (X : good d q eps /\ 0 <= eps /\ valid_tabsb (stages d) [tab] = true /\ implicit tab = false).
    { assert (P : forall z, (0 < z)%Z -> 0 <= / IZR z) by (intros z Hz; left; apply Rinv_0_lt_compat, IZR_lt; exact Hz).
      repeat (destruct Hd as [Hd|Hd]; [injection Hd as <- <- <-; cbn in Ht; injection Ht as <-;
        (split; [first [exact good_heun|exact good_midpoint|exact good_ralston|exact good_bosh3|exact good_dopri5|exact good_tsit5|exact good_dopri8]|]);
        (split; [first [lra|apply P; reflexivity]|]); split; vm_compute; reflexivity|]). destruct Hd. }
    destruct X as (GD & He & VT & NI). apply good_order in GD. unfold tabs_of in GD. rewrite Ht in GD.
    destruct (pf_C58_step [f] q t0 y0 T y HT) as (K & O); [intros g [<-|[]]; exact SM|exact EX|].
    exists K. intros sv PS.
    assert (PS' : sv_parts sv = ode_parts (combine [tab] [f])) by exact PS.
    destruct (valid_tabs (stages d) [tab] [f] eq_refl VT) as (VP & FE). rewrite <- PS' in VP, FE.
    assert (XP : explicit_parts (sv_parts sv)) by (rewrite PS; intros tab' m' [Eq|[]]; injection Eq as <- <-; exact NI).
    exact (O sv [tab] (stages d) (dm_interpolation d) eps eq_refl PS' VP XP FE He GD).
  Qed.

  Lemma pf_C58_implicit_solvers : forall (d : dense_method) (q : nat) (eps : R) (fs : list (R -> Y -> Y)) (t0 : R) (y0 : Y) (T : R) (y : R -> Y),
    In (d, q, eps) [(kvaerno3_dense, 3%nat, 0); (kvaerno4_dense, 3%nat, 0); (kvaerno5_dense, 3%nat, / IZR (10 ^ 15)); (sil3_dense, 2%nat, 0);
                    (kencarp3_dense, 2%nat, / IZR (10 ^ 23)); (kencarp4_dense, 3%nat, / IZR (10 ^ 23)); (kencarp5_dense, 3%nat, / IZR (10 ^ 9))] ->
    let tabs := m_tableaus (dm_method d) in
    let s := m_stages (dm_method d) in
    length tabs = length fs ->
    0 < T -> (forall f, In f fs -> smooth q f t0 y0) -> exact_solution fs t0 y0 T y ->
    exists K, forall (sv : solver I I R) (others : R -> bool) (state : R -> solver_state I) (made_jump : R -> bool),
      sv_parts sv = ode_parts (combine tabs fs) -> exact_root_finder (sv_root_finder sv) ->
      let out h := rk_step sv t0 (t0 + h) y0 (others h) (state h) (made_jump h) in
      (forall h, 0 < h <= T -> coherent (sv_parts sv) t0 y0 (made_jump h) (state h) /\ is_okay (ro_result (out h)) = true) ->
      (forall delta, 0 < delta -> exists h1, 0 < h1 /\ forall h i, 0 < h <= h1 -> (i < s)%nat ->
         bounded (fun x => stage_value s (sv_parts sv) y0 (stages_of (out h)) i x - y0 x) delta) ->
      exists C h0, 0 < h0 /\ forall h theta, 0 < h <= h0 -> 0 <= theta <= 1 ->
        bounded (fun x => dense_value (dm_interpolation d) t0 (t0 + h) y0 (out h) (t0 + theta * h) x - y (t0 + theta * h) x)
                (K * eps * h + C * h ^ (q + 1)).
  Proof.
    intros d q eps fs t0 y0 T y Hd tabs s LE HT SM EX.
    assert (X : good d q eps /\ 0 <= eps /\ valid_tabsb (stages d) (tabs_of d) = true).
    { assert (P : forall z, (0 < z)%Z -> 0 <= / IZR z) by (intros z Hz; left; apply Rinv_0_lt_compat, IZR_lt; exact Hz).
      clear LE. repeat (destruct Hd as [Hd|Hd]; [injection Hd as <- <- <-;
        (split; [first [exact good_kvaerno3|exact good_kvaerno4|exact good_kvaerno5|exact good_sil3|exact good_kencarp3|exact good_kencarp4|exact good_kencarp5]|]);
        (split; [first [lra|apply P; reflexivity]|]); vm_compute; reflexivity|]). destruct Hd. }
    destruct X as (GD & He & VT). apply good_order in GD.
    destruct (pf_C58_implicit_step fs q t0 y0 T y HT SM EX) as (K & O).
    exists K. intros sv others state mj PS RF out OK VAN.
    destruct (valid_tabs (stages d) (tabs_of d) fs LE VT) as (VP & FE). unfold tabs_of in VP, FE. fold tabs in VP, FE. rewrite <- PS in VP, FE.
    exact (O sv tabs s (dm_interpolation d) eps others state mj LE PS VP RF FE He GD OK VAN).
  Qed.
End DenseStep.

(** C58: which conditions the shipped solvers meet. *)
Lemma pf_C58_conditions : forall (d : dense_method) (q : nat) (eps : R),
  In (d, q, eps)
     [(heun_dense, 2%nat, 0); (midpoint_dense, 1%nat, 0); (ralston_dense, 1%nat, 0); (bosh3_dense, 3%nat, 0);
      (dopri5_dense, 4%nat, 0); (tsit5_dense, 4%nat, / IZR (10 ^ 15)); (dopri8_dense, 5%nat, / IZR (10 ^ 13));
      (kvaerno3_dense, 3%nat, 0); (kvaerno4_dense, 3%nat, 0); (kvaerno5_dense, 3%nat, / IZR (10 ^ 15)); (sil3_dense, 2%nat, 0);
      (kencarp3_dense, 2%nat, / IZR (10 ^ 23)); (kencarp4_dense, 3%nat, / IZR (10 ^ 23)); (kencarp5_dense, 3%nat, / IZR (10 ^ 9))] ->
  dense_order (dm_interpolation d) (m_tableaus (dm_method d)) (m_stages (dm_method d)) eps q.
Proof.
  intros d q eps Hd. apply (good_order d q eps).
  repeat (destruct Hd as [Hd|Hd]; [injection Hd as <- <- <-;
    first [exact good_heun|exact good_midpoint|exact good_ralston|exact good_bosh3|exact good_dopri5|exact good_tsit5|exact good_dopri8
          |exact good_kvaerno3|exact good_kvaerno4|exact good_kvaerno5|exact good_sil3|exact good_kencarp3|exact good_kencarp4|exact good_kencarp5]|]).
  destruct Hd.
Qed.
