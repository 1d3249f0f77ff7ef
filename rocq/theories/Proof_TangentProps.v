(** Properties of forward-mode differentiation of a solve. *)
From Coq Require Import Reals List Bool Lra Lia Sorted.
From Coquelicot Require Import Coquelicot.
From Verif Require Import Model_Tangent Spec_Tangent Proof_Tangent.
Import ListNotations.
Open Scope R_scope.

(** * Values do not depend on tangents *)
Section Values.
  Context {P W O Er : NormedModule R_AbsRing}.
  Variables (sv : @solver P W O Er).

  Definition same_c (s s' : cstate) : Prop :=
    match s, s' with
    | SPid s, SPid s' => fst (prev_inv s) = fst (prev_inv s') /\ fst (prev_prev_inv s) = fst (prev_prev_inv s') /\ at_dtmin s = at_dtmin s'
    | SConstant k n a b, SConstant k' n' a' b' => k = k' /\ n = n' /\ fst a = fst a' /\ fst b = fst b'
    | SStepTo i, SStepTo i' => i = i'
    | _, _ => False
    end.
  Definition plain (x : dual R * dual R * R * bool) : R * R * R * bool :=
    (fst (fst (fst (fst x))), fst (snd (fst (fst x))), snd (fst x), snd x).
  Definition same (s s' : @lstate W O) : Prop :=
    fst (tprev s) = fst (tprev s') /\ fst (tnext s) = fst (tnext s') /\ fst (st s) = fst (st s') /\ same_c (cst s) (cst s') /\
    map fst (saved s) = map fst (saved s') /\ pending s = pending s' /\ map plain (trace s) = map plain (trace s').

  Lemma dmin_value x y x' y' : fst x = fst x' -> fst y = fst y' -> fst (dmin x y) = fst (dmin x' y').
  Proof. intros A B. unfold dmin. rewrite A, B. destruct (Rlt_dec _ _); [exact A|]. destruct (Rlt_dec _ _); [exact B|reflexivity]. Qed.
  Lemma dmax_value x y x' y' : fst x = fst x' -> fst y = fst y' -> fst (dmax x y) = fst (dmax x' y').
  Proof. intros A B. unfold dmax. rewrite A, B. destruct (Rlt_dec _ _); [exact B|]. destruct (Rlt_dec _ _); [exact A|reflexivity]. Qed.

  Lemma factor_value (c : @pid W Er) k i pi ppi i' pi' ppi' : fst i = fst i' -> fst pi = fst pi' -> fst ppi = fst ppi' ->
    fst (pid_factor c k i pi ppi) = fst (pid_factor c k i' pi' ppi').
  Proof.
    intros A B C. unfold pid_factor. apply dmin_value; [|reflexivity]. apply dmax_value; [|reflexivity].
    cbn. rewrite A, B, C. reflexivity.
  Qed.

  Lemma pid_value (c : @pid W Er) t0 t1 w0 w1 err s t0' t1' w0' w1' err' s' :
    fst t0 = fst t0' -> fst t1 = fst t1' -> fst w0 = fst w0' -> fst w1 = fst w1' -> fst err = fst err' -> same_c (SPid s) (SPid s') ->
    match pid_adapt c t0 t1 w0 w1 err s, pid_adapt c t0' t1' w0' w1' err' s' with
    | (k, a, b, s), (k', a', b', s') => k = k' /\ fst a = fst a' /\ fst b = fst b' /\ same_c (SPid s) (SPid s')
    end.
  Proof.
    intros T0 T1 W0 W1 Ee (S1 & S2 & S3). unfold pid_adapt. rewrite <- W0, <- W1, <- Ee, <- S3. cbn [fst snd].
    set (sc := scaled_error c (fst w0) (fst w1) (fst err)).
    set (k := match dtmin c with Some _ => ltb sc 1 || at_dtmin s | None => ltb sc 1 end).
    set (d1 := jvp_scaled c _ _ _ _ _ _). set (d2 := jvp_scaled c _ _ _ _ _ _). cbn [stop dlift fst snd]. clearbody sc d1 d2 k.
    set (f := pid_factor c k _ (prev_inv s) _). set (f' := pid_factor c k _ (prev_inv s') _).
    assert (Hf : fst f = fst f') by (unfold f, f'; apply factor_value; [reflexivity|exact S1|exact S2]). clearbody f f'.
    set (d := dmul (dsub t1 t0) _). set (d' := dmul (dsub t1' t0') _).
    assert (Hd : fst d = fst d') by (unfold d, d'; cbn; rewrite T0, T1, Hf; reflexivity). clearbody d d'. rewrite <- Hf. clear f' Hf.
    set (e := match dtmax c with Some m => dmin d (const m) | None => d end).
    set (e' := match dtmax c with Some m => dmin d' (const m) | None => d' end).
    assert (He : fst e = fst e') by (unfold e, e'; destruct (dtmax c); [apply dmin_value; [exact Hd|reflexivity]|exact Hd]). clearbody e e'.
    destruct (dtmin c) as [m|].
    - set (g := if at_dtmin s && _ then const m else e). set (g' := if at_dtmin s && _ then const m else e').
      assert (Hg : fst g = fst g') by (unfold g, g'; destruct (_ && _); [reflexivity|exact He]). clearbody g g'.
      split; [reflexivity|]. split; [destruct k; assumption|]. split; [|].
      + cbn. f_equal; [destruct k; assumption|]. apply dmax_value; [exact Hg|reflexivity].
      + cbn. rewrite Hg. repeat split; destruct k; try assumption; destruct (degenerate c _); reflexivity.
    - split; [reflexivity|]. split; [destruct k; assumption|]. split; [|].
      + cbn. f_equal; [destruct k; assumption|exact He].
      + cbn. repeat split; destruct k; try assumption; destruct (degenerate c _); reflexivity.
  Qed.

  Lemma adapt_value (c : @controller W Er) t0 t1 w0 w1 err s t0' t1' w0' w1' err' s' :
    fst t0 = fst t0' -> fst t1 = fst t1' -> fst w0 = fst w0' -> fst w1 = fst w1' -> fst err = fst err' -> same_c s s' ->
    match adapt c t0 t1 w0 w1 err s, adapt c t0' t1' w0' w1' err' s' with
    | (k, a, b, s), (k', a', b', s') => k = k' /\ fst a = fst a' /\ fst b = fst b' /\ same_c s s'
    end.
  Proof.
    intros T0 T1 W0 W1 Ee Hs.
    destruct c as [c| |l], s as [s|i n u v|i], s' as [s'|i' n' u' v'|i']; try contradiction Hs; cbn [adapt];
      try exact (conj eq_refl (conj T1 (conj T1 Hs))).
    - assert (H := pid_value c t0 t1 w0 w1 err s t0' t1' w0' w1' err' s' T0 T1 W0 W1 Ee Hs).
      destruct (pid_adapt c t0 _ _ _ _ _) as [[[? ?] ?] ?]. destruct (pid_adapt c t0' _ _ _ _ _) as [[[? ?] ?] ?]. exact H.
    - destruct Hs as (Ei & En & Hu & Hv). subst i' n'. unfold constant_adapt. cbn. repeat split; auto.
      destruct n as [|n]; [|destruct (Nat.eqb i n)]; cbn; rewrite ?Hu, ?Hv; reflexivity.
    - cbn in Hs. subst i'. unfold stepto_adapt. repeat split; auto.
  Qed.

  Lemma save_value (f f' : R -> dual O) upto ts : (forall t, fst (f t) = fst (f' t)) ->
    map fst (fst (save f upto ts)) = map fst (fst (save f' upto ts)) /\ snd (save f upto ts) = snd (save f' upto ts).
  Proof.
    intros H. induction ts as [|t ts (A & B)]; cbn; [auto|]. destruct (leb t upto); [|auto].
    destruct (save f upto ts), (save f' upto ts). cbn in *. rewrite H, A. auto.
  Qed.

  Lemma clip_value tp tn t1 floor k tp' tn' t1' : fst tp = fst tp' -> fst tn = fst tn' -> fst t1 = fst t1' ->
    fst (clip_to_end tp tn t1 floor k) = fst (clip_to_end tp' tn' t1' floor k).
  Proof. intros A B C. unfold clip_to_end. rewrite B. destruct (ltb _ _); [|exact B]. destruct k; cbn; rewrite ?A, ?C; reflexivity. Qed.

  Lemma body_value (c : @controller W Er) p p' t1 t1' floor s s' : fst p = fst p' -> fst t1 = fst t1' -> same s s' ->
    same (body sv c p t1 floor s) (body sv c p' t1' floor s').
  Proof.
    intros Hp H1 (A & B & C & D & F & G & HH). unfold body.
    set (w1 := dapp (step sv) _ p _ _ _). set (w1' := dapp (step sv) _ p' _ _ _).
    assert (Hw : fst w1 = fst w1') by (unfold w1, w1', dapp; cbn; rewrite Hp, A, B, C; reflexivity).
    set (er := dapp (error sv) _ p _ _ _). set (er' := dapp (error sv) _ p' _ _ _).
    assert (He : fst er = fst er') by (unfold er, er', dapp; cbn; rewrite Hp, A, B, C; reflexivity).
    assert (H := adapt_value c _ _ _ _ _ _ _ _ _ _ _ _ A B C Hw He D).
    destruct (adapt c (tprev s) _ _ _ _ _) as [[[k tp] tn] cs]. destruct (adapt c (tprev s') _ _ _ _ _) as [[[k' tp'] tn'] cs'].
    destruct H as (<- & Ha & Hb & Hc). clearbody w1 w1' er er'.
    assert (Hm := dmin_value tp t1 tp' t1' Ha H1). assert (Hcl := clip_value _ tn t1 floor k _ tn' t1' Hm Hb H1).
    destruct k.
    - destruct (save_value (fun t => dapp (out sv t) (jvp_out sv t) p (tprev s) (tnext s) (st s))
                 (fun t => dapp (out sv t) (jvp_out sv t) p' (tprev s') (tnext s') (st s')) (fst (tnext s)) (pending s)) as (S1 & S2).
      { intros t. unfold dapp. cbn. rewrite Hp, A, B, C. reflexivity. }
      rewrite B, G in S1, S2. rewrite B, G.
      destruct (save _ _ _) as (x, y). destruct (save _ _ _) as (x', y'). cbn in S1, S2. subst y'.
      unfold same. cbn [tprev tnext st cst saved pending trace]. repeat split; try assumption.
      + exact (eq_trans (map_app _ _ _) (eq_trans (f_equal2 (@app _) F S1) (eq_sym (map_app _ _ _)))).
      + refine (eq_trans (map_app _ _ _) (eq_trans (f_equal2 (@app _) HH _) (eq_sym (map_app _ _ _)))). unfold plain. cbn. rewrite A, B, Hb. reflexivity.
    - unfold same. cbn [tprev tnext st cst saved pending trace]. rewrite !app_nil_r. repeat split; try assumption.
      refine (eq_trans (map_app _ _ _) (eq_trans (f_equal2 (@app _) HH _) (eq_sym (map_app _ _ _)))). unfold plain. cbn. rewrite A, B, Hb. reflexivity.
  Qed.

  Lemma run_value (c : @controller W Er) n p p' t1 t1' floor s s' : fst p = fst p' -> fst t1 = fst t1' -> same s s' ->
    same (run n sv c p t1 floor s) (run n sv c p' t1' floor s').
  Proof.
    intros Hp H1. revert s s'. induction n as [|n IH]; intros s s' H; cbn; [exact H|].
    rewrite (proj1 H), H1. destruct (ltb _ _); [|exact H]. apply IH, body_value; assumption.
  Qed.

  Lemma init_value (c : @controller W Er) ns t0 t1 dt0 t0' t1' dt0' : fst t0 = fst t0' -> fst t1 = fst t1' -> fst dt0 = fst dt0' ->
    fst (fst (init c ns t0 t1 dt0)) = fst (fst (init c ns t0' t1' dt0')) /\
    same_c (snd (init c ns t0 t1 dt0)) (snd (init c ns t0' t1' dt0')).
  Proof.
    intros A B C. destruct c as [c| |l]; cbn [init fst snd].
    - split; [|cbn; auto]. cbn. f_equal; [exact A|].
      assert (H : fst (match dtmax c with Some m => dmin dt0 (const m) | None => dt0 end) =
                  fst (match dtmax c with Some m => dmin dt0' (const m) | None => dt0' end)).
      { destruct (dtmax c); [apply dmin_value; [exact C|reflexivity]|exact C]. }
      destruct (dtmin c); [apply dmax_value; [exact H|reflexivity]|exact H].
    - cbn. rewrite A, C. auto.
    - cbn. auto.
  Qed.

  Lemma solve_value (c : @controller W Er) n ns ts floor p w0 t0 t1 dt0 p' w0' t0' t1' dt0' :
    fst p = fst p' -> fst w0 = fst w0' -> fst t0 = fst t0' -> fst t1 = fst t1' -> fst dt0 = fst dt0' ->
    same (solve n sv c ns ts floor p w0 t0 t1 dt0) (solve n sv c ns ts floor p' w0' t0' t1' dt0').
  Proof.
    intros Hp Hw T0 T1 D0. unfold solve. destruct (init_value c ns t0 t1 dt0 t0' t1' dt0' T0 T1 D0) as (A & B).
    destruct (init c ns t0 t1 dt0) as (tn, cs). destruct (init c ns t0' t1' dt0') as (tn', cs'). cbn in A, B.
    apply run_value; [exact Hp|exact T1|]. unfold same. cbn. repeat split; auto. apply dmin_value; assumption.
  Qed.

  Lemma kept_plain (l : list (dual R * dual R * R * bool)) : values (kept l) = kept (map plain l).
  Proof.
    unfold kept, values. induction l as [|[[[a b] q] k] l IH]; [reflexivity|]. cbn. destruct k; cbn; rewrite IH; reflexivity.
  Qed.
  Lemma same_kept s s' : same s s' -> values (kept (trace s)) = values (kept (trace s')).
  Proof. intros (_ & _ & _ & _ & _ & _ & H). rewrite !kept_plain, H. reflexivity. Qed.

  (** Steps without tangents. *)
  Definition still (g : list (R * R)) : list (dual R * dual R) := map (fun ab => (const (fst ab), const (snd ab))) g.
  Lemma still_values l : List.Forall (fun ab => snd (fst ab) = 0 /\ snd (snd ab) = 0) l -> l = still (values l).
  Proof.
    intros H. induction H as [|[[a da] [b db]] l (A & B) _ IH]; [reflexivity|]. cbn in A, B. subst da db. exact (f_equal (cons ((a, 0), (b, 0))) IH).
  Qed.
  Lemma values_still g : values (still g) = g.
  Proof. unfold values, still. rewrite map_map. cbn. rewrite <- (map_id g) at 2. apply map_ext. intros [a b]. reflexivity. Qed.
  Lemma still_zero g : List.Forall (fun ab => snd (fst ab) = 0 /\ snd (snd ab) = 0) (still g).
  Proof. induction g; constructor; cbn; auto. Qed.
End Values.

(** * The properties *)
Section Props.
  Context {P W O Er : NormedModule R_AbsRing}.

  Lemma solve_still (sv : @solver P W O Er) (c : @controller W Er) n ns ts floor p w0 t0 t1 dt0 dp dw dp' dw' :
    kept (trace (solve n sv c ns ts floor (p, dp) (w0, dw) (const t0) (const t1) (const dt0))) =
    still (values (kept (trace (solve n sv c ns ts floor (p, dp') (w0, dw') (const t0) (const t1) (const dt0))))).
  Proof.
    rewrite (still_values _ (kept_zero _ (solve_zero sv c n ns ts floor (p, dp) (w0, dw) (const t0) (const t1) (const dt0) eq_refl eq_refl eq_refl))).
    f_equal. apply same_kept, solve_value; reflexivity.
  Qed.

  (** The tangent of the result is the derivative of solving on the steps that were kept. *)
  Lemma pf_C67_gradient (sv : @solver P W O Er) (c : @controller W Er) (n num_steps : nat) (ts : list R) (floor : R) (p : P) (w0 : W)
      (t0 t1 dt0 : R) :
    exists grid : list (R * R),
      (forall (dp : P) (dw : W),
         let r := solve n sv c num_steps ts floor (p, dp) (w0, dw) (const t0) (const t1) (const dt0) in
         values (kept (trace r)) = grid /\ fst (st r) = solve_on (step sv) grid p w0) /\
      (right_rules (step sv) (step sv) (jvp_step sv) grid p w0 ->
       gradient_at (solve_on (step sv) grid) p w0
         (fun dp dw => snd (st (solve n sv c num_steps ts floor (p, dp) (w0, dw) (const t0) (const t1) (const dt0))))).
  Proof.
    set (r0 := solve n sv c num_steps ts floor (p, zero) (w0, zero) (const t0) (const t1) (const dt0)).
    exists (values (kept (trace r0))). split.
    - intros dp dw r.
      assert (E : values (kept (trace r)) = values (kept (trace r0))) by (apply same_kept, solve_value; reflexivity).
      split; [exact E|]. unfold r. rewrite solve_st, tan_d_value. fold r. rewrite E. reflexivity.
    - intros HR.
      assert (Hz := kept_zero _ (solve_zero sv c n num_steps ts floor (p, zero) (w0, zero) (const t0) (const t1) (const dt0) eq_refl eq_refl eq_refl)).
      fold r0 in Hz. assert (HG := tan_d_gradient sv _ p w0 Hz HR).
      unfold gradient_at in *. eapply filterdiff_ext_lin; [exact HG|]. intros [dp dw]. cbn [fst snd].
      rewrite solve_st. refine (f_equal (fun l => snd (tan_d sv (p, dp) (w0, dw) l)) _).
      refine (eq_trans (still_values _ Hz) (eq_sym _)). exact (solve_still sv c n num_steps ts floor p w0 t0 t1 dt0 dp dw zero zero).
  Qed.

  (** With fixed steps this is the derivative of the result itself. *)
  Definition fixed (c : @controller W Er) : Prop := match c with CPid _ => False | _ => True end.

  Definition same_t (s s' : @lstate W O) : Prop :=
    fst (tprev s) = fst (tprev s') /\ fst (tnext s) = fst (tnext s') /\ same_c (cst s) (cst s') /\ map plain (trace s) = map plain (trace s').

  Lemma body_same_t (sv : @solver P W O Er) (c : @controller W Er) p p' t1 floor s s' : fixed c -> same_t s s' ->
    same_t (body sv c p t1 floor s) (body sv c p' t1 floor s').
  Proof.
    intros Hc (A & B & C & D). unfold body.
    assert (HA : forall w1 e w1' e', match adapt c (tprev s) (tnext s) (st s) w1 e (cst s), adapt c (tprev s') (tnext s') (st s') w1' e' (cst s') with
      | (k, a, b, s), (k', a', b', s') => k = k' /\ fst a = fst a' /\ fst b = fst b' /\ same_c s s' end).
    { intros w1 e w1' e'. destruct c as [c| |l]; [contradiction| |].
      - destruct (cst s) as [|i m u v|i], (cst s') as [|i' m' u' v'|i']; try contradiction C; try exact (conj eq_refl (conj B (conj B C))).
        destruct C as (Ei & Em & Hu & Hv). subst i' m'. cbn [adapt]. unfold constant_adapt. split; [reflexivity|]. split; [exact B|].
        split; [|cbn; auto]. destruct m as [|m]; [|cbn; destruct (Nat.eqb i m)]; cbn; rewrite ?Hu, ?Hv; reflexivity.
      - destruct (cst s) as [|i m u v|i], (cst s') as [|i' m' u' v'|i']; try contradiction C; try exact (conj eq_refl (conj B (conj B C))).
        cbn in C. subst i'. cbn. repeat split; auto. }
    set (w1 := dapp (step sv) _ p _ _ _). set (w1' := dapp (step sv) _ p' _ _ _).
    set (er := dapp (error sv) _ p _ _ _). set (er' := dapp (error sv) _ p' _ _ _). specialize (HA w1 er w1' er').
    destruct (adapt c (tprev s) _ _ _ _ _) as [[[k tp] tn] cs]. destruct (adapt c (tprev s') _ _ _ _ _) as [[[k' tp'] tn'] cs'].
    destruct HA as (<- & Ha & Hb & Hcs).
    destruct (if k then save _ _ (pending s) else _) as (x, y). destruct (if k then save _ _ (pending s') else _) as (x', y').
    assert (Hm := dmin_value tp t1 tp' t1 Ha eq_refl). unfold same_t. cbn [tprev tnext cst trace].
    split; [exact Hm|]. split; [apply clip_value; auto|]. split; [exact Hcs|].
    refine (eq_trans (map_app _ _ _) (eq_trans (f_equal2 (@app _) D _) (eq_sym (map_app _ _ _)))). unfold plain. cbn. rewrite A, B, Hb. reflexivity.
  Qed.

  Lemma solve_same_t (sv : @solver P W O Er) (c : @controller W Er) n ns ts floor p w0 t0 t1 dt0 p' w0' : fixed c ->
    same_t (solve n sv c ns ts floor p w0 t0 t1 dt0) (solve n sv c ns ts floor p' w0' t0 t1 dt0).
  Proof.
    intros Hc. unfold solve. destruct (init_value c ns t0 t1 dt0 t0 t1 dt0 eq_refl eq_refl eq_refl) as (_ & B).
    destruct (init c ns t0 t1 dt0) as (tn, cs). cbn in B.
    set (s := LState _ _ w0 _ _ _ _). set (s' := LState _ _ w0' _ _ _ _).
    assert (H : same_t s s') by (unfold same_t; cbn; auto). clearbody s s'. revert s s' H.
    induction n as [|n IH]; intros s s' H; cbn; [exact H|]. rewrite (proj1 H). destruct (ltb _ _); [|exact H].
    apply IH, body_same_t; assumption.
  Qed.

  Lemma pf_C67_fixed (sv : @solver P W O Er) (c : @controller W Er) (n num_steps : nat) (ts : list R) (floor : R) (p : P) (w0 : W)
      (t0 t1 dt0 : R) :
    (c = CConstant \/ exists l, c = CStepTo l) ->
    (forall p a b w, step_derivative (step sv) p a b w (jvp_step sv p a b w)) ->
    gradient_at (fun p w => fst (st (solve n sv c num_steps ts floor (p, zero) (w, zero) (const t0) (const t1) (const dt0)))) p w0
      (fun dp dw => snd (st (solve n sv c num_steps ts floor (p, dp) (w0, dw) (const t0) (const t1) (const dt0)))).
  Proof.
    intros Hc HD. assert (Hf : fixed c) by (destruct Hc as [->|(l & ->)]; exact I).
    destruct (pf_C67_gradient sv c n num_steps ts floor p w0 t0 t1 dt0) as (grid & HV & HG).
    assert (HR : right_rules (step sv) (step sv) (jvp_step sv) grid p w0) by (intros be a b af _; apply HD).
    specialize (HG HR). eapply gradient_ext; [|exact HG]. intros p' w'. cbv beta.
    destruct (pf_C67_gradient sv c n num_steps ts floor p' w' t0 t1 dt0) as (grid' & HV' & _).
    destruct (HV' zero zero) as (E1 & E2). destruct (HV zero zero) as (E3 & _). refine (eq_trans _ (eq_sym E2)).
    refine (f_equal (fun g => solve_on (step sv) g p' w') _). refine (eq_trans (eq_sym E3) (eq_trans _ E1)).
    rewrite !kept_plain. refine (f_equal kept _).
    destruct (solve_same_t sv c n num_steps ts floor (p, zero) (w0, zero) (const t0) (const t1) (const dt0) (p', zero) (w', zero) Hf) as (_ & _ & _ & H).
    exact H.
  Qed.

  (** The same for the values at requested times. *)
  Lemma pf_C67_saved (sv : @solver P W O Er) (c : @controller W Er) (n num_steps : nat) (ts : list R) (floor : R) (p : P) (w0 : W)
      (t0 t1 dt0 : R) (i : nat) (o : O) :
    StronglySorted Rle ts ->
    let r := fun (dp : P) (dw : W) => solve n sv c num_steps ts floor (p, dp) (w0, dw) (const t0) (const t1) (const dt0) in
    let grid := values (kept (trace (r zero zero))) in
    nth_error (map fst (saved (r zero zero))) i = Some o ->
    exists t before a b after,
      nth_error ts i = Some t /\ grid = before ++ (a, b) :: after /\ List.Forall (fun ab => snd ab < t) before /\ t <= b /\
      o = out sv t p a b (solve_on (step sv) before p w0) /\
      (right_rules (step sv) (step sv) (jvp_step sv) before p w0 ->
       step_derivative (out sv t) p a b (solve_on (step sv) before p w0) (jvp_out sv t p a b (solve_on (step sv) before p w0)) ->
       gradient_at (fun p w => out sv t p a b (solve_on (step sv) before p w)) p w0
         (fun dp dw => snd (nth i (saved (r dp dw)) (zero, zero)))).
  Proof.
    intros HS r grid Ho.
    assert (HI : forall dp dw, Inv sv (p, dp) (w0, dw) ts (r dp dw)) by (intros; apply solve_inv; exact HS).
    assert (HK : forall dp dw, kept (trace (r dp dw)) = still grid) by (intros; apply solve_still).
    assert (HL : forall dp dw, map fst (saved (r dp dw)) = map fst (saved (r zero zero))).
    { intros dp dw. destruct (solve_value sv c n num_steps ts floor (p, dp) (w0, dw) (const t0) (const t1) (const dt0) (p, zero) (w0, zero)
        (const t0) (const t1) (const dt0) eq_refl eq_refl eq_refl eq_refl eq_refl) as (_ & _ & _ & _ & H & _). exact H. }
    assert (HO : forall dp dw, exists t before a b after, nth_error ts i = Some t /\ grid = before ++ (a, b) :: after /\
       List.Forall (fun ab => snd ab < t) before /\ t <= b /\
       nth i (saved (r dp dw)) (zero, zero) = dapp (out sv t) (jvp_out sv t) (p, dp) (const a) (const b) (tan_d sv (p, dp) (w0, dw) (still before)) /\
       nth_error (map fst (saved (r dp dw))) i = Some (fst (nth i (saved (r dp dw)) (zero, zero)))).
    { intros dp dw. destruct (HI dp dw) as (_ & (dn & H2 & H3) & _). rewrite HK in H3.
      assert (Hi : (i < length (saved (r dp dw)))%nat).
      { assert (HLen : length (saved (r dp dw)) = length (map fst (saved (r zero zero))))
          by exact (eq_trans (eq_sym (map_length _ _)) (f_equal (@length _) (HL dp dw))).
        rewrite HLen. apply nth_error_Some. rewrite Ho. discriminate. }
      assert (Hn := nth_error_nth' (saved (r dp dw)) (zero, zero) Hi).
      assert (HF : exists t, nth_error dn i = Some t /\ saved_from sv (p, dp) (w0, dw) (still grid) t (nth i (saved (r dp dw)) (zero, zero))).
      { clear - H3 Hi. revert i Hi. induction H3 as [|t o dn l Ht _ IH]; intros [|i] Hi; cbn in Hi; try lia.
        - exists t. split; [reflexivity|exact Ht].
        - cbn. apply IH. lia. }
      destruct HF as (t & Ht & be & a & b & af & E & F & G & H).
      assert (E' : grid = values be ++ (fst a, fst b) :: values af).
      { rewrite <- (values_still grid), E. unfold values. rewrite map_app. reflexivity. }
      assert (Hz := still_zero grid). rewrite E in Hz. apply Forall_app in Hz. destruct Hz as (Hbe & Hab). assert (Hx := Forall_inv Hab). destruct Hx as (Ha & Hb).
      exists t, (values be), (fst a), (fst b), (values af). split.
      { rewrite H2, nth_error_app1; [exact Ht|]. apply nth_error_Some. rewrite Ht. discriminate. }
      split; [exact E'|]. split.
      { unfold values. apply Forall_forall. intros ab Hx. apply in_map_iff in Hx. destruct Hx as (y & <- & Hy). cbn.
        rewrite Forall_forall in F. exact (F y Hy). }
      split; [exact G|]. split.
      { rewrite H, <- (still_values be Hbe). destruct a as [a da], b as [b db]. cbn in Ha, Hb. rewrite Ha, Hb. reflexivity. }
      exact (map_nth_error fst i (saved (r dp dw)) Hn). }
    destruct (HO zero zero) as (t & be & a & b & af & H1 & H2 & H3 & H4 & H5 & H6).
    exists t, be, a, b, af. split; [exact H1|]. split; [exact H2|]. split; [exact H3|]. split; [exact H4|]. split.
    { assert (Eo : o = fst (nth i (saved (r zero zero)) (zero, zero))) by (assert (Q := eq_trans (eq_sym Ho) H6); injection Q as ->; reflexivity).
      refine (eq_trans Eo (eq_trans (f_equal fst H5) _)). unfold dapp. cbn [fst snd const].
      rewrite tan_d_value, values_still. reflexivity. }
    intros HR HD.
    assert (Hu : forall dp dw, nth i (saved (r dp dw)) (zero, zero) =
       dapp (out sv t) (jvp_out sv t) (p, dp) (const a) (const b) (tan_d sv (p, dp) (w0, dw) (still be))).
    { intros dp dw. destruct (HO dp dw) as (t' & be' & a' & b' & af' & H1' & H2' & H3' & H4' & H5' & _).
      rewrite H1' in H1. injection H1 as ->.
      assert (Eq : be' = be /\ a' = a /\ b' = b).
      { rewrite H2' in H2. clear - H2 H3 H3' H4 H4'. revert be H2 H3. induction be' as [|x be' IH]; intros [|y be] H2 H3; cbn in H2.
        - injection H2 as -> -> _. auto.
        - injection H2 as <- _. inversion H3 as [|? ? Hx _]; subst. cbn in Hx. lra.
        - injection H2 as -> _. inversion H3' as [|? ? Hx _]; subst. cbn in Hx. lra.
        - injection H2 as -> H2. destruct (IH (Forall_inv_tail H3') _ H2 (Forall_inv_tail H3)) as (-> & -> & ->). auto. }
      destruct Eq as (-> & -> & ->). exact H5'. }
    assert (HG := tan_d_gradient sv (still be) p w0 (still_zero be)). rewrite values_still in HG. specialize (HG HR).
    unfold gradient_at, step_derivative in *.
    set (X := prod_NormedModule R_AbsRing P W).
    assert (D1 : @filterdiff R_AbsRing X P fst (locally ((p, w0) : X)) fst) by (apply filterdiff_linear, is_linear_fst).
    assert (D2 : @filterdiff R_AbsRing X R_NormedModule (fun _ => a) (locally ((p, w0) : X)) (fun _ => zero)) by (apply filterdiff_const).
    assert (D3 : @filterdiff R_AbsRing X R_NormedModule (fun _ => b) (locally ((p, w0) : X)) (fun _ => zero)) by (apply filterdiff_const).
    assert (HX := diff_pair _ _ _ _ _ D1 (diff_pair _ _ _ _ _ D2 (diff_pair _ _ _ _ _ D3 HG))).
    assert (HC := @filterdiff_comp' R_AbsRing X (prod_NormedModule R_AbsRing P (prod_NormedModule R_AbsRing R_NormedModule
             (prod_NormedModule R_AbsRing R_NormedModule W))) O _
             (fun q => out sv t (fst q) (fst (snd q)) (fst (snd (snd q))) (snd (snd (snd q)))) (p, w0) _
             (fun d => jvp_out sv t p a b (solve_on (step sv) be p w0) (fst d) (fst (snd d)) (fst (snd (snd d))) (snd (snd (snd d)))) HX HD).
    eapply filterdiff_ext_lin; [exact HC|]. intros [dp dw]. cbn [fst snd]. rewrite Hu. unfold dapp. cbn [fst snd const].
    rewrite tan_d_value, values_still. reflexivity.
  Qed.
End Props.

(** * Gradients with respect to the ends of the interval *)
Section Ends.
  Context {P W O Er : NormedModule R_AbsRing}.
  Variables (sv : @solver P W O Er) (c : @pid W Er) (floor t1v sg ta : R).

  Definition proposal {A : Type} (x : A * A * R * bool) : R := snd (fst x).
  Definition Good1 (tr : list (dual R * dual R * R * bool)) : Prop :=
    List.Forall (fun x => proposal x <= floor /\ fst (snd (fst (fst x))) < t1v) tr.
  Definition Good2 (tr : list (dual R * dual R * R * bool)) : Prop :=
    exists l x, tr = l ++ [x] /\ Good1 l /\ floor < proposal x /\ fst (snd (fst (fst x))) < t1v /\ snd x = true.
  Definition Good3 (tr : list (dual R * dual R * R * bool)) : Prop := exists l x, tr = l ++ [x] /\ Good2 l.
  Definition shifted (tr : list (dual R * dual R * R * bool)) : Prop :=
    List.Forall (fun x => snd (fst (fst (fst x))) = sg /\ snd (snd (fst (fst x))) = sg) tr.

  Definition J (s : @lstate W O) : Prop :=
    (exists ps, cst s = SPid ps) /\
    (Good1 (trace s) -> fst (tprev s) < t1v /\ snd (tprev s) = sg /\ (fst (tnext s) < t1v -> snd (tnext s) = sg) /\ shifted (trace s)) /\
    (Good2 (trace s) -> snd (tprev s) = sg /\ snd (tnext s) = ta /\ shifted (trace s)) /\
    (Good3 (trace s) -> exists l a b q k, trace s = l ++ [((a, sg), (b, ta), q, k)] /\ shifted l).

  Lemma snoc_inj {A : Type} (l l' : list A) x x' : l ++ [x] = l' ++ [x'] -> l = l' /\ x = x'.
  Proof. apply app_inj_tail. Qed.

  Lemma dmin_lt x y : fst x < fst y -> dmin x y = x.
  Proof. intros H. unfold dmin. destruct (Rlt_dec _ _); [reflexivity|contradiction]. Qed.

  Lemma body_J p s : floor < t1v -> J s -> J (body sv (CPid c) p (t1v, ta) floor s).
  Proof.
    intros Hfl ((ps & Hps) & J1 & J2 & J3). unfold body. rewrite Hps. cbn [adapt].
    destruct (pid_adapt c _ _ _ _ _ _) as [[[k tp] tn] cs] eqn:E.
    destruct (if k then save _ _ (pending s) else _) as (new, pend).
    unfold J. cbn [tprev tnext cst trace]. split; [exists cs; reflexivity|].
    (* the next step from a state in which both ends move with [sg] *)
    assert (Hstep : Good1 (trace s) -> fst (tnext s) < t1v ->
              fst (dmin tp (t1v, ta)) < t1v /\ snd (dmin tp (t1v, ta)) = sg /\ snd tn = sg /\
              shifted (trace s ++ [(tprev s, tnext s, fst tn, k)])).
    { intros HG Hn. destruct (J1 HG) as (A & B & C & D). specialize (C Hn).
      destruct (pid_tangent _ _ _ _ _ _ _ _ _ _ _ E (eq_trans C (eq_sym B))) as (Ta & Tb). rewrite B in Ta, Tb.
      assert (Htp : fst tp < t1v).
      { unfold pid_adapt in E. destruct (match dtmin c with Some m => _ | None => _ end) as (dd, am).
        injection E as Ek Ea _ _. rewrite <- Ea. destruct k; rewrite Ek; assumption. }
      rewrite (dmin_lt tp (t1v, ta)) by exact Htp. repeat split; try assumption.
      apply Forall_app. split; [exact D|]. constructor; [cbn; auto|constructor]. }
    split; [|split].
    - intros HG. apply Forall_app in HG. destruct HG as (HG & He). apply Forall_inv in He. destruct He as (He1 & He2). cbn in He1, He2.
      destruct (Hstep HG He2) as (S1 & S2 & S3 & S4). repeat split; try assumption.
      intros _. unfold clip_to_end, ltb. cbn [fst snd]. destruct (Rlt_dec floor (fst tn)); [lra|exact S3].
    - intros (l & x & El & HG & Hq & Hx & Hk). destruct (snoc_inj _ _ _ _ El) as (<- & <-). cbn in Hq, Hx, Hk. subst k.
      destruct (Hstep HG Hx) as (S1 & S2 & S3 & S4). repeat split; try assumption.
      unfold clip_to_end, ltb. cbn [fst snd]. destruct (Rlt_dec floor (fst tn)); [reflexivity|contradiction].
    - intros (l & x & El & HG). destruct (snoc_inj _ _ _ _ El) as (<- & <-). destruct (J2 HG) as (A & B & C).
      exists (trace s), (fst (tprev s)), (fst (tnext s)), (fst tn), k. split; [|exact C]. rewrite <- A, <- B. destruct (tprev s), (tnext s). reflexivity.
  Qed.

  Lemma solve_J n ns ts p w0 t0 dt0 : floor < t1v -> t0 < t1v ->
    J (solve n sv (CPid c) ns ts floor p w0 (t0, sg) (t1v, ta) (const dt0)).
  Proof.
    intros Hfl H0. unfold solve. cbn [init].
    set (d := match dtmax c with Some m => dmin (const dt0) (const m) | None => const dt0 end).
    assert (Hd : snd d = 0) by (unfold d; destruct (dtmax c); [apply dmin_zero|]; reflexivity). clearbody d.
    set (d' := match dtmin c with Some m => dmax d (const m) | None => d end).
    assert (Hd' : snd d' = 0) by (unfold d'; destruct (dtmin c); [apply dmax_zero; [exact Hd|reflexivity]|exact Hd]). clearbody d'.
    set (s := LState _ _ _ _ _ _ _).
    assert (H : J s).
    { unfold J, s. cbn [tprev tnext cst trace]. split; [eexists; reflexivity|]. split; [|split].
      - intros _. cbn [fst snd]. repeat split; [exact H0| |constructor].
        unfold dmin. cbn [dadd fst snd]. destruct (Rlt_dec _ _); [intros _; cbn; rewrite Hd'; ring|].
        destruct (Rlt_dec _ _); cbn; intros Hx; lra.
      - intros (l & x & El & _). destruct l; discriminate.
      - intros (l & x & El & _). destruct l; discriminate. }
    clearbody s. revert s H. induction n as [|n IH]; intros s H; cbn [run]; [exact H|]. destruct (ltb _ _); [|exact H]. apply IH, body_J; assumption.
  Qed.

  (** The first end of the interval moves all steps but the end of the last, the second end moves that. *)
  Definition shift (ab : R * R) : @mstep (prod_NormedModule R_AbsRing R_NormedModule R_NormedModule) := ((fst ab, fst), (snd ab, fst)).
  Definition shift_last (a b : R) : @mstep (prod_NormedModule R_AbsRing R_NormedModule R_NormedModule) := ((a, fst), (b, snd)).
End Ends.

Section EndsProps.
  Context {P W O Er : NormedModule R_AbsRing}.

  Lemma pf_C67_ends (sv : @solver P W O Er) (c : @pid W Er) (n num_steps : nat) (ts : list R) (floor : R) (p : P) (w0 : W)
      (t0 t1 dt0 : R) (before : list (R * R * R * bool)) (a' b' q' a b q : R) (k : bool) :
    t0 < t1 -> floor < t1 ->
    let r := fun (dp : P) (dw : W) (ds dt : R) =>
               solve n sv (CPid c) num_steps ts floor (p, dp) (w0, dw) (t0, ds) (t1, dt) (const dt0) in
    (* the steps attempted: the end of only the last one is [t1] *)
    map (fun x => (fst (fst (fst (fst x))), fst (snd (fst (fst x))), snd (fst x), snd x)) (trace (r zero zero 0 0))
      = before ++ [(a', b', q', true); (a, b, q, true)] ->
    List.Forall (fun x => snd (fst x) <= floor /\ snd (fst (fst x)) < t1) before -> b' < t1 -> floor < q' ->
    let grid := kept (before ++ [(a', b', q', true)]) in
    right_rules (step sv) (step sv) (jvp_step sv) (grid ++ [(a, b)]) p w0 ->
    @gradient_at P (prod_NormedModule R_AbsRing W (prod_NormedModule R_AbsRing R_NormedModule R_NormedModule)) W
      (fun p q => step sv p (a + fst (snd q)) (b + snd (snd q))
                    (solve_on (step sv) (map (fun ab => (fst ab + fst (snd q), snd ab + fst (snd q))) grid) p (fst q)))
      p (w0, (0, 0)) (fun dp dq => snd (st (r dp (fst dq) (fst (snd dq)) (snd (snd dq))))).
  Proof.
    intros Ht Hfl r Htr Hbe Hb' Hq' grid HR.
    set (Z := prod_NormedModule R_AbsRing R_NormedModule R_NormedModule).
    set (ms := map shift grid ++ [shift_last a b]).
    assert (HL : List.Forall linear_ends ms).
    { apply Forall_app. split.
      - clear. induction grid; constructor; [|assumption]. split; exact (@is_linear_fst R_AbsRing R_NormedModule R_NormedModule).
      - constructor; [|constructor]. split; [exact (@is_linear_fst R_AbsRing R_NormedModule R_NormedModule)|
                                              exact (@is_linear_snd R_AbsRing R_NormedModule R_NormedModule)]. }
    assert (HM : map at_rest ms = grid ++ [(a, b)]).
    { unfold ms. rewrite map_app, map_map. cbn. f_equal. rewrite <- (map_id grid) at 2. apply map_ext. intros [x y]. reflexivity. }
    assert (HD := tan_on_derivative (step sv) (jvp_step sv) ms p w0 HL). rewrite HM in HD. specialize (HD HR).
    (* the steps kept, with their tangents *)
    assert (HK : forall dp dw (dz : Z), kept (trace (r dp dw (fst dz) (snd dz))) = map (dual_of dz) ms).
    { intros dp dw [sg ta]. cbn [fst snd].
      assert (HP : map plain (trace (r dp dw sg ta)) = before ++ [(a', b', q', true); (a, b, q, true)]).
      { rewrite <- Htr.
        destruct (solve_value sv (CPid c) n num_steps ts floor (p, dp) (w0, dw) (t0, sg) (t1, ta) (const dt0) (p, zero) (w0, zero)
          (t0, 0) (t1, 0) (const dt0) eq_refl eq_refl eq_refl eq_refl eq_refl) as (_ & _ & _ & _ & _ & _ & H). exact H. }
      destruct (solve_J sv c floor t1 sg ta n num_steps ts (p, dp) (w0, dw) t0 dt0 Hfl Ht) as (_ & _ & _ & HJ).
      fold (r dp dw sg ta) in HJ. set (tr := trace (r dp dw sg ta)) in *.
      (* take the trace apart *)
      assert (Hs : exists u x y, tr = (u ++ [x]) ++ [y] /\ map plain u = before /\ plain x = (a', b', q', true) /\ plain y = (a, b, q, true)).
      { clear - HP. revert HP. destruct tr as [|y tr _] using rev_ind; intros HP; [destruct before; discriminate|].
        destruct tr as [|x tr _] using rev_ind; [destruct before as [|? [|? ?]]; discriminate|].
        rewrite !map_app in HP. cbn [map] in HP. change [(a', b', q', true); (a, b, q, true)] with ([(a', b', q', true)] ++ [(a, b, q, true)]) in HP.
        rewrite app_assoc in HP. apply app_inj_tail in HP. destruct HP as (HP & Hy). apply app_inj_tail in HP. destruct HP as (HP & Hx).
        exists tr, x, y. auto. }
      destruct Hs as (u & x & y & Etr & Hu & Hx & Hy). clearbody tr. subst tr.
      assert (HG : Good3 floor t1 ((u ++ [x]) ++ [y])).
      { exists (u ++ [x]), y. split; [reflexivity|]. exists u, x. split; [reflexivity|]. split; [|].
        - unfold Good1. rewrite Forall_forall in Hbe |- *. intros z Hz. apply (in_map plain) in Hz. rewrite Hu in Hz.
          exact (Hbe _ Hz).
        - unfold plain in Hx. unfold proposal. destruct x as [[[xa xb] xq] xk]. cbn in Hx |- *. injection Hx as _ X1 X2 X3. rewrite X1, X2.
          repeat split; assumption. }
      destruct (HJ HG) as (l & ya & yb & yq & yk & El & Hsh). apply app_inj_tail in El. destruct El as (<- & ->).
      unfold plain in Hy. cbn in Hy. injection Hy as -> -> -> ->. rewrite kept_snoc. unfold ms. rewrite map_app. cbn [map].
      refine (f_equal2 (@app _) _ eq_refl). unfold grid. rewrite <- Hu, <- Hx.
      change [plain x] with (map plain [x]). rewrite <- map_app. clear - Hsh.
      induction (u ++ [x]) as [|[[[[za dza] [zb dzb]] zq] zk] v IH]; [reflexivity|].
      assert (Hv := Forall_inv Hsh). cbn in Hv. destruct Hv as (-> & ->). specialize (IH (Forall_inv_tail Hsh)).
      destruct zk; cbn; [|exact IH]. exact (f_equal (cons _) IH). }
    unfold gradient_at in *. eapply filterdiff_ext_lin.
    - eapply filterdiff_ext; [|exact HD]. intros [q1 [q2 q3]]. cbn [fst snd]. unfold ms. rewrite map_app, map_map.
      exact (solve_on_snoc (step sv) (map (fun x => move q3 (shift x)) grid) (a + fst q3) (b + snd q3) q1 q2).
    - intros [dp [dw dz]]. cbn [fst snd]. unfold r. rewrite solve_st. fold (r dp dw (fst dz) (snd dz)).
      refine (eq_sym (eq_trans (f_equal (fun l => snd (tan_d sv (p, dp) (w0, dw) l)) (HK dp dw dz)) _)).
      exact (f_equal snd (tan_d_tan_on sv (p, dp) (w0, dw) dz ms)).
  Qed.
End EndsProps.
