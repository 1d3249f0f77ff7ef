(** Superposition: solves of linear equations with steps that do not depend on the values. *)
From Coq Require Import ZArith Reals QArith Qreals List Bool Arith Lia Lra FunctionalExtensionality.
From Verif Require Import Model_Result Model_Loop Model_RK Model_Tableaus Model_Terms Model_Interp Model_DenseOutput Spec_Loop Spec_RK Spec_RKLoop
  Spec_Convergence Spec_Frame Spec_Related Spec_RelatedRK Spec_Superpose
  Proof_RKStep Proof_RK Proof_RKProp Proof_RKLoop Proof_LoopBasic Proof_Frame Proof_Related Proof_RelatedRK.
Import ListNotations.
Open Scope R_scope.

(** A solve has one outcome. *)
Lemma pf_C81_unique (Y SS CS DI E V MS : Type) (c : config Y SS CS DI E V MS) (i : initial Y SS CS MS) (o o' : outcome Y SS CS DI V MS) :
  solves c i o -> solves c i o' -> o = o'.
Proof.
  intros (s & f & I1 & L1 & F1) (s' & f' & I2 & L2 & F2). rewrite I1 in I2. injection I2 as <-.
  assert (f = f'); [|congruence]. unfold loop_final in *. destruct (cfg_max_steps c) as [m|]; [congruence|].
  destruct L1 as (n & -> & C1). destruct L2 as (n' & -> & C2).
  destruct (Nat.le_ge_cases n n') as [H|H].
  - replace n' with (n + (n' - n))%nat by lia. rewrite while_add, (while_stuck c _ (while_loop c n s)) by exact C1. reflexivity.
  - replace n with (n' + (n - n'))%nat by lia. rewrite while_add, (while_stuck c _ (while_loop c n' s)) by exact C2. reflexivity.
Qed.

Section Step.
  Context {I J C : Type}.
  Context (a b : R).
  Notation mx := (mix a b).
  Definition dense_mix (n s : nat) (d1 d2 d3 : (I -> R) * (I -> R) * list (list (I -> R))) : Prop :=
    fst (fst d3) = mx (fst (fst d1)) (fst (fst d2)) /\ snd (fst d3) = mx (snd (fst d1)) (snd (fst d2)) /\
    dense_ok n s d1 /\ dense_ok n s d2 /\ dense_ok n s d3 /\
    forall m i, (m < n)%nat -> (i < s)%nat -> nth i (nth m (snd d3) []) vzero = mx (nth i (nth m (snd d1) []) vzero) (nth i (nth m (snd d2) []) vzero).

  Lemma sum_mix n (f g : nat -> R) : sum_n n (fun i => a * f i + b * g i) = a * sum_n n f + b * sum_n n g.
  Proof. rewrite sum_n_plus, !sum_n_scal. reflexivity. Qed.
  Lemma inner_mix (coef : tableau -> nat -> R) s (ps : list (tableau * term I J C)) (k1 k2 : nat -> nat -> I -> R) x :
    combination coef s ps (fun m i => mx (k1 m i) (k2 m i)) x = a * combination coef s ps k1 x + b * combination coef s ps k2 x.
  Proof.
    unfold combination. rewrite <- sum_mix. apply sum_n_ext. intros m _. destruct (nth_error ps m) as [(tab & trm)|]; [|ring].
    rewrite <- sum_mix. apply sum_n_ext. intros i _. unfold mix. ring.
  Qed.

  Lemma step_mix (sv : solver I J C) s t0 t1 y z st1 st2 st3 j :
    valid_parts s (sv_parts sv) -> explicit_parts (sv_parts sv) -> fsal_at_ends (sv_parts sv) -> superposes a b (sv_parts sv) ->
    state_ok (sv_parts sv) st1 -> state_ok (sv_parts sv) st2 -> state_ok (sv_parts sv) st3 ->
    let o1 := rk_step sv t0 t1 y true st1 j in
    let o2 := rk_step sv t0 t1 z true st2 j in
    let o3 := rk_step sv t0 t1 (mx y z) true st3 j in
    ro_y o3 = mx (ro_y o1) (ro_y o2) /\
    dense_mix (length (sv_parts sv)) s (y, ro_y o1, ro_k o1) (z, ro_y o2, ro_k o2) (mx y z, ro_y o3, ro_k o3) /\
    state_ok (sv_parts sv) (ro_state o1) /\ state_ok (sv_parts sv) (ro_state o2) /\ state_ok (sv_parts sv) (ro_state o3) /\
    ro_result o1 = successful /\ ro_result o2 = successful /\ ro_result o3 = successful.
  Proof.
    intros V X FE SP S1 S2 S3. cbv zeta.
    assert (ONE : forall u st, state_ok (sv_parts sv) st -> let o := rk_step sv t0 t1 u true st j in
      ro_result o = successful /\ state_ok (sv_parts sv) (ro_state o) /\ dense_ok (length (sv_parts sv)) s (u, ro_y o, ro_k o) /\
      exists k, rk_equations s (sv_parts sv) t0 t1 u k /\ ro_y o = rk_solution s (sv_parts sv) u k /\
        forall m i, (m < length (sv_parts sv))%nat -> (i < s)%nat -> nth i (nth m (ro_k o) []) vzero = k m i).
    { intros u st S. cbv zeta. destruct (fresh_state sv t0 t1 u st j S) as (s0 & CO & ->). pose proof (explicit_none sv X) as NI.
      pose proof (explicit_result sv t0 t1 u true s0 false NI) as OK. split; [exact OK|].
      destruct (step_correct sv s V t0 t1 u true s0 false CO (fsal_ends _ FE)) as (k & EQ & YY & _ & (LK & HK) & ST).
      { rewrite OK. reflexivity. } { right. exact NI. }
      split; [rewrite ST; destruct (use_fsal sv); [cbn; apply map_length|exact Logic.I]|].
      split; [split; [exact LK|intros m Hm; apply (HK m Hm)]|]. exists k. split; [exact EQ|]. split; [exact YY|].
      intros m i Hm Hi. apply (HK m Hm), Hi. }
    destruct (ONE y st1 S1) as (R1 & T1 & D1 & k1 & E1 & Y1 & N1). destruct (ONE z st2 S2) as (R2 & T2 & D2 & k2 & E2 & Y2 & N2).
    destruct (ONE (mx y z) st3 S3) as (R3 & T3 & D3 & k3 & E3 & Y3 & N3). cbv zeta in *. clear ONE.
    assert (EM : rk_equations s (sv_parts sv) t0 t1 (mx y z) (fun m i => mx (k1 m i) (k2 m i))).
    { intros m tab trm i Hm Hi x.
      assert (Hin : In (tab, trm) (sv_parts sv)) by (eapply nth_error_In, Hm).
      assert (CT : consistent_term trm) by (pose proof Hin as Hin'; apply (proj1 (proj2 V)) in Hin'; apply Hin').
      unfold mix at 1. rewrite (E1 m tab trm i Hm Hi x), (E2 m tab trm i Hm Hi x), <- !CT.
      replace (stage_value s (sv_parts sv) (mx y z) (fun m0 i0 => mx (k1 m0 i0) (k2 m0 i0)) i)
        with (mx (stage_value s (sv_parts sv) y k1 i) (stage_value s (sv_parts sv) z k2 i)).
      { rewrite (SP tab trm Hin). reflexivity. }
      apply functional_extensionality. intros q. pose proof (inner_mix (fun tab => coef_a tab i) s (sv_parts sv) k1 k2 q) as IM. unfold combination in IM.
      unfold stage_value at 3. rewrite IM. unfold mix, stage_value. ring. }
    assert (U : forall m i, (m < length (sv_parts sv))%nat -> (i < s)%nat -> k3 m i = mx (k1 m i) (k2 m i)).
    { intros m i Hm Hi. apply functional_extensionality. intros x. apply (explicit_unique sv s t0 t1 (mx y z) k3 _ V X E3 EM i m Hm Hi). }
    assert (YM : ro_y (rk_step sv t0 t1 (mx y z) true st3 j) = mx (ro_y (rk_step sv t0 t1 y true st1 j)) (ro_y (rk_step sv t0 t1 z true st2 j))).
    { rewrite Y1, Y2, Y3. apply functional_extensionality. intros x. unfold rk_solution, mix at 2.
      replace (combination coef_b s (sv_parts sv) k3 x) with (combination coef_b s (sv_parts sv) (fun m i => mx (k1 m i) (k2 m i)) x).
      - rewrite inner_mix. unfold mix. ring.
      - unfold combination. apply sum_n_ext. intros m Hm. destruct (nth_error _ m) as [(tab & trm)|]; [|reflexivity]. apply sum_n_ext. intros i Hi.
        rewrite U by assumption. reflexivity. }
    split; [exact YM|]. split; [|tauto]. split; [reflexivity|]. split; [exact YM|]. repeat (split; [assumption|]).
    intros m i Hm Hi. cbn [snd]. rewrite N1, N2, N3, U by assumption. reflexivity.
  Qed.

  Lemma interp_mix n s (interp : interpolation) t0 t1 t d1 d2 d3 : affine_interpolation n s interp -> dense_mix n s d1 d2 d3 ->
    let at_ (d : (I -> R) * (I -> R) * list (list (I -> R))) := fun x => let '(y0, y1, k) := d in interp t0 t1 (y0 x) (y1 x) (map (map (fun u => u x)) k) t in
    at_ d3 = mx (at_ d1) (at_ d2).
  Proof.
    destruct d1 as [[y1 z1] k1], d2 as [[y2 z2] k2], d3 as [[y3 z3] k3]. intros AF (A & B & (L1 & H1) & (L2 & H2) & (L3 & H3) & K). cbn [fst snd] in *.
    cbv zeta. destruct (AF t0 t1 t) as (w0 & w1 & w & _ & F).
    assert (G : forall (u v : I -> R) (k : list (list (I -> R))) x, length k = n -> (forall m, (m < n)%nat -> length (nth m k []) = s) ->
      interp t0 t1 (u x) (v x) (map (map (fun u => u x)) k) t = w0 * u x + w1 * v x + sum_n n (fun m => sum_n s (fun i => w m i * nth i (nth m k []) vzero x))).
    { intros u v k x Lk Hk. rewrite F.
      - f_equal. apply sum_n_ext. intros m Hm. apply sum_n_ext. intros i Hi.
        change (@nil R) with (map (fun u : I -> R => u x) []). rewrite map_nth. f_equal. apply (map_nth (fun u : I -> R => u x) _ vzero).
      - rewrite map_length. exact Lk.
      - intros m Hm. change (@nil R) with (map (fun u : I -> R => u x) []). rewrite map_nth, map_length. apply Hk, Hm. }
    apply functional_extensionality. intros x. unfold mix. rewrite !G by assumption. rewrite A, B.
    rewrite (sum_n_ext n (fun m => sum_n s (fun i => w m i * nth i (nth m k3 []) vzero x))
      (fun m => a * sum_n s (fun i => w m i * nth i (nth m k1 []) vzero x) + b * sum_n s (fun i => w m i * nth i (nth m k2 []) vzero x))).
    - rewrite sum_mix. unfold mix. ring.
    - intros m Hm. rewrite <- sum_mix. apply sum_n_ext. intros i Hi. rewrite K by assumption. unfold mix. ring.
  Qed.
End Step.

(** Two solves in one, side by side. *)
Section Pair.
  Context {Y SS CS DI E V MS : Type}.
  Definition pair_sub (s : subsaveat Y V) : subsaveat (Y * Y) (V * V) :=
    SubSaveAt (sub_t0 s) (sub_t1 s) (sub_ts s) (sub_steps s) (fun t y => (sub_fn s t (fst y), sub_fn s t (snd y))).
  Definition pair_config (c : config Y SS CS DI E V MS) : config (Y * Y) (SS * SS) CS (DI * DI) E (V * V) MS :=
    Config (fun t0 t1 y s j =>
              let o1 := solver_step c t0 t1 (fst y) (fst s) j in
              let o2 := solver_step c t0 t1 (snd y) (snd s) j in
              StepOut (so_y o1, so_y o2) (so_error o1) (so_dense o1, so_dense o2) (so_state o1, so_state o2) (so_result o1))
      (nan_to_inf c) (fun t0 t1 d t => (interpolate c t0 t1 (fst d) t, interpolate c t0 t1 (snd d) t))
      (fun t0 t1 y y1 e s => adapt c t0 t1 (fst y) (fst y1) e s) (stepto_len c) (midpoint c) (meter_step c)
      (map pair_sub (cfg_subs c)) (cfg_dense c) None (cfg_t0 c) (cfg_t1 c) (cfg_max_steps c).
  Definition pair_start (i1 i2 : initial Y SS CS MS) : initial (Y * Y) (SS * SS) CS MS :=
    Initial (in_y i1, in_y i2) (in_tnext i1) (in_made_jump i1) (in_solver_state i1, in_solver_state i2) (in_controller_state i1) (in_meter i1) (in_pad i1).
End Pair.

Lemma all3_of {A B X : Type} {P : X -> A -> Prop} {Q : X -> B -> Prop} {D : Type} {W : X -> D -> Prop} (R : A -> B -> D -> Prop) l1 l2 l3 (lx : list X) :
  (forall x p q r, P x p -> Q x q -> W x r -> R p q r) -> Forall2 P lx l1 -> Forall2 Q lx l2 -> Forall2 W lx l3 -> all3 R l1 l2 l3.
Proof.
  intros H H1. revert l2 l3. induction H1 as [|x p lx l1 Hp _ IH]; intros l2 l3 H2 H3; inversion H2; subst; inversion H3; subst; cbn; [exact Logic.I|].
  split; [eapply H; eassumption|]. apply IH; assumption.
Qed.

Section Whole.
  Context {I J C CS V MS : Type}.
  Notation Y := (I -> R).
  Notation DI := (Y * Y * list (list Y))%type.
  Notation config := (config Y (solver_state J) CS DI (option Y) V MS).
  Notation initial := (initial Y (solver_state J) CS MS).
  Notation outcome := (outcome Y (solver_state J) CS DI V MS).

  Lemma pf_C81_superposition (a b : R) (c : config) (i1 i2 i3 : initial) (sv : solver I J C) (s : nat) (interp : interpolation) (time : Z -> R)
        (RV : V -> V -> V -> Prop) (o1 : outcome) :
    explicit_solve c i1 sv s interp time -> explicit_solve c i2 sv s interp time -> explicit_solve c i3 sv s interp time ->
    affine_interpolation (length (sv_parts sv)) s interp ->
    superposes a b (sv_parts sv) -> value_free c -> cfg_event c = None ->
    (forall sub t y z, In sub (cfg_subs c) -> RV (sub_fn sub t y) (sub_fn sub t z) (sub_fn sub t (mix a b y z))) ->
    in_y i3 = mix a b (in_y i1) (in_y i2) ->
    (forall i, In i [i1; i2] -> in_tnext i = in_tnext i3 /\ in_made_jump i = in_made_jump i3 /\ in_controller_state i = in_controller_state i3 /\ in_pad i = in_pad i3) ->
    solves c i1 o1 ->
    exists o2 o3, solves c i2 o2 /\ solves c i3 o3 /\ outcomes_mix a b RV c o1 o2 o3.
  Proof.
    intros ES1 ES2 ES3 AF SP VF NE HV Q0 Q SO.
    assert (CACHE : forall i, explicit_solve c i sv s interp time -> forall o, solves c i o <-> solves (set_step c (rk_solver_step sv time (fun _ _ _ _ _ => true))) i o).
    { intros i ((oth & E1) & E2 & E3 & VP & EX & FE & JF & (Inv & CC & IV) & AJ & MO & L1 & L2 & CO).
      exact (pf_C29_cache c i sv s time oth Inv E1 VP FE JF (or_introl EX) CC AJ MO L1 L2 IV CO). }
    assert (OK : forall i, explicit_solve c i sv s interp time -> state_ok (sv_parts sv) (in_solver_state i)).
    { intros i ((oth & E1) & E2 & E3 & VP & EX & FE & JF & (Inv & CC & IV) & AJ & MO & L1 & L2 & CO).
      destruct (in_solver_state i) as [(? & f)|]; [apply CO|exact Logic.I]. }
    pose proof (OK i1 ES1) as K1. pose proof (OK i2 ES2) as K2. pose proof (OK i3 ES3) as K3. clear OK.
    pose proof (proj1 (CACHE i1 ES1 o1) SO) as S1. pose proof (CACHE i2 ES2) as B2. pose proof (CACHE i3 ES3) as B3. clear CACHE.
    destruct ES1 as (_ & E2 & E3 & VP & EX & FE & _).
    set (al := set_step c (rk_solver_step sv time (fun _ _ _ _ _ => true))) in *.
    set (ps := sv_parts sv) in *.
    assert (STEP : forall t0 t1 y z st1 st2 st3 j, state_ok ps st1 -> state_ok ps st2 -> state_ok ps st3 -> _) by
      (intros t0 t1 y z st1 st2 st3 j A1 A2 A3; exact (step_mix a b sv s (time t0) (time t1) y z st1 st2 st3 j VP EX FE SP A1 A2 A3)).
    (* from the first solve to the pair *)
    destruct (pf_C76_related (fun u p => u = fst p) (fun st p => st = fst p /\ state_ok ps (fst p) /\ state_ok ps (snd p)) eq (fun d p => d = fst p)
                (fun _ _ => True) (fun v p => v = fst p) al (pair_config al) i1 (pair_start i1 i2) o1) as (op & SOP & OR1); [| |exact S1|].
    { split; [|split; [|split; [|split; [reflexivity|split; [reflexivity|split; [|split; [reflexivity|split; [|split; [reflexivity|split; reflexivity]]]]]]]]].
      - intros t0 t1 y (y', z) st (st1, st2) j A (B & A1 & A2). cbn [fst snd] in A, B, A1, A2. subst y' st1. cbn [pair_config solver_step so_y so_error so_dense so_state so_result fst snd].
        destruct (STEP t0 t1 y z st st2 st j A1 A2 A1) as (_ & _ & T1 & T2 & _).
        split; [reflexivity|]. split; [exact Logic.I|]. split; [reflexivity|]. split; [split; [reflexivity|split; assumption]|]. reflexivity.
      - intros t0 t1 d (d', ?) t A. cbn [fst] in A. subst d'. reflexivity.
      - intros t0 t1 y y' y1 y1' e e' cs cs' A1 A2 _ <-. cbn [pair_config adapt al set_step].
        rewrite (VF t0 t1 (fst y') y (fst y1') y1 e' e cs). repeat (split; [reflexivity|]). reflexivity.
      - cbn [pair_config cfg_subs]. induction (cfg_subs al) as [|sub l IH]; constructor; [|exact IH].
        repeat (split; [reflexivity|]). intros t y (y', ?) A. cbn [fst] in A. subst y'. reflexivity.
      - cbn [pair_config cfg_event al set_step]. rewrite NE. exact Logic.I. }
    { repeat (split; [reflexivity|]). split; [split; [reflexivity|split; assumption]|]. split; reflexivity. }
    (* from the pair to the second solve *)
    destruct (pf_C76_related (fun p u => u = snd p) (fun p st => st = snd p /\ state_ok ps (fst p) /\ state_ok ps (snd p)) eq (fun p d => d = snd p)
                (fun _ _ => True) (fun p v => v = snd p) (pair_config al) al (pair_start i1 i2) i2 op) as (o2 & S2 & OR2); [| |exact SOP|].
    { split; [|split; [|split; [|split; [reflexivity|split; [reflexivity|split; [|split; [reflexivity|split; [|split; [reflexivity|split; reflexivity]]]]]]]]].
      - intros t0 t1 (y, z') z (st1, st2') st2 j A (B & A1 & A2). cbn [fst snd] in A, B, A1, A2. subst z' st2'. cbn [pair_config solver_step so_y so_error so_dense so_state so_result fst snd].
        destruct (STEP t0 t1 y z st1 st2 st1 j A1 A2 A1) as (_ & _ & T1 & T2 & _ & R1 & R2 & _).
        split; [reflexivity|]. split; [exact Logic.I|]. split; [reflexivity|]. split; [split; [reflexivity|split; assumption]|].
        cbn [al set_step solver_step rk_solver_step so_result]. congruence.
      - intros t0 t1 (?, d') d t A. cbn [snd] in A. subst d'. reflexivity.
      - intros t0 t1 y y' y1 y1' e e' cs cs' A1 A2 _ <-. cbn [pair_config adapt al set_step].
        rewrite (VF t0 t1 (fst y) y' (fst y1) y1' e e' cs). repeat (split; [reflexivity|]). reflexivity.
      - cbn [pair_config cfg_subs]. induction (cfg_subs al) as [|sub l IH]; constructor; [|exact IH].
        repeat (split; [reflexivity|]). intros t (?, y') y A. cbn [snd] in A. subst y'. reflexivity.
      - cbn [pair_config cfg_event al set_step]. rewrite NE. exact Logic.I. }
    { destruct (Q i1 (or_introl eq_refl)) as (A1 & A2 & A3 & A4). destruct (Q i2 (or_intror (or_introl eq_refl))) as (A1' & A2' & A3' & A4').
      split; [reflexivity|]. split; [cbn; congruence|]. split; [cbn; congruence|].
      split; [split; [reflexivity|split; assumption]|]. split; cbn; congruence. }
    (* from the pair to the third solve *)
    destruct (pf_C76_related (fun p u => u = mix a b (fst p) (snd p)) (fun p st => state_ok ps (fst p) /\ state_ok ps (snd p) /\ state_ok ps st) eq
                (fun p d => dense_mix a b (length ps) s (fst p) (snd p) d)
                (fun _ _ => True) (fun p v => RV (fst p) (snd p) v) (pair_config al) al (pair_start i1 i2) i3 op) as (o3 & S3 & OR3); [| |exact SOP|].
    { split; [|split; [|split; [|split; [reflexivity|split; [reflexivity|split; [|split; [reflexivity|split; [|split; [reflexivity|split; reflexivity]]]]]]]]].
      - intros t0 t1 (y, z) u (st1, st2) st3 j A (A1 & A2 & A3). cbn [fst snd] in A, A1, A2, A3. subst u. cbn [pair_config solver_step so_y so_error so_dense so_state so_result fst snd].
        destruct (STEP t0 t1 y z st1 st2 st3 j A1 A2 A3) as (T & D & T1 & T2 & T3 & R1 & R2 & R3).
        cbn [al set_step solver_step rk_solver_step so_result so_y so_state so_dense so_error].
        split; [exact T|]. split; [exact Logic.I|]. split; [exact D|]. split; [split; [exact T1|split; assumption]|]. congruence.
      - intros t0 t1 (d1, d2) d3 t A. cbn [fst snd] in A. cbn [pair_config interpolate fst snd al set_step]. rewrite E2.
        pose proof (interp_mix a b (length ps) s interp (time t0) (time t1) (time t) d1 d2 d3 AF A) as M. cbv zeta in M.
        destruct d1 as [[? ?] ?], d2 as [[? ?] ?], d3 as [[? ?] ?]. exact M.
      - intros t0 t1 y y' y1 y1' e e' cs cs' A1 A2 _ <-. cbn [pair_config adapt al set_step].
        rewrite (VF t0 t1 (fst y) y' (fst y1) y1' e e' cs). repeat (split; [reflexivity|]). reflexivity.
      - assert (HV' : forall sub t y z, In sub (cfg_subs al) -> RV (sub_fn sub t y) (sub_fn sub t z) (sub_fn sub t (mix a b y z))) by exact HV.
        cbn [pair_config cfg_subs]. induction (cfg_subs al) as [|sub l IH]; constructor; [|apply IH; intros; apply HV'; right; assumption].
        repeat (split; [reflexivity|]). intros t (y, z) u A. cbn [fst snd] in A. subst u. apply HV'. left. reflexivity.
      - cbn [pair_config cfg_event al set_step]. rewrite NE. exact Logic.I. }
    { destruct (Q i1 (or_introl eq_refl)) as (A1 & A2 & A3 & A4).
      split; [exact Q0|]. split; [cbn; congruence|]. split; [cbn; congruence|].
      split; [split; [assumption|split; assumption]|]. split; cbn; congruence. }
    exists o2, o3. split; [apply B2, S2|]. split; [apply B3, S3|].
    destruct OR1 as (T1 & Y1 & R1 & V1 & N1 & _ & _ & DT1 & DD1 & _). destruct OR2 as (T2 & Y2 & R2 & V2 & N2 & _ & _ & DT2 & DD2 & _).
    destruct OR3 as (T3 & Y3 & R3 & V3 & N3 & _ & _ & DT3 & DD3 & _).
    split; [rewrite Y3, <- Y1, <- Y2; reflexivity|]. split; [|split].
    - assert (FL : forall A B (P : A -> B -> Prop) l l', Forall2 P l l' -> Forall2 (fun x y => P y x) l' l) by (intros A B P l l' H; induction H; constructor; auto).
      refine (all3_of _ _ _ _ _ _ (FL _ _ _ _ _ V1) V2 V3). cbv beta. intros x p q r (P1 & P2) (P3 & P4) (P5 & P6). split; [congruence|]. split; [congruence|].
      refine (all3_of _ _ _ _ _ _ (FL _ _ _ _ _ P2) P4 P6). cbv beta. intros [(v1, v2)|] [u1|] [u2|] [u3|] H1 H2 H3; cbn in *; try contradiction; [|exact Logic.I]. subst. exact H3.
    - assert (FL : forall A B (P : A -> B -> Prop) l l', Forall2 P l l' -> Forall2 (fun x y => P y x) l' l) by (intros A B P l l' H; induction H; constructor; auto).
      refine (all3_of _ _ _ _ _ _ (FL _ _ _ _ _ DD1) DD2 DD3). cbv beta. intros [(v1, v2)|] [u1|] [u2|] [u3|] H1 H2 H3; cbn in *; try contradiction; [|exact Logic.I]. subst.
      intros t0 t1 t. rewrite E2.
      pose proof (interp_mix a b (length ps) s interp (time t0) (time t1) (time t) v1 v2 u3 AF H3) as M. cbv zeta in M.
      destruct v1 as [[? ?] ?], v2 as [[? ?] ?], u3 as [[? ?] ?]. exact M.
    - intros o [<-|[<-|[]]]; repeat split; congruence.
  Qed.
End Whole.
