(** Whole solves of strongly dissipative equations by [ImplicitEuler]: C36. *)
From Coq Require Import ZArith Reals List Bool Arith Lia Lra.
From Verif Require Import Model_Result Model_Loop Model_RK Model_Terms Model_Solvers Spec_Loop Spec_Solvers
  Proof_LoopBasic Proof_LoopFinish Proof_LoopTs Proof_PropLoop Proof_Solvers Proof_ContractSolve.
Import ListNotations.
Open Scope R_scope.

Section Decay.
  Context {I CS V MS : Type}.
  Notation Y := (I -> R).
  Notation DI := (Y * Y)%type.
  Notation config := (config Y unit CS DI (option Y) V MS).
  Notation initial := (initial Y unit CS MS).
  Notation outcome := (outcome Y unit CS DI V MS).

  Lemma implicit_decays (is : list I) (f : R -> Y -> Y) (mu t1 h : R) (y0 z0 a b : Y) :
    (forall t y z, inner is (fun x => f t y x - f t z x) (fun x => y x - z x) <= - mu * inner is (fun x => y x - z x) (fun x => y x - z x)) ->
    0 <= h -> (forall x, a x = y0 x + h * f t1 a x) -> (forall x, b x = z0 x + h * f t1 b x) ->
    (1 + 2 * mu * h) * inner is (fun x => a x - b x) (fun x => a x - b x) <= inner is (fun x => y0 x - z0 x) (fun x => y0 x - z0 x).
  Proof.
    intros Hd Hh Ey Ez.
    set (w := fun i => a i - b i). set (d := fun i => f t1 a i - f t1 b i).
    assert (E : forall i, y0 i - z0 i = vadd w (fun i => - h * d i) i)
      by (intros i; specialize (Ey i); specialize (Ez i); unfold vadd, w, d in *; lra).
    rewrite (inner_ext is (fun i => y0 i - z0 i) (vadd w (fun i => - h * d i)) (fun i => y0 i - z0 i) (vadd w (fun i => - h * d i)) E E).
    rewrite inner_add_l, !inner_add_r.
    pose proof (Hd t1 a b) as D. fold w d in D.
    pose proof (inner_sq is (fun i => - h * d i)). rewrite (inner_comm is w (fun i => - h * d i)). rewrite (inner_scale_l is (- h) d w).
    assert (0 <= h * (- mu * inner is w w - inner is d w)) by (apply Rmult_le_pos; lra). lra.
  Qed.

  Lemma run_decays (c : config) (D : Y -> R) (mu : R) (time : Z -> R) t y s j accs :
    solver_run c t y s j accs -> 0 <= mu -> (forall y, 0 <= D y) ->
    (forall a, In a accs -> time (at_from a) <= time (at_to a) /\ at_end a = at_to a /\
       (1 + 2 * mu * (time (at_to a) - time (at_from a))) * D (at_y a) <= D (at_yprev a)) ->
    (forall a, In a accs -> time t <= time (at_to a) /\ (1 + 2 * mu * (time (at_to a) - time t)) * D (at_y a) <= D y) /\
    (1 + 2 * mu * (time (fst (current t y accs)) - time t)) * D (snd (current t y accs)) <= D y.
  Proof.
    intros R0 HM DP. induction R0 as [t y s j|t y s j a j' accs F P J K Y1 IN R IH]; intros H.
    - split; [intros a []|]. cbn. replace (time t - time t) with 0 by ring. lra.
    - destruct IH as (H1 & H2); [intros b Hb; apply H; right; exact Hb|].
      destruct (H a (or_introl eq_refl)) as (LE & EN & H0). rewrite F in LE, H0. rewrite P in H0. rewrite EN in H1, H2.
      assert (ST : forall u b, time (at_to a) <= u -> (1 + 2 * mu * (u - time (at_to a))) * D b <= D (at_y a) -> (1 + 2 * mu * (u - time t)) * D b <= D y).
      { intros u b Hu Hb. eapply Rle_trans; [|exact H0].
        assert (P1 : 0 <= mu * (time (at_to a) - time t)) by (apply Rmult_le_pos; lra).
        assert (P2 : 0 <= mu * (u - time (at_to a))) by (apply Rmult_le_pos; lra).
        assert (X : (1 + 2 * mu * (time (at_to a) - time t)) * ((1 + 2 * mu * (u - time (at_to a))) * D b) <= (1 + 2 * mu * (time (at_to a) - time t)) * D (at_y a))
          by (apply Rmult_le_compat_l; lra).
        eapply Rle_trans; [|exact X]. rewrite <- Rmult_assoc. apply Rmult_le_compat_r; [apply DP|].
        pose proof (Rmult_le_pos _ _ P1 P2). lra. }
      split.
      + intros b [<-|Hb].
        * split; [exact LE|exact H0].
        * destruct (H1 b Hb) as (L1 & L2). split; [lra|]. apply ST; assumption.
      + rewrite current_cons. rewrite EN. apply ST; [|exact H2].
        destruct accs as [|b accs]; [apply Rle_refl|].
        destruct (@exists_last _ (b :: accs)) as (l & e & E); [discriminate|]. 
        assert (HE : In e (b :: accs)) by (rewrite E; apply in_or_app; right; left; reflexivity).
        rewrite E. unfold current. rewrite map_app. cbn [map]. rewrite last_last. cbn [fst].
        destruct (H e (or_intror HE)) as (_ & -> & _). apply (H1 e HE).
  Qed.

  Lemma pf_C36_solve_decays (root_find : (Y -> Y) -> Y -> Y * RESULTS) (f : R -> Y -> Y) (is : list I) (mu : R) (z : Y) (c : config) (i : initial) (h : list (attempt Y)) (o : outcome) (time : Z -> R) :
    finds_roots root_find -> 0 <= mu ->
    (forall t y y', inner is (fun x => f t y x - f t y' x) (fun x => y x - y' x) <= - mu * inner is (fun x => y x - y' x) (fun x => y x - y' x)) ->
    (forall t x, f t z x = 0) ->
    (forall a b y s j, solver_step c a b y s j = me_step (implicit_euler root_find (ode_term f)) (time a) (time b) y s j) ->
    solve_run c i h o -> cfg_event c = None -> out_result o = successful -> rejects_in_place h -> no_time_jumps h ->
    (forall a, In a (accepted h) -> time (at_from a) <= time (at_to a)) ->
    let distance := fun y : Y => inner is (fun x => y x - z x) (fun x => y x - z x) in
    (forall a, In a (accepted h) -> (1 + 2 * mu * (time (at_to a) - time (cfg_t0 c))) * distance (at_y a) <= distance (in_y i)) /\
    (stepto_len c = None -> (cfg_t0 c <= cfg_t1 c)%Z -> results_ok c -> rf_results_ok c ->
     (1 + 2 * mu * (time (cfg_t1 c) - time (cfg_t0 c))) * distance (out_yfinal o) <= distance (in_y i)).
  Proof.
    intros FR HM HD HZ ST RUN NE OK RIP NTJ FW distance.
    pose proof (pf_C08_accepted_steps_run c i h o RUN RIP) as SR.
    assert (DP : forall y, 0 <= distance y) by (intros y; apply inner_sq).
    assert (ONE : forall a, In a (accepted h) -> time (at_from a) <= time (at_to a) /\ at_end a = at_to a /\
              (1 + 2 * mu * (time (at_to a) - time (at_from a))) * distance (at_y a) <= distance (at_yprev a)).
    { intros a Ha. pose proof (FW a Ha) as LE. split; [exact LE|]. split.
      - apply filter_In in Ha as (Ha & K). unfold no_time_jumps in NTJ. rewrite Forall_forall in NTJ. exact (NTJ a Ha K).
      - unfold distance.
        apply (implicit_decays is f mu (time (at_to a)) (time (at_to a) - time (at_from a)) (at_yprev a) z (at_y a) z HD); [lra| |].
        + exact (solve_implicit root_find f c i h o time FR ST RUN NE OK a Ha).
        + intros x. rewrite HZ. ring. }
    destruct (run_decays c distance mu time _ _ _ _ _ SR HM DP ONE) as (H1 & H2).
    split; [intros a Ha; apply (H1 a Ha)|].
    intros SL LT RO RFO. destruct (pf_C03_success_reaches_t1 c i h o RUN SL LT RO RFO OK) as (TF & CUR). specialize (CUR RIP).
    rewrite <- CUR in H2. cbn [fst snd] in H2. rewrite TF in H2. exact H2.
  Qed.
End Decay.
