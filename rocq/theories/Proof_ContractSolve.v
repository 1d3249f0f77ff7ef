(** Whole solves of dissipative equations by [ImplicitEuler]: C36. *)
From Coq Require Import ZArith Reals List Bool Arith Lia Lra.
From Verif Require Import Model_Result Model_Loop Model_RK Model_Terms Model_Solvers Spec_Loop Spec_Solvers
  Proof_LoopBasic Proof_LoopFinish Proof_LoopTs Proof_PropLoop Proof_Solvers.
Import ListNotations.
Open Scope R_scope.

Section Contract.
  Context {I CS V MS : Type}.
  Notation Y := (I -> R).
  Notation DI := (Y * Y)%type.
  Notation config := (config Y unit CS DI (option Y) V MS).
  Notation initial := (initial Y unit CS MS).
  Notation outcome := (outcome Y unit CS DI V MS).

  Lemma implicit_contracts (is : list I) (f : R -> Y -> Y) (t1 h : R) (y0 z0 a b : Y) :
    dissipative is f -> 0 <= h -> (forall x, a x = y0 x + h * f t1 a x) -> (forall x, b x = z0 x + h * f t1 b x) ->
    inner is (fun x => a x - b x) (fun x => a x - b x) <= inner is (fun x => y0 x - z0 x) (fun x => y0 x - z0 x).
  Proof.
    intros Hd Hh Ey Ez.
    set (w := fun i => a i - b i). set (d := fun i => f t1 a i - f t1 b i).
    assert (E : forall i, y0 i - z0 i = vadd w (fun i => - h * d i) i)
      by (intros i; specialize (Ey i); specialize (Ez i); unfold vadd, w, d in *; lra).
    rewrite (inner_ext is (fun i => y0 i - z0 i) (vadd w (fun i => - h * d i)) (fun i => y0 i - z0 i) (vadd w (fun i => - h * d i)) E E).
    rewrite inner_add_l, !inner_add_r.
    pose proof (Hd t1 a b) as D. fold w d in D.
    pose proof (inner_sq is (fun i => - h * d i)). rewrite (inner_comm is w (fun i => - h * d i)). rewrite (inner_scale_l is (- h) d w).
    assert (0 <= h * - inner is d w) by (apply Rmult_le_pos; lra). lra.
  Qed.

  (** The steps of a successful solve satisfy the implicit equation. *)
  Lemma solve_implicit (root_find : (Y -> Y) -> Y -> Y * RESULTS) (f : R -> Y -> Y) (c : config) (i : initial) (h : list (attempt Y)) (o : outcome) (time : Z -> R) :
    finds_roots root_find ->
    (forall a b y s j, solver_step c a b y s j = me_step (implicit_euler root_find (ode_term f)) (time a) (time b) y s j) ->
    solve_run c i h o -> cfg_event c = None -> out_result o = successful ->
    forall a, In a (accepted h) -> forall x, at_y a x = at_yprev a x + (time (at_to a) - time (at_from a)) * f (time (at_to a)) (at_y a) x.
  Proof.
    intros FR ST RUN NE OK a Ha. apply filter_In in Ha as (Ha & K).
    assert (OKa : attempt_result a = successful).
    { destruct (@exists_last _ h) as (h' & b & E); [intros ->; destruct Ha|]. subst h.
      destruct (pf_C12_first_failure_wins c i h' b o RUN NE) as (F & NB & _).
      apply in_app_or in Ha as [Ha|[<-|[]]]; [rewrite Forall_forall in F; apply F; exact Ha|].
      destruct (attempt_result b) eqn:EA; try reflexivity; rewrite NB in OK by discriminate; discriminate. }
    unfold attempt_result in OKa. rewrite K in OKa.
    assert (OKs : is_okay (at_solver_result a) = true) by (destruct (at_solver_result a); try reflexivity; discriminate).
    destruct RUN as (s0 & n & _ & _ & -> & _).
    destruct (in_accepted_history _ _ _ _ Ha) as (m & _ & -> & _). set (s := while_loop c m s0) in *.
    rewrite attempt_of_eq in *. cbn [at_keep at_y at_yprev at_from at_to at_solver_result] in *. rewrite K.
    unfold do_step in *. rewrite ST in *. destruct (st_solver_state s).
    destruct (pf_C36_implicit_euler root_find (ode_term f) _ _ _ (st_made_jump s) FR OKs) as (E & _).
    intros x. rewrite E at 1. reflexivity.
  Qed.

  Lemma last_some {A : Type} (l : list A) (a b : A) : l <> [] -> last l a = last l b.
  Proof. induction l as [|x [|y l] IH]; intros H; [congruence|reflexivity|]. cbn [last] in *. apply IH. discriminate. Qed.
  Lemma current_cons t y (a : attempt Y) accs : current t y (a :: accs) = current (at_end a) (at_y a) accs.
  Proof. unfold current. cbn [map]. destruct accs as [|b accs]; [reflexivity|]. cbn [map last]. apply (last_some (_ :: _)). discriminate. Qed.

  Lemma run_decreases (c : config) (D : Y -> R) t y s j accs :
    solver_run c t y s j accs -> (forall a, In a accs -> D (at_y a) <= D (at_yprev a)) ->
    (forall a, In a accs -> D (at_y a) <= D y) /\ D (snd (current t y accs)) <= D y.
  Proof.
    induction 1 as [t y s j|t y s j a j' accs F P J K Y1 IN R IH]; intros H.
    - split; [intros a []|apply Rle_refl].
    - destruct IH as (H1 & H2); [intros b Hb; apply H; right; exact Hb|].
      assert (H0 : D (at_y a) <= D y) by (rewrite <- P; apply H; left; reflexivity).
      split.
      + intros b [<-|Hb]; [exact H0|]. eapply Rle_trans; [apply H1; exact Hb|exact H0].
      + rewrite current_cons. eapply Rle_trans; [exact H2|exact H0].
  Qed.

  Lemma runs_decrease (c c' : config) (D : Y -> Y -> R) accs : forall t y s j t' y' s' j' accs',
    solver_run c t y s j accs -> solver_run c' t' y' s' j' accs' -> length accs = length accs' ->
    (forall k a b, nth_error accs k = Some a -> nth_error accs' k = Some b -> D (at_y a) (at_y b) <= D (at_yprev a) (at_yprev b)) ->
    (forall k a b, nth_error accs k = Some a -> nth_error accs' k = Some b -> D (at_y a) (at_y b) <= D y y') /\
    D (snd (current t y accs)) (snd (current t' y' accs')) <= D y y'.
  Proof.
    induction accs as [|a accs IH]; intros t y s j t' y' s' j' [|b accs'] R R' L H; try discriminate L.
    - split; [intros [|k] a b E; discriminate E|apply Rle_refl].
    - inversion R as [|? ? ? ? ? ? ? F P J K Y1 IN R1]; subst. inversion R' as [|? ? ? ? ? ? ? F' P' J' K' Y1' IN' R1']; subst.
      destruct (IH _ _ _ _ _ _ _ _ _ R1 R1' ltac:(cbn in L; lia) (fun k => H (S k))) as (H1 & H2).
      pose proof (H 0%nat a b eq_refl eq_refl) as H0.
      split.
      + intros [|k] a' b' E E'; [injection E as <-; injection E' as <-; exact H0|].
        eapply Rle_trans; [exact (H1 k a' b' E E')|exact H0].
      + rewrite !current_cons. eapply Rle_trans; [exact H2|exact H0].
  Qed.

  Lemma pf_C36_solve_towards_equilibrium (root_find : (Y -> Y) -> Y -> Y * RESULTS) (f : R -> Y -> Y) (is : list I) (z : Y) (c : config) (i : initial) (h : list (attempt Y)) (o : outcome) (time : Z -> R) :
    finds_roots root_find -> dissipative is f -> (forall t x, f t z x = 0) ->
    (forall a b y s j, solver_step c a b y s j = me_step (implicit_euler root_find (ode_term f)) (time a) (time b) y s j) ->
    solve_run c i h o -> cfg_event c = None -> out_result o = successful -> rejects_in_place h ->
    (forall a, In a (accepted h) -> time (at_from a) <= time (at_to a)) ->
    let distance := fun y : Y => inner is (fun x => y x - z x) (fun x => y x - z x) in
    (forall a, In a (accepted h) -> distance (at_y a) <= distance (at_yprev a) /\ distance (at_y a) <= distance (in_y i)) /\
    (stepto_len c = None -> (cfg_t0 c <= cfg_t1 c)%Z -> results_ok c -> rf_results_ok c -> distance (out_yfinal o) <= distance (in_y i)).
  Proof.
    intros FR HD HZ ST RUN NE OK RIP FW distance.
    pose proof (pf_C08_accepted_steps_run c i h o RUN RIP) as SR.
    assert (ONE : forall a, In a (accepted h) -> distance (at_y a) <= distance (at_yprev a)).
    { intros a Ha. unfold distance. pose proof (FW a Ha).
      apply (implicit_contracts is f (time (at_to a)) (time (at_to a) - time (at_from a)) (at_yprev a) z (at_y a) z HD); [lra| |].
      - exact (solve_implicit root_find f c i h o time FR ST RUN NE OK a Ha).
      - intros x. rewrite HZ. ring. }
    destruct (run_decreases c distance _ _ _ _ _ SR ONE) as (H1 & H2).
    split; [intros a Ha; split; [apply ONE|apply H1]; exact Ha|].
    intros SL LT RO RFO. destruct (pf_C03_success_reaches_t1 c i h o RUN SL LT RO RFO OK) as (_ & CUR). specialize (CUR RIP).
    rewrite <- CUR in H2. exact H2.
  Qed.

  Lemma pf_C36_solves_contract (root_find : (Y -> Y) -> Y -> Y * RESULTS) (f : R -> Y -> Y) (is : list I) (c c' : config) (i i' : initial) (h h' : list (attempt Y)) (o o' : outcome) (time : Z -> R) :
    finds_roots root_find -> dissipative is f ->
    (forall a b y s j, solver_step c a b y s j = me_step (implicit_euler root_find (ode_term f)) (time a) (time b) y s j) ->
    (forall a b y s j, solver_step c' a b y s j = me_step (implicit_euler root_find (ode_term f)) (time a) (time b) y s j) ->
    solve_run c i h o -> cfg_event c = None -> out_result o = successful -> rejects_in_place h ->
    solve_run c' i' h' o' -> cfg_event c' = None -> out_result o' = successful -> rejects_in_place h' ->
    (forall a, In a (accepted h) -> time (at_from a) <= time (at_to a)) ->
    map (fun a => (time (at_from a), time (at_to a))) (accepted h) = map (fun a => (time (at_from a), time (at_to a))) (accepted h') ->
    let distance := fun y y' : Y => inner is (fun x => y x - y' x) (fun x => y x - y' x) in
    (forall k a b, nth_error (accepted h) k = Some a -> nth_error (accepted h') k = Some b ->
       distance (at_y a) (at_y b) <= distance (at_yprev a) (at_yprev b) /\ distance (at_y a) (at_y b) <= distance (in_y i) (in_y i')) /\
    (stepto_len c = None -> (cfg_t0 c <= cfg_t1 c)%Z -> results_ok c -> rf_results_ok c ->
     stepto_len c' = None -> (cfg_t0 c' <= cfg_t1 c')%Z -> results_ok c' -> rf_results_ok c' ->
     distance (out_yfinal o) (out_yfinal o') <= distance (in_y i) (in_y i')).
  Proof.
    intros FR HD ST ST' RUN NE OK RIP RUN' NE' OK' RIP' FW TS distance.
    pose proof (pf_C08_accepted_steps_run c i h o RUN RIP) as SR. pose proof (pf_C08_accepted_steps_run c' i' h' o' RUN' RIP') as SR'.
    assert (LN : length (accepted h) = length (accepted h')) by (apply (f_equal (@length _)) in TS; rewrite !map_length in TS; exact TS).
    assert (ONE : forall k a b, nth_error (accepted h) k = Some a -> nth_error (accepted h') k = Some b -> distance (at_y a) (at_y b) <= distance (at_yprev a) (at_yprev b)).
    { intros k a b Ka Kb. unfold distance. pose proof (nth_error_In _ _ Ka) as Ha. pose proof (nth_error_In _ _ Kb) as Hb. pose proof (FW a Ha).
      apply (map_nth_error (fun a => (time (at_from a), time (at_to a)))) in Ka. apply (map_nth_error (fun a => (time (at_from a), time (at_to a)))) in Kb.
      rewrite TS, Kb in Ka. injection Ka as E1 E2.
      apply (implicit_contracts is f (time (at_to a)) (time (at_to a) - time (at_from a)) (at_yprev a) (at_yprev b) (at_y a) (at_y b) HD); [lra| |].
      - exact (solve_implicit root_find f c i h o time FR ST RUN NE OK a Ha).
      - rewrite <- E1, <- E2. exact (solve_implicit root_find f c' i' h' o' time FR ST' RUN' NE' OK' b Hb). }
    destruct (runs_decrease c c' distance _ _ _ _ _ _ _ _ _ _ SR SR' LN ONE) as (H1 & H2).
    split; [intros k a b Ka Kb; split; [exact (ONE k a b Ka Kb)|exact (H1 k a b Ka Kb)]|].
    intros SL LT RO RFO SL' LT' RO' RFO'.
    destruct (pf_C03_success_reaches_t1 c i h o RUN SL LT RO RFO OK) as (_ & CUR). specialize (CUR RIP).
    destruct (pf_C03_success_reaches_t1 c' i' h' o' RUN' SL' LT' RO' RFO' OK') as (_ & CUR'). specialize (CUR' RIP').
    rewrite <- CUR, <- CUR' in H2. exact H2.
  Qed.
End Contract.
