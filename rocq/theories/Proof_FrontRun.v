(** Proofs about accepted calls: what is run, with which tolerances; steady states. *)
From Coq Require Import ZArith List Bool Arith Reals QArith Sorting.Sorted Lia.
From Verif Require Import Model_Result Model_Loop Model_Fixed Model_Dense Model_Direction Model_Front.
From Verif Require Import Spec_Loop Spec_Fixed Spec_Front.
From Verif Require Import Proof_LoopBasic Proof_LoopEvent Proof_PropLoop Proof_PropLoop2 Proof_LoopResume Proof_Front.
Import ListNotations.
Open Scope Z_scope.

(** * Constructors *)
Section Constructors.
  Context {Y V : Type} (save_y : Z -> Y -> V).

  Lemma asks_spec (a : sub_args Y V) :
    negb (sa_t0 a) && negb (sa_t1 a) && is_none (match sa_ts a with Some (t :: l) => Some (t :: l) | _ => None end)
    && (steps_of (sa_steps a) =? 0)%nat = false <-> asks_for_output a.
  Proof.
    unfold asks_for_output. destruct a as [[] [] [[|t l]|] [[]|[|n]] f]; cbn;
      (split; [intros H; try discriminate H; eauto 8|]);
      intros H; try reflexivity; exfalso;
      destruct H as [H|[H|[(x & l & H)|[H|(k & H)]]]]; discriminate H.
  Qed.

  Lemma pf_C61_make_sub (a : sub_args Y V) :
    ((exists s, make_sub save_y a = Ok s) <-> asks_for_output a) /\
    (forall s, make_sub save_y a = Ok s ->
       sub_t0 (so_sub s) = sa_t0 a /\ sub_t1 (so_sub s) = sa_t1 a /\
       sub_ts_list (so_sub s) = match sa_ts a with Some ts => ts | None => [] end /\
       sub_steps (so_sub s) = match sa_steps a with inl true => 1%nat | inl false => 0%nat | inr n => n end /\
       (forall f, sa_fn a = Some f -> sub_fn (so_sub s) = f) /\ (sa_fn a = None -> sub_fn (so_sub s) = save_y)).
  Proof.
    unfold make_sub. cbv zeta. pose proof (asks_spec a) as H.
    destruct (negb (sa_t0 a) && negb (sa_t1 a) && _ && _).
    - split.
      + split; [intros (? & [=])|]. intros Ha. apply H in Ha. discriminate Ha.
      + intros s [=].
    - split.
      + split; [intros _; apply H; reflexivity|eauto].
      + intros s [= <-]. cbn. repeat split.
        * destruct (sa_ts a) as [[|t l]|]; reflexivity.
        * intros f ->. reflexivity.
        * intros ->. reflexivity.
  Qed.

  Lemma pf_C61_make_saveat (a : sub_args Y V) (subs : option (subs_tree Y V)) (dense ss cs mj : bool) :
    ((exists v, make_saveat save_y a subs dense ss cs mj = Ok v) <->
     nothing_given a \/ (subs = None /\ asks_for_output a)) /\
    (forall v, make_saveat save_y a subs dense ss cs mj = Ok v ->
       sv_dense v = dense /\ sv_solver_state v = ss /\ sv_controller_state v = cs /\ sv_made_jump v = mj /\
       (forall t, subs = Some t -> sv_subs v = t) /\
       (subs = None -> nothing_given a -> sub_leaves (sv_subs v) = []) /\
       (subs = None -> ~ nothing_given a -> exists s, make_sub save_y a = Ok s /\ sv_subs v = SubLeaf s)).
  Proof.
    unfold make_saveat. cbv zeta.
    assert (G : sa_t0 a || sa_t1 a || negb (is_none (sa_ts a)) || negb (steps_of (sa_steps a) =? 0)%nat = false <->
                nothing_given a).
    { unfold nothing_given. destruct a as [[] [] [ts|] [[]|[|n]] f]; cbn;
        (split; [intros H; try discriminate H; auto|]); intros (H1 & H2 & H3 & H4);
        try reflexivity; try discriminate; destruct H4; discriminate. }
    destruct (sa_t0 a || _ || _ || _).
    - assert (Hn : ~ nothing_given a) by (intros Hx; apply G in Hx; discriminate).
      destruct subs as [t|].
      + split; [|intros v [=]]. split; [intros (? & [=])|]. intros [Hx|[[=] _]]. contradiction.
      + destruct (pf_C61_make_sub a) as [Hs _]. split.
        * split.
          -- intros (v & Hv). right. split; [reflexivity|]. apply Hs. apply rbind_ok in Hv.
             destruct Hv as (s & Hv & _). eauto.
          -- intros [Hx|[_ Hx]]; [contradiction|]. apply Hs in Hx. destruct Hx as (s & ->). cbn. eauto.
        * intros v Hv. apply rbind_ok in Hv. destruct Hv as (s & Hv & [= <-]). cbn.
          repeat split; try discriminate; [contradiction|]. eauto.
    - assert (Hn : nothing_given a) by (apply G; reflexivity).
      destruct subs as [t|]; (split; [split; [auto|eauto]|]); intros v [= <-]; cbn; repeat split; try discriminate;
        try (intros ? [= <-]; reflexivity); intros; contradiction.
  Qed.
End Constructors.

(** * Solvers *)
Section Instance.
  Context {Y : Type}.
  Lemma pf_C62_isinstance (c : solver_class) (i : solver_info Y) :
    (isinstance c (Base i) = true <-> has_class c i) /\
    (isinstance c (Half (Base i)) = true <->
     has_class c i \/ c = CAdaptive \/ c = CWrapped \/ c = CHalf).
  Proof.
    split.
    - unfold isinstance. rewrite <- plain_base. cbn [orb].
      destruct (plain_instance CWrapped (Base i)); [rewrite orb_false_r|]; reflexivity.
    - unfold isinstance. change (plain_instance CWrapped (Half (Base i))) with true. cbv iota.
      rewrite orb_true_iff, plain_base. destruct c; cbn; intuition congruence.
  Qed.
End Instance.

(** * Calls *)
Section Run.
  Context {Y SS CS DI E V MS VF C : Type} (cneg : C -> C) (o : time_ops Z).
  Notation call := (call Y SS CS DI E V MS VF C).
  Implicit Types a : call.

  Lemma direction_dir a s : direction_of (call_problem a s) = call_dir a.
  Proof. reflexivity. Qed.

  Lemma bad_sub_check t0 t1 (sub : subsaveat Y V) : check_ts t0 t1 sub = Ok tt -> bad_sub t0 t1 sub = false.
  Proof.
    unfold check_ts, bad_sub. destruct (sub_ts sub); [|reflexivity].
    rewrite rbind_raise_if, raise_if_ok. intros [-> ->]. reflexivity.
  Qed.

  Lemma accepted_normalise a s : check_call o a = Ok s ->
    exists k c i, wrap_controller (call_dir a) (ca_controller a) = Some k /\
      normalise cneg (call_problem a s) = Some (c, i) /\
      cfg_t0 c = ca_t0 a * call_dir a /\ cfg_t1 c = ca_t1 a * call_dir a /\
      cfg_subs c = map (wrap_sub (call_dir a)) (call_subs a) /\ cfg_max_steps c = ca_max_steps a /\
      adapt c = pb_adapt (ca_problem a s) k /\ stepto_len c = is_stepto k /\
      (in_tnext i, in_controller_state i) =
        (let q := pb_controller_init (ca_problem a s) k (wrap_term cneg (call_dir a) (pb_term (ca_problem a s)))
             (ca_t0 a * call_dir a) (ca_t1 a * call_dir a) (pb_y0 (ca_problem a s))
             (option_map (fun x => x * call_dir a) (ca_dt0 a)) in
         (Z.min (fst q) (ca_t1 a * call_dir a), snd q)) /\
      Forall (fun sub => check_ts (cfg_t0 c) (cfg_t1 c) sub = Ok tt) (cfg_subs c).
  Proof.
    intros Hs. apply check_call_passed in Hs. destruct Hs as (k & H). destruct H. exists k.
    unfold normalise. cbv zeta. rewrite direction_dir. cbn [call_problem pb_t0 pb_t1 pb_dt0 pb_subs pb_controller
      pb_term pb_controller_init pb_y0 pb_solver_init pb_solver_step pb_interpolate pb_adapt pb_nan_to_inf
      pb_midpoint pb_meter pb_meter_init pb_dense pb_event pb_max_steps pb_made_jump].
    rewrite pa_wrap. cbn [obind].
    assert (Hb : existsb (bad_sub (ca_t0 a * call_dir a) (ca_t1 a * call_dir a))
                   (map (wrap_sub (call_dir a)) (call_subs a)) = false).
    { apply not_true_iff_false. rewrite existsb_exists. intros (x & Hin & Hx).
      rewrite Forall_forall in pa_ts. specialize (pa_ts x Hin). apply bad_sub_check in pa_ts. congruence. }
    rewrite Hb. destruct (pb_controller_init _ _ _ _ _ _ _) as [tn cs] eqn:Ei.
    eexists _, _. split; [reflexivity|]. split; [reflexivity|]. cbn. repeat split. exact pa_ts.
  Qed.

  Lemma pf_C61_normalised a s : check_call o a = Ok s ->
    exists c i, normalise cneg (call_problem a s) = Some (c, i) /\
      cfg_t0 c <= cfg_t1 c /\ in_tnext i <= cfg_t1 c /\
      (forall sub ts, In sub (cfg_subs c) -> sub_ts sub = Some ts ->
         StronglySorted Z.le ts /\ Forall (fun t => cfg_t0 c <= t <= cfg_t1 c) ts).
  Proof.
    intros Hs. destruct (accepted_normalise a s Hs) as (k & c & i & Hw & Hn & H0 & H1 & Hsub & Hm & Ha & Hl & Hi & Ht).
    exists c, i. split; [exact Hn|]. split; [|split].
    - rewrite H0, H1. unfold call_dir, dir. destruct (Z.ltb_spec (ca_t0 a) (ca_t1 a)); lia.
    - cbv zeta in Hi. injection Hi as Hi _. rewrite Hi, H1. lia.
    - intros sub ts Hin Hts. rewrite Forall_forall in Ht. specialize (Ht sub Hin). unfold check_ts in Ht.
      rewrite Hts in Ht. rewrite rbind_raise_if, raise_if_ok, strongly_le in Ht. destruct Ht as [Ht1 Ht2].
      split; [exact Ht1|]. apply Forall_forall. intros t Hint.
      apply not_true_iff_false in Ht2. rewrite existsb_exists in Ht2.
      assert (~ ((cfg_t1 c <? t) || (t <? cfg_t0 c) = true)) as Hx by (intros Hx; apply Ht2; eauto).
      apply not_true_iff_false in Hx. apply orb_false_iff in Hx. rewrite !Z.ltb_ge in Hx. lia.
  Qed.

  Lemma allocated_positive (save_y : Z -> Y -> V) (s : sub_obj Y V) m d : constructed save_y s ->
    (sub_steps (so_sub s) <= m)%nat -> (0 < allocated (Some m) (wrap_sub d (so_sub s)))%nat.
  Proof.
    intros (a & Ha) Hm. destruct (pf_C61_make_sub save_y a) as [H1 H2].
    specialize (H2 s Ha). destruct H2 as (E1 & E2 & E3 & E4 & _).
    assert (Hask : asks_for_output a) by (apply H1; eauto).
    assert (Hdiv : forall n, (S n <= m)%nat -> (0 < m / S n)%nat).
    { intros n Hn. apply Nat.div_str_pos. lia. }
    unfold allocated. destruct (so_sub s) as [b0 b1 ts n f]. cbn in *. subst b0 b1 n.
    assert (Hlen : length (match option_map (map (fun t : Z => t * d)) ts with Some l => l | None => [] end)
                   = length (match sa_ts a with Some l => l | None => [] end)).
    { rewrite <- E3. destruct ts as [l|]; cbn; [apply map_length|reflexivity]. }
    unfold sub_ts_list in *. cbn [sub_ts wrap_sub option_map] in *. rewrite Hlen.
    destruct Hask as [H|[H|[(t & l & H)|[H|(n & H)]]]]; rewrite H in *.
    - lia.
    - destruct (sa_steps a) as [[]|[|n]]; cbn [andb] in *; try lia.
      + specialize (Hdiv 0%nat Hm). lia.
      + specialize (Hdiv n Hm). lia.
    - cbn [length]. lia.
    - specialize (Hdiv 0%nat Hm). lia.
    - specialize (Hdiv n Hm). lia.
  Qed.

  Lemma solve_solves (c : config Y SS CS DI E V MS) i m out :
    cfg_max_steps c = Some m -> solve c i = Some out -> solves c i out.
  Proof.
    intros Hm. unfold solve. destruct (init_state c i) as [s0|] eqn:Hi; [|discriminate]. rewrite Hm. cbn.
    intros Hf. exists s0, (while_loop c m s0). split; [exact Hi|]. split; [|exact Hf].
    unfold loop_final. rewrite Hm. reflexivity.
  Qed.

  Lemma pf_C61_returns a (save_y : Z -> Y -> V) (m : nat) : signs_ok o -> acceptable a ->
    ca_max_steps a = Some m ->
    Forall (constructed save_y) (sub_leaves (sv_subs (ca_saveat a))) ->
    (forall sub, In sub (call_subs a) -> (sub_steps sub <= m)%nat) ->
    exists sol, diffeqsolve_call cneg o a (Ok sol).
  Proof.
    intros Ho Hacc Hm Hc Hst. apply (pf_C61_accepts_iff o a Ho) in Hacc. destruct Hacc as (s & Hs).
    destruct (accepted_normalise a s Hs) as (k & c & i & Hw & Hn & H0 & H1 & Hsub & Hm' & _).
    destruct (pf_C05_no_exception c i m) as (out & Hout).
    - congruence.
    - rewrite Hsub, Forall_map. unfold call_subs in *. rewrite Forall_map.
      apply Forall_forall. intros x Hx. rewrite Forall_forall in Hc.
      eapply allocated_positive; [apply Hc; exact Hx|]. apply Hst. apply in_map. exact Hx.
    - exists (to_solution (call_dir a) c i out). unfold diffeqsolve_call. rewrite Hs. eexists. split; [|reflexivity].
      exists c, i, out. rewrite direction_dir. split; [exact Hn|]. split; [|reflexivity].
      apply (solve_solves c i m out); [congruence|exact Hout].
  Qed.

  (** Refusal is an exception, whatever the rest of the arguments. *)
  Lemma pf_C61_refused a : signs_ok o -> ~ acceptable a ->
    exists e, forall r, diffeqsolve_call cneg o a r <-> r = Raise e.
  Proof.
    intros Ho Hn. unfold diffeqsolve_call. destruct (check_call o a) as [s|e] eqn:Hs.
    - exfalso. apply Hn. apply (pf_C61_accepts_iff o a Ho). eauto.
    - exists e. intros r. reflexivity.
  Qed.

  (** * Stochastic equations *)
  Lemma pf_C62_adaptive_noise a s : check_call o a = Ok s -> adaptive (ca_controller a) ->
    ~ occurs an_unsafe_path (ca_terms a) /\
    (forall i, occurs a_brownian_path (ca_terms a) -> ca_solver a = Base i \/ ca_solver a = Half (Base i) ->
       ~ has_class CEuler i).
  Proof.
    intros Hs Had. apply check_call_passed in Hs. destruct Hs as (k & H). destruct H. split.
    - intros Hu. exact (proj1 (unsafe_iff a) pa_unsafe Hu Had).
    - intros i Hb Hi Hc. apply (proj1 (euler_iff a) pa_euler Hb Had).
      exists i. split; [|exact Hc]. destruct Hi as [->| ->]; reflexivity.
  Qed.

  Lemma resolve_shape (k : controller (pid_params Y)) (s s' : solver Y) : resolve_tols k s = Ok s' ->
    s' = s \/ same_but_root s s'.
  Proof.
    unfold resolve_tols. destruct (isinstance CImplicit s); [|intros [= ->]; auto].
    destruct s as [i|s]; cbn [root_attr]; [|discriminate]. destruct (si_root i) as [r|]; [|discriminate].
    destruct (controller_tols k) as [t|], (is_adaptive k); try discriminate;
      try (destruct (unset_tols r); [discriminate|]; intros [= ->]; auto).
    intros [= <-]. right. cbn. eexists i, _. split; reflexivity.
  Qed.

  Lemma pf_C62_error_order a s p : check_call o a = Ok s -> pid_inside p (ca_controller a) ->
    exists x, controller_error_order (ca_controller a) (error_order s (wrap_pytree (ca_terms a))) = Some x /\
      error_order_used p (brownian_somewhere a) (ca_solver a) x.
  Proof.
    intros Hs Hp. apply check_call_passed in Hs. destruct Hs as (k & H). destruct H.
    assert (Had : adaptive (ca_controller a)) by (inversion Hp; constructor).
    unfold check_error in pa_error. rewrite rbind_raise_if, raise_if_ok in pa_error. destruct pa_error as [_ He].
    rewrite (wrap_adaptive _ _ _ pa_wrap), (wrap_order _ _ _ _ pa_wrap) in He.
    apply is_adaptive_spec in Had. rewrite Had in He. cbn [andb] in He.
    rewrite (pid_inside_order _ _ _ Hp) in *.
    assert (Hsame : error_order s (wrap_pytree (ca_terms a)) = error_order (ca_solver a) (ca_terms a)).
    { unfold error_order. rewrite wrapped_sde. destruct (resolve_shape _ _ _ pa_tols) as [->|(i & r & -> & ->)]; reflexivity. }
    rewrite Hsame in *. unfold error_order_used. destruct (pp_error_order p) as [x|] eqn:Ex.
    - exists x. auto.
    - pose proof (pf_C62_is_sde (ca_terms a)) as Hsde. unfold error_order in *. unfold brownian_somewhere.
      rewrite strong_order_innermost in He |- *. destruct (is_sde (ca_terms a)).
      + destruct (si_strong_order _) as [q|]; [|discriminate]. eexists. split; [reflexivity|]. right. left.
        split; [reflexivity|]. split; [apply Hsde; reflexivity|eauto].
      + assert (Hn : ~ occurs a_brownian_path (ca_terms a)) by (intros Hx; apply Hsde in Hx; discriminate).
        destruct (ca_solver a) as [i|s'].
        * destruct (si_error_order i) as [q|]; [|discriminate]. exists q. split; [reflexivity|].
          right. right. split; [reflexivity|]. split; [exact Hn|reflexivity].
        * rewrite order_innermost in He |- *. destruct (si_order _) as [q|] eqn:Eo; [|discriminate].
          eexists. split; [reflexivity|]. right. right. split; [reflexivity|]. split; [exact Hn|]. exists q.
          split; [reflexivity|reflexivity].
  Qed.

  (** * Tolerances *)
  Lemma pf_C63_tolerances a s i r : check_call o a = Ok s ->
    ca_solver a = Base i -> has_class CImplicit i -> si_root i = Some r ->
    exists rtol atol norm,
      has_tols s rtol atol norm /\ same_but_root (ca_solver a) s /\
      chosen (rf_rtol r) tol_rtol (ca_controller a) rtol /\
      chosen (rf_atol r) tol_atol (ca_controller a) atol /\
      chosen (rf_norm r) tol_norm (ca_controller a) norm.
  Proof.
    intros Hs Hi Hc Hr. apply check_call_passed in Hs. destruct Hs as (k & H). destruct H.
    unfold resolve_tols in pa_tols.
    assert (Hin : isinstance CImplicit (ca_solver a) = true).
    { rewrite Hi. apply pf_C62_isinstance. exact Hc. }
    rewrite Hin in pa_tols. rewrite Hi in *. cbn [root_attr] in pa_tols. rewrite Hr in pa_tols.
    rewrite (wrap_adaptive _ _ _ pa_wrap), (wrap_tols _ _ _ pa_wrap) in pa_tols.
    destruct (is_adaptive (ca_controller a)) eqn:Had.
    - apply is_adaptive_spec in Had. destruct (valid_adaptive _ pa_valid Had) as (p & Hp).
      rewrite (pid_inside_tols _ _ Hp) in pa_tols. injection pa_tols as <-. cbn [set_root].
      unfold has_tols, same_but_root, chosen, copy_tols.
      destruct r as [[r1|] [r2|] [r3|]]; cbn; do 3 eexists;
        (split; [eexists; split; reflexivity|]); (split; [do 2 eexists; split; reflexivity|]);
        repeat split; eauto 8.
    - assert (Hset : unset_tols r = false /\ s = Base i).
      { destruct (controller_tols (ca_controller a)), (unset_tols r); try discriminate; split; congruence. }
      destruct Hset as [Hset ->]. apply unset_tols_spec in Hset. destruct Hset as (S1 & S2 & S3).
      destruct r as [[r1|] [r2|] [r3|]]; cbn in *; try congruence. exists r1, r2, r3.
      split; [exists i; auto|]. split; [|unfold chosen; auto].
      eexists i, _. split; [reflexivity|]. f_equal. rewrite <- Hr. destruct i; reflexivity.
  Qed.

  Lemma pf_C63_not_implicit a s : check_call o a = Ok s -> ~ direct_class CImplicit (ca_solver a) -> s = ca_solver a.
  Proof.
    intros Hs Hn. apply check_call_passed in Hs. destruct Hs as (k & H). destruct H.
    unfold resolve_tols in pa_tols. rewrite <- isinstance_direct in Hn by discriminate.
    destruct (isinstance CImplicit (ca_solver a)); congruence.
  Qed.

  Lemma pf_C63_half_implicit a i : ca_solver a = Half (Base i) -> has_class CImplicit i ->
    forall s, check_call o a <> Ok s.
  Proof.
    intros Hi Hc s Hs. apply check_call_passed in Hs. destruct Hs as (k & H). destruct H.
    unfold resolve_tols in pa_tols.
    assert (Hin : isinstance CImplicit (ca_solver a) = true).
    { rewrite Hi. apply pf_C62_isinstance. left. exact Hc. }
    rewrite Hin, Hi in pa_tols. discriminate.
  Qed.

  Lemma pf_C62_half_scan_kind a i : ca_solver a = Half (Base i) -> has_class CRungeKuttaOrSRK i ->
    ca_adjoint a = DirectAdjoint \/ ca_adjoint a = ForwardMode ->
    forall s, check_call o a <> Ok s.
  Proof.
    intros Hi Hc Had s Hs. apply check_call_passed in Hs. destruct Hs as (k & H). destruct H.
    apply (proj1 (adjoint_iff a)) in pa_adjoint. unfold adjoint_supports in pa_adjoint. rewrite Hi in pa_adjoint.
    assert (Hd : @direct_class Y CRungeKuttaOrSRK (Half (Base i))) by (exists i; split; [reflexivity|exact Hc]).
    destruct Had as [Ha|Ha]; rewrite Ha in pa_adjoint; destruct (pa_adjoint Hd) as (j & [=] & _).
  Qed.
End Run.

(** [StepTo] *)
Section RunStepTo.
  Context {Y SS DI E V MS VF C : Type} (cneg : C -> C) (o : time_ops Z).
  Notation call := (call Y SS nat DI E V MS VF C).

  Lemma pf_C61_stepto (a : call) s ts : check_call o a = Ok s -> ca_controller a = CStepTo ts ->
    ca_controller_state a = false ->
    (forall ts', pb_adapt (ca_problem a s) (CStepTo ts') = stepto_adapt ts') ->
    (forall ts' T t0 t1 y dt0, (2 <= length ts')%nat ->
       Some (pb_controller_init (ca_problem a s) (CStepTo ts') T t0 t1 y dt0) = stepto_init ts') ->
    exists c i, normalise cneg (call_problem a s) = Some (c, i) /\
      stepto_solve (map (fun t => t * direction_of (call_problem a s)) ts) c i.
  Proof.
    intros Hs Hk Hst Hadapt Hinit.
    destruct (accepted_normalise cneg o a s Hs) as (k & c & i & Hw & Hn & H0 & H1 & Hsub & Hm & Ha & Hl & Hi & Ht).
    exists c, i. split; [exact Hn|]. rewrite direction_dir.
    apply check_call_passed in Hs. destruct Hs as (k' & H). destruct H.
    rewrite Hw in pa_wrap. injection pa_wrap as <-.
    pose proof (proj1 (init_iff a k pa_valid Hw) pa_init) as [_ Hends]. destruct (Hends ts Hk) as [[Hx _]|(_ & E0 & E1)];
      [congruence|].
    rewrite Hk in *. cbn [wrap_controller] in Hw. destruct (not_increasing _) eqn:Hinc; [discriminate|].
    injection Hw as <-. apply strongly_lt in Hinc. inversion pa_valid as [|ts' Hlen| |]; subst ts'.
    set (ts' := map (fun t => t * call_dir a) ts) in *.
    assert (Hlen' : length ts' = length ts) by apply map_length.
    assert (Hlast : nth_error ts' (length ts' - 1) = Some (cfg_t1 c)).
    { rewrite Hlen'. unfold ts'. rewrite nth_error_map, E1, H1. reflexivity. }
    unfold stepto_solve. rewrite Ha, Hadapt. split; [reflexivity|]. split.
    - cbv zeta in Hi.
      specialize (Hinit ts' (wrap_term cneg (call_dir a) (pb_term (ca_problem a s))) (ca_t0 a * call_dir a)
        (ca_t1 a * call_dir a) (pb_y0 (ca_problem a s)) (option_map (fun x => x * call_dir a) (ca_dt0 a))).
      rewrite <- Hinit by lia. destruct (pb_controller_init _ _ _ _ _ _ _) as [tn cs]. cbn in Hi. rewrite Hi.
      assert (Hle : tn <= ca_t1 a * call_dir a).
      { specialize (Hinit ltac:(lia)). rewrite <- H1. clear - Hinit Hinc Hlast Hlen Hlen'.
        unfold stepto_init in Hinit. destruct (get_clamp ts' 1) as [t|] eqn:Hg; [|discriminate].
        injection Hinit as -> _.
        assert (Hnth : nth_error ts' 1 = Some t).
        { unfold get_clamp in Hg. replace (Nat.min 1 (length ts' - 1)) with 1%nat in Hg by lia. exact Hg. }
        clear Hg. destruct ts' as [|x [|y l]]; cbn in Hnth; try discriminate. injection Hnth as ->.
        destruct l as [|z l]; [cbn in Hlast; injection Hlast as ->; lia|].
        inversion Hinc as [|? ? Hs1 Hs2]; subst. inversion Hs1 as [|? ? Hs3 Hs4]; subst.
        rewrite Forall_forall in Hs4. apply Z.lt_le_incl, Hs4.
        apply (nth_error_In _ (length (z :: l) - 1)).
        replace (length (x :: t :: z :: l) - 1)%nat with (S (S (length (z :: l) - 1))) in Hlast by (cbn; lia).
        exact Hlast. }
      rewrite Z.min_l by exact Hle. reflexivity.
    - split; [rewrite Hl; reflexivity|]. split; [lia|]. split; [exact Hinc|]. split; [|exact Hlast].
      unfold ts'. rewrite nth_error_map, E0, H0. reflexivity.
  Qed.
End RunStepTo.

Lemma exists_last_or_nil {A} (l : list A) : l = [] \/ exists l' a, l = l' ++ [a].
Proof. destruct l as [|x l]; [auto|]. right. destruct (@exists_last A (x :: l)) as (l' & a & H); [discriminate|eauto]. Qed.

(** * Steady states *)
Section SteadyState.
  Context {Y VF : Type}.

  Lemma pf_C63_steady_defined (vnorm : (Y -> R) -> VF -> R) (rtol atol : option R) (norm : option (Y -> R))
        (k : controller (pid_params Y)) (func : Z -> Y -> VF) : valid_controller k ->
    ((exists f, steady_state_event vnorm rtol atol norm k func = Ok f) <->
     adaptive k \/ (rtol <> None /\ atol <> None /\ norm <> None)).
  Proof.
    intros Hv. unfold steady_state_event. cbv zeta. destruct (is_adaptive k) eqn:Ha.
    - apply is_adaptive_spec in Ha. destruct (valid_adaptive _ Hv Ha) as (p & Hp).
      rewrite (pid_inside_tols _ _ Hp). split; [auto|]. intros _.
      destruct rtol, atol, norm; cbn; eauto.
    - assert (Hn : ~ adaptive k) by (rewrite <- is_adaptive_spec; congruence).
      destruct rtol, atol, norm; cbn; split; eauto; try (intros (? & [=]));
        try (right; repeat split; discriminate); intros [H|(H1 & H2 & H3)]; try contradiction; congruence.
  Qed.

  Lemma steady_means vnorm rtol atol norm k (func : Z -> Y -> VF) f r a n : 
    steady_state_event vnorm rtol atol norm k func = Ok f ->
    chosen rtol tol_rtol k r -> chosen atol tol_atol k a -> chosen norm tol_norm k n ->
    forall t y, f t y = true <-> (vnorm n (func t y) < a + r * n y)%R.
  Proof.
    unfold steady_state_event. cbv zeta.
    assert (G : forall A (x : option A) get v v', chosen x get k v ->
              match x with
              | Some v => Ok v
              | None => if is_adaptive k then match controller_tols k with Some t => Ok (get t) | None => Raise AttributeMissing end
                        else Raise MissingTolerances
              end = Ok v' -> v' = v).
    { intros A x get v v' [->|(-> & p & Hp & ->)]; [congruence|].
      rewrite (pid_inside_tols _ _ Hp). destruct (is_adaptive k); congruence. }
    intros H Hr Ha Hn. apply rbind_ok in H. destruct H as (r' & H1 & H). apply rbind_ok in H.
    destruct H as (a' & H2 & H). apply rbind_ok in H. destruct H as (n' & H3 & [= <-]).
    apply (G _ _ _ _ _ Hr) in H1. apply (G _ _ _ _ _ Ha) in H2. apply (G _ _ _ _ _ Hn) in H3. subst.
    intros t y. destruct (Rlt_dec _ _); split; auto; try discriminate; contradiction.
  Qed.
End SteadyState.

Section SteadyRun.
  Context {Y SS CS DI E V MS VF : Type}.
  Notation config := (config Y SS CS DI E V MS).
  Notation initial := (initial Y SS CS MS).
  Notation outcome := (outcome Y SS CS DI V MS).
  Notation attempt := (attempt Y).

  Lemma init_mask_iff (c : config) (i : initial) s0 (e : event Y) :
    init_state c i = Some s0 -> cfg_event c = Some e ->
    ((exists k, nth_error (st_event_mask s0) k = Some true) <->
     exists f, In (BoolCond f) (ev_cond_fn e) /\ f (cfg_t0 c) (in_y i) = true).
  Proof.
    intros Hi He. unfold init_state, obind in Hi. rewrite He in Hi.
    destruct (omap _ _); [|discriminate]. destruct (omap2 _ _ _); [|discriminate].
    destruct (if cfg_dense c then _ else _); [|discriminate].
    set (ml := map init_mask _) in Hi.
    pose proof (first_true_had ml false) as Hhad. rewrite orb_false_r in Hhad.
    pose proof (first_true_count ml) as Hcount.
    destruct (first_true false ml) as [mask had]. cbn [fst snd] in *. injection Hi as <-. cbn [st_event_mask].
    assert (Hl : existsb (fun b => b) ml = true <->
                 exists f, In (BoolCond f) (ev_cond_fn e) /\ f (cfg_t0 c) (in_y i) = true).
    { subst ml. rewrite map_map, existsb_map_true. split.
      - intros (cf & Hin & Hv). destruct cf as [f|f d]; cbn in Hv; [|discriminate]. eauto.
      - intros (f & Hin & Hv). exists (BoolCond f). auto. }
    rewrite <- Hl. split.
    - intros (k & Hk). destruct (existsb (fun b => b) ml) eqn:Hx; [reflexivity|].
      apply count_occ_not_In in Hcount. exfalso. apply Hcount. eapply nth_error_In; eauto.
    - intros Hx. rewrite Hx in Hcount. apply In_nth_error. apply (count_occ_In bool_dec). lia.
  Qed.

  Lemma happened_mask (s : state Y SS CS DI V MS) :
    event_happened s = true <-> exists k, nth_error (st_event_mask s) k = Some true.
  Proof.
    unfold event_happened. rewrite existsb_exists. split.
    - intros (b & Hb & ->). apply In_nth_error in Hb. exact Hb.
    - intros (k & Hk). exists true. split; [eapply nth_error_In; eauto|reflexivity].
  Qed.

  (** A single boolean condition and no root finder. *)
  Lemma bool_event (c : config) (i : initial) (h : list attempt) (out : outcome) (f : Z -> Y -> bool) :
    solve_run c i h out -> cfg_event c = Some (Event [BoolCond f] None) -> results_ok c -> rejects_in_place h ->
    (out_result out = event_occurred <-> f (out_tfinal out) (out_yfinal out) = true) /\
    (h <> [] -> f (cfg_t0 c) (in_y i) = false) /\
    (forall h1 b h2, accepted h = h1 ++ b :: h2 -> h2 <> [] -> f (at_end b) (at_y b) = false).
  Proof.
    intros Hrun He Hok Hrj.
    assert (Hrf : has_root_finder c = false) by (unfold has_root_finder; rewrite He; reflexivity).
    assert (Hdef : event_defined (Event [BoolCond f] None)).
    { intros cf t y [<-|[]]. exact Logic.I. }
    pose proof (run_current c i h out Hrun Hrf Hrj) as Hcur.
    assert (Hres : out_result out = event_occurred <-> exists k, nth_error (st_event_mask (out_state out)) k = Some true).
    { destruct Hrun as (s0 & n & Hi & Hn & Hh & Hf).
      destruct (finish_state _ _ _ Hf) as (Hos & r & Hft & ->). rewrite Hos.
      pose proof (run_mask_inv c i s0 n Hok Hi) as Hm. apply happened_event in Hm.
      rewrite <- happened_mask, Hm.
      assert (Hr : r = st_result (while_loop c n s0)).
      { unfold final_time in Hft. rewrite He in Hft. cbn in Hft. injection Hft as _ _ <-. reflexivity. }
      rewrite Hr. destruct (cond_fun c (while_loop c n s0)) eqn:Hc; cbn [where_].
      - split; [discriminate|]. unfold cond_fun in Hc. apply andb_true_iff in Hc. destruct Hc as [_ Hc].
        intros Hx. destruct (st_result _); discriminate.
      - destruct (st_result _); split; try reflexivity; discriminate. }
    assert (H0 : h <> [] -> f (cfg_t0 c) (in_y i) = false).
    { intros Hne. apply not_true_iff_false. intros Hf0.
      destruct Hrun as (s0 & n & Hi & Hn & Hh & Hf).
      assert (Hc : cond_fun c s0 = true).
      { destruct n; cbn in Hh; [congruence|]. destruct (cond_fun c s0); [reflexivity|congruence]. }
      assert (Hev : event_happened s0 = true).
      { apply happened_mask. apply (init_mask_iff c i s0 _ Hi He). exists f. split; [left; reflexivity|exact Hf0]. }
      pose proof (run_mask_inv c i s0 0 Hok Hi) as Hm. cbn in Hm. apply happened_event in Hm.
      rewrite Hev in Hm. unfold cond_fun in Hc. apply andb_true_iff in Hc. destruct Hc as [_ Hc].
      destruct (st_result s0); discriminate. }
    destruct (@exists_last_or_nil attempt h) as [->|(h' & a & ->)].
    - rewrite Hres, (pf_C10_initial c i out _ Hrun He). cbn in Hcur. injection Hcur as -> ->. split; [|split].
      + split.
        * intros (g & [[= <-]|[]] & Hg). exact Hg.
        * intros Hf. exists f. split; [left; reflexivity|exact Hf].
      + congruence.
      + intros h1 b h2 Hx. destruct h1; discriminate.
    - destruct (pf_C10_first_crossing c i h' a out _ Hrun He Hdef Hok Hrj) as [Hearly Hlast].
      assert (Hb : forall b, In b h' -> f (at_end b) (at_y b) = false).
      { intros b Hb. apply not_true_iff_false. intros Hx. apply (Hearly b (BoolCond f) Hb); [left; reflexivity|exact Hx]. }
      rewrite Hres, Hlast. unfold accepted in *. rewrite filter_app in *. cbn [filter] in *.
      destruct (at_keep a) eqn:Hk.
      + split; [|split; [exact H0|]].
        * unfold current in Hcur. rewrite map_app in Hcur. cbn [map] in Hcur.
          rewrite last_last in Hcur. injection Hcur as -> ->. split.
          -- intros [_ (cf & [<-|[]] & Hx)]. exact Hx.
          -- intros Hx. split; [reflexivity|]. exists (BoolCond f). split; [left; reflexivity|exact Hx].
        * intros h1 b h2 Heq Hne. apply Hb.
          destruct (@exists_last_or_nil attempt h2) as [->|(h3 & z & ->)]; [congruence|].
          rewrite app_comm_cons, app_assoc in Heq. apply app_inj_tail in Heq. destruct Heq as [Heq _].
          assert (Hin : In b (filter at_keep h')) by (rewrite Heq; apply in_elt).
          apply filter_In in Hin. tauto.
      + rewrite app_nil_r in *.
        assert (Hfin : f (out_tfinal out) (out_yfinal out) = false).
        { destruct (@exists_last_or_nil attempt (filter at_keep h')) as [Hx|(l & z & Hx)]; rewrite Hx in Hcur.
          - cbn in Hcur. injection Hcur as -> ->. apply H0. intros Hy. destruct h'; discriminate.
          - unfold current in Hcur. rewrite map_app in Hcur. cbn [map] in Hcur.
            rewrite last_last in Hcur. injection Hcur as -> ->. apply Hb.
            assert (Hin : In z (filter at_keep h')) by (rewrite Hx; apply in_elt). apply filter_In in Hin. tauto. }
        split; [|split; [exact H0|]].
        * rewrite Hfin. split; [intros [[=] _]|discriminate].
        * intros h1 b h2 Heq Hne. apply Hb.
          assert (Hin : In b (filter at_keep h')) by (rewrite Heq; apply in_elt). apply filter_In in Hin. tauto.
  Qed.

  Lemma pf_C63_steady_state (c : config) (i : initial) (h : list attempt) (out : outcome)
        (vnorm : (Y -> R) -> VF -> R) (rtol atol : option R) (norm : option (Y -> R))
        (k : controller (pid_params Y)) (func : Z -> Y -> VF) (f : Z -> Y -> bool) (r a : R) (n : Y -> R) :
    solve_run c i h out -> cfg_event c = Some (Event [BoolCond f] None) -> results_ok c -> rejects_in_place h ->
    steady_state_event vnorm rtol atol norm k func = Ok f ->
    chosen rtol tol_rtol k r -> chosen atol tol_atol k a -> chosen norm tol_norm k n ->
    let settled t y := (vnorm n (func t y) < a + r * n y)%R in
    (out_result out = event_occurred <-> settled (out_tfinal out) (out_yfinal out)) /\
    (h <> [] -> ~ settled (cfg_t0 c) (in_y i)) /\
    (forall h1 b h2, accepted h = h1 ++ b :: h2 -> h2 <> [] -> ~ settled (at_end b) (at_y b)).
  Proof.
    intros Hrun He Hok Hrj Hf Hr Ha Hn settled.
    pose proof (steady_means _ _ _ _ _ _ _ _ _ _ Hf Hr Ha Hn) as Hm.
    destruct (bool_event c i h out f Hrun He Hok Hrj) as (H1 & H2 & H3). split; [|split].
    - rewrite H1. apply Hm.
    - intros Hne Hx. apply Hm in Hx. rewrite H2 in Hx by exact Hne. discriminate.
    - intros h1 b h2 Heq Hne Hx. apply Hm in Hx. rewrite (H3 h1 b h2 Heq Hne) in Hx. discriminate.
  Qed.
End SteadyRun.
