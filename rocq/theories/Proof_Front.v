(** Proofs about the checks made by [diffeqsolve]. *)
From Coq Require Import ZArith List Bool Arith Reals QArith Sorting.Sorted Lia.
From Verif Require Import Model_Result Model_Loop Model_Fixed Model_Dense Model_Direction Model_Front Spec_Front.
Import ListNotations.
Open Scope Z_scope.

(** * Results *)
Lemma rbind_ok {A B} (x : res A) (f : A -> res B) b : rbind x f = Ok b <-> exists a, x = Ok a /\ f a = Ok b.
Proof.
  destruct x; cbn; split.
  - eauto.
  - intros (? & [= ->] & ?). auto.
  - discriminate.
  - intros (? & [=] & _).
Qed.
Lemma raise_if_ok b e : raise_if b e = Ok tt <-> b = false.
Proof. destruct b; cbn; split; congruence. Qed.
Lemma rbind_raise_if {B} b e (f : unit -> res B) r : rbind (raise_if b e) f = Ok r <-> b = false /\ f tt = Ok r.
Proof. destruct b; cbn; split; [discriminate|intros [[=] _]|auto|intros [_ H]; exact H]. Qed.
Lemma rbind_unit {B} (x : res unit) (f : unit -> res B) r : rbind x f = Ok r <-> x = Ok tt /\ f tt = Ok r.
Proof.
  rewrite rbind_ok. split.
  - intros ([] & H). exact H.
  - intros H. exists tt. exact H.
Qed.
Lemma check_all_ok {A} (f : A -> res unit) l : check_all f l = Ok tt <-> Forall (fun x => f x = Ok tt) l.
Proof.
  induction l as [|x l IH]; cbn; [split; auto|]. rewrite rbind_unit, IH. split.
  - intros [H1 H2]. constructor; auto.
  - intros H. inversion H; auto.
Qed.
Lemma is_none_spec {A} (x : option A) : is_none x = false <-> x <> None.
Proof. destruct x; cbn; split; congruence. Qed.

(** * PyTrees *)
Lemma pytree_ind' (Q : pytree -> Prop) :
  Q Leaf -> (forall k l, Forall Q l -> Q (Node k l)) -> forall x, Q x.
Proof.
  intros HL HN. fix IH 1. intros [|k l]; [exact HL|]. apply HN.
  induction l as [|x l IHl]; constructor; [apply IH|apply IHl].
Qed.

Lemma existsb_flat_map {A B} (p : B -> bool) (f : A -> list B) l :
  existsb p (flat_map f l) = existsb (fun x => existsb p (f x)) l.
Proof. induction l as [|x l IH]; cbn; [reflexivity|]. rewrite existsb_app, IH. reflexivity. Qed.

Lemma existsb_flatten (p : pytree -> bool) (x : pytree) :
  existsb p (flatten p x) = true <-> occurs (fun y => p y = true) x.
Proof.
  induction x as [|k l IH] using pytree_ind'; cbn [flatten].
  - destruct (p Leaf) eqn:E; cbn; rewrite E; cbn; split; intros H; try discriminate.
    + constructor. exact E.
    + reflexivity.
    + inversion H; congruence.
  - destruct (p (Node k l)) eqn:E.
    + cbn. rewrite E. cbn. split; intros _; [constructor; exact E|reflexivity].
    + rewrite existsb_flat_map, existsb_exists. rewrite Forall_forall in IH. split.
      * intros (y & Hy & H). eapply occurs_below; [exact Hy|]. apply IH; assumption.
      * intros H. inversion H as [y Hy|k' l' y Hy Ho]; subst; [congruence|].
        exists y. split; [assumption|]. apply IH; assumption.
Qed.

Lemma occurs_iff (p q : pytree -> Prop) x : (forall y, p y <-> q y) -> occurs p x <-> occurs q x.
Proof.
  intros H. split; intros Ho; induction Ho as [y Hy|k l y Hi Ho IH];
    try (apply occurs_here; apply H; exact Hy); eapply occurs_below; eassumption.
Qed.

Lemma is_brownian_spec x : is_brownian x = true <-> a_brownian_path x.
Proof.
  unfold a_brownian_path. split.
  - destruct x as [|[] l]; cbn; try discriminate; intros _; exists l; auto.
  - intros (l & [-> | ->]); reflexivity.
Qed.
Lemma is_unsafe_spec x : is_unsafe_brownian x = true <-> an_unsafe_path x.
Proof.
  unfold an_unsafe_path. split.
  - destruct x as [|[] l]; cbn; try discriminate; intros _; exists l; auto.
  - intros (l & ->); reflexivity.
Qed.
Lemma is_path_spec x : is_path x = true <-> a_path x.
Proof.
  unfold a_path. split.
  - destruct x as [|[] l]; cbn; try discriminate; intros _; eauto 7.
  - intros (k & l & -> & [-> | [-> | ->]]); reflexivity.
Qed.

Lemma pf_C62_is_sde (terms : pytree) : is_sde terms = true <-> occurs a_brownian_path terms.
Proof. unfold is_sde. rewrite existsb_flatten. apply occurs_iff. exact is_brownian_spec. Qed.
Lemma pf_C62_is_unsafe_sde (terms : pytree) : is_unsafe_sde terms = true <-> occurs an_unsafe_path terms.
Proof. unfold is_unsafe_sde. rewrite existsb_flatten. apply occurs_iff. exact is_unsafe_spec. Qed.

Lemma pf_C62_is_cde (terms : pytree) :
  is_cde terms = true <-> occurs_outside a_path (fun x => a_path x /\ ~ a_brownian_path x) terms.
Proof.
  unfold is_cde.
  assert (Hp : forall x, is_path x && negb (is_brownian x) = true <-> a_path x /\ ~ a_brownian_path x).
  { intros x. rewrite andb_true_iff, negb_true_iff, is_path_spec, <- is_brownian_spec.
    destruct (is_brownian x); split; intros [H1 H2]; split; auto; congruence. }
  induction terms as [|k l IH] using pytree_ind'; cbn [flatten].
  - cbn. split; [discriminate|]. intros H. inversion H as [y Hy|]; subst. apply Hp in Hy. discriminate.
  - destruct (is_path (Node k l)) eqn:E.
    + cbn [existsb]. rewrite orb_false_r, Hp. split.
      * intros H. constructor. exact H.
      * intros H. inversion H as [y Hy|k' l' y Hn Hy Ho]; subst; [exact Hy|].
        exfalso. apply Hn. apply is_path_spec. exact E.
    + rewrite existsb_flat_map, existsb_exists. rewrite Forall_forall in IH. split.
      * intros (y & Hy & H). eapply outside_below; [|exact Hy|apply IH; assumption].
        rewrite <- is_path_spec, E. discriminate.
      * intros H. inversion H as [y Hy|k' l' y Hn Hy Ho]; subst.
        -- exfalso. destruct Hy as [Hy _]. apply is_path_spec in Hy. congruence.
        -- exists y. split; [assumption|]. apply IH; assumption.
Qed.

(** Wrapping the terms does not change what they are. *)
Lemma occurs_wrap (p : pytree -> Prop) x :
  (forall k l l', p (Node k l) <-> p (Node k l')) -> (forall l, ~ p (Node KTerm l)) -> ~ p Leaf ->
  occurs p (wrap_pytree x) <-> occurs p x.
Proof.
  intros Hk HT HL. induction x as [|k l IH] using pytree_ind'; [reflexivity|].
  rewrite Forall_forall in IH.
  assert (G : occurs p (Node k (map wrap_pytree l)) <-> occurs p (Node k l)).
  { split; intros H; inversion H as [y Hy|k' l' y Hy Ho]; subst.
    - apply occurs_here. eapply Hk; exact Hy.
    - apply in_map_iff in Hy. destruct Hy as (z & <- & Hz). eapply occurs_below; [exact Hz|]. apply IH; assumption.
    - apply occurs_here. eapply Hk; exact Hy.
    - eapply occurs_below; [apply in_map; exact Hy|]. apply IH; assumption. }
  destruct k; try exact G. cbn. split; intros H.
  - inversion H as [y Hy|k' l' y Hy Ho]; subst; [exfalso; exact (HT _ Hy)|].
    destruct Hy as [<-|[<-|[]]]; [exact Ho|]. inversion Ho; subst. contradiction.
  - eapply occurs_below; [left; reflexivity|exact H].
Qed.
Lemma wrapped_sde (terms : pytree) : is_sde (wrap_pytree terms) = is_sde terms.
Proof.
  apply eq_true_iff_eq. rewrite !pf_C62_is_sde. apply occurs_wrap.
  - intros k l l'. rewrite <- !is_brownian_spec. destruct k; reflexivity.
  - intros l H. apply is_brownian_spec in H. discriminate.
  - intros H. apply is_brownian_spec in H. discriminate.
Qed.

Lemma wrapped_unsafe (terms : pytree) : is_unsafe_sde (wrap_pytree terms) = is_unsafe_sde terms.
Proof.
  apply eq_true_iff_eq. rewrite !pf_C62_is_unsafe_sde. apply occurs_wrap.
  - intros k l l'. rewrite <- !is_unsafe_spec. destruct k; reflexivity.
  - intros l H. apply is_unsafe_spec in H. discriminate.
  - intros H. apply is_unsafe_spec in H. discriminate.
Qed.

Lemma pf_C62_wrapped (terms : pytree) :
  is_sde (wrap_pytree terms) = is_sde terms /\ is_unsafe_sde (wrap_pytree terms) = is_unsafe_sde terms.
Proof. split; [apply wrapped_sde|apply wrapped_unsafe]. Qed.

(** * Sorting *)
Lemma strongly_le ts : existsb (fun p => snd p <? fst p) (combine ts (tl ts)) = false <-> StronglySorted Z.le ts.
Proof.
  induction ts as [|x ts IH]; [split; [constructor|reflexivity]|].
  destruct ts as [|y ts].
  - cbn. split; [repeat constructor|reflexivity].
  - cbn [tl combine existsb fst snd]. rewrite orb_false_iff.
    change (combine (y :: ts) ts) with (combine (y :: ts) (tl (y :: ts))). rewrite IH. split.
    + intros [H1 H2]. apply Z.ltb_ge in H1. constructor; [exact H2|]. inversion H2; subst.
      constructor; [exact H1|]. eapply Forall_impl; [|eassumption]. cbn. lia.
    + intros H. inversion H as [|? ? H1 H2]; subst. inversion H2; subst. split; [apply Z.ltb_ge; assumption|exact H1].
Qed.
Lemma strongly_lt ts : not_increasing ts = false <-> StronglySorted Z.lt ts.
Proof.
  unfold not_increasing. induction ts as [|x ts IH]; [split; [constructor|reflexivity]|].
  destruct ts as [|y ts].
  - cbn. split; [repeat constructor|reflexivity].
  - cbn [tl combine existsb fst snd]. rewrite orb_false_iff.
    change (combine (y :: ts) ts) with (combine (y :: ts) (tl (y :: ts))). rewrite IH. split.
    + intros [H1 H2]. apply Z.leb_gt in H1. constructor; [exact H2|]. inversion H2; subst.
      constructor; [exact H1|]. eapply Forall_impl; [|eassumption]. cbn. lia.
    + intros H. inversion H as [|? ? H1 H2]; subst. inversion H2; subst. split; [apply Z.leb_gt; assumption|exact H1].
Qed.
Lemma sorted_map {A B} (f : A -> B) (r : A -> A -> Prop) (r' : B -> B -> Prop) l :
  (forall a b, r a b <-> r' (f a) (f b)) -> StronglySorted r l <-> StronglySorted r' (map f l).
Proof.
  intros H. induction l as [|x l IH]; cbn; [split; constructor|]. split; intros Hs; inversion Hs as [|? ? H1 H2]; subst.
  - constructor; [apply IH; exact H1|]. apply Forall_map. eapply Forall_impl; [|exact H2]. intros b. apply H.
  - constructor; [apply IH; exact H1|]. apply (proj1 (Forall_map _ _ _)) in H2.
    eapply Forall_impl; [|exact H2]. intros b. apply H.
Qed.
Definition dir (t0 t1 : Z) : Z := if t0 <? t1 then 1 else -1.
Lemma towards_dir t0 t1 ts : StronglySorted Z.le (map (fun t => t * dir t0 t1) ts) <-> towards t0 t1 ts.
Proof.
  unfold towards, dir. destruct (t0 <? t1); symmetry; apply sorted_map; intros a b; lia.
Qed.
Lemma strictly_towards_dir t0 t1 ts :
  StronglySorted Z.lt (map (fun t => t * dir t0 t1) ts) <-> strictly_towards t0 t1 ts.
Proof.
  unfold strictly_towards, dir. destruct (t0 <? t1); symmetry; apply sorted_map; intros a b; lia.
Qed.

(** * Solvers *)
Section Solver.
  Context {Y : Type}.
  Notation solver := (solver Y).
  Lemma class_eqb_spec a b : class_eqb a b = true <-> a = b.
  Proof. destruct a, b; cbn; split; congruence. Qed.
  Lemma plain_base c (i : solver_info Y) : plain_instance c (Base i) = true <-> has_class c i.
  Proof.
    unfold plain_instance, has_class. rewrite existsb_exists. split.
    - intros (x & Hx & H). apply class_eqb_spec in H. subst. exact Hx.
    - intros H. exists c. split; [exact H|apply class_eqb_spec; reflexivity].
  Qed.
  Lemma isinstance_direct (c : solver_class) (s : solver) :
    c <> CAdaptive -> c <> CWrapped -> c <> CHalf ->
    isinstance c s = true <-> direct_class c s.
  Proof.
    intros H1 H2 H3. unfold isinstance, direct_class. destruct s as [i|s].
    - assert (E : (if plain_instance CWrapped (Base i) then plain_instance c (Base i) || false
                   else plain_instance c (Base i)) = plain_instance c (Base i)).
      { destruct (plain_instance CWrapped (Base i)); [apply orb_false_r|reflexivity]. }
      rewrite E, plain_base. cbn. split; [eauto|]. intros (j & [= ->] & H). exact H.
    - change (plain_instance CWrapped (Half s)) with true. cbv iota.
      assert (E : plain_instance c (Half s) = false).
      { destruct c; try reflexivity; congruence. }
      rewrite E. cbn [orb]. destruct s as [i|s].
      + rewrite plain_base. cbn. split; [eauto|]. intros (j & [= ->] & H). exact H.
      + assert (E' : plain_instance c (Half s) = false) by (destruct c; try reflexivity; congruence).
        rewrite E'. cbn. split; [discriminate|]. intros (j & [=] & _).
  Qed.

  Lemma order_innermost (s : solver) : order s = si_order (innermost s).
  Proof. induction s; cbn; auto. Qed.
  Lemma strong_order_innermost (s : solver) : strong_order s = si_strong_order (innermost s).
  Proof. induction s; cbn; auto. Qed.
  Lemma single_term_innermost (s : solver) : single_term s = si_single_term (innermost s).
  Proof. induction s; cbn; auto. Qed.
  Lemma unset_tols_spec (r : root_tols Y) : unset_tols r = false <-> all_set r.
  Proof. unfold unset_tols, all_set. rewrite !orb_false_iff, !is_none_spec. tauto. Qed.
End Solver.

(** * Controllers *)
Section Controller.
  Context {Y : Type}.
  Notation controller := (controller (pid_params Y)).

  Lemma is_adaptive_spec (k : controller) : is_adaptive k = true <-> adaptive k.
  Proof. destruct k; cbn; split; intros H; try discriminate; try constructor; inversion H. Qed.

  Lemma make_controller_same (k k' : controller) : make_controller k = Ok k' -> k' = k.
  Proof.
    revert k'. induction k as [|ts|p|inner IH a b c]; cbn [make_controller]; intros k'.
    - intros [= <-]. reflexivity.
    - destruct (length ts <? 2)%nat; [discriminate|]. intros [= <-]. reflexivity.
    - intros [= <-]. reflexivity.
    - rewrite rbind_ok. intros (i' & Hi & H). apply IH in Hi. subst i'.
      destruct (negb _); [discriminate H|]. destruct (match c with Some n => _ | None => _ end); [discriminate|].
      injection H as <-. reflexivity.
  Qed.
  Lemma make_controller_ok (k : controller) : (exists k', make_controller k = Ok k') <-> valid_controller k.
  Proof.
    induction k as [|ts|p|inner IH a b c]; cbn [make_controller].
    - split; [constructor|eauto].
    - destruct (Nat.ltb_spec (length ts) 2) as [H|H].
      + split; [intros (? & [=])|]. intros Hv. inversion Hv. lia.
      + split; [constructor; exact H|eauto].
    - split; [constructor|eauto].
    - split.
      + intros (k' & H). apply rbind_ok in H. destruct H as (i' & Hi & H).
        pose proof (make_controller_same _ _ Hi) as ->.
        destruct (is_adaptive inner) eqn:Ha; [|discriminate H]. cbn in H.
        constructor.
        * apply IH. eauto.
        * apply is_adaptive_spec. exact Ha.
        * intros ->. discriminate.
      + intros H. inversion H as [| | |? ? ? ? H1 H2 H3]; subst. apply IH in H1. destruct H1 as (i' & Hi).
        pose proof (make_controller_same _ _ Hi) as ->. rewrite Hi. cbn.
        apply is_adaptive_spec in H2. rewrite H2. cbn.
        destruct c as [[|n]|]; cbn; [congruence|eauto|eauto].
  Qed.

  (** A valid adaptive controller has a [PIDController] inside. *)
  Lemma valid_adaptive (k : controller) : valid_controller k -> adaptive k -> exists p, pid_inside p k.
  Proof.
    intros Hv. induction Hv as [|ts Hl|p|inner a b c Hv IH Ha Hc]; intros H; try (inversion H; fail).
    - exists p. constructor.
    - destruct (IH Ha) as (p & Hp). exists p. constructor. exact Hp.
  Qed.
  Lemma pid_inside_tols p (k : controller) : pid_inside p k -> controller_tols k = Some (pp_tols p).
  Proof. induction 1; cbn; auto. Qed.
  Lemma pid_inside_order p (k : controller) eo : pid_inside p k ->
    controller_error_order k eo = match pp_error_order p with Some x => Some x | None => eo end.
  Proof. induction 1; cbn; auto. Qed.
  Lemma pid_inside_unique p q (k : controller) : pid_inside p k -> pid_inside q k -> p = q.
  Proof. induction 1; intros H'; inversion H'; subst; auto. Qed.

  (** Wrapping keeps all this. *)
  Lemma wrap_adaptive d (k k' : controller) : wrap_controller d k = Some k' -> is_adaptive k' = is_adaptive k.
  Proof.
    destruct k as [|ts|p|inner a b c]; cbn.
    - intros [= <-]. reflexivity.
    - destruct (not_increasing _); [discriminate|]. intros [= <-]. reflexivity.
    - intros [= <-]. reflexivity.
    - destruct (wrap_controller d inner); [|discriminate]. intros [= <-]. reflexivity.
  Qed.
  Lemma wrap_tols d (k k' : controller) : wrap_controller d k = Some k' -> controller_tols k' = controller_tols k.
  Proof.
    revert k'. induction k as [|ts|p|inner IH a b c]; cbn; intros k'.
    - intros [= <-]. reflexivity.
    - destruct (not_increasing _); [discriminate|]. intros [= <-]. reflexivity.
    - intros [= <-]. reflexivity.
    - destruct (wrap_controller d inner) as [i'|]; [|discriminate]. intros [= <-]. cbn. apply IH. reflexivity.
  Qed.
  Lemma wrap_order d (k k' : controller) eo : wrap_controller d k = Some k' ->
    controller_error_order k' eo = controller_error_order k eo.
  Proof.
    revert k'. induction k as [|ts|p|inner IH a b c]; cbn; intros k'.
    - intros [= <-]. reflexivity.
    - destruct (not_increasing _); [discriminate|]. intros [= <-]. reflexivity.
    - intros [= <-]. reflexivity.
    - destruct (wrap_controller d inner) as [i'|]; [|discriminate]. intros [= <-]. cbn. apply IH. reflexivity.
  Qed.
  Lemma wrap_valid d (k : controller) : valid_controller k ->
    ((exists k', wrap_controller d k = Some k') <->
     (forall ts, k = CStepTo ts -> not_increasing (map (fun t => t * d) ts) = false)).
  Proof.
    assert (G : forall k : controller, valid_controller k -> adaptive k -> exists k', wrap_controller d k = Some k').
    { intros k0 Hv. induction Hv as [|ts Hl|p|inner a b c Hv IH Ha Hc]; intros H; try (inversion H; fail).
      - cbn. eauto.
      - cbn. destruct (IH Ha) as (k' & ->). cbn. eauto. }
    intros Hv. destruct k as [|ts|p|inner a b c].
    - split; [discriminate|]. intros _. cbn. eauto.
    - cbn. split.
      + intros (k' & H) ts' [= <-]. destruct (not_increasing _); congruence.
      + intros H. rewrite (H ts eq_refl). eauto.
    - split; [discriminate|]. intros _. cbn. eauto.
    - split; [discriminate|]. intros _. apply G; [exact Hv|constructor].
  Qed.
  Lemma wrap_stepto d (k k' : controller) ts : wrap_controller d k = Some k' ->
    (k' = CStepTo ts <-> exists ts0, k = CStepTo ts0 /\ ts = map (fun t => t * d) ts0).
  Proof.
    destruct k as [|ts0|p|inner a b c]; cbn.
    - intros [= <-]. split; [discriminate|]. intros (? & [=] & _).
    - destruct (not_increasing _); [discriminate|]. intros [= <-]. split.
      + intros [= <-]. eauto.
      + intros (? & [= <-] & ->). reflexivity.
    - intros [= <-]. split; [discriminate|]. intros (? & [=] & _).
    - destruct (wrap_controller d inner) as [i'|]; [|discriminate]. intros [= <-].
      split; [discriminate|]. intros (? & [=] & _).
  Qed.
  Lemma check_init_adaptive (k : controller) t0 t1 dt0 : valid_controller k -> adaptive k ->
    forall d k', wrap_controller d k = Some k' -> check_init k' t0 t1 dt0 = Ok tt.
  Proof.
    intros Hv. induction Hv as [|ts Hl|p|inner a b c Hv IH Ha Hc]; intros H d k' Hw; try (inversion H; fail).
    - injection Hw as <-. reflexivity.
    - cbn in Hw. destruct (wrap_controller d inner) as [i'|] eqn:Hi; [|discriminate]. injection Hw as <-. cbn.
      eapply IH; eauto.
  Qed.
End Controller.

(** * The whole check *)
Section Call.
  Context {Y SS CS DI E V MS VF C : Type} (o : time_ops Z).
  Notation call := (call Y SS CS DI E V MS VF C).
  Implicit Types a : call.

  Definition call_dir a : Z := dir (ca_t0 a) (ca_t1 a).

  (** What the checks compute, one by one. *)
  Record passed a (k : controller (pid_params Y)) (s : solver Y) : Prop := {
    pa_valid : valid_controller (ca_controller a);
    pa_events : ca_event a && ca_old_event a = false;
    pa_sign : wrong_sign o (ca_t0 a) (ca_t1 a) (ca_dt0 a) = false;
    pa_compat : ca_compatible a = true;
    pa_euler : is_sde (ca_terms a) && is_adaptive (ca_controller a) && isinstance CEuler (ca_solver a) = false;
    pa_unsafe : is_unsafe_sde (ca_terms a) && is_adaptive (ca_controller a) = false;
    pa_wrap : wrap_controller (call_dir a) (ca_controller a) = Some k;
    pa_tols : resolve_tols k (ca_solver a) = Ok s;
    pa_ts : Forall (fun sub => check_ts (ca_t0 a * call_dir a) (ca_t1 a * call_dir a) sub = Ok tt)
                   (map (wrap_sub (call_dir a)) (call_subs a));
    pa_init : let dt0 := option_map (fun x => x * call_dir a) (ca_dt0 a) in
              ca_controller_state a && negb (is_none dt0) = true \/
              check_init k (ca_t0 a * call_dir a) (ca_t1 a * call_dir a) dt0 = Ok tt;
    pa_steps : existsb (fun sub => negb (sub_steps sub =? 0)%nat) (map (wrap_sub (call_dir a)) (call_subs a))
               && is_none (ca_max_steps a) = false;
    pa_dense : sv_dense (ca_saveat a) && is_none (ca_max_steps a) = false;
    pa_adjoint : check_adjoint a = Ok tt;
    pa_error : check_error k s (wrap_pytree (ca_terms a)) = Ok tt
  }.

  Lemma check_call_passed a s : check_call o a = Ok s <-> exists k, passed a k s.
  Proof.
    unfold check_call. cbv zeta. change (if ca_t0 a <? ca_t1 a then 1 else -1) with (call_dir a).
    rewrite rbind_ok. split.
    - intros (k0 & Hk0 & H). repeat rewrite rbind_raise_if in H.
      destruct H as (H1 & H2 & H3 & H). rewrite rbind_unit in H. destruct H as (H4 & H).
      unfold check_classes in H4. rewrite rbind_raise_if, raise_if_ok in H4. destruct H4 as [H4 H5].
      rewrite rbind_ok in H. destruct H as (k & Hk & H).
      destruct (wrap_controller (call_dir a) (ca_controller a)) as [k'|] eqn:Ew; [|discriminate].
      injection Hk as ->.
      rewrite rbind_ok in H. destruct H as (s' & Hs & H).
      rewrite rbind_unit in H. destruct H as (H6 & H). rewrite check_all_ok in H6.
      rewrite rbind_unit in H. destruct H as (H7 & H).
      rewrite !rbind_raise_if in H. destruct H as (H8 & H9 & H).
      rewrite rbind_unit in H. destruct H as (H10 & H).
      rewrite rbind_unit in H. destruct H as (H11 & [= ->]).
      exists k. constructor; try assumption.
      + apply make_controller_ok. eauto.
      + destruct (ca_compatible a); [reflexivity|discriminate].
      + cbv zeta. destruct (ca_controller_state a && _); [left; reflexivity|right; exact H7].
    - intros (k & [H1 H2 H3 H4 H5 H6 H7 H8 H9 H10 H11 H12 H13 H14]).
      apply make_controller_ok in H1. destruct H1 as (k0 & H1). exists k0. split; [exact H1|].
      rewrite H2, H3, H4. cbn [raise_if rbind negb].
      unfold check_classes. rewrite H5, H6. cbn [raise_if rbind]. rewrite H7. cbn [rbind]. rewrite H8. cbn [rbind].
      rewrite (proj2 (check_all_ok _ _) H9). cbn [rbind].
      cbv zeta in H10. destruct (ca_controller_state a && _) eqn:E10.
      + cbn [rbind]. rewrite H11, H12. cbn [raise_if rbind]. rewrite H13. cbn [rbind]. rewrite H14. reflexivity.
      + destruct H10 as [H10|H10]; [discriminate|]. rewrite H10. cbn [rbind].
        rewrite H11, H12. cbn [raise_if rbind]. rewrite H13. cbn [rbind]. rewrite H14. reflexivity.
  Qed.

  (** The individual conditions. *)
  Lemma sign_iff t0 t1 dt0 : signs_ok o ->
    (wrong_sign o t0 t1 dt0 = false <-> forall d, dt0 = Some d -> ~ points_away t0 t1 d).
  Proof.
    intros [Hs Hm]. unfold wrong_sign, points_away. destruct dt0 as [d|]; [|split; [discriminate|reflexivity]].
    pose proof (Hm (t_sub o t1 t0) d) as H. rewrite Z.sgn_mul, Hs in H.
    rewrite Z.ltb_ge. split.
    - intros H0 d' [= <-] [[? ?]|[? ?]].
      + rewrite (Z.sgn_pos (t1 - t0)) in H by lia. rewrite (Z.sgn_neg d) in H by lia. lia.
      + rewrite (Z.sgn_neg (t1 - t0)) in H by lia. rewrite (Z.sgn_pos d) in H by lia. lia.
    - intros H0. specialize (H0 d eq_refl).
      destruct (Z.lt_trichotomy t0 t1) as [Ht|[Ht|Ht]].
      + rewrite (Z.sgn_pos (t1 - t0)) in H by lia. assert (0 <= d) by lia.
        assert (0 <= Z.sgn d) by (apply Z.sgn_nonneg; lia). apply Z.sgn_nonneg. lia.
      + subst. rewrite Z.sub_diag in H. cbn in H. apply Z.sgn_nonneg. lia.
      + rewrite (Z.sgn_neg (t1 - t0)) in H by lia. assert (d <= 0) by lia.
        assert (Z.sgn d <= 0) by (apply Z.sgn_nonpos; lia). apply Z.sgn_nonneg. lia.
  Qed.

  Lemma ts_iff a (sub : subsaveat Y V) : check_ts (ca_t0 a * call_dir a) (ca_t1 a * call_dir a) (wrap_sub (call_dir a) sub) = Ok tt <->
    (forall ts, sub_ts sub = Some ts ->
       towards (ca_t0 a) (ca_t1 a) ts /\ Forall (between (ca_t0 a) (ca_t1 a)) ts).
  Proof.
    unfold check_ts. cbn [wrap_sub sub_ts]. destruct (sub_ts sub) as [ts|]; cbn [option_map];
      [|split; [discriminate|reflexivity]].
    rewrite rbind_raise_if, raise_if_ok, strongly_le. unfold call_dir. rewrite towards_dir.
    assert (G : existsb (fun t => (ca_t1 a * dir (ca_t0 a) (ca_t1 a) <? t) || (t <? ca_t0 a * dir (ca_t0 a) (ca_t1 a)))
                  (map (fun t => t * dir (ca_t0 a) (ca_t1 a)) ts) = false <->
                Forall (between (ca_t0 a) (ca_t1 a)) ts).
    { induction ts as [|t ts IH]; cbn [map existsb]; [split; auto|].
      rewrite !orb_false_iff, IH, !Z.ltb_ge. unfold between, dir.
      destruct (Z.ltb_spec (ca_t0 a) (ca_t1 a)); split.
      - intros [[? ?] ?]. constructor; [lia|assumption].
      - intros Hf. inversion Hf; subst. split; [lia|assumption].
      - intros [[? ?] ?]. constructor; [lia|assumption].
      - intros Hf. inversion Hf; subst. split; [lia|assumption]. }
    rewrite G. split.
    - intros H ts' [= <-]. exact H.
    - intros H. apply H. reflexivity.
  Qed.

  Lemma euler_iff a :
    is_sde (ca_terms a) && is_adaptive (ca_controller a) && isinstance CEuler (ca_solver a) = false <->
    (brownian_somewhere a -> adaptive (ca_controller a) -> ~ direct_class CEuler (ca_solver a)).
  Proof.
    unfold brownian_somewhere. rewrite <- pf_C62_is_sde, <- is_adaptive_spec, <- isinstance_direct by discriminate.
    destruct (is_sde (ca_terms a)), (is_adaptive (ca_controller a)), (isinstance CEuler (ca_solver a)); cbn;
      intuition congruence.
  Qed.
  Lemma unsafe_iff a :
    is_unsafe_sde (ca_terms a) && is_adaptive (ca_controller a) = false <->
    (unsafe_somewhere a -> ~ adaptive (ca_controller a)).
  Proof.
    unfold unsafe_somewhere. rewrite <- pf_C62_is_unsafe_sde, <- is_adaptive_spec.
    destruct (is_unsafe_sde (ca_terms a)), (is_adaptive (ca_controller a)); cbn; intuition congruence.
  Qed.

  Lemma tols_iff (k : controller (pid_params Y)) d k' (s : solver Y) :
    valid_controller k -> wrap_controller d k = Some k' ->
    ((exists s', resolve_tols k' s = Ok s') <->
     (direct_class CImplicit s ->
      exists i r, s = Base i /\ si_root i = Some r /\ (adaptive k \/ all_set r))).
  Proof.
    intros Hv Hw. unfold resolve_tols. rewrite <- isinstance_direct by discriminate.
    destruct (isinstance CImplicit s); [|split; [discriminate|eauto]].
    rewrite (wrap_adaptive _ _ _ Hw), (wrap_tols _ _ _ Hw).
    destruct s as [i|s]; cbn [root_attr].
    - destruct (si_root i) as [r|] eqn:Hr.
      + destruct (is_adaptive k) eqn:Ha.
        * apply is_adaptive_spec in Ha. destruct (valid_adaptive _ Hv Ha) as (p & Hp).
          rewrite (pid_inside_tols _ _ Hp). split; [|eauto]. intros _ _. exists i, r. auto.
        * assert (Hn : ~ adaptive k) by (rewrite <- is_adaptive_spec; congruence).
          split.
          -- intros (s' & H) _. exists i, r. split; [reflexivity|]. split; [exact Hr|]. right.
             apply unset_tols_spec. destruct (controller_tols k), (unset_tols r); congruence.
          -- intros H. destruct (H eq_refl) as (i' & r' & [= <-] & Hr' & [Hc|Hc]); [contradiction|].
             rewrite Hr in Hr'. injection Hr' as <-. apply unset_tols_spec in Hc. rewrite Hc.
             destruct (controller_tols k); eauto.
      + split; [intros (? & [=])|]. intros H. destruct (H eq_refl) as (i' & r' & [= <-] & Hr' & _). congruence.
    - split; [intros (? & [=])|]. intros H. destruct (H eq_refl) as (i' & r' & [=] & _).
  Qed.

  Lemma adjoint_iff a : check_adjoint a = Ok tt <-> adjoint_supports a.
  Proof.
    unfold check_adjoint, adjoint_supports. cbv zeta. rewrite ?wrapped_unsafe, ?wrapped_sde. destruct (ca_adjoint a); rewrite raise_if_ok.
    - unfold unsafe_somewhere. rewrite <- pf_C62_is_unsafe_sde. destruct (is_unsafe_sde _); intuition congruence.
    - rewrite <- isinstance_direct by discriminate. rewrite andb_false_iff, negb_false_iff. split.
      + intros [H|H] Hi; [congruence|]. destruct (ca_solver a) as [i|s]; [eauto|discriminate].
      + intros H. destruct (isinstance _ _); [|auto]. right. destruct (H eq_refl) as (i & -> & Hi). exact Hi.
    - rewrite <- isinstance_direct by discriminate. rewrite andb_false_iff, negb_false_iff. split.
      + intros [H|H] Hi; [congruence|]. destruct (ca_solver a) as [i|s]; [eauto|discriminate].
      + intros H. destruct (isinstance _ _); [|auto]. right. destruct (H eq_refl) as (i & -> & Hi). exact Hi.
    - rewrite negb_false_iff. unfold saves_only_t1. destruct (ca_saveat a) as [subs d s1 s2 s3]. cbn. split.
      + destruct subs as [[sub df]|]; [|discriminate]. rewrite !andb_true_iff, !negb_true_iff. cbn.
        destruct sub as [b0 b1 ts n f]. cbn. intros H. decompose [and] H. subst.
        destruct ts; [discriminate|].
        match goal with Hn : (_ =? _)%nat = true |- _ => apply Nat.eqb_eq in Hn end. subst. eauto.
      + intros (f & [= -> -> -> -> ->]). reflexivity.
    - rewrite !orb_false_iff, negb_false_iff. unfold one_plain_sub.
      rewrite <- isinstance_direct by discriminate. unfold unsafe_somewhere, brownian_somewhere.
      rewrite <- pf_C62_is_unsafe_sde, <- pf_C62_is_sde, <- single_term_innermost, negb_false_iff.
      assert (G : match sv_subs (ca_saveat a) with
                  | SubLeaf s => negb (sv_dense (ca_saveat a)) && (sub_steps (so_sub s) =? 0)%nat && so_default_fn s
                  | SubNode _ => false
                  end = true <->
                  (exists s, sv_subs (ca_saveat a) = SubLeaf s /\ sv_dense (ca_saveat a) = false /\
                             sub_steps (so_sub s) = 0%nat /\ so_default_fn s = true)).
      { destruct (sv_subs (ca_saveat a)) as [s|l].
        - rewrite !andb_true_iff, negb_true_iff, Nat.eqb_eq. split.
          + intros [[H1 H2] H3]. eauto.
          + intros (s' & [= <-] & H1 & H2 & H3). auto.
        - split; [discriminate|]. intros (s' & [=] & _). }
      rewrite G. destruct (is_unsafe_sde _), (is_sde _), (isinstance _ _); cbn; intuition congruence.
  Qed.

  Lemma error_iff a k d s : valid_controller (ca_controller a) -> wrap_controller d (ca_controller a) = Some k ->
    resolve_tols k (ca_solver a) = Ok s ->
    (check_error k s (wrap_pytree (ca_terms a)) = Ok tt <->
     (adaptive (ca_controller a) ->
      (forall i, ca_solver a = Base i -> si_error i = true) /\ error_order_known a)).
  Proof.
    intros Hv Hw Ht. unfold check_error. rewrite rbind_raise_if, raise_if_ok.
    rewrite (wrap_adaptive _ _ _ Hw), (wrap_order _ _ _ _ Hw).
    assert (Hs : s = ca_solver a \/ exists r, s = set_root (ca_solver a) r).
    { unfold resolve_tols in Ht. destruct (isinstance CImplicit (ca_solver a)); [|left; congruence].
      destruct (root_attr (ca_solver a)) as [r|]; [|discriminate].
      destruct (controller_tols k) as [t|].
      - destruct (is_adaptive k); [right; injection Ht as <-; eauto|].
        destruct (unset_tols r); [discriminate|left; congruence].
      - destruct (is_adaptive k); [discriminate|]. destruct (unset_tols r); [discriminate|left; congruence]. }
    assert (He : returns_error s = returns_error (ca_solver a) /\
                 error_order s (wrap_pytree (ca_terms a)) = error_order (ca_solver a) (ca_terms a)).
    { unfold error_order. rewrite wrapped_sde.
      destruct Hs as [->|(r & ->)]; [auto|]. destruct (ca_solver a); auto. }
    destruct He as [-> ->].
    destruct (is_adaptive (ca_controller a)) eqn:Ha.
    - apply is_adaptive_spec in Ha. destruct (valid_adaptive _ Hv Ha) as (p & Hp).
      rewrite (pid_inside_order _ _ _ Hp). cbn [andb]. rewrite negb_false_iff, is_none_spec.
      assert (G1 : returns_error (ca_solver a) = true <-> forall i, ca_solver a = Base i -> si_error i = true).
      { destruct (ca_solver a) as [i|s']; cbn.
        - split; [intros H i' [= <-]; exact H|auto].
        - split; [discriminate|reflexivity]. }
      assert (G2 : match pp_error_order p with Some x => Some x | None => error_order (ca_solver a) (ca_terms a) end
                   <> None <-> error_order_known a).
      { unfold error_order_known, brownian_somewhere. rewrite <- pf_C62_is_sde. unfold error_order.
        rewrite strong_order_innermost.
        assert (Hm : forall (f : Q -> Q) x, option_map f x <> None <-> x <> None).
        { intros f [x|]; cbn; intuition congruence. }
        assert (Hother : forall q, pid_inside q (ca_controller a) -> pp_error_order q <> None ->
                           pp_error_order p <> None).
        { intros q Hq Hn. rewrite <- (pid_inside_unique _ _ _ Hq Hp). exact Hn. }
        destruct (pp_error_order p) as [x|] eqn:Ex.
        - split; [|discriminate]. intros _. left. exists p. split; [exact Hp|congruence].
        - split.
          + intros H. right. destruct (is_sde (ca_terms a)).
            * left. rewrite Hm in H. auto.
            * right. split; [discriminate|]. destruct (ca_solver a) as [i|s']; [exact H|].
              rewrite Hm, order_innermost in H. exact H.
          + intros [(q & Hq & Hn)|[[H1 H2]|[H1 H2]]].
            * destruct (Hother q Hq Hn eq_refl).
            * rewrite H1, Hm. exact H2.
            * destruct (is_sde (ca_terms a)); [congruence|]. destruct (ca_solver a) as [i|s']; [exact H2|].
              rewrite Hm, order_innermost. exact H2. }
      rewrite G1, G2. intuition.
    - cbn. split; [|auto]. intros _ H. apply is_adaptive_spec in H. congruence.
  Qed.

  Lemma hd_nth (ts : list Z) d : (2 <= length ts)%nat -> nth_error ts 0 = Some (hd d ts).
  Proof. destruct ts; cbn; [lia|reflexivity]. Qed.
  Lemma last_nth (ts : list Z) d : (1 <= length ts)%nat -> nth_error ts (length ts - 1) = Some (last ts d).
  Proof.
    induction ts as [|x ts IH]; cbn [length]; [lia|]. intros _. destruct ts as [|y ts]; [reflexivity|].
    replace (S (length (y :: ts)) - 1)%nat with (S (length (y :: ts) - 1)) by (cbn; lia).
    cbn [nth_error]. rewrite IH by (cbn; lia). reflexivity.
  Qed.
  Lemma dir_inj t0 t1 x y : x * dir t0 t1 = y * dir t0 t1 -> x = y.
  Proof. unfold dir. destruct (t0 <? t1); lia. Qed.
  Lemma last_map (f : Z -> Z) ts d : last (map f ts) (f d) = f (last ts d).
  Proof. induction ts as [|x [|y ts] IH]; cbn in *; auto. Qed.

  Lemma init_iff a k : valid_controller (ca_controller a) ->
    wrap_controller (call_dir a) (ca_controller a) = Some k ->
    ((let dt0 := option_map (fun x => x * call_dir a) (ca_dt0 a) in
      ca_controller_state a && negb (is_none dt0) = true \/
      check_init k (ca_t0 a * call_dir a) (ca_t1 a * call_dir a) dt0 = Ok tt) <->
     (ca_controller a = CConstant -> ca_dt0 a <> None) /\
     (forall ts, ca_controller a = CStepTo ts ->
       ((ca_controller_state a = true /\ ca_dt0 a <> None) \/
        (ca_dt0 a = None /\ nth_error ts 0 = Some (ca_t0 a) /\
         nth_error ts (length ts - 1) = Some (ca_t1 a))))).
  Proof.
    intros Hv Hw. cbv zeta. destruct (ca_controller a) as [|ts|p|inner x y z] eqn:Ek.
    - injection Hw as <-. cbn. rewrite raise_if_ok, is_none_spec. split.
      + intros H. split; [|discriminate]. intros _. destruct (ca_dt0 a); [discriminate|].
        cbn in H. rewrite andb_false_r in H. destruct H; congruence.
      + intros [H _]. right. specialize (H eq_refl). destruct (ca_dt0 a); cbn; congruence.
    - cbn in Hw. destruct (not_increasing _); [discriminate|]. injection Hw as <-. cbn.
      rewrite rbind_raise_if, raise_if_ok, orb_false_iff, !negb_false_iff, !Z.eqb_eq.
      inversion Hv as [|ts' Hl| |]; subst.
      assert (Hh : hd (ca_t0 a * call_dir a) (map (fun t => t * call_dir a) ts) = ca_t0 a * call_dir a <->
                   nth_error ts 0 = Some (ca_t0 a)).
      { rewrite (hd_nth ts (ca_t0 a) Hl). destruct ts as [|t ts]; [cbn in Hl; lia|]. cbn. split.
        - intros H. f_equal. apply dir_inj in H. exact H.
        - intros [= ->]. reflexivity. }
      assert (Hla : last (map (fun t => t * call_dir a) ts) (ca_t1 a * call_dir a) = ca_t1 a * call_dir a <->
                   nth_error ts (length ts - 1) = Some (ca_t1 a)).
      { rewrite (last_nth ts (ca_t1 a)) by lia. rewrite (last_map (fun t => t * call_dir a)). split.
        - intros H. f_equal. apply dir_inj in H. exact H.
        - intros [= ->]. reflexivity. }
      rewrite Hh, Hla. destruct (ca_dt0 a) as [d|]; cbn.
      + rewrite andb_true_r. split.
        * intros [H|[[=] _]]. split; [discriminate|]. intros ts' _. left. split; [exact H|discriminate].
        * intros [_ H]. destruct (H ts eq_refl) as [[H1 _]|[[=] _]]. auto.
      + rewrite andb_false_r. split.
        * intros [[=]|(_ & H1 & H2)]. split; [discriminate|]. intros ts' [= <-]. auto.
        * intros [_ H]. right. destruct (H ts eq_refl) as [[_ H1]|(_ & H1)]; [congruence|]. auto.
    - split; [intros _; split; discriminate|]. intros _. right. injection Hw as <-. reflexivity.
    - split; [intros _; split; discriminate|]. intros _. right.
      eapply check_init_adaptive; [exact Hv|constructor|exact Hw].
  Qed.

  Lemma pf_C61_accepts_iff a : signs_ok o -> ((exists s, check_call o a = Ok s) <-> acceptable a).
  Proof.
    intros Ho. split.
    - intros (s & Hs). apply check_call_passed in Hs. destruct Hs as (k & H). destruct H.
      pose proof (proj1 (init_iff a k pa_valid0 pa_wrap0) pa_init0) as [Hc Hst].
      constructor; auto.
      + apply andb_false_iff. exact pa_events0.
      + apply sign_iff; assumption.
      + apply euler_iff. exact pa_euler0.
      + apply unsafe_iff. exact pa_unsafe0.
      + intros ts Hts. split; [|apply Hst; exact Hts].
        pose proof (proj1 (wrap_valid (call_dir a) _ pa_valid0) (ex_intro _ k pa_wrap0) ts Hts) as H.
        apply strongly_lt in H. apply strictly_towards_dir. exact H.
      + eapply tols_iff; eauto.
      + intros sub ts Hin. apply ts_iff. rewrite Forall_forall in pa_ts0. apply pa_ts0. apply in_map. exact Hin.
      + intros sub Hin Hn. apply andb_false_iff in pa_steps0. destruct pa_steps0 as [H|H].
        * exfalso. apply Hn. apply not_true_iff_false in H.
          destruct (Nat.eqb_spec (sub_steps sub) 0) as [He|He]; [exact He|]. exfalso. apply H.
          apply existsb_exists. exists (wrap_sub (call_dir a) sub). split; [apply in_map; exact Hin|].
          cbn. destruct (sub_steps sub); [congruence|reflexivity].
        * apply is_none_spec. exact H.
      + intros Hd. rewrite Hd in pa_dense0. apply is_none_spec. exact pa_dense0.
      + apply adjoint_iff. exact pa_adjoint0.
      + eapply error_iff; eauto.
    - intros [acc_controller0 acc_one_event0 acc_dt00 acc_compatible0 acc_euler0 acc_unsafe0 acc_stepto0
              acc_constant0 acc_tols0 acc_ts0 acc_steps0 acc_dense0 acc_adjoint0 acc_error0].
      assert (Hw : exists k, wrap_controller (call_dir a) (ca_controller a) = Some k).
      { apply wrap_valid; [assumption|]. intros ts Hts. apply strongly_lt. apply strictly_towards_dir.
        apply acc_stepto0. exact Hts. }
      destruct Hw as (k & Hw).
      assert (Ht : exists s, resolve_tols k (ca_solver a) = Ok s) by (eapply tols_iff; eauto).
      destruct Ht as (s & Ht). exists s. apply check_call_passed. exists k. constructor; auto.
      + apply andb_false_iff. exact acc_one_event0.
      + apply sign_iff; assumption.
      + apply euler_iff. exact acc_euler0.
      + apply unsafe_iff. exact acc_unsafe0.
      + rewrite Forall_map, Forall_forall. intros sub Hin. apply ts_iff. intros ts. apply acc_ts0. exact Hin.
      + apply init_iff; auto. split; [exact acc_constant0|]. intros ts Hts. apply acc_stepto0. exact Hts.
      + apply andb_false_iff. destruct (ca_max_steps a) as [m|] eqn:Em; [right; reflexivity|left].
        apply not_true_iff_false. rewrite existsb_exists. intros (x & Hin & Hx). apply in_map_iff in Hin.
        destruct Hin as (sub & <- & Hin). apply (acc_steps0 sub Hin); [|reflexivity].
        cbn in Hx. intros E0. rewrite E0 in Hx. discriminate.
      + destruct (sv_dense (ca_saveat a)); [|reflexivity]. cbn. apply is_none_spec. auto.
      + apply adjoint_iff. exact acc_adjoint0.
      + eapply error_iff; eauto.
  Qed.
End Call.
