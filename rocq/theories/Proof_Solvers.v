(** Proofs about the solvers of [Model_Solvers]. *)
From Coq Require Import Reals List Bool Arith Lia Lra FunctionalExtensionality.
From Verif Require Import Model_Result Model_Loop Model_RK Model_Terms Model_Solvers Spec_RK Spec_Terms Spec_Solvers.
Import ListNotations.
Open Scope R_scope.

Section Steps.
  Context {Y SS DI : Type}.
  Lemma last_cons (t0 t1 : R) ts : last (t1 :: ts) t0 = last ts t1.
  Proof. revert t0 t1. induction ts as [|a ts IH]; intros t0 t1; [reflexivity|]. change (last (a :: ts) t0 = last (a :: ts) t1). rewrite !IH. reflexivity. Qed.
  Lemma steps_app (m : method Y SS DI) t ts ts' y s :
    steps m t (ts ++ ts') y s = steps m (last ts t) ts' (fst (steps m t ts y s)) (snd (steps m t ts y s)).
  Proof.
    revert t y s. induction ts as [|t1 ts IH]; intros t y s; [reflexivity|]. cbn [app steps]. cbv zeta. rewrite IH.
    rewrite last_cons. reflexivity.
  Qed.
  Lemma back_cons (t0 t1 : R) ts : back t0 (t1 :: ts) = back t1 ts ++ [t0].
  Proof. unfold back. cbn [rev]. destruct (rev ts ++ [t1]) eqn:E; [destruct (rev ts); discriminate|]. reflexivity. Qed.
  Lemma last_back (t1 : R) ts : last (back t1 ts) (last ts t1) = t1.
  Proof.
    revert t1. destruct ts as [|t2 ts]; intros t1; [reflexivity|]. rewrite back_cons. apply last_last.
  Qed.
End Steps.

Section Terms.
  Context {I J C : Type}.
  Notation Y := (I -> R).

  Lemma prod_null (trm : term I J C) f t x : additive_term trm -> t_prod trm f (t_contr trm t t) x = 0.
  Proof. intros A. specialize (A f t t t x). lra. Qed.
  Lemma prod_back (trm : term I J C) f t0 t1 x : additive_term trm -> t_prod trm f (t_contr trm t1 t0) x = - t_prod trm f (t_contr trm t0 t1) x.
  Proof. intros A. pose proof (A f t0 t1 t0 x). rewrite (prod_null trm f t0 x A) in H. lra. Qed.
  Lemma prod_vadd (trm : term I J C) f g c x : linear_term trm -> t_prod trm (vadd f g) c x = t_prod trm f c x + t_prod trm g c x.
  Proof.
    intros L. specialize (L 1 1 f g c x). replace (vadd f g) with (fun j => 1 * f j + 1 * g j); [lra|].
    apply functional_extensionality. intros j. unfold vadd. ring.
  Qed.
  Lemma prod_vsub (trm : term I J C) f g c x : linear_term trm -> t_prod trm (vsub f g) c x = t_prod trm f c x - t_prod trm g c x.
  Proof.
    intros L. specialize (L 1 (-1) f g c x). replace (vsub f g) with (fun j => 1 * f j + -1 * g j); [lra|].
    apply functional_extensionality. intros j. unfold vsub. ring.
  Qed.

  (** ** Reversible Heun *)
  Lemma reversible_step (trm : term I J C) t0 t1 y0 yhat0 : linear_term trm -> additive_term trm ->
    let out := me_step (reversible_heun trm) t0 t1 y0 (yhat0, t_vf trm t0 yhat0) false in
    exists yhat1, so_state out = (yhat1, t_vf trm t1 yhat1) /\
    let out' := me_step (reversible_heun trm) t1 t0 (so_y out) (so_state out) false in
    so_y out' = y0 /\ so_state out' = (yhat0, t_vf trm t0 yhat0).
  Proof.
    intros L A. cbn. eexists. split; [reflexivity|].
    set (vf0 := t_vf trm t0 yhat0). set (yhat1 := vadd (vsub (vscale 2 y0) yhat0) (t_prod trm vf0 (t_contr trm t0 t1))).
    set (vf1 := t_vf trm t1 yhat1).
    assert (E : vadd (vsub (vscale 2 (vadd y0 (vscale (1 / 2) (t_prod trm (vadd vf0 vf1) (t_contr trm t0 t1))))) yhat1)
      (t_prod trm vf1 (t_contr trm t1 t0)) = yhat0).
    { apply functional_extensionality. intros x. unfold vadd at 1, vsub, vscale, vadd at 1. rewrite prod_vadd, (prod_back trm vf1 t0 t1) by assumption.
      unfold yhat1, vadd, vsub, vscale. lra. }
    rewrite E. fold vf0. split; [|reflexivity].
    apply functional_extensionality. intros x.
    change (y0 x + 1 / 2 * t_prod trm (vadd vf0 vf1) (t_contr trm t0 t1) x + 1 / 2 * t_prod trm (vadd vf1 vf0) (t_contr trm t1 t0) x = y0 x).
    rewrite (prod_back trm _ t0 t1), !prod_vadd by assumption. lra.
  Qed.
  Lemma pf_C33_reversible : forall (trm : term I J C) (t0 : R) (ts : list R) (y0 yhat0 : Y),
    linear_term trm -> additive_term trm ->
    let start := (y0, (yhat0, t_vf trm t0 yhat0)) in
    let '(y, s) := steps (reversible_heun trm) t0 ts y0 (snd start) in
    steps (reversible_heun trm) (last ts t0) (back t0 ts) y s = start.
  Proof.
    intros trm t0 ts y0 yhat0 L A. cbv zeta. cbn [snd].
    assert (G : forall t0 y0 yhat0, let r := steps (reversible_heun trm) t0 ts y0 (yhat0, t_vf trm t0 yhat0) in
      steps (reversible_heun trm) (last ts t0) (back t0 ts) (fst r) (snd r) = (y0, (yhat0, t_vf trm t0 yhat0))).
    { clear t0 y0 yhat0. induction ts as [|t1 ts IH]; intros t0 y0 yhat0; [reflexivity|]. cbv zeta.
      destruct (reversible_step trm t0 t1 y0 yhat0 L A) as (yhat1 & ES & E1 & E2).
      cbn [steps]. set (out := me_step (reversible_heun trm) t0 t1 y0 (yhat0, t_vf trm t0 yhat0) false) in *. cbv zeta. rewrite ES.
      rewrite last_cons, back_cons, steps_app. specialize (IH t1 (so_y out) yhat1). cbv zeta in IH. rewrite IH, last_back. cbn [fst snd].
      rewrite <- ES. cbn [steps]. cbv zeta. rewrite E1, E2. reflexivity. }
    specialize (G t0 y0 yhat0). cbv zeta in G. destruct (steps (reversible_heun trm) t0 ts y0 (yhat0, t_vf trm t0 yhat0)). exact G.
  Qed.
  (** From the state that [init] returns. *)
  Lemma pf_C33_reversible_solve : forall (trm : term I J C) (t0 t1 : R) (ts : list R) (y0 : Y),
    linear_term trm -> additive_term trm ->
    let m := reversible_heun trm in
    let '(y, s) := steps m t0 ts y0 (me_init m t0 t1 y0) in
    steps m (last ts t0) (back t0 ts) y s = (y0, me_init m t0 t1 y0).
  Proof. intros trm t0 t1 ts y0 L A. exact (pf_C33_reversible trm t0 ts y0 y0 L A). Qed.
  Lemma pf_C33_embedded : forall (trm : term I J C) (t0 t1 : R) (y0 yhat0 : Y) (vf0 : J -> R) (made_jump : bool),
    linear_term trm ->
    let out := me_step (reversible_heun trm) t0 t1 y0 (yhat0, vf0) made_jump in
    exists err, so_error out = Some err /\
    forall x, so_y out x - err x = y0 x + t_prod trm (if made_jump then t_vf trm t0 y0 else vf0) (t_contr trm t0 t1) x.
  Proof.
    intros trm t0 t1 y0 yhat0 vf0 mj L. cbn. eexists. split; [reflexivity|]. intros x. unfold vadd at 1, vscale.
    rewrite prod_vadd, prod_vsub by assumption. lra.
  Qed.

  (** ** Leapfrog/midpoint *)
  Lemma pf_C35_symmetric : forall (trm : term I J C) (tm1 t0 : R) (ts : list R) (ym1 y0 : Y),
    consistent_term trm -> additive_term trm ->
    let m := leapfrog_midpoint trm in
    let '(y, (tprev, yprev)) := steps m t0 ts y0 (tm1, ym1) in
    steps m tprev (tl (back tm1 (t0 :: ts))) yprev (last ts t0, y) = (ym1, (t0, y0)).
  Proof.
    intros trm tm1 t0 ts ym1 y0 K A. cbv zeta.
    assert (G : forall tm1 t0 ym1 y0, let r := steps (leapfrog_midpoint trm) t0 ts y0 (tm1, ym1) in
      fst (snd r) = hd t0 (back tm1 (t0 :: ts)) /\
      steps (leapfrog_midpoint trm) (fst (snd r)) (tl (back tm1 (t0 :: ts))) (snd (snd r)) (last ts t0, fst r) = (ym1, (t0, y0))).
    { clear tm1 t0 ym1 y0. induction ts as [|t1 ts IH]; intros tm1 t0 ym1 y0; [split; reflexivity|]. cbv zeta.
      cbn [steps]. cbn [me_step leapfrog_midpoint so_y so_state].
      set (y1 := vadd ym1 (t_vf_prod trm t0 y0 (t_contr trm tm1 t1))).
      specialize (IH t0 t1 y0 y1). cbv zeta in IH. rewrite back_cons. rewrite last_cons.
      set (r := steps (leapfrog_midpoint trm) t1 ts y1 (t0, y0)) in *. destruct IH as (H & IH).
      assert (N : exists a l, back t0 (t1 :: ts) = a :: l) by (rewrite back_cons; destruct (back t1 ts); cbn; eauto).
      destruct N as (a & l & N). rewrite N in *. cbn [hd tl app] in *. split; [exact H|].
      rewrite steps_app, IH. cbn [fst snd steps].
      assert (La : last l (fst (snd r)) = t0).
      { rewrite H, <- (last_cons t1). rewrite <- N, back_cons. apply last_last. }
      rewrite La. cbn [me_step leapfrog_midpoint so_y so_state]. f_equal.
      apply functional_extensionality. intros x. unfold y1, vadd. rewrite !K, (prod_back trm _ tm1 t1) by assumption. lra. }
    specialize (G tm1 t0 ym1 y0). cbv zeta in G. destruct (steps (leapfrog_midpoint trm) t0 ts y0 (tm1, ym1)) as (y & tp & yp). apply G.
  Qed.
  Lemma pf_C35_first_step : forall (trm : term I J C) (t0 t1 t2 : R) (y0 : Y) (made_jump : bool),
    let m := leapfrog_midpoint trm in
    so_y (me_step m t0 t1 y0 (me_init m t0 t2 y0) made_jump) = so_y (me_step (euler trm) t0 t1 y0 tt made_jump).
  Proof. reflexivity. Qed.
End Terms.

(** ** The half solver *)
Section Half.
  Context {I SS DI : Type}.
  Notation Y := (I -> R).

  Lemma pf_C32_two_half_steps : forall (solver : method Y SS DI) (t0 : R) (ts : list R) (y0 : Y) (s : SS),
    steps (half_solver solver) t0 ts y0 s = steps solver t0 (halved t0 ts) y0 s.
  Proof.
    intros solver t0 ts. revert t0. induction ts as [|t1 ts IH]; intros t0 y0 s; [reflexivity|].
    cbn [steps halved]. cbv zeta. cbn [half_solver me_step so_y so_state].
    replace (t0 + 1 / 2 * (t1 - t0)) with ((t0 + t1) / 2) by lra. apply IH.
  Qed.
  Lemma pf_C32_step : forall (solver : method Y SS DI) (t0 t1 : R) (y0 : Y) (s : SS) (made_jump : bool),
    let out := me_step (half_solver solver) t0 t1 y0 s made_jump in
    let half1 := me_step solver t0 ((t0 + t1) / 2) y0 s made_jump in
    let half2 := me_step solver ((t0 + t1) / 2) t1 (so_y half1) (so_state half1) false in
    let full := me_step solver t0 t1 y0 s made_jump in
    so_y out = so_y half2 /\ so_state out = so_state half2 /\ so_dense out = so_dense full /\
    so_result out = first_error [so_result half1; so_result half2; so_result full] /\
    exists err, so_error out = Some err /\ forall x, err x = Rabs (so_y half2 x - so_y full x).
  Proof.
    intros solver t0 t1 y0 s mj. cbv zeta. cbn [half_solver me_step so_y so_state so_dense so_result so_error].
    replace (t0 + 1 / 2 * (t1 - t0)) with ((t0 + t1) / 2) by lra.
    repeat (split; [reflexivity|]). split; [|eexists; split; reflexivity].
    destruct (so_result (me_step solver t0 ((t0 + t1) / 2) y0 s mj));
    match goal with |- context [so_result ?o] => destruct (so_result o) end;
    match goal with |- context [so_result ?o] => destruct (so_result o) end; reflexivity.
  Qed.

  (** A method of order [p] around the flow [phi]: both the result and the error estimate are of order [p+1]. *)
  Lemma pf_C32_local_error : forall (solver : method Y SS DI) (phi : R -> R -> Y -> Y) (U : Y -> Prop) (p : nat) (C L h : R),
    (forall t t' t'' y, phi t t'' y = phi t' t'' (phi t t' y)) ->
    (forall t t' y z b, U y -> U z -> t <= t' <= t + h -> (forall x, Rabs (y x - z x) <= b) ->
       forall x, Rabs (phi t t' y x - phi t t' z x) <= L * b) ->
    (forall t t' y s made_jump x, U y -> t <= t' <= t + h ->
       Rabs (so_y (me_step solver t t' y s made_jump) x - phi t t' y x) <= C * (t' - t) ^ (p + 1)) ->
    forall t0 t1 y0 s made_jump, t0 <= t1 <= t0 + h ->
    U y0 -> U (phi t0 ((t0 + t1) / 2) y0) -> U (so_y (me_step solver t0 ((t0 + t1) / 2) y0 s made_jump)) ->
    let out := me_step (half_solver solver) t0 t1 y0 s made_jump in
    let bound := (L + 1) * C * ((t1 - t0) / 2) ^ (p + 1) in
    (forall x, Rabs (so_y out x - phi t0 t1 y0 x) <= bound) /\
    (forall err, so_error out = Some err -> forall x, Rabs (err x) <= bound + C * (t1 - t0) ^ (p + 1)).
  Proof.
    intros solver phi U p C L h Hphi HL HC t0 t1 y0 s mj Ht U0 U1 U2. cbv zeta.
    destruct (pf_C32_step solver t0 t1 y0 s mj) as (Ey & _ & _ & _ & err & Ee & He). rewrite Ey, Ee. clear Ey Ee.
    set (tm := (t0 + t1) / 2) in *.
    set (h1 := me_step solver t0 tm y0 s mj) in *. set (h2 := me_step solver tm t1 (so_y h1) (so_state h1) false) in *.
    assert (B : forall x, Rabs (so_y h2 x - phi t0 t1 y0 x) <= (L + 1) * C * ((t1 - t0) / 2) ^ (p + 1)).
    { intros x. rewrite (Hphi t0 tm t1).
      assert (Htm : t0 <= tm <= t0 + h) by (unfold tm; lra). assert (Htm' : tm <= t1 <= tm + h) by (unfold tm; lra).
      pose proof (HC tm t1 (so_y h1) (so_state h1) false x U2 Htm') as A1. fold h2 in A1.
      pose proof (HL tm t1 (so_y h1) (phi t0 tm y0) (C * (tm - t0) ^ (p + 1)) U2 U1 Htm' (fun x => HC t0 tm y0 s mj x U0 Htm) x) as A2.
      replace (t1 - tm) with ((t1 - t0) / 2) in A1 by (unfold tm; lra). replace (tm - t0) with ((t1 - t0) / 2) in A2 by (unfold tm; lra).
      replace (so_y h2 x - phi tm t1 (phi t0 tm y0) x) with ((so_y h2 x - phi tm t1 (so_y h1) x) + (phi tm t1 (so_y h1) x - phi tm t1 (phi t0 tm y0) x)) by ring.
      eapply Rle_trans; [apply Rabs_triang|]. lra. }
    split; [exact B|]. intros err' Ee x. injection Ee as <-. rewrite He. rewrite Rabs_Rabsolu.
    pose proof (HC t0 t1 y0 s mj x U0 Ht) as A3. specialize (B x).
    match goal with |- Rabs (?a - ?b) <= _ => replace (a - b) with ((a - phi t0 t1 y0 x) + - (b - phi t0 t1 y0 x)) by ring end.
    eapply Rle_trans; [apply Rabs_triang|]. rewrite Rabs_Ropp. lra.
  Qed.
End Half.

(** ** Semi-implicit Euler *)
Section Symplectic.
  Context {I1 I2 C1 C2 : Type}.
  Lemma pf_C34_invertible : forall (term_1 : half_term (I2 -> R) (I1 -> R) C1) (term_2 : half_term (I1 -> R) (I2 -> R) C2)
    (t0 : R) (ts : list R) (z : (I1 -> R) * (I2 -> R)),
    exists! y0, fst (steps (semi_implicit_euler term_1 term_2) t0 ts y0 tt) = z.
  Proof.
    intros f g t0 ts. revert t0. induction ts as [|t1 ts IH]; intros t0 z.
    - exists z. split; [reflexivity|]. intros y H. symmetry. exact H.
    - destruct (IH t1 z) as ((a & b) & E & U). cbn [steps] in *.
      set (b0 := vsub b (ht_vf_prod g t0 a (ht_contr g t0 t1))).
      set (a0 := vsub a (ht_vf_prod f t0 b0 (ht_contr f t0 t1))).
      assert (Ea : vadd a0 (ht_vf_prod f t0 b0 (ht_contr f t0 t1)) = a) by (apply functional_extensionality; intros x; unfold a0, vadd, vsub; ring).
      assert (Eb : vadd b0 (ht_vf_prod g t0 a (ht_contr g t0 t1)) = b) by (apply functional_extensionality; intros x; unfold b0, vadd, vsub; ring).
      exists (a0, b0). split.
      + cbn [semi_implicit_euler me_step so_y so_state]. cbv zeta. rewrite Ea, Eb. exact E.
      + intros (p & q) H. cbn [semi_implicit_euler me_step so_y so_state] in H. cbv zeta in H.
        specialize (U _ H). injection U as U1 U2. rewrite <- U1 in U2.
        assert (Eq : b0 = q). { apply functional_extensionality. intros x. unfold b0. rewrite U2, U1. unfold vsub, vadd. ring. }
        f_equal; [|exact Eq]. apply functional_extensionality. intros x. unfold a0. rewrite Eq, U1. unfold vsub, vadd. ring.
  Qed.
End Symplectic.

Lemma inner_cons {I} (i : I) is u v : inner (i :: is) u v = u i * v i + inner is u v.
Proof. reflexivity. Qed.

Section Symplectic2.
  Context {I C1 C2 : Type}.
  Notation Y := (I -> R).
  Lemma inner_add_l is (u v w : Y) : inner is (vadd u v) w = inner is u w + inner is v w.
  Proof. induction is as [|i is IH]; [cbn; lra|rewrite ?inner_cons]. rewrite IH. unfold vadd. lra. Qed.
  Lemma inner_add_r is (u v w : Y) : inner is w (vadd u v) = inner is w u + inner is w v.
  Proof. induction is as [|i is IH]; [cbn; lra|rewrite ?inner_cons]. rewrite IH. unfold vadd. lra. Qed.
  Lemma inner_comm is (u v : Y) : inner is u v = inner is v u.
  Proof. induction is as [|i is IH]; [reflexivity|rewrite ?inner_cons]. rewrite IH. ring. Qed.
  Lemma tangent_add (c d : R -> Y) u v : tangent c u -> tangent d v -> tangent (fun s => vadd (c s) (d s)) (vadd u v).
  Proof. intros Hc Hd i. apply (derivable_pt_lim_plus (fun s => c s i) (fun s => d s i)); auto. Qed.

  Lemma pf_C34_symplectic : forall (term_1 : half_term Y Y C1) (term_2 : half_term Y Y C2) (is : list I)
    (D1 : R -> C1 -> Y -> Y -> Y) (D2 : R -> C2 -> Y -> Y -> Y),
    (forall t c, derivative_of (fun y => ht_vf_prod term_1 t y c) (D1 t c)) -> (forall t c, symmetric is (D1 t c)) ->
    (forall t c, derivative_of (fun y => ht_vf_prod term_2 t y c) (D2 t c)) -> (forall t c, symmetric is (D2 t c)) ->
    forall (t0 : R) (ts : list R) (a b : R -> Y * Y) (u v : Y * Y),
    a 0 = b 0 ->
    tangent (fun s => fst (a s)) (fst u) -> tangent (fun s => snd (a s)) (snd u) ->
    tangent (fun s => fst (b s)) (fst v) -> tangent (fun s => snd (b s)) (snd v) ->
    let map := fun y0 => fst (steps (semi_implicit_euler term_1 term_2) t0 ts y0 tt) in
    exists u' v' : Y * Y,
    tangent (fun s => fst (map (a s))) (fst u') /\ tangent (fun s => snd (map (a s))) (snd u') /\
    tangent (fun s => fst (map (b s))) (fst v') /\ tangent (fun s => snd (map (b s))) (snd v') /\
    symplectic is u' v' = symplectic is u v.
  Proof.
    intros f g is D1 D2 Hf Sf Hg Sg t0 ts. revert t0. induction ts as [|t1 ts IH]; intros t0 a b u v E0 Ta1 Ta2 Tb1 Tb2; cbv zeta.
    - exists u, v. auto.
    - set (st := fun y : Y * Y => so_y (me_step (semi_implicit_euler f g) t0 t1 y tt false)).
      assert (St : forall y, st y = (vadd (fst y) (ht_vf_prod f t0 (snd y) (ht_contr f t0 t1)),
        vadd (snd y) (ht_vf_prod g t0 (vadd (fst y) (ht_vf_prod f t0 (snd y) (ht_contr f t0 t1))) (ht_contr g t0 t1)))) by (intros (p & q); reflexivity).
      set (F := D1 t0 (ht_contr f t0 t1) (snd (a 0))). set (G := D2 t0 (ht_contr g t0 t1) (fst (st (a 0)))).
      assert (T : forall (c : R -> Y * Y) w, c 0 = a 0 -> tangent (fun s => fst (c s)) (fst w) -> tangent (fun s => snd (c s)) (snd w) ->
        tangent (fun s => fst (st (c s))) (vadd (fst w) (F (snd w))) /\ tangent (fun s => snd (st (c s))) (vadd (snd w) (G (vadd (fst w) (F (snd w)))))).
      { intros c w Ec T1 T2.
        assert (X : tangent (fun s => fst (st (c s))) (vadd (fst w) (F (snd w)))).
        { pose proof (tangent_add _ _ _ _ T1 (Hf t0 (ht_contr f t0 t1) (fun s => snd (c s)) (snd w) T2)) as X.
          cbv beta in X. rewrite Ec in X. intros i.
          specialize (X i). unfold F. assert (Ex : (fun s => fst (st (c s)) i) = (fun s => vadd (fst (c s)) (ht_vf_prod f t0 (snd (c s)) (ht_contr f t0 t1)) i)).
          { apply functional_extensionality. intros s. rewrite St. reflexivity. } rewrite Ex. exact X. }
        split; [exact X|].
        pose proof (Hg t0 (ht_contr g t0 t1) (fun s => fst (st (c s))) _ X) as X2. cbv beta in X2. rewrite Ec in X2. fold G in X2.
        pose proof (tangent_add _ _ _ _ T2 X2) as X3. intros i. specialize (X3 i).
        assert (Ex : (fun s => snd (st (c s)) i) = (fun s => vadd (snd (c s)) (ht_vf_prod g t0 (fst (st (c s))) (ht_contr g t0 t1)) i)).
        { apply functional_extensionality. intros s. rewrite !St. reflexivity. } rewrite Ex. exact X3. }
      destruct (T a u eq_refl Ta1 Ta2) as (A1 & A2). destruct (T b v (eq_sym E0) Tb1 Tb2) as (B1 & B2).
      set (u1 := (vadd (fst u) (F (snd u)), vadd (snd u) (G (vadd (fst u) (F (snd u)))))).
      set (v1 := (vadd (fst v) (F (snd v)), vadd (snd v) (G (vadd (fst v) (F (snd v)))))).
      assert (E1 : st (a 0) = st (b 0)) by (rewrite E0; reflexivity).
      destruct (IH t1 (fun s => st (a s)) (fun s => st (b s)) u1 v1 E1 A1 A2 B1 B2) as (u' & v' & P1 & P2 & P3 & P4 & P5). cbv zeta in *.
      exists u', v'.
      assert (Map : forall y, fst (steps (semi_implicit_euler f g) t0 (t1 :: ts) y tt) = fst (steps (semi_implicit_euler f g) t1 ts (st y) tt)) by (intros (p & q); reflexivity).
      split; [intros i; specialize (P1 i); rewrite (functional_extensionality _ _ (fun s => f_equal (fun z => fst z i) (Map (a s)))); exact P1|].
      split; [intros i; specialize (P2 i); rewrite (functional_extensionality _ _ (fun s => f_equal (fun z => snd z i) (Map (a s)))); exact P2|].
      split; [intros i; specialize (P3 i); rewrite (functional_extensionality _ _ (fun s => f_equal (fun z => fst z i) (Map (b s)))); exact P3|].
      split; [intros i; specialize (P4 i); rewrite (functional_extensionality _ _ (fun s => f_equal (fun z => snd z i) (Map (b s)))); exact P4|].
      rewrite P5. unfold symplectic, u1, v1. cbn [fst snd].
      rewrite !inner_add_r, !inner_add_l.
      assert (SG : inner is (fst u) (G (vadd (fst v) (F (snd v)))) + inner is (F (snd u)) (G (vadd (fst v) (F (snd v)))) =
        inner is (fst v) (G (vadd (fst u) (F (snd u)))) + inner is (F (snd v)) (G (vadd (fst u) (F (snd u))))).
      { rewrite <- !inner_add_l. apply Sg. }
      assert (SF : inner is (F (snd u)) (snd v) = inner is (F (snd v)) (snd u)).
      { rewrite (inner_comm is (F (snd u))), (inner_comm is (F (snd v))). apply Sf. }
      lra.
  Qed.
End Symplectic2.

(** ** Implicit Euler *)
Section Implicit.
  Context {I J C : Type}.
  Notation Y := (I -> R).

  Lemma pf_C36_implicit_euler : forall (root_find : (Y -> Y) -> Y -> Y * RESULTS) (trm : term I J C) (t0 t1 : R) (y0 : Y) (made_jump : bool),
    finds_roots root_find ->
    let out := me_step (implicit_euler root_find trm) t0 t1 y0 tt made_jump in
    is_okay (so_result out) = true ->
    (forall x, so_y out x = y0 x + t_vf_prod trm t1 (so_y out) (t_contr trm t0 t1) x) /\
    exists err, so_error out = Some err /\
    forall x, so_y out x - err x = y0 x + (t_vf_prod trm t0 y0 (t_contr trm t0 t1) x + t_vf_prod trm t1 (so_y out) (t_contr trm t0 t1) x) / 2.
  Proof.
    intros rf trm t0 t1 y0 mj H. cbn. intros Ho.
    set (c := t_contr trm t0 t1) in *. set (k0 := t_vf_prod trm t0 y0 c) in *. set (g := implicit_relation (t_vf_prod trm) t1 y0 c) in *.
    specialize (H g k0). destruct (rf g k0) as (k1 & r). cbn in *. specialize (H Ho).
    assert (E : forall x, t_vf_prod trm t1 (vadd y0 k1) c x = k1 x) by (intros x; specialize (H x); unfold g, implicit_relation, vsub in H; lra).
    split; [intros x; rewrite E; reflexivity|]. eexists. split; [reflexivity|]. intros x. rewrite E. unfold vadd, vscale, vsub. lra.
  Qed.
End Implicit.

Section Dissipative.
  Context {I : Type}.
  Notation Y := (I -> R).

  Lemma inner_scale_l is c (u v : Y) : inner is (fun i => c * u i) v = c * inner is u v.
  Proof. induction is as [|i is IH]; [cbn; lra|rewrite ?inner_cons]. rewrite IH. ring. Qed.
  Lemma inner_ext is (u u' v v' : Y) : (forall i, u i = u' i) -> (forall i, v i = v' i) -> inner is u v = inner is u' v'.
  Proof. intros H H'. induction is as [|i is IH]; [reflexivity|rewrite ?inner_cons]. rewrite IH, H, H'. reflexivity. Qed.
  Lemma inner_sq is (u : Y) : 0 <= inner is u u.
  Proof. induction is as [|i is IH]; [cbn; lra|rewrite ?inner_cons]. pose proof (Rle_0_sqr (u i)). unfold Rsqr in *. lra. Qed.

  (** No growth of differences, for any (nonnegative) step sizes. *)
  Lemma pf_C36_implicit_euler_b_stable : forall (root_find : (Y -> Y) -> Y -> Y * RESULTS) (f : R -> Y -> Y) (is : list I)
    (t0 : R) (ts : list R) (y0 z0 y1 z1 : Y),
    finds_roots root_find -> dissipative is f -> forwards t0 ts ->
    good_steps (implicit_euler root_find (ode_term f)) t0 ts y0 tt y1 tt ->
    good_steps (implicit_euler root_find (ode_term f)) t0 ts z0 tt z1 tt ->
    inner is (fun i => y1 i - z1 i) (fun i => y1 i - z1 i) <= inner is (fun i => y0 i - z0 i) (fun i => y0 i - z0 i).
  Proof.
    intros rf f is t0 ts y0 z0 y1 z1 Hr Hd Hf Hy Hz.
    set (m := implicit_euler rf (ode_term f)) in *.
    assert (G : forall ts t0 y0 z0, forwards t0 ts -> forall s s', good_steps m t0 ts y0 s y1 tt -> good_steps m t0 ts z0 s' z1 tt ->
      inner is (fun i => y1 i - z1 i) (fun i => y1 i - z1 i) <= inner is (fun i => y0 i - z0 i) (fun i => y0 i - z0 i)).
    { clear t0 ts y0 z0 Hf Hy Hz. induction ts as [|t1 ts IH]; intros t0 y0 z0 Hf s s' Hy Hz; inversion Hy; inversion Hz; subst; [lra|].
      destruct Hf as (Ht & Hf).
      repeat match goal with H : let out := _ in _ |- _ => cbv zeta in H end.
      destruct s, s'. subst out out0.
      match goal with H : is_okay (so_result (me_step m t0 t1 y0 tt false)) = true |- _ =>
        pose proof (pf_C36_implicit_euler rf (ode_term f) t0 t1 y0 false Hr H) as (Ey & _) end.
      match goal with H : is_okay (so_result (me_step m t0 t1 z0 tt false)) = true |- _ =>
        pose proof (pf_C36_implicit_euler rf (ode_term f) t0 t1 z0 false Hr H) as (Ez & _) end.
      fold m in Ey, Ez. set (a := so_y (me_step m t0 t1 y0 tt false)) in *. set (b := so_y (me_step m t0 t1 z0 tt false)) in *.
      eapply Rle_trans; [eapply IH; eauto|].
      cbn in Ey, Ez. set (h := t1 - t0) in *.
      set (w := fun i => a i - b i). set (d := fun i => f t1 a i - f t1 b i).
      rewrite (inner_ext is (fun i => y0 i - z0 i) (vadd w (fun i => - h * d i)) (fun i => y0 i - z0 i) (vadd w (fun i => - h * d i)));
        try (intros i; specialize (Ey i); specialize (Ez i); unfold vadd, vscale, w, d in *; lra).
      rewrite inner_add_l, !inner_add_r.
      pose proof (Hd t1 a b) as D. fold w d in D.
      pose proof (inner_sq is (fun i => - h * d i)). rewrite (inner_comm is w (fun i => - h * d i)). rewrite (inner_scale_l is (- h) d w).
      assert (0 <= h * - inner is d w). { apply Rmult_le_pos; unfold h; lra. } lra. }
    exact (G ts t0 y0 z0 Hf tt tt Hy Hz).
  Qed.
  (** Decay on the test equation, for any step size (in particular for stiff ones). *)
  Lemma pf_C36_implicit_euler_stiff : forall (root_find : (Y -> Y) -> Y -> Y * RESULTS) (lambda : R) (t0 t1 : R) (y0 : Y) (made_jump : bool),
    finds_roots root_find -> lambda <= 0 -> t0 <= t1 ->
    let out := me_step (implicit_euler root_find (ode_term (fun _ y i => lambda * y i))) t0 t1 y0 tt made_jump in
    is_okay (so_result out) = true ->
    forall x, so_y out x = y0 x / (1 - (t1 - t0) * lambda).
  Proof.
    intros rf l t0 t1 y0 mj Hr Hl Ht. cbv zeta. intros Ho x.
    destruct (pf_C36_implicit_euler rf _ t0 t1 y0 mj Hr Ho) as (E & _). specialize (E x). set (a := so_y _) in *. clearbody a. cbn in E.
    assert (0 <= (t1 - t0) * - l) by (apply Rmult_le_pos; lra).
    apply Rmult_eq_reg_r with (1 - (t1 - t0) * l); [|lra]. unfold Rdiv. rewrite Rmult_assoc, Rinv_l by lra. unfold vscale in E. lra.
  Qed.
End Dissipative.
