From Coq Require Import List Bool Arith Lia Reals Lra Ranalysis.
From Verif Require Import Model_Backsolve Spec_Backsolve.
Import ListNotations.

Section Shape.
  Context {T Y A P S : Type}.
  Variables (add : A -> A -> A) (zero : A) (zero_p : P).
  Variable solve : T -> T -> bool -> option S -> Y -> A -> P -> A * P * S.
  Notation scan_fun := (scan_fun add solve).
  Notation bwd := (loop_backsolve_bwd add zero zero_p solve).

  (** The same computation by recursion on the saved points. *)
  Fixpoint chain (prev : T) (ts : list T) (ys : list Y) (gs : list A) : carry :=
    match ts, ys, gs with
    | t :: ts', y :: ys', g :: gs' =>
        scan_fun (match ts' with [] => true | _ => false end) (chain t ts' ys' gs') (prev, t, y, g)
    | _, _, _ => (zero, zero_p, None)
    end.

  Lemma at_last_app {X} (l : list X) x : at_last (l ++ [x]) = Some x.
  Proof.
    unfold at_last. rewrite app_length. cbn [length]. replace (length l + 1 - 1)%nat with (length l) by lia.
    now rewrite nth_error_app2, Nat.sub_diag by lia.
  Qed.
  Lemma at_last2_app {X} (l : list X) x y : at_last2 (l ++ [x; y]) = Some x.
  Proof.
    unfold at_last2. rewrite app_length. cbn [length]. destruct (Nat.ltb_spec (length l + 2) 2); [lia|].
    replace (length l + 2 - 2)%nat with (length l) by lia. now rewrite nth_error_app2, Nat.sub_diag by lia.
  Qed.
  Lemma init1_app {X} (l : list X) x : init1 (l ++ [x]) = l.
  Proof. apply removelast_last. Qed.
  Lemma init2_app {X} (l : list X) x y : init2 (l ++ [x; y]) = l.
  Proof.
    unfold init2. change (l ++ [x; y]) with (l ++ [x] ++ [y]). rewrite app_assoc, removelast_last. apply removelast_last.
  Qed.

  Lemma last_cons' {X} (p b : X) ps : last (p :: ps) b = last ps p.
  Proof.
    revert p b. induction ps as [|q ps IH]; intros p b; [reflexivity|].
    change (last (p :: q :: ps) b) with (last (q :: ps) b). now rewrite !IH.
  Qed.
  (** All points but the last one, scanned after it. *)
  Lemma chain_scan (pts : list (T * Y * A)) t y g : forall prev,
    let ts := map (fun p => fst (fst p)) pts in let ys := map (fun p => snd (fst p)) pts in let gs := map snd pts in
    chain prev (ts ++ [t]) (ys ++ [y]) (gs ++ [g]) =
    scan_reverse add solve (scan_fun true (zero, zero_p, None) (last ts prev, t, y, g))
                 (zip4 (prev :: removelast ts) ts ys gs).
  Proof.
    induction pts as [|[[t1 y1] g1] pts IH]; intros prev; [reflexivity|]. cbn zeta in *.
    cbn [map app chain fst snd]. rewrite IH. clear IH.
    assert (N : match map (fun p : T * Y * A => fst (fst p)) pts ++ [t] with [] => true | _ :: _ => false end = false)
      by now destruct pts.
    rewrite N. clear N. unfold scan_reverse. destruct pts as [|[[t2 y2] g2] pts]; [reflexivity|].
    cbn [map fst snd].
    replace (last (t1 :: t2 :: map (fun p : T * Y * A => fst (fst p)) pts) prev)
      with (last (t2 :: map (fun p : T * Y * A => fst (fst p)) pts) t1)
      by (rewrite !last_cons'; reflexivity).
    change (removelast (t1 :: t2 :: map (fun p : T * Y * A => fst (fst p)) pts))
      with (t1 :: removelast (t2 :: map (fun p : T * Y * A => fst (fst p)) pts)).
    cbn [zip4 rev]. rewrite !fold_left_app. reflexivity.
  Qed.

  Lemma points (ts : list T) : forall (ys : list Y) (gs : list A), length ys = length ts -> length gs = length ts ->
    exists pts, ts = map (fun p => fst (fst p)) pts /\ ys = map (fun p => snd (fst p)) pts /\ gs = map snd pts.
  Proof.
    induction ts as [|t ts IH]; intros [|y ys] [|g gs] H1 H2; try discriminate.
    - exists []. auto.
    - destruct (IH ys gs) as [pts [E1 [E2 E3]]]; [now injection H1|now injection H2|].
      exists ((t, y, g) :: pts). subst. auto.
  Qed.

  Lemma bwd_false t0 ts ys gs : ts <> [] -> length ys = length ts -> length gs = length ts ->
    bwd false t0 ts ys gs = Some (fst (chain t0 ts ys gs)).
  Proof.
    intros NE HY HG. destruct (points ts ys gs HY HG) as [pts0 [-> [-> ->]]].
    destruct (@exists_last _ pts0) as [pts [[[t y] g] ->]]; [now intros ->|].
    rewrite !map_app. cbn [map fst snd]. rewrite (chain_scan pts t y g t0).
    unfold loop_backsolve_bwd. rewrite app_length, map_length. cbn [length].
    destruct pts as [|p pts1] eqn:Ep.
    - cbn. destruct (solve t t0 false None y (add zero g) zero_p) as [[? ?] ?]. reflexivity.
    - rewrite <- Ep. destruct (Nat.ltb_spec 1 (length pts + 1)); [|subst; cbn in *; lia].
      destruct (@exists_last _ pts) as [pts2 [[[t' y'] g'] E]]; [now subst|]. rewrite E.
      rewrite !map_app. cbn [map fst snd]. rewrite <- !app_assoc. cbn [app].
      rewrite at_last2_app, init2_app. change [t'; t] with ([t'] ++ [t]). change [y'; y] with ([y'] ++ [y]). change [g'; g] with ([g'] ++ [g]).
      rewrite !app_assoc, !at_last_app, !init1_app. cbn [val_of].
      rewrite last_last.
      destruct (scan_reverse _ _ _ _) as [[? ?] ?]. reflexivity.
  Qed.

  Lemma bwd_true t0 ts ys gs y0 g0 : length ys = length ts -> length gs = length ts ->
    bwd true t0 (t0 :: ts) (y0 :: ys) (g0 :: gs) =
    Some (let '(a, p, _) := chain t0 ts ys gs in (add a g0, p)).
  Proof.
    intros HY HG. destruct ts as [|t ts].
    { destruct ys; [|discriminate]. destruct gs; [|discriminate]. reflexivity. }
    pose proof (bwd_false t0 (t :: ts) ys gs ltac:(discriminate) HY HG) as F.
    destruct (chain t0 (t :: ts) ys gs) as [[a p] st]. cbn [fst] in F.
    assert (R : bwd true t0 (t0 :: t :: ts) (y0 :: ys) (g0 :: gs) =
                match bwd false t0 (t :: ts) ys gs with Some (a, p) => Some (add a g0, p) | None => None end).
    { destruct ts as [|t2 ts].
      - destruct ys as [|y ys]; [discriminate|]. destruct ys; [|discriminate].
        destruct gs as [|g gs]; [discriminate|]. destruct gs; [|discriminate].
        cbn. destruct (solve t t0 false None y (add zero g) zero_p) as [[? ?] ?]. reflexivity.
      - destruct ys as [|y ys]; [discriminate|]. destruct ys as [|y2 ys]; [discriminate|].
        destruct gs as [|g gs]; [discriminate|]. destruct gs as [|g2 gs]; [discriminate|].
        unfold loop_backsolve_bwd.
        change (2 <? length (t0 :: t :: t2 :: ts))%nat with true. change (1 <? length (t :: t2 :: ts))%nat with true.
        cbv iota.
        assert (L : forall X (x0 x : X) l, at_last (x0 :: x :: l) = at_last (x :: l)).
        { intros. unfold at_last. cbn [length]. rewrite !Nat.sub_succ, !Nat.sub_0_r. reflexivity. }
        rewrite !(L _ _ t), !(L _ _ y), !(L _ _ g).
        assert (L2 : forall X (x0 x x' : X) l, at_last2 (x0 :: x :: x' :: l) = at_last2 (x :: x' :: l)).
        { intros. unfold at_last2. cbn [length]. change (Datatypes.S (Datatypes.S (Datatypes.S (length l))) <? 2)%nat with false. change (Datatypes.S (Datatypes.S (length l)) <? 2)%nat with false. cbv iota. rewrite !Nat.sub_succ, !Nat.sub_0_r. reflexivity. }
        rewrite (L2 _ t0). unfold inner. cbn [tl]. unfold init1.
        change (init2 (t0 :: t :: t2 :: ts)) with (removelast (t0 :: removelast (t :: t2 :: ts))).
        assert (I2 : removelast (t0 :: removelast (t :: t2 :: ts)) = t0 :: init2 (t :: t2 :: ts)).
        { unfold init2. reflexivity. }
        rewrite I2. destruct (val_of _ _ _ _); [|reflexivity].
        destruct (scan_reverse _ _ _ _) as [[? ?] ?]. reflexivity. }
    rewrite R, F. reflexivity.
  Qed.
End Shape.

(** * Sums *)

Section Sum.
  Context {T Y A P S : Type}.
  Variables (add : A -> A -> A) (zero : A) (add_p : P -> P -> P) (zero_p : P).
  Variable solve : T -> T -> bool -> option S -> Y -> A -> P -> A * P * S.
  Variables (pull : T -> T -> A -> A) (par : T -> T -> A -> P).
  Hypothesis HA : additive add zero.
  Hypothesis HP : additive add_p zero_p.
  Hypothesis PB : pullback add zero add_p zero_p pull par.

  Lemma add_zero_r {B} (ad : B -> B -> B) z (H : additive ad z) a : ad a z = a.
  Proof. rewrite (add_comm _ _ H). apply (add_zero _ _ H). Qed.
  Lemma add_swap {B} (ad : B -> B -> B) z (H : additive ad z) a b c d :
    ad (ad a b) (ad c d) = ad (ad a c) (ad b d).
  Proof.
    rewrite <- (add_assoc _ _ H a b), <- (add_assoc _ _ H a c). f_equal.
    rewrite (add_assoc _ _ H b c d), (add_comm _ _ H b c), <- (add_assoc _ _ H c b d). reflexivity.
  Qed.

  Lemma total_linear {B} (ad : B -> B -> B) z (f : A -> B) l : linear add zero ad z f ->
    f (total add zero l) = total ad z (map f l).
  Proof.
    intros L. induction l as [|a l IH]; cbn.
    - apply (lin_zero _ _ _ _ _ L).
    - rewrite (lin_add _ _ _ _ _ L). f_equal. exact IH.
  Qed.
  Lemma total_add {B} (ad : B -> B -> B) z (H : additive ad z) {X} (f g : X -> B) l :
    ad (total ad z (map f l)) (total ad z (map g l)) = total ad z (map (fun x => ad (f x) (g x)) l).
  Proof.
    unfold total. induction l as [|x l IH]; cbn; [apply (add_zero _ _ H)|].
    rewrite (add_swap ad z H). now rewrite IH.
  Qed.

  Definition pulled (s : T) (ts : list T) (gs : list A) : list A := map (fun tg => pull s (fst tg) (snd tg)) (combine ts gs).
  Definition pared (s : T) (ts : list T) (gs : list A) : list P := map (fun tg => par s (fst tg) (snd tg)) (combine ts gs).

  Lemma chain_sum ts : forall prev ys gs,
    length ys = length ts -> length gs = length ts ->
    (forall s t y mj st a p, adjacent prev ts ys s t y ->
       fst (solve t s mj st y a p) = (pull s t a, add_p p (par s t a))) ->
    fst (chain add zero zero_p solve prev ts ys gs) =
    (total add zero (pulled prev ts gs), total add_p zero_p (pared prev ts gs)).
  Proof.
    induction ts as [|t ts IH]; intros prev ys gs HY HG EX.
    - destruct ys; [|discriminate]. reflexivity.
    - destruct ys as [|y ys]; [discriminate|]. destruct gs as [|g gs]; [discriminate|].
      specialize (IH t ys gs ltac:(now injection HY) ltac:(now injection HG)).
      cbn [chain]. destruct (chain add zero zero_p solve t ts ys gs) as [[a p] st]. cbn [fst] in IH.
      assert (E : (a, p) = (total add zero (pulled t ts gs), total add_p zero_p (pared t ts gs))).
      { apply IH. intros s' t' y' mj st' a' p' [k [K1 [K2 K3]]]. apply EX. exists (Datatypes.S k). auto. }
      injection E as -> ->. clear IH. unfold scan_fun.
      destruct (solve t prev _ st y _ _) as [[a1 p1] st1] eqn:ES.
      assert (R : (a1, p1) = fst (solve t prev (negb match ts with [] => true | _ :: _ => false end) st y
          (add (total add zero (pulled t ts gs)) g) (total add_p zero_p (pared t ts gs)))) by now rewrite ES.
      rewrite EX in R by (exists 0%nat; auto). injection R as -> ->. cbn [fst].
      assert (PA : pull prev t (add (total add zero (pulled t ts gs)) g) =
                   total add zero (pulled prev (t :: ts) (g :: gs))).
      { rewrite (lin_add _ _ _ _ _ (pull_linear _ _ _ _ _ _ PB prev t)).
        rewrite (total_linear add zero _ _ (pull_linear _ _ _ _ _ _ PB prev t)). unfold pulled at 2. cbn [combine map fst snd total fold_right].
        rewrite (add_comm _ _ HA). f_equal. unfold pulled. rewrite map_map. unfold total. f_equal. apply map_ext.
        intros [u b]. cbn. apply (pull_comp _ _ _ _ _ _ PB). }
      rewrite PA. f_equal.
      rewrite (lin_add _ _ _ _ _ (par_linear _ _ _ _ _ _ PB prev t)).
      rewrite (total_linear add_p zero_p _ _ (par_linear _ _ _ _ _ _ PB prev t)).
      rewrite (add_assoc _ _ HP). unfold pared, pulled. rewrite map_map, (total_add add_p zero_p HP).
      cbn [combine map fst snd total fold_right]. rewrite (add_comm _ _ HP). f_equal. unfold total. f_equal. apply map_ext.
      intros [u b]. cbn. symmetry. apply (par_comp _ _ _ _ _ _ PB).
  Qed.
End Sum.

Lemma pf_C50_every_gradient_once (T Y A P S : Type)
    (add : A -> A -> A) (zero : A) (add_p : P -> P -> P) (zero_p : P)
    (solve : T -> T -> bool -> option S -> Y -> A -> P -> A * P * S)
    (pull : T -> T -> A -> A) (par : T -> T -> A -> P)
    (saveat_t0 : bool) (t0 : T) (ts : list T) (ys : list Y) (gs : list A) :
  additive add zero -> additive add_p zero_p -> pullback add zero add_p zero_p pull par ->
  ts <> [] -> length ys = length ts -> length gs = length ts ->
  (saveat_t0 = true -> hd_error ts = Some t0) ->
  (forall s t y mj st a p,
     (if saveat_t0 then adjacent t0 (tl ts) (tl ys) s t y else adjacent t0 ts ys s t y) ->
     fst (solve t s mj st y a p) = (pull s t a, add_p p (par s t a))) ->
  loop_backsolve_bwd add zero zero_p solve saveat_t0 t0 ts ys gs =
  Some (total add zero (map (fun tg => pull t0 (fst tg) (snd tg)) (combine ts gs)),
        total add_p zero_p (map (fun tg => par t0 (fst tg) (snd tg)) (combine ts gs))).
Proof.
  intros HA HP PB NE HY HG H0 EX. destruct saveat_t0.
  - destruct ts as [|t ts]; [easy|]. destruct ys as [|y ys]; [discriminate|]. destruct gs as [|g gs]; [discriminate|].
    injection (H0 eq_refl) as ->. cbn [tl] in EX.
    rewrite (bwd_true add zero _ solve t0 ts ys gs y g ltac:(now injection HY) ltac:(now injection HG)).
    pose proof (chain_sum add zero add_p zero_p solve pull par HA HP PB ts t0 ys gs ltac:(now injection HY) ltac:(now injection HG) EX) as C.
    destruct (chain add zero zero_p solve t0 ts ys gs) as [[a p] st]. cbn [fst] in C. injection C as -> ->.
    cbn [combine map fst snd total fold_right]. do 2 f_equal.
    + rewrite (add_comm _ _ HA). now rewrite (pull_id _ _ _ _ _ _ PB).
    + rewrite (par_id _ _ _ _ _ _ PB). now rewrite (add_zero _ _ HP).
  - rewrite bwd_false by assumption. f_equal.
    now apply (chain_sum add zero add_p zero_p solve pull par HA HP PB).
Qed.

(** * The calls *)

Lemma calls_from_app {T} (l : list (T * T)) : forall st s t,
  calls_from st (l ++ [(s, t)]) =
  calls_from st l ++ [(t, s, match rev l with [] => (match st with None => false | Some _ => true end) | _ => true end,
                       match rev l with [] => st | (s', t') :: _ => Some (t', s') end)].
Proof.
  induction l as [|[s1 t1] l IH]; intros st s t; [reflexivity|]. cbn [app calls_from]. rewrite IH. cbn [rev].
  destruct (rev l) as [|[s2 t2] r] eqn:E; reflexivity.
Qed.

Lemma pf_C50_calls (T Y A : Type) (add : A -> A -> A) (zero : A)
    (solve : T -> T -> bool -> option (T * T) -> Y -> A -> list (T * T * bool * option (T * T)) ->
             A * list (T * T * bool * option (T * T)) * (T * T))
    (saveat_t0 : bool) (t0 : T) (ts : list T) (ys : list Y) (gs : list A) :
  (forall t s mj st y a p, exists a', solve t s mj st y a p = (a', p ++ [(t, s, mj, st)], (t, s))) ->
  ts <> [] -> length ys = length ts -> length gs = length ts ->
  (saveat_t0 = true -> hd_error ts = Some t0) ->
  exists a, loop_backsolve_bwd add zero [] solve saveat_t0 t0 ts ys gs =
    Some (a, calls_from None (rev (intervals t0 (if saveat_t0 then tl ts else ts)))).
Proof.
  intros LOG NE HY HG H0.
  assert (CH : forall ts ys gs prev, length ys = length ts -> length gs = length ts ->
    exists a, chain add zero [] solve prev ts ys gs =
      (a, calls_from None (rev (intervals prev ts)), match ts with [] => None | t :: _ => Some (t, prev) end)).
  { clear - LOG. induction ts as [|t ts IH]; intros ys gs prev HY HG.
    - destruct ys; [|discriminate]. exists zero. reflexivity.
    - destruct ys as [|y ys]; [discriminate|]. destruct gs as [|g gs]; [discriminate|].
      destruct (IH ys gs t ltac:(now injection HY) ltac:(now injection HG)) as [a IH1].
      cbn [chain]. rewrite IH1. unfold scan_fun.
      match goal with |- context [solve ?t ?s ?mj ?st ?y ?a ?p] => destruct (LOG t s mj st y a p) as [a' E]; rewrite E end.
      exists a'. cbn [intervals rev]. rewrite calls_from_app, rev_involutive. f_equal. f_equal. f_equal. f_equal.
      destruct ts; reflexivity. }
  destruct saveat_t0.
  - destruct ts as [|t ts]; [easy|]. destruct ys as [|y ys]; [discriminate|]. destruct gs as [|g gs]; [discriminate|].
    injection (H0 eq_refl) as ->. rewrite (bwd_true add zero _ solve t0 ts ys gs y g ltac:(now injection HY) ltac:(now injection HG)). cbn [tl].
    destruct (CH ts ys gs t0 ltac:(now injection HY) ltac:(now injection HG)) as [a ->]. exists (add a g). reflexivity.
  - rewrite bwd_false by assumption. destruct (CH ts ys gs t0 HY HG) as [a ->]. exists a. reflexivity.
Qed.

(** * The adjoint equation *)

Open Scope R_scope.

Lemma dot_derivable n (a v a' v' : R -> vec) t :
  (forall i, (i < n)%nat -> derivable_pt_lim (fun s => a s i) t (a' t i)) ->
  (forall i, (i < n)%nat -> derivable_pt_lim (fun s => v s i) t (v' t i)) ->
  derivable_pt_lim (fun s => dot n (a s) (v s)) t (dot n (a' t) (v t) + dot n (a t) (v' t)).
Proof.
  intros HA HV. induction n as [|n IH]; cbn [dot].
  - rewrite Rplus_0_r. apply derivable_pt_lim_const.
  - replace (dot n (a' t) (v t) + a' t n * v t n + (dot n (a t) (v' t) + a t n * v' t n))
      with (dot n (a' t) (v t) + dot n (a t) (v' t) + (a' t n * v t n + a t n * v' t n)) by ring.
    apply (derivable_pt_lim_plus (fun s => dot n (a s) (v s)) (fun s => a s n * v s n)).
    + apply IH; intros i Hi; [apply HA|apply HV]; lia.
    + apply (derivable_pt_lim_mult (fun s => a s n) (fun s => v s n)); [apply HA|apply HV]; lia.
Qed.
Lemma dot_derivable_l n (a a' : R -> vec) (w : vec) t :
  (forall i, (i < n)%nat -> derivable_pt_lim (fun s => a s i) t (a' t i)) ->
  derivable_pt_lim (fun s => dot n (a s) w) t (dot n (a' t) w).
Proof.
  intros HA. induction n as [|n IH]; cbn [dot].
  - apply derivable_pt_lim_const.
  - apply (derivable_pt_lim_plus (fun s => dot n (a s) w) (fun s => a s n * w n)).
    + apply IH; intros i Hi; apply HA; lia.
    + replace (a' t n * w n) with (a' t n * w n + a t n * 0) by ring.
      apply (derivable_pt_lim_mult (fun s => a s n) (fun _ => w n)); [apply HA; lia|]. apply derivable_pt_lim_const.
Qed.
Lemma dot_opp n a b : dot n (fun i => - a i) b = - dot n a b.
Proof. induction n; cbn [dot]; [ring|]. rewrite IHn. ring. Qed.

Lemma constant_of_zero_derivative (g : R -> R) t0 t1 : t0 <= t1 ->
  (forall t, t0 <= t <= t1 -> derivable_pt_lim g t 0) -> g t0 = g t1.
Proof.
  intros LE D. destruct (Rle_lt_or_eq_dec _ _ LE) as [LT|<-]; [|reflexivity].
  assert (pr : forall c, t0 < c < t1 -> derivable_pt g c) by (intros c Hc; exists 0; apply D; lra).
  destruct (MVT_cor2 g (fun _ => 0) t0 t1 LT) as [c [Hc _]]; [|lra].
  intros c Hc. now apply D.
Qed.

Lemma pf_C50_adjoint_equation (n q : nat) (f : R -> vec -> vec -> vec)
    (vjp : R -> vec -> vec -> vec -> vec * vec) (jvp : R -> vec -> vec -> vec -> vec -> vec) (theta : vec)
    (t0 t1 : R) (y a p v : R -> vec) (w : vec) :
  t0 <= t1 ->
  (forall t z b v w, dot n (fst (vjp t z theta b)) v + dot q (snd (vjp t z theta b)) w = dot n b (jvp t z theta v w)) ->
  (forall t i, t0 <= t <= t1 -> (i < n)%nat ->
     derivable_pt_lim (fun s => a s i) t (snd (fst (adjoint_vf_prod f vjp theta t (y t, a t, p t))) i)) ->
  (forall t i, t0 <= t <= t1 -> (i < q)%nat ->
     derivable_pt_lim (fun s => p s i) t (snd (adjoint_vf_prod f vjp theta t (y t, a t, p t)) i)) ->
  (forall t i, t0 <= t <= t1 -> (i < n)%nat -> derivable_pt_lim (fun s => v s i) t (jvp t (y t) theta (v t) w i)) ->
  dot n (a t0) (v t0) + dot q (p t0) w = dot n (a t1) (v t1) + dot q (p t1) w.
Proof.
  intros LE ADJ DA DP DV.
  apply (constant_of_zero_derivative (fun t => dot n (a t) (v t) + dot q (p t) w) t0 t1 LE).
  intros t Ht.
  set (a' := fun t => fst (vjp t (y t) theta (fun i => - a t i))).
  set (p' := fun t => snd (vjp t (y t) theta (fun i => - a t i))).
  set (v' := fun t => jvp t (y t) theta (v t) w).
  assert (EA : forall s, snd (fst (adjoint_vf_prod f vjp theta s (y s, a s, p s))) = a' s).
  { intros s. unfold adjoint_vf_prod, a'. destruct (vjp _ _ _ _). reflexivity. }
  assert (EP : forall s, snd (adjoint_vf_prod f vjp theta s (y s, a s, p s)) = p' s).
  { intros s. unfold adjoint_vf_prod, p'. destruct (vjp _ _ _ _). reflexivity. }
  replace 0 with (dot n (a' t) (v t) + dot n (a t) (v' t) + dot q (p' t) w).
  - apply (derivable_pt_lim_plus (fun t => dot n (a t) (v t)) (fun t => dot q (p t) w)).
    + apply dot_derivable; intros i Hi.
      * rewrite <- EA. now apply DA.
      * now apply DV.
    + apply dot_derivable_l. intros i Hi. rewrite <- EP. now apply DP.
  - unfold a', p', v'. pose proof (ADJ t (y t) (fun i => - a t i) (v t) w) as H. rewrite dot_opp in H. lra.
Qed.
