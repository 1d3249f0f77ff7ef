(** Samples as assumed in [Spec_Brownian] exist: formal combinations of independent standard normals.  And trees to which
    the theorems apply. *)
From Coq Require Import Reals List Bool Lra Lia Psatz.
From Verif Require Import Model_Brownian Spec_Brownian.
Import ListNotations.
Open Scope R_scope.

(** Each key has four independent standard normals. *)
Definition name : Type := (key * nat)%type.
Definition name_dec : forall a b : name, {a = b} + {a <> b}.
Proof. repeat decide equality. Defined.
Definition formal := list (R * name).
Definition formal_ops : ops formal :=
  Ops [] (@app _) (fun x y => x ++ map (fun c => (- fst c, snd c)) y) (fun a x => map (fun c => (a * fst c, snd c)) x).
Definition coef (x : formal) (n : name) : R :=
  fold_right (fun c acc => (if name_dec (snd c) n then fst c else 0) + acc) 0 x.
Definition formal_cov (x y : formal) : R := fold_right (fun c acc => fst c * coef x (snd c) + acc) 0 y.

Lemma coef_app (x y : formal) (n : name) : coef (x ++ y) n = coef x n + coef y n.
Proof. induction x; cbn [app coef fold_right]; [unfold coef; cbn; lra|]. fold (coef (x ++ y) n) (coef x n). rewrite IHx. lra. Qed.
Lemma cov_app (x y z : formal) : formal_cov x (y ++ z) = formal_cov x y + formal_cov x z.
Proof. induction y; cbn; [unfold formal_cov; cbn; lra|]. fold (formal_cov x (y ++ z)) (formal_cov x y). rewrite IHy. lra. Qed.
Lemma cov_map (a : R) (x y : formal) : formal_cov x (map (fun c => (a * fst c, snd c)) y) = a * formal_cov x y.
Proof. induction y as [|c y IH]; cbn; [lra|]. fold (formal_cov x (map (fun c => (a * fst c, snd c)) y)) (formal_cov x y). rewrite IH. cbn. lra. Qed.
Lemma cov_cons_r (x : formal) (d : R * name) (y : formal) : formal_cov x (d :: y) = fst d * coef x (snd d) + formal_cov x y.
Proof. reflexivity. Qed.
Lemma coef_cons (c : R * name) (x : formal) (n : name) : coef (c :: x) n = (if name_dec (snd c) n then fst c else 0) + coef x n.
Proof. reflexivity. Qed.
Lemma cov_cons_l (c : R * name) (x y : formal) : formal_cov (c :: x) y = fst c * coef y (snd c) + formal_cov x y.
Proof.
  induction y as [|d y IH]; [unfold formal_cov, coef; cbn; lra|]. rewrite !cov_cons_r, IH, !coef_cons.
  destruct (name_dec (snd c) (snd d)) as [E|N], (name_dec (snd d) (snd c)) as [E'|N']; try congruence; lra.
Qed.

Lemma formal_covariance : is_covariance formal_ops formal_cov.
Proof.
  constructor; cbn [op_zero op_plus op_minus op_scale formal_ops].
  - intros x y. induction x as [|c x IH].
    + induction y as [|d y IH]; [reflexivity|]. rewrite cov_cons_r, IH. unfold formal_cov, coef; cbn. lra.
    + rewrite cov_cons_l, IH. reflexivity.
  - reflexivity.
  - intros. apply cov_app.
  - intros. rewrite cov_app. rewrite (map_ext _ (fun c : R * name => ((-1) * fst c, snd c))) by (intros; f_equal; lra).
    rewrite cov_map. lra.
  - intros. apply cov_map.
Qed.

(** A square root of a covariance matrix *)
Definition term (c : R) (n : name) : formal := if Req_EM_T c 0 then [] else [(c, n)].
Definition ratio (a b : R) : R := if Req_EM_T b 0 then 0 else a / b.
Definition cholesky (m : matrix3) : R * R * R * R * R * R :=
  let l11 := sqrt (m_ww m) in
  let l21 := ratio (m_wh m) l11 in
  let l31 := ratio (m_wk m) l11 in
  let l22 := sqrt (m_hh m - l21 ^ 2) in
  let l32 := ratio (m_hk m - l21 * l31) l22 in
  let l33 := sqrt (m_kk m - l31 ^ 2 - l32 ^ 2) in
  (l11, l21, l31, l22, l32, l33).
Definition formal_sampler : sampler formal :=
  Sampler (fun k => [(1, (k, 0%nat))])
    (fun k m => let '(l11, l21, l31, l22, l32, l33) := cholesky m in
       (term l11 (k, 1%nat), term l21 (k, 1%nat) ++ term l22 (k, 2%nat),
        term l31 (k, 1%nat) ++ term l32 (k, 2%nat) ++ term l33 (k, 3%nat))).

Lemma linear_bound (a b : R) : (forall x, 0 <= a + x * b) -> b = 0.
Proof.
  intros H. destruct (Req_dec b 0); [auto|exfalso]. specialize (H (- (a + 1) / b)).
  replace (a + - (a + 1) / b * b) with (- 1) in H by (field; auto). lra.
Qed.

Lemma cholesky_spec (m : matrix3) : psd m ->
  let '(l11, l21, l31, l22, l32, l33) := cholesky m in
  l11 * l11 = m_ww m /\ l11 * l21 = m_wh m /\ l11 * l31 = m_wk m /\ l21 * l21 + l22 * l22 = m_hh m /\
  l21 * l31 + l22 * l32 = m_hk m /\ l31 * l31 + l32 * l32 + l33 * l33 = m_kk m.
Proof.
  destruct m as [ww wh wk hh hk kk]. unfold psd, cholesky. cbn [m_ww m_wh m_wk m_hh m_hk m_kk]. intros P.
  set (l11 := sqrt ww). set (l21 := ratio wh l11). set (l31 := ratio wk l11).
  assert (W0 : 0 <= ww) by (specialize (P 1 0 0); lra).
  assert (E1 : l11 * l11 = ww) by (now apply sqrt_sqrt).
  assert (E2 : l11 * l21 = wh).
  { unfold l21, ratio. destruct (Req_EM_T l11 0) as [Z|N]; [|field; auto].
    assert (ww = 0) by (rewrite <- E1, Z; ring).
    assert (wh = 0); [|lra]. apply (linear_bound (hh) wh). intros x. specialize (P (x / 2) 1 0). nra. }
  assert (E3 : l11 * l31 = wk).
  { unfold l31, ratio. destruct (Req_EM_T l11 0) as [Z|N]; [|field; auto].
    assert (ww = 0) by (rewrite <- E1, Z; ring).
    assert (wk = 0); [|lra]. apply (linear_bound (kk) wk). intros x. specialize (P (x / 2) 0 1). nra. }
  assert (K : forall y z, exists x, x * l11 = - (y * l21 + z * l31)).
  { intros y z. destruct (Req_EM_T l11 0) as [Z|N].
    - exists 0. unfold l21, l31, ratio. destruct (Req_EM_T l11 0); [lra|contradiction].
    - exists (- (y * l21 + z * l31) / l11). field. auto. }
  assert (P2 : forall y z, 0 <= y * y * (hh - l21 ^ 2) + z * z * (kk - l31 ^ 2) + 2 * (y * z * (hk - l21 * l31))).
  { intros y z. destruct (K y z) as [x Hx]. specialize (P x y z). rewrite <- E1, <- E2, <- E3 in P.
    replace (y * y * (hh - l21 ^ 2) + z * z * (kk - l31 ^ 2) + 2 * (y * z * (hk - l21 * l31)))
      with (x * x * (l11 * l11) + y * y * hh + z * z * kk + 2 * (x * y * (l11 * l21) + x * z * (l11 * l31) + y * z * hk)
            - (x * l11 + (y * l21 + z * l31)) ^ 2) by ring.
    rewrite Hx. replace (- (y * l21 + z * l31) + (y * l21 + z * l31)) with 0 by ring. lra. }
  set (l22 := sqrt (hh - l21 ^ 2)). set (l32 := ratio (hk - l21 * l31) l22).
  assert (D2 : 0 <= hh - l21 ^ 2) by (specialize (P2 1 0); lra).
  assert (E4 : l22 * l22 = hh - l21 ^ 2) by (now apply sqrt_sqrt).
  assert (E5 : l22 * l32 = hk - l21 * l31).
  { unfold l32, ratio. destruct (Req_EM_T l22 0) as [Z|N]; [|field; auto].
    assert (hh - l21 ^ 2 = 0) by (rewrite <- E4, Z; ring).
    assert (hk - l21 * l31 = 0); [|lra]. apply (linear_bound (kk - l31 ^ 2)). intros y. specialize (P2 (y / 2) 1). nra. }
  assert (K2 : exists y, y * l22 = - l32).
  { destruct (Req_EM_T l22 0) as [Z|N].
    - exists 0. unfold l32, ratio. destruct (Req_EM_T l22 0); [lra|contradiction].
    - exists (- l32 / l22). field. auto. }
  assert (D3 : 0 <= kk - l31 ^ 2 - l32 ^ 2).
  { destruct K2 as [y Hy]. specialize (P2 y 1). rewrite <- E4, <- E5 in P2.
    replace (kk - l31 ^ 2 - l32 ^ 2) with (y * y * (l22 * l22) + 1 * 1 * (kk - l31 ^ 2) + 2 * (y * 1 * (l22 * l32)) - (y * l22 + l32) ^ 2) by ring.
    rewrite Hy. replace (- l32 + l32) with 0 by ring. lra. }
  assert (E6 : sqrt (kk - l31 ^ 2 - l32 ^ 2) * sqrt (kk - l31 ^ 2 - l32 ^ 2) = kk - l31 ^ 2 - l32 ^ 2) by (now apply sqrt_sqrt).
  cbv zeta. repeat split; lra.
Qed.

Lemma coef_term (c : R) (n n' : name) : coef (term c n) n' = if name_dec n n' then c else 0.
Proof. unfold term. destruct (Req_EM_T c 0) as [->|N]; cbn; destruct (name_dec n n'); lra. Qed.
Lemma cov_term (x : formal) (c : R) (n : name) : formal_cov x (term c n) = c * coef x n.
Proof. unfold term. destruct (Req_EM_T c 0) as [->|N]; cbn; lra. Qed.

Lemma formal_degenerate : degenerate_is_mean formal_ops formal_sampler.
Proof.
  intros k. cbn -[cholesky]. unfold cholesky. cbn [m_ww m_wh m_wk m_hh m_hk m_kk].
  assert (Q : ratio 0 (sqrt 0) = 0) by (rewrite sqrt_0; unfold ratio; destruct (Req_EM_T 0 0); [auto|lra]).
  rewrite Q. replace (0 - 0 ^ 2) with 0 by ring. replace (0 - 0 * 0) with 0 by ring. rewrite Q.
  replace (0 - 0 ^ 2) with 0 by ring. rewrite sqrt_0.
  assert (T : forall n, term 0 n = []) by (intros; unfold term; destruct (Req_EM_T 0 0); [auto|lra]).
  rewrite !T. reflexivity.
Qed.

Ltac names := repeat match goal with |- context [name_dec ?a ?b] => destruct (name_dec a b); [try congruence|try congruence] end.
Lemma formal_samples : independent_samples formal_sampler formal_cov.
Proof.
  constructor; cbn [normal multivariate_normal formal_sampler].
  - intros k. rewrite cov_cons_r, coef_cons. cbn [fst snd]. names. unfold formal_cov, coef. cbn. lra.
  - intros k k' N. rewrite cov_cons_r, coef_cons. cbn [fst snd]. names. unfold formal_cov, coef. cbn. lra.
  - intros k m P. pose proof (cholesky_spec m P) as S. destruct (cholesky m) as [[[[[l11 l21] l31] l22] l32] l33].
    rewrite !cov_app, !cov_term, !coef_app, !coef_term. names. repeat split; lra.
  - intros k m k' N. destruct (cholesky m) as [[[[[l11 l21] l31] l22] l32] l33].
    cbn [formal_cov fold_right fst snd]. rewrite !coef_app, !coef_term. names. repeat split; lra.
  - intros k m k' m' N. destruct (cholesky m) as [[[[[l11 l21] l31] l22] l32] l33].
    destruct (cholesky m') as [[[[[l11' l21'] l31'] l22'] l32'] l33'].
    intros x y Hx Hy. cbn in Hx, Hy.
    destruct Hx as [<-|[<-|[<-|[]]]]; destruct Hy as [<-|[<-|[<-|[]]]];
      rewrite ?cov_app, ?cov_term, ?coef_app, ?coef_term; names; lra.
Qed.

(** A tree over [[0, 2]] with tolerance [1/8] *)
Definition sample_tree : tree := Tree 0 2 (/ 8) [7%nat].
Lemma sample_proper : proper sample_tree.
Proof. split; cbn; lra. Qed.
Lemma sample_resolves : resolves sample_tree 4 /\ resolves (with_tol sample_tree (/ 100)) 4 /\ dyadic sample_tree 4 3 (3 / 8) /\ dyadic sample_tree 4 6 (3 / 4).
Proof. unfold resolves, dyadic, length, sample_tree, with_tol; cbn; repeat split; lra. Qed.
Lemma sample_told_apart : told_apart sample_tree (1 / 3) (2 / 3) /\ told_apart sample_tree (2 / 3) 1 /\ told_apart sample_tree 1 (3 / 2).
Proof.
  repeat split; try lra; right; [exists 2%nat, 1%nat|exists 1%nat, 1%nat|exists 1%nat, 1%nat]; cbn; unfold length, sample_tree; cbn;
    (split; [lra|right; lra]).
Qed.
Lemma sample_apart : let eps := / 2 ^ 23 in
  apart eps sample_tree (1 / 3) (2 / 3) /\ apart eps sample_tree (2 / 3) 1 /\
  apart2 eps sample_tree (1 / 3) (2 / 3) /\ apart2 eps sample_tree (2 / 3) 1 /\ apart2 eps sample_tree 0 1.
Proof. cbv zeta. unfold apart, apart2, length, sample_tree; cbn [vt_t0 vt_t1]. repeat split; lra. Qed.
Definition some_samples : sampler R := Sampler (fun k => INR (List.length k) - 3) (fun _ _ => (0, 0, 0)).
