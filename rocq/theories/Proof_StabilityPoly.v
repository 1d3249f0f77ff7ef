(** Stability functions of diagonally implicit methods: bounds by computation. *)
From Coq Require Import ZArith Reals QArith Qreals List Bool Arith Lia Lra.
From Coquelicot Require Import Complex.
From Verif Require Import Model_RK Spec_RK Proof_OrderCheck Proof_Poly Proof_PolyBall.
Import ListNotations.
Open Scope R_scope.

(** The first stage is explicit, all others have the same diagonal entry [g], and the last one is the result. *)
Definition esdirk (tab : tableau) (s : nat) (g : Q) : bool :=
  (2 <=? s)%nat && negb (Qle_bool g 0) && Qeq_bool (aQ tab 0 0) 0 && forallb (fun i => Qeq_bool (aQ tab i i) g) (seq 1 (s - 1)) &&
  forallb (fun j => Qeq_bool (nth j (tab_b_sol tab) 0%Q) (aQ tab (s - 1) j)) (seq 0 s).

Fixpoint qpow (q : Q) (n : nat) : Q := match n with O => 1%Q | S n => (q * qpow q n)%Q end.
Lemma qpow_correct q n : Q2R (qpow q n) = Q2R q ^ n.
Proof. induction n as [|n IH]; cbn [qpow pow]; [apply RMicromega.Q2R_1|]. rewrite Q2R_mult, IH. reflexivity. Qed.

Section Check.
  Variables (prec : option positive) (tab : tableau) (s : nat) (g : Q).
  Notation zeroB := (exactB 0).
  Notation oneB := (exactB 1).
  Notation add := (addB prec).
  Notation mul := (mulB prec).
  (** Numerator of the stability function *)
  Definition numerB : list ball :=
    nth (s - 1) (numerators zeroB add mul [oneB; exactB (- g)] oneB (fun i j => ofB prec (aQ tab i j)) (s - 1)) [].
  Definition numerR : list R :=
    nth (s - 1) (numerators 0 Rplus Rmult [1; - Q2R g] 1 (coef_a tab) (s - 1)) [].
  Lemma one_rel : relB oneB 1.
  Proof. rewrite <- RMicromega.Q2R_1. apply exactB_correct. Qed.
  Lemma zero_rel : relB zeroB 0.
  Proof. rewrite <- RMicromega.Q2R_0. apply exactB_correct. Qed.
  Lemma numer_rel : Forall2 relB numerB numerR.
  Proof.
    unfold numerB, numerR. apply prel_nth. apply brel_numerators; auto using zero_rel, one_rel, addB_correct, mulB_correct.
    - constructor; [apply one_rel|]. constructor; [|constructor]. rewrite <- Q2R_opp. apply exactB_correct.
    - intros i j. rewrite <- aQ_coef. apply ofB_correct.
  Qed.

  (** [|1 - g z|^2] for [z = - u + i y] *)
  Definition denomR : list (list R) := [[1; Q2R g * Q2R g]; [2 * Q2R g]; [Q2R g * Q2R g]].
  Definition denomB : list (list ball) := [[oneB; exactB (g * g)]; [exactB (2 * g)]; [exactB (g * g)]].
  Lemma denom_rel : Forall2 (Forall2 relB) denomB denomR.
  Proof.
    assert (E : relB (exactB (g * g)) (Q2R g * Q2R g)) by (rewrite <- Q2R_mult; apply exactB_correct).
    assert (E2 : relB (exactB (2 * g)) (2 * Q2R g)).
    { replace (2 * Q2R g) with (Q2R (2 * g)) by (rewrite Q2R_mult; f_equal; unfold Q2R; cbn; lra). apply exactB_correct. }
    unfold denomB, denomR. repeat (apply Forall2_cons || apply Forall2_nil); auto using one_rel.
  Qed.
  Lemma denom_correct u y : Cmod (ceval [1; - Q2R g] (- u, y)) ^ 2 = beval denomR u (y * y).
  Proof. rewrite square_modulus_correct. cbn. ring. Qed.
  Fixpoint bpowB (n : nat) : list (list ball) := match n with O => [[oneB]] | S n => bmul zeroB add mul denomB (bpowB n) end.
  Fixpoint bpowR (n : nat) : list (list R) := match n with O => [[1]] | S n => Rbmul denomR (bpowR n) end.
  Lemma bpow_rel n : Forall2 (Forall2 relB) (bpowB n) (bpowR n).
  Proof.
    induction n as [|n IH]; cbn [bpowB bpowR]; [repeat (apply Forall2_cons || apply Forall2_nil); apply one_rel|].
    apply brel_mul; auto using zero_rel, one_rel, addB_correct, mulB_correct, denom_rel.
  Qed.
  Lemma bpow_correct n u y : beval (bpowR n) u (y * y) = (Cmod (ceval [1; - Q2R g] (- u, y)) ^ 2) ^ n.
  Proof.
    rewrite denom_correct. induction n as [|n IH]; [cbn; ring|]. cbn [bpowR]. rewrite beval_mul, IH, <- tech_pow_Rmult. reflexivity.
  Qed.

  (** A polynomial in [v >= 0] that is a sum of squares, some of them times [v] *)
  Definition cert_poly (cert : list (Q * bool * list Q)) : list ball :=
    fold_right (fun x acc => let '(w, b, p) := x in
      let sq := map (mul (exactB w)) (pmul zeroB add mul (map exactB p) (map exactB p)) in
      padd add (if b : bool then zeroB :: sq else sq) acc) [] cert.
  Definition cert_ok (cert : list (Q * bool * list Q)) : bool := forallb (fun x => Qle_bool 0 (fst (fst x))) cert.
  Lemma cert_rel cert : cert_ok cert = true -> exists p, Forall2 relB (cert_poly cert) p /\ forall v, 0 <= v -> 0 <= peval p v.
  Proof.
    induction cert as [|((w, b), p) cert IH]; intros H; [exists []; split; [constructor|cbn; intros; lra]|].
    cbn in H. apply andb_prop in H as (W & H). destruct (IH H) as (q & Hq & Pq). apply Qle_bool_iff, Qle_Rle in W. rewrite RMicromega.Q2R_0 in W.
    set (pr := map Q2R p). set (sqr := map (Rmult (Q2R w)) (Rpmul pr pr)).
    assert (Hp : Forall2 relB (map exactB p) pr).
    { unfold pr. clear. induction p; cbn; constructor; auto using exactB_correct. }
    assert (Hs : Forall2 relB (map (mul (exactB w)) (pmul zeroB add mul (map exactB p) (map exactB p))) sqr).
    { apply prel_map; [intros a c Hc; apply mulB_correct; [apply exactB_correct|exact Hc]|]. apply prel_mul; auto using zero_rel, addB_correct, mulB_correct. }
    assert (Ps : forall v, 0 <= v -> 0 <= peval sqr v).
    { intros v Hv. unfold sqr. rewrite peval_scale, peval_mul. apply Rmult_le_pos; [lra|apply Rle_0_sqr]. }
    exists (Rpadd (if b then 0 :: sqr else sqr) q). split.
    - cbn [cert_poly fold_right]. apply prel_add; [apply addB_correct| |exact Hq]. destruct b; [constructor; [apply zero_rel|exact Hs]|exact Hs].
    - intros v Hv. rewrite peval_add. specialize (Pq v Hv). specialize (Ps v Hv). destruct b; cbn [peval]; [pose proof (Rmult_le_pos _ _ Hv Ps)|]; lra.
  Qed.

  (** [(1 + eps) |1 - g z|^(2 (s - 1)) - |N(z)|^2] is the certificate plus a polynomial in [u] and [y^2] without negative coefficients. *)
  Definition a_stable (eps : Q) (cert : list (Q * bool * list Q)) : bool :=
    cert_ok cert &&
    forallb (forallb nonnegB)
      (badd add (map (map (mul (exactB (1 + eps)))) (bpowB (s - 1)))
        (bopp oppB (badd add (square_modulus zeroB oppB add mul numerB) [cert_poly cert]))).
  Lemma nonneg_list p x : Forall2 relB p x -> forallb nonnegB p = true -> Forall (Rle 0) x.
  Proof. intros H. induction H as [|a b p x Ha H IH]; intros F; constructor; cbn in F; apply andb_prop in F as (F1 & F2); auto. eapply nonnegB_correct; eassumption. Qed.
  Lemma a_stable_correct eps cert u y : a_stable eps cert = true -> 0 <= u ->
    Cmod (ceval numerR (- u, y)) ^ 2 <= (1 + Q2R eps) * (Cmod (ceval [1; - Q2R g] (- u, y)) ^ (s - 1)) ^ 2.
  Proof.
    intros H Hu. unfold a_stable in H. apply andb_prop in H as (CO & H). destruct (cert_rel cert CO) as (c & Hc & Pc).
    set (eb := badd add _ _) in H.
    set (er := Rbadd (map (map (Rmult (1 + Q2R eps))) (bpowR (s - 1))) (Rbopp (Rbadd (square_modulus 0 Ropp Rplus Rmult numerR) [c]))).
    assert (ER : Forall2 (Forall2 relB) eb er).
    { unfold eb, er. apply brel_add; [apply addB_correct| |].
      - apply brel_map with (rel := relB); [|apply bpow_rel]. intros a b Hab. apply prel_map; [|exact Hab]. intros a' b' Hb. apply mulB_correct; [|exact Hb].
        replace (1 + Q2R eps) with (Q2R (1 + eps)) by (rewrite Q2R_plus, RMicromega.Q2R_1; reflexivity). apply exactB_correct.
      - apply brel_opp; [apply oppB_correct|]. apply brel_add; [apply addB_correct| |apply Forall2_cons; [exact Hc|apply Forall2_nil]].
        apply brel_square; auto using zero_rel, addB_correct, mulB_correct, oppB_correct, numer_rel. }
    assert (NN : Forall (Forall (Rle 0)) er).
    { clear - ER H. revert H. generalize dependent er. generalize dependent eb. intros eb er ER. induction ER as [|a b p x Ha ER IH]; intros F; constructor;
        cbn in F; apply andb_prop in F as (F1 & F2); auto. eapply nonneg_list; eassumption. }
    assert (Hv : 0 <= y * y) by apply Rle_0_sqr.
    pose proof (beval_nonneg er u (y * y) NN Hu Hv) as E. unfold er in E. rewrite beval_add, beval_opp, beval_add in E.
    assert (SC : forall k p, beval (map (map (Rmult k)) p) u (y * y) = k * beval p u (y * y)).
    { intros k p. induction p as [|a p IH]; cbn; [ring|]. rewrite IH, peval_scale. ring. }
    rewrite SC, bpow_correct in E. cbn [beval] in E. rewrite square_modulus_correct. specialize (Pc (y * y) Hv).
    replace ((Cmod (ceval [1; - Q2R g] (- u, y)) ^ (s - 1)) ^ 2) with ((Cmod (ceval [1; - Q2R g] (- u, y)) ^ 2) ^ (s - 1)) by (rewrite <- !pow_mult; f_equal; lia). lra.
  Qed.

  (** The size of the leading coefficient *)
  Definition l_stable (eps : Q) : bool :=
    (length numerB <=? s)%nat &&
    let b := nth (s - 1) numerB zeroB in Qle_bool (absQ (mid b) + rad b) (eps * qpow g (s - 1)).
  Definition size_sum (p : list R) : R := fold_right (fun a acc => Rabs a + acc) 0 p.
  Lemma size_sum_pos p : 0 <= size_sum p.
  Proof. unfold size_sum. induction p as [|a p IH]; cbn; [lra|]. pose proof (Rabs_pos a). lra. Qed.
  (** Separating the leading coefficient *)
  Lemma ceval_lead p z n : 1 <= Cmod z -> (length p <= S n)%nat ->
    Cmod (ceval p z) * Cmod z <= Rabs (nth n p 0) * Cmod z ^ S n + size_sum p * Cmod z ^ n.
  Proof.
    intros Hz. revert p. induction n as [|n IH]; intros p Hp.
    - destruct p as [|a [|b p]]; [|..]; [| |cbn in Hp; lia]; cbn [ceval nth size_sum fold_right pow].
      + rewrite Cmod_0, Rabs_R0. lra.
      + replace (Cplus (RtoC a) (Cmult z (RtoC 0))) with (RtoC a) by ring. rewrite Cmod_R. pose proof (Rabs_pos a). lra.
    - destruct p as [|a p]; cbn [nth].
      + cbn [ceval size_sum fold_right]. rewrite Cmod_0, Rabs_R0. lra.
      + specialize (IH p ltac:(cbn in Hp; lia)). cbn [ceval size_sum fold_right]. fold (size_sum p).
        pose proof (Cmod_triangle (RtoC a) (Cmult z (ceval p z))) as T. rewrite Cmod_mult, Cmod_R in T.
        assert (P1 : 1 <= Cmod z ^ n) by (apply pow_R1_Rle; exact Hz).
        apply Rle_trans with ((Rabs a + Cmod z * Cmod (ceval p z)) * Cmod z); [apply Rmult_le_compat_r; lra|].
        replace (Rabs (nth n p 0) * Cmod z ^ S (S n) + (Rabs a + size_sum p) * Cmod z ^ S n) with
          (Rabs a * (Cmod z ^ n * Cmod z) + (Rabs (nth n p 0) * Cmod z ^ S n + size_sum p * Cmod z ^ n) * Cmod z) by (cbn; ring).
        replace ((Rabs a + Cmod z * Cmod (ceval p z)) * Cmod z) with (Rabs a * Cmod z + (Cmod (ceval p z) * Cmod z) * Cmod z) by ring.
        apply Rplus_le_compat; [|apply Rmult_le_compat_r; lra]. apply Rmult_le_compat_l; [apply Rabs_pos|].
        rewrite <- (Rmult_1_l (Cmod z)) at 1. apply Rmult_le_compat_r; lra.
  Qed.
  Lemma nth_rel p x j : Forall2 relB p x -> relB (nth j p zeroB) (nth j x 0).
  Proof. intros H. revert j. induction H as [|a b p x Ha H IH]; intros [|j]; cbn [nth]; try exact zero_rel; auto. Qed.
  Lemma l_stable_correct eps z : l_stable eps = true -> (1 <= s)%nat -> 1 <= Cmod z ->
    Cmod (ceval numerR z) * Cmod z <= Q2R eps * Q2R g ^ (s - 1) * Cmod z ^ S (s - 1) + size_sum numerR * Cmod z ^ (s - 1).
  Proof.
    intros H Hs Hz. unfold l_stable in H. apply andb_prop in H as (HL & HB). apply Nat.leb_le in HL. rewrite (same_length _ _ _ numer_rel) in HL.
    eapply Rle_trans; [apply (ceval_lead numerR z (s - 1) Hz); lia|]. apply Rplus_le_compat_r. apply Rmult_le_compat_r; [apply pow_le; lra|].
    assert (RN : relB (nth (s - 1) numerB zeroB) (nth (s - 1) numerR 0)).
    { apply nth_rel, numer_rel. }
    apply Qle_bool_iff, Qle_Rle in HB. rewrite Q2R_plus, Q2R_mult, absQ_correct in HB.
    rewrite qpow_correct in HB.
    unfold relB in RN. set (b := nth (s - 1) numerB zeroB) in *. set (x := nth (s - 1) numerR 0) in *.
    pose proof (Rabs_triang (x - Q2R (mid b)) (Q2R (mid b))) as T. replace (x - Q2R (mid b) + Q2R (mid b)) with x in T by ring. lra.
  Qed.
End Check.
