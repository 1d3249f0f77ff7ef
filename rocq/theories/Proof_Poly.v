(** Polynomials with real coefficients at complex points, and bounds for their coefficients by computation. *)
From Coq Require Import ZArith Reals QArith Qreals List Bool Arith Lia Lra.
From Coquelicot Require Import Complex.
Import ListNotations.
Open Scope R_scope.

(** Operations on coefficient lists.  A polynomial in two variables is the list of the coefficients of the powers
    of the first one. *)
Section Poly.
  Context {A : Type}.
  Variables (zero : A) (opp : A -> A) (add mul : A -> A -> A).
  Fixpoint padd (p q : list A) : list A :=
    match p, q with [], q => q | p, [] => p | a :: p, b :: q => add a b :: padd p q end.
  Fixpoint pmul (p q : list A) : list A :=
    match p with [] => [] | a :: p => match p with [] => map (mul a) q | _ => padd (map (mul a) q) (zero :: pmul p q) end end.
  Fixpoint ppow (p : list A) (one : A) (n : nat) : list A := match n with O => [one] | S n => pmul p (ppow p one n) end.
  Fixpoint badd (p q : list (list A)) : list (list A) :=
    match p, q with [], q => q | p, [] => p | a :: p, b :: q => padd a b :: badd p q end.
  Fixpoint bmul (p q : list (list A)) : list (list A) :=
    match p with [] => [] | a :: p => match p with [] => map (pmul a) q | _ => badd (map (pmul a) q) ([] :: bmul p q) end end.
  Definition bopp (p : list (list A)) : list (list A) := map (map opp) p.
  (** [p(-u + i y) = a(u, y^2) + i y b(u, y^2)] *)
  Fixpoint re_im (p : list A) : list (list A) * list (list A) :=
    match p with
    | [] => ([], [])
    | c :: p => let '(a, b) := re_im p in
                (badd [[c]] (bopp (badd ([] :: a) (map (cons zero) b))), badd a (bopp ([] :: b)))
    end.
  (** [|p(-u + i y)|^2] in terms of [u] and [y^2] *)
  Definition square_modulus (p : list A) : list (list A) :=
    let '(a, b) := re_im p in badd (bmul a a) (map (cons zero) (bmul b b)).
  (** The numerators [N_i] of the stages [N_i / D^i] of a method with lower coefficients [a] *)
  Definition numerator (D : list A) (one : A) (a : nat -> A) (prev : list (list A)) : list A :=
    padd (ppow D one (length prev - 1))
         (zero :: fold_left (fun acc j => padd (pmul D acc) (map (mul (a j)) (nth j prev []))) (seq 0 (length prev)) []).
  Fixpoint numerators (D : list A) (one : A) (a : nat -> nat -> A) (n : nat) : list (list A) :=
    match n with
    | O => [[one]]
    | S n => let prev := numerators D one a n in prev ++ [numerator D one (a (S n)) prev]
    end.
End Poly.

(** Evaluation *)
Fixpoint peval (p : list R) (v : R) : R := match p with [] => 0 | a :: p => a + v * peval p v end.
Fixpoint beval (p : list (list R)) (u v : R) : R := match p with [] => 0 | a :: p => peval a v + u * beval p u v end.
Fixpoint ceval (p : list R) (z : C) : C := match p with [] => RtoC 0 | a :: p => Cplus (RtoC a) (Cmult z (ceval p z)) end.

Notation Rpadd := (padd Rplus).
Notation Rpmul := (pmul 0 Rplus Rmult).
Notation Rppow p := (ppow 0 Rplus Rmult p 1).
Notation Rbadd := (badd Rplus).
Notation Rbmul := (bmul 0 Rplus Rmult).
Notation Rbopp := (bopp Ropp).

Lemma peval_add p : forall q v, peval (Rpadd p q) v = peval p v + peval q v.
Proof. induction p as [|a p IH]; intros [|b q] v; cbn; try rewrite IH; ring. Qed.
Lemma peval_scale c q v : peval (map (Rmult c) q) v = c * peval q v.
Proof. induction q as [|b q IH]; cbn; [|rewrite IH]; ring. Qed.
Lemma peval_mul p : forall q v, peval (Rpmul p q) v = peval p v * peval q v.
Proof.
  induction p as [|a p IH]; intros q v; [cbn; ring|]. destruct p as [|b p]; [cbn; rewrite peval_scale; ring|].
  change (pmul 0 Rplus Rmult (a :: b :: p) q) with (Rpadd (map (Rmult a) q) (0 :: Rpmul (b :: p) q)).
  rewrite peval_add, peval_scale. cbn [peval] in *. rewrite IH. ring.
Qed.
Lemma peval_opp q v : peval (map Ropp q) v = - peval q v.
Proof. induction q as [|b q IH]; cbn; [|rewrite IH]; ring. Qed.
Lemma beval_add p : forall q u v, beval (Rbadd p q) u v = beval p u v + beval q u v.
Proof. induction p as [|a p IH]; intros [|b q] u v; cbn; try rewrite IH, peval_add; ring. Qed.
Lemma beval_scale c q u v : beval (map (Rpmul c) q) u v = peval c v * beval q u v.
Proof. induction q as [|b q IH]; cbn; [|rewrite IH, peval_mul]; ring. Qed.
Lemma beval_mul p : forall q u v, beval (Rbmul p q) u v = beval p u v * beval q u v.
Proof.
  induction p as [|a p IH]; intros q u v; [cbn; ring|]. destruct p as [|b p]; [cbn; rewrite beval_scale; ring|].
  change (bmul 0 Rplus Rmult (a :: b :: p) q) with (Rbadd (map (Rpmul a) q) ([] :: Rbmul (b :: p) q)).
  rewrite beval_add, beval_scale. cbn [beval peval] in *. rewrite IH. ring.
Qed.
Lemma beval_opp q u v : beval (Rbopp q) u v = - beval q u v.
Proof. unfold bopp. induction q as [|b q IH]; cbn; [|rewrite IH, peval_opp]; ring. Qed.
Lemma beval_times_v q u v : beval (map (cons 0) q) u v = v * beval q u v.
Proof. induction q as [|b q IH]; cbn; [|rewrite IH]; ring. Qed.

Lemma ceval_add p : forall q z, ceval (Rpadd p q) z = Cplus (ceval p z) (ceval q z).
Proof. induction p as [|a p IH]; intros [|b q] z; cbn; rewrite ?IH, ?RtoC_plus; ring. Qed.
Lemma ceval_scale c q z : ceval (map (Rmult c) q) z = Cmult (RtoC c) (ceval q z).
Proof. induction q as [|b q IH]; cbn; rewrite ?IH, ?RtoC_mult; ring. Qed.
Lemma ceval_mul p : forall q z, ceval (Rpmul p q) z = Cmult (ceval p z) (ceval q z).
Proof.
  induction p as [|a p IH]; intros q z; [cbn; ring|]. destruct p as [|b p]; [cbn; rewrite ceval_scale; ring|].
  change (pmul 0 Rplus Rmult (a :: b :: p) q) with (Rpadd (map (Rmult a) q) (0 :: Rpmul (b :: p) q)).
  rewrite ceval_add, ceval_scale. cbn [ceval] in *. rewrite IH. ring.
Qed.

Fixpoint Cpow (z : C) (n : nat) : C := match n with O => RtoC 1 | S n => Cmult z (Cpow z n) end.
Lemma ceval_pow p n z : ceval (Rppow p n) z = Cpow (ceval p z) n.
Proof. induction n as [|n IH]; cbn [ppow Cpow]; [cbn; ring|]. rewrite ceval_mul, IH. reflexivity. Qed.
Lemma Cpow_S z n : Cpow z (S n) = Cmult z (Cpow z n).
Proof. reflexivity. Qed.
Lemma Cmod_pow z n : Cmod (Cpow z n) = Cmod z ^ n.
Proof. induction n as [|n IH]; cbn [Cpow pow]; [apply Cmod_1|]. rewrite Cmod_mult, IH. reflexivity. Qed.

(** Real and imaginary part *)
Lemma re_im_correct p u y :
  let '(a, b) := re_im 0 Ropp Rplus p in
  ceval p (- u, y) = (beval a u (y * y), y * beval b u (y * y)).
Proof.
  induction p as [|c p IH]; [cbn; unfold RtoC; f_equal; ring|]. cbn [re_im ceval].
  destruct (re_im 0 Ropp Rplus p) as [a b]. rewrite IH. rewrite !beval_add, !beval_opp, beval_add, beval_times_v. cbn [beval peval].
  unfold Cplus, Cmult, RtoC. cbn [fst snd]. f_equal; ring.
Qed.
Lemma square_modulus_correct p u y : Cmod (ceval p (- u, y)) ^ 2 = beval (square_modulus 0 Ropp Rplus Rmult p) u (y * y).
Proof.
  pose proof (re_im_correct p u y) as H. unfold square_modulus. destruct (re_im 0 Ropp Rplus p) as [a b]. rewrite H.
  rewrite beval_add, beval_times_v, !beval_mul. unfold Cmod. cbn [fst snd]. rewrite pow2_sqrt; [ring|]. apply Rplus_le_le_0_compat; apply pow2_ge_0.
Qed.

Lemma peval_nonneg p v : Forall (Rle 0) p -> 0 <= v -> 0 <= peval p v.
Proof. intros H Hv. induction H as [|a p Ha H IH]; cbn; [lra|]. pose proof (Rmult_le_pos _ _ Hv IH). lra. Qed.
Lemma beval_nonneg p u v : Forall (Forall (Rle 0)) p -> 0 <= u -> 0 <= v -> 0 <= beval p u v.
Proof.
  intros H Hu Hv. induction H as [|a p Ha H IH]; cbn; [lra|]. pose proof (peval_nonneg a v Ha Hv). pose proof (Rmult_le_pos _ _ Hu IH). lra.
Qed.

(** The numerators *)
Section Numerators.
  Variables (g : R) (a : nat -> nat -> R) (z y0 : C) (Y : nat -> C).
  Fixpoint csum (n : nat) (f : nat -> C) : C := match n with O => RtoC 0 | S n => Cplus (csum n f) (f n) end.
  Notation D := [1; - g].
  Notation d := (ceval D z).
  Notation nums := (numerators 0 Rplus Rmult D 1 a).
  Lemma nums_length n : length (nums n) = S n.
  Proof. induction n as [|n IH]; [reflexivity|]. cbn [numerators]. rewrite app_length, IH. cbn. lia. Qed.

  Lemma fold_stages prev n acc0 : (n <= length prev)%nat ->
    (forall j, (j < n)%nat -> Cmult (Cpow d j) (Y j) = Cmult (ceval (nth j prev []) z) y0) ->
    forall i, Cmult d (Cmult (ceval (fold_left (fun acc j => Rpadd (Rpmul D acc) (map (Rmult (a i j)) (nth j prev []))) (seq 0 n) acc0) z) y0)
    = Cmult (Cpow d n) (Cplus (Cmult d (Cmult (ceval acc0 z) y0)) (csum n (fun j => Cmult (RtoC (a i j)) (Y j)))).
  Proof.
    intros Hn HY i. revert Hn HY. induction n as [|n IH]; intros Hn HY; [cbn; ring|].
    rewrite seq_S, fold_left_app. cbn [fold_left Nat.add]. rewrite ceval_add, ceval_mul, ceval_scale. cbn [csum Cpow].
    set (F := ceval (fold_left _ (seq 0 n) acc0) z) in *.
    assert (E : Cmult d (Cmult F y0) = Cmult (Cpow d n) (Cplus (Cmult d (Cmult (ceval acc0 z) y0)) (csum n (fun j => Cmult (RtoC (a i j)) (Y j))))) by (apply IH; [lia|intros j Hj; apply HY; lia]).
    transitivity (Cplus (Cmult d (Cmult d (Cmult F y0))) (Cmult d (Cmult (RtoC (a i n)) (Cmult (ceval (nth n prev []) z) y0)))); [ring|].
    rewrite E, <- (HY n) by lia. ring.
  Qed.

  Variable s : nat.
  Hypothesis HD : d <> RtoC 0.
  Hypothesis H0 : Y 0%nat = y0.
  Hypothesis HS : forall i, (0 < i <= s)%nat -> Cmult d (Y i) = Cplus y0 (Cmult z (csum i (fun j => Cmult (RtoC (a i j)) (Y j)))).
  Lemma numerators_correct n : (n <= s)%nat -> forall i, (i <= n)%nat -> Cmult (Cpow d i) (Y i) = Cmult (ceval (nth i (nums n) []) z) y0.
  Proof.
    induction n as [|n IH]; intros Hn i Hi.
    - assert (i = 0)%nat as -> by lia. rewrite H0. cbn. ring.
    - cbn [numerators]. destruct (Nat.eq_dec i (S n)) as [->|Hne]; [|rewrite app_nth1 by (rewrite nums_length; lia); apply IH; lia].
      rewrite app_nth2 by (rewrite nums_length; lia). rewrite nums_length, Nat.sub_diag. cbn [nth].
      unfold numerator. rewrite nums_length. replace (S n - 1)%nat with n by lia. rewrite ceval_add, ceval_pow. cbn [Cpow].
      pose proof (fold_stages (nums n) (S n) [] ltac:(rewrite nums_length; lia) (fun j Hj => IH ltac:(lia) j ltac:(lia)) (S n)) as F.
      specialize (HS (S n) ltac:(lia)). cbn [ceval] in F |- *. fold (ceval D z) in *.
      set (acc := ceval (fold_left _ _ _) z) in *. set (S' := csum (S n) _) in *. cbn [Cpow] in F. set (e := Cpow d n) in *.
      change (Cplus (RtoC 1) (Cmult z (Cplus (RtoC (- g)) (Cmult z (RtoC 0))))) with d in *.
      assert (F' : Cmult acc y0 = Cmult e S').
      { assert (X : Cmult d (Cminus (Cmult acc y0) (Cmult e S')) = RtoC 0) by (unfold Cminus; transitivity (Cminus (Cmult d (Cmult acc y0)) (Cmult d (Cmult e S'))); [ring|]; rewrite F; ring).
        assert (Z : Cminus (Cmult acc y0) (Cmult e S') = RtoC 0).
        { destruct (Ceq_dec (Cminus (Cmult acc y0) (Cmult e S')) (RtoC 0)) as [?|N]; [assumption|]. exfalso. exact (Cmult_neq_0 _ _ HD N X). }
        transitivity (Cplus (Cminus (Cmult acc y0) (Cmult e S')) (Cmult e S')); [ring|]. rewrite Z. ring. }
      transitivity (Cmult e (Cmult d (Y (S n)))); [ring|]. rewrite HS.
      transitivity (Cplus (Cmult e y0) (Cmult z (Cmult acc y0))); [rewrite F'; ring|]. rewrite RtoC_plus || idtac. ring.
  Qed.
End Numerators.
