(** Polynomials with coefficients known up to a small error. *)
From Coq Require Import ZArith Reals QArith Qreals Qround List Bool Arith Lia Lra.
From Verif Require Import Proof_Poly.
Import ListNotations.
Open Scope R_scope.

(** Operations on approximations carry over to operations on polynomials. *)
Section Related.
  Context {A : Type}.
  Variables (rel : A -> R -> Prop) (zero one : A) (opp : A -> A) (add mul : A -> A -> A).
  Hypothesis R0 : rel zero 0.
  Hypothesis R1 : rel one 1.
  Hypothesis Ropp' : forall a x, rel a x -> rel (opp a) (- x).
  Hypothesis Radd : forall a b x y, rel a x -> rel b y -> rel (add a b) (x + y).
  Hypothesis Rmul : forall a b x y, rel a x -> rel b y -> rel (mul a b) (x * y).
  Notation prel := (Forall2 rel).
  Notation brel := (Forall2 (Forall2 rel)).
  Lemma prel_add p x : prel p x -> forall q y, prel q y -> prel (padd add p q) (Rpadd x y).
  Proof. intros H. induction H as [|a b p x Ha H IH]; intros q y Hq; [exact Hq|]. destruct Hq; cbn; constructor; auto. Qed.
  Lemma prel_map (f : A -> A) (g : R -> R) p x : (forall a b, rel a b -> rel (f a) (g b)) -> prel p x -> prel (map f p) (map g x).
  Proof. intros Hf H. induction H; cbn; constructor; auto. Qed.
  Lemma prel_mul p x : prel p x -> forall q y, prel q y -> prel (pmul zero add mul p q) (Rpmul x y).
  Proof.
    intros H. induction H as [|a b p x Ha H IH]; intros q y Hq; [constructor|]. specialize (IH q y Hq). destruct H as [|a' b' p x Ha' H]; [cbn; apply prel_map; auto|].
    change (prel (padd add (map (mul a) q) (zero :: pmul zero add mul (a' :: p) q)) (Rpadd (map (Rmult b) y) (0 :: Rpmul (b' :: x) y))).
    apply prel_add; [apply prel_map; auto|]. constructor; auto.
  Qed.
  Lemma prel_pow p x n : prel p x -> prel (ppow zero add mul p one n) (Rppow x n).
  Proof. intros H. induction n; cbn; [repeat constructor; exact R1|]. apply prel_mul; assumption. Qed.
  Lemma brel_add p x : brel p x -> forall q y, brel q y -> brel (badd add p q) (Rbadd x y).
  Proof. intros H. induction H as [|a b p x Ha H IH]; intros q y Hq; [exact Hq|]. destruct Hq; cbn; constructor; auto. apply prel_add; assumption. Qed.
  Lemma brel_map (f : list A -> list A) (g : list R -> list R) p x : (forall a b, prel a b -> prel (f a) (g b)) -> brel p x -> brel (map f p) (map g x).
  Proof. intros Hf H. induction H; cbn; constructor; auto. Qed.
  Lemma brel_opp p x : brel p x -> brel (bopp opp p) (Rbopp x).
  Proof. apply brel_map. intros a b. apply prel_map. exact Ropp'. Qed.
  Lemma brel_v p x : brel p x -> brel (map (cons zero) p) (map (cons 0) x).
  Proof. apply brel_map. intros a b H. constructor; assumption. Qed.
  Lemma brel_u p x : brel p x -> brel ([] :: p) ([] :: x).
  Proof. intros H. constructor; [constructor|exact H]. Qed.
  Lemma brel_mul p x : brel p x -> forall q y, brel q y -> brel (bmul zero add mul p q) (Rbmul x y).
  Proof.
    intros H. induction H as [|a b p x Ha H IH]; intros q y Hq; [constructor|]. specialize (IH q y Hq). destruct H as [|a' b' p x Ha' H]; [cbn; apply brel_map; auto using prel_mul|].
    change (brel (badd add (map (pmul zero add mul a) q) ([] :: bmul zero add mul (a' :: p) q)) (Rbadd (map (Rpmul b) y) ([] :: Rbmul (b' :: x) y))).
    apply brel_add; [apply brel_map; auto using prel_mul|]. constructor; auto.
  Qed.
  Lemma brel_re_im p x : prel p x ->
    brel (fst (re_im zero opp add p)) (fst (re_im 0 Ropp Rplus x)) /\ brel (snd (re_im zero opp add p)) (snd (re_im 0 Ropp Rplus x)).
  Proof.
    intros H. induction H as [|a b p x Ha H (I1 & I2)]; [split; constructor|]. cbn [re_im].
    destruct (re_im zero opp add p) as [a1 a2], (re_im 0 Ropp Rplus x) as [b1 b2]. cbn [fst snd] in *. split.
    - apply brel_add; [repeat constructor; exact Ha|]. apply brel_opp, brel_add; [apply brel_u, I1|apply brel_v, I2].
    - apply brel_add; [exact I1|]. apply brel_opp, brel_u, I2.
  Qed.
  Lemma brel_square p x : prel p x -> brel (square_modulus zero opp add mul p) (square_modulus 0 Ropp Rplus Rmult x).
  Proof.
    intros H. destruct (brel_re_im p x H) as (I1 & I2). unfold square_modulus.
    destruct (re_im zero opp add p) as [a1 a2], (re_im 0 Ropp Rplus x) as [b1 b2]. cbn [fst snd] in *.
    apply brel_add; [apply brel_mul; assumption|apply brel_v, brel_mul; assumption].
  Qed.
  Lemma prel_nth p x j : brel p x -> prel (nth j p []) (nth j x []).
  Proof. intros H. revert j. induction H; intros [|j]; cbn; auto. Qed.
  Lemma same_length {X Z : Type} (P : X -> Z -> Prop) l l' : Forall2 P l l' -> length l = length l'.
  Proof. intros H. induction H; cbn; congruence. Qed.
  Lemma prel_numerator D D' a a' prev prev' : prel D D' -> (forall j, rel (a j) (a' j)) -> brel prev prev' ->
    prel (numerator zero add mul D one a prev) (numerator 0 Rplus Rmult D' 1 a' prev').
  Proof.
    intros HD Ha HP. unfold numerator. rewrite <- (same_length _ _ _ HP). apply prel_add; [apply prel_pow, HD|]. constructor; [exact R0|].
    generalize (seq 0 (length prev)). intros l. assert (E : prel [] []) by constructor. revert E. generalize (@nil A) at 1 3, (@nil R) at 1 3.
    induction l as [|j l IH]; intros acc acc' E; [exact E|]. cbn [fold_left]. apply IH. apply prel_add; [apply prel_mul; assumption|].
    apply prel_map; [intros x y Hx; apply Rmul; auto|]. apply prel_nth, HP.
  Qed.
  Lemma brel_numerators D D' a a' n : prel D D' -> (forall i j, rel (a i j) (a' i j)) ->
    brel (numerators zero add mul D one a n) (numerators 0 Rplus Rmult D' 1 a' n).
  Proof.
    intros HD Ha. induction n as [|n IH]; cbn [numerators]; [repeat constructor; exact R1|]. apply Forall2_app; [exact IH|].
    constructor; [|constructor]. apply prel_numerator; auto.
  Qed.
End Related.

(** A number with a bound for its error.  With [prec = None] everything is exact. *)
Section Balls.
  Variable prec : option positive.
  Record ball := Ball { mid : Q; rad : Q }.
  Definition relB (b : ball) (x : R) : Prop := Rabs (x - Q2R (mid b)) <= Q2R (rad b).
  Definition round (q : Q) : Q * Q :=
    match prec with
    | None => (Qred q, 0%Q)
    | Some den => if (Qden q <=? den)%positive then (q, 0%Q) else ((Qnum q * Zpos den / Zpos (Qden q)) # den, 1 # den)%Q
    end.
  Definition round_up (q : Q) : Q :=
    match prec with
    | None => q
    | Some den => if (Qden q <=? den)%positive then q else ((Qnum q * Zpos den / Zpos (Qden q) + 1) # den)%Q
    end.
  Definition plusQ (p q : Q) : Q := if (Qden p =? Qden q)%positive then (Qnum p + Qnum q) # Qden p else (p + q)%Q.
  Definition absQ (q : Q) : Q := (Z.abs (Qnum q) # Qden q)%Q.
  Definition exactB (q : Q) : ball := Ball q 0.
  Definition make (q r : Q) : ball := let '(m, e) := round q in Ball m (round_up (plusQ r e)).
  Definition ofB (q : Q) : ball := make q 0.
  Definition addB (a b : ball) : ball := make (plusQ (mid a) (mid b)) (plusQ (rad a) (rad b)).
  Definition mulB (a b : ball) : ball :=
    make (mid a * mid b)
      (if (Qnum (rad a) =? 0)%Z && (Qnum (rad b) =? 0)%Z then 0%Q
       else plusQ (plusQ (absQ (mid a) * rad b) (absQ (mid b) * rad a)) (rad a * rad b)).
  Definition oppB (a : ball) : ball := Ball (- mid a) (rad a).
  Definition nonnegB (a : ball) : bool := Qle_bool (rad a) (mid a).

  Lemma plusQ_correct p q : Q2R (plusQ p q) = Q2R p + Q2R q.
  Proof.
    unfold plusQ. destruct (Pos.eqb_spec (Qden p) (Qden q)) as [E|E]; [|apply Q2R_plus].
    unfold Q2R. cbn [Qnum Qden]. rewrite plus_IZR, E. ring.
  Qed.
  Lemma absQ_correct q : Q2R (absQ q) = Rabs (Q2R q).
  Proof.
    unfold absQ, Q2R. cbn [Qnum Qden]. rewrite abs_IZR, Rabs_mult. f_equal. symmetry. apply Rabs_pos_eq. left. apply Rinv_0_lt_compat.
    apply (IZR_lt 0). lia.
  Qed.
  Lemma floor_scaled (q : Q) (den : positive) : let z := (Qnum q * Zpos den / Zpos (Qden q))%Z in
    Q2R (z # den) <= Q2R q <= Q2R ((z + 1) # den) /\ Q2R ((z + 1) # den) = Q2R (z # den) + Q2R (1 # den).
  Proof.
    intros z. unfold Q2R. cbn [Qnum Qden]. assert (HS : 0 < IZR (Zpos den)) by (apply (IZR_lt 0); lia). assert (HQ : 0 < IZR (Zpos (Qden q))) by (apply (IZR_lt 0); lia).
    assert (L : (Zpos (Qden q) * z <= Qnum q * Zpos den)%Z) by (apply Z.mul_div_le; lia).
    assert (U : (Qnum q * Zpos den < Zpos (Qden q) * (z + 1))%Z) by (rewrite Z.mul_comm, (Z.mul_comm (Zpos (Qden q))); pose proof (Z.mul_succ_div_gt (Qnum q * Zpos den) (Zpos (Qden q)) ltac:(lia)); unfold z in *; lia).
    apply IZR_le in L. apply IZR_lt in U. rewrite !mult_IZR, plus_IZR in *.
    split; [split|].
    - apply Rmult_le_reg_r with (IZR (Zpos den) * IZR (Zpos (Qden q))); [apply Rmult_lt_0_compat; lra|]. field_simplify; lra.
    - apply Rmult_le_reg_r with (IZR (Zpos den) * IZR (Zpos (Qden q))); [apply Rmult_lt_0_compat; lra|]. field_simplify; lra.
    - ring.
  Qed.
  Lemma round_correct q : let '(m, e) := round q in Rabs (Q2R q - Q2R m) <= Q2R e.
  Proof.
    unfold round. destruct prec as [den|].
    - destruct (Pos.leb_spec (Qden q) den); [rewrite Rminus_eq_0, Rabs_R0, RMicromega.Q2R_0; lra|].
      pose proof (floor_scaled q den) as F. cbv zeta in F. apply Rabs_le. pose proof F. lra.
    - rewrite (Qeq_eqR _ _ (Qred_correct q)), Rminus_eq_0, Rabs_R0, RMicromega.Q2R_0. lra.
  Qed.
  Lemma round_up_correct q : Q2R q <= Q2R (round_up q).
  Proof.
    unfold round_up. destruct prec as [den|]; [|lra]. destruct (Pos.leb_spec (Qden q) den); [lra|]. pose proof (floor_scaled q den) as F. cbv zeta in F. lra.
  Qed.
  Lemma make_correct q r x : Rabs (x - Q2R q) <= Q2R r -> relB (make q r) x.
  Proof.
    intros H. unfold make, relB. pose proof (round_correct q) as RC. destruct (round q) as [m e]. cbn [mid rad].
    eapply Rle_trans; [|apply round_up_correct]. rewrite plusQ_correct.
    replace (x - Q2R m) with ((x - Q2R q) + (Q2R q - Q2R m)) by ring. eapply Rle_trans; [apply Rabs_triang|]. lra.
  Qed.
  Lemma ofB_correct q : relB (ofB q) (Q2R q).
  Proof. apply make_correct. rewrite Rminus_eq_0, Rabs_R0, RMicromega.Q2R_0. lra. Qed.
  Lemma exactB_correct q : relB (exactB q) (Q2R q).
  Proof. unfold relB. cbn. rewrite Rminus_eq_0, Rabs_R0, RMicromega.Q2R_0. lra. Qed.
  Lemma addB_correct a b x y : relB a x -> relB b y -> relB (addB a b) (x + y).
  Proof.
    intros Ha Hb. apply make_correct. rewrite !plusQ_correct. unfold relB in *.
    replace (x + y - (Q2R (mid a) + Q2R (mid b))) with ((x - Q2R (mid a)) + (y - Q2R (mid b))) by ring. eapply Rle_trans; [apply Rabs_triang|]. lra.
  Qed.
  Lemma oppB_correct a x : relB a x -> relB (oppB a) (- x).
  Proof. unfold relB. cbn. intros H. rewrite Q2R_opp. rewrite <- Rabs_Ropp. replace (- (- x - - Q2R (mid a))) with (x - Q2R (mid a)) by ring. exact H. Qed.
  Lemma num_0 q : (Qnum q =? 0)%Z = true -> Q2R q = 0.
  Proof. intros E. apply Z.eqb_eq in E. unfold Q2R. rewrite E. ring. Qed.
  Lemma mulB_correct a b x y : relB a x -> relB b y -> relB (mulB a b) (x * y).
  Proof.
    unfold relB. intros Ha Hb. apply make_correct. rewrite Q2R_mult.
    replace (x * y - Q2R (mid a) * Q2R (mid b)) with (Q2R (mid a) * (y - Q2R (mid b)) + Q2R (mid b) * (x - Q2R (mid a)) + (x - Q2R (mid a)) * (y - Q2R (mid b))) by ring.
    set (dx := x - Q2R (mid a)) in *. set (dy := y - Q2R (mid b)) in *.
    pose proof (Rabs_pos dx). pose proof (Rabs_pos dy). pose proof (Rabs_pos (Q2R (mid a))). pose proof (Rabs_pos (Q2R (mid b))).
    assert (X : Rabs (Q2R (mid a) * dy + Q2R (mid b) * dx + dx * dy) <= Rabs (Q2R (mid a)) * Q2R (rad b) + Rabs (Q2R (mid b)) * Q2R (rad a) + Q2R (rad a) * Q2R (rad b)).
    { eapply Rle_trans; [apply Rabs_triang|]. apply Rplus_le_compat.
      - eapply Rle_trans; [apply Rabs_triang|]. rewrite !Rabs_mult. apply Rplus_le_compat; apply Rmult_le_compat; lra.
      - rewrite Rabs_mult. apply Rmult_le_compat; lra. }
    destruct ((Qnum (rad a) =? 0)%Z && (Qnum (rad b) =? 0)%Z) eqn:Z.
    - apply andb_prop in Z as (Z1 & Z2). apply num_0 in Z1, Z2. rewrite Z1, Z2 in X. rewrite RMicromega.Q2R_0. lra.
    - rewrite !plusQ_correct, !Q2R_mult, !absQ_correct. exact X.
  Qed.
  Lemma nonnegB_correct a x : relB a x -> nonnegB a = true -> 0 <= x.
  Proof.
    unfold relB, nonnegB. intros H N. apply Qle_bool_iff, Qle_Rle in N. unfold Rabs in H. destruct (Rcase_abs _) in H; lra.
  Qed.
End Balls.
