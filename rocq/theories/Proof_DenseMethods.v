(** The interpolations of the shipped solvers as combinations of the stages. *)
From Coq Require Import ZArith Reals QArith Qreals List Bool Arith Lia Lra.
From Verif Require Import Model_Result Model_RK Model_Tableaus Model_Orders Model_Interp Model_DenseOutput.
From Verif Require Import Spec_RK Spec_Order Spec_DenseOrder Proof_Terms Proof_BSeries Proof_Interp Proof_OrderCheck Proof_DenseOrder Proof_DenseCheck.
Import ListNotations.
Open Scope R_scope.

Lemma rescale_fraction t0 h th : 0 < h -> linear_rescale t0 (t0 + th * h) (t0 + h) = th.
Proof. intros H. rewrite rescale_ne by lra. field. lra. Qed.

(** ** Hermite *)
Definition unit_at (i j : nat) : Q := if (j =? i)%nat then 1%Q else 0%Q.
Lemma sum_unit s i (g : nat -> R) : (i < s)%nat -> sum_n s (fun j => Q2R (unit_at i j) * g j) = g i.
Proof.
  intros H. unfold unit_at. induction s as [|s IH]; [lia|]. cbn [sum_n].
  destruct (Nat.eq_dec i s) as [->|Hn].
  - rewrite Nat.eqb_refl, RMicromega.Q2R_1. rewrite (sum_n_ext s _ (fun _ => 0)).
    + replace (sum_n s (fun _ => 0)) with 0 by (clear; induction s; cbn; lra). ring.
    + intros j Hj. destruct (Nat.eqb_spec j s); [lia|]. rewrite RMicromega.Q2R_0. ring.
  - rewrite IH by lia. destruct (Nat.eqb_spec s i); [lia|]. rewrite RMicromega.Q2R_0. ring.
Qed.
Lemma hd_map_seq s (g : nat -> R) : (0 < s)%nat -> hd 0 (map g (seq 0 s)) = g 0%nat.
Proof. destruct s; [lia|]. reflexivity. Qed.
Lemma last_map_seq s (g : nat -> R) : (0 < s)%nat -> last (map g (seq 0 s)) 0 = g (s - 1)%nat.
Proof.
  destruct s; [lia|]. intros _. rewrite seq_S, map_app. cbn [map]. rewrite last_last. f_equal. lia.
Qed.
Lemma Q2R_Z z : Q2R (inject_Z z) = IZR z.
Proof. unfold Q2R. cbn. field. Qed.

Definition hermite_W (b : list Q) (s : nat) (j i : nat) : Q :=
  match j with
  | 1%nat => unit_at 0 i
  | 2%nat => (inject_Z (-2) * unit_at 0 i + inject_Z (-1) * unit_at (s - 1) i + inject_Z 3 * nth i b 0)%Q
  | 3%nat => (unit_at 0 i + unit_at (s - 1) i + inject_Z (-2) * nth i b 0)%Q
  | _ => 0%Q
  end.
Notation real W := (fun j i => Q2R (W j i)).
Ltac linear s := repeat first [rewrite Q2R_plus | rewrite Q2R_mult | rewrite Q2R_Z]; rewrite ?RMicromega.Q2R_0.

Lemma hermite_sum b s th (g : nat -> R) : (0 < s)%nat ->
  sum_n s (fun i => poly_weight (real (hermite_W b s)) 4 th i * g i)
  = th * g 0%nat + th ^ 2 * (- 2 * g 0%nat - g (s - 1)%nat + 3 * sum_n s (fun i => Q2R (nth i b 0%Q) * g i))
    + th ^ 3 * (g 0%nat + g (s - 1)%nat - 2 * sum_n s (fun i => Q2R (nth i b 0%Q) * g i)).
Proof.
  intros Hs. rewrite <- (sum_unit s 0 g) by lia. rewrite <- (sum_unit s (s - 1) g) by lia.
  rewrite (sum_n_ext s (fun i => poly_weight _ 4 th i * g i) (fun i =>
    (th - 2 * th ^ 2 + th ^ 3) * (Q2R (unit_at 0 i) * g i) + ((th ^ 3 - th ^ 2) * (Q2R (unit_at (s - 1) i) * g i)
    + (3 * th ^ 2 - 2 * th ^ 3) * (Q2R (nth i b 0%Q) * g i)))).
  - rewrite !sum_n_plus, !sum_n_mult. ring.
  - intros i _. unfold poly_weight, hermite_W. cbn [sum_n]. linear s. ring.
Qed.

Lemma hermite_value t0 h th y0 dy k0 k1 : 0 < h ->
  third_order t0 (t0 + h) y0 (y0 + dy) k0 k1 (t0 + th * h)
  = y0 + (th * k0 + th ^ 2 * (- 2 * k0 - k1 + 3 * dy) + th ^ 3 * (k0 + k1 - 2 * dy)).
Proof. intros H. unfold third_order, poly_interp. rewrite rescale_fraction by exact H. cbn. ring. Qed.

Lemma hermite_interpolates tab s : (0 < s)%nat ->
  interpolates hermite_from_k [tab] s (fun tab => poly_weight (real (hermite_W (tab_b_sol tab) s)) 4).
Proof.
  intros Hs t0 h th y0 k Hh. cbn [length sum_n seq map]. rewrite !Rplus_0_l. unfold hermite_from_k, only_k. cbn [hd].
  rewrite hd_map_seq, last_map_seq by exact Hs. rewrite hermite_value by exact Hh.
  rewrite hermite_sum by exact Hs. reflexivity.
Qed.
Lemma sil3_interpolates tab tab' s : (0 < s)%nat ->
  interpolates sil3_interpolation [tab; tab'] s (fun tab => poly_weight (real (hermite_W (tab_b_sol tab) s)) 4).
Proof.
  intros Hs t0 h th y0 k Hh. cbn [length sum_n seq map]. rewrite !Rplus_0_l. unfold sil3_interpolation, explicit_k, implicit_k. cbn [nth].
  rewrite !hd_map_seq, !last_map_seq by exact Hs. rewrite hermite_value by exact Hh.
  rewrite !hermite_sum by exact Hs. unfold coef_b, part_tableau. cbn [nth]. ring.
Qed.

(** ** Quartic *)
Definition fourth_W (b cm : list Q) (s : nat) (j i : nat) : Q :=
  match j with
  | 1%nat => unit_at 0 i
  | 2%nat => (unit_at (s - 1) i + inject_Z (-4) * unit_at 0 i + inject_Z (-5) * nth i b 0 + inject_Z 16 * nth i cm 0)%Q
  | 3%nat => (inject_Z 5 * unit_at 0 i + inject_Z (-3) * unit_at (s - 1) i + inject_Z 14 * nth i b 0 + inject_Z (-32) * nth i cm 0)%Q
  | 4%nat => (inject_Z 2 * unit_at (s - 1) i + inject_Z (-2) * unit_at 0 i + inject_Z (-8) * nth i b 0 + inject_Z 16 * nth i cm 0)%Q
  | _ => 0%Q
  end.
Lemma tensordot_seq (g : nat -> R) (l : list R) : forall a, tensordot l (map g (seq a (length l)))
  = sum_n (length l) (fun i => nth i l 0 * g (a + i)%nat).
Proof.
  induction l as [|x l IH]; intros a; [reflexivity|]. cbn [length seq map tensordot]. rewrite IH, sum_n_head. cbn [nth].
  rewrite Nat.add_0_r. f_equal. apply sum_n_ext. intros i _. do 2 f_equal. lia.
Qed.
Lemma fourth_interpolates tab s : (0 < s)%nat -> length dopri5_c_mid = s ->
  interpolates dopri5_interpolation [tab] s (fun tab => poly_weight (real (fourth_W (tab_b_sol tab) dopri5_c_mid s)) 5).
Proof.
  intros Hs Hl t0 h th y0 k Hh. cbn [length sum_n seq map]. rewrite !Rplus_0_l. unfold dopri5_interpolation, only_k. cbn [hd].
  unfold fourth_order, fourth_order_coeffs, poly_interp. rewrite rescale_fraction by exact Hh.
  rewrite hd_map_seq, last_map_seq by exact Hs.
  assert (E : tensordot (map Q2R dopri5_c_mid) (map (k 0%nat) (seq 0 s)) = sum_n s (fun i => Q2R (nth i dopri5_c_mid 0%Q) * k 0%nat i)).
  { rewrite <- Hl at 1. rewrite <- (map_length Q2R dopri5_c_mid) at 1. rewrite tensordot_seq, map_length, Hl. apply sum_n_ext. intros i _.
    f_equal. rewrite <- RMicromega.Q2R_0 at 1. apply map_nth. }
  rewrite E. clear E. set (g := k 0%nat). unfold coef_b, part_tableau. cbn [nth].
  rewrite (sum_n_ext s (fun i => poly_weight _ 5 th i * g i) (fun i =>
    (th - 4 * th ^ 2 + 5 * th ^ 3 - 2 * th ^ 4) * (Q2R (unit_at 0 i) * g i) + ((th ^ 2 - 3 * th ^ 3 + 2 * th ^ 4) * (Q2R (unit_at (s - 1) i) * g i)
    + ((- 5 * th ^ 2 + 14 * th ^ 3 - 8 * th ^ 4) * (Q2R (nth i (tab_b_sol tab) 0%Q) * g i)
    + (16 * th ^ 2 - 32 * th ^ 3 + 16 * th ^ 4) * (Q2R (nth i dopri5_c_mid 0%Q) * g i))))).
  - rewrite !sum_n_plus, !sum_n_mult, !sum_unit by lia. unfold polyval. cbn [fold_left]. ring.
  - intros i _. unfold poly_weight, fourth_W. cbn [sum_n]. linear s. ring.
Qed.

(** ** Rows of coefficients *)
Definition rows_W (coeffs : list (list Q)) (m : nat) (j i : nat) : Q :=
  match j with O => 0%Q | S j => nth (m - S j) (nth i coeffs []) 0%Q end.
Lemma polyval_sum row th : polyval (map Q2R row) th = sum_n (length row) (fun l => th ^ l * Q2R (nth (length row - S l) row 0%Q)).
Proof.
  induction row as [|c row IH] using rev_ind; [reflexivity|].
  unfold polyval in *. rewrite map_app, fold_left_app. cbn [map fold_left]. rewrite IH, app_length. cbn [length].
  rewrite Nat.add_1_r, sum_n_head. rewrite app_nth2 by lia. replace (S (length row) - 1 - length row)%nat with 0%nat by lia. cbn [nth].
  rewrite (sum_n_ext (length row) (fun i => th ^ S i * _) (fun i => th * (th ^ i * Q2R (nth (length row - S i) row 0%Q)))).
  - rewrite sum_n_mult. cbn [pow]. ring.
  - intros i Hi. rewrite app_nth1 by lia. replace (S (length row) - S (S i))%nat with (length row - S i)%nat by lia. cbn [pow]. ring.
Qed.
Lemma row_weights_nth coeffs m th i : (forall row, In row coeffs -> length row = m) -> (i < length coeffs)%nat ->
  nth i (row_weights coeffs th) 0 = poly_weight (real (rows_W coeffs m)) (S m) th i.
Proof.
  intros HL Hi. unfold row_weights. rewrite (nth_indep _ _ ((fun row => polyval (map Q2R row) th * th) [])) by (rewrite map_length; exact Hi).
  rewrite (map_nth (fun row => polyval (map Q2R row) th * th)).
  rewrite polyval_sum, (HL (nth i coeffs [])) by (apply nth_In; exact Hi).
  unfold poly_weight. rewrite sum_n_head. cbn [rows_W]. rewrite RMicromega.Q2R_0, sum_n_scale_r.
  rewrite Rmult_0_r, Rplus_0_l. apply sum_n_ext. intros l _. cbn [pow]. ring.
Qed.
Lemma rows_sum coeffs m th (g : nat -> R) : (forall row, In row coeffs -> length row = m) ->
  tensordot (row_weights coeffs th) (map g (seq 0 (length coeffs)))
  = sum_n (length coeffs) (fun i => poly_weight (real (rows_W coeffs m)) (S m) th i * g i).
Proof.
  intros HL. assert (LE : length (row_weights coeffs th) = length coeffs) by (unfold row_weights; apply map_length).
  rewrite <- LE at 1. rewrite tensordot_seq, LE. apply sum_n_ext. intros i Hi. rewrite (row_weights_nth coeffs m) by assumption. reflexivity.
Qed.
Lemma rows_interpolates coeffs m s tab : length coeffs = s -> (forall row, In row coeffs -> length row = m) ->
  interpolates (fun t0 t1 y0 y1 ks t => y0 + tensordot (row_weights coeffs (linear_rescale t0 t t1)) (only_k ks)) [tab] s
    (fun _ => poly_weight (real (rows_W coeffs m)) (S m)).
Proof.
  intros <- HL t0 h th y0 k Hh. cbn [length]. change (seq 0 1) with [0%nat]. cbn [map only_k hd].
  change (sum_n 1) with (fun f => 0 + f 0%nat). cbn beta. rewrite !Rplus_0_l.
  rewrite rescale_fraction by exact Hh. f_equal. apply (rows_sum coeffs m). exact HL.
Qed.
Lemma dopri8_interpolates tab : interpolates dopri8_interpolation [tab] 14 (fun _ => poly_weight (real (rows_W dopri8_coeffs 6)) 7).
Proof.
  apply (rows_interpolates dopri8_coeffs 6 14); [reflexivity|].
  intros row H. repeat (destruct H as [<-|H]; [reflexivity|]). destruct H.
Qed.
Lemma map2_seq (f g : nat -> R) l : map2 Rplus (map f l) (map g l) = map (fun i => f i + g i) l.
Proof. induction l; cbn; [reflexivity|]. rewrite IHl. reflexivity. Qed.
Lemma kencarp_interpolates coeffs m s tab tab' : length coeffs = s -> (forall row, In row coeffs -> length row = m) ->
  interpolates (kencarp_interpolation coeffs) [tab; tab'] s (fun _ => poly_weight (real (rows_W coeffs m)) (S m)).
Proof.
  intros <- HL t0 h th y0 k Hh. cbn [length seq map]. unfold kencarp_interpolation, explicit_k, implicit_k. cbn [nth].
  rewrite rescale_fraction by exact Hh. f_equal. rewrite map2_seq.
  rewrite (rows_sum coeffs m) by exact HL. change (sum_n 2) with (fun f => 0 + f 0%nat + f 1%nat). cbn beta. rewrite Rplus_0_l.
  rewrite <- sum_n_plus. apply sum_n_ext. intros i _. ring.
Qed.

(** ** Tsit5 *)
Fixpoint hornerR (p : list R) (t : R) : R := match p with [] => 0 | c :: p => c + t * hornerR p t end.
Fixpoint padd (p q : list Q) : list Q :=
  match p, q with [], q => q | p, [] => p | a :: p, b :: q => (a + b)%Q :: padd p q end.
Fixpoint pmul (p q : list Q) : list Q :=
  match p with [] => [] | a :: p => padd (map (Qmult a) q) (0%Q :: pmul p q) end.
Definition peval (p : list Q) (t : R) : R := hornerR (map Q2R p) t.
Lemma peval_add p q t : peval (padd p q) t = peval p t + peval q t.
Proof.
  revert q. induction p as [|a p IH]; intros [|b q]; unfold peval in *; cbn; try ring.
  rewrite IH, Q2R_plus. ring.
Qed.
Lemma peval_scale a q t : peval (map (Qmult a) q) t = Q2R a * peval q t.
Proof. unfold peval. induction q as [|b q IH]; cbn; [ring|]. rewrite IH, Q2R_mult. ring. Qed.
Lemma peval_mul p q t : peval (pmul p q) t = peval p t * peval q t.
Proof.
  induction p as [|a p IH]; [unfold peval; cbn; ring|]. cbn [pmul]. rewrite peval_add, peval_scale.
  unfold peval in *. cbn [map hornerR]. rewrite IH, RMicromega.Q2R_0. ring.
Qed.
Lemma peval_sum p t : forall d, (length p <= d)%nat -> peval p t = sum_n d (fun j => t ^ j * Q2R (nth j p 0%Q)).
Proof.
  induction p as [|a p IH]; intros d Hd.
  - rewrite (sum_n_ext d _ (fun _ => 0)); [clear; induction d; cbn; [reflexivity|]; unfold peval in *; cbn in *; lra|].
    intros j _. replace (nth j [] 0%Q) with 0%Q by (destruct j; reflexivity). rewrite RMicromega.Q2R_0. ring.
  - destruct d; [cbn in Hd; lia|]. rewrite sum_n_head. cbn [nth pow]. unfold peval. cbn [map hornerR]. fold (peval p t).
    rewrite (IH d) by (cbn in Hd; lia). rewrite <- sum_n_mult. f_equal; [ring|]. apply sum_n_ext. intros j _. ring.
Qed.
Definition lin (a : Q) : list Q := [(- a)%Q; 1%Q].
Definition quad (b e : Q) : list Q := [e; (- b)%Q; 1%Q].
Definition sq : list Q := [0; 0; 1]%Q.
Definition tsit5_polys : list (list Q) :=
  [pmul [0%Q; (-10530884977290216 # 10000000000000000)%Q] (pmul (lin (13299890189751412 # 10000000000000000))
     (quad (14364028541716351 # 10000000000000000) (7139816917074209 # 10000000000000000)));
   pmul [(1017 # 10000)%Q] (pmul sq (quad (21966568338249754 # 10000000000000000) (12949852507374631 # 10000000000000000)));
   pmul [(2490627285651252793 # 1000000000000000000)%Q] (pmul sq (quad (238535645472061657 # 100000000000000000) (157803468208092486 # 100000000000000000)));
   pmul [(-1654810288924490272 # 100000000000000000)%Q] (pmul (lin (121712927295533244 # 100000000000000000)) (pmul (lin (61620406037800089 # 100000000000000000)) sq));
   pmul [(4737952196281928122 # 100000000000000000)%Q] (pmul (lin (1203071208372362603 # 1000000000000000000)) (pmul (lin (658047292653547382 # 1000000000000000000)) sq));
   pmul [(-3487065786149660974 # 100000000000000000)%Q] (pmul (lin (12 # 10)) (pmul (lin (666666666666666667 # 1000000000000000000)) sq));
   pmul [(25 # 10)%Q] (pmul (lin 1) (pmul (lin (6 # 10)) sq))].
Definition tsit5_W (j i : nat) : Q := Qred (nth j (nth i tsit5_polys []) 0%Q).
Lemma peval_lin a t : peval (lin a) t = t - Q2R a.
Proof. unfold peval, lin. cbn [map hornerR]. rewrite Q2R_opp, RMicromega.Q2R_1. ring. Qed.
Lemma peval_quad b e t : peval (quad b e) t = t * t - Q2R b * t + Q2R e.
Proof. unfold peval, quad. cbn [map hornerR]. rewrite Q2R_opp, RMicromega.Q2R_1. ring. Qed.
Lemma peval_sq t : peval sq t = t * t.
Proof. unfold peval, sq. cbn [map hornerR]. rewrite RMicromega.Q2R_0, RMicromega.Q2R_1. ring. Qed.
Lemma peval_const a t : peval [a] t = Q2R a.
Proof. unfold peval. cbn [map hornerR]. ring. Qed.
Lemma peval_var a t : peval [0%Q; a] t = Q2R a * t.
Proof. unfold peval. cbn [map hornerR]. rewrite RMicromega.Q2R_0. ring. Qed.
Lemma tsit5_b_polys t : tsit5_b t = map (fun p => peval p t) tsit5_polys.
Proof.
  unfold tsit5_b, tsit5_polys. cbn [map].
  rewrite !peval_mul, !peval_lin, !peval_quad, !peval_sq, !peval_const, !peval_var, !RMicromega.Q2R_1.
  repeat match goal with |- context [Q2R ?q] => let x := fresh "x" in set (x := Q2R q); clearbody x end.
  repeat (f_equal; try ring).
Qed.
Lemma Q2R_red q : Q2R (Qred q) = Q2R q.
Proof. apply Qeq_eqR, Qred_correct. Qed.
Lemma tsit5_interpolates tab : interpolates tsit5_interpolation [tab] 7 (fun _ => poly_weight (real tsit5_W) 5).
Proof.
  assert (LP : length tsit5_polys = 7%nat) by reflexivity.
  assert (DP : forall i, (i < 7)%nat -> (length (nth i tsit5_polys []) <= 5)%nat).
  { intros i Hi. do 7 (destruct i as [|i]; [vm_compute; lia|]). lia. }
  intros t0 h th y0 k Hh. unfold tsit5_interpolation. rewrite tsit5_b_polys. unfold tsit5_W. revert LP DP. generalize tsit5_polys. intros P LP DP.
  cbn [length]. change (seq 0 1) with [0%nat]. cbn [map only_k hd].
  change (sum_n 1) with (fun f => 0 + f 0%nat). cbn beta. rewrite !Rplus_0_l.
  rewrite rescale_fraction by exact Hh. f_equal.
  rewrite <- LP at 1. rewrite <- (map_length (fun p => peval p th) P). rewrite tensordot_seq, map_length, LP. apply sum_n_ext. intros i Hi. f_equal.
  rewrite (nth_indep _ 0 (peval [] th)) by (rewrite map_length, LP; exact Hi). rewrite (map_nth (fun p => peval p th)).
  unfold poly_weight. rewrite (peval_sum _ _ 5) by (apply DP, Hi).
  apply sum_n_ext. intros j _. rewrite Q2R_red. reflexivity.
Qed.
