(** Proofs about interpolation: local interpolants and [LinearInterpolation]. *)
From Coq Require Import Reals List Bool Arith ZArith Lia Lra Sorting.Sorted.
From Verif Require Import Model_Loop Proof_LoopBasic Model_Dense Proof_Dense Model_Interp Spec_Interp.
Import ListNotations.
Open Scope R_scope.

(** ** Derivatives of polynomials *)
Fixpoint dpolyval (coeffs : list R) (acc dacc t : R) : R :=
  match coeffs with
  | [] => dacc
  | c :: l => dpolyval l (acc * t + c) (dacc * t + acc) t
  end.
Lemma fold_poly_deriv l : forall (f : R -> R) (f' x : R),
  derivable_pt_lim f x f' ->
  derivable_pt_lim (fun t => fold_left (fun acc c => acc * t + c) l (f t)) x (dpolyval l (f x) f' x).
Proof.
  induction l as [|c l IH]; intros f f' x Hf; cbn [fold_left dpolyval]; [exact Hf|].
  apply (IH (fun t => f t * t + c)).
  replace (f' * x + f x) with (f' * x + f x * 1 + 0) by ring.
  apply (derivable_pt_lim_plus (fun t => f t * t) (fun _ => c)).
  - apply (derivable_pt_lim_mult f id); [exact Hf|apply derivable_pt_lim_id].
  - apply derivable_pt_lim_const.
Qed.
Lemma deriv_ext (f g : R -> R) x l : (forall t, f t = g t) -> derivable_pt_lim f x l -> derivable_pt_lim g x l.
Proof. intros H Hf e He. destruct (Hf e He) as [d Hd]. exists d. intros h. rewrite <- !H. apply Hd. Qed.
Lemma polyval_deriv l x : derivable_pt_lim (polyval l) x (dpolyval l 0 0 x).
Proof.
  pose proof (fold_poly_deriv l (fun _ => 0) 0 x (derivable_pt_lim_const 0 x)) as H. exact H.
Qed.

Lemma rescale_ne t0 t t1 : t0 <> t1 -> linear_rescale t0 t t1 = (t - t0) / (t1 - t0).
Proof. intros H. unfold linear_rescale. destruct (Req_EM_T t0 t1); [contradiction|reflexivity]. Qed.
Lemma rescale_start t0 t1 : linear_rescale t0 t0 t1 = 0.
Proof.
  unfold linear_rescale. destruct (Req_EM_T t0 t1); unfold Rdiv; [ring|].
  replace (t0 - t0) with 0 by ring. ring.
Qed.
Lemma rescale_end t0 t1 : t0 <> t1 -> linear_rescale t0 t1 t1 = 1.
Proof. intros H. rewrite rescale_ne by exact H. field. lra. Qed.
Lemma rescale_deriv t0 t1 x : t0 <> t1 -> derivable_pt_lim (fun t => linear_rescale t0 t t1) x (1 / (t1 - t0)).
Proof.
  intros H. apply (deriv_ext (fun t => (t - t0) * (/ (t1 - t0)))).
  { intros t. rewrite rescale_ne by exact H. reflexivity. }
  replace (1 / (t1 - t0)) with ((1 - 0) * / (t1 - t0) + (x - t0) * 0) by (unfold Rdiv; ring).
  apply (derivable_pt_lim_mult (fun t => t - t0) (fun _ => / (t1 - t0))).
  - apply (derivable_pt_lim_minus id (fun _ => t0)); [apply derivable_pt_lim_id|apply derivable_pt_lim_const].
  - apply derivable_pt_lim_const.
Qed.
Lemma poly_interp_deriv l t0 t1 x : t0 <> t1 ->
  derivable_pt_lim (poly_interp l t0 t1) x (dpolyval l 0 0 (linear_rescale t0 x t1) / (t1 - t0)).
Proof.
  intros H. replace (dpolyval l 0 0 (linear_rescale t0 x t1) / (t1 - t0))
    with (dpolyval l 0 0 (linear_rescale t0 x t1) * (1 / (t1 - t0))) by (unfold Rdiv; ring).
  apply (derivable_pt_lim_comp (fun t => linear_rescale t0 t t1) (polyval l)).
  - apply rescale_deriv. exact H.
  - apply polyval_deriv.
Qed.

(** ** C38 *)
Lemma pf_C38_linear_ends (t0 t1 y0 y1 : R) :
  local_linear t0 t1 y0 y1 t0 = y0 /\ (t0 <> t1 -> local_linear t0 t1 y0 y1 t1 = y1).
Proof.
  unfold local_linear. split; [rewrite rescale_start; ring|].
  intros H. rewrite rescale_end by exact H. ring.
Qed.
Lemma pf_C38_linear_increment (t0 t1 y0 y1 a b : R) :
  t0 <> t1 ->
  local_linear_incr t0 t1 y0 y1 a b = local_linear t0 t1 y0 y1 b - local_linear t0 t1 y0 y1 a.
Proof.
  intros H. unfold local_linear_incr, local_linear. rewrite !rescale_ne by exact H. field. lra.
Qed.
Lemma pf_C38_third_order_ends (t0 t1 y0 y1 k0 k1 : R) :
  third_order t0 t1 y0 y1 k0 k1 t0 = y0 /\
  (t0 <> t1 -> third_order t0 t1 y0 y1 k0 k1 t1 = y1).
Proof.
  unfold third_order, poly_interp. split; [rewrite rescale_start; cbn; ring|].
  intros H. rewrite rescale_end by exact H. cbn. ring.
Qed.
Lemma pf_C38_third_order_slopes (t0 t1 y0 y1 k0 k1 : R) :
  t0 <> t1 ->
  derivable_pt_lim (third_order t0 t1 y0 y1 k0 k1) t0 (k0 / (t1 - t0)) /\
  derivable_pt_lim (third_order t0 t1 y0 y1 k0 k1) t1 (k1 / (t1 - t0)).
Proof.
  intros H. unfold third_order. split.
  - replace (k0 / (t1 - t0)) with (dpolyval (third_order_coeffs y0 y1 k0 k1) 0 0 (linear_rescale t0 t0 t1) / (t1 - t0)).
    + apply (poly_interp_deriv _ _ _ _ H).
    + f_equal. rewrite rescale_start. cbn. ring.
  - replace (k1 / (t1 - t0)) with (dpolyval (third_order_coeffs y0 y1 k0 k1) 0 0 (linear_rescale t0 t1 t1) / (t1 - t0)).
    + apply (poly_interp_deriv _ _ _ _ H).
    + f_equal. rewrite rescale_end by exact H. cbn. ring.
Qed.

(** Polynomials as functions. *)
Fixpoint dpoly (l : list R) (x : R) : R :=
  match l with [] => 0 | c :: l' => poly l' x + x * dpoly l' x end.
Lemma poly_deriv l : forall x, derivable_pt_lim (poly l) x (dpoly l x).
Proof.
  induction l as [|c l IH]; intros x; cbn [poly dpoly]; [apply (derivable_pt_lim_const 0)|].
  replace (poly l x + x * dpoly l x) with (0 + (1 * poly l x + x * dpoly l x)) by ring.
  apply (derivable_pt_lim_plus (fun _ => c) (fun x => x * poly l x)); [apply derivable_pt_lim_const|].
  apply (derivable_pt_lim_mult id (poly l)); [apply derivable_pt_lim_id|apply IH].
Qed.
Lemma deriv_unique f x a b : derivable_pt_lim f x a -> derivable_pt_lim f x b -> a = b.
Proof. apply uniqueness_limite. Qed.

(** Any polynomial of degree at most 3 is recovered from its end values and end slopes. *)
Lemma pf_C38_third_order_exact (p : R -> R) (t0 t1 d0 d1 : R) :
  t0 <> t1 -> degree_le 3 p -> derivable_pt_lim p t0 d0 -> derivable_pt_lim p t1 d1 ->
  forall t, third_order t0 t1 (p t0) (p t1) ((t1 - t0) * d0) ((t1 - t0) * d1) t = p t.
Proof.
  intros H (l & Hl & Hp) H0 H1 t.
  assert (E0 : d0 = dpoly l t0).
  { eapply deriv_unique; [exact H0|]. apply (deriv_ext (poly l)); [symmetry; apply Hp|apply poly_deriv]. }
  assert (E1 : d1 = dpoly l t1).
  { eapply deriv_unique; [exact H1|]. apply (deriv_ext (poly l)); [symmetry; apply Hp|apply poly_deriv]. }
  subst d0 d1. rewrite !Hp. unfold third_order, poly_interp. rewrite rescale_ne by exact H.
  destruct l as [|a [|b [|c [|d [|e l]]]]]; cbn in Hl; try lia;
    cbn -[Rdiv]; field; lra.
Qed.

Lemma pf_C38_fourth_order_ends (c_mid : list R) (t0 t1 y0 y1 : R) (k : list R) :
  fourth_order c_mid t0 t1 y0 y1 k t0 = y0 /\
  (t0 <> t1 ->
   fourth_order c_mid t0 t1 y0 y1 k t1 = y1 /\
   fourth_order c_mid t0 t1 y0 y1 k ((t0 + t1) / 2) = y0 + tensordot c_mid k).
Proof.
  unfold fourth_order, poly_interp, fourth_order_coeffs. split; [rewrite rescale_start; cbn; ring|].
  intros H. split; [rewrite rescale_end by exact H; cbn; ring|].
  rewrite rescale_ne by exact H. replace (((t0 + t1) / 2 - t0) / (t1 - t0)) with (/ 2) by (field; lra).
  cbn. field.
Qed.
Lemma pf_C38_fourth_order_slopes (c_mid : list R) (t0 t1 y0 y1 : R) (k : list R) (k_first k_last : R)
      (inner : list R) :
  t0 <> t1 -> k = k_first :: inner ++ [k_last] ->
  derivable_pt_lim (fourth_order c_mid t0 t1 y0 y1 k) t0 (k_first / (t1 - t0)) /\
  derivable_pt_lim (fourth_order c_mid t0 t1 y0 y1 k) t1 (k_last / (t1 - t0)).
Proof.
  intros H ->. unfold fourth_order.
  assert (E0 : hd 0 (k_first :: inner ++ [k_last]) = k_first) by reflexivity.
  assert (E1 : last (k_first :: inner ++ [k_last]) 0 = k_last)
    by (rewrite app_comm_cons; apply last_last).
  set (k := k_first :: inner ++ [k_last]) in *. split.
  - replace (k_first / (t1 - t0)) with (dpolyval (fourth_order_coeffs c_mid y0 y1 k) 0 0 (linear_rescale t0 t0 t1) / (t1 - t0)).
    + apply (poly_interp_deriv _ _ _ _ H).
    + f_equal. rewrite rescale_start. unfold fourth_order_coeffs. rewrite E0, E1. cbn. ring.
  - replace (k_last / (t1 - t0)) with (dpolyval (fourth_order_coeffs c_mid y0 y1 k) 0 0 (linear_rescale t0 t1 t1) / (t1 - t0)).
    + apply (poly_interp_deriv _ _ _ _ H).
    + f_equal. rewrite rescale_end by exact H. unfold fourth_order_coeffs. rewrite E0, E1. cbn. ring.
Qed.
(** Any polynomial of degree at most 4 is recovered, if the stages give its end slopes and midpoint. *)
Lemma pf_C38_fourth_order_exact (p : R -> R) (c_mid : list R) (t0 t1 d0 d1 : R) (k inner : list R) :
  t0 <> t1 -> degree_le 4 p -> derivable_pt_lim p t0 d0 -> derivable_pt_lim p t1 d1 ->
  k = (t1 - t0) * d0 :: inner ++ [(t1 - t0) * d1] ->
  p t0 + tensordot c_mid k = p ((t0 + t1) / 2) ->
  forall t, fourth_order c_mid t0 t1 (p t0) (p t1) k t = p t.
Proof.
  intros H (l & Hl & Hp) H0 H1 Hk Hmid t.
  assert (E0 : d0 = dpoly l t0).
  { eapply deriv_unique; [exact H0|]. apply (deriv_ext (poly l)); [symmetry; apply Hp|apply poly_deriv]. }
  assert (E1 : d1 = dpoly l t1).
  { eapply deriv_unique; [exact H1|]. apply (deriv_ext (poly l)); [symmetry; apply Hp|apply poly_deriv]. }
  unfold fourth_order, poly_interp, fourth_order_coeffs. rewrite Hmid.
  assert (F0 : hd 0 k = (t1 - t0) * d0) by (rewrite Hk; reflexivity).
  assert (F1 : last k 0 = (t1 - t0) * d1) by (rewrite Hk, app_comm_cons; apply last_last).
  rewrite F0, F1. subst d0 d1. clear Hk Hmid F0 F1 H0 H1. rewrite !Hp, rescale_ne by exact H.
  destruct l as [|a [|b [|c [|d [|e [|f l]]]]]]; cbn in Hl; try lia;
    cbn -[Rdiv]; field; lra.
Qed.
(** [evaluate(a, b)] for the polynomial interpolants is the difference by definition (lines 86-87,
    139-140); so increments add up. *)
Lemma pf_C38_increment_additive (coeffs : list R) (t0 t1 a b c : R) :
  poly_interp_incr coeffs t0 t1 a b + poly_interp_incr coeffs t0 t1 b c
  = poly_interp_incr coeffs t0 t1 a c /\
  poly_interp coeffs t0 t1 a + poly_interp_incr coeffs t0 t1 a b = poly_interp coeffs t0 t1 b.
Proof. unfold poly_interp_incr. split; ring. Qed.
(** A zero-length interval: [evaluate(t)] is still [y0]; [evaluate(a, b)] of the linear interpolant
    divides by zero. *)
Lemma pf_C38_zero_length (t y0 y1 : R) (coeffs : list R) (c : R) :
  local_linear t t y0 y1 t = y0 /\ poly_interp (coeffs ++ [c]) t t t = c.
Proof.
  split; [apply pf_C38_linear_ends|]. unfold poly_interp. rewrite rescale_start.
  unfold polyval. rewrite fold_left_app. cbn. ring.
Qed.
