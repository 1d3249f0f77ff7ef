(** The error between the steps of a solve with a constant step size: C82. *)
From Coq Require Import ZArith Reals List Bool Arith Lia Lra.
From Verif Require Import Model_Result Model_Loop Model_Fixed Model_Interp Model_Solvers Spec_Loop Spec_Fixed Spec_Solvers Spec_Order Spec_MethodOrder
  Proof_PropLoop Proof_Fixed Proof_MethodOrder Proof_MethodSolve.
Import ListNotations.
Open Scope R_scope.

(** A line through values off by at most [B]. *)
Lemma line_error (lo hi M2 B : R) (u u' u'' : R -> R) (a b t v w : R) :
  (forall r, lo <= r <= hi -> derivable_pt_lim u r (u' r)) -> (forall r, lo <= r <= hi -> derivable_pt_lim u' r (u'' r)) ->
  (forall r, lo <= r <= hi -> Rabs (u'' r) <= M2) -> lo <= a -> b <= hi -> a < b -> a <= t <= b ->
  Rabs (v - u a) <= B -> Rabs (w - u b) <= B -> Rabs (local_linear a b v w t - u t) <= B + M2 * (b - a)^2.
Proof.
  intros D1 D2 DB La Hb AB Ht Hv Hw. unfold local_linear, linear_rescale. destruct (Req_EM_T a b) as [E|_]; [lra|].
  set (x := (t - a) / (b - a)). assert (X : 0 <= x <= 1).
  { unfold x. split; [apply Rmult_le_pos; [lra|]; left; apply Rinv_0_lt_compat; lra|]. apply (Rmult_le_reg_r (b - a)); [lra|]. unfold Rdiv. rewrite Rmult_assoc, Rinv_l by lra. lra. }
  pose proof (taylor1 lo hi M2 u u' u'' D1 D2 a t DB ltac:(lra) ltac:(lra)) as Ta. pose proof (taylor1 lo hi M2 u u' u'' D1 D2 b t DB ltac:(lra) ltac:(lra)) as Tb.
  assert (M0 : 0 <= M2) by (eapply Rle_trans; [apply Rabs_pos|apply (DB a); lra]).
  assert (Q : forall d, Rabs d <= b - a -> M2 * d^2 <= M2 * (b - a)^2).
  { intros d Hd. apply Rmult_le_compat_l; [exact M0|]. rewrite <- (pow2_abs d). apply pow_incr. split; [apply Rabs_pos|exact Hd]. }
  assert (Qa := Q (a - t) ltac:(apply Rabs_le; lra)). assert (Qb := Q (b - t) ltac:(apply Rabs_le; lra)).
  assert (W : forall c d e, 0 <= c -> Rabs d <= e -> Rabs (c * d) <= c * e).
  { intros c d e Hc Hd. rewrite Rabs_mult, (Rabs_pos_eq c) by exact Hc. apply Rmult_le_compat_l; assumption. }
  assert (EX : t = (1 - x) * a + x * b). { unfold x. field. lra. }
  replace (v + x * (w - v) - u t) with ((1 - x) * (v - u a) + x * (w - u b) + ((1 - x) * (u a - u t - (a - t) * u' t) + x * (u b - u t - (b - t) * u' t))).
  2: { assert ((1 - x) * (a - t) + x * (b - t) = 0) as Z by (rewrite EX at 1 2; ring).
       replace (v + x * (w - v) - u t) with (v + x * (w - v) - u t - ((1 - x) * (a - t) + x * (b - t)) * u' t) by (rewrite Z; ring). ring. }
  pose proof (W (1 - x) _ _ ltac:(lra) Hv) as W1. pose proof (W x _ _ ltac:(lra) Hw) as W2.
  pose proof (W (1 - x) _ _ ltac:(lra) (Rle_trans _ _ _ Ta Qa)) as W3. pose proof (W x _ _ ltac:(lra) (Rle_trans _ _ _ Tb Qb)) as W4.
  set (G := M2 * (b - a)^2) in *. apply abs_iff in W1, W2, W3, W4. apply abs_iff. lra.
Qed.

Section Dense.
  Context {I SS V MS : Type}.
  Notation Y := (I -> R).
  Notation DI := (Y * Y)%type.
  Notation config := (config Y SS (const_state Z) DI (option Y) V MS).
  Notation initial := (initial Y SS (const_state Z) MS).
  Notation outcome := (outcome Y SS (const_state Z) DI V MS).

  Lemma run_interp (c : config) accs : forall t y ss j, solver_run c t y ss j accs -> forall k a, nth_error accs k = Some a ->
    at_yprev a = match k with O => y | S k => match nth_error accs k with Some b => at_y b | None => y end end /\
    exists ss' j', at_y a = so_y (solver_step c (at_from a) (at_to a) (at_yprev a) ss' j') /\
      at_interp a = interpolate c (at_from a) (at_to a) (so_dense (solver_step c (at_from a) (at_to a) (at_yprev a) ss' j')).
  Proof.
    induction accs as [|b accs IH]; intros t y ss j RUN k a Ha; [destruct k; discriminate|].
    inversion RUN; subst. destruct k as [|k].
    - injection Ha as <-. split; [reflexivity|]. eauto.
    - cbn [nth_error] in Ha |- *. match goal with R : solver_run c (at_end b) _ _ _ accs |- _ => destruct (IH _ _ _ _ R k a Ha) as (E & X) end.
      split; [|exact X]. rewrite E. destruct k as [|k]; [reflexivity|]. cbn [nth_error]. destruct (nth_error accs k) eqn:EN; [reflexivity|].
      apply nth_error_None in EN. assert (S k < length accs)%nat by (apply nth_error_Some; congruence). lia.
  Qed.

  Lemma pf_C82_dense (m : method Y SS DI) (p : time_ops Z) (dt0 : Z) (c : config) (i : initial) (h : list (attempt Y)) (o : outcome) (time : Z -> R)
        (t0 T H M2 B : R) (y y' : R -> Y) :
    const_solve p dt0 c i -> (0 <= intended_steps p (cfg_t0 c) (cfg_t1 c) dt0)%Z -> solve_run c i h o -> results_ok c -> rf_results_ok c ->
    (forall a b y s j, solver_step c a b y s j = me_step m (time a) (time b) y s j) -> in_made_jump i = false ->
    (forall k, (k <= length h)%nat -> time (const_point p (cfg_t0 c) (cfg_t1 c) dt0 k) = t0 + INR k * H) ->
    (forall a b y s j, so_dense (me_step m a b y s j) = (y, so_y (me_step m a b y s j))) ->
    interpolate c = (fun a b d t x => local_linear (time a) (time b) (fst d x) (snd d x) (time t)) ->
    0 < H -> INR (length h) * H <= T -> smooth2 t0 T M2 y y' ->
    (forall k, (k <= length h)%nat -> bounded (fun x => fst (steps m t0 (grid t0 H k) (in_y i) (in_solver_state i)) x - y (t0 + INR k * H) x) B) ->
    forall a t, In a h -> time (at_from a) <= time t <= time (at_to a) -> bounded (fun x => at_interp a t x - y (time t) x) (B + M2 * H^2).
  Proof.
    intros CS NN RUN RO RFO ST MJ TI DE IN HH HT (y2 & SM) GB a t Ha Ht.
    destruct (pf_C82_constant m p dt0 c i h o time t0 H CS NN RUN RO RFO ST MJ TI) as (VAL & _).
    destruct (pf_C25_steps p dt0 c i h o CS NN RUN RO RFO) as (TS & KE & LT & FIN). cbv zeta in TS. set (P := const_point p (cfg_t0 c) (cfg_t1 c) dt0) in *.
    assert (AC : accepted h = h).
    { unfold accepted. clear - KE. induction KE as [|b l (K & _) KE IH]; [reflexivity|]. cbn. rewrite K, IH. reflexivity. }
    assert (RIP : rejects_in_place h). { unfold rejects_in_place. eapply Forall_impl; [|exact KE]. intros b (K & _) K'. congruence. }
    pose proof (pf_C08_accepted_steps_run c i h o RUN RIP) as SR. rewrite AC in SR.
    destruct (In_nth_error _ _ Ha) as (k & Hk). assert (LK : (k < length h)%nat) by (apply nth_error_Some; congruence).
    destruct (run_interp c h _ _ _ _ SR k a Hk) as (YP & ss & j & EY & EI).
    assert (AT : at_from a = P k /\ at_to a = P (S k)).
    { pose proof (map_nth_error (fun a => (at_from a, at_to a)) k h Hk) as E. rewrite TS in E.
      rewrite (map_nth_error _ k (seq 0 (length h)) (d := k)) in E; [injection E as <- <-; auto|].
      rewrite (nth_error_nth' _ 0%nat) by (rewrite seq_length; exact LK). rewrite seq_nth by exact LK. reflexivity. }
    destruct AT as (FR & TO).
    assert (TF : time (at_from a) = t0 + INR k * H) by (rewrite FR; apply TI; lia).
    assert (TT : time (at_to a) = t0 + INR (S k) * H) by (rewrite TO; apply TI; lia).
    assert (B0 : bounded (fun x => at_yprev a x - y (time (at_from a)) x) B).
    { rewrite TF. specialize (GB k ltac:(lia)). rewrite YP. destruct k as [|k]; [exact GB|].
      destruct (nth_error h k) as [b|] eqn:Hb; [|apply nth_error_None in Hb; lia]. destruct (VAL k b Hb) as (_ & ->). exact GB. }
    assert (B1 : bounded (fun x => at_y a x - y (time (at_to a)) x) B).
    { rewrite TT. destruct (VAL k a Hk) as (_ & ->). apply GB. lia. }
    intros x. rewrite EI, IN, ST, DE. cbn [fst snd]. rewrite <- ST, <- EY.
    assert (HD : H = time (at_to a) - time (at_from a)) by (rewrite TF, TT, S_INR; ring). rewrite HD.
    assert (K0 : 0 <= INR k * H) by (apply Rmult_le_pos; [apply pos_INR|lra]).
    assert (K1 : INR (S k) * H <= T). { eapply Rle_trans; [|exact HT]. apply Rmult_le_compat_r; [lra|]. apply le_INR. lia. }
    apply (line_error t0 (t0 + T) M2 B (fun t => y t x) (fun t => y' t x) (fun t => y2 t x)).
    - intros r Hr. apply (SM r x Hr).
    - intros r Hr. apply (SM r x Hr).
    - intros r Hr. apply (SM r x Hr).
    - rewrite TF. lra.
    - rewrite TT. lra.
    - lra.
    - exact Ht.
    - apply B0.
    - apply B1.
  Qed.
End Dense.
