(** All points of a trajectory at once: the product of copies of a system, one for each starting time.  Estimates
    for it are uniform along the trajectory. *)
From Coq Require Import Reals QArith Qreals List Bool Arith Lia Lra.
From Verif Require Import Model_Result Model_RK Model_Terms Spec_RK Spec_Order Spec_Lipschitz Spec_Convergence
  Proof_RKStep Proof_RKProp Proof_OrderStep Proof_StageLipschitz Proof_Order.
Import ListNotations.
Open Scope R_scope.

(** The vector field is bounded along the trajectory. *)
Lemma field_bounded {I : Type} (a b : R) p (f : R -> (I -> R) -> I -> R) (y : R -> I -> R) : uniformly_smooth (S p) f a b y ->
  exists d M, 0 < d /\ 0 <= M /\ forall t dt, a <= t <= b -> Rabs dt <= d -> bounded (f (t + dt) (y t)) M.
Proof.
  intros (D & ML & BM & delta & M & Hd & HM & TA).
  (* a bound for each term of the expansion at an increment of time of size at most delta *)
  assert (HB : forall n, exists M', 0 <= M' /\ forall t v, a <= t <= b -> bounded v delta ->
    bounded (fun x : I => sum_n n (fun m => D t (repeat v m) x)) M').
  { induction n as [|n (M1 & H1 & IH)]; [exists 0; split; [lra|]; intros t v _ _ x; cbn; rewrite Rabs_R0; lra|].
    destruct (BM n) as (M2 & H2). exists (M1 + Rabs (M2 * fold_right Rmult 1 (repeat delta n))).
    split; [pose proof (Rabs_pos (M2 * fold_right Rmult 1 (repeat delta n))); lra|].
    intros t v Ht Hv x. cbn [sum_n]. eapply Rle_trans; [apply Rabs_triang|]. apply Rplus_le_compat; [apply (IH t v Ht Hv x)|].
    eapply Rle_trans; [apply (H2 t (repeat v n) (repeat delta n) Ht (repeat_length _ _))|apply Rle_abs].
    clear -Hv. induction n; constructor; assumption. }
  destruct (HB (S p)) as (M' & HM' & H'). exists delta, (M' + M * delta ^ S p). split; [exact Hd|].
  split; [apply Rplus_le_le_0_compat; [exact HM'|apply Rmult_le_pos; [exact HM|apply pow_le; lra]]|].
  intros t dt Ht Hdt x. set (v := fun o : option I => match o with None => dt | Some _ => 0 end).
  assert (Hv : bounded v delta) by (intros [z|]; cbn; [rewrite Rabs_R0; lra|exact Hdt]).
  pose proof (TA t v delta Ht ltac:(lra) Hv x) as T1. pose proof (H' t v Ht Hv x) as T2. cbv beta in T1, T2. cbn [v] in T1.
  replace (fun x => y t x + 0) with (y t) in T1 by (apply FunctionalExtensionality.functional_extensionality; intros; ring).
  match type of T1 with Rabs (?u - ?w) <= _ => pose proof (Rabs_triang (u - w) w) as TR; replace (u - w + w) with u in TR by ring end.
  fold v in T1, TR. lra.
Qed.

Lemma uniformly_smooth_sub {I : Type} (a b b' : R) p (f : R -> (I -> R) -> I -> R) (y : R -> I -> R) : b' <= b ->
  uniformly_smooth p f a b y -> uniformly_smooth p f a b' y.
Proof.
  intros Hb (D & ML & BM & delta & M & Hd & HM & TA). exists D. split; [intros t Ht; apply ML; lra|]. split.
  - intros m. destruct (BM m) as (M' & H). exists M'. intros t l Bs Ht. apply H. lra.
  - exists delta, M. split; [exact Hd|]. split; [exact HM|]. intros t v B Ht. apply TA. lra.
Qed.

Section Product.
  Context {I : Type}.
  Notation Y := (I -> R).
  Variables (a b : R).
  Definition start := { t : R | a <= t <= b }.
  Notation I' := (I * start)%type.

  Definition at_start (z : I' -> R) (t : start) : Y := fun x => z (x, t).
  Definition incr_at (v : option I' -> R) (t : start) : option I -> R :=
    fun o => match o with None => v None | Some x => v (Some (x, t)) end.
  Definition lift (f : R -> Y -> Y) : R -> (I' -> R) -> (I' -> R) :=
    fun d z q => f (proj1_sig (snd q) + d) (at_start z (snd q)) (fst q).
  Definition along (y : R -> Y) (d : R) : I' -> R := fun q => y (proj1_sig (snd q) + d) (fst q).

  Lemma incr_bounded v B t : bounded v B -> bounded (incr_at v t) B.
  Proof. intros H [x|]; apply H. Qed.

  Lemma smooth_lift p f y : uniformly_smooth p f a b y -> smooth p (lift f) 0 (fun q => y (proj1_sig (snd q)) (fst q)).
  Proof.
    intros (D & ML & BM & delta & M & Hd & HM & TA).
    exists (fun l q => D (proj1_sig (snd q)) (map (fun v => incr_at v (snd q)) l) (fst q)). split; [|split].
    - intros l l' c1 c2 u v (x & (t & Ht)). cbn [fst snd proj1_sig]. rewrite !map_app. cbn [map].
      pose proof (ML t Ht (map (fun w => incr_at w (exist _ t Ht)) l) (map (fun w => incr_at w (exist _ t Ht)) l') c1 c2
                    (incr_at u (exist _ t Ht)) (incr_at v (exist _ t Ht)) x) as E.
      rewrite <- E. do 3 f_equal. apply FunctionalExtensionality.functional_extensionality. intros [z|]; reflexivity.
    - intros m. destruct (BM m) as (M' & H). exists M'. intros l Bs Hl HB (x & (t & Ht)). cbn [fst snd proj1_sig].
      apply H; [exact Ht|rewrite map_length; exact Hl|]. clear Hl. induction HB as [|v B l Bs Hv _ IH]; constructor; [apply incr_bounded, Hv|exact IH].
    - exists delta, M. split; [exact Hd|]. split; [exact HM|]. intros v B HB Hv (x & (t & Ht)).
      specialize (TA t (incr_at v (exist _ t Ht)) B Ht HB (incr_bounded v B _ Hv) x). cbn [incr_at] in TA.
      unfold lift, at_start. cbn [fst snd proj1_sig]. rewrite Rplus_0_l.
      replace (sum_n p (fun m => D t (map (fun v0 => incr_at v0 (exist (fun t => a <= t <= b) t Ht)) (repeat v m)) x))
        with (sum_n p (fun m => D t (repeat (incr_at v (exist (fun t => a <= t <= b) t Ht)) m) x)); [exact TA|].
      apply sum_n_ext. intros m _. f_equal. induction m as [|m IH]; [reflexivity|]. cbn. f_equal. exact IH.
  Qed.

  Lemma sum_lift (fs : list (R -> Y -> Y)) d z (q : I') :
    sum_n (length (map lift fs)) (fun m => nth m (map lift fs) (fun _ _ _ => 0) d z q)
    = sum_n (length fs) (fun m => nth m fs (fun _ _ _ => 0) (proj1_sig (snd q) + d) (at_start z (snd q)) (fst q)).
  Proof.
    rewrite map_length. apply sum_n_ext. intros m _.
    change (fun (_ : R) (_ : I' -> R) (_ : I') => 0) with (lift (fun _ _ _ => 0)). rewrite map_nth. reflexivity.
  Qed.

  (** The trajectories from all starting times solve the product system. *)
  Lemma exact_lift p fs y0 T y : a <= b -> (1 <= p)%nat -> (forall f, In f fs -> uniformly_smooth p f a (a + T) y) ->
    exact_solution fs a y0 T y -> b < a + T ->
    exact_solution (map lift fs) 0 (fun q => y (proj1_sig (snd q)) (fst q)) ((a + T - b) / 2) (along y).
  Proof.
    intros Hab Hp SM (E0 & _ & ED) HbT. set (T' := (a + T - b) / 2).
    assert (DER : forall t x, a <= t <= a + T -> derivable_pt_lim (fun s => y s x) t
      (sum_n (length fs) (fun m => nth m fs (fun _ _ _ => 0) t (y t) x))).
    { intros t x Ht. pose proof (ED (t - a) x ltac:(lra)) as H. replace (a + (t - a)) with t in H by ring.
      intros eps He. destruct (H eps He) as (d & Hd). exists d. intros h Hh Hhd. specialize (Hd h Hh Hhd).
      replace (a + (t - a + h)) with (t + h) in Hd by ring. replace (a + (t - a)) with t in Hd by ring. exact Hd. }
    split; [intros (x & (t & Ht)); unfold along; cbn; rewrite Rplus_0_r; reflexivity|]. split.
    - (* uniform continuity in time: the derivative is bounded on [a, b + T'] near each start *)
      assert (FB : exists M, 0 <= M /\ forall t x, a <= t <= a + T ->
        Rabs (sum_n (length fs) (fun m => nth m fs (fun _ _ _ => 0) t (y t) x)) <= M).
      { clear -SM Hp. destruct p as [|p]; [lia|].
        assert (H : exists M, 0 <= M /\ forall f t, In f fs -> a <= t <= a + T -> bounded (f t (y t)) M).
        { induction fs as [|f fs IH]; [exists 0; split; [lra|intros f t []]|].
          destruct IH as (M & HM & IH); [intros g Hg; apply SM; right; exact Hg|].
          destruct (field_bounded a (a + T) p f y (SM f (or_introl eq_refl))) as (d & M' & Hd & HM' & H). exists (M + M'). split; [lra|].
          intros g t [<-|Hg] Ht x.
          - specialize (H t 0 Ht ltac:(rewrite Rabs_R0; lra) x). rewrite Rplus_0_r in H. lra.
          - specialize (IH g t Hg Ht x). lra. }
        destruct H as (M & HM & H). exists (INR (length fs) * M). split; [apply Rmult_le_pos; [apply pos_INR|exact HM]|].
        intros t x Ht. apply sum_n_bound. intros m Hm. apply (H (nth m fs (fun _ _ _ => 0)) t (nth_In _ _ Hm) Ht x). }
      destruct FB as (M & HM & FB). intros eps He. exists (Rmin T' (eps / (M + 1))).
      assert (HT' : 0 < T') by (unfold T'; lra).
      split; [apply Rmin_pos; [exact HT'|apply Rdiv_lt_0_compat; lra]|]. intros h Hh (x & (t & Ht)).
      pose proof (Rmin_l T' (eps / (M + 1))) as M1. pose proof (Rmin_r T' (eps / (M + 1))) as M2.
      unfold along. cbn [fst snd proj1_sig]. rewrite Rplus_0_l.
      destruct (Req_dec h 0) as [->|Hn]; [rewrite Rplus_0_r, Rminus_diag_eq, Rabs_R0 by reflexivity; lra|].
      destruct (MVT_cor2 (fun s => y s x) (fun s => sum_n (length fs) (fun m => nth m fs (fun _ _ _ => 0) s (y s) x)) t (t + h) ltac:(lra))
        as (c & Hc & Hcr). { intros c Hc. apply DER. unfold T' in *. lra. }
      rewrite Hc, Rabs_mult. replace (t + h - t) with h by ring. rewrite (Rabs_pos_eq h) by lra.
      apply Rle_trans with (M * (eps / (M + 1))).
      + apply Rmult_le_compat; [apply Rabs_pos|lra|apply FB; unfold T' in *; lra|lra].
      + apply Rle_trans with ((M + 1) * (eps / (M + 1))); [apply Rmult_le_compat_r; [left; apply Rdiv_lt_0_compat; lra|lra]|right; field; lra].
    - intros h (x & (t & Ht)) Hh. rewrite sum_lift. unfold along, at_start. cbn [fst snd proj1_sig].
      intros eps He. destruct (DER (t + h) x ltac:(unfold T' in Hh; lra) eps He) as (d & Hd). exists d. intros k Hk Hkd. specialize (Hd k Hk Hkd).
      replace (t + (0 + (h + k))) with (t + h + k) by ring. replace (t + (0 + h)) with (t + h) by ring. exact Hd.
  Qed.
End Product.
