(** Proofs about the size of the first step. *)
From Coq Require Import Reals ZArith List Lra.
From Verif Require Import Model_InitialStep.
Import ListNotations.
Open Scope R_scope.

Lemma rpower_le (x y p : R) : 0 < x -> x <= y -> 0 < p -> Rpower x p <= Rpower y p.
Proof.
  intros Hx Hxy Hp. unfold Rpower. destruct (Req_dec x y) as [->|N]; [lra|].
  apply Rlt_le, exp_increasing. apply Rmult_lt_compat_l; [lra|]. apply ln_increasing; lra.
Qed.

Lemma pf_C57_automatic (I : Type) (norm : (I -> R) -> R) (error_order rtol atol : R) (f : R -> (I -> R) -> (I -> R))
      (t0 : R) (y0 : I -> R) :
  (forall v, 0 <= norm v) -> 0 < error_order ->
  let scaled := fun v : I -> R => norm (fun i => v i / (atol + Rabs (y0 i) * rtol)) in
  let h := select_initial_step norm error_order rtol atol (ODETerm f) f t0 y0 in
  let f0 := f t0 y0 in
  0 < h
  /\ (h <= 1 / 10000 \/ h * scaled f0 <= scaled y0)
  /\ exists e, 0 < e /\ h <= 100 * e
     /\ (e = 1 / 1000000 \/ 100 * e * scaled f0 = scaled y0)
     /\ let f1 := f (t0 + e) (fun i => y0 i + e * f0 i) in
        let m := Rmax (scaled f0) (scaled (fun i => f1 i - f0 i) / e) in
        m <= 1 / 10 ^ 15 \/ Rpower h error_order * m <= 1 / 100.
Proof.
  intros Hn Hp scaled h f0.
  set (d0 := scaled y0). set (d1 := scaled f0).
  assert (H0 : 0 <= d0) by apply Hn. assert (H1 : 0 <= d1) by apply Hn.
  set (cond := if Rlt_dec d0 (1 / 100000) then true else if Rlt_dec d1 (1 / 100000) then true else false).
  set (e := if cond then 1 / 1000000 else (1 / 100) * (d0 / (if cond then 1 else d1))).
  assert (Hc : (cond = true /\ e = 1 / 1000000) \/ (0 < d0 /\ 0 < d1 /\ e = 1 / 100 * (d0 / d1))).
  { unfold e, cond. destruct (Rlt_dec d0 _); [left; split; reflexivity|]. destruct (Rlt_dec d1 _); [left; split; reflexivity|].
    right. repeat split; lra. }
  assert (He : 0 < e).
  { destruct Hc as [[_ ->]|(A & B & ->)]; [lra|]. apply Rmult_lt_0_compat; [lra|]. apply Rdiv_lt_0_compat; lra. }
  set (m := Rmax d1 (scaled (fun i => f (t0 + e) (fun i => y0 i + e * f0 i) i - f0 i) / e)).
  assert (Hh : h = Rmin (100 * e) (if Rle_dec m (1 / 10 ^ 15) then Rmax (1 / 1000000) (e * (1 / 1000))
                                   else Rpower (1 / 100 / m) (1 / error_order))) by reflexivity.
  assert (Hpos : 0 < h).
  { rewrite Hh. apply Rmin_glb_lt; [lra|]. destruct (Rle_dec m _).
    - apply Rlt_le_trans with (1 / 1000000); [lra|apply Rmax_l].
    - unfold Rpower. apply exp_pos. }
  assert (Hle : h <= 100 * e) by (rewrite Hh; apply Rmin_l).
  split; [exact Hpos|]. split.
  { destruct Hc as [[_ Ee]|(A & B & Ee)]; [left; rewrite Ee in Hle; lra|]. right.
    apply Rle_trans with (100 * e * d1); [apply Rmult_le_compat_r; [exact H1|exact Hle]|].
    rewrite Ee. fold d0. right. field. lra. }
  exists e. split; [exact He|]. split; [exact Hle|]. split.
  { destruct Hc as [[_ Ee]|(A & B & Ee)]; [left; exact Ee|]. right. fold d0 d1. rewrite Ee. field. lra. }
  cbv zeta. fold d1. change (m <= 1 / 10 ^ 15 \/ Rpower h error_order * m <= 1 / 100).
  destruct (Rle_dec m (1 / 10 ^ 15)) as [L|N]; [left; exact L|]. right.
  assert (Hm : 0 < m) by (assert (0 < 1 / 10 ^ 15) by (apply Rdiv_lt_0_compat; [lra|apply pow_lt; lra]); lra).
  assert (Hh' : h <= Rpower (1 / 100 / m) (1 / error_order)) by (rewrite Hh; apply Rmin_r).
  assert (Hq : 0 < 1 / 100 / m) by (apply Rdiv_lt_0_compat; lra).
  apply Rle_trans with (1 / 100 / m * m).
  - apply Rmult_le_compat_r; [lra|].
    replace (1 / 100 / m) with (Rpower (Rpower (1 / 100 / m) (1 / error_order)) error_order).
    + apply rpower_le; assumption.
    + rewrite Rpower_mult. replace (1 / error_order * error_order) with 1 by (field; lra). apply Rpower_1, Hq.
  - right. field. lra.
Qed.

Lemma wrap_not_ode {I : Type} (d : Z) (terms : pyterm I) : is_ode_term (wrap_terms d terms) = false.
Proof. destruct terms; reflexivity. Qed.

Lemma pf_C57_first_step_given (I : Type) (norm : (I -> R) -> R) (error_order rtol atol : R)
      (func : pyterm I -> R -> (I -> R) -> (I -> R)) (terms : pyterm I) (t0 t1 dt0 : R) (y0 : I -> R) :
  (t0 < t1 -> diffeqsolve_first_end norm error_order rtol atol None None func terms t0 t1 y0 (Some dt0) = Rmin (t0 + dt0) t1)
  /\ (t1 <= t0 -> - diffeqsolve_first_end norm error_order rtol atol None None func terms t0 t1 y0 (Some dt0) = Rmax (t0 + dt0) t1).
Proof.
  unfold diffeqsolve_first_end, pid_first_end. cbn [option_map]. split; intros H; destruct (Rlt_dec t0 t1); try lra.
  - rewrite !Rmult_1_r. reflexivity.
  - replace (t0 * -1 + dt0 * -1) with (- (t0 + dt0)) by ring. replace (t1 * -1) with (- t1) by ring.
    unfold Rmin, Rmax. destruct (Rle_dec (- (t0 + dt0)) (- t1)); destruct (Rle_dec (t0 + dt0) t1); lra.
Qed.

Lemma pf_C57_none_is_a_hundredth (I : Type) (norm norm' : (I -> R) -> R) (error_order error_order' rtol rtol' atol atol' : R)
      (dtmin dtmax : option R) (func func' : pyterm I -> R -> (I -> R) -> (I -> R)) (terms terms' : pyterm I)
      (t0 t1 : R) (y0 y0' : I -> R) :
  diffeqsolve_first_end norm error_order rtol atol dtmin dtmax func terms t0 t1 y0 None
  = diffeqsolve_first_end norm' error_order' rtol' atol' dtmin dtmax func' terms' t0 t1 y0'
      (Some (if Rlt_dec t0 t1 then 1 / 100 else - (1 / 100))).
Proof.
  unfold diffeqsolve_first_end, pid_first_end, select_initial_step. cbn [option_map]. rewrite wrap_not_ode.
  destruct (Rlt_dec t0 t1).
  - rewrite (Rmult_1_r (1 / 100)). reflexivity.
  - replace (- (1 / 100) * -1) with (1 / 100) by ring. reflexivity.
Qed.

Lemma pf_C57_first_step_bounds (I : Type) (norm : (I -> R) -> R) (error_order rtol atol : R) (dtmin dtmax : option R)
      (func : pyterm I -> R -> (I -> R) -> (I -> R)) (terms : pyterm I) (t0 t1 : R) (dt0 : option R) (y0 : I -> R) :
  (forall m M, dtmin = Some m -> dtmax = Some M -> m <= M) ->
  let s := if Rlt_dec t0 t1 then 1 else -1 in
  let h := diffeqsolve_first_end norm error_order rtol atol dtmin dtmax func terms t0 t1 y0 dt0 - s * t0 in
  h <= Rabs (t1 - t0)
  /\ (forall M, dtmax = Some M -> h <= M)
  /\ (forall m, dtmin = Some m -> m <= h \/ h = Rabs (t1 - t0))
  /\ (forall d, dt0 = Some d -> (forall m, dtmin = Some m -> m <= s * d) -> (forall M, dtmax = Some M -> s * d <= M) ->
      h = Rmin (s * d) (Rabs (t1 - t0))).
Proof.
  intros Hmm s h. unfold h, diffeqsolve_first_end, pid_first_end. clear h.
  match goal with |- context [select_initial_step ?a ?b ?c ?d ?e ?f ?g ?k] =>
    generalize (select_initial_step a b c d e f g k); intros u end.
  assert (Hd : IZR (if Rlt_dec t0 t1 then 1 else -1)%Z = s) by (unfold s; destruct (Rlt_dec t0 t1); reflexivity).
  rewrite Hd. clear Hd.
  assert (Ha : Rabs (t1 - t0) = t1 * s - t0 * s)
    by (unfold s; destruct (Rlt_dec t0 t1); [rewrite Rabs_right by lra|rewrite Rabs_left1 by lra]; lra).
  rewrite Ha. clear Ha.
  assert (Hc : forall x, Rmin (t0 * s + x) (t1 * s) - s * t0 = Rmin x (t1 * s - t0 * s))
    by (intros x; unfold Rmin; destruct (Rle_dec (t0 * s + x) (t1 * s)); destruct (Rle_dec x (t1 * s - t0 * s)); lra).
  rewrite Hc. clear Hc. generalize (t1 * s - t0 * s). intros L.
  split; [apply Rmin_r|]. split; [|split].
  - intros M ->. apply Rle_trans with (1 := Rmin_l _ _).
    destruct dtmin as [m|]; [apply Rmax_lub; [apply Rmin_r|now apply Hmm]|apply Rmin_r].
  - intros m ->. unfold Rmin at 1 3. destruct (Rle_dec _ L); [left; apply Rmax_r|right; reflexivity].
  - intros d -> Hm HM. cbn [option_map]. rewrite (Rmult_comm d s). f_equal.
    assert (E : match dtmax with Some m => Rmin (s * d) m | None => s * d end = s * d)
      by (destruct dtmax; [apply Rmin_left; now apply HM|reflexivity]).
    rewrite E. destruct dtmin; [apply Rmax_left; now apply Hm|reflexivity].
Qed.

Definition growth (c : R) (t : R) (y : unit -> R) : unit -> R := fun i => c * y i.

Lemma pf_C57_automatic_refuted :
  forall K, 0 < K ->
  exists (f : R -> (unit -> R) -> (unit -> R)) (y0 : unit -> R),
    let norm := fun v : unit -> R => Rabs (v tt) in
    let h := select_initial_step norm 5 (1 / 1000) (1 / 1000) (ODETerm f) f 0 y0 in
    0 < h /\ diffeqsolve_first_end norm 5 (1 / 1000) (1 / 1000) None None vf_func (ODETerm f) 0 1 y0 None >= K * h.
Proof.
  intros K HK. set (abs_norm := fun v : unit -> R => Rabs (v tt)). set (c := 100 * K + 1). exists (growth c), (fun _ => 1).
  destruct (pf_C57_automatic unit abs_norm 5 (1 / 1000) (1 / 1000) (growth c) 0 (fun _ => 1)) as (Hp & Hb & _);
    [intros v; apply Rabs_pos|lra|]. cbv zeta.
  set (h := select_initial_step _ _ _ _ _ _ _ _) in *. split; [exact Hp|].
  assert (E : diffeqsolve_first_end abs_norm 5 (1 / 1000) (1 / 1000) None None vf_func (ODETerm (growth c)) 0 1 (fun _ => 1) None
              = 1 / 100).
  { rewrite (pf_C57_none_is_a_hundredth _ _ abs_norm _ 5 _ 0 _ 0 _ _ _ vf_func _ (ODETerm (growth c)) _ _ _ (fun _ => 1)).
    destruct (Rlt_dec 0 1); [|lra].
    destruct (pf_C57_first_step_given unit abs_norm 5 0 0 vf_func (ODETerm (growth c)) 0 1 (1 / 100) (fun _ => 1)) as [A _].
    rewrite A by lra. rewrite Rmin_left by lra. lra. }
  rewrite E. clear E.
  set (s := 1 / 1000 + Rabs 1 * (1 / 1000)) in *.
  assert (Hs : s = 1 / 500) by (unfold s; rewrite Rabs_R1; field).
  assert (Hd0 : abs_norm (fun _ => 1 / s) = 500).
  { unfold abs_norm. rewrite Hs. replace (1 / (1 / 500)) with 500 by field. apply Rabs_pos_eq. lra. }
  assert (Hc : 0 < c) by (unfold c; lra).
  assert (Hd1 : abs_norm (fun _ => growth c 0 (fun _ => 1) tt / s) = 500 * c).
  { unfold abs_norm, growth. rewrite Hs. replace (c * 1 / (1 / 500)) with (500 * c) by field. apply Rabs_pos_eq. lra. }
  assert (Hh : h <= 1 / c).
  { unfold h, select_initial_step, is_ode_term, select_for.
    change (abs_norm (fun i : unit => 1 / (1 / 1000 + Rabs 1 * (1 / 1000)))) with (abs_norm (fun _ => 1 / s)).
    change (abs_norm (fun i : unit => growth c 0 (fun _ => 1) i / (1 / 1000 + Rabs 1 * (1 / 1000))))
      with (abs_norm (fun _ => growth c 0 (fun _ => 1) tt / s)).
    rewrite Hd0, Hd1.
    destruct (Rlt_dec 500 (1 / 100000)); [lra|]. destruct (Rlt_dec (500 * c) (1 / 100000)); [unfold c in *; lra|].
    eapply Rle_trans; [apply Rmin_l|]. right. field. lra. }
  apply Rle_ge. apply Rle_trans with (K * (1 / c)); [apply Rmult_le_compat_l; lra|].
  apply Rmult_le_reg_r with c; [exact Hc|]. replace (K * (1 / c) * c) with K by (field; lra). unfold c. lra.
Qed.
