(** What the equations of a stochastic Runge--Kutta step give without noise, without drift, and for shipped tableaus. *)
From Coq Require Import Reals List Bool Arith Lia Lra FunctionalExtensionality.
From Coquelicot Require Import Coquelicot.
From Verif Require Import Model_Result Model_Loop Model_RK Model_Terms Model_Solvers Model_SRK Spec_RK Spec_SRK Proof_RKStep Proof_SRK.
From Verif Require Import Model_Brownian Ex_Levy.
Import ListNotations.
Open Scope R_scope.
Notation sum_n := Spec_RK.sum_n.

Lemma pf_C54_equations (I J J' K : Type) (tab : stableau) (drift : term I J R) (diffusion : term I J' (K -> R))
      (levy : R -> R -> bm_inc K) (t0 t1 : R) (y0 : I -> R) (jump : bool) :
  spost_init_ok tab = true -> ignored_unused tab -> is_additive_noise tab = false ->
  let n := length (st_b_sol tab) in
  let out := me_step (srk tab drift diffusion levy) t0 t1 y0 tt jump in
  exists f w h k : nat -> I -> R,
    srk_equations tab drift diffusion t0 t1 y0 (levy t0 t1) f w h k /\
    (forall x, so_y out x = y0 x + lin n (entry (st_b_sol tab)) f x + lin n (noise_b (Some (st_coeffs_w tab))) w x
       + lin n (noise_b (st_coeffs_hh tab)) h x + lin n (noise_b (st_coeffs_kk tab)) k x) /\
    so_error out = option_map (fun e => fun x => lin n (entry e) f x + lin n (noise_e (Some (st_coeffs_w tab))) w x
       + lin n (noise_e (st_coeffs_hh tab)) h x + lin n (noise_e (st_coeffs_kk tab)) k x) (st_b_error tab).
Proof. intros O U A. cbv zeta. do 4 eexists. exact (general_main tab drift diffusion levy t0 t1 y0 O U A). Qed.

Lemma pf_C54_additive_equations (I J J' K : Type) (tab : stableau) (drift : term I J R) (diffusion : term I J' (K -> R))
      (levy : R -> R -> bm_inc K) (t0 t1 : R) (y0 : I -> R) (jump : bool) :
  spost_init_ok tab = true -> ignored_unused tab -> is_additive_noise tab = true ->
  let n := length (st_b_sol tab) in
  let out := me_step (srk tab drift diffusion levy) t0 t1 y0 tt jump in
  let g0 := t_vf diffusion t0 y0 in
  let g1 := t_vf diffusion t1 y0 in
  let w := t_prod diffusion g0 (bm_W (levy t0 t1)) in
  let h := t_prod diffusion g0 (bm_H (levy t0 t1)) in
  let k := t_prod diffusion g0 (bm_K (levy t0 t1)) in
  let area := match st_coeffs_hh tab with
              | Some _ => fun k => bm_W (levy t0 t1) k - 2 * bm_H (levy t0 t1) k | None => bm_W (levy t0 t1) end in
  exists f : nat -> I -> R,
    additive_equations tab drift t0 t1 y0 w h k f /\
    (forall x, so_y out x = y0 x + lin n (entry (st_b_sol tab)) f x + noise_b (Some (st_coeffs_w tab)) 0 * w x
       + noise_b (st_coeffs_hh tab) 0 * h x + noise_b (st_coeffs_kk tab) 0 * k x
       + t_prod diffusion (fun j => 1 / 2 * (g1 j - g0 j)) area x) /\
    so_error out = option_map (fun e => lin n (entry e) f) (st_b_error tab).
Proof. intros O U A. cbv zeta. eexists. exact (additive_main tab drift diffusion levy t0 t1 y0 O U A). Qed.

Section Contract.
  Context {I K : Type} (ks : list K).
  Lemma contract_0 (c : K -> R) (g : I * K -> R) x : (forall p, g p = 0) -> contract ks g c x = 0.
  Proof. intros Z. unfold contract. induction ks; cbn; [reflexivity|]. rewrite IHl, Z. ring. Qed.
  Lemma contract_lin (a b : R) (g g' : I * K -> R) (c : K -> R) x :
    contract ks (fun p => a * g p + b * g' p) c x = a * contract ks g c x + b * contract ks g' c x.
  Proof. unfold contract. induction ks; cbn; [ring|]. rewrite IHl. ring. Qed.
  Lemma contract_lin_c (a b : R) (g : I * K -> R) (c c' : K -> R) x :
    contract ks g (fun k => a * c k + b * c' k) x = a * contract ks g c x + b * contract ks g c' x.
  Proof. unfold contract. induction ks; cbn; [ring|]. rewrite IHl. ring. Qed.
End Contract.
Lemma lin_zero {I : Type} n c (f : nat -> I -> R) x : (forall i, (i < n)%nat -> f i x = 0) -> lin n c f x = 0.
Proof. intros Z. unfold lin. apply sum_n_0. intros i Hi. rewrite Z by exact Hi. ring. Qed.
Lemma lin_const {I : Type} n c (f : nat -> I -> R) (v : R) x : (forall i, (i < n)%nat -> f i x = v) -> lin n c f x = sum_n n c * v.
Proof.
  intros Z. unfold lin. rewrite Rmult_comm, <- sum_n_scal. apply sum_n_ext. intros i Hi. rewrite Z by exact Hi. ring.
Qed.

Lemma pf_C54_zero_noise (I J K : Type) (tab : stableau) (drift : term I J R) (ks : list K) (path : R -> R -> K -> R)
      (levy : R -> R -> bm_inc K) (t0 t1 : R) (y0 : I -> R) (jump : bool) :
  spost_init_ok tab = true -> ignored_unused tab ->
  let n := length (st_b_sol tab) in
  let out := me_step (srk tab drift (control_term ks (fun _ _ _ => 0) path) levy) t0 t1 y0 tt jump in
  exists f : nat -> I -> R,
    drift_stages tab drift t0 t1 y0 f /\
    (forall x, so_y out x = y0 x + lin n (entry (st_b_sol tab)) f x) /\
    so_error out = option_map (fun e => lin n (entry e) f) (st_b_error tab).
Proof.
  intros O U. cbv zeta. destruct (is_additive_noise tab) eqn:A.
  - destruct (pf_C54_additive_equations I J (I * K) K tab drift (control_term ks (fun _ _ _ => 0) path) levy t0 t1 y0 jump O U A)
      as (f & Ef & Ey & Ee). exists f. split; [|split].
    + intros j Hj. rewrite (Ef j Hj) at 1. f_equal. extensionality x. cbn [t_prod t_vf control_term with_default_vf_prod].
      rewrite !contract_0 by reflexivity. ring.
    + intros x. rewrite Ey. cbn [t_prod t_vf control_term with_default_vf_prod].
      rewrite !contract_0 by (intros; ring). ring.
    + exact Ee.
  - destruct (pf_C54_equations I J (I * K) K tab drift (control_term ks (fun _ _ _ => 0) path) levy t0 t1 y0 jump O U A)
      as (f & w & h & k & Eq & Ey & Ee).
    assert (Z : forall c i x, (i < length (st_b_sol tab))%nat ->
                 w i x = 0 /\ h i x = 0 /\ k i x = c * 0).
    { intros c i x Hi. destruct (Eq i Hi) as (_ & Ew & Eh & Ek). rewrite Ew, Eh, Ek.
      cbn [t_vf_prod control_term with_default_vf_prod]. rewrite !contract_0 by reflexivity. repeat split; ring. }
    assert (Zw : forall c x, lin (length (st_b_sol tab)) c w x = 0) by (intros; apply lin_zero; intros; apply (Z 0); assumption).
    assert (Zh : forall c x, lin (length (st_b_sol tab)) c h x = 0) by (intros; apply lin_zero; intros; apply (Z 0); assumption).
    assert (Zk : forall c x, lin (length (st_b_sol tab)) c k x = 0)
      by (intros; apply lin_zero; intros; destruct (Z 0 i x H) as (_ & _ & Q); rewrite Q; ring).
    exists f. split; [|split].
    + intros j Hj. destruct (Eq j Hj) as (Ef & _). rewrite Ef at 1. f_equal. extensionality x. unfold stage_state.
      rewrite Zw, Zh, Zk. ring.
    + intros x. rewrite Ey, Zw, Zh, Zk. ring.
    + rewrite Ee. destruct (st_b_error tab) as [e|]; [|reflexivity]. cbn [option_map]. f_equal. extensionality x.
      rewrite Zw, Zh, Zk. ring.
Qed.

(** No drift: only the weights of the noise matter. *)
Lemma pf_C54_constant_noise (I K : Type) (tab : stableau) (ks : list K) (g : I * K -> R) (path : R -> R -> K -> R)
      (levy : R -> R -> bm_inc K) (t0 t1 : R) (y0 : I -> R) (jump : bool) :
  spost_init_ok tab = true -> ignored_unused tab -> consistent_weights tab ->
  let out := me_step (srk tab (ode_term (fun _ _ _ => 0)) (control_term ks (fun _ _ => g) path) levy) t0 t1 y0 tt jump in
  forall x, so_y out x = y0 x + contract ks g (bm_W (levy t0 t1)) x.
Proof.
  intros O U (CB & CW & CH & CK). cbv zeta. intros x. destruct (is_additive_noise tab) eqn:A.
  - destruct (pf_C54_additive_equations I I (I * K) K tab (ode_term (fun _ _ _ => 0)) (control_term ks (fun _ _ => g) path) levy t0 t1 y0 jump O U A)
      as (f & Ef & Ey & _). rewrite Ey.
    rewrite lin_zero by (intros i Hi; rewrite (Ef i Hi); cbn; ring).
    cbn [t_prod t_vf control_term with_default_vf_prod].
    rewrite (contract_0 ks _ (fun j => 1 / 2 * (g j - g j))) by (intros; ring).
    destruct (post_init_parts tab O) as (_ & _ & _ & _ & HH & KK). rewrite A in *.
    unfold is_additive_noise in A. destruct (st_coeffs_w tab) as [aw bw|]; [|discriminate].
    cbn [total_weight noise_b] in *. rewrite CW.
    assert (Zh : noise_b (st_coeffs_hh tab) 0 = 0).
    { destruct (st_coeffs_hh tab) as [ch|]; [|reflexivity]. destruct (HH ch eq_refl) as [A1 _]. destruct ch; [exact CH|discriminate]. }
    assert (Zk : noise_b (st_coeffs_kk tab) 0 = 0).
    { destruct (st_coeffs_kk tab) as [ck|]; [|reflexivity]. destruct (KK ck eq_refl) as [A1 _]. destruct ck; [exact CK|discriminate]. }
    rewrite Zh, Zk. ring.
  - destruct (pf_C54_equations I I (I * K) K tab (ode_term (fun _ _ _ => 0)) (control_term ks (fun _ _ => g) path) levy t0 t1 y0 jump O U A)
      as (f & w & h & k & Eq & Ey & _). rewrite Ey.
    rewrite lin_zero by (intros i Hi; destruct (Eq i Hi) as (Ef & _); rewrite Ef; cbn; ring).
    rewrite (lin_const _ _ w (contract ks g (bm_W (levy t0 t1)) x)) by (intros i Hi; destruct (Eq i Hi) as (_ & Ew & _); rewrite Ew; reflexivity).
    rewrite (lin_const _ _ h (contract ks g (bm_H (levy t0 t1)) x)) by (intros i Hi; destruct (Eq i Hi) as (_ & _ & Ew & _); rewrite Ew; reflexivity).
    rewrite (lin_const _ _ k (contract ks g (bm_K (levy t0 t1)) x)) by (intros i Hi; destruct (Eq i Hi) as (_ & _ & _ & Ew); rewrite Ew; reflexivity).
    assert (W : forall o, (forall c, o = Some c -> is_additive c = false) -> sum_n (length (st_b_sol tab)) (noise_b o) = total_weight (length (st_b_sol tab)) o).
    { intros o Ho. destruct o as [[|]|]; [discriminate (Ho _ eq_refl)|reflexivity|]. apply sum_n_0. reflexivity. }
    destruct (post_init_parts tab O) as (_ & _ & _ & _ & HH & KK). rewrite A in *.
    rewrite !W, CW, CH, CK.
    + ring.
    + intros c E. apply (KK c E).
    + intros c E. apply (HH c E).
    + intros c E. injection E as <-. exact A.
Qed.

Lemma pf_C54_time_dependent_noise (I K : Type) (tab : stableau) (ks : list K) (g : R -> (I -> R) -> I * K -> R) (path : R -> R -> K -> R)
      (levy : R -> R -> bm_inc K) (t0 t1 : R) (y0 : I -> R) (jump : bool) :
  spost_init_ok tab = true -> ignored_unused tab -> consistent_weights tab ->
  is_additive_noise tab = true -> st_coeffs_hh tab <> None ->
  let out := me_step (srk tab (ode_term (fun _ _ _ => 0)) (control_term ks g path) levy) t0 t1 y0 tt jump in
  forall x, so_y out x = y0 x + contract ks (g t0 y0) (bm_W (levy t0 t1)) x
    + contract ks (fun p => g t1 y0 p - g t0 y0 p) (fun k => bm_W (levy t0 t1) k / 2 - bm_H (levy t0 t1) k) x.
Proof.
  intros O U (CB & CW & CH & CK) A NH. cbv zeta. intros x.
  destruct (pf_C54_additive_equations I I (I * K) K tab (ode_term (fun _ _ _ => 0)) (control_term ks g path) levy t0 t1 y0 jump O U A)
      as (f & Ef & Ey & _). rewrite Ey.
  rewrite lin_zero by (intros i Hi; rewrite (Ef i Hi); cbn; ring).
  cbn [t_prod t_vf control_term with_default_vf_prod].
  destruct (post_init_parts tab O) as (_ & _ & _ & _ & HH & KK). rewrite A in *.
  unfold is_additive_noise in A. destruct (st_coeffs_w tab) as [aw bw|]; [|discriminate].
  cbn [total_weight noise_b] in *. rewrite CW.
  assert (Zk : noise_b (st_coeffs_kk tab) 0 = 0).
  { destruct (st_coeffs_kk tab) as [ck|]; [|reflexivity]. destruct (KK ck eq_refl) as [A1 _]. destruct ck; [exact CK|discriminate]. }
  destruct (st_coeffs_hh tab) as [ch|]; [|congruence]. destruct (HH ch eq_refl) as [A1 _]. destruct ch as [ah bh|]; [|discriminate].
  cbn [total_weight noise_b] in *. rewrite CH, Zk.
  set (d := fun p => g t1 y0 p - g t0 y0 p).
  replace (fun j : I * K => 1 / 2 * (g t1 y0 j - g t0 y0 j)) with (fun p => 1 / 2 * d p + 0 * d p)
    by (extensionality p; unfold d; ring).
  rewrite contract_lin.
  replace (fun k : K => bm_W (levy t0 t1) k - 2 * bm_H (levy t0 t1) k) with (fun k => 1 * bm_W (levy t0 t1) k + -2 * bm_H (levy t0 t1) k)
    by (extensionality k; ring).
  replace (fun k : K => bm_W (levy t0 t1) k / 2 - bm_H (levy t0 t1) k) with (fun k => (1/2) * bm_W (levy t0 t1) k + -1 * bm_H (levy t0 t1) k)
    by (extensionality k; lra).
  rewrite !contract_lin_c. lra.
Qed.

(** For a smooth driving path [X] and noise affine in time this is the exact integral. *)
Lemma pf_C54_affine_noise_exact (tab : stableau) (alpha beta : R) (X X' : R -> R) (t0 t1 y0 : R) (jump : bool) :
  spost_init_ok tab = true -> ignored_unused tab -> consistent_weights tab ->
  is_additive_noise tab = true -> st_coeffs_hh tab <> None ->
  (forall u, is_derive X u (X' u)) -> (forall u, continuous X' u) -> t0 < t1 ->
  let levy s t := BMInc (scalar (inc_W (levy_of X s t))) (scalar (inc_H (levy_of X s t))) (scalar (inc_K (levy_of X s t))) in
  let diffusion := scalar_diffusion (fun t _ => alpha + beta * t) (fun s t => X t - X s) in
  let out := me_step (srk tab (ode_term (fun _ _ _ => 0)) diffusion levy) t0 t1 (scalar y0) tt jump in
  so_y out tt = y0 + RInt (fun u => (alpha + beta * u) * X' u) t0 t1.
Proof.
  intros O U CW A NH D CX' L. cbv zeta. unfold scalar_diffusion.
  rewrite (pf_C54_time_dependent_noise unit unit tab [tt] _ _ _ t0 t1 (scalar y0) jump O U CW A NH tt).
  assert (CX : forall u, continuous X u).
  { intros u. apply (ex_derive_continuous (K := R_AbsRing) (V := R_NormedModule)). eexists. apply D. }
  assert (P : RInt (fun u => (alpha + beta * u) * X' u) t0 t1 = (alpha + beta * t1) * X t1 - (alpha + beta * t0) * X t0 - beta * RInt X t0 t1).
  { assert (E : is_RInt (fun u => plus (scal (alpha + beta * u) (X' u)) (scal beta (X u))) t0 t1
                 (minus (scal (alpha + beta * t1) (X t1)) (scal (alpha + beta * t0) (X t0)))).
    { apply (is_RInt_ext (fun u => beta * X u + (alpha + beta * u) * X' u)).
      { intros u _. unfold plus, scal. cbn. unfold mult. cbn. ring. }
      apply (is_RInt_derive (V := R_CompleteNormedModule) (fun u => (alpha + beta * u) * X u)).
      - intros u _. replace (beta * X u + (alpha + beta * u) * X' u) with (plus (mult beta (X u)) (mult (alpha + beta * u) (X' u))) by reflexivity.
        apply (is_derive_mult (fun u => alpha + beta * u) X u beta (X' u)); [|apply D|intros; apply Rmult_comm].
        auto_derive; [auto|ring].
      - intros u _. apply (continuous_plus (V := R_NormedModule)).
        + apply (continuous_scal_r (V := R_NormedModule)), CX.
        + apply (continuous_mult (K := R_AbsRing) (fun u => alpha + beta * u) X'); [|apply CX'].
          apply (ex_derive_continuous (K := R_AbsRing) (V := R_NormedModule)). auto_derive. auto. }
    assert (EX : ex_RInt X t0 t1) by (apply (ex_RInt_continuous (V := R_CompleteNormedModule)); auto).
    assert (EB : is_RInt (fun u => scal beta (X u)) t0 t1 (scal beta (RInt X t0 t1))).
    { apply (is_RInt_scal (V := R_NormedModule)), (RInt_correct (V := R_CompleteNormedModule)), EX. }
    pose proof (is_RInt_minus (V := R_NormedModule) _ _ _ _ _ _ E EB) as M.
    apply is_RInt_unique. eapply is_RInt_ext; [|apply M].
    intros u _. unfold minus, plus, opp, scal. cbn. unfold mult. cbn. ring. }
  rewrite P. pose proof (levy_H X CX t0 t1 L) as EH.
  cbn [bm_W bm_H]. unfold contract. cbn [fold_right]. unfold scalar.
  change (inc_W (levy_of X t0 t1)) with (X t1 - X t0).
  set (H := inc_H (levy_of X t0 t1)) in *.
  replace (RInt X t0 t1) with ((t1 - t0) * H + (t1 - t0) * (X t0 + X t1) / 2) by (rewrite EH; ring).
  field.
Qed.

Lemma ignored_out l j : (length l <= j)%nat -> ignored (Some l) j = false.
Proof. intros H. unfold ignored. apply nth_overflow. exact H. Qed.

Lemma pf_C54_shipped (tab : stableau) : In tab [sra1; shark; sea; spark; general_shark; slowrk] ->
  spost_init_ok tab = true /\ ignored_unused tab /\ consistent_weights tab.
Proof.
  intros H. cbn [In] in H.
  repeat destruct H as [<-|H]; try contradiction H; (split; [reflexivity|]); split;
    try (unfold consistent_weights, total_weight, entry; cbn; unfold spark_x1, spark_x2; repeat split; field);
    (split; [intros j Hj|intros A j Hj]); cbn [ignored st_ignore_stage_f st_ignore_stage_g sra1 shark sea spark general_shark slowrk] in Hj; try discriminate.
  all: do 8 (try destruct j as [|j]); cbn [nth] in Hj; try discriminate; try (destruct j; discriminate).
  all: try (split; [intros i; do 8 (try destruct i as [|i]); unfold lower_entry; cbn; try reflexivity; try (destruct i; reflexivity)
             |split; [reflexivity|discriminate]]).
  all: intros o Ho; cbn [In st_coeffs_w st_coeffs_hh st_coeffs_kk slowrk general_shark] in Ho;
    repeat destruct Ho as [<-|Ho]; try contradiction Ho;
    (split; [intros i; do 8 (try destruct i as [|i]); unfold noise_a, lower_entry; cbn; try reflexivity; try (destruct i; reflexivity)|split; reflexivity]).
Qed.
