(** Specification vocabulary for stochastic Runge--Kutta methods. *)
From Coq Require Import Reals List Bool Arith.
From Verif Require Import Model_Result Model_RK Model_Terms Model_SRK Spec_RK.
Import ListNotations.
Open Scope R_scope.

(** The entries of the lower triangle [a], and of the column [c], as usually written; stages are numbered from 0. *)
Definition lower_entry (a : list (list R)) (j i : nat) : R := if (i <? j)%nat then nth i (nth (j - 1) a []) 0 else 0.
Definition entry (b : list R) (j : nat) : R := nth j b 0.
Definition column_c (tab : stableau) (j : nat) : R := match j with O => 0 | S j => nth j (st_c tab) 0 end.

(** The coefficients of [W], [H] and [K]: rows and weights (zero if there are none). *)
Definition noise_a (o : option coeffs) (j i : nat) : R :=
  match o with Some (GeneralCoeffs a _ _) => lower_entry a j i | Some (AdditiveCoeffs a _) => entry a j | None => 0 end.
Definition noise_b (o : option coeffs) (j : nat) : R :=
  match o with Some (GeneralCoeffs _ b _) => entry b j | Some (AdditiveCoeffs _ b) => b | None => 0 end.
Definition noise_e (o : option coeffs) (j : nat) : R :=
  match o with Some (GeneralCoeffs _ _ (Some e)) => entry e j | _ => 0 end.

(** The value of a stage that is not computed is not used. *)
Definition ignored_unused (tab : stableau) : Prop :=
  (forall j, ignored (st_ignore_stage_f tab) j = true ->
     (forall i, lower_entry (st_a tab) i j = 0) /\ entry (st_b_sol tab) j = 0 /\
     (forall e, st_b_error tab = Some e -> entry e j = 0)) /\
  (is_additive_noise tab = false -> forall j, ignored (st_ignore_stage_g tab) j = true ->
     forall o, In o [Some (st_coeffs_w tab); st_coeffs_hh tab; st_coeffs_kk tab] ->
     (forall i, noise_a o i j = 0) /\ noise_b o j = 0 /\ noise_e o j = 0).

(** The sum of the weights of [W], [H] or [K]. *)
Definition total_weight (n : nat) (o : option coeffs) : R :=
  match o with
  | None => 0
  | Some (AdditiveCoeffs _ b) => b
  | Some (GeneralCoeffs _ b _) => sum_n n (entry b)
  end.
Definition consistent_weights (tab : stableau) : Prop :=
  let n := length (st_b_sol tab) in
  sum_n n (entry (st_b_sol tab)) = 1 /\ total_weight n (Some (st_coeffs_w tab)) = 1 /\
  total_weight n (st_coeffs_hh tab) = 0 /\ total_weight n (st_coeffs_kk tab) = 0.

Section Equations.
  Context {I J J' K : Type}.
  Notation Y := (I -> R).
  Context (tab : stableau) (drift : term I J R) (diffusion : term I J' (K -> R)) (t0 t1 : R) (y0 : Y).
  Let n := length (st_b_sol tab).

  (** The combination of [n] values with the coefficients [c]. *)
  Definition lin (m : nat) (c : nat -> R) (k : nat -> Y) : Y := fun x => sum_n m (fun i => c i * k i x).

  (** The Runge--Kutta method for the drift alone. *)
  Definition drift_stages (f : nat -> Y) : Prop :=
    forall j, (j < n)%nat ->
      f j = t_vf_prod drift (t0 + column_c tab j * (t1 - t0)) (fun x => y0 x + lin n (lower_entry (st_a tab) j) f x) (t1 - t0).

  (** The equations of a stochastic Runge--Kutta step in the documentation of [AbstractSRK]. *)
  Definition stage_state (f w h k : nat -> Y) (j : nat) : Y := fun x =>
    y0 x + lin n (lower_entry (st_a tab) j) f x + lin n (noise_a (Some (st_coeffs_w tab)) j) w x
         + lin n (noise_a (st_coeffs_hh tab) j) h x + lin n (noise_a (st_coeffs_kk tab) j) k x.
  Definition srk_equations (bm : bm_inc K) (f w h k : nat -> Y) : Prop :=
    forall j, (j < n)%nat ->
      let t := t0 + column_c tab j * (t1 - t0) in
      let z := stage_state f w h k j in
      f j = t_vf_prod drift t z (t1 - t0) /\ w j = t_vf_prod diffusion t z (bm_W bm) /\
      h j = t_vf_prod diffusion t z (bm_H bm) /\ k j = t_vf_prod diffusion t z (bm_K bm).

  (** The same for additive noise, with the diffusion [g] evaluated once. *)
  Definition additive_equations (w h k : Y) (f : nat -> Y) : Prop :=
    forall j, (j < n)%nat ->
      f j = t_vf_prod drift (t0 + column_c tab j * (t1 - t0))
              (fun x => y0 x + lin n (lower_entry (st_a tab) j) f x + noise_a (Some (st_coeffs_w tab)) j 0 * w x
                        + noise_a (st_coeffs_hh tab) j 0 * h x + noise_a (st_coeffs_kk tab) j 0 * k x) (t1 - t0).
End Equations.

(** Scalar problems: states and noise have one component. *)
Definition scalar (x : R) : unit -> R := fun _ => x.
Definition scalar_drift (f : R -> R -> R) : term unit unit R := ode_term (fun t y => scalar (f t (y tt))).
Definition scalar_diffusion (g : R -> R -> R) (W : R -> R -> R) : term unit (unit * unit) (unit -> R) :=
  control_term [tt] (fun t y _ => g t (y tt)) (fun s t => scalar (W s t)).
Definition scalar_levy (W H K : R) (_ _ : R) : bm_inc unit := BMInc (scalar W) (scalar H) (scalar K).

(** [d] is the derivative of [f] at [y] in the direction [v]: the velocity of the image of any curve through [y] with
    velocity [v]. *)
Definition directional {I J : Type} (f : (I -> R) -> J -> R) (y v : I -> R) (d : J -> R) : Prop :=
  forall c, c 0 = y -> (forall i, derivable_pt_lim (fun s => c s i) 0 (v i)) ->
  forall j, derivable_pt_lim (fun s => f (c s) j) 0 (d j).
(** Forward-mode differentiation is right wherever the function is differentiable. *)
Definition correct_jvp {I J : Type} (jvp : ((I -> R) -> J -> R) -> (I -> R) -> (I -> R) -> J -> R) : Prop :=
  forall f y v d, directional f y v d -> jvp f y v = d.
