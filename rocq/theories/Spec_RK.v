(** Specification vocabulary for Runge--Kutta methods. *)
From Coq Require Import Reals QArith Qreals List Bool Arith.
From Verif Require Import Model_Result Model_RK.
Import ListNotations.
Open Scope R_scope.

(** [f 0 + ... + f (n-1)] *)
Fixpoint sum_n (n : nat) (f : nat -> R) : R :=
  match n with O => 0 | S n => sum_n n f + f n end.

(** The entries of the Butcher tableau
      c_0 | a_00 ...
      ... |
          | b_0 ...
    as usually written; stages are numbered from 0. *)
Definition coef_a (tab : tableau) (i j : nat) : R :=
  if (j <? i)%nat then Q2R (nth j (nth (i - 1) (tab_a_lower tab) []) 0%Q)
  else if (j =? i)%nat then
    match tab_a_diagonal tab with None => 0 | Some d => Q2R (nth i d 0%Q) end
  else 0.
Definition coef_b (tab : tableau) (i : nat) : R := Q2R (nth i (tab_b_sol tab) 0%Q).
Definition coef_e (tab : tableau) (i : nat) : R := Q2R (nth i (tab_b_error tab) 0%Q).
Definition coef_c (tab : tableau) (i : nat) : R :=
  match i with O => Q2R (tab_c1 tab) | S i => Q2R (nth i (tab_c tab) 0%Q) end.

(** What the first- and last-stage shortcuts take for granted: the first stage is at the start of the
    step and the last one at its end. *)
Definition ends_at_ends (tab : tableau) : Prop :=
  (tab_c1 tab == 0)%Q /\ (last (tab_c tab) 0 == 1)%Q.

Section Spec.
  Context {I J C : Type}.
  Notation parts := (list (tableau * term I J C)).

  (** [vf_prod] agrees with [vf] followed by [prod]; [prod] is linear in the vector field. *)
  Definition consistent_term (m : term I J C) : Prop :=
    forall t y c x, t_vf_prod m t y c x = t_prod m (t_vf m t y) c x.
  Definition linear_term (m : term I J C) : Prop :=
    forall a b f g c x,
      t_prod m (fun j => a * f j + b * g j) c x = a * t_prod m f c x + b * t_prod m g c x.

  (** The arguments [tableau], [terms] of a solver are as the constructors demand: all tableaus valid
      with the same number [s] of stages, at most one of them implicit. *)
  Definition valid_parts (s : nat) (ps : parts) : Prop :=
    ps <> [] /\
    (forall tab m, In (tab, m) ps ->
       post_init_ok tab = true /\ num_stages tab = s /\ consistent_term m /\ linear_term m) /\
    (forall p q tab tab' m m', nth_error ps p = Some (tab, m) -> nth_error ps q = Some (tab', m') ->
       implicit tab = true -> implicit tab' = true -> p = q).

  Definition fsal_at_ends (ps : parts) : Prop :=
    forall tab m, In (tab, m) ps -> fsal tab = true -> ends_at_ends tab.

  (** The value of the state at stage [i], from the stages [k m j] of all terms [m]. *)
  Definition stage_value (s : nat) (ps : parts) (y0 : I -> R) (k : nat -> nat -> I -> R) (i : nat) : I -> R :=
    fun x => y0 x + sum_n (length ps) (fun m =>
      match nth_error ps m with
      | Some (tab, _) => sum_n s (fun j => coef_a tab i j * k m j x) | None => 0 end).

  (** The textbook equations of a Runge--Kutta step from [(t0, y0)] to [t1]. *)
  Definition rk_equations (s : nat) (ps : parts) (t0 t1 : R) (y0 : I -> R) (k : nat -> nat -> I -> R) : Prop :=
    forall m tab trm i, nth_error ps m = Some (tab, trm) -> (i < s)%nat -> forall x,
      k m i x =
      t_prod trm (t_vf trm (t0 + coef_c tab i * (t1 - t0)) (stage_value s ps y0 k i)) (t_contr trm t0 t1) x.

  Definition combination (coef : tableau -> nat -> R) (s : nat) (ps : parts) (k : nat -> nat -> I -> R) (x : I) : R :=
    sum_n (length ps) (fun m =>
      match nth_error ps m with
      | Some (tab, _) => sum_n s (fun i => coef tab i * k m i x) | None => 0 end).

  (** The textbook result and error estimate. *)
  Definition rk_solution (s : nat) (ps : parts) (y0 : I -> R) (k : nat -> nat -> I -> R) : I -> R :=
    fun x => y0 x + combination coef_b s ps k x.
  Definition rk_error (s : nat) (ps : parts) (k : nat -> nat -> I -> R) : I -> R :=
    fun x => combination coef_e s ps k x.

  (** The stored vector field value of a first-same-as-last solver is up to date. *)
  Definition coherent (ps : parts) (t0 : R) (y0 : I -> R) (made_jump : bool)
             (state : solver_state J) : Prop :=
    match state with
    | None => True
    | Some (first_step, f0) =>
        length f0 = length ps /\
        (first_step = true \/ made_jump = true \/
         forall m tab trm f, nth_error ps m = Some (tab, trm) -> nth_error f0 m = Some f ->
           forall x, f x = t_vf trm t0 y0 x)
    end.

  (** A root finder that reports success only for exact roots. *)
  Definition exact_root_finder (rf : root_finder I J) : Prop :=
    (forall j stage g guess v r, rf_f rf j stage g guess = (v, r) -> is_okay r = true ->
       forall x, g v x = 0) /\
    (forall j stage g guess v r, rf_k rf j stage g guess = (v, r) -> is_okay r = true ->
       forall x, g v x = 0).

  Definition explicit_parts (ps : parts) : Prop :=
    forall tab m, In (tab, m) ps -> implicit tab = false.
End Spec.
