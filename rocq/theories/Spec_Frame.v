(** Vocabulary for changes of coordinates: new units, shifted clocks, moving frames, time as a state. *)
From Coq Require Import Reals List Bool Arith.
From Verif Require Import Model_Result Model_RK Model_Terms Model_SRK Spec_RK Spec_SRK.
Import ListNotations.
Open Scope R_scope.

Section Frame.
  Context {I I' : Type}.
  (** The linear map whose matrix has the rows [rows]: each lists the nonzero entries with their columns. *)
  Definition linear_map (rows : I' -> list (I * R)) (u : I -> R) : I' -> R :=
    fun p => fold_right (fun e r => snd e * u (fst e) + r) 0 (rows p).
End Frame.

(** New coordinates [A y + b + t v] for [y] at time [t]; the clock of the new equation shows [shift] more. *)
Record frame (I I' : Type) := Frame {
  fr_matrix : I' -> list (I * R); fr_origin : I' -> R; fr_velocity : I' -> R; fr_shift : R
}.
Arguments Frame {I I'}. Arguments fr_matrix {I I'}. Arguments fr_origin {I I'}.
Arguments fr_velocity {I I'}. Arguments fr_shift {I I'}.

Section Follow.
  Context {I I' J J' C : Type}.
  Variable fr : frame I I'.
  (** The new coordinates of a point, and of a difference of points. *)
  Definition point (t : R) (y : I -> R) : I' -> R :=
    fun p => linear_map (fr_matrix fr) y p + fr_origin fr p + t * fr_velocity fr p.
  Definition vector (u : I -> R) : I' -> R := linear_map (fr_matrix fr) u.

  (** In the new coordinates the term [m] becomes [m']; its increments over the control [c] change by
      [h] times the velocity of the frame. *)
  Definition increments_follow (m : term I J C) (m' : term I' J' C) (c : C) (h : R) : Prop :=
    forall t y p, t_vf_prod m' (t + fr_shift fr) (point t y) c p = vector (t_vf_prod m t y c) p + h * fr_velocity fr p.
  Definition same_controls (m : term I J C) (m' : term I' J' C) : Prop :=
    forall t0 t1, t_contr m' (t0 + fr_shift fr) (t1 + fr_shift fr) = t_contr m t0 t1.
  (** A term that carries the motion of the frame, such as a drift; one that does not, such as a diffusion. *)
  Definition drift_follows (m : term I J C) (m' : term I' J' C) : Prop :=
    same_controls m m' /\ forall t0 t1, increments_follow m m' (t_contr m t0 t1) (t1 - t0).
  Definition noise_follows (m : term I J C) (m' : term I' J' C) : Prop :=
    same_controls m m' /\ forall c, increments_follow m m' c 0.

  (** Terms with tableaus: the first term carries the motion of the frame. *)
  Definition parts_follow (ps : list (tableau * term I J C)) (ps' : list (tableau * term I' J' C)) : Prop :=
    length ps' = length ps /\
    forall m tab trm, nth_error ps m = Some (tab, trm) ->
      exists trm', nth_error ps' m = Some (tab, trm') /\ same_controls trm trm' /\
        forall t0 t1, increments_follow trm trm' (t_contr trm t0 t1) (if (m =? 0)%nat then t1 - t0 else 0).
  (** What a frame that moves asks of the tableaus, with [s] stages: stages are at the times that the rows of the
      first tableau add up to. *)
  Definition times_are_row_sums (s : nat) (ps : list (tableau * term I J C)) : Prop :=
    forall tab0 trm0, nth_error ps 0 = Some (tab0, trm0) ->
      (forall tab trm i, In (tab, trm) ps -> (i < s)%nat -> coef_c tab i = sum_n s (coef_a tab0 i)) /\
      sum_n s (coef_b tab0) = 1 /\ sum_n s (coef_e tab0) = 0.
  Definition at_rest : Prop := forall p, fr_velocity fr p = 0.
End Follow.

(** The same for a single tableau. *)
Definition exact_row_sums (tab : tableau) : Prop :=
  let s := num_stages tab in
  (forall i, (i < s)%nat -> coef_c tab i = sum_n s (coef_a tab i)) /\ sum_n s (coef_b tab) = 1 /\ sum_n s (coef_e tab) = 0.
Definition sde_row_sums (tab : stableau) : Prop :=
  let n := length (st_b_sol tab) in
  (forall j, (j < n)%nat -> column_c tab j = sum_n n (lower_entry (st_a tab) j)) /\ sum_n n (entry (st_b_sol tab)) = 1 /\
  (forall e, st_b_error tab = Some e -> sum_n n (entry e) = 0).

(** Time as a further component [None] of the state. *)
Definition with_time {I : Type} (t : R) (y : I -> R) : option I -> R :=
  fun p => match p with None => t | Some x => y x end.
Definition space {I : Type} (z : option I -> R) : I -> R := fun x => z (Some x).
Definition autonomous {I : Type} (f : R -> (I -> R) -> I -> R) (_ : R) (z : option I -> R) : option I -> R :=
  with_time 1 (f (z None) (space z)).
Definition autonomous_noise {I K : Type} (g : R -> (I -> R) -> I * K -> R) (_ : R) (z : option I -> R) : option I * K -> R :=
  fun pk => match fst pk with None => 0 | Some x => g (z None) (space z) (x, snd pk) end.
