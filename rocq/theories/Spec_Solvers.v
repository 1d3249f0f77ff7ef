(** Specification vocabulary for the solvers of [Model_Solvers]. *)
From Coq Require Import Reals List Bool.
From Verif Require Import Model_Result Model_Loop Model_RK Model_Solvers.
Import ListNotations.
Open Scope R_scope.

Section Spec.
  Context {Y SS DI : Type}.

  (** Steps from time [t] along the times [ts], without discontinuities in the vector field. *)
  Fixpoint steps (m : method Y SS DI) (t : R) (ts : list R) (y : Y) (s : SS) : Y * SS :=
    match ts with
    | [] => (y, s)
    | t1 :: ts => let out := me_step m t t1 y s false in steps m t1 ts (so_y out) (so_state out)
    end.

  (** The same, if every step reports that all is well. *)
  Inductive good_steps (m : method Y SS DI) : R -> list R -> Y -> SS -> Y -> SS -> Prop :=
  | good_nil t y s : good_steps m t [] y s y s
  | good_cons t t1 ts y s y' s' :
      let out := me_step m t t1 y s false in
      is_okay (so_result out) = true ->
      good_steps m t1 ts (so_y out) (so_state out) y' s' ->
      good_steps m t (t1 :: ts) y s y' s'.
End Spec.

(** The times [t0 :: ts] backwards, without the first (from which the steps start). *)
Definition back (t0 : R) (ts : list R) : list R := tl (rev (t0 :: ts)).

(** Every interval of [t0 :: ts] halved. *)
Fixpoint halved (t0 : R) (ts : list R) : list R :=
  match ts with [] => [] | t1 :: ts => (t0 + t1) / 2 :: t1 :: halved t1 ts end.

(** Times that do not decrease. *)
Fixpoint forwards (t0 : R) (ts : list R) : Prop :=
  match ts with [] => True | t1 :: ts => t0 <= t1 /\ forwards t1 ts end.

Section Vector.
  Context {I : Type}.
  Notation Y := (I -> R).
  (** The inner product over the (finitely many) positions [is]. *)
  Definition inner (is : list I) (u v : Y) : R := fold_right (fun i acc => u i * v i + acc) 0 is.

  (** A vector field that never drives solutions apart. *)
  Definition dissipative (is : list I) (f : R -> Y -> Y) : Prop :=
    forall t y z, inner is (fun i => f t y i - f t z i) (fun i => y i - z i) <= 0.

  (** The root finder reports success only for roots. *)
  Definition finds_roots (root_find : (Y -> Y) -> Y -> Y * RESULTS) : Prop :=
    forall g z, is_okay (snd (root_find g z)) = true -> forall i, g (fst (root_find g z)) i = 0.

  (** [v] is the velocity at time 0 of the curve [c]. *)
  Definition tangent (c : R -> Y) (v : Y) : Prop := forall i, derivable_pt_lim (fun s => c s i) 0 (v i).
  (** [D y] is the derivative of [f] at [y]: it maps velocities of curves to velocities of their images. *)
  Definition derivative_of (f : Y -> Y) (D : Y -> Y -> Y) : Prop :=
    forall c v, tangent c v -> tangent (fun s => f (c s)) (D (c 0) v).
  (** The derivative is symmetric (over the positions [is]): [f] is a gradient. *)
  Definition symmetric (is : list I) (D : Y -> Y -> Y) : Prop :=
    forall y u v, inner is u (D y v) = inner is v (D y u).
  (** The symplectic form *)
  Definition symplectic (is : list I) (u v : Y * Y) : R := inner is (fst u) (snd v) - inner is (fst v) (snd u).
End Vector.

(** The first result that is an error, else an event if there is one, else success. *)
Definition first_error (rs : list RESULTS) : RESULTS :=
  match find (fun r => negb (is_okay r)) rs with
  | Some r => r
  | None => if existsb is_event rs then event_occurred else successful
  end.

(** A controller rejects every step without a (finite) error estimate. *)
Definition rejects_missing_error {Y SS CS DI V MS : Type} (c : config Y SS CS DI (option Y) V MS) : Prop :=
  forall tprev tnext y y1 cs, ao_keep (adapt c tprev tnext y y1 (nan_to_inf c None) cs) = false.
