(** Vocabulary for whole Runge--Kutta solves side by side. *)
From Coq Require Import ZArith Reals List Bool Arith.
From Verif Require Import Model_Result Model_Loop Model_RK Model_DenseOutput Spec_Loop Spec_RK Spec_RKLoop Spec_Convergence Spec_Frame.
Import ListNotations.
Open Scope R_scope.

(** Between the ends of a step, dense output with [n] terms and [s] stages is a weighted mean of the two ends plus a
    weighted sum of the stages. *)
Definition affine_interpolation (n s : nat) (interp : interpolation) : Prop :=
  forall t0 t1 t, exists (w0 w1 : R) (w : nat -> nat -> R), w0 + w1 = 1 /\
    forall y0 y1 ks, length ks = n -> (forall m, (m < n)%nat -> length (nth m ks []) = s) ->
      interp t0 t1 y0 y1 ks t = w0 * y0 + w1 * y1 + sum_n n (fun m => sum_n s (fun i => w m i * nth i (nth m ks []) 0)).

Section Solve.
  Context {I J C CS V MS : Type}.
  Notation Y := (I -> R).
  Notation DI := (Y * Y * list (list Y))%type.
  Notation config := (config Y (solver_state J) CS DI (option Y) V MS).

  (** A solve by an explicit Runge--Kutta method with [s] stages, and a controller that fulfils the contract. *)
  Definition explicit_solve (c : config) (i : initial Y (solver_state J) CS MS) (sv : solver I J C) (s : nat)
             (interp : interpolation) (time : Z -> R) : Prop :=
    (exists others, solver_step c = rk_solver_step sv time others) /\ interpolate c = rk_interpolate interp time /\
    nan_to_inf c = (fun e => e) /\
    valid_parts s (sv_parts sv) /\ explicit_parts (sv_parts sv) /\ fsal_at_ends (sv_parts sv) /\
    (sv_calculate_jacobian sv = first_stage -> use_fsal sv = false) /\
    (exists Inv, controller_contract c Inv /\ Inv (cfg_t0 c) (Z.min (in_tnext i) (cfg_t1 c)) (in_controller_state i)) /\
    announces_jumps c /\ midpoint_ok c /\ (cfg_t0 c <= cfg_t1 c)%Z /\ (cfg_t0 c <= in_tnext i)%Z /\
    coherent (sv_parts sv) (time (cfg_t0 c)) (in_y i) (in_made_jump i) (in_solver_state i).
End Solve.

Section Coordinates.
  Context {I I' : Type}.
  Variable fr : frame I I'.
  (** The same point, error estimate, dense output of a step, in old and new coordinates. *)
  Definition same_point (y : I -> R) (y' : I' -> R) : Prop := y' = point fr 0 y.
  Definition same_error (e : option (I -> R)) (e' : option (I' -> R)) : Prop := e' = option_map (vector fr) e.
  Definition same_dense (d : (I -> R) * (I -> R) * list (list (I -> R))) (d' : (I' -> R) * (I' -> R) * list (list (I' -> R))) : Prop :=
    let '(y0, y1, k) := d in d' = (point fr 0 y0, point fr 0 y1, map (map (vector fr)) k).
End Coordinates.
