(** Specification for gradients: solving on a given list of steps, and derivatives. *)
From Coq Require Import Reals List.
From Coquelicot Require Import Coquelicot.
Import ListNotations.
Open Scope R_scope.

Section SpecTangent.
  Context {P W O : NormedModule R_AbsRing}.

  (** The state after the given steps, one after another. *)
  Definition solve_on (step : P -> R -> R -> W -> W) (grid : list (R * R)) (p : P) (w : W) : W :=
    fold_left (fun w ab => step p (fst ab) (snd ab) w) grid w.

  (** [D] is the derivative of [f], a function of parameters, two times and a state, at a point. *)
  Definition step_derivative {U : NormedModule R_AbsRing} (f : P -> R -> R -> W -> U) (p : P) (a b : R) (w : W)
             (D : P -> R -> R -> W -> U) : Prop :=
    filterdiff (fun q : P * (R * (R * W)) => f (fst q) (fst (snd q)) (fst (snd (snd q))) (snd (snd (snd q))))
               (locally (p, (a, (b, w)))) (fun d => D (fst d) (fst (snd d)) (fst (snd (snd d))) (snd (snd (snd d)))).

  (** [D] is the derivative of [f], a function of parameters and state, at a point. *)
  Definition gradient_at {U : NormedModule R_AbsRing} (f : P -> W -> U) (p : P) (w : W) (D : P -> W -> U) : Prop :=
    filterdiff (fun q : P * W => f (fst q) (snd q)) (locally (p, w)) (fun d => D (fst d) (snd d)).

  (** The rules for one step of the solver are right along the given steps. *)
  Definition right_rules {U : NormedModule R_AbsRing} (step : P -> R -> R -> W -> W) (f : P -> R -> R -> W -> U)
             (jvp : P -> R -> R -> W -> P -> R -> R -> W -> U) (grid : list (R * R)) (p : P) (w : W) : Prop :=
    forall before a b after, grid = before ++ (a, b) :: after ->
      step_derivative f p a b (solve_on step before p w) (jvp p a b (solve_on step before p w)).
End SpecTangent.

(** The steps kept among those attempted. *)
Definition kept {A : Type} (l : list (A * A * R * bool)) : list (A * A) :=
  map (fun x => fst (fst x)) (filter (fun x => snd x) l).
(** Forget the tangents. *)
Definition values {U : Type} (l : list ((U * U) * (U * U))) : list (U * U) := map (fun ab => (fst (fst ab), fst (snd ab))) l.
