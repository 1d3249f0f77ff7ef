(** Specification vocabulary for the Langevin solvers. *)
From Coq Require Import Reals List Bool.
From Coquelicot Require Import Coquelicot.
From Verif Require Import Model_Langevin.
Import ListNotations.
Open Scope R_scope.

(** The increment over [[0, h]] and the Levy areas of a path. *)
Definition path_W (P : R -> R) (h : R) : R := P h - P 0.
Definition path_H (P : R -> R) (h : R) : R := / h * RInt (fun s => P s - P 0 - s / h * path_W P h) 0 h.
Definition path_K (P : R -> R) (h : R) : R :=
  / h ^ 2 * RInt (fun s => (P s - P 0 - s / h * path_W P h) * (h / 2 - s)) 0 h.
Definition path_levy {D : Type} (P : D -> R -> R) (h : R) : levy D :=
  Levy (fun d => path_W (P d) h) (fun d => path_H (P d) h) (fun d => path_K (P d) h).
Definition cubic (p0 p1 p2 p3 s : R) : R := p0 + p1 * s + p2 * s ^ 2 + p3 * s ^ 3.

(** The position [x] and velocity [v] of a particle with friction [c], in a force field [u g] that may depend on time,
    driven by [rho] times the path with derivative [p]. *)
Definition langevin_equation (c u rho : R) (g p : R -> R) (x v : R -> R) : Prop :=
  forall s, is_derive x s (v s) /\ is_derive v s (- c * v s - u * g s + rho * p s).

(** The coefficients computed afresh for the step size [h]. *)
Definition fresh {D : Type} {C : Type -> Type} (S : foster_langevin D C) (gamma : D -> R) (h : R) (d : D) : C R :=
  if Rlt_dec (h * gamma d) (fl_taylor_threshold S) then fl_map S (fun p => polyval p h) (fl_tay S (gamma d))
  else fl_direct S h (gamma d).

(** The states that are reached by [init] followed by steps; the list are the step sizes, latest first, ending with the
    one given to [init]. *)
Inductive history {D : Type} {C : Type -> Type} (S : foster_langevin D C) (dims : list D) (T : langevin_terms D)
  : list R -> (D -> R) * (D -> R) -> langevin_state D C -> Prop :=
| hist_init h x0 v0 st : langevin_init S dims T h x0 = Some st -> history S dims T [h] (x0, v0) st
| hist_step hs y st others_close h lv j y' e st' :
    history S dims T hs y st -> langevin_step S dims T others_close h lv y st j = Some (y', e, st') ->
    history S dims T (h :: hs) y' st'.

(** Successive step sizes (latest first) that the solver takes to be the same, and the converse: each is equal to the
    previous one or taken to be different. *)
Definition taken_equal (h_prev h : R) : Prop := Rabs (h_prev - h) <= / 10 ^ 12 + / 10 ^ 10 * Rabs h.
Fixpoint all_taken_equal (hs : list R) : Prop :=
  match hs with h :: ((h_prev :: _) as tl) => taken_equal h_prev h /\ all_taken_equal tl | _ => True end.
Fixpoint none_drifts (hs : list R) : Prop :=
  match hs with h :: ((h_prev :: _) as tl) => (h = h_prev \/ ~ taken_equal h_prev h) /\ none_drifts tl | _ => True end.

(** How far the step sizes may drift without the coefficients being computed afresh. *)
Fixpoint slack (hs : list R) : R := match hs with [] => 0 | h :: tl => / 10 ^ 12 + / 10 ^ 10 * Rabs h + slack tl end.

(** A particle in one dimension with friction [gamma], free of forces, and no noise. *)
Definition free_terms (gamma : R) : langevin_terms unit :=
  LTerms (fun _ => gamma) (fun _ => 1) (fun _ => gamma) (fun _ => 1) (fun _ _ => 0).
Definition no_noise : levy unit := Levy (fun _ => 0) (fun _ => 0) (fun _ => 0).

Definition four_times_differentiable (f : R -> R) : Prop :=
  exists f1 f2 f3 f4 : R -> R,
    (forall x, is_derive f x (f1 x)) /\ (forall x, is_derive f1 x (f2 x)) /\ (forall x, is_derive f2 x (f3 x)) /\
    (forall x, is_derive f3 x (f4 x)) /\ (forall x, continuous f4 x).

(** A step of size [h] from [x0], [v0] in one dimension, with gradient [f] and driven by the path [P], is within [C h^n] of
    [X h], [V h] for small [h]. *)
Definition local_error {C : Type -> Type} (S : foster_langevin unit C) (n : nat) (gamma u rho : R) (f P : R -> R)
    (x0 v0 : R) (X V : R -> R) : Prop :=
  exists B h0, 0 < h0 /\ forall h x1 v1 f1 e, 0 < h <= h0 ->
    fl_compute_step S h (path_levy (fun _ => P) h) (fun _ => x0) (fun _ => v0) (fun _ => gamma) (fun _ => u)
      (fun x _ => f (x tt)) (fresh S (fun _ => gamma) h) (fun _ => rho)
      (if fl_is_fsal S then Some (fun _ => f x0) else None) = (x1, v1, f1, e) ->
    Rabs (x1 tt - X h) <= B * h ^ n /\ Rabs (v1 tt - V h) <= B * h ^ n.
