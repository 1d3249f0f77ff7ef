(** Specification vocabulary for the order of Runge--Kutta methods: rooted trees, order conditions, Taylor
    expansions and exact solutions. *)
From Coq Require Import Reals QArith Qreals List Bool Arith.
From Verif Require Import Model_Result Model_RK Model_Terms Spec_RK.
Import ListNotations.
Open Scope R_scope.

(** Rooted (plane) trees.  The nodes are labelled with the part of the equation they come from; leaves may
    also stand for the time argument of the part of their parent. *)
Inductive tree : Set :=
| Time
| Node (part : nat) (children : list tree).

Fixpoint size (t : tree) : nat :=
  match t with Time => 1 | Node _ l => S (fold_right (fun u n => size u + n)%nat 0%nat l) end.
(** The density: the product of the sizes of all subtrees. *)
Fixpoint density (t : tree) : nat :=
  match t with
  | Time => 1
  | Node _ l => (size t * fold_right (fun u n => density u * n) 1 l)%nat
  end.
(** Only parts below [n] occur. *)
Fixpoint of_parts (n : nat) (t : tree) : Prop :=
  match t with
  | Time => True
  | Node p l => (p < n)%nat /\ fold_right (fun u P => of_parts n u /\ P) True l
  end.
Definition is_node (t : tree) : Prop := match t with Time => False | Node _ _ => True end.
Definition root (t : tree) : nat := match t with Time => 0%nat | Node p _ => p end.

Section Weights.
  Variable tabs : list tableau.
  Variable s : nat.
  Definition no_tableau : tableau := Tableau [] [] [] [] None None 0%Q.
  Definition part_tableau (p : nat) : tableau := nth p tabs no_tableau.

  (** The elementary weight of stage [i]. *)
  Fixpoint weight (i : nat) (t : tree) : R :=
    match t with
    | Time => 0
    | Node p l =>
        fold_right (fun u acc =>
          match u with
          | Time => coef_c (part_tableau p) i
          | Node q _ => sum_n s (fun j => coef_a (part_tableau q) i j * weight j u)
          end * acc) 1 l
    end.

  (** By how much the order condition of a tree is missed. *)
  Definition residual (t : tree) : R :=
    sum_n s (fun i => coef_b (part_tableau (root t)) i * weight i t) - / INR (density t).
  (** The same for the error estimate, which should vanish. *)
  Definition error_residual (t : tree) : R :=
    sum_n s (fun i => coef_e (part_tableau (root t)) i * weight i t).

  (** The order conditions of all trees with at most [p] nodes. *)
  Definition has_order (p : nat) : Prop :=
    forall t, is_node t -> of_parts (length tabs) t -> (size t <= p)%nat -> residual t = 0.
  Definition error_has_order (p : nat) : Prop :=
    forall t, is_node t -> of_parts (length tabs) t -> (size t <= p)%nat -> error_residual t = 0.
  (** The same up to rounding of the coefficients. *)
  Definition has_order_up_to (eps : R) (p : nat) : Prop :=
    forall t, is_node t -> of_parts (length tabs) t -> (size t <= p)%nat -> Rabs (residual t) <= eps.
  Definition error_has_order_up_to (eps : R) (p : nat) : Prop :=
    forall t, is_node t -> of_parts (length tabs) t -> (size t <= p)%nat -> Rabs (error_residual t) <= eps.
End Weights.

Section Analysis.
  Context {I : Type}.
  Notation Y := (I -> R).

  Definition bounded {K : Type} (v : K -> R) (B : R) : Prop := forall x, Rabs (v x) <= B.

  (** An increment of time and state: time is at [None]. *)
  Notation increment := (option I -> R).

  Definition multilinear (D : list increment -> Y) : Prop :=
    forall l l' a b u v x,
      D (l ++ (fun o => a * u o + b * v o) :: l') x = a * D (l ++ u :: l') x + b * D (l ++ v :: l') x.
  Definition bounded_map (D : list increment -> Y) : Prop :=
    forall m, exists M, forall l Bs, length l = m -> Forall2 bounded l Bs ->
      bounded (D l) (M * fold_right Rmult 1 Bs).

  (** [f] has a Taylor expansion with terms [D [], D [v], D [v; v], ...] at [(t0, y0)], with remainder of
      order [p]; thus [D] applied to [m] increments is the [m]th derivative divided by [m!]. *)
  Definition taylor (p : nat) (f : R -> Y -> Y) (t0 : R) (y0 : Y) (D : list increment -> Y) : Prop :=
    multilinear D /\ bounded_map D /\
    exists delta M, 0 < delta /\ 0 <= M /\
      forall v B, 0 <= B <= delta -> bounded v B ->
        bounded (fun x => f (t0 + v None) (fun x => y0 x + v (Some x)) x
                          - sum_n p (fun m => D (repeat v m) x)) (M * B ^ p).
  Definition smooth (p : nat) (f : R -> Y -> Y) (t0 : R) (y0 : Y) : Prop := exists D, taylor p f t0 y0 D.

  (** [y] solves [y' = f_1 (t, y) + ... + f_n (t, y)], [y(t0) = y0], on [t0, t0 + T]. *)
  Definition exact_solution (fs : list (R -> Y -> Y)) (t0 : R) (y0 : Y) (T : R) (y : R -> Y) : Prop :=
    (forall x, y t0 x = y0 x) /\
    (forall eps, 0 < eps -> exists h0, 0 < h0 /\ forall h, 0 <= h <= h0 -> bounded (fun x => y (t0 + h) x - y0 x) eps) /\
    (forall h x, 0 <= h <= T ->
       derivable_pt_lim (fun h => y (t0 + h) x) h
         (sum_n (length fs) (fun m => nth m fs (fun _ _ _ => 0) (t0 + h) (y (t0 + h)) x))).

  Definition ode_parts (ps : list (tableau * (R -> Y -> Y))) : list (tableau * term I I R) :=
    map (fun p => (fst p, ode_term (snd p))) ps.

  (** A family of solutions of the equations of Runge--Kutta steps of all small sizes, with stages that
      tend to the initial value. *)
  Definition rk_family (s : nat) (ps : list (tableau * (R -> Y -> Y))) (t0 : R) (y0 : Y) (T : R)
             (k : R -> nat -> nat -> Y) : Prop :=
    (forall h, 0 < h <= T -> rk_equations s (ode_parts ps) t0 (t0 + h) y0 (k h)) /\
    (forall eps, 0 < eps -> exists h0, 0 < h0 /\ forall h i, 0 < h <= h0 -> (i < s)%nat ->
       bounded (fun x => stage_value s (ode_parts ps) y0 (k h) i x - y0 x) eps).
  (** The stages computed by a step. *)
  Definition stages_of {J : Type} (out : rk_out I J) (m i : nat) : Y :=
    fun x => nth i (nth m (ro_k out) []) (fun _ => 0) x.
End Analysis.
