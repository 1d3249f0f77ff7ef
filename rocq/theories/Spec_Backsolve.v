(** Specification vocabulary for [BacksolveAdjoint]. *)
From Coq Require Import List Bool Arith Reals.
From Verif Require Import Model_Backsolve.
Import ListNotations.

(** [s] and [t] are adjacent among the time [t0] and the saved times [ts], and the solution at [t] is
    [y]. *)
Definition adjacent {T Y} (t0 : T) (ts : list T) (ys : list Y) (s t : T) (y : Y) : Prop :=
  exists k, nth_error (t0 :: ts) k = Some s /\ nth_error ts k = Some t /\ nth_error ys k = Some y.

(** Commutative addition with a zero. *)
Record additive {A} (add : A -> A -> A) (zero : A) : Prop := Additive {
  add_comm : forall a b, add a b = add b a;
  add_assoc : forall a b c, add a (add b c) = add (add a b) c;
  add_zero : forall a, add zero a = a
}.
Record linear {A B} (add : A -> A -> A) (zero : A) (add' : B -> B -> B) (zero' : B) (f : A -> B) : Prop := Linear {
  lin_add : forall a b, f (add a b) = add' (f a) (f b);
  lin_zero : f zero = zero'
}.

(** A family of pullbacks: [pull s t] takes a cotangent of the solution at time [t] to one at [s],
    [par s t] to the cotangent of the parameters that act between [s] and [t]. *)
Record pullback {T A P} (add : A -> A -> A) (zero : A) (add_p : P -> P -> P) (zero_p : P)
    (pull : T -> T -> A -> A) (par : T -> T -> A -> P) : Prop := Pullback {
  pull_linear : forall s t, linear add zero add zero (pull s t);
  par_linear : forall s t, linear add zero add_p zero_p (par s t);
  pull_id : forall t a, pull t t a = a;
  par_id : forall t a, par t t a = zero_p;
  pull_comp : forall s t u a, pull s t (pull t u a) = pull s u a;
  par_comp : forall s t u a, par s u a = add_p (par t u a) (par s t (pull t u a))
}.

(** The sum of a list. *)
Definition total {A} (add : A -> A -> A) (zero : A) (l : list A) : A := fold_right add zero l.

(** The intervals between [t0] and the saved times, in the order in which they occur, *)
Fixpoint intervals {T} (t0 : T) (ts : list T) : list (T * T) :=
  match ts with [] => [] | t :: ts' => (t0, t) :: intervals t ts' end.
(** and a list of calls over given intervals, each from its end to its start: the first one without
    jump and state, every other one with a jump and the state that the call before it returned. *)
Fixpoint calls_from {T} (st : option (T * T)) (l : list (T * T)) : list (T * T * bool * option (T * T)) :=
  match l with
  | [] => []
  | (s, t) :: l' => (t, s, match st with None => false | Some _ => true end, st) :: calls_from (Some (t, s)) l'
  end.

(** Dot product of vectors with [n] components *)
Fixpoint dot (n : nat) (a b : vec) : R :=
  match n with O => 0%R | S k => (dot k a b + a k * b k)%R end.
