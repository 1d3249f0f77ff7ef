(** Specification vocabulary: mean-square ("strong") errors of solutions of Ito equations.

    Nothing here mentions the code.  Random variables are functions on a sample space [Omega]; [known t f] says that
    [f] is a square-integrable random variable that is determined by what happens until time [t]. *)
From Coq Require Import Reals List.
Import ListNotations.
Open Scope R_scope.

(** [f i] summed over the positions [l] *)
Definition total {A : Type} (l : list A) (f : A -> R) : R := fold_right (fun a acc => f a + acc) 0 l.

Section Probability.
  Context {Omega K : Type}.
  Notation rv := (Omega -> R).

  Record space := Space {
    integrable : rv -> Prop;
    mean : rv -> R;
    known : R -> rv -> Prop
  }.

  (** What is needed of a probability space with a filtration. *)
  Record probability (P : space) : Prop := Probability {
    integrable_ext : forall f g, integrable P f -> (forall w, f w = g w) -> integrable P g;
    integrable_linear : forall a b f g, integrable P f -> integrable P g -> integrable P (fun w => a * f w + b * g w);
    mean_linear : forall a b f g, integrable P f -> integrable P g ->
      mean P (fun w => a * f w + b * g w) = a * mean P f + b * mean P g;
    mean_monotone : forall f g, integrable P f -> integrable P g -> (forall w, f w <= g w) -> mean P f <= mean P g;
    mean_one : mean P (fun _ => 1) = 1;
    known_ext : forall t f g, known P t f -> (forall w, f w = g w) -> known P t g;
    known_const : forall t c, known P t (fun _ => c);
    known_linear : forall t a b f g, known P t f -> known P t g -> known P t (fun w => a * f w + b * g w);
    known_later : forall s t f, s <= t -> known P s f -> known P t f;
    (** Lipschitz functions of finitely many known random variables are known. *)
    known_lipschitz : forall t (A : Type) (l : list A) (X : A -> rv) (phi : (A -> R) -> R) (L : R),
      (forall a, In a l -> known P t (X a)) ->
      (forall x y, (phi x - phi y) ^ 2 <= L * total l (fun a => (x a - y a) ^ 2)) ->
      known P t (fun w => phi (fun a => X a w));
    (** The product of two square-integrable random variables is integrable. *)
    known_product : forall t f g, known P t f -> known P t g -> integrable P (fun w => f w * g w)
  }.

  (** The increments of the paths [W w], with components [ks], between the times [times], behave like those of a Brownian
      motion as far as second moments can tell: they are centred, have variance [t - s] and different components
      are uncorrelated, given everything that is known at time [s]. *)
  Record brownian (P : space) (ks : list K) (times : R -> Prop) (W : Omega -> R -> K -> R) : Prop := Brownian {
    increment_known : forall s t k f, times s -> times t -> s < t -> In k ks -> known P s f ->
      known P t (fun w => f w * (W w t k - W w s k));
    increment_centred : forall s t k f g, times s -> times t -> s < t -> In k ks -> known P s f -> known P s g ->
      mean P (fun w => f w * (g w * (W w t k - W w s k))) = 0;
    increment_variance : forall s t k f g, times s -> times t -> s < t -> In k ks -> known P s f -> known P s g ->
      mean P (fun w => (f w * (W w t k - W w s k)) * (g w * (W w t k - W w s k))) = (t - s) * mean P (fun w => f w * g w);
    increment_uncorrelated : forall s t k l f g, times s -> times t -> s < t -> In k ks -> In l ks -> k <> l ->
      known P s f -> known P s g ->
      mean P (fun w => (f w * (W w t k - W w s k)) * (g w * (W w t l - W w s l))) = 0
  }.

  (** The mean of the squared norm of a random vector with positions [is] *)
  Definition mean_square {I : Type} (P : space) (is : list I) (X : Omega -> I -> R) : R :=
    total is (fun i => mean P (fun w => X w i ^ 2)).
  Definition known_vector {I : Type} (P : space) (is : list I) (t : R) (X : Omega -> I -> R) : Prop :=
    forall i, In i is -> known P t (fun w => X w i).
End Probability.
Arguments space : clear implicits.

Section Equation.
  Context {I K : Type}.
  Notation Y := (I -> R).

  (** Drift [f] and diffusion [g] are Lipschitz in the state and 1/2-Hoelder in time, between [t0] and [t1]. *)
  Definition ito_lipschitz (is : list I) (ks : list K) (t0 t1 L : R) (f : R -> Y -> Y) (g : R -> Y -> (I * K -> R)) : Prop :=
    forall s t x y, t0 <= s <= t1 -> t0 <= t <= t1 ->
      total is (fun i => (f s x i - f t y i) ^ 2) + total ks (fun k => total is (fun i => (g s x (i, k) - g t y (i, k)) ^ 2))
      <= L * (total is (fun i => (x i - y i) ^ 2) + Rabs (t - s)).

  (** What the process [x] does between [s] and [t] besides [f (t - s) + g (W t - W s)], with [f] and [g] at time [s]. *)
  Definition ito_rest {Omega : Type} (ks : list K) (f : R -> Y -> Y) (g : R -> Y -> (I * K -> R)) (W : Omega -> R -> K -> R)
             (x : R -> Omega -> Y) (s t : R) (w : Omega) : Y :=
    fun i => x t w i - (x s w i + f s (x s w) i * (t - s) + total ks (fun k => g s (x s w) (i, k) * (W w t k - W w s k))).

  (** [x] solves the Ito equation [dx = f dt + g dW]: over a short time [h] it moves by [f h + g (W t - W s)], up to a
      rest whose mean square is [O(h^2)] and whose mean, given the past, is [O(h^(3/2))].  (For the true solution the rest is
      the integral of [f (x u) - f (x s)] plus the Ito integral of [g (x u) - g (x s)], for which this holds.  If
      [dW] were read as Stratonovich's differential instead, the mean of the rest would only be [O(h)].) *)
  Definition ito_solution {Omega : Type} (P : space Omega) (is : list I) (ks : list K) (times : R -> Prop) (f : R -> Y -> Y)
             (g : R -> Y -> (I * K -> R)) (W : Omega -> R -> K -> R) (x : R -> Omega -> Y) (M : R) : Prop :=
    (forall t, times t -> known_vector P is t (x t)) /\
    forall s t, times s -> times t -> s < t ->
      mean_square P is (ito_rest ks f g W x s t) <= M * (t - s) ^ 2 /\
      forall phi, known_vector P is s phi ->
        total is (fun i => mean P (fun w => phi w i * ito_rest ks f g W x s t w i)) ^ 2 <= M * (t - s) ^ 3 * mean_square P is phi.
End Equation.

(** The times [ts], after [t], increase, by at most [H] each. *)
Fixpoint grid (t : R) (ts : list R) (H : R) : Prop :=
  match ts with [] => True | t1 :: ts => t < t1 <= t + H /\ grid t1 ts H end.
(** [fine] has all times of [coarse], with others before the last. *)
Inductive refines : list R -> list R -> Prop :=
| refines_nil : refines [] []
| refines_keep t coarse fine : refines coarse fine -> refines (t :: coarse) (t :: fine)
| refines_add t u coarse fine : refines (u :: coarse) fine -> refines (u :: coarse) (t :: fine).
