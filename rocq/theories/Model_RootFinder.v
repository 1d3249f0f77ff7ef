(** The root finder of the implicit Runge--Kutta solvers.  Models
    [/repo/diffrax/_root_finder/_verychord.py].  Sizes of updates are floats with special values
    ([Model_Float], exact arithmetic).  Linear solves, the function and the norm are arbitrary. *)
From Coq Require Import QArith List Bool Arith.
From Verif Require Import Model_Result Model_Float.
Import ListNotations.

(** [optx.RESULTS.nonlinear_divergence] and [optx.RESULTS.nonlinear_max_steps_reached] *)
Definition nonlinear_divergence : RESULTS := other_error 1.
Definition nonlinear_max_steps_reached : RESULTS := other_error 2.

(** [_verychord.py:22-26] [_small]; [resolution] is [10 ** (2 - precision)] of the dtype. *)
Definition small_ (resolution : Q) (diffsize : xq) : bool := xlt diffsize (QFin resolution).
(** [_verychord.py:29-30] [_diverged] *)
Definition diverged_ (rate : xq) : bool := (is_nan rate || is_inf rate) || xlt (QFin 2) rate.
(** [_verychord.py:33-34] [_converged] *)
Definition converged_ (factor : xq) (tol : Q) : bool := xlt (QFin 0) factor && xlt factor (QFin tol).

Section VeryChord.
  (** Y: iterates and updates; F: values of the function *)
  Context {Y F : Type}.

  (** [_verychord.py:69-73] with the function, the linear solver (at the linearisation in
      [linear_state], which never changes) and [diff, new_y -> norm(diff / (atol + rtol |new_y|))]. *)
  Record chord := Chord {
    ch_fn : Y -> F;
    ch_solve : F -> Y * RESULTS;
    ch_sub : Y -> Y -> Y;
    ch_size : Y -> Y -> xq;
    ch_kappa : Q;
    ch_resolution : Q
  }.
  (** [_verychord.py:37-43] without [linear_state] and [diff]. *)
  Record chord_state := ChordState {
    cs_diffsize : xq; cs_diffsize_prev : xq; cs_result : RESULTS; cs_step : nat
  }.

  (** [_verychord.py:75-113]; also what the solvers pass as [init_state]. *)
  Definition chord_init : chord_state := ChordState QPInf (QFin 1) successful 0.

  (** [_verychord.py:115-146] *)
  Definition chord_step (c : chord) (y : Y) (s : chord_state) : Y * chord_state :=
    let fx := ch_fn c y in
    let '(diff, result) := ch_solve c fx in
    let new_y := ch_sub c y diff in
    let diffsize := ch_size c diff new_y in
    (new_y, ChordState diffsize (cs_diffsize s) result (cs_step s + 1)).

  (** [_verychord.py:148-175] *)
  Definition chord_terminate (c : chord) (s : chord_state) : bool * RESULTS :=
    let at_least_two := (2 <=? cs_step s)%nat in
    let rate := xdiv (cs_diffsize s) (cs_diffsize_prev s) in
    let factor := xdiv (xmul (cs_diffsize s) rate) (xsub (QFin 1) rate) in
    let small := small_ (ch_resolution c) (cs_diffsize s) in
    let diverged := diverged_ rate in
    let converged := converged_ factor (ch_kappa c) in
    let terminate := at_least_two && (small || diverged || converged) in
    let terminate_result :=
      where_ (at_least_two && negb small && (diverged || negb converged)) nonlinear_divergence successful in
    let linsolve_fail := negb (is_successful (cs_result s)) in
    let result := where_ linsolve_fail (cs_result s) terminate_result in
    (linsolve_fail || terminate, result).

  (** [optx.root_find] (external): a loop of at most [max_steps] steps whose condition [continue_] is some
      function of what [terminate] returns; afterwards, [nonlinear_max_steps_reached] is reported if
      [terminate] neither holds nor reports an error.  Returns the value, result and number of steps. *)
  Fixpoint root_find_loop (c : chord) (continue_ : bool -> RESULTS -> bool) (max_steps : nat) (y : Y) (s : chord_state)
    : Y * chord_state :=
    match max_steps with
    | O => (y, s)
    | S n => let '(terminate, result) := chord_terminate c s in
             if continue_ terminate result then
               let '(y, s) := chord_step c y s in root_find_loop c continue_ n y s
             else (y, s)
    end.
  Definition root_find (c : chord) (continue_ : bool -> RESULTS -> bool) (max_steps : nat) (y0 : Y) : Y * RESULTS * nat :=
    let '(y, s) := root_find_loop c continue_ max_steps y0 chord_init in
    let '(terminate, result) := chord_terminate c s in
    (y, where_ (is_successful result && negb terminate) nonlinear_max_steps_reached result, cs_step s).
End VeryChord.
Arguments chord : clear implicits.
