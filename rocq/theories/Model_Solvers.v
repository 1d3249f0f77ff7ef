(** The solvers that are not Runge--Kutta methods with a tableau.  Models, in [/repo/diffrax/_solver]:
    [euler.py], [implicit_euler.py], [reversible_heun.py], [semi_implicit_euler.py],
    [leapfrog_midpoint.py], [euler_heun.py] and [HalfSolver] in [base.py].
    Values are functions from positions to reals and [args] is fixed, as in [Model_RK].  Arithmetic is
    exact.  The error estimate is [None] if the solver returns [None]. *)
From Coq Require Import Reals List Bool.
From Verif Require Import Model_Result Model_Loop Model_RK.
Import ListNotations.
Open Scope R_scope.

(** [base.py:74-205] [AbstractSolver] applied to terms: [init] and [step]. *)
Record method (Y SS DI : Type) := Method {
  me_init : R -> R -> Y -> SS;
  me_step : R -> R -> Y -> SS -> bool -> step_out Y SS DI (option Y)
}.
Arguments Method {Y SS DI}.
Arguments me_init {Y SS DI}.
Arguments me_step {Y SS DI}.

Section Methods.
  Context {I J C : Type}.
  Notation Y := (I -> R).
  Notation F := (J -> R).
  (** [dense_info=dict(y0=y0, y1=y1)], for [LocalLinearInterpolation] *)
  Notation DI := (Y * Y)%type.

  (** [euler.py:47-61] *)
  Definition euler (trm : term I J C) : method Y unit DI := {|
    me_init := fun _ _ _ => tt;
    me_step := fun t0 t1 y0 _ _ =>
      let control := t_contr trm t0 t1 in
      let y1 := vadd y0 (t_vf_prod trm t0 y0 control) in
      StepOut y1 None (y0, y1) tt successful |}.

  (** [implicit_euler.py:19-22] [_implicit_relation] *)
  Definition implicit_relation (vf_prod : R -> Y -> C -> Y) (t1 : R) (y0 : Y) (control : C) (z1 : Y) : Y :=
    vsub (vf_prod t1 (vadd y0 z1) control) z1.
  (** [implicit_euler.py:66-100].  [root_find] is [optx.root_find] with the root finder and
      [root_find_max_steps] of the solver: from a function and a start to a value and a result. *)
  Definition implicit_euler (root_find : (Y -> Y) -> Y -> Y * RESULTS) (trm : term I J C) : method Y unit DI := {|
    me_init := fun _ _ _ => tt;
    me_step := fun t0 t1 y0 _ _ =>
      let control := t_contr trm t0 t1 in
      let k0 := t_vf_prod trm t0 y0 control in
      let '(k1, result) := root_find (implicit_relation (t_vf_prod trm) t1 y0 control) k0 in
      let y1 := vadd y0 k1 in
      let y_error := vscale (1 / 2) (vsub k1 k0) in
      StepOut y1 (Some y_error) (y0, y1) tt result |}.

  (** [reversible_heun.py:49-83]; the state is [(yhat, vf)]. *)
  Definition reversible_heun (trm : term I J C) : method Y (Y * F) DI := {|
    me_init := fun t0 _ y0 => (y0, t_vf trm t0 y0);
    me_step := fun t0 t1 y0 solver_state made_jump =>
      let '(yhat0, vf0) := solver_state in
      let vf0 := if made_jump then t_vf trm t0 y0 else vf0 in
      let control := t_contr trm t0 t1 in
      let yhat1 := vadd (vsub (vscale 2 y0) yhat0) (t_prod trm vf0 control) in
      let vf1 := t_vf trm t1 yhat1 in
      let y1 := vadd y0 (vscale (1 / 2) (t_prod trm (vadd vf0 vf1) control)) in
      let y1_error := vscale (1 / 2) (t_prod trm (vsub vf1 vf0) control) in
      StepOut y1 (Some y1_error) (y0, y1) (yhat1, vf1) successful |}.

  (** [leapfrog_midpoint.py:54-82]; the state is the previous time and value. *)
  Definition leapfrog_midpoint (trm : term I J C) : method Y (R * Y) DI := {|
    me_init := fun t0 _ y0 => (t0, y0);
    me_step := fun t0 t1 y0 solver_state _ =>
      let '(tm1, ym1) := solver_state in
      let control := t_contr trm tm1 t1 in
      let y1 := vadd ym1 (t_vf_prod trm t0 y0 control) in
      StepOut y1 None (y0, y1) (t0, y0) successful |}.

  (** [euler_heun.py:52-77] *)
  Definition euler_heun {J' C' : Type} (drift : term I J C) (diffusion : term I J' C') : method Y unit DI := {|
    me_init := fun _ _ _ => tt;
    me_step := fun t0 t1 y0 _ _ =>
      let dt := t_contr drift t0 t1 in
      let dW := t_contr diffusion t0 t1 in
      let f0 := t_vf_prod drift t0 y0 dt in
      let g0 := t_vf_prod diffusion t0 y0 dW in
      let y_prime := vadd y0 g0 in
      let g_prime := t_vf_prod diffusion t0 y_prime dW in
      let y1 := vadd (vadd y0 f0) (vscale (1 / 2) (vadd g0 g_prime)) in
      StepOut y1 None (y0, y1) tt successful |}.
End Methods.

Section SemiImplicit.
  Context {I1 I2 C1 C2 : Type}.
  Notation Y1 := (I1 -> R).
  Notation Y2 := (I2 -> R).
  (** A term for [SemiImplicitEuler]: its vector field depends on one half of the state and it updates the
      other half.  Only the two methods used. *)
  Record half_term (Yin Yout C : Type) := HalfTerm {
    ht_contr : R -> R -> C;
    ht_vf_prod : R -> Yin -> C -> Yout
  }.
  (** [semi_implicit_euler.py:46-68] *)
  Definition semi_implicit_euler (term_1 : half_term Y2 Y1 C1) (term_2 : half_term Y1 Y2 C2)
    : method (Y1 * Y2) unit ((Y1 * Y2) * (Y1 * Y2)) := {|
    me_init := fun _ _ _ => tt;
    me_step := fun t0 t1 y0 _ _ =>
      let '(y0_1, y0_2) := y0 in
      let control1 := ht_contr _ _ _ term_1 t0 t1 in
      let control2 := ht_contr _ _ _ term_2 t0 t1 in
      let y1_1 := vadd y0_1 (ht_vf_prod _ _ _ term_1 t0 y0_2 control1) in
      let y1_2 := vadd y0_2 (ht_vf_prod _ _ _ term_2 t0 y1_1 control2) in
      let y1 := (y1_1, y1_2) in
      StepOut y1 None (y0, y1) tt successful |}.
End SemiImplicit.
Arguments HalfTerm {Yin Yout C}.
Arguments ht_contr {Yin Yout C}.
Arguments ht_vf_prod {Yin Yout C}.

(** [base.py:303-341] [HalfSolver]. *)
Definition half_solver {I SS DI : Type} (solver : method (I -> R) SS DI) : method (I -> R) SS DI := {|
  me_init := me_init solver;
  me_step := fun t0 t1 y0 original_solver_state made_jump =>
    let thalf := t0 + 1 / 2 * (t1 - t0) in
    let out1 := me_step solver t0 thalf y0 original_solver_state made_jump in
    let out2 := me_step solver thalf t1 (so_y out1) (so_state out1) false in
    let out3 := me_step solver t0 t1 y0 original_solver_state made_jump in
    let y_error := fun i => Rabs (so_y out2 i - so_y out3 i) in
    let result := update_result (so_result out1) (update_result (so_result out2) (so_result out3)) in
    StepOut (so_y out2) (Some y_error) (so_dense out3) (so_state out2) result |}.
