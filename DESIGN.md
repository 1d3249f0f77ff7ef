# A Rocq model of diffrax: design

The subject is `patrick-kidger/diffrax`, read as text in `/repo`.  The model is a set of
Gallina functions, one per Python function of interest, each with a comment giving the file and
lines it models.  The properties are those of `properties.jsonl`.

## 1. Conventions

* **Time in the integration loop** is modelled by the *ordinal of a floating point number*: a
  finite float is an integer `z : Z`, ordered as floats are; `eqxi.nextafter` is `z+1`,
  `eqxi.prevbefore` is `z-1`, and negation is exact.  (This identifies `-0.0` with `+0.0`, and leaves
  out overflow to infinity.)  This is what makes the ULP-level logic of `_clip_to_end`
  (`prevbefore` applied 100 times) and of `ClipStepSizeController` faithful.  Times that come out of
  real arithmetic (`t0 + dt`) are oracles with the hypotheses that are stated in the theorems.
* **Numerics** (interpolation, Runge-Kutta, terms, solvers, Brownian motion, SRK, Langevin) are over
  `R`: exact arithmetic, no rounding.  The PID controller and the root finder use rationals extended
  with two infinities and NaN (`Model_Float`): the rules for special values are those of IEEE 754,
  the arithmetic is exact.  The constant step grid is over any arithmetic (a parameter).
* **User code** (vector fields, `fn`, event functions, progress meters, user solvers and controllers)
  and external libraries (root finders, linear solvers, PRNG) are fields of a configuration record
  or arguments of the functions, i.e. universally quantified in every theorem.  None is an axiom.
* **JAX arrays** are lists.  `dynamic_update_slice` has its clamping semantics; an update longer than
  the buffer is the error value `None` (JAX raises a `TypeError`).  PyTrees of `SubSaveAt`s and events
  are lists (flattening order).  In the numerical files a PyTree of arrays is a function from
  positions to numbers.
* **Loops**: `eqxi.while_loop(max_steps=n)` is iteration with fuel `n`; the theorems say what happens
  when the fuel runs out (`max_steps_reached`), which is a real outcome in the code as well.  For
  `max_steps=None` the theorems quantify over the number of iterations made.
* **vmap** is not modelled except where stated (C49, C51, C53): a batch is a list, `unvmap_any` is
  `existsb`, or the rest of the batch is an arbitrary boolean.

## 2. Files

`Base_*.v` lemmas about lists, `Model_*.v` definitions only, `Spec_*.v` small independent
specifications, `Proof_*.v` proofs, `Ex_*.v` concrete instances, `Prop_*.v` the theorems of
MANIFEST.json with an `Example` each showing that the hypotheses are met, and `Print Assumptions`.

## 3. What is modelled

| source in `/repo/diffrax` | model | left out |
|---|---|---|
| `_integrate.py`: `_save`, `_clip_to_end`, `loop` | `Model_Loop` | gradients, dtypes, sharding, `checkpointed` loops |
| `_integrate.py`: normalisation of time in `diffeqsolve`, unwrapping of the result | `Model_Direction` | `fill_unused` of PyTrees of `None` |
| `_solution.py` (`RESULTS`, `update_result`, `is_okay`, ...) | `Model_Result` | error messages |
| `_saveat.py`, `_event.py` | part of `Model_Loop` (`SubSaveAt`, events; condition functions are any functions of time, state and step) | (see `Model_Front`) |
| `_step_size_controller/base.py` | an oracle in `Model_Loop` (`adapt`), with the documented contract in `Spec_Loop` | |
| `_step_size_controller/clip.py` | `Model_Clip` | dtypes |
| `_step_size_controller/constant.py` | `Model_Fixed` | |
| `_step_size_controller/pid.py` | `Model_PID`, `Model_Float` | rounding (`_select_initial_step` is in `Model_InitialStep`) |
| `_global_interpolation.py` | `Model_Dense`, `Model_Interp`; `DenseInterpolation` over real time with `derivative`, and `Solution.evaluate`, `Solution.derivative`, in `Model_DenseDeriv` | float rounding, batching |
| `_local_interpolation.py` | `Model_Interp` | |
| `_solver/runge_kutta.py` | `Model_RK` | kinds of scan, gradients, structure checks |
| the tableaus and `order` in `_solver/*.py` | `Model_Tableaus`, `Model_Orders`, `Model_MethodOrders` | rounding of coefficients to floats |
| the interpolations in `_solver/*.py`, `from_k` in `_local_interpolation.py` | `Model_DenseOutput` | rounding; `evaluate(t0, t1)` with two arguments |
| `_select_initial_step`, `PIDController.init`, wrapping of terms and the first `tnext` in `diffeqsolve` | `Model_InitialStep` | rounding, NaN; `controller_state` passed by the user |
| `_solver/{base,euler,implicit_euler,euler_heun,reversible_heun,leapfrog_midpoint,semi_implicit_euler}.py` | `Model_Solvers` | |
| `_solver/{srk,sea,shark,shark_general,slowrk,spark,sra1,milstein}.py` | `Model_SRK` | complex numbers, checks of Levy areas |
| `_solver/{foster_langevin_srk,align,should,quicsort}.py` | `Model_Langevin` | broadcasting and shape checks |
| `_root_finder/_verychord.py` | `Model_RootFinder` | the driver loop of optimistix (any continuation rule) |
| `_term.py` | `Model_Terms` (also `AdjointTerm` in `Model_Backsolve`) | complex numbers, lineax operators, broadcasting |
| `_term.py`: `AdjointTerm.vf`, `prod`, `is_vf_expensive`, on PyTrees of arrays of any shape | `Model_PyTree`, `Model_AdjointTerm` | complex numbers; `jax.jvp` and `jax.vjp` are parameters; arrays of different shapes are not broadcast in sums |
| `_term.py`: the terms of the underdamped Langevin equation, on PyTrees of arrays of any shape with broadcasting | `Model_PyTree`, `Model_LangevinTerm` | dtypes, NaN, rounding |
| `_brownian/tree.py`, `_brownian/path.py` | `Model_Brownian` | dtypes, PRNG bits (samples are any function of the key), rounding |
| `_progress_meter.py` | `Model_Meter` | formatting, rounding, threads other than the interleaving of calls |
| `_adjoint.py`: `BacksolveAdjoint` | `Model_Backsolve` | the other adjoints (they change how JAX differentiates, not what is computed), discretisation error of the backward solves |
| `_integrate.py`: the checks of `diffeqsolve`; `_heuristics.py`; constructors in `_saveat.py`, `clip.py`, `constant.py`; guards in `_adjoint.py`; `isinstance` in `_solver/base.py`; `_root_finder/_with_tols.py`; `steady_state_event` | `Model_Front` | types, shapes, dtypes, warnings; the result of `_assert_term_compatible` is one boolean here (see `Model_Compat`) |
| `_integrate.py:1043-1044` in floating point | `Model_FrontFloat` (Flocq's FLT formats) | overflow, NaN, flushing of denormals |
| `_typing.py` | `Model_Typing` (class tables, annotations) | `TypeVarTuple`, `ParamSpec`, equality of unions up to order |
| `_integrate.py`: `_assert_term_compatible`, deprecated tuples; `_solver/base.py`: `_term_compatible_contr_kwargs`; `term_structure` of the solvers | `Model_Compat` | PyTrees other than tuples; what `eval_shape` returns is abstract |
| `_adjoint.py`: `ImplicitAdjoint`; `solver.func` | `Model_Implicit` | `implicit_jvp` of optimistix and the linear solver are represented by what they compute; nested `MultiTerm`s; terms other than `ODETerm` |
| `_integrate.py` `loop`, `pid.py`, `constant.py` in forward-mode differentiation (`ForwardMode`, `DirectAdjoint`) | `Model_Tangent` | JAX's differentiation rules for one step of the solver are parameters; real arithmetic; events, jumps, dense output; `stepsize_controller` other than PID, constant, StepTo |
| `_adjoint.py` (others), `_autocitation.py`, `_custom_types.py`, `_path.py` | - | not modelled |

## 4. Plan for each property

| id | model | how |
|----|-------|-----|
| C01 | `Model_Loop`: `body`, `cond`, `run`, `solve` | invariant over `run` |
| C02 | same, with the controller contract | invariant; contract proved for each controller |
| C03 | same | loop exit analysis |
| C04 | same, `save_ts` inner loop | refinement of the buffers to an append-only log of the trace |
| C05 | same, `_save`, `out_size` | refinement, counting argument |
| C06 | same, `save_steps` | refinement |
| C07 | same, `_save_t1` | refinement; witnesses by computation for the false cases |
| C08 | same, `body` | case analysis on one arbitrary step |
| C09 | same, event mask | invariant |
| C10 | same, event triggering | simulation with first crossing on the accepted trace |
| C11 | same, `_root_find`, `unsave` | bracket invariant, log filtering |
| C12 | same | invariant; witness for events |
| C13, C14 | same | projection of the state onto the part without observers commutes with `body` |
| C15 | `Model_Loop` + `Model_Dense` | both equal the same function of the trace |
| C16 | `Model_Direction` | relational; witness for events |
| C17-C21 | `Model_Clip` | invariant of the controller over arbitrary inner proposals; witnesses |
| C22-C24 | `Model_PID` over extended rationals | direct; measure for C24 |
| C25-C27 | `Model_Fixed` | induction on steps |
| C28, C29 | `Model_RK` over functions to `R` | induction on stages; invariant on history |
| C30, C31 | `Model_Tableaus` over Q, rooted trees | enumeration proved complete, then computation; the order theorem itself is proved (Taylor expansion along the solution) |
| C32, C48 | `Model_Result`, `Model_Solvers` | case analysis, induction |
| C33-C36 | `Model_Solvers` | algebra, induction on steps |
| C37 | `Model_RootFinder` | invariant |
| C38 | `Model_Interp`, `Model_DenseOutput` over R | field, derivative; computation with rationals |
| C39-C43 | `Model_Interp` over R / option R | induction on lists |
| C44-C46 | `Model_Brownian` | normals as orthonormal formal basis; induction on depth, with the joint covariance of `W`, `H`, `K` of each interval as invariant |
| C47 | `Model_Terms` | algebra |
| C49 | `Model_Meter` | invariant over interleavings |
| C50 | `Model_Backsolve` | induction on number of saved times |
| C51 | batch version of the two fast paths (`Model_Loop`) | relational; witness |
| C52 | `Model_Direction` | invariant; witness |
| C53 | `Model_Langevin` | Taylor remainder bounds; closed form of the solution; expansions in the step size; invariant over histories; witnesses |
| C54 | `Model_SRK` | algebra, induction on stages; Gronwall-type bounds for local errors |
| C55 | `Model_Loop` | iteration composition |
| C56 | `Model_Loop` | sortedness of the log |
| C57 | `Model_InitialStep` over R | case analysis on the two thresholds; witness for `diffeqsolve` |
| C58 | `Model_DenseOutput`, rooted trees | the dense output is a linear combination of the stages with polynomial weights; order conditions for every power, by computation; expansion of the solution inside the step |
| C59 | `Model_Loop` with `Model_RK` and `Model_DenseOutput` | local error uniform along the solution (compactness is a hypothesis: uniform constants), stability by Lipschitz bounds of the stages, discrete Gronwall by induction on the accepted steps of any history |
| C60 | `Model_RK` with `Model_Tableaus`, `Model_Solvers` (implicit Euler), `Model_Loop` | the stages of a step on `y' = lambda y` are rational functions of `h lambda`; their numerators are computed in ball arithmetic over the rationals; `(1 + eps) \|Q\|^2 - \|P\|^2` is a polynomial in `-Re z` and `(Im z)^2` without negative coefficients, after subtracting sums of squares; induction on the accepted steps |
| C61 | `Model_Front`, `Model_Direction`, `Model_Loop`; `Model_FrontFloat` | every check characterised in the user's time (`acceptable`), both directions; accepted calls normalise, and solves with enough storage return (C05); signs of rounded products from Flocq |
| C62 | `Model_Front` | structural induction on the terms, on nested controllers and solvers |
| C63 | `Model_Front`, `Model_Loop` | induction on nested controllers; first crossing of a boolean event (C10) |
| C64 | `Model_Typing` | inheritance as an inductive relation on class statements; induction on the fuel, which decreases with the class number |
| C65 | `Model_Compat`, `Model_Typing` | induction on the structure, for acceptance (both directions) and for the kind of refusal; one corollary per shipped structure |
| C66 | `Model_Implicit` | Frechet derivatives (Coquelicot); the implicit equation and a bounded inverse bound the remainder; uniqueness of the solution of the linear system |
| C67 | `Model_Tangent` | dual numbers for every quantity of the loop; invariants: times carry no tangent (or that of `t0`), the state is the chain of step tangents; Frechet derivatives by composition; a relational invariant for values against tangents; a PID solve in closed form for the refutation |
| C68 | `Model_DenseDeriv`, `Model_DenseOutput` | which step is used at which time (as C43, over the reals); induction over the steps for integrals; for accuracy the expansion of C58 with the derivatives of the weights, against the expansion of the vector field along the solution |
| C69 | `Model_PyTree`, `Model_AdjointTerm` | a linear function of a PyTree is a matrix between the ravelled PyTrees; induction over the structure of PyTrees for unflattening and transposing, so that the pieces of the Jacobian are the blocks of that matrix; uniqueness of derivatives for linearity |
| C70 | `Model_PyTree`, `Model_LangevinTerm` | induction over PyTrees along paths to leaves, and over shapes for broadcasting (position in row-major order); PyTrees that do not fit by the same inductions |
| C71 | `Model_Terms`, `Model_Solvers`, `Model_Loop` | probability spaces with a filtration and Brownian increments are hypotheses (a record of what is needed of expectations, `Spec_Strong`); one step is mean-square stable, its local error has mean square O(h^2) and conditional mean O(h^(3/2)); discrete Gronwall over any grid; induction over refinements for C71_refinement; the invariant of the loop for C71_solve |
| C72 | `Model_Terms`, `Model_SRK`, `Model_Solvers`, `Model_Loop` | as C71, for steps with any finite family of centred random variables (increments, and their products less their means); commutativity and the product rule turn the expansion of the solution into that of the step; linearity of differentials for the Stratonovich method |
| C73 | `Model_PID`, `Model_Loop`, `Model_RK` | the length of a step stays above a bound that falls slowly with time, to absorb rounding; a potential of time left and step length falls by one with every attempt; bounded stages for the error estimate |
| C74 | `Model_PID`, `Model_Loop` | induction over accepted steps with the triangle inequality and the growth rate of the flow; an accepted step has a norm below one, so each entry of the estimate is below the tolerance; the controller keeps the loop's contract even if norms are NaN |
| C75 | `Model_RK`, `Model_SRK`, `Model_Terms`, `Model_Solvers` | the stages of the new equation are the images of the old stages plus the velocity of the frame; linearity of the map and row sums give the step. Time as a state is the frame with one more coordinate that moves at speed one |
| C76 | `Model_Loop`, `Model_RK`, `Model_DenseOutput` | binary logical relation (parametricity): each operation of the loop (saving, buffers, events, root finding over dense output) preserves the relation; simulation by induction on the loop. For Runge--Kutta methods the relation is `y' = A y + b`; the cache theorem C29 lets both sides evaluate the first stage, C75 gives the stages, affine dense output the interpolation |
| C77 | as C76 | the diagonal relation restricted to values with the invariant; weighted sums of all stages are zero by the stage equations. For implicit methods by induction over the accepted attempts. The solvers without a Butcher tableau (`Model_Solvers.v`, `Model_SRK.v`: Euler, EulerHeun, LeapfrogMidpoint, ReversibleHeun, both Milstein methods, the SRK methods, HalfSolver) one by one, with a predicate on the state they carry; a directional derivative of a map with zero sum has zero sum |
| C78 | arrays as shape and entries in the complex numbers; `ODETerm.vf`/`prod`, `ControlTerm.prod`/`vf_prod`, `WeaklyDiagonalControlTerm`, `upcast_or_raise` (Model_ArrayTerm) | a map over two PyTrees that acts on pairs of leaves succeeds exactly if the structures agree and all pairs are accepted (induction over PyTrees); shapes by lists reversed; diagonal sums by uniqueness of indices. Refuted for complex vector fields, which `_prod` conjugates |
| C79 | `PIDController` (Model_PID) in the loop (Model_Loop) | all operations on floats are homogeneous in the unit (one relation `times k` for all); the scaled error and factors are pure numbers; the whole solve by C76 |
| C80 | `adjoint_rms_seminorm` (Model_Seminorm) as norm of `PIDController` (Model_PID) in the loop (Model_Loop) | taking the leading leaves commutes with the leafwise scaling of errors; whole solves by C76 |
| C81 | the loop (Model_Loop) with `AbstractRungeKutta.step` (Model_RK), the other solvers (Model_Solvers, Model_SRK) and dense output (Model_Interp) | stage equations of a mixture have the mixture of the stages as their only solution; two solves run side by side (a product configuration) are related to each of the three solves by C76; uniqueness since the loop stays where its condition fails |
| C82 | `step` and `order` of Euler, ImplicitEuler, SemiImplicitEuler, LeapfrogMidpoint and ReversibleHeun (Model_Solvers, Model_MethodOrders), in the loop with ConstantStepSize (Model_Loop, Model_Fixed), LocalLinearInterpolation (Model_Interp) | local errors by the mean value theorem, accumulated along the grid by an invariant that carries an error bound; for leapfrog the invariant bounds the errors of two successive values, for ReversibleHeun the combination of both values in which the oscillating error cancels |

Where the full statement is false of the code, the theorem is split: `..._partial` (what holds, with
the extra hypothesis) and `..._refuted` (a concrete run of the model where it fails).

## 5. Findings

Behaviour of the code that the proofs turned up; each is a theorem unless marked (text).

* A tableau entry of `KenCarp5` is mistyped: `-4269925059573 / 7827059040719` (`kencarp5.py:141`) should have
  denominator `7827059040749`; the order conditions hold to 1e-12 only (C30_kencarp5_refuted).
* `Sil3` is documented as third order in its explicit part; it is second order (C30_sil3_third_order_refuted).
* Dense output: documented as order 8 for `Dopri8`, but the error within a step is `O(h^6)` (order 5); documented as order 5 for
  `Dopri5` and `Tsit5`, 2 for `Midpoint` and `Ralston`, where it is one less in the same sense (C58_documented_refuted).
  The dense output of `Dopri8`, `Kvaerno5` and `KenCarp5` is of lower order than the solver even over a whole solve (C59_conditions).
* With `dt0=None` the first step of `diffeqsolve` is always 0.01: every term is wrapped in `WrapTerm` (`_integrate.py:1165-1174`)
  before `_select_initial_step` tests for an `ODETerm` (`pid.py:47`), so its algorithm is never used (C57_automatic_refuted).
* `HalfSolver(<implicit solver>)` cannot be used: `isinstance(solver, AbstractImplicitSolver)` is forwarded to the wrapped solver, but
  `solver.root_finder` is not (`_integrate.py:1178-1196`), so `diffeqsolve` raises `AttributeError` (C63_half_implicit). Likewise
  `HalfSolver(<Runge-Kutta>)` with `DirectAdjoint` or `ForwardMode` and `solver.scan_kind` (C62_half_scan_kind).
* `isinstance` is forwarded through one wrapper only (`base.py:44-52`): `HalfSolver(HalfSolver(Euler()))` is accepted for an SDE with
  adaptive steps, and `HalfSolver(HalfSolver(Kvaerno5()))` runs with `use_stepsize_tol` in place of its tolerances
  (C62_nested_euler_refuted, C63_nested_tolerances_refuted).
* `ImplicitAdjoint` with a `MultiTerm` (as for the IMEX methods) solves a least squares problem for the tuple of vector fields,
  as `solver.func` does not add them up: for `MultiTerm(ODETerm(p), ODETerm(-y))` the derivative of the steady state `y = p` comes out as
  0 (C66_split_refuted). `steady_state_event` likewise never triggers there (C66_steady_split_refuted).
* With `PIDController` the gradient of a solve is the derivative on the accepted steps, not that of the solve, as the comment at `pid.py:341` suspects
  (C67_adaptive_refuted: they differ already for Heun's method on `dy/dt = -y`).
* The error of `UnderdampedLangevinDriftTerm` says that `grad_f` must return the shapes of `x`, but only the structure is checked: an output of shape
  `(2, 2)` for `x` of shape `(2,)` gives a vector field of shape `(2, 2)` (C70_grad_shape_refuted). In `UnderdampedLangevinDiffusionTerm` a
  Brownian motion of shape `()` is broadcast, so that all elements share one noise (C70_shared_noise_refuted).
- `sol.derivative(t, left)` and `sol.evaluate(t, left=...)`: for a solve with `t1 < t0` the argument `left` is reversed: `left=True`
  gives the limit from the right (C68_sides_refuted). After a solve with `t0 == t1`, `sol.evaluate(t0)` is `y0` but
  `sol.derivative(t0)` is NaN (C68_trivial_refuted).
* The tuple `terms=(ODETerm(...), ...)` kept for backward compatibility by `EulerHeun` and the Milstein methods
  (`_integrate.py:1102-1124`) is refused for every `y0` that is not itself a tuple, as the tuple is also matched against `y0`
  (C65_tuple_array). A `MultiTerm` with the wrong number of terms raises `AssertionError` (C65_count_refuted).
* `get_args_of` does not substitute type variables inside arguments, drops bases without subscript beside subscripted ones, and
  returns wrong arguments for `Annotated`, which its comment says is handled (C64_*_refuted).
* The test `(t1 - t0) * dt0 < 0` underflows for tiny time scales, in `float32` from about 1e-24 (C61_dt0_underflow_refuted).
* `SaveAt(ts=[])` raises "Empty saveat" although `SaveAt()` does not (C61_make_saveat).
* `ImplicitEuler` and `HalfSolver` keep a finite error estimate when the root find fails, so that the step can be accepted
  and the whole solve ends with the failure instead of retrying with a smaller step (C36_*_refuted).
* An element of `step_ts` one float after the end of a step is stepped over (C17_no_crossing_refuted); jumps within the last
  100 floats before `t1` are not honoured and can raise an internal error (C18, C20, C21).
* `SaveAt(ts=...)` at `t1` or out of order around jumps is not saved (C21).
* An overflowing step has a NaN scaled error, which makes the step size NaN for ever (C24_overflow_refuted).
* After an event the dense output is not truncated (C15_event_refuted); event condition functions that return NaN trigger
  on rejected steps (C10); an event hides an error of the same step (C12).
* A boolean event that is true at `t0` suppresses saving at `t0` with `SaveAt(ts=...)` (text).
* `evaluate(t0, t1)` of `LinearInterpolation` raises if the data is a tuple, list or dict (C39_increment_pytree_refuted).
* Cubic and rectilinear coefficients: `replace_nans_at_start` and `fill_forward_nans_at_end` do not do what they say in
  some cases, and with missing data the cubic interpolant is neither continuous nor differentiable (C40, C41).
* `VirtualBrownianTree` with space-time-time Levy area: `K` is zero for steps below the square root of epsilon of the interval
  (C46).
* `TextProgressMeter` in a batch prints the same line repeatedly when an element stops early (C49_early_stop_refuted).
* `ReversibleHeun` is not reversible across a jump (C33_jump_refuted).
* Langevin solvers: backwards in time Taylor coefficients are used however large the step is (C53_backward_refuted); the
  coefficients are stale when step sizes drift slowly or are below 1e-12, and depend on the rest of a batch (C53_*_refuted);
  QUICSORT raises as soon as `made_jump` is traced, as with `ClipStepSizeController(jump_ts=...)` (C53_raises).

## 6. Trusted base

* Coq 8.16.1's kernel (and `coqchk`), including `vm_compute` where proofs use it.
* The correspondence between the model and the Python text, under the conventions of section 1 and with the omissions of
  section 3.  In particular exact arithmetic stands for floating point arithmetic in all numerical theorems.
* The axioms that `Print Assumptions` lists.  No axiom is declared in this development; those below are the standard library's:
  `functional_extensionality_dep` (`Coq.Logic.FunctionalExtensionality`), `classic` (`Coq.Logic.Classical_Prop`), and
  `sig_forall_dec`, `sig_not_dec` (`Coq.Reals.ClassicalDedekindReals`, on which the standard library's real numbers
  rest).  One `Example` (not a theorem of the manifest) in `Ex_SRK.v` also uses
  `constructive_indefinite_description` (`Coq.Logic.ClassicalEpsilon`).

What `Print Assumptions` lists for each theorem:

* **no axioms ("Closed under the global context")** (161 theorems): C01_max_steps_iff, C01_step_accounting, C02_clip_times, C02_pid_times, C02_stepto_times, C02_times_in_interval, C03_success_reaches_t1, C04_early_stop_prefix, C04_saveat_ts, C04_t0_equals_t1, C05_no_exception, C05_no_storage_refuted, C05_storage, C06_saveat_steps, C07_final_entry, C07_no_final_value_refuted, C07_saveat_t1_partial, C07_saveat_t1_steps_partial, C07_saved_twice_refuted, C08_accepted_steps_run, C08_rejected_step, C09_mask_count, C09_mask_first, C10_first_crossing, C10_initial, C10_nan_triggers_on_rejected_refuted, C11_event_time, C11_nothing_after_final, C11_root_function, C11_truncation, C12_event_hides_error_refuted, C12_first_failure_wins, C13_observing_does_not_disturb, C14_subs_independent, C15_dense_is_saveat_ts, C15_event_refuted, C15_outside, C15_range, C15_saved_values, C15_trivial, C16_event_refuted, C17_constructed, C17_no_crossing_partial, C17_no_crossing_refuted, C17_stepped_to_partial, C18_jump_taken, C18_near_t1_refuted, C18_steps_avoid_jumps_partial, C18_zero_length_step_refuted, C19_hint_irrelevant, C20_internal_error_refuted, C20_no_internal_error_partial, C20_not_passed_partial, C20_overflow, C20_rejected_ends_accepted_partial, C21_order_refuted, C21_requested_t1_refuted, C21_requested_times_saved_partial, C22_dtmin_dtmax_partial, C22_initial, C22_step_size_change_partial, C23_accept_iff, C23_bad_error_rejected, C23_scaled_error_not_nan, C24_dtmin_reported, C24_near_t1_refuted, C24_overflow_refuted, C24_rejections_bounded_partial, C24_solve_terminates_partial, C25_equal_steps, C25_exact, C25_extra_step_refuted, C25_not_constant_refuted, C25_number_of_steps, C25_steps, C26_skipped_refuted, C26_steps_partial, C27_const, C27_stepto, C28_shipped_tableaus, C37_accuracy, C37_at_least_two, C37_result, C41_fill_forward, C42_causal, C42_shape, C43_covered, C43_ends, C43_interval, C43_outside, C43_trivial, C48_associative, C48_history, C48_table, C49_early_stop_refuted, C49_increasing, C49_isolated, C49_lines, C49_solve, C49_tqdm, C50_calls, C50_every_gradient_once, C51_finish_partial, C51_loop, C51_rejected_step_refuted, C52_backward_event_refuted, C52_padding, C55_stop_and_resume, C56_saved_times_sorted, C61_accepts_iff, C61_make_saveat, C61_make_sub, C61_normalised, C61_refused, C61_returns, C61_stepto, C62_adaptive_noise, C62_error_order, C62_half_scan_kind, C62_is_cde, C62_is_sde, C62_is_unsafe_sde, C62_isinstance, C62_isinstance_refuted, C62_wrapped, C63_half_implicit, C63_not_implicit, C63_tolerances, C64_ambiguous, C64_annotated_refuted, C64_complete, C64_length, C64_nested_refuted, C64_plain_ambiguous_refuted, C64_plain_base_refuted, C64_sound, C64_total, C65_accept, C65_any, C65_count_refuted, C65_default_kwargs, C65_imex, C65_pair, C65_refuse, C65_sde, C65_srk, C65_tuple_array, C65_tuple_pair, C65_tuple_refuted, C69_expensive, C73_condition_needed, C73_ends, C73_proportional_error, C78_dtype, C79_adapt, C79_clip, C79_init, C79_scaled_error, C80_decisions, C80_other_norms, C81_unique.
* **`functional_extensionality_dep`** (6 theorems): C16_reflection, C16_reflection_converse, C76_related, C77_kept, C79_solve, C80_solve.
* **`sig_forall_dec`** (13 theorems): C35_first_step, C47_multi_contr, C62_half_scan_kind_refuted, C62_nested_euler_refuted, C63_half_implicit_refuted, C63_nested_tolerances_refuted, C69_no_leaves, C70_drift, C70_grad_shape_refuted, C70_grad_structure, C78_control_accepts, C78_control_value, C78_ode_accepts.
* **`functional_extensionality_dep`, `sig_forall_dec`** (153 theorems): C28_shortcuts, C28_solve, C28_step, C29_cache, C29_cache_jumps, C30_dopri8, C30_exact_methods, C30_kencarp5_refuted, C30_rounded_methods, C30_sil3_third_order_refuted, C31_dopri8, C31_exact_methods, C31_rounded_methods, C31_sil3, C32_local_error, C32_step, C32_two_half_steps, C33_embedded, C33_jump_refuted, C33_reversible, C33_reversible_solve, C34_invertible, C34_symplectic, C35_symmetric, C36_failures_retried, C36_half_solver_failure_refuted, C36_implicit_euler, C36_implicit_euler_b_stable, C36_implicit_euler_failure_refuted, C36_implicit_euler_stiff, C36_solve, C36_solve_decays, C36_solve_towards_equilibrium, C36_solves_contract, C36_stages, C36_stages_near, C36_unique, C38_fourth_order_ends, C38_fourth_order_exact, C38_fourth_order_slopes, C38_increment_additive, C38_linear_ends, C38_linear_increment, C38_shipped_ends, C38_third_order_ends, C38_third_order_exact, C38_third_order_slopes, C38_zero_length, C39_brackets, C39_continuous, C39_convex, C39_increment_pytree_refuted, C39_increments, C39_interval, C39_knots, C39_missing, C40_causal, C40_fill_end_refuted, C40_gap_derivative_refuted, C40_gap_discontinuous_refuted, C40_observations, C40_replacement, C40_replacement_refuted, C40_smooth, C41_interior, C41_leading, C41_nothing_observed, C41_observed, C41_replacement_refuted, C41_trailing, C47_backward_step, C47_control_term, C47_mixed_terms, C47_multi_bilinear, C47_multi_of_odes, C47_multi_split, C47_multi_term, C47_ode_term, C47_to_ode, C47_wrap_ode, C47_wrap_reflects, C47_wrap_twice, C54_additive_equations, C54_constant_noise, C54_equations, C54_ito_stratonovich, C54_time_dependent_noise, C54_zero_noise, C58_conditions, C58_documented_refuted, C59_conditions, C63_steady_defined, C63_steady_state, C68_ends, C68_inside, C68_left, C68_outside, C68_right, C68_sides_refuted, C68_solution, C68_trivial_refuted, C69_adjoint, C69_linear, C69_prod_vf, C73_rk_error, C75_autonomous_euler_heun, C75_autonomous_milstein, C75_autonomous_rk, C75_autonomous_srk, C75_euler, C75_euler_heun, C75_explicit_step, C75_ito_milstein, C75_leapfrog, C75_reversible_heun, C75_shipped, C75_srk_additive, C75_srk_general, C75_stages, C75_stratonovich_milstein, C76_coordinates, C76_interpolations, C76_mixed_interpolations, C77_euler, C77_euler_heun, C77_half, C77_implicit_euler, C77_ito_milstein, C77_leapfrog, C77_methods, C77_reversible_heun, C77_semi_implicit, C77_srk, C77_stratonovich_milstein, C77_total, C77_total_steps, C78_complex_diagonal_refuted, C78_complex_refuted, C78_control_is_ode, C78_control_real, C78_diagonal, C78_ode_value, C81_euler, C81_euler_heun, C81_half, C81_ito_milstein, C81_leapfrog, C81_methods, C81_reversible_heun, C81_srk, C81_stratonovich_milstein, C81_superposition, C82_constant.
* **`functional_extensionality_dep`, `sig_forall_dec`, `sig_not_dec`** (49 theorems): C44_additive, C44_end, C44_increment, C44_start, C44_terminates, C44_tolerance, C45_below_tolerance, C45_covariance, C45_increments, C45_levy, C45_levy_independent, C45_levy_single, C45_unsafe, C46_chen_H, C46_chen_K, C46_single, C46_single_refuted, C46_small_steps_refuted, C53_align_reversible, C53_batch_refuted, C53_coefficients_age, C53_current_partial, C53_drift_refuted, C53_gradient_reused, C53_jump, C53_raises, C53_tiny_steps_refuted, C53_zero_friction, C54_shipped, C60_a_stable, C60_implicit_euler, C60_l_stable, C60_solve, C66_gradient, C66_split_refuted, C66_steady, C66_steady_one, C66_steady_sound, C66_steady_split_refuted, C67_ends, C67_fixed, C67_gradient, C67_saved, C68_integral, C70_diffusion, C70_rejects, C70_shared_noise_refuted, C74_accumulate, C75_shipped_sde.
* **`classic`, `functional_extensionality_dep`, `sig_forall_dec`, `sig_not_dec`** (53 theorems): C30_implicit_lipschitz, C30_implicit_step, C30_rounded_solvers, C30_rounded_step, C30_solvers, C30_step, C50_adjoint_equation, C53_align_coefficients, C53_align_exact, C53_backward_refuted, C53_local_error, C53_quicsort_coefficients, C53_quicsort_exact, C53_should_coefficients, C53_should_exact, C54_additive_noise, C54_affine_noise_exact, C54_milstein, C54_multiplicative_noise, C57_automatic, C57_automatic_refuted, C57_first_step_bounds, C57_first_step_given, C57_none_is_a_hundredth, C58_implicit_solvers, C58_implicit_step, C58_solvers, C58_step, C59_exact_solvers, C59_solve, C61_dt0_float, C61_dt0_underflow_refuted, C67_adaptive_refuted, C68_implicit_solvers, C68_implicit_step, C68_solvers, C68_step, C71_ito, C71_refinement, C71_solve, C72_additive, C72_ito, C72_solve, C72_stratonovich, C74_tolerance, C82_declared, C82_declared_semi_implicit, C82_dense, C82_euler, C82_implicit_euler, C82_leapfrog, C82_reversible_heun, C82_semi_implicit_euler.

## 7. Testing the theorems

`seeded/LOG.jsonl` has one line for each wrong program tried: the model was edited in a scratch copy, the proofs were rebuilt,
and the theorems that failed were recorded.  Where none that states the broken claim failed, a theorem was tightened or added.
