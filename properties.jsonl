{"id": "C01", "title": "Step accounting", "statement": "On every call, stats['num_steps'] == stats['num_accepted_steps'] + stats['num_rejected_steps'], and num_steps never exceeds max_steps. The result is max_steps_reached exactly when the solve was cut off by max_steps before finishing with no error and no event.", "quantifier": "all solvers, controllers, event functions, vector fields, save configurations, and numbers of steps", "why_tests_cant": "The accept/reject history is data dependent and unbounded; a test sees a few histories.", "anchors": ["diffrax/_integrate.py:loop", "diffrax/_integrate.py:diffeqsolve"]}
{"id": "C02", "title": "Integration times stay inside [t0, t1] and move forward", "statement": "Every step the solver is asked to make is over an interval [a, b] with t0 <= a <= b <= t1 (in normalised time), a never decreases from one attempted step to the next, and after an accepted step the next step starts at or after the end of the accepted one.", "quantifier": "all runs of diffeqsolve with any step size controller that satisfies the documented contract (accepted: next start >= end of step; rejected: next start = start of step; proposed end not before proposed start)", "why_tests_cant": "The sequence of times comes from error estimates and floating-point clipping; no finite set of problems exercises every sequence.", "anchors": ["diffrax/_integrate.py:loop", "diffrax/_integrate.py:_clip_to_end"]}
{"id": "C03", "title": "A successful result means that t1 was reached", "statement": "If diffeqsolve returns RESULTS.successful then the final time is t1; equivalently a solve that stops early always reports a reason (error, event or max_steps_reached).", "quantifier": "all solvers, controllers, events, histories", "why_tests_cant": "Needs the loop exit condition to be characterised for every history.", "anchors": ["diffrax/_integrate.py:loop"]}
{"id": "C04", "title": "SaveAt(ts=...) returns exactly the requested times", "statement": "If a solve succeeds, then sol.ts for SaveAt(ts=ts) is exactly ts, in order, with duplicates, and the value saved for a requested time t is fn(t, y(t)) where y(t) is the local interpolant of the accepted step that is the first one whose end is >= t. If the solve stops early, what is saved is the prefix of ts up to the last accepted step end and the rest is padding.", "quantifier": "all non-decreasing ts in [t0, t1], all step sequences without time jumps, all solvers", "why_tests_cant": "Quantifies over every relative position of requested times and step ends, including coincident ones.", "anchors": ["diffrax/_integrate.py:loop (save_ts)", "diffrax/_saveat.py:SubSaveAt"]}
{"id": "C05", "title": "Output storage never overflows and never overwrites", "statement": "Whatever mixture of t0, ts, steps=n and t1 is requested, the number of values produced is at most the allocated length, every value produced is present exactly once in the output in order of production, and the remaining entries are padding.", "quantifier": "all SubSaveAt configurations, max_steps, histories", "why_tests_cant": "Overflow would silently clamp or drop (JAX out-of-bounds semantics), so a test would only notice it for the exact history that triggers it.", "anchors": ["diffrax/_integrate.py:loop", "diffrax/_integrate.py:_save", "diffrax/_integrate.py:diffeqsolve (_allocate_output)"]}
{"id": "C06", "title": "SaveAt(steps=n) saves every n-th accepted step", "statement": "With SaveAt(steps=n), n >= 1, the saved times are exactly the ends of accepted steps number n, 2n, 3n, ... with the solution at those times; rejected steps are never saved.", "quantifier": "all n, histories, solvers, controllers", "why_tests_cant": "Depends on the interleaving of accepted and rejected steps.", "anchors": ["diffrax/_integrate.py:loop (save_steps)"]}
{"id": "C07", "title": "SaveAt(t1=True) saves the final value once", "statement": "With SaveAt(t1=True) the last saved entry is the final time and value, and with SaveAt(t1=True, steps=n) the final value is not saved twice. Expected for all solves; false in corner cases (zero steps taken with steps=n; events with a root finder that did not move the final time), which are exhibited.", "quantifier": "all save configurations, histories, with and without events", "why_tests_cant": "The corner cases depend on the number of accepted steps modulo n and on how the loop ended.", "anchors": ["diffrax/_integrate.py:loop (_save_t1)"]}
{"id": "C08", "title": "Rejected steps are transactional", "statement": "A rejected step changes neither the solution value, the current time, the solver state, the pending-jump flag, nor anything saved (ts, steps, dense).", "quantifier": "all states, solvers and controllers that respect the rejection contract", "why_tests_cant": "Must hold at every rejected step of every history.", "anchors": ["diffrax/_integrate.py:loop (body_fun_aux)"]}
{"id": "C09", "title": "event_mask names exactly one event", "statement": "sol.event_mask has exactly one True entry if the result is event_occurred and none otherwise, and the True entry is the first (in flattening order) of the events that triggered on that step.", "quantifier": "all lists of event functions (boolean and real valued), directions and histories", "why_tests_cant": "Several events may trigger on the same step; combinations are unbounded.", "anchors": ["diffrax/_integrate.py:loop", "diffrax/_integrate.py:diffeqsolve", "diffrax/_event.py:Event"]}
{"id": "C10", "title": "Events trigger on the first accepted step that crosses", "statement": "A solve with events stops right after the first accepted step at whose end a boolean event is true or a real-valued event has changed sign (in the requested direction) compared with the previous accepted state; a rejected step never triggers an event.", "quantifier": "all pure event functions of (t, y), all directions, all histories", "why_tests_cant": "Quantifies over all histories of accepted/rejected steps and all sign patterns.", "anchors": ["diffrax/_integrate.py:loop", "diffrax/_integrate.py:diffeqsolve"]}
{"id": "C11", "title": "Event times and truncation", "statement": "With a root finder that respects its bounds, the reported final time lies in the last step, every saved time is <= the final time, and the final value saved is the interpolant at the final time.", "quantifier": "all root finders that return a point in their bracket, all histories and save configurations", "why_tests_cant": "The truncation must be right for each possible position of the root relative to saved times.", "anchors": ["diffrax/_integrate.py:loop (_root_find, unsave)"]}
{"id": "C12", "title": "First failure wins", "statement": "Once a step reports an error the solve stops and that error is what is reported (solver error before controller error); errors of rejected steps' solver are ignored. Expected also to hold with events; false there, since an event on the same step overrides the error, which is exhibited.", "quantifier": "all sequences of results, with and without events", "why_tests_cant": "Any step of any history may fail.", "anchors": ["diffrax/_integrate.py:loop", "diffrax/_solution.py:is_okay"]}
{"id": "C13", "title": "Observing does not disturb", "statement": "The sequence of steps, the final state, statistics and (without root finder) result do not depend on what is saved: SaveAt, dense output and progress meters have no effect on the numerics.", "quantifier": "all pairs of save configurations, all problems", "why_tests_cant": "Non-interference is a relation between two runs, over all runs.", "anchors": ["diffrax/_integrate.py:loop"]}
{"id": "C14", "title": "SubSaveAts are independent", "statement": "With SaveAt(subs=[...]) what is saved for one entry equals what would be saved if it were the only entry.", "quantifier": "all lists of SubSaveAt, all positions", "why_tests_cant": "Relation between runs with different numbers of entries.", "anchors": ["diffrax/_integrate.py:loop", "diffrax/_saveat.py:SaveAt"]}
{"id": "C15", "title": "Dense output agrees with SaveAt(ts)", "statement": "For every time t in [t0, t1] of a finished solve, sol.interpolation.evaluate(t) equals the value SaveAt(ts=[..., t, ...]) would save; outside the interval it is NaN.", "quantifier": "all t, all histories without time jumps", "why_tests_cant": "Two different searches (incremental scan, binary search) must agree for every t including step ends.", "anchors": ["diffrax/_integrate.py:loop", "diffrax/_global_interpolation.py:DenseInterpolation"]}
{"id": "C16", "title": "Backward-in-time solves are reflected forward solves", "statement": "Solving from t0 down to t1 < t0 gives the same values, statistics and result as solving the time-reflected equation from -t0 up to -t1, with times negated. This holds for terms, controllers, saved times and saved functions; it fails for event functions, which are passed normalised (negated) time; exhibited.", "quantifier": "all problems without events; a witness with events", "why_tests_cant": "Relational property over all problems.", "anchors": ["diffrax/_integrate.py:diffeqsolve", "diffrax/_term.py:WrapTerm"]}
{"id": "C17", "title": "step_ts are always stepped to", "statement": "With ClipStepSizeController(step_ts=...), no step passes over a time in step_ts: each attempted step [a, b] contains no element of step_ts strictly between a and b.", "quantifier": "all step_ts, inner controllers, histories", "why_tests_cant": "The index into step_ts is maintained incrementally with a hint; must be right for each history.", "anchors": ["diffrax/_step_size_controller/clip.py:ClipStepSizeController"]}
{"id": "C18", "title": "No step crosses a jump, and the solver is told about jumps", "statement": "With jump_ts, no attempted step interval [a, b] contains an element of jump_ts, and the first step after each jump is made with made_jump set.", "quantifier": "all jump_ts, inner controllers, histories", "why_tests_cant": "As C17, plus the 1-ULP arithmetic around jumps and pending flag across rejections.", "anchors": ["diffrax/_step_size_controller/clip.py"]}
{"id": "C19", "title": "Index tracking is exact for any hint", "statement": "The hinted linear search used by the clipping controller returns the same index as a binary search for every sorted array, query and in-range hint, so resuming from any stored controller state is sound.", "quantifier": "all sorted lists, times and hints", "why_tests_cant": "Unbounded arrays and hints.", "anchors": ["diffrax/_step_size_controller/clip.py:_find_idx_with_hint"]}
{"id": "C20", "title": "store_rejected_steps never revisits a rejected step end too early", "statement": "With store_rejected_steps=n the stored rejected times are strictly ordered, every proposed step ends at or before the most recent pending rejected time, at most n are stored, and overflow is reported as max_steps_rejected. The internal_error result was meant to be unreachable; it is reachable near t1, which is exhibited.", "quantifier": "all capacities, histories", "why_tests_cant": "A stack discipline over all histories.", "anchors": ["diffrax/_step_size_controller/clip.py"]}
{"id": "C21", "title": "Requested times are saved even with jumps", "statement": "A successful solve with jump_ts still returns all requested ts in increasing order. False: with a jump at t1 reached by the first step the last requested time is never saved; with steps=True the times around a jump come out of order; both exhibited. The positive part holds when no jump time is requested and none is at t1.", "quantifier": "all ts, jump_ts; witnesses for failures", "why_tests_cant": "Requires coincidences at ULP level which tests rarely construct.", "anchors": ["diffrax/_integrate.py:loop", "diffrax/_step_size_controller/clip.py"]}
{"id": "C22", "title": "PID step size change is bounded", "statement": "After an accepted step PIDController changes the step size by a factor in [1, factormax] and after a rejected one by a factor in [factormin, safety]; dtmin <= dt <= dtmax always holds when set.", "quantifier": "all errors, tolerances, coefficients, orders and previous errors (including 0 and infinity)", "why_tests_cant": "Real-valued inputs; the clip bounds interplay with special values.", "anchors": ["diffrax/_step_size_controller/pid.py:PIDController"]}
{"id": "C23", "title": "PID accepts exactly when the scaled error is below one", "statement": "A step is accepted iff the scaled error is < 1 (or the step size is already dtmin with force_dtmin semantics); a NaN error estimate is never accepted (unless at dtmin).", "quantifier": "all errors including NaN and infinity", "why_tests_cant": "Special values, all reals.", "anchors": ["diffrax/_step_size_controller/pid.py", "diffrax/_integrate.py:loop"]}
{"id": "C24", "title": "PID with dtmin cannot reject forever", "statement": "With dtmin set, the number of consecutive rejections is bounded by log(dt/dtmin)/log(1/safety)+2, after which the step is accepted or dt_min_reached is reported.", "quantifier": "all error sequences", "why_tests_cant": "Liveness over unbounded adversarial error sequences.", "anchors": ["diffrax/_step_size_controller/pid.py"]}
{"id": "C25", "title": "ConstantStepSize takes exactly ceil((t1-t0)/dt0) steps", "statement": "With finite t1 the step ends are t0 + dt0 and then t0 + k (t1-t0)/n, n = ceil((t1-t0)/dt0); they strictly increase, and the n-th is exactly t1. All steps equal dt0 when dt0 divides t1-t0.", "quantifier": "all t0 < t1, dt0 > 0", "why_tests_cant": "All real values, all step counts.", "anchors": ["diffrax/_step_size_controller/constant.py:ConstantStepSize"]}
{"id": "C26", "title": "StepTo visits exactly the prescribed times", "statement": "With StepTo(ts) the steps made are exactly [ts[i], ts[i+1]] for each i, in order (if ts[-2] is not within 100 ULP of t1; otherwise it is skipped, which is exhibited).", "quantifier": "all strictly increasing ts of length >= 2", "why_tests_cant": "All lengths.", "anchors": ["diffrax/_step_size_controller/constant.py:StepTo", "diffrax/_integrate.py:loop"]}
{"id": "C27", "title": "Fixed-step solves terminate", "statement": "With ConstantStepSize or StepTo and no error or event, the loop ends after exactly n steps, and max_steps_reached is reported iff max_steps < n.", "quantifier": "all n, max_steps", "why_tests_cant": "All step counts.", "anchors": ["diffrax/_integrate.py:loop", "diffrax/_step_size_controller/constant.py"]}
{"id": "C28", "title": "A Runge--Kutta step computes the textbook formula", "statement": "For explicit tableaus the step returns y0 + sum b_i k_i with k_i = f(t0 + c_i dt, y0 + sum_{j<i} a_ij k_j) dt and error sum b_error_i k_i, with the same result whether or not the last stage shortcut (ssal) or stored first stage (fsal) is used.", "quantifier": "all valid tableaus of any number of stages, all vector fields, all steps", "why_tests_cant": "All tableaus and vector fields.", "anchors": ["diffrax/_solver/runge_kutta.py:AbstractRungeKutta"]}
{"id": "C29", "title": "FSAL reuse is transparent", "statement": "Over any history of accepted and rejected steps and jumps, a solver with first-same-as-last caching produces the same values as one that always re-evaluates the vector field at the start of the step.", "quantifier": "all vector fields, tableaus with FSAL, histories of accept/reject/jump/resume", "why_tests_cant": "A cache-coherence invariant over all histories.", "anchors": ["diffrax/_solver/runge_kutta.py:AbstractRungeKutta.step", "diffrax/_integrate.py:loop"]}
{"id": "C30", "title": "Declared orders satisfy the order conditions", "statement": "Heun, Midpoint, Ralston, Bosh3 and Dopri5 satisfy every Butcher order condition (all rooted trees) up to the order that solver.order reports.", "quantifier": "all rooted trees with at most p nodes; hence all vector fields up to O(h^{p+1})", "why_tests_cant": "A test can only check convergence on particular equations.", "anchors": ["diffrax/_solver/heun.py", "diffrax/_solver/midpoint.py", "diffrax/_solver/ralston.py", "diffrax/_solver/bosh3.py", "diffrax/_solver/dopri5.py"]}
{"id": "C31", "title": "Embedded error estimators have the right order", "statement": "The companion method b_sol - b_error of each embedded pair satisfies the order conditions up to order p-1, so the error estimate vanishes to that order.", "quantifier": "all rooted trees with at most p-1 nodes", "why_tests_cant": "As C30.", "anchors": ["diffrax/_solver/*.py tableaus"]}
{"id": "C32", "title": "HalfSolver", "statement": "HalfSolver returns the composition of two half steps, the absolute difference to the full step as error, the full-step dense information, and the combined result by the documented precedence.", "quantifier": "all wrapped solvers and states", "why_tests_cant": "Higher-order over solvers.", "anchors": ["diffrax/_solver/base.py:HalfSolver", "diffrax/_solution.py:update_result"]}
{"id": "C33", "title": "ReversibleHeun is algebraically reversible", "statement": "The state (y, yhat, vf) at the start of any number of steps, none of which follows a reported discontinuity, can be exactly recovered (in exact arithmetic) from the state at the end by stepping backwards along the same times. (After a reported discontinuity the stored vector field is replaced and this is false.)", "quantifier": "all vector fields, controls and any number of steps", "why_tests_cant": "All step counts and vector fields.", "anchors": ["diffrax/_solver/reversible_heun.py"]}
{"id": "C34", "title": "SemiImplicitEuler is invertible and symplectic", "statement": "The SemiImplicitEuler map has an explicit inverse for all vector fields, and for one degree of freedom with differentiable vector fields its Jacobian determinant is 1; compositions too.", "quantifier": "all (differentiable) vector fields, step sizes, numbers of steps", "why_tests_cant": "All vector fields.", "anchors": ["diffrax/_solver/semi_implicit_euler.py"]}
{"id": "C35", "title": "LeapfrogMidpoint is time symmetric", "statement": "Running LeapfrogMidpoint for n steps and then with negated steps recovers the starting pair exactly (in exact arithmetic).", "quantifier": "all vector fields, n, grids", "why_tests_cant": "All n.", "anchors": ["diffrax/_solver/leapfrog_midpoint.py"]}
{"id": "C36", "title": "Implicit stages solve their equation; failures reject", "statement": "If the root finder reports success only on exact roots, ImplicitEuler returns y1 = y0 + f(t1, y1) dt, and solutions of dissipative equations do not move apart for any step sizes: in whole solves with any step size controller the distance to an equilibrium never grows (and decays with time, for any step sizes, if the equation is strongly dissipative), and solves that take the same steps contract; a failed root find in a Runge--Kutta step makes the error infinite, so that with an adaptive controller every accepted step of a solve solves its implicit equations and no failed root find ends the solve.", "quantifier": "all vector fields, step sizes, controllers and numbers of steps", "why_tests_cant": "All step sizes (A-stability) and failures.", "anchors": ["diffrax/_solver/implicit_euler.py", "diffrax/_solver/runge_kutta.py"]}
{"id": "C37", "title": "VeryChord reports success only on convergence", "statement": "VeryChord never stops before two iterations unless the linear solve fails; it reports success if and only if there were at least two iterations, the last linear solve succeeded, and the last update is negligible or the last two updates contract so fast that the extrapolated remaining error is below kappa (so never on NaN, infinite or growing updates); it reports a failed linear solve as such and anything else as divergence. If the observed rate bounds the true rate then the root is within kappa.", "quantifier": "all iterate sequences", "why_tests_cant": "All sequences of norms.", "anchors": ["diffrax/_root_finder/_verychord.py"]}
{"id": "C38", "title": "Local interpolants match the step", "statement": "Every local interpolation (linear, cubic Hermite, quartic) equals y0 at the start, y1 at the end, has the stage derivatives at the ends, and evaluate(a, b) = evaluate(b) - evaluate(a).", "quantifier": "all endpoint values and stages, all intervals", "why_tests_cant": "All reals.", "anchors": ["diffrax/_local_interpolation.py"]}
{"id": "C39", "title": "LinearInterpolation", "statement": "evaluate returns the data at the knots, a convex combination in between, increments are additive, and derivative is the slope, for every knot sequence.", "quantifier": "all strictly increasing ts of length >= 2, data, times, left/right", "why_tests_cant": "All lengths and times.", "anchors": ["diffrax/_global_interpolation.py:LinearInterpolation"]}
{"id": "C40", "title": "Backward Hermite cubic interpolation", "statement": "CubicInterpolation built from backward_hermite_coefficients passes through every data point, is continuously differentiable, and on each interval only depends on data up to the end of the interval.", "quantifier": "all ts, ys without NaN", "why_tests_cant": "All lengths.", "anchors": ["diffrax/_global_interpolation.py:CubicInterpolation", "diffrax/_global_interpolation.py:backward_hermite_coefficients"]}
{"id": "C41", "title": "Missing data is filled as documented", "statement": "linear_interpolation keeps observed values, replaces interior NaN by the linear interpolant of the nearest observed neighbours, fills leading NaN only from replace_nans_at_start and trailing NaN only with fill_forward_nans_at_end; fill_forward carries the last observation.", "quantifier": "all NaN patterns and lengths", "why_tests_cant": "All patterns (exponentially many).", "anchors": ["diffrax/_global_interpolation.py:linear_interpolation", "diffrax/_misc.py:fill_forward"]}
{"id": "C42", "title": "rectilinear_interpolation", "statement": "Output has length 2n-1, alternates time moves and data moves, and is causal: data up to index i influences only entries at or after the time ts[i].", "quantifier": "all lengths", "why_tests_cant": "All lengths.", "anchors": ["diffrax/_global_interpolation.py:rectilinear_interpolation"]}
{"id": "C43", "title": "DenseInterpolation selects the containing interval", "statement": "For every in-range time the interval used contains it, with left/right picking the earlier/later interval at a knot; out-of-range times give NaN; the trivial case t0 = t1 returns y0; the reported ends are the first and the last knot.", "quantifier": "all knots, sizes, times", "why_tests_cant": "All positions.", "anchors": ["diffrax/_global_interpolation.py:DenseInterpolation", "diffrax/_global_interpolation.py:_interpret_t"]}
{"id": "C44", "title": "VirtualBrownianTree is one path", "statement": "Queries at any times, in any order, are consistent: increments are additive W(s,u) = W(s,t) + W(t,u), W at the start is zero, and the value at a dyadic time does not depend on the tolerance once resolved nor on other queries.", "quantifier": "all keys (normal samples), tolerances, times", "why_tests_cant": "All query histories and depths.", "anchors": ["diffrax/_brownian/tree.py:VirtualBrownianTree"]}
{"id": "C45", "title": "VirtualBrownianTree has Brownian covariance", "statement": "Over independent standard normals at the tree nodes, Cov(W(s), W(t)) = min(s, t) for all times that the tolerance tells apart, for every kind of Brownian motion. Where Levy areas are asked for, over [s, t] the space-time Levy area has variance (t - s) / 12 and the space-time-time Levy area (t - s) / 720, these and the increment are uncorrelated, and all three are uncorrelated with those over later intervals.", "quantifier": "all times told apart by the tolerance, at any depth", "why_tests_cant": "A statistical test can only estimate; depth is unbounded.", "anchors": ["diffrax/_brownian/tree.py:_brownian_arch", "diffrax/_brownian/tree.py:_evaluate_leaf", "diffrax/_brownian/tree.py:_levy_diff", "diffrax/_brownian/path.py:UnsafeBrownianPath"]}
{"id": "C46", "title": "Levy area increments obey Chen's relation", "statement": "The space-time Levy area returned over [s,u] equals the combination of those over [s,t] and [t,u] by Chen's relation.", "quantifier": "all s < t < u, all samples", "why_tests_cant": "All times.", "anchors": ["diffrax/_brownian/tree.py:_levy_diff", "diffrax/_misc.py"]}
{"id": "C47", "title": "Terms are bilinear and compose", "statement": "MultiTerm.vf_prod equals the sum of its parts and equals prod(vf, contr); ODETerm increments over adjacent intervals add; wrapping with direction twice is the identity; WrapTerm increments are those of the reflected path.", "quantifier": "all terms, times, states", "why_tests_cant": "All terms.", "anchors": ["diffrax/_term.py"]}
{"id": "C48", "title": "Result combination is a lawful precedence", "statement": "update_result follows the documented table, is associative with successful as identity, keeps the first error, and never turns an error into success.", "quantifier": "all sequences of results", "why_tests_cant": "All sequences.", "anchors": ["diffrax/_solution.py:update_result"]}
{"id": "C49", "title": "Progress meters", "statement": "TextProgressMeter prints at most ceil(1/minimum_increase)+2 lines for any number of steps, printed progress strictly increases, and concurrent meters never update each other's bar; a step after close is ignored.", "quantifier": "all progress sequences, all interleavings of meters", "why_tests_cant": "All interleavings and step counts.", "anchors": ["diffrax/_progress_meter.py"]}
{"id": "C50", "title": "BacksolveAdjoint accumulates every gradient once", "statement": "Given exact backward pullbacks between adjacent save times, the returned cotangent for y0 is the sum over all saved points of the pullback of its cotangent to t0 -- each counted exactly once -- for all combinations of t0/ts/t1 saving.", "quantifier": "all numbers of saved times, all linear pullbacks", "why_tests_cant": "All lengths.", "anchors": ["diffrax/_adjoint.py:_loop_backsolve_bwd"]}
{"id": "C51", "title": "Batching does not change results", "statement": "Under vmap the values of one batch element do not depend on the others. Holds for the FSAL first-stage evaluation and SaveAt(steps) fast paths; fails for event root finding when a batch element without event ended on a rejected step, which is exhibited.", "quantifier": "all batches", "why_tests_cant": "All batches.", "anchors": ["diffrax/_solver/runge_kutta.py", "diffrax/_integrate.py:loop"]}
{"id": "C52", "title": "Unused output entries are recognisable", "statement": "Unused entries of sol.ts are +inf. False for backward solves truncated by an event, where some unused entries are -inf; exhibited.", "quantifier": "all solves", "why_tests_cant": "Requires a conjunction of features.", "anchors": ["diffrax/_integrate.py:loop (unsave)", "diffrax/_integrate.py:diffeqsolve"]}
{"id": "C53", "title": "Langevin coefficients", "statement": "The Taylor branch and the direct branch of the ALIGN coefficients agree up to a stated bound for all gamma h below the threshold; the coefficients in use are those of the current step size. The latter is false in the limit of many slowly drifting steps; exhibited.", "quantifier": "all gamma, h; all histories of step sizes", "why_tests_cant": "All reals; unbounded histories.", "anchors": ["diffrax/_solver/align.py", "diffrax/_solver/foster_langevin_srk.py"]}
{"id": "C54", "title": "Stochastic Runge--Kutta methods reduce correctly", "statement": "With zero noise an SRK step is the Runge--Kutta step of its drift tableau; with zero drift and constant diffusion g it returns exactly y0 + g W.", "quantifier": "all vector fields, tableaus with consistent weights", "why_tests_cant": "All vector fields.", "anchors": ["diffrax/_solver/srk.py", "diffrax/_solver/sra1.py", "diffrax/_solver/shark.py"]}
{"id": "C55", "title": "Solves can be stopped and resumed", "statement": "Stopping a loop at any step and resuming it from the returned y, solver_state, controller_state, made_jump and step proposal gives the same trajectory as not stopping.", "quantifier": "all problems, all stopping points", "why_tests_cant": "All split points.", "anchors": ["diffrax/_integrate.py:loop", "diffrax/_integrate.py:diffeqsolve"]}
{"id": "C56", "title": "Saved times are ordered", "statement": "The finite entries of sol.ts are non-decreasing (in the direction of integration).", "quantifier": "all save configurations and histories of controllers that do not move the start of the next step past the end of the accepted step", "why_tests_cant": "All interleavings of ts and steps saving.", "anchors": ["diffrax/_integrate.py:loop"]}
{"id": "C57", "title": "Automatic first step", "statement": "With an adaptive step size controller and dt0=None the size of the first step of an ODE is determined from the problem: it is positive, an Euler step of that size changes y0 by no more than its own size, and the size of the derivative times h**error_order stays below 1% of the tolerances. A dt0 that is given is the first step taken. The first step never passes t1, is at most dtmax, and is at least dtmin unless it ends at t1.", "quantifier": "all vector fields, initial values, tolerances, norms, orders, regions of integration and both directions of time", "why_tests_cant": "Any first step lets an adaptive solve succeed in the end, so tests of the solution do not see which one was chosen, and the bounds are about every vector field.", "anchors": ["diffrax/_step_size_controller/pid.py:_select_initial_step", "diffrax/_step_size_controller/pid.py:PIDController.init", "diffrax/_integrate.py:diffeqsolve", "diffrax/_term.py:WrapTerm"]}
{"id": "C58", "title": "Accuracy of dense output", "statement": "Between the ends of a step, solution.evaluate and SaveAt(ts=...) return values whose error is of the order that the documentation of the solver states for its interpolation: the error within a step of size h is O(h^(q+1)) for an interpolation of order q.", "quantifier": "all solvers with an interpolation, all vector fields with a Taylor expansion, all step sizes below a bound, all times within the step", "why_tests_cant": "The error constant and all trees of derivatives matter; tests look at particular equations and mostly at the ends of steps.", "anchors": ["diffrax/_local_interpolation.py", "diffrax/_solver/tsit5.py:_Tsit5Interpolation", "diffrax/_solver/dopri5.py:_Dopri5Interpolation", "diffrax/_solver/dopri8.py:_Dopri8Interpolation", "diffrax/_solver/kencarp3.py:KenCarpInterpolation", "diffrax/_solver/sil3.py", "diffrax/_solver/runge_kutta.py:AbstractRungeKutta.step"]}
{"id": "C59", "title": "Convergence of a whole solve", "statement": "If every accepted step of diffeqsolve has size at most H, then the values saved after each step, the values of SaveAt(ts=...) and solution.evaluate between the steps and the final value differ from the exact solution by O(H^p), where p is the order of the solver, for every step size controller, every choice of steps and every pattern of rejected steps; rounding of the coefficients of a solver by eps adds O(eps).", "quantifier": "all Runge-Kutta solvers with an interpolation, all Lipschitz vector fields with a Taylor expansion along the solution, all step size controllers, histories of accepted and rejected steps, lengths of the solve and times inside of it", "why_tests_cant": "Tests compare a few equations on a few step sizes; the claim is that no sequence of step sizes and rejections can make errors accumulate, which needs induction over the history of the solve.", "anchors": ["diffrax/_integrate.py:loop", "diffrax/_integrate.py:diffeqsolve", "diffrax/_solver/runge_kutta.py:AbstractRungeKutta.step", "diffrax/_local_interpolation.py", "diffrax/_global_interpolation.py:DenseInterpolation"]}
{"id": "C60", "title": "Stability on stiff equations", "statement": "The implicit solvers documented as A-L stable (Kvaerno3, Kvaerno4, Kvaerno5, KenCarp3, KenCarp4, KenCarp5, ImplicitEuler) do not amplify any decaying or oscillating component of a linear equation, whatever the size of the step, and damp it to (almost) nothing if the step is long compared to its time scale; hence no choice of step sizes makes a solve of a stable linear equation blow up. Both hold up to the rounding of the published coefficients, which is given explicitly for each solver.", "quantifier": "all step sizes, all complex rates with real part at most 0 and any number of components, all initial values; all step size controllers and all histories of accepted and rejected steps", "why_tests_cant": "Stability is a statement about the whole left half plane of step size times rate; tests try a few stiff equations at a few step sizes, and an error in one coefficient may destabilise only a small region.", "anchors": ["diffrax/_solver/kvaerno3.py:Kvaerno3", "diffrax/_solver/kvaerno4.py:Kvaerno4", "diffrax/_solver/kvaerno5.py:Kvaerno5", "diffrax/_solver/kencarp3.py:KenCarp3", "diffrax/_solver/kencarp4.py:KenCarp4", "diffrax/_solver/kencarp5.py:KenCarp5", "diffrax/_solver/implicit_euler.py:ImplicitEuler", "diffrax/_solver/runge_kutta.py:AbstractRungeKutta.step"]}
{"id": "C61", "title": "Argument checks", "statement": "diffeqsolve accepts a call exactly if it is acceptable: a well-formed step size controller, at most one event, dt0 not pointing away from t1, terms fitting the solver, StepTo times strictly monotone from t0 to t1, saveat.ts monotone towards t1 and inside of [t0, t1], max_steps given wherever buffers need it, tolerances known for an implicit solver, an error estimate and its order for an adaptive controller, an adjoint supporting the rest; an accepted call returns a solution, any other raises and does nothing.", "quantifier": "all combinations of arguments: nested controllers, trees of SubSaveAt, PyTrees of terms of any depth, solvers, adjoints, times and floating point formats", "why_tests_cant": "Tests try single wrong arguments; whether every bad combination is caught and no good one refused ranges over all argument combinations, and over all floating point values for the sign test on dt0.", "anchors": ["diffrax/_integrate.py:diffeqsolve", "diffrax/_saveat.py:SaveAt", "diffrax/_saveat.py:SubSaveAt", "diffrax/_step_size_controller/constant.py:StepTo", "diffrax/_step_size_controller/clip.py:ClipStepSizeController.__init__", "diffrax/_adjoint.py"]}
{"id": "C62", "title": "Stochastic equations are recognised, and unsound combinations refused", "statement": "A solve is treated as stochastic exactly if a Brownian path occurs anywhere in its terms. Adaptive steps are never used with UnsafeBrownianPath, nor with Euler or HalfSolver(Euler()) on a stochastic equation. An adaptive controller assumes the error order given to it, otherwise the strong order plus 1/2 for stochastic and that of the solver for other equations. isinstance checks are forwarded through wrapping solvers.", "quantifier": "all PyTrees of terms, all solvers under any number of wrappers, all nested controllers, all adjoints", "why_tests_cant": "Terms, wrappers and controllers nest arbitrarily; tests cover one nesting each (HalfSolver once), and miss that two of them behave differently.", "anchors": ["diffrax/_heuristics.py:is_sde", "diffrax/_heuristics.py:is_unsafe_sde", "diffrax/_heuristics.py:is_cde", "diffrax/_solver/base.py:AbstractWrappedSolver", "diffrax/_solver/base.py:HalfSolver", "diffrax/_integrate.py:diffeqsolve", "diffrax/_step_size_controller/pid.py:PIDController._get_error_order"]}
{"id": "C63", "title": "Tolerances for implicit solvers and steady states", "statement": "Each tolerance of the root finder of an implicit solver is its own if given, otherwise that of the PIDController inside the step size controller; a solve never starts with a tolerance unknown, and other parts of the solver are untouched. With steady_state_event a solve stops at the first step whose end satisfies norm(f) < atol + rtol * norm(y), with unspecified values again taken from the controller, and no earlier.", "quantifier": "all solvers and root finder tolerances, all nestings of controllers, all vector fields and norms, all histories of accepted and rejected steps", "why_tests_cant": "The first steady state is a statement about every earlier step of every run; tolerance resolution depends on nested controllers and wrappers that tests try one at a time.", "anchors": ["diffrax/_integrate.py:diffeqsolve", "diffrax/_root_finder/_with_tols.py:with_stepsize_controller_tols", "diffrax/_event.py:steady_state_event", "diffrax/_step_size_controller/clip.py:ClipStepSizeController"]}
{"id": "C64", "title": "Type arguments are resolved through the class hierarchy", "statement": "For a generic base class (such as AbstractTerm) and any class or subscripted class, the arguments found for the base are those with which the class inherits from it according to the class statements, with type variables substituted and Any where unfilled; conflicting ways to inherit are an error, every subclass gets an answer or that error, and other classes are rejected.", "quantifier": "all class hierarchies Python allows, of any depth and number of bases, all subscripts", "why_tests_cant": "The answer depends on every path through an arbitrary hierarchy of user classes and on the method resolution order; tests fix a dozen hierarchies.", "anchors": ["diffrax/_typing.py:get_args_of", "diffrax/_typing.py:_get_args_of_impl", "diffrax/_typing.py:get_origin_no_specials"]}
{"id": "C65", "title": "A solver accepts exactly the terms it can use", "statement": "diffeqsolve accepts terms exactly if they have the structure the solver declares: PyTree structure, MultiTerms with the right number of terms, classes, and types of vector field and control (for stochastic Runge-Kutta methods, the required kind of Levy area). Other terms are refused with the error for incompatible terms. Tuples of terms, as in earlier versions, still work for EulerHeun and the Milstein methods.", "quantifier": "all terms built from any classes, nested to any depth, all declared structures, all states", "why_tests_cant": "Terms and structures are arbitrary nested trees of user classes; tests try single mismatches.", "anchors": ["diffrax/_integrate.py:_assert_term_compatible", "diffrax/_integrate.py:diffeqsolve", "diffrax/_typing.py:better_isinstance", "diffrax/_solver/base.py:_term_compatible_contr_kwargs"]}
{"id": "C66", "title": "ImplicitAdjoint differentiates the steady state", "statement": "With adjoint=ImplicitAdjoint() the derivative of the result with respect to all parameters is that of the steady state as a function of the parameters, for any vector field with invertible Jacobian, in either direction of time; if the solve ends a little off the steady state, it is the derivative of the states at which the vector field keeps that value. steady_state_event ends the solve exactly at states where the vector field is small. Both hold however the vector field is split into terms.", "quantifier": "all differentiable vector fields and parameters in any normed spaces, all times, all families of steady states, all linear solvers, all numbers of terms", "why_tests_cant": "A test compares two numbers for one equation; here the derivative must be right for every equation, dimension and way of writing it as terms.", "anchors": ["diffrax/_adjoint.py:ImplicitAdjoint", "diffrax/_adjoint.py:_vf", "diffrax/_event.py:steady_state_event", "diffrax/_solver/runge_kutta.py:AbstractRungeKutta.func", "diffrax/_term.py:MultiTerm.vf"]}
{"id": "C67", "title": "Gradients of a solve", "statement": "Differentiating diffeqsolve in forward mode with respect to y0 and args gives, for the final value and for every value at a requested time, exactly the derivative of the sequence of steps that were accepted, with their end points held fixed: rejected steps, error estimates and the choice of step sizes contribute nothing, and carrying tangents does not change the values. With ConstantStepSize and StepTo this is the derivative of the solve itself. With PIDController it is not, because the step sizes depend on y0. With respect to t0 and t1, all step ends but the last move with t0 and the last moves with t1.", "quantifier": "every solver with right differentiation rules for one step, every step size controller and configuration, parameters, initial value, tangents, number of steps and requested times", "why_tests_cant": "Tests compare a few gradients with finite differences up to a tolerance; that no tangent leaks through step size selection or rejected steps must hold at every step of every solve.", "anchors": ["diffrax/_integrate.py:loop", "diffrax/_integrate.py:_clip_to_end", "diffrax/_step_size_controller/pid.py:PIDController.adapt_step_size", "diffrax/_step_size_controller/constant.py", "diffrax/_adjoint.py:ForwardMode", "diffrax/_adjoint.py:DirectAdjoint"]}
{"id": "C68", "title": "Derivative of dense output", "statement": "With SaveAt(dense=True), sol.derivative(t) is the derivative of sol.evaluate at every time strictly inside a step, for forward and backward solves; at the end of a step and at jumps it is the one-sided derivative chosen by left; at the ends of the solve it is the derivative from inside; outside it is NaN. Increments sol.evaluate(a, b) are the integrals of the derivative. It approximates the vector field along the true solution: within a step of size h the error is O(h^q), with q the order of the solver's interpolation.", "quantifier": "all solves with any number of steps of any lengths, both directions, all times, both values of left, all interpolations that are differentiable; all smooth equations, all points of a step, all shipped Runge-Kutta solvers", "why_tests_cant": "Derivatives are limits at every point of every step, and the error bound is an asymptotic statement about all equations and step sizes.", "anchors": ["diffrax/_solution.py:Solution.derivative", "diffrax/_solution.py:Solution.evaluate", "diffrax/_global_interpolation.py:DenseInterpolation", "diffrax/_path.py:AbstractPath.derivative", "diffrax/_local_interpolation.py"]}
{"id": "C69", "title": "AdjointTerm: vf, prod and vf_prod agree", "statement": "For the term that BacksolveAdjoint solves backwards, prod(vf(t, y, args), control) equals vf_prod(t, y, args, control) for every control, although vf finds its value by differentiating vf_prod at another control, in forward or reverse mode depending on the sizes, and transposes the PyTree of Jacobians. vf_prod is linear in the control, moves the state as the original term does and the adjoints by minus the transposed derivative of the original term. is_vf_expensive tells whether the control has at least two elements.", "quantifier": "all PyTree structures and shapes of states, parameters and controls with at least one array, all values, all terms linear in the control", "why_tests_cant": "The equality has to hold for every nesting of PyTrees and every combination of array shapes, which are unbounded, and for all values of the control.", "anchors": ["diffrax/_term.py:AdjointTerm.vf", "diffrax/_term.py:AdjointTerm.prod", "diffrax/_term.py:AdjointTerm.vf_prod", "diffrax/_term.py:AdjointTerm.is_vf_expensive"]}
{"id": "C70", "title": "Underdamped Langevin terms", "statement": "UnderdampedLangevinDriftTerm and UnderdampedLangevinDiffusionTerm give, for every element of every array of the state (x, v), dx = v dt and dv = -gamma v dt - u grad_f(x) dt + sqrt(2 gamma u) dW, where gamma and u may be any prefixes of the PyTree of v with arrays that broadcast to its arrays. gamma and u that do not fit, and a grad_f whose output does not have the structure and shapes of x, raise RuntimeError; each element has its own noise.", "quantifier": "all PyTree structures and array shapes of the state, all prefixes gamma and u, all values, all gradients and increments", "why_tests_cant": "PyTree structures, prefixes of them, numbers of axes and broadcasting patterns are unbounded in number.", "anchors": ["diffrax/_term.py:UnderdampedLangevinDriftTerm", "diffrax/_term.py:UnderdampedLangevinDiffusionTerm", "diffrax/_term.py:broadcast_underdamped_langevin_arg", "diffrax/_term.py:_broadcast_pytree"]}
{"id": "C71", "title": "Strong convergence of Euler on Ito equations", "statement": "For MultiTerm(ODETerm(f), ControlTerm(g, W)) with Lipschitz drift and diffusion and any number of independent Brownian components, the result of diffeqsolve with Euler converges in mean square to the solution of the Ito equation dy = f dt + g dW: its mean-square error is at most C times the largest step, where C depends on the equation and the length of the interval only, and neither on the number of steps nor on the grid. Refining the steps, on the same Brownian motion, changes the result by at most as much.", "quantifier": "all Lipschitz equations with noise of any dimension, all probability spaces and Brownian motions, all initial values, all grids of steps of any number and size", "why_tests_cant": "It is a statement about expectations over all sample paths and about the limit of infinitely many steps; a test estimates it for one equation, some grids and finitely many samples.", "anchors": ["diffrax/_solver/euler.py:Euler.step", "diffrax/_term.py:MultiTerm", "diffrax/_term.py:ControlTerm", "diffrax/_term.py:ODETerm", "diffrax/_integrate.py:diffeqsolve"]}
{"id": "C72", "title": "Strong order one of the Milstein methods", "statement": "For commutative noise of any dimension, ItoMilstein converges to the Ito solution and StratonovichMilstein to the Stratonovich solution with strong order one: the mean-square error of diffeqsolve is at most C times the square of the largest step, with C independent of the grid and the number of steps. For additive noise the same holds of Euler.", "quantifier": "all equations with Lipschitz drift, diffusion and derivatives of the diffusion along itself, with commutative noise of any dimension, all probability spaces and Brownian motions, all initial values, all grids of steps", "why_tests_cant": "It is a statement about expectations over all sample paths and about the limit of infinitely many steps; a test estimates the order for one equation, some grids and finitely many samples.", "anchors": ["diffrax/_solver/milstein.py:ItoMilstein.step", "diffrax/_solver/milstein.py:StratonovichMilstein.step", "diffrax/_solver/euler.py:Euler.step", "diffrax/_integrate.py:diffeqsolve"]}
{"id": "C73", "title": "Adaptive solves end", "statement": "An adaptive solve with PIDController without dtmin and with max_steps=None ends, after a number of attempts (accepted and rejected) bounded in terms of the length of the interval, the first step and the tolerances, whenever all sufficiently short steps are accepted; this is so if the error estimate is at most proportional to the length of the step, as it is for every Runge-Kutta solver on a bounded vector field.", "quantifier": "all solvers, vector fields, controller coefficients and tolerances, all initial step sizes, all sequences of errors and rejections, all floating point time grids fine enough for the tolerance, any number of steps", "why_tests_cant": "It is a liveness statement over unboundedly many adversarial attempts; a test that ends shows only that one solve ended.", "anchors": ["diffrax/_step_size_controller/pid.py:PIDController.adapt_step_size", "diffrax/_integrate.py:loop", "diffrax/_integrate.py:_clip_to_end", "diffrax/_solver/runge_kutta.py:AbstractRungeKutta.step"]}
{"id": "C74", "title": "The tolerances control the error of the whole solve", "statement": "In a solve with PIDController (no dtmin), with an error estimate that is reliable up to a factor kappa, the local error of every accepted step is at most a constant times atol + rtol*B, where B bounds the values; the error against the exact solution after each accepted step, and of the final value of a successful solve, is at most this times the number of accepted steps, grown at the rate at which solutions of the equation move apart. For every solver and controller without time jumps the error is at most the sum of the local errors of the accepted steps, so grown; rejected attempts leave no trace.", "quantifier": "all solvers, equations with Lipschitz flows, tolerances, norms that control entries, controller coefficients, sequences of rejections, any number of steps", "why_tests_cant": "Tests compare the final error of a few equations with a hand-picked multiple of the tolerance; the claim is for every equation and every pattern of accepted and rejected steps.", "anchors": ["diffrax/_step_size_controller/pid.py:PIDController.adapt_step_size", "diffrax/_integrate.py:loop", "diffrax/_integrate.py:diffeqsolve"]}
{"id": "C75", "title": "Results do not depend on units, coordinates, clocks or moving frames", "statement": "Rewriting an equation in other coordinates (any affine change of coordinates, also from or to more coordinates than are independent, a shifted clock, or a frame that moves at constant velocity) and solving it gives the old result in the new coordinates, step by step, and the error estimate turns like a difference of points. In particular, making time a component of the state, so that the vector field no longer depends on its time argument, changes nothing.", "quantifier": "all vector fields and controls, all states and steps, all affine changes of coordinates and constant velocities, all explicit Runge-Kutta tableaus (for moving frames those whose nodes are the row sums), all stochastic Runge-Kutta tableaus, and Euler, Euler-Heun, leapfrog, reversible Heun and both Milstein methods", "why_tests_cant": "It relates the solver's results on two equations, for every equation and every change of coordinates; a test compares a few of them up to rounding and the unused evaluation times stay unseen.", "anchors": ["diffrax/_solver/runge_kutta.py:AbstractRungeKutta.step", "diffrax/_solver/srk.py:AbstractSRK.step", "diffrax/_solver/euler.py:Euler.step", "diffrax/_solver/euler_heun.py:EulerHeun.step", "diffrax/_solver/leapfrog_midpoint.py:LeapfrogMidpoint.step", "diffrax/_solver/reversible_heun.py:ReversibleHeun.step", "diffrax/_solver/milstein.py:StratonovichMilstein.step", "diffrax/_solver/milstein.py:ItoMilstein.step"]}
{"id": "C76", "title": "Solves that treat related values alike return related results", "statement": "diffeqsolve looks at states, errors and saved values only through its solver, controller, save functions and events. If those components of two solves take the same decisions on related values, then the solves make the same attempts: same times, step counts, result, event mask and positions in the saved output, and related final values, saved values and dense output. In particular a whole solve by an explicit Runge-Kutta method, including rejected steps, saving between steps, dense output and events, commutes with affine changes of coordinates; independent equations solved jointly get the same answer as alone under the same steps.", "quantifier": "all pairs of configurations and all relations between their values that the components respect; all affine changes of coordinates, explicit Runge-Kutta methods, vector fields, save configurations, events, controllers and numbers of steps", "why_tests_cant": "It compares two executions for every relation between them and every schedule of accepted and rejected steps; a test compares a few solves up to rounding.", "anchors": ["diffrax/_integrate.py:loop", "diffrax/_integrate.py:diffeqsolve", "diffrax/_solver/runge_kutta.py:AbstractRungeKutta.step", "diffrax/_local_interpolation.py"]}
{"id": "C77", "title": "What the equation conserves linearly, the solver conserves", "statement": "If the vector field conserves a weighted sum of the components (total mass, charge, probability), then the final value, every value handed to a save function, and the dense output at every time have exactly the initial sum, for every step size, tolerance, rejected step, event and save time. This also holds for stochastic equations whose drift and diffusion conserve the sum, with every solver for them. Implicit and mixed methods conserve it at and between all accepted steps as long as the root finder succeeds. More generally, whatever every step and the interpolation preserve holds of everything a solve returns.", "quantifier": "all vector fields and controls that conserve the sum, all weights, explicit Runge-Kutta methods and implicit or mixed ones with exact root finder, all controllers, save configurations, events and numbers of steps", "why_tests_cant": "Conservation is claimed for every equation, schedule of steps and time of evaluation; a test observes it at a few times up to rounding.", "anchors": ["diffrax/_solver/runge_kutta.py:AbstractRungeKutta.step", "diffrax/_integrate.py:loop", "diffrax/_local_interpolation.py", "diffrax/_solver/dopri5.py:_Dopri5Interpolation", "diffrax/_solver/kencarp3.py", "diffrax/_solver/srk.py: AbstractSRK.step", "diffrax/_solver/milstein.py: ItoMilstein.step, StratonovichMilstein.step", "diffrax/_solver/reversible_heun.py: ReversibleHeun.step", "diffrax/_solver/euler_heun.py: EulerHeun.step"]}
{"id": "C78", "title": "Which arrays terms accept, and what they return for them", "statement": "An ODE term accepts what the vector field returned exactly if it is a PyTree of the state's structure whose arrays can be broadcast to those of the state; the result has the state's shapes and the entries of control times vector field. A control term accepts exactly arrays whose shape is that of the state's array followed by that of the control's, without silent broadcasting; the result has the state's shapes and is the matrix-vector product, which for a number as control is that of the ODE term and for diagonal matrices that of the weakly diagonal control term. Dtypes are never lowered silently.", "quantifier": "all PyTrees of arrays of all shapes and ranks, real and complex entries, all controls, dtypes and promotion rules", "why_tests_cant": "Shapes, ranks and structures are unbounded, and the agreement must hold for all entries, also complex ones.", "anchors": ["diffrax/_term.py:ODETerm", "diffrax/_term.py:_prod", "diffrax/_term.py:ControlTerm.vf_prod", "diffrax/_term.py:WeaklyDiagonalControlTerm", "diffrax/_misc.py:upcast_or_raise"]}
{"id": "C79", "title": "Adaptive step sizes do not depend on units", "statement": "If the solution is expressed in another unit and atol is given in that unit, and times, dt0, dtmin and dtmax in another unit of time, then PIDController takes the same decisions: the same attempts are accepted, the same errors reported, the next step is the same length of time, and the remembered errors are the same. A whole adaptive solve makes the same attempts and returns the same statistics, result, times and values, in the new units. This includes infinite and NaN values.", "quantifier": "all positive conversion factors, all controller parameters, all PyTrees of finite or non-finite values, all norms and powers that depend on the numbers only, all solvers whose step does not depend on units, all save and event configurations", "why_tests_cant": "Any conversion factor, history of errors and shape of the solution; a missing factor in one branch shows only if that branch is taken.", "anchors": ["diffrax/_step_size_controller/pid.py:PIDController.init", "diffrax/_step_size_controller/pid.py:PIDController.adapt_step_size", "diffrax/_integrate.py:loop"]}
{"id": "C80", "title": "With adjoint_rms_seminorm, gradients do not depend on which other gradients are computed", "statement": "In a backward solve by BacksolveAdjoint with PIDController(norm=adjoint_rms_seminorm), every decision and step size depends only on the solution, its gradient and their errors, not on the gradients of arguments and terms, their errors, values (also NaN or infinite) or number. Hence asking for gradients with respect to more parameters changes neither the steps, the statistics, nor the gradient with respect to the initial value. With a norm of everything this is false.", "quantifier": "all augmented states and errors with any number and shape of leaves, all controller parameters and norms, all histories; all solvers in which solution and its gradient do not depend on the other gradients", "why_tests_cant": "It is non-interference between two executions, for all values of the parameters' gradients and all histories of steps.", "anchors": ["diffrax/_misc.py:adjoint_rms_seminorm", "diffrax/_step_size_controller/pid.py:PIDController.adapt_step_size", "diffrax/_adjoint.py:BacksolveAdjoint"]}
{"id": "C81", "title": "Linear equations superpose, and a solve has one outcome", "statement": "For a linear equation solved by an explicit Runge-Kutta method, or a linear stochastic equation solved by any of the solvers for these (Euler, EulerHeun, ReversibleHeun, LeapfrogMidpoint, HalfSolver, the SRK and Milstein methods) on the same path, with a controller that does not look at the values (ConstantStepSize, StepTo), diffeqsolve from a*y0 + b*z0 returns a times what it returns from y0 plus b times what it returns from z0: in the final value, all saved values and the dense output at all times, with the same times, number of steps and result. For an inhomogeneous equation the same holds if a + b = 1. A solve has at most one outcome.", "quantifier": "all linear equations (time-dependent, of any dimension, with several terms), all explicit tableaus, all step sequences including rejected steps, all weights and initial values", "why_tests_cant": "It relates three executions, for all equations, step sequences and values.", "anchors": ["diffrax/_integrate.py:diffeqsolve", "diffrax/_integrate.py:loop", "diffrax/_solver/runge_kutta.py:AbstractRungeKutta.step", "diffrax/_local_interpolation.py", "diffrax/_solver/srk.py:AbstractSRK.step", "diffrax/_solver/milstein.py", "diffrax/_solver/euler_heun.py:EulerHeun.step", "diffrax/_solver/reversible_heun.py:ReversibleHeun.step"]}
{"id": "C82", "title": "Solvers without a tableau converge at their declared order", "statement": "For an ordinary differential equation with a Lipschitz vector field and a smooth solution, the value after any number of steps of length h within a time T is off by at most a constant times h for Euler, ImplicitEuler (when its root finder succeeds and h is below half the inverse of the Lipschitz constant) and SemiImplicitEuler (in both halves of a partitioned system), and by at most a constant times h squared for LeapfrogMidpoint and ReversibleHeun. In a solve with ConstantStepSize these are the values after the steps and, if it succeeds, the final value; dense output and SaveAt(ts=...) between the steps add at most a constant times h squared. The constant depends on the equation and on T, not on h or the number of steps.", "quantifier": "all Lipschitz vector fields of any dimension with a solution whose second (third) derivatives are bounded, all step sizes, all numbers of steps, all root finders that return a root when they report success", "why_tests_cant": "Convergence is a statement about all step sizes down to zero and all equations; tests estimate a slope from a few step sizes on a few equations.", "anchors": ["diffrax/_solver/euler.py:Euler.step", "diffrax/_solver/implicit_euler.py:ImplicitEuler.step", "diffrax/_solver/semi_implicit_euler.py:SemiImplicitEuler.step", "diffrax/_solver/leapfrog_midpoint.py:LeapfrogMidpoint.step", "diffrax/_solver/reversible_heun.py:ReversibleHeun.step", "diffrax/_solver/base.py:AbstractSolver.order", "diffrax/_integrate.py:diffeqsolve", "diffrax/_step_size_controller/constant.py:ConstantStepSize"]}
