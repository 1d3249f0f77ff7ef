(** Theorems about the dense output of Runge--Kutta solvers: C58, C38. *)
From Coq Require Import ZArith Reals QArith Qreals List Bool Arith Lia Lra.
From Verif Require Import Model_Result Model_RK Model_Tableaus Model_Terms Model_Orders Model_Interp Model_DenseOutput.
From Verif Require Import Spec_RK Spec_Order Spec_DenseOrder Proof_DenseStep Proof_DenseEnds Proof_DenseRefuted Proof_StageLipschitz Ex_RK Ex_Order Ex_DenseOutput.
Import ListNotations.
Open Scope R_scope.

Section DenseOutput.
  Context {I : Type}.
  Notation Y := (I -> R).

  (** C58: for every explicit method whose interpolation has order [q] up to a rounding [eps] of the coefficients, the
      dense output everywhere within a step of size [h] is within [O(h^(q+1))] of the exact solution, plus a multiple [K] of
      the rounding, where [K] depends on the equation only. *)
  Theorem C58_step :
    forall (fs : list (R -> Y -> Y)) (q : nat) (t0 : R) (y0 : Y) (T : R) (y : R -> Y),
    0 < T -> (forall f, In f fs -> smooth q f t0 y0) -> exact_solution fs t0 y0 T y ->
    exists K, forall (sv : solver I I R) (tabs : list tableau) (s : nat) (interp : interpolation) (eps : R),
      length tabs = length fs -> sv_parts sv = ode_parts (combine tabs fs) ->
      valid_parts s (sv_parts sv) -> explicit_parts (sv_parts sv) -> fsal_at_ends (sv_parts sv) ->
      0 <= eps -> dense_order interp tabs s eps q ->
      exists C h0, 0 < h0 /\ forall h theta others state made_jump, 0 < h <= h0 -> 0 <= theta <= 1 ->
        coherent (sv_parts sv) t0 y0 made_jump state ->
        let out := rk_step sv t0 (t0 + h) y0 others state made_jump in
        bounded (fun x => dense_value interp t0 (t0 + h) y0 out (t0 + theta * h) x - y (t0 + theta * h) x)
                (K * eps * h + C * h ^ (q + 1)).
  Proof. exact pf_C58_step. Qed.
  (** C58: the same for implicit and mixed methods, if the roots found tend to the initial value. *)
  Theorem C58_implicit_step :
    forall (fs : list (R -> Y -> Y)) (q : nat) (t0 : R) (y0 : Y) (T : R) (y : R -> Y),
    0 < T -> (forall f, In f fs -> smooth q f t0 y0) -> exact_solution fs t0 y0 T y ->
    exists K, forall (sv : solver I I R) (tabs : list tableau) (s : nat) (interp : interpolation) (eps : R)
        (others : R -> bool) (state : R -> solver_state I) (made_jump : R -> bool),
      length tabs = length fs -> sv_parts sv = ode_parts (combine tabs fs) ->
      valid_parts s (sv_parts sv) -> exact_root_finder (sv_root_finder sv) -> fsal_at_ends (sv_parts sv) ->
      0 <= eps -> dense_order interp tabs s eps q ->
      let out h := rk_step sv t0 (t0 + h) y0 (others h) (state h) (made_jump h) in
      (forall h, 0 < h <= T -> coherent (sv_parts sv) t0 y0 (made_jump h) (state h) /\ is_okay (ro_result (out h)) = true) ->
      (forall delta, 0 < delta -> exists h1, 0 < h1 /\ forall h i, 0 < h <= h1 -> (i < s)%nat ->
         bounded (fun x => stage_value s (sv_parts sv) y0 (stages_of (out h)) i x - y0 x) delta) ->
      exists C h0, 0 < h0 /\ forall h theta, 0 < h <= h0 -> 0 <= theta <= 1 ->
        bounded (fun x => dense_value interp t0 (t0 + h) y0 (out h) (t0 + theta * h) x - y (t0 + theta * h) x)
                (K * eps * h + C * h ^ (q + 1)).
  Proof. exact pf_C58_implicit_step. Qed.

  (** C58: everywhere within a step of size [h] the dense output of the explicit solvers differs from the exact
      solution by [O(h^(q+1))], and a multiple [K] of the rounding [eps] of the coefficients. *)
  Theorem C58_solvers :
    forall (d : dense_method) (q : nat) (eps : R) (tab : tableau) (f : R -> Y -> Y) (t0 : R) (y0 : Y) (T : R) (y : R -> Y),
    In (d, q, eps) [(heun_dense, 2%nat, 0); (midpoint_dense, 1%nat, 0); (ralston_dense, 1%nat, 0); (bosh3_dense, 3%nat, 0);
                    (dopri5_dense, 4%nat, 0); (tsit5_dense, 4%nat, / IZR (10 ^ 15)); (dopri8_dense, 5%nat, / IZR (10 ^ 13))] ->
    m_tableaus (dm_method d) = [tab] ->
    0 < T -> smooth q f t0 y0 -> exact_solution [f] t0 y0 T y ->
    exists K, forall sv : solver I I R, sv_parts sv = [(tab, ode_term f)] ->
    exists C h0, 0 < h0 /\ forall h theta others state made_jump, 0 < h <= h0 -> 0 <= theta <= 1 ->
      coherent (sv_parts sv) t0 y0 made_jump state ->
      let out := rk_step sv t0 (t0 + h) y0 others state made_jump in
      bounded (fun x => dense_value (dm_interpolation d) t0 (t0 + h) y0 out (t0 + theta * h) x - y (t0 + theta * h) x)
              (K * eps * h + C * h ^ (q + 1)).
  Proof. exact pf_C58_solvers. Qed.
  (** C58: so does that of the implicit and mixed solvers, if the roots found tend to the initial value
      (by [C36_stages_near] they do if the vector fields are Lipschitz). *)
  Theorem C58_implicit_solvers :
    forall (d : dense_method) (q : nat) (eps : R) (fs : list (R -> Y -> Y)) (t0 : R) (y0 : Y) (T : R) (y : R -> Y),
    In (d, q, eps) [(kvaerno3_dense, 3%nat, 0); (kvaerno4_dense, 3%nat, 0); (kvaerno5_dense, 3%nat, / IZR (10 ^ 15)); (sil3_dense, 2%nat, 0);
                    (kencarp3_dense, 2%nat, / IZR (10 ^ 23)); (kencarp4_dense, 3%nat, / IZR (10 ^ 23)); (kencarp5_dense, 3%nat, / IZR (10 ^ 9))] ->
    let tabs := m_tableaus (dm_method d) in
    let s := m_stages (dm_method d) in
    length tabs = length fs ->
    0 < T -> (forall f, In f fs -> smooth q f t0 y0) -> exact_solution fs t0 y0 T y ->
    exists K, forall (sv : solver I I R) (others : R -> bool) (state : R -> solver_state I) (made_jump : R -> bool),
      sv_parts sv = ode_parts (combine tabs fs) -> exact_root_finder (sv_root_finder sv) ->
      let out h := rk_step sv t0 (t0 + h) y0 (others h) (state h) (made_jump h) in
      (forall h, 0 < h <= T -> coherent (sv_parts sv) t0 y0 (made_jump h) (state h) /\ is_okay (ro_result (out h)) = true) ->
      (forall delta, 0 < delta -> exists h1, 0 < h1 /\ forall h i, 0 < h <= h1 -> (i < s)%nat ->
         bounded (fun x => stage_value s (sv_parts sv) y0 (stages_of (out h)) i x - y0 x) delta) ->
      exists C h0, 0 < h0 /\ forall h theta, 0 < h <= h0 -> 0 <= theta <= 1 ->
        bounded (fun x => dense_value (dm_interpolation d) t0 (t0 + h) y0 (out h) (t0 + theta * h) x - y (t0 + theta * h) x)
                (K * eps * h + C * h ^ (q + 1)).
  Proof. exact pf_C58_implicit_solvers. Qed.
End DenseOutput.

(** C58: the order of the interpolation of each of the shipped solvers. *)
  Theorem C58_conditions :
    forall (d : dense_method) (q : nat) (eps : R),
  In (d, q, eps)
     [(heun_dense, 2%nat, 0); (midpoint_dense, 1%nat, 0); (ralston_dense, 1%nat, 0); (bosh3_dense, 3%nat, 0);
      (dopri5_dense, 4%nat, 0); (tsit5_dense, 4%nat, / IZR (10 ^ 15)); (dopri8_dense, 5%nat, / IZR (10 ^ 13));
      (kvaerno3_dense, 3%nat, 0); (kvaerno4_dense, 3%nat, 0); (kvaerno5_dense, 3%nat, / IZR (10 ^ 15)); (sil3_dense, 2%nat, 0);
      (kencarp3_dense, 2%nat, / IZR (10 ^ 23)); (kencarp4_dense, 3%nat, / IZR (10 ^ 23)); (kencarp5_dense, 3%nat, / IZR (10 ^ 9))] ->
  dense_order (dm_interpolation d) (m_tableaus (dm_method d)) (m_stages (dm_method d)) eps q.
  Proof. exact pf_C58_conditions. Qed.

(** C58: five solvers document an interpolation of order [n + 1] or more, but their error in the middle of a
    step is not [O(h^(n+2))], even for [y' = t^n]. *)
  Theorem C58_documented_refuted :
    forall (d : dense_method) (n : nat) (tab : tableau) (sv : solver unit unit R),
  In (d, n) [(midpoint_dense, 1%nat); (ralston_dense, 1%nat); (dopri5_dense, 4%nat); (tsit5_dense, 4%nat); (dopri8_dense, 5%nat)] ->
  m_tableaus (dm_method d) = [tab] ->
  let f : R -> (unit -> R) -> unit -> R := fun t _ _ => t ^ n in
  let y : R -> unit -> R := fun t _ => t ^ (n + 1) / INR (n + 1) in
  sv_parts sv = [(tab, ode_term f)] ->
  (n + 1 <= dm_documented d)%nat /\ (forall p, smooth p f 0 (fun _ => 0)) /\ exact_solution [f] 0 (fun _ => 0) 1 y /\
  forall C h0, 0 < h0 -> exists h, 0 < h <= h0 /\
    let out := rk_step sv 0 h (fun _ => 0) false None false in
    C * h ^ (n + 2) < Rabs (dense_value (dm_interpolation d) 0 h (fun _ => 0) out (h / 2) tt - y (h / 2) tt).
  Proof. exact pf_C58_documented_refuted. Qed.

(** C38: the dense output of all solvers starts at [y0] and, up to rounding of the coefficients, ends at [y1]. *)
  Theorem C38_shipped_ends :
    forall (I : Type) (d : dense_method) (eps : R) (fs : list (R -> (I -> R) -> I -> R)) (sv : solver I I R)
    (t0 h : R) (y0 : I -> R) (others : bool) (state : solver_state I) (made_jump : bool),
  In (d, eps) [(heun_dense, 0); (midpoint_dense, 0); (ralston_dense, 0); (bosh3_dense, 0); (dopri5_dense, 0);
               (kvaerno3_dense, 0); (kvaerno4_dense, 0); (kvaerno5_dense, 0); (sil3_dense, 0);
               (tsit5_dense, / IZR (10 ^ 16)); (dopri8_dense, / IZR (10 ^ 12));
               (kencarp3_dense, / IZR (10 ^ 25)); (kencarp4_dense, / IZR (10 ^ 25)); (kencarp5_dense, / IZR (10 ^ 23))] ->
  length (m_tableaus (dm_method d)) = length fs -> sv_parts sv = ode_parts (combine (m_tableaus (dm_method d)) fs) ->
  exact_root_finder (sv_root_finder sv) -> coherent (sv_parts sv) t0 y0 made_jump state -> 0 < h ->
  let out := rk_step sv t0 (t0 + h) y0 others state made_jump in
  is_okay (ro_result out) = true ->
  forall x, dense_value (dm_interpolation d) t0 (t0 + h) y0 out t0 x = y0 x /\
    Rabs (dense_value (dm_interpolation d) t0 (t0 + h) y0 out (t0 + h) x - ro_y out x)
    <= eps * sum_n (length fs) (fun m => sum_n (m_stages (dm_method d)) (fun i => Rabs (stages_of out m i x))).
  Proof. exact pf_C38_shipped_ends. Qed.

(** C58: all explicit solvers on [y' = y^2]. *)
Example C58_solvers_instance :
  (forall d, In d [heun_dense; midpoint_dense; ralston_dense; bosh3_dense; dopri5_dense; tsit5_dense; dopri8_dense] ->
     exists tab, m_tableaus (dm_method d) = [tab]) /\
  (forall q, smooth q square 0 (fun _ => 1)) /\
  exact_solution [square] 0 (fun _ => 1) (1 / 2) square_solution /\
  (forall tab, sv_parts (square_solver tab) = [(tab, ode_term square)]) /\
  coherent (sv_parts (square_solver dopri8_tableau)) 0 (fun _ => 1) false (rk_init (square_solver dopri8_tableau)).
Proof.
  split; [intros m H; repeat (destruct H as [<-|H]; [eexists; reflexivity|]); destruct H|].
  split; [intros p; exists square_D; apply square_taylor|]. split; [exact square_exact|]. split; [reflexivity|].
  split; [reflexivity|left; reflexivity].
Qed.

(** C58: Kvaerno3 on [y' = - y]. *)
Example C58_implicit_solvers_instance :
  let out h := rk_step decay_kvaerno3 0 (0 + h) (fun _ => 1) false None false in
  In (kvaerno3_dense, 3%nat, 0)
     [(kvaerno3_dense, 3%nat, 0); (kvaerno4_dense, 3%nat, 0); (kvaerno5_dense, 3%nat, / IZR (10 ^ 15)); (sil3_dense, 2%nat, 0);
      (kencarp3_dense, 2%nat, / IZR (10 ^ 23)); (kencarp4_dense, 3%nat, / IZR (10 ^ 23)); (kencarp5_dense, 3%nat, / IZR (10 ^ 9))] /\
  smooth 3 decay_f 0 (fun _ => 1) /\ exact_solution [decay_f] 0 (fun _ => 1) 1 decay_solution /\
  sv_parts decay_kvaerno3 = ode_parts (combine (m_tableaus kvaerno3) [decay_f]) /\
  exact_root_finder (sv_root_finder decay_kvaerno3) /\
  (forall h, 0 < h <= 1 -> coherent (sv_parts decay_kvaerno3) 0 (fun _ => 1) false None /\ is_okay (ro_result (out h)) = true) /\
  (forall d, 0 < d -> exists h1, 0 < h1 /\ forall h i, 0 < h <= h1 -> (i < 4)%nat ->
     bounded (fun x => stage_value 4 (sv_parts decay_kvaerno3) (fun _ => 1) (stages_of (out h)) i x - 1) d).
Proof.
  cbn zeta. split; [left; reflexivity|]. split; [apply decay_smooth|]. split; [exact decay_exact|]. split; [reflexivity|].
  split; [exact affine_rf_exact|].
  split; [intros h Hh; split; [exact Logic.I|apply decay_kvaerno3_result; lra]|].
  apply (Proof_StageLipschitz.pf_C36_stages_near unit 1 [(kvaerno3_tableau, decay_f)] 4 0 (fun _ => 1) 1
    decay_kvaerno3 (fun _ => false) (fun _ => None) (fun _ => false)).
  - exact unit_finite.
  - lra.
  - intros tab f [E|[]]. injection E as <- <-. exact decay_lipschitz.
  - intros tab f [E|[]]. injection E as <- <-. apply decay_smooth.
  - lra.
  - reflexivity.
  - apply (solver_of_valid kvaerno3_tableau). vm_compute. reflexivity.
  - exact affine_rf_exact.
  - apply solver_of_ends. intros _. split; reflexivity.
  - intros h Hh. split; [exact Logic.I|apply decay_kvaerno3_result; lra].
Qed.

(** C58: Dopri8 on [y' = t^5]: documented is order 8, but not even order 6 is reached. *)
Example C58_documented_refuted_instance :
  m_tableaus (dm_method dopri8_dense) = [dopri8_tableau] /\ dm_documented dopri8_dense = 8%nat /\
  sv_parts (Solver [(dopri8_tableau, ode_term (fun t (_ : unit -> R) (_ : unit) => t ^ 5))] false second_stage affine_rf)
  = [(dopri8_tableau, ode_term (fun t _ _ => t ^ 5))].
Proof. repeat split. Qed.

(** C38: Kvaerno3 on [y' = - y]. *)
Example C38_shipped_ends_instance : forall h, 0 < h ->
  sv_parts decay_kvaerno3 = ode_parts (combine (m_tableaus (dm_method kvaerno3_dense)) [decay_f]) /\
  exact_root_finder (sv_root_finder decay_kvaerno3) /\ coherent (sv_parts decay_kvaerno3) 0 (fun _ => 1) false None /\
  is_okay (ro_result (rk_step decay_kvaerno3 0 (0 + h) (fun _ => 1) false None false)) = true.
Proof. intros h Hh. split; [reflexivity|]. split; [exact affine_rf_exact|]. split; [exact Logic.I|apply decay_kvaerno3_result; exact Hh]. Qed.

(** C58: the dense output of Tsit5 has order 4 up to rounding; the theorem applies to it. *)
Example C58_step_instance :
  dense_order (dm_interpolation tsit5_dense) [tsit5_tableau] 7 (/ IZR (10 ^ 15)) 4 /\
  smooth 4 square 0 (fun _ => 1) /\ exact_solution [square] 0 (fun _ => 1) (1 / 2) square_solution /\
  valid_parts 7 (sv_parts (square_solver tsit5_tableau)) /\ explicit_parts (sv_parts (square_solver tsit5_tableau)) /\
  fsal_at_ends (sv_parts (square_solver tsit5_tableau)).
Proof.
  split; [apply (C58_conditions tsit5_dense 4 (/ IZR (10 ^ 15))); do 5 right; left; reflexivity|].
  split; [exists square_D; apply square_taylor|]. split; [exact square_exact|].
  split; [apply (square_valid tsit5_tableau); vm_compute; reflexivity|].
  split; [intros tab m [E|[]]; injection E as <- <-; reflexivity|]. apply square_ends. intros _. split; reflexivity.
Qed.

Print Assumptions C58_step.
Print Assumptions C58_implicit_step.
Print Assumptions C58_solvers.
Print Assumptions C58_implicit_solvers.
Print Assumptions C58_conditions.
Print Assumptions C58_documented_refuted.
Print Assumptions C38_shipped_ends.
