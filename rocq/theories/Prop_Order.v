(** Theorems about the order of Runge--Kutta solvers: C30, C31. *)
From Coq Require Import ZArith Reals QArith Qreals List Bool Arith Lia Lra.
From Verif Require Import Model_Result Model_RK Model_Tableaus Model_Terms Model_Orders Spec_RK Spec_Order.
From Verif Require Import Proof_OrderStep Proof_OrderShipped Proof_OrderDopri8 Proof_OrderSolvers Ex_RK Ex_Order.
Import ListNotations.
Open Scope R_scope.

(** C30: these solvers satisfy the order conditions of all rooted trees up to the order they declare
    (for each, at least one condition of the next order fails). *)
  Theorem C30_exact_methods :
    forall m : rk_method,
  In m [heun; midpoint; ralston; bosh3; dopri5; kvaerno3; kvaerno4; sil3] ->
  has_order (m_tableaus m) (m_stages m) (m_order m) /\ ~ has_order (m_tableaus m) (m_stages m) (S (m_order m)).
  Proof. exact pf_C30_exact_methods. Qed.
(** C30: so do these up to the rounding of their coefficients in the source. *)
  Theorem C30_rounded_methods :
    forall (m : rk_method) (digits : Z),
  In (m, digits) [(tsit5, 30); (kvaerno5, 16); (kencarp3, 24); (kencarp4, 24); (kencarp5, 11)]%Z ->
  has_order_up_to (m_tableaus m) (m_stages m) (/ IZR (10 ^ digits)) (m_order m).
  Proof. exact pf_C30_rounded_methods. Qed.
  Theorem C30_dopri8 :
    has_order_up_to (m_tableaus dopri8) (m_stages dopri8) (/ IZR (10 ^ 16)) (m_order dopri8).
  Proof. exact pf_C30_dopri8. Qed.
(** C30: a coefficient of KenCarp5 is wrong in its last digits: the conditions are missed by more than the
    rounding, unlike with the coefficient changed. *)
  Theorem C30_kencarp5_refuted :
    (exists t, is_node t /\ of_parts 2 t /\ (size t <= m_order kencarp5)%nat /\
     / IZR (10 ^ 12) < Rabs (residual (m_tableaus kencarp5) (m_stages kencarp5) t)) /\
  has_order_up_to [kencarp5_explicit_tableau; kencarp5_implicit_corrected] 8 (/ IZR (10 ^ 16)) (m_order kencarp5).
  Proof. exact pf_C30_kencarp5_refuted. Qed.
(** C30: Sil3's documentation claims third order in the explicit term. *)
  Theorem C30_sil3_third_order_refuted :
    ~ has_order [sil3_explicit_tableau] 4 3.
  Proof. exact pf_C30_sil3_third_order_refuted. Qed.

(** C31: the error estimates vanish up to one order less (not up to the same order). *)
  Theorem C31_exact_methods :
    forall m : rk_method,
  In m [heun; midpoint; ralston; bosh3; dopri5; kvaerno3; kvaerno4] ->
  error_has_order (m_tableaus m) (m_stages m) (m_order m - 1) /\ ~ error_has_order (m_tableaus m) (m_stages m) (m_order m).
  Proof. exact pf_C31_exact_methods. Qed.
  Theorem C31_sil3 :
    error_has_order (m_tableaus sil3) (m_stages sil3) 2 /\ ~ error_has_order (m_tableaus sil3) (m_stages sil3) 3.
  Proof. exact pf_C31_sil3. Qed.
  Theorem C31_rounded_methods :
    forall (m : rk_method) (digits : Z),
  In (m, digits) [(tsit5, 30); (kvaerno5, 16); (kencarp3, 24); (kencarp4, 24); (kencarp5, 11)]%Z ->
  error_has_order_up_to (m_tableaus m) (m_stages m) (/ IZR (10 ^ digits)) (m_order m - 1).
  Proof. exact pf_C31_rounded_methods. Qed.
  Theorem C31_dopri8 :
    error_has_order_up_to (m_tableaus dopri8) (m_stages dopri8) (/ IZR (10 ^ 16)) (m_order dopri8 - 1).
  Proof. exact pf_C31_dopri8. Qed.

Section Order.
  Context {I : Type}.
  Notation Y := (I -> R).

  (** C30, C31: order conditions imply order: for every smooth equation the error of a step of size [h] is
      [O(h^(p+1))] and the error estimate is [O(h^(q+1))]. *)
  Theorem C30_step :
    forall (sv : solver I I R) (ps : list (tableau * (R -> Y -> Y))) (s p q : nat) (t0 : R) (y0 : Y) (T : R) (y : R -> Y),
    sv_parts sv = ode_parts ps ->
    valid_parts s (sv_parts sv) -> explicit_parts (sv_parts sv) -> fsal_at_ends (sv_parts sv) ->
    has_order (map fst ps) s p -> error_has_order (map fst ps) s q -> (q <= p)%nat ->
    0 < T -> (forall f, In f (map snd ps) -> smooth p f t0 y0) -> exact_solution (map snd ps) t0 y0 T y ->
    exists C h0, 0 < h0 /\ forall h others state made_jump, 0 < h <= h0 ->
      coherent (sv_parts sv) t0 y0 made_jump state ->
      let out := rk_step sv t0 (t0 + h) y0 others state made_jump in
      bounded (fun x => ro_y out x - y (t0 + h) x) (C * h ^ S p) /\
      exists e, ro_error out = Some e /\ bounded e (C * h ^ S q).
  Proof. exact pf_C30_step. Qed.
  (** C30, C31: the same with rounded coefficients, which add an error proportional to the rounding with a
      factor [K] that depends on the equation only. *)
  Theorem C30_rounded_step :
    forall (fs : list (R -> Y -> Y)) (p q : nat) (t0 : R) (y0 : Y) (T : R) (y : R -> Y),
    (q <= p)%nat ->
    0 < T -> (forall f, In f fs -> smooth p f t0 y0) -> exact_solution fs t0 y0 T y ->
    exists K, forall (sv : solver I I R) (tabs : list tableau) (s : nat) (eps : R),
      length tabs = length fs -> sv_parts sv = ode_parts (combine tabs fs) ->
      valid_parts s (sv_parts sv) -> explicit_parts (sv_parts sv) -> fsal_at_ends (sv_parts sv) ->
      0 <= eps -> has_order_up_to tabs s eps p -> error_has_order_up_to tabs s eps q ->
      exists C h0, 0 < h0 /\ forall h others state made_jump, 0 < h <= h0 ->
        coherent (sv_parts sv) t0 y0 made_jump state ->
        let out := rk_step sv t0 (t0 + h) y0 others state made_jump in
        bounded (fun x => ro_y out x - y (t0 + h) x) (K * eps * h + C * h ^ S p) /\
        exists e, ro_error out = Some e /\ bounded e (K * eps * h + C * h ^ S q).
  Proof. exact pf_C30_rounded_step. Qed.
  (** C30, C31: the same for implicit and mixed methods, if the roots found tend to the initial value. *)
  Theorem C30_implicit_step :
    forall (fs : list (R -> Y -> Y)) (p q : nat) (t0 : R) (y0 : Y) (T : R) (y : R -> Y),
    (q <= p)%nat ->
    0 < T -> (forall f, In f fs -> smooth p f t0 y0) -> exact_solution fs t0 y0 T y ->
    exists K, forall (sv : solver I I R) (tabs : list tableau) (s : nat) (eps : R)
        (others : R -> bool) (state : R -> solver_state I) (made_jump : R -> bool),
      length tabs = length fs -> sv_parts sv = ode_parts (combine tabs fs) ->
      valid_parts s (sv_parts sv) -> exact_root_finder (sv_root_finder sv) -> fsal_at_ends (sv_parts sv) ->
      0 <= eps -> has_order_up_to tabs s eps p -> error_has_order_up_to tabs s eps q ->
      let out h := rk_step sv t0 (t0 + h) y0 (others h) (state h) (made_jump h) in
      (forall h, 0 < h <= T -> coherent (sv_parts sv) t0 y0 (made_jump h) (state h) /\ is_okay (ro_result (out h)) = true) ->
      (forall d, 0 < d -> exists h1, 0 < h1 /\ forall h i, 0 < h <= h1 -> (i < s)%nat ->
         bounded (fun x => stage_value s (sv_parts sv) y0 (stages_of (out h)) i x - y0 x) d) ->
      exists C h0, 0 < h0 /\ forall h, 0 < h <= h0 ->
        bounded (fun x => ro_y (out h) x - y (t0 + h) x) (K * eps * h + C * h ^ S p) /\
        exists e, ro_error (out h) = Some e /\ bounded e (K * eps * h + C * h ^ S q).
  Proof. exact pf_C30_implicit_step. Qed.
  (** C30, C31: the shipped explicit solvers. *)
  Theorem C30_solvers :
    forall (m : rk_method) (tab : tableau) (sv : solver I I R) (f : R -> Y -> Y) (t0 : R) (y0 : Y) (T : R) (y : R -> Y),
    In m [heun; midpoint; ralston; bosh3; dopri5] -> m_tableaus m = [tab] ->
    sv_parts sv = [(tab, ode_term f)] ->
    0 < T -> smooth (m_order m) f t0 y0 -> exact_solution [f] t0 y0 T y ->
    exists C h0, 0 < h0 /\ forall h others state made_jump, 0 < h <= h0 ->
      coherent (sv_parts sv) t0 y0 made_jump state ->
      let out := rk_step sv t0 (t0 + h) y0 others state made_jump in
      bounded (fun x => ro_y out x - y (t0 + h) x) (C * h ^ (m_order m + 1)) /\
      exists e, ro_error out = Some e /\ bounded e (C * h ^ m_order m).
  Proof. exact pf_C30_solvers. Qed.
  Theorem C30_rounded_solvers :
    forall (f : R -> Y -> Y) (m : rk_method) (digits : Z) (tab : tableau) (t0 : R) (y0 : Y) (T : R) (y : R -> Y),
    In (m, digits) [(tsit5, 30); (dopri8, 16)]%Z -> m_tableaus m = [tab] ->
    0 < T -> smooth (m_order m) f t0 y0 -> exact_solution [f] t0 y0 T y ->
    exists K, forall sv : solver I I R, sv_parts sv = [(tab, ode_term f)] ->
    exists C h0, 0 < h0 /\ forall h others state made_jump, 0 < h <= h0 ->
      coherent (sv_parts sv) t0 y0 made_jump state ->
      let out := rk_step sv t0 (t0 + h) y0 others state made_jump in
      bounded (fun x => ro_y out x - y (t0 + h) x) (K * / IZR (10 ^ digits) * h + C * h ^ (m_order m + 1)) /\
      exists e, ro_error out = Some e /\ bounded e (K * / IZR (10 ^ digits) * h + C * h ^ m_order m).
  Proof. exact pf_C30_rounded_solvers. Qed.
End Order.

(** C30: the order conditions of Dopri5 on a tree of five nodes. *)
Example C30_exact_methods_instance :
  let t := Node 0 [Node 0 [Time; Node 0 []]; Node 0 []] in
  is_node t /\ of_parts 1 t /\ size t = 5%nat /\ (size t <= m_order dopri5)%nat /\ density t = 15%nat /\
  m_stages dopri5 = 7%nat /\ m_order dopri8 = 8%nat /\ m_stages dopri8 = 14%nat.
Proof. cbn. repeat split; lia. Qed.

(** C30, C31: all solvers above on [y' = y^2]. *)
Example C30_solvers_instance :
  (forall m, In m [heun; midpoint; ralston; bosh3; dopri5; tsit5; dopri8] -> exists tab, m_tableaus m = [tab]) /\
  (forall p, smooth p square 0 (fun _ => 1)) /\
  exact_solution [square] 0 (fun _ => 1) (1 / 2) square_solution /\
  (forall tab, sv_parts (square_solver tab) = [(tab, ode_term square)]) /\
  coherent (sv_parts (square_solver dopri5_tableau)) 0 (fun _ => 1) false (rk_init (square_solver dopri5_tableau)) /\
  coherent (sv_parts (square_solver dopri5_tableau)) 0 (fun _ => 1) false (Some (false, [fun _ => 1])).
Proof.
  split; [intros m H; repeat (destruct H as [<-|H]; [eexists; reflexivity|]); destruct H|].
  split; [intros p; exists square_D; apply square_taylor|]. split; [exact square_exact|]. split; [reflexivity|].
  split; [split; [reflexivity|left; reflexivity]|]. split; [reflexivity|right; right].
  intros [|m] tab trm f E E'; [|destruct m; discriminate]. injection E as <- <-. injection E' as <-.
  intros x. cbn. unfold square. ring.
Qed.

(** C30, C31: Heun's method on [y' = y^2]. *)
Example C30_step_instance :
  ode_parts [(heun_tableau, square)] = sv_parts (square_solver heun_tableau) /\
  valid_parts 2 (sv_parts (square_solver heun_tableau)) /\ explicit_parts (sv_parts (square_solver heun_tableau)) /\
  fsal_at_ends (sv_parts (square_solver heun_tableau)) /\
  has_order [heun_tableau] 2 2 /\ error_has_order [heun_tableau] 2 1.
Proof.
  split; [reflexivity|]. split; [apply (square_valid heun_tableau); vm_compute; reflexivity|].
  split; [intros ? ? [E|[]]; injection E as <- <-; reflexivity|]. split; [apply square_ends; discriminate|].
  split; [apply (C30_exact_methods heun); left; reflexivity|apply (C31_exact_methods heun); left; reflexivity].
Qed.

(** C30, C31: the trapezoidal rule on [y' = - y]. *)
Example C30_implicit_step_instance :
  let out h := rk_step trapezoid 0 (0 + h) (fun _ => 1) false None false in
  smooth 2 decay_f 0 (fun _ => 1) /\ exact_solution [decay_f] 0 (fun _ => 1) 1 decay_solution /\
  sv_parts trapezoid = ode_parts (combine [trapezoid_tableau] [decay_f]) /\
  valid_parts 2 (sv_parts trapezoid) /\ exact_root_finder (sv_root_finder trapezoid) /\ fsal_at_ends (sv_parts trapezoid) /\
  (forall h, 0 < h <= 1 -> coherent (sv_parts trapezoid) 0 (fun _ => 1) false None /\ is_okay (ro_result (out h)) = true) /\
  (forall d, 0 < d -> exists h1, 0 < h1 /\ forall h i, 0 < h <= h1 -> (i < 2)%nat ->
     bounded (fun x => stage_value 2 (sv_parts trapezoid) (fun _ => 1) (stages_of (out h)) i x - 1) d) /\
  has_order [trapezoid_tableau] 2 2 /\ error_has_order [trapezoid_tableau] 2 1.
Proof.
  cbn zeta. split; [exists decay_D; exact decay_taylor|]. split; [exact decay_exact|]. split; [reflexivity|].
  split; [apply (solver_of_valid trapezoid_tableau); vm_compute; reflexivity|]. split; [exact affine_rf_exact|].
  split; [apply solver_of_ends; split; reflexivity|].
  split; [intros h Hh; split; [exact Logic.I|rewrite trapezoid_result by lra; reflexivity]|].
  split.
  - intros d Hd. exists d. split; [exact Hd|]. intros h i Hh Hi x. eapply Rle_trans; [apply trapezoid_stages; [lra|exact Hi]|lra].
  - split; [apply Proof_OrderCheck.order_exact_correct|apply Proof_OrderCheck.error_exact_correct]; vm_compute; reflexivity.
Qed.

Print Assumptions C30_exact_methods.
Print Assumptions C30_rounded_methods.
Print Assumptions C30_dopri8.
Print Assumptions C30_kencarp5_refuted.
Print Assumptions C30_sil3_third_order_refuted.
Print Assumptions C31_exact_methods.
Print Assumptions C31_sil3.
Print Assumptions C31_rounded_methods.
Print Assumptions C31_dopri8.
Print Assumptions C30_step.
Print Assumptions C30_rounded_step.
Print Assumptions C30_implicit_step.
Print Assumptions C30_solvers.
Print Assumptions C30_rounded_solvers.
