(** Theorems about implicit Runge--Kutta steps with Lipschitz vector fields: C30, C31, C36. *)
From Coq Require Import Reals QArith Qreals List Bool Arith Lia Lra.
From Verif Require Import Model_Result Model_RK Model_Tableaus Model_Terms Model_Orders Spec_RK Spec_Order Spec_Lipschitz.
From Verif Require Import Proof_OrderStep Proof_OrderShipped Proof_StageLipschitz Ex_RK Ex_Order Ex_DenseOutput.
Import ListNotations.
Open Scope R_scope.

(** C36: for small steps the result of an implicit step does not depend on the root finder, its guess or the
    Jacobian it uses, nor on the cached vector field: every successful step gives the same values. *)
  Theorem C36_unique :
    forall (I : Type) (L : R) (ps : list (tableau * (R -> (I -> R) -> I -> R))) (s : nat) (t0 : R) (y0 : I -> R),
  finite_type I -> 0 <= L -> (forall tab f, In (tab, f) ps -> lipschitz L f) ->
  exists h1, 0 < h1 /\ forall (h : R) (sv sv' : solver I I R) (others others' : bool) (state state' : solver_state I) (made_jump made_jump' : bool),
    0 < h <= h1 -> sv_parts sv = ode_parts ps -> sv_parts sv' = ode_parts ps ->
    valid_parts s (ode_parts ps) -> fsal_at_ends (ode_parts ps) ->
    exact_root_finder (sv_root_finder sv) -> exact_root_finder (sv_root_finder sv') ->
    coherent (ode_parts ps) t0 y0 made_jump state -> coherent (ode_parts ps) t0 y0 made_jump' state' ->
    let out := rk_step sv t0 (t0 + h) y0 others state made_jump in
    let out' := rk_step sv' t0 (t0 + h) y0 others' state' made_jump' in
    is_okay (ro_result out) = true -> is_okay (ro_result out') = true ->
    (forall x, ro_y out x = ro_y out' x) /\
    (exists e e', ro_error out = Some e /\ ro_error out' = Some e' /\ forall x, e x = e' x).
  Proof. exact pf_C36_unique. Qed.
(** C36: the stages found are the ones near the initial value. *)
  Theorem C36_stages_near :
    forall (I : Type) (L : R) (ps : list (tableau * (R -> (I -> R) -> I -> R))) (s : nat) (t0 : R) (y0 : I -> R) (T : R)
    (sv : solver I I R) (others : R -> bool) (state : R -> solver_state I) (made_jump : R -> bool),
  finite_type I -> 0 <= L -> (forall tab f, In (tab, f) ps -> lipschitz L f) -> (forall tab f, In (tab, f) ps -> smooth 1 f t0 y0) ->
  0 < T -> sv_parts sv = ode_parts ps -> valid_parts s (sv_parts sv) -> exact_root_finder (sv_root_finder sv) -> fsal_at_ends (sv_parts sv) ->
  let out h := rk_step sv t0 (t0 + h) y0 (others h) (state h) (made_jump h) in
  (forall h, 0 < h <= T -> coherent (sv_parts sv) t0 y0 (made_jump h) (state h) /\ is_okay (ro_result (out h)) = true) ->
  forall d, 0 < d -> exists h1, 0 < h1 /\ forall h i, 0 < h <= h1 -> (i < s)%nat ->
    bounded (fun x => stage_value s (sv_parts sv) y0 (stages_of (out h)) i x - y0 x) d.
  Proof. exact pf_C36_stages_near. Qed.
(** C30, C31: implicit and mixed methods satisfying the order conditions have that order. *)
  Theorem C30_implicit_lipschitz :
    forall (I : Type) (L : R) (fs : list (R -> (I -> R) -> I -> R)) (p q : nat) (t0 : R) (y0 : I -> R) (T : R) (y : R -> I -> R),
  finite_type I -> 0 <= L -> (forall f, In f fs -> lipschitz L f) -> (1 <= p)%nat -> (q <= p)%nat ->
  0 < T -> (forall f, In f fs -> smooth p f t0 y0) -> exact_solution fs t0 y0 T y ->
  exists K, forall (sv : solver I I R) (tabs : list tableau) (s : nat) (eps : R)
      (others : R -> bool) (state : R -> solver_state I) (made_jump : R -> bool),
    length tabs = length fs -> sv_parts sv = ode_parts (combine tabs fs) ->
    valid_parts s (sv_parts sv) -> exact_root_finder (sv_root_finder sv) -> fsal_at_ends (sv_parts sv) ->
    0 <= eps -> has_order_up_to tabs s eps p -> error_has_order_up_to tabs s eps q ->
    let out h := rk_step sv t0 (t0 + h) y0 (others h) (state h) (made_jump h) in
    (forall h, 0 < h <= T -> coherent (sv_parts sv) t0 y0 (made_jump h) (state h) /\ is_okay (ro_result (out h)) = true) ->
    exists C h0, 0 < h0 /\ forall h, 0 < h <= h0 ->
      bounded (fun x => ro_y (out h) x - y (t0 + h) x) (K * eps * h + C * h ^ S p) /\
      exists e, ro_error (out h) = Some e /\ bounded e (K * eps * h + C * h ^ S q).
  Proof. exact pf_C30_implicit_lipschitz. Qed.

(** C36, C30, C31: Kvaerno3 on [y' = - y]. *)
Example C36_unique_instance :
  finite_type unit /\ lipschitz 1 decay_f /\ (forall p, smooth p decay_f 0 (fun _ => 1)) /\
  exact_solution [decay_f] 0 (fun _ => 1) 1 decay_solution /\
  sv_parts decay_kvaerno3 = ode_parts [(kvaerno3_tableau, decay_f)] /\
  valid_parts 4 (sv_parts decay_kvaerno3) /\ exact_root_finder (sv_root_finder decay_kvaerno3) /\ fsal_at_ends (sv_parts decay_kvaerno3) /\
  has_order_up_to [kvaerno3_tableau] 4 0 3 /\ error_has_order_up_to [kvaerno3_tableau] 4 0 2 /\
  forall h, 0 < h <= 1 -> coherent (sv_parts decay_kvaerno3) 0 (fun _ => 1) false None /\
    is_okay (ro_result (rk_step decay_kvaerno3 0 (0 + h) (fun _ => 1) false None false)) = true.
Proof.
  split; [exact unit_finite|]. split; [exact decay_lipschitz|]. split; [exact decay_smooth|]. split; [exact decay_exact|].
  split; [reflexivity|]. split; [apply (solver_of_valid kvaerno3_tableau); vm_compute; reflexivity|]. split; [exact affine_rf_exact|].
  split; [apply solver_of_ends; intros _; split; reflexivity|].
  split; [apply Proof_OrderStep.up_to_0, (Proof_OrderShipped.pf_C30_exact_methods kvaerno3); cbn; tauto|].
  split; [apply Proof_OrderStep.error_up_to_0, (Proof_OrderShipped.pf_C31_exact_methods kvaerno3); cbn; tauto|].
  intros h Hh. split; [exact Logic.I|apply decay_kvaerno3_result; lra].
Qed.

Print Assumptions C36_unique.
Print Assumptions C36_stages_near.
Print Assumptions C30_implicit_lipschitz.
