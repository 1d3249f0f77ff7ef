(** The size of the error estimate of Runge--Kutta methods: C73. *)
From Coq Require Import Reals QArith Qreals List Bool Arith Lia Lra.
From Verif Require Import Model_Result Model_RK Model_Tableaus Model_Terms Spec_RK Proof_RK Proof_RKProp Ex_RK Spec_RKError Proof_RKError.
Import ListNotations.
Open Scope R_scope.

Section Err.
  Context {I J C : Type}.
  (** C73: the error estimate of every Runge--Kutta solver, explicit, implicit or mixed, is at most
      proportional to the length of the step if the vector field is bounded. *)
  Theorem C73_rk_error :
    forall (sv : solver I J C) (s : nat) (t0 t1 : R) (y0 : I -> R) (others : bool) (state : solver_state J) (made_jump : bool) (M : R),
    valid_parts s (sv_parts sv) -> exact_root_finder (sv_root_finder sv) ->
    fsal_at_ends (sv_parts sv) -> coherent (sv_parts sv) t0 y0 made_jump state ->
    bounded_terms (sv_parts sv) M -> t0 <= t1 ->
    let out := rk_step sv t0 t1 y0 others state made_jump in
    is_okay (ro_result out) = true ->
    exists e, ro_error out = Some e /\
      forall x, Rabs (e x) <= M * error_weight s (sv_parts sv) * (t1 - t0).
  Proof. exact pf_C73_rk_error. Qed.
End Err.

(** Heun's method on [y' = sin y]. *)
Example C73_rk_error_instance :
  let trm := ode_term (fun (_ : R) (y : unit -> R) i => sin (y i)) in
  let sv := Solver [(heun_tableau, trm)] false second_stage affine_rf in
  valid_parts 2 (sv_parts sv) /\ exact_root_finder (sv_root_finder sv) /\ fsal_at_ends (sv_parts sv) /\
  coherent (sv_parts sv) 0 (fun _ => 1) false None /\ bounded_terms (sv_parts sv) 1 /\
  error_weight 2 (sv_parts sv) = 1 /\
  ro_result (rk_step sv 0 1 (fun _ => 1) false None false) = successful.
Proof.
  intros trm sv.
  split.
  { split; [discriminate|]. split.
    - intros tab' m [E|[]]. injection E as <- <-. split; [reflexivity|]. split; [reflexivity|].
      split; [intros t y c x; reflexivity|intros a b f g c x; cbn; ring].
    - intros [|p] [|q] tab' tab'' m m' Hp Hq _ _; auto; cbn in Hp, Hq; try (destruct p; discriminate); destruct q; discriminate. }
  split; [exact affine_rf_exact|].
  split; [intros tab m [E|[]] F; injection E as <- <-; discriminate F|].
  split; [exact Logic.I|].
  split.
  { intros tab m t y t0 t1 x [E|[]] Ht. injection E as <- <-. cbn.
    rewrite Rabs_mult, (Rabs_right (t1 - t0)) by lra.
    assert (Rabs (sin (y x)) <= 1) by (apply Rabs_le; pose proof (SIN_bound (y x)); lra).
    pose proof (Rabs_pos (sin (y x))). nra. }
  split; [|reflexivity].
  unfold error_weight. cbn [length sv_parts sv sum_n nth_error]. unfold coef_e. cbn [tab_b_error heun_tableau nth].
  unfold Q2R; cbn [Qnum Qden]. rewrite (Rabs_right (1 * / 2)) by lra. rewrite Rabs_left by lra. lra.
Qed.

Print Assumptions C73_rk_error.
