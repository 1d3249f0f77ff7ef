(** Instances for the theorems about changes of coordinates. *)
From Coq Require Import Reals QArith Qreals List Bool Arith Lia Lra FunctionalExtensionality.
From Verif Require Import Model_Result Model_RK Model_Tableaus Model_Terms Model_SRK Spec_RK Spec_SRK Spec_Frame.
Import ListNotations.
Open Scope R_scope.

(** New coordinates [2 y + 1 + 3 t], with a clock that shows five more. *)
Definition ex_frame : frame unit unit := Frame (fun _ => [(tt, 2)]) (fun _ => 1) (fun _ => 3) 5.
Definition ex_back (t : R) (z : unit -> R) : unit -> R := fun _ => (z tt - 1 - (t - 5) * 3) / 2.
(** The equation [dy = (t y + 1) dt + y dw] in the old coordinates and in the new ones. *)
Definition ex_f (t : R) (y : unit -> R) : unit -> R := fun x => t * y x + 1.
Definition ex_f' (t : R) (z : unit -> R) : unit -> R := fun x => 2 * ex_f (t - 5) (ex_back t z) x + 3.
Definition ex_noise (t : R) (y : unit -> R) (p : unit * unit) : R := t * y (fst p).
Definition ex_noise' (t : R) (z : unit -> R) (p : unit * unit) : R := 2 * ex_noise (t - 5) (ex_back t z) p.
Definition ex_path (s t : R) (_ : unit) : R := t * t - s * s.
Definition ex_path' (s t : R) : unit -> R := ex_path (s - 5) (t - 5).

Lemma ex_back_point t y : ex_back (t + 5) (point ex_frame t y) = y.
Proof. extensionality x. destruct x. unfold ex_back, point. cbn. field. Qed.
Lemma ex_clock t : t + 5 - 5 = t.
Proof. ring. Qed.
Lemma ex_drift_increments h : increments_follow ex_frame (ode_term ex_f) (ode_term ex_f') h h.
Proof.
  intros t y []. change (fr_shift ex_frame) with 5. cbn [t_vf_prod ode_term with_default_vf_prod]. unfold ex_f'. rewrite ex_back_point, ex_clock.
  unfold vector. cbn. ring.
Qed.
Lemma ex_drift_follows : drift_follows ex_frame (ode_term ex_f) (ode_term ex_f').
Proof. split; [intros t0 t1; cbn; ring|]. intros t0 t1. apply ex_drift_increments. Qed.
Lemma ex_noise_follows : noise_follows ex_frame (control_term [tt] ex_noise ex_path) (control_term [tt] ex_noise' ex_path').
Proof.
  split.
  - intros t0 t1. change (fr_shift ex_frame) with 5. cbn. unfold ex_path'. rewrite !ex_clock. reflexivity.
  - intros c t y []. change (fr_shift ex_frame) with 5. cbn [t_vf_prod control_term with_default_vf_prod]. unfold contract, ex_noise'.
    rewrite ex_back_point, ex_clock. unfold vector. cbn. ring.
Qed.

(** A root finder for methods that call none. *)
Definition idle_rf (I : Type) : root_finder I I :=
  RootFinder unit unit (fun _ _ _ => tt) (fun _ _ _ => tt) (fun _ _ _ v => (v, successful)) (fun _ _ _ v => (v, successful)).
Definition frame_solver {I : Type} (tab : tableau) (f : R -> (I -> R) -> I -> R) : solver I I R :=
  Solver [(tab, ode_term f)] false second_stage (idle_rf I).

(** Two noises that depend on time, and the derivative of the enlarged noise. *)
Definition ex_D (t : R) (_ v : unit -> R) (p : unit * unit) : R := t * v (fst p).
Definition ex_D_time (_ : R) (z v : option unit -> R) (p : option unit * unit) : R :=
  match fst p with None => 0 | Some x => v None * z (Some x) + z None * v (Some x) end.
Lemma ex_D_ok t y v : directional (ex_noise t) y v (ex_D t y v).
Proof. intros c Ec Hc [x k]. apply (derivable_pt_lim_scal (fun s => c s x)), Hc. Qed.
Lemma ex_D_time_ok t z v : directional (autonomous_noise ex_noise t) z v (ex_D_time t z v).
Proof.
  intros c Ec Hc [[x|] k]; unfold autonomous_noise, ex_D_time; cbn [fst snd].
  - unfold ex_noise, space. cbn [fst]. rewrite <- Ec. apply (derivable_pt_lim_mult (fun s => c s None) (fun s => c s (Some x))); apply Hc.
  - apply derivable_pt_lim_const.
Qed.

(** The hypotheses on a method with one tableau. *)
Definition ex_drift_parts (tab : tableau) : Prop :=
  let ps := sv_parts (frame_solver tab ex_f) in
  let ps' := sv_parts (frame_solver tab ex_f') in
  valid_parts (num_stages tab) ps /\ valid_parts (num_stages tab) ps' /\ parts_follow ex_frame ps ps'.
Lemma frame_valid {I : Type} tab (f : R -> (I -> R) -> I -> R) :
  post_init_ok tab = true -> valid_parts (num_stages tab) (sv_parts (frame_solver tab f)).
Proof.
  intros H. split; [discriminate|]. split.
  - intros tab' m [E|[]]. injection E as <- <-. split; [exact H|]. split; [reflexivity|]. split; [intros t y c x; reflexivity|].
    intros a b u w c x. cbn. ring.
  - intros [|p] [|q] tab' tab'' m m' Hp Hq _ _; auto; cbn in Hp, Hq; try (destruct p; discriminate); destruct q; discriminate.
Qed.
Lemma ex_drift_parts_ok tab : post_init_ok tab = true -> ex_drift_parts tab.
Proof.
  intros H. split; [apply frame_valid, H|]. split; [apply frame_valid, H|]. split; [reflexivity|].
  intros m tab' trm Hm. destruct m as [|[|m]]; try discriminate. cbn in Hm. injection Hm as <- <-. eexists. split; [reflexivity|].
  exact ex_drift_follows.
Qed.
