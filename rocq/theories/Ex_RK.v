(** Concrete Runge--Kutta solvers for the examples. *)
From Coq Require Import ZArith Reals QArith Qreals List Bool Arith Lia Lra FunctionalExtensionality.
From Verif Require Import Model_Result Model_Loop Spec_Loop Ex_Loop.
From Verif Require Import Model_RK Model_Tableaus Model_Terms Spec_RK Spec_RKLoop.
Import ListNotations.
Open Scope R_scope.

(** [y' = - y] on a single number. *)
Definition decay : term unit unit R := ode_term (fun _ y i => - y i).

(** A root finder that is exact for equations in one unknown that are affine, and reports failure for
    others. *)
Definition affine_root (g : (unit -> R) -> (unit -> R)) : (unit -> R) * RESULTS :=
  let g0 := g (fun _ => 0) tt in
  let g1 := g (fun _ => 1) tt in
  let v := fun _ : unit => - g0 / (g1 - g0) in
  (v, if Req_EM_T (g v tt) 0 then successful else (other_error 0)).
Definition affine_rf : root_finder unit unit :=
  RootFinder unit unit (fun _ _ _ => tt) (fun _ _ _ => tt) (fun _ _ g _ => affine_root g) (fun _ _ g _ => affine_root g).

Lemma affine_rf_exact : exact_root_finder affine_rf.
Proof.
  split; cbn; unfold affine_root; intros j0 stage g guess v r E OK [];
    destruct (Req_EM_T _ 0) as [Z|Z]; injection E as <- <-; [exact Z|discriminate|exact Z|discriminate].
Qed.
Lemma affine_rf_explicit : solves_explicit affine_rf.
Proof.
  intros j0 stage g guess c H. cbn. unfold affine_root. cbn [snd]. destruct (Req_EM_T _ 0) as [Z|Z]; [reflexivity|].
  exfalso. apply Z. rewrite !H. field. lra.
Qed.

Lemma decay_consistent : consistent_term decay.
Proof. intros t y c x. reflexivity. Qed.
Lemma decay_linear : linear_term decay.
Proof. intros a b f g c x. cbn. ring. Qed.

Definition solver_of (tab : tableau) : solver unit unit R := Solver [(tab, decay)] false second_stage affine_rf.

Lemma solver_of_valid tab : post_init_ok tab = true -> valid_parts (num_stages tab) (sv_parts (solver_of tab)).
Proof.
  intros H. split; [discriminate|]. split.
  - intros tab' m [E|[]]. injection E as <- <-. repeat split; auto using decay_linear.
  - intros [|p] [|q] tab' tab'' m m' Hp Hq _ _; auto; cbn in Hp, Hq; try (destruct p; discriminate); destruct q; discriminate.
Qed.
Lemma solver_of_ends tab : (fsal tab = true -> ends_at_ends tab) -> fsal_at_ends (sv_parts (solver_of tab)).
Proof. intros H tab' m [E|[]]. injection E as <- <-. exact H. Qed.

(** Two terms, one explicit and one implicit. *)
Definition imex : solver unit unit R :=
  Solver [(sil3_explicit_tableau, decay); (sil3_implicit_tableau, decay)] false second_stage affine_rf.
Lemma imex_valid : valid_parts 4 (sv_parts imex).
Proof.
  split; [discriminate|]. split.
  - intros tab m [E|[E|[]]]; injection E as <- <-; repeat split; auto using decay_linear; vm_compute; reflexivity.
  - intros p q tab tab' m m' Hp Hq Ip Iq.
    destruct p as [|[|p]], q as [|[|q]]; auto; cbn in Hp, Hq;
      try (destruct p; discriminate); try (destruct q; discriminate);
      injection Hp as <- <-; injection Hq as <- <-; discriminate.
Qed.
Lemma imex_ends : fsal_at_ends (sv_parts imex).
Proof. intros tab m [E|[E|[]]] _; injection E as <- <-; split; reflexivity. Qed.

(** Used in the integration loop from 0 to 1000 with steps of 300 time units, one of which is [1/1000];
    every third one is rejected at first. *)
Definition time_of (t : Z) : R := IZR t / 1000.
Definition rk_adapt (a b : Z) (y y1 : unit -> R) (e : option (unit -> R)) (n : nat) : adapt_out nat :=
  if (n mod 3 =? 2)%nat then AdaptOut false a (a + 150) false (S n) successful
  else AdaptOut true b (b + 300) false (S n) successful.
Definition rk_cfg (sv : solver unit unit R) (others : Z -> Z -> (unit -> R) -> solver_state unit -> bool -> bool)
  : config (unit -> R) (solver_state unit) nat ((unit -> R) * (unit -> R) * list (list (unit -> R)))
      (option (unit -> R)) (unit -> R) unit :=
  Config (rk_solver_step sv time_of others) (fun e => e)
    (fun a b d t => fst (fst d)) rk_adapt None (fun a b => (a + b) / 2)%Z (fun m _ => m)
    [SubSaveAt false true (Some [100; 500]%Z) 1 (fun _ y => y)] false None 0 1000 (Some 20%nat).
Definition rk_initial (sv : solver unit unit R) : initial (unit -> R) (solver_state unit) nat unit :=
  Initial (fun _ => 1) 300%Z false (rk_init sv) 0%nat tt PInf.

Lemma rk_contract sv others : controller_contract (rk_cfg sv others) (fun _ _ _ => True).
Proof.
  intros a b y y1 e cs _ H1 H2 _. cbn [rk_cfg adapt]. unfold rk_adapt.
  destruct (cs mod 3 =? 2)%nat; cbn [ao_keep ao_tprev ao_tnext]; repeat split; try discriminate; lia.
Qed.
Lemma rk_announces sv others : announces_jumps (rk_cfg sv others).
Proof.
  intros a b y y1 e cs. cbn [rk_cfg adapt]. unfold rk_adapt.
  destruct (cs mod 3 =? 2)%nat; cbn [ao_keep ao_tprev ao_tnext ao_jump]; [discriminate|reflexivity].
Qed.
Lemma rk_midpoint sv others : midpoint_ok (rk_cfg sv others).
Proof.
  intros a b H. cbn. split; [apply Z.div_le_lower_bound; lia|].
  assert ((a + b) / 2 < b + 1)%Z by (apply Z.div_lt_upper_bound; lia). lia.
Qed.
