(** A concrete problem on which the theorems about the loop are exercised: "solutions" are integers
    that grow by the length of the step, the interpolant is linear, the controller rejects its
    second step and otherwise proposes steps of 300 units. *)
From Coq Require Import ZArith List Bool Arith Lia.
From Verif Require Import Model_Result Model_Loop Spec_Loop Proof_LoopResume.
Import ListNotations.
Open Scope Z_scope.

Section Run.
  Context {Y SS CS DI E V MS : Type}.
  (** History and outcome of a solve with given [max_steps]. *)
  Definition run (c : config Y SS CS DI E V MS) (i : initial Y SS CS MS)
    : option (list (attempt Y) * outcome Y SS CS DI V MS) :=
    obind (init_state c i) (fun s0 => obind (cfg_max_steps c) (fun m =>
    obind (finish c (while_loop c m s0)) (fun o => Some (history c m s0, o)))).

  Lemma runs c i (P : list (attempt Y) -> outcome Y SS CS DI V MS -> Prop) :
    match run c i with Some p => P (fst p) (snd p) | None => False end ->
    exists h o, solve_run c i h o /\ P h o.
  Proof.
    unfold run, obind. destruct (init_state c i) as [s0|] eqn:Hi; [|tauto].
    destruct (cfg_max_steps c) as [m|] eqn:Hm; [|tauto].
    destruct (finish c (while_loop c m s0)) as [o|] eqn:Hf; [|tauto].
    intros H. exists (history c m s0), o. split; [|exact H].
    exists s0, m. rewrite Hm. auto.
  Qed.
End Run.

(** The numerics.  [fail_at] is the time from which the solver reports an error. *)
Definition ex_step (fail_at : Z) (a b y : Z) (ss : nat) (j : bool) : step_out Z nat (Z * Z) unit :=
  StepOut (y + (b - a)) tt (a, y) (S ss) (if fail_at <=? b then other_error 7 else successful).
Definition ex_interp (a b : Z) (d : Z * Z) (t : Z) : Z := snd d + (t - fst d).
(** [cs] counts the attempts. *)
Definition ex_adapt (a b y y1 : Z) (e : unit) (cs : nat) : adapt_out nat :=
  if (cs =? 1)%nat then AdaptOut false a (a + (b - a) / 2) false (S cs) successful
  else AdaptOut true b (b + 300) false (S cs) successful.
(** As [ex_adapt], but time jumps by one unit across [t = 600]. *)
Definition ex_adapt_jump (a b y y1 : Z) (e : unit) (cs : nat) : adapt_out nat :=
  if (b =? 599) then AdaptOut true 601 901 true (S cs) successful
  else if (cs =? 1)%nat then AdaptOut false a (a + (b - a) / 2) false (S cs) successful
  else AdaptOut true b (Z.max (b + 1) (Z.min (b + 300) 599)) false (S cs) successful.

Definition ex_cfg (t1 : Z) (m : nat) (subs : list (subsaveat Z Z)) (ev : option (event Z))
  : config Z nat nat (Z * Z) unit Z nat :=
  Config (ex_step 5000) (fun e => e) ex_interp ex_adapt None (fun a b => a + (b - a) / 2)
         (fun n _ => S n) subs true ev 0 t1 (Some m).

Definition ex_cfg_fail (t1 fail_at : Z) (m : nat) (subs : list (subsaveat Z Z))
           (ev : option (event Z)) : config Z nat nat (Z * Z) unit Z nat :=
  Config (ex_step fail_at) (fun e => e) ex_interp ex_adapt None (fun a b => a + (b - a) / 2)
         (fun n _ => S n) subs true ev 0 t1 (Some m).

Definition ex_init : initial Z nat nat nat := Initial 10 250 false 0%nat 0%nat 0%nat PInf.
(** The padding of a solve that runs backwards in time. *)
Definition ex_init_bwd : initial Z nat nat nat := Initial 10 250 false 0%nat 0%nat 0%nat NInf.

Definition sub_of (t0 t1 : bool) (ts : option (list Z)) (steps : nat) : subsaveat Z Z :=
  SubSaveAt t0 t1 ts steps (fun t y => 2 * y).

Lemma ex_plain t1 m subs ev : plain_controller (ex_cfg t1 m subs ev).
Proof. intros a b y y1 e cs. cbn. unfold ex_adapt. destruct (cs =? 1)%nat; reflexivity. Qed.
Lemma ex_results_ok t1 m subs ev : results_ok (ex_cfg t1 m subs ev).
Proof.
  split; [intros a b y ss j|intros a b y y1 e cs]; cbn.
  - destruct (5000 <=? b); split; congruence.
  - unfold ex_adapt. destruct (cs =? 1)%nat; cbn; split; congruence.
Qed.
Lemma ex_midpoint t1 m subs ev : midpoint_ok (ex_cfg t1 m subs ev).
Proof.
  intros a b H. cbn.
  assert (0 <= (b - a) / 2 <= b - a); [|lia].
  split; [apply Z.div_pos; lia|]. apply Z.div_le_upper_bound; lia.
Qed.
Lemma ex_contract t1 m subs ev : controller_contract (ex_cfg t1 m subs ev) (fun _ _ _ => True).
Proof.
  intros a b y y1 e cs _ Hab Hb _. cbn. unfold ex_adapt.
  assert (0 <= (b - a) / 2) by (apply Z.div_pos; lia).
  destruct (cs =? 1)%nat; cbn; repeat split; try congruence; lia.
Qed.
Lemma ex_rf_ok t1 m subs : rf_results_ok (ex_cfg t1 m subs None).
Proof. intros e rf f lo hi st r He. discriminate. Qed.
Lemma ex_rf_ext t1 m subs : rf_extensional (ex_cfg t1 m subs None).
Proof. intros rf e f g lo hi st He. discriminate. Qed.

(** Events: a real-valued one, a boolean one. *)
Definition ex_real_event (root : Z) : cond_fn Z := RealCond (fun t y => Some (t - root)) None.
Definition ex_bool_event (from : Z) : cond_fn Z := BoolCond (fun t y => from <=? t).
(** Scan downwards from [hi] for the smallest root of all components in the bracket. *)
Fixpoint scan (n : nat) (f : Z -> list fval) (t best : Z) : Z :=
  match n with
  | O => best
  | S n' => scan n' f (t - 1)
                 (if forallb (fun v => match v with Some 0 => true | _ => false end) (f t)
                  then t else best)
  end.
(** A root finder on ordinals by exhaustive search. *)
Definition ex_rf : root_finder := fun f lo hi start =>
  (scan (Z.to_nat (hi - lo + 1)) f hi start, None).

Lemma scan_in f : forall n t best lo hi, lo <= best <= hi -> t <= hi -> lo <= t - Z.of_nat n + 1 ->
  lo <= scan n f t best <= hi.
Proof.
  induction n as [|n IH]; intros t best lo hi Hb Ht Hl; cbn [scan]; [exact Hb|].
  apply IH; [|lia|lia]. destruct (forallb _ _); lia.
Qed.
(** It stays in its bracket when started in it, as the loop does. *)
Definition ex_rf_bracketing : root_finder := fun f lo hi start =>
  (scan (Z.to_nat (hi - lo + 1)) f hi hi, None).
Lemma ex_rf_brackets : bracketing ex_rf_bracketing.
Proof. intros f lo hi start H. cbn. apply scan_in; lia. Qed.
Lemma ex_rf_ok_ev t1 m subs conds :
  rf_results_ok (ex_cfg t1 m subs (Some (Event conds (Some ex_rf_bracketing)))).
Proof.
  intros e rf f lo hi st r He Hr. cbn in He. injection He as <-. cbn in Hr. injection Hr as <-.
  cbn. discriminate.
Qed.
Lemma ex_rf_ok_no t1 m subs conds :
  rf_results_ok (ex_cfg t1 m subs (Some (Event conds None))).
Proof.
  intros e rf f lo hi st r He Hr. cbn in He. injection He as <-. discriminate.
Qed.
