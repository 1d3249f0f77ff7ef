(** Instances for the theorems about conserved sums. *)
From Coq Require Import ZArith Reals List Bool Arith Lia Lra FunctionalExtensionality.
From Verif Require Import Model_Result Model_Loop Model_RK Model_Terms Model_Solvers Model_SRK Model_Interp Spec_Loop Spec_RK Spec_SRK
  Spec_Invariant Spec_Conserve Ex_RK Ex_Related.
Import ListNotations.
Open Scope R_scope.

(** Random exchange: noise moves some of [y true * y false] from one place to the other. *)
Definition traffic (t : R) (y : bool -> R) (p : bool * unit) : R := (if fst p then 1 else -1) * (y true * y false).
Definition traffic_path (t0 t1 : R) (_ : unit) : R := t1 * t1 - t0 * t0.
Notation exchange_term := (ode_term exchange).
Notation traffic_term := (control_term [tt] traffic traffic_path).
Lemma exchange_conserving : conserving both exchange_term.
Proof. split; [intros t y c x; reflexivity|]. intros t y c. cbn. unfold exchange. cbn [negb]. ring. Qed.
Lemma traffic_conserving : conserving both traffic_term.
Proof. split; [intros t y c x; reflexivity|]. intros t y c. cbn. unfold traffic. cbn [fst]. ring. Qed.
Lemma traffic_linear : linear_term traffic_term.
Proof. intros a b f g c x. cbn. ring. Qed.
Lemma exchange_linear : linear_term exchange_term.
Proof. intros a b f g c x. cbn. ring. Qed.

(** It can be differentiated. *)
Definition traffic_D (t : R) (y v : bool -> R) (p : bool * unit) : R := (if fst p then 1 else -1) * (v true * y false + y true * v false).
Lemma traffic_directional t y v : directional (traffic t) y v (traffic_D t y v).
Proof.
  intros c Ec Hc [x k]. unfold traffic, traffic_D. cbn [fst]. rewrite <- Ec.
  apply (derivable_pt_lim_scal (fun s => c s true * c s false)), (derivable_pt_lim_mult (fun s => c s true) (fun s => c s false)); apply Hc.
Qed.

(** A solve of the stochastic exchange from 0 to 1000 time units in steps of 300, some of them rejected. *)
Definition traffic_cfg {SS : Type} (me : method (bool -> R) SS ((bool -> R) * (bool -> R)))
  : config (bool -> R) SS nat ((bool -> R) * (bool -> R)) (option (bool -> R)) (unit -> R) unit :=
  Config (fun a b => me_step me (time_of a) (time_of b)) (fun e => e)
    (fun a b d t x => local_linear (time_of a) (time_of b) (fst d x) (snd d x) (time_of t)) pair_adapt None (fun a b => (a + b) / 2)%Z (fun m _ => m)
    [SubSaveAt false true (Some [100; 500]%Z) 1 (fun _ y _ => y true + y false)] true None 0 1000 (Some 20%nat).
Definition traffic_initial {SS : Type} (me : method (bool -> R) SS ((bool -> R) * (bool -> R))) : initial (bool -> R) SS nat unit :=
  let y := fun b : bool => if b then 1 else 2 in
  Initial y 300%Z false (me_init me (time_of 0) (time_of 300) y) 0%nat tt PInf.
Lemma traffic_solve {SS : Type} (me : method (bool -> R) SS ((bool -> R) * (bool -> R))) : method_solve (traffic_cfg me) (traffic_initial me) me time_of.
Proof. repeat split. Qed.
