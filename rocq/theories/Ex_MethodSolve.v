(** Exponential decay with a constant step size. *)
From Coq Require Import ZArith Reals List Bool Arith Lia Lra.
From Verif Require Import Model_Result Model_Loop Model_Fixed Model_Interp Model_Solvers Spec_Loop Spec_Fixed Spec_Solvers Spec_MethodOrder Ex_Fixed Ex_MethodOrder.
Import ListNotations.
Open Scope R_scope.

(** One time unit in steps of a quarter. *)
Definition thousandths (t : Z) : R := IZR t / 1000.
Definition quarter_cfg {SS} (m : method (unit -> R) SS ((unit -> R) * (unit -> R))) : config (unit -> R) SS (const_state Z) ((unit -> R) * (unit -> R)) (option (unit -> R)) (unit -> R) unit :=
  Config (fun a b => me_step m (thousandths a) (thousandths b)) (fun e => e) 
    (fun a b d t x => local_linear (thousandths a) (thousandths b) (fst d x) (snd d x) (thousandths t)) (const_adapt fix_ops) None (fun a b => (a + b) / 2)%Z
    (fun m _ => m) [] false None 0 1000 (Some 20%nat).
Definition quarter_initial {SS} (m : method (unit -> R) SS ((unit -> R) * (unit -> R))) : initial (unit -> R) SS (const_state Z) unit :=
  Initial (fun _ => 1) (fst (const_init fix_ops 0 1000 250)%Z) false (me_init m 0 (0 + 1 / 4) (fun _ => 1)) (snd (const_init fix_ops 0 1000 250)%Z) tt PInf.
Lemma quarter_solve {SS} (m : method (unit -> R) SS ((unit -> R) * (unit -> R))) : const_solve fix_ops 250 (quarter_cfg m) (quarter_initial m).
Proof. repeat split; reflexivity. Qed.
Lemma quarter_results {SS} (m : method (unit -> R) SS ((unit -> R) * (unit -> R))) : (forall a b y s j, so_result (me_step m a b y s j) = successful) -> results_ok (quarter_cfg m) /\ rf_results_ok (quarter_cfg m).
Proof.
  intros H. split; [split|].
  - intros a b y ss j. cbv zeta. cbn [solver_step quarter_cfg]. rewrite H. split; discriminate.
  - intros a b y y1 e cs. cbn. split; discriminate.
  - intros e rf f lo hi st r E. discriminate E.
Qed.
Lemma quarter_times k : (k <= 4)%nat -> thousandths (const_point fix_ops 0 1000 250 k) = 0 + INR k * (1 / 4).
Proof.
  intros H. unfold thousandths.
  assert (E : const_point fix_ops 0 1000 250 k = (250 * Z.of_nat k)%Z) by (do 5 (destruct k as [|k]; [reflexivity|]); lia).
  rewrite E, mult_IZR, <- INR_IZR_INZ. lra.
Qed.
