(** Concrete problems for the fixed step size controllers. *)
From Coq Require Import ZArith List Bool Arith Lia Sorting.Sorted.
From Verif Require Import Model_Result Model_Loop Spec_Loop Model_Fixed Spec_Fixed Ex_Loop.
Import ListNotations.
Open Scope Z_scope.

(** Arithmetic of a fixed point format with unit 1/1000, rounding down. *)
Definition fix_ops : time_ops Z :=
  TimeOps Z Z.add Z.sub (fun a b => a * b / 1000) (fun a b => a * 1000 / b)
          (fun k => 1000 * k) (fun a => - ((- a) / 1000)) (fun a => a + 1) (fun _ => true).
Lemma fix_ops_ok : ops_ok fix_ops.
Proof.
  constructor; cbn -[Z.mul Z.div]; intros; try lia.
  - apply Z.div_le_mono; [lia|]. nia.
  - rewrite Z.mul_0_r. reflexivity.
  - apply Z.div_le_mono; nia.
  - rewrite Z.mul_0_l. apply Z.div_0_l. lia.
Qed.

Definition ex_const_cfg (t1 : Z) (m : option nat) (subs : list (subsaveat Z Z))
  : config Z nat (const_state Z) (Z * Z) unit Z nat :=
  Config (fun a b y ss (j : bool) => StepOut (y + (b - a)) tt (a, y) (S ss) successful)
         (fun e => e) ex_interp (const_adapt fix_ops) None (fun a b => a + (b - a) / 2)
         (fun n _ => S n) subs false None 0 t1 m.
Definition ex_const_init (t1 dt0 : Z) : initial Z nat (const_state Z) nat :=
  Initial 10 (fst (const_init fix_ops 0 t1 dt0)) false 0%nat (snd (const_init fix_ops 0 t1 dt0))
          0%nat PInf.
Lemma ex_const_solve t1 dt0 m subs :
  0 < t1 -> const_solve fix_ops dt0 (ex_const_cfg t1 m subs) (ex_const_init t1 dt0).
Proof. intros H. repeat split; auto. Qed.
Lemma ex_const_ok t1 m subs : results_ok (ex_const_cfg t1 m subs).
Proof. split; cbn; intros; split; discriminate. Qed.
Lemma ex_const_rf t1 m subs : rf_results_ok (ex_const_cfg t1 m subs).
Proof. intros e rf f lo hi st r He. discriminate. Qed.

Definition ex_stepto_cfg (ts : list Z) (m : option nat) (subs : list (subsaveat Z Z))
  : config Z nat nat (Z * Z) unit Z nat :=
  Config (fun a b y ss (j : bool) => StepOut (y + (b - a)) tt (a, y) (S ss) successful)
         (fun e => e) ex_interp (stepto_adapt ts) (Some (length ts)) (fun a b => a + (b - a) / 2)
         (fun n _ => S n) subs false None (hd 0 ts) (last ts 0) m.
Definition ex_stepto_init (ts : list Z) : initial Z nat nat nat :=
  Initial 10 (nth 1 ts 0) false 0%nat 2%nat 0%nat PInf.
Lemma ex_stepto_ok ts m subs : results_ok (ex_stepto_cfg ts m subs).
Proof. split; cbn; intros; split; discriminate. Qed.
Lemma ex_stepto_rf ts m subs : rf_results_ok (ex_stepto_cfg ts m subs).
Proof. intros e rf f lo hi st r He. discriminate. Qed.
