(** Concrete progress meters. *)
From Coq Require Import ZArith QArith List Bool Arith Lia Lqa.
From Verif Require Import Model_Result Model_Loop Spec_Loop Model_Meter Spec_Meter Proof_Meter Proof_MeterLoop Ex_Loop.
Import ListNotations.
Open Scope Q_scope.

Definition ex_kinds (c : nat) : kind := if (c =? 2)%nat then Tqdm else Text.
(** A batch of two: the second element finishes first. *)
Definition ex_rows : list row :=
  [[(true, 1 # 10); (true, 1 # 5)]; [(true, 1 # 4); (true, 1 # 2)];
   [(true, 1 # 2); (true, 1)]; [(true, 9 # 10); (false, 1)]; [(true, 1); (false, 1)]].
(** A trace that interleaves a text meter, a tqdm meter, a solve that is still running, and one that
    closes a bar it never opened. *)
Definition ex_trace : list (nat * call) :=
  [(1, CInit); (3, CInit); (1, CStep (1 # 4)); (2, CInit); (4, CClose); (2, CStep (1 # 10)); (1, CStep (1 # 2));
   (3, CStep (1 # 3)); (1, CStep (9 # 10)); (2, CStep (9 # 10)); (1, CStep 1); (1, CClose); (2, CClose);
   (1, CStep (1 # 3))]%nat.

Ltac rows := unfold ex_rows; cbn [batch_solve]; unfold continues;
  repeat match goal with
  | |- _ /\ _ => split
  | |- True => exact Logic.I
  | |- Forall2 _ _ _ => constructor
  | |- forall a p, In _ _ -> _ => let H := fresh in intros ? ? H; cbn in H; repeat destruct H as [H|H]; try (injection H as <- <-); try easy; lra
  | |- fst _ = true -> _ => cbn; intros; try discriminate
  | |- _ = _ => reflexivity
  | |- _ < _ => cbn; lra
  end.
Lemma ex_rows_batch : batch_solve 2 ex_rows.
Proof.
  rows.
  - exists (1 # 10). now left.
  - exists (1 # 4). now left.
  - exists (1 # 2). now left.
  - exists (9 # 10). now left.
  - exists 1. now left.
Qed.
Lemma ex_rows_end : all_reach_end ex_rows.
Proof.
  intros r p H K. unfold ex_rows in H. cbn in H.
  repeat destruct H as [H|H]; subst; try easy; cbn in K; repeat destruct K as [K|K]; try easy; injection K as <-; reflexivity.
Qed.
Lemma ex_ceiling : is_ceiling (1 / (1 # 5)) 5.
Proof. split; vm_compute; congruence. Qed.

(** The problem of [Ex_Loop] with a text meter. *)
Definition ex_rescale (t : Z) : Q := t # 1000.
Definition ex_meter_cfg : config Z nat nat (Z * Z) unit Z (list Q * list call) :=
  Config (ex_step 5000) (fun e => e) ex_interp ex_adapt None (fun a b => (a + (b - a) / 2)%Z)
         (text_meter (1 # 5) ex_rescale) [sub_of false true None 0] false None 0 1000 (Some 20%nat).
Definition ex_meter_init : initial Z nat nat (list Q * list call) := Initial 10%Z 250%Z false 0%nat 0%nat text_meter_init PInf.
Lemma ex_meter_run :
  exists h o, solve_run ex_meter_cfg ex_meter_init h o /\ stepto_len ex_meter_cfg = None /\
    meter_step ex_meter_cfg = text_meter (1 # 5) ex_rescale /\ in_meter ex_meter_init = text_meter_init /\
    map at_end h = [250; 250; 400; 700; 1000]%Z /\
    printed 0 (serve_all (fun _ => Text) (map (pair 0%nat) (snd (st_meter (out_state o)) ++ [CClose]))) =
    [0; 250 # 1000; 700 # 1000; 1000 # 1000].
Proof.
  apply runs. vm_compute. repeat split; reflexivity.
Qed.
Lemma ex_rescale_le t : (t <= cfg_t1 ex_meter_cfg)%Z -> ex_rescale t <= 1.
Proof. cbn. unfold ex_rescale, Qle. cbn. lia. Qed.
Lemma ex_rescale_lt t : (t < cfg_t1 ex_meter_cfg)%Z -> ex_rescale t < 1.
Proof. cbn. unfold ex_rescale, Qlt. cbn. lia. Qed.
