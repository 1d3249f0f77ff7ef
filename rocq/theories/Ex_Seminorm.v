(** A backward solve with and without the gradient of a parameter. *)
From Coq Require Import QArith Qround ZArith List Bool Arith Lia.
From Verif Require Import Model_Result Model_Loop Spec_Loop Model_Float Model_PID Model_Seminorm Spec_PID Spec_Related Spec_Seminorm Ex_PID Ex_Units.
Import ListNotations.
Open Scope Q_scope.

(** The adjoint equations of y' = theta y, by Euler's method: the leaves are y, the gradient a of y, and possibly that of theta. *)
Definition adj_h (a b : Z) : Q := (1#1000) * (tick 1 b - tick 1 a).
Definition adj_map (q q' : Q) (h : Q) (l : tree) : tree :=
  match l with
  | y :: a :: rest =>
      map (fun x => xmul x (QFin q)) y :: map (fun x => xmul x (QFin q')) a ::
      match rest with
      | th :: _ => [map2 (fun x z => xadd x z) th (map2 (fun u v => xmul (xmul u v) (QFin h)) y a)]
      | [] => []
      end
  | _ => l
  end.
Definition adj_step (a b : Z) (l : tree) (s : nat) (j : bool) : step_out tree nat tree tree :=
  let h := adj_h a b in
  StepOut (adj_map (1 - h) (1 + h) h l) (adj_map (h * h) (h * h) h l) l (S s) successful.
Definition adj_cfg (k : nat) : config tree nat pid_state tree tree tree nat :=
  Config adj_step (fun e => e) (fun a b d t => d) (pid_loop_adapt (tick 1) (round_tick 1) (seminorm_controller max_norm 1 1 k (unit_pid 1 1)))
         None (fun a b => (a + (b - a) / 2)%Z) (fun n _ => S n) [SubSaveAt true false None 1 (fun _ y => firstn 2 y)] true None 0 1000 (Some 40%nat).
Definition adj_initial (l : tree) : initial tree nat pid_state nat :=
  Initial l 500 false 0%nat (PidState (QFin 1) (QFin 1) false) 0%nat PInf.

Lemma leading_cases (l l' : tree) : same_leading 2 l l' ->
  l = l' \/ exists y a r r', l = y :: a :: r /\ l' = y :: a :: r'.
Proof.
  unfold same_leading. destruct l as [|y [|a r]], l' as [|y' [|a' r']]; cbn; intros H; try discriminate; try (left; congruence).
  injection H as -> ->. right. exists y', a', r, r'. auto.
Qed.
Lemma adj_map_leading q q' h h' l l' : same_leading 2 l l' -> same_leading 2 (adj_map q q' h l) (adj_map q q' h' l').
Proof.
  intros H. destruct (leading_cases l l' H) as [-> |(y & a & r & r' & -> & ->)]; [|reflexivity].
  destruct l' as [|y [|a r]]; reflexivity.
Qed.
Lemma adj_related k k' : steps_related (same_leading 2) eq (same_leading 2) (same_leading 2) (adj_cfg k) (adj_cfg k').
Proof.
  intros a b y y' s s' j HY <-. cbn [adj_cfg solver_step adj_step so_y so_error so_dense so_state so_result nan_to_inf].
  split; [apply adj_map_leading, HY|]. split; [apply adj_map_leading, HY|]. auto.
Qed.
