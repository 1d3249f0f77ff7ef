(** Proofs about the seminorm for backward solves. *)
From Coq Require Import QArith ZArith List Bool Arith Lia.
From Verif Require Import Model_Result Model_Loop Model_Float Model_PID Model_Seminorm Spec_Loop Spec_PID Spec_Related Spec_Seminorm Proof_Related.
Import ListNotations.

Lemma firstn_map2 {A B C} (f : A -> B -> C) n l m : firstn n (map2 f l m) = map2 f (firstn n l) (firstn n m).
Proof. revert l m. induction n as [|n IH]; intros [|a l] [|b m]; cbn; try reflexivity. rewrite IH. reflexivity. Qed.
Lemma firstn_combine' {A B} n (l : list A) (m : list B) : firstn n (combine l m) = combine (firstn n l) (firstn n m).
Proof. revert l m. induction n as [|n IH]; intros [|a l] [|b m]; cbn; try reflexivity. rewrite IH. reflexivity. Qed.
Lemma split_first n m (l : tree) : firstn n l ++ firstn m (skipn n l) = firstn (n + m) l.
Proof. revert l. induction n as [|n IH]; intros [|a l]; cbn; try reflexivity; [rewrite firstn_nil; reflexivity|]. rewrite IH. reflexivity. Qed.

Lemma seminorm_error rms n m k k' p y0 y0' y1 y1' e e' :
  same_leading (n + m) y0 y0' -> same_leading (n + m) y1 y1' -> same_leading (n + m) e e' ->
  scaled_error (seminorm_controller rms n m k p) y0 y1 e = scaled_error (seminorm_controller rms n m k' p) y0' y1' e'.
Proof.
  unfold same_leading. intros H0 H1 HE. unfold scaled_error. cbn [seminorm_controller norm]. unfold adjoint_rms_seminorm, split4. rewrite !split_first. f_equal.
  rewrite !firstn_map2, !firstn_combine', H0, H1, HE. reflexivity.
Qed.
Lemma pf_C80_decisions (rms_norm : tree -> xq) (n m k k' : nat) (p : pid_controller) (t0 t1 : xq) (y0 y0' y1 y1' e e' : tree) (s : pid_state) :
  same_leading (n + m) y0 y0' -> same_leading (n + m) y1 y1' -> same_leading (n + m) e e' ->
  pid_adapt (seminorm_controller rms_norm n m k p) t0 t1 y0 y1 e s = pid_adapt (seminorm_controller rms_norm n m k' p) t0 t1 y0' y1' e' s.
Proof.
  intros H0 H1 HE. unfold pid_adapt. rewrite (seminorm_error rms_norm n m k k' p y0 y0' y1 y1' e e' H0 H1 HE). reflexivity.
Qed.

Section Solve.
  Context {SS DI V MS SS' DI' V' MS' : Type}.
  Notation config := (config tree SS pid_state DI tree V MS).
  Notation config' := (Model_Loop.config tree SS' pid_state DI' tree V' MS').
  Lemma pf_C80_solve (rms_norm : tree -> xq) (n m k k' : nat) (val : Z -> Q) (rnd : Q -> Z) (p : pid_controller)
        (RS : SS -> SS' -> Prop) (RD : DI -> DI' -> Prop) (RV : V -> V' -> Prop) (g : config) (g' : config')
        (i : initial tree SS pid_state MS) (i' : initial tree SS' pid_state MS') (o : outcome tree SS pid_state DI V MS) :
    (forall a b y0 y1 err s, adapt g a b y0 y1 err s = pid_loop_adapt val rnd (seminorm_controller rms_norm n m k p) a b y0 y1 err s) ->
    (forall a b y0 y1 err s, adapt g' a b y0 y1 err s = pid_loop_adapt val rnd (seminorm_controller rms_norm n m k' p) a b y0 y1 err s) ->
    steps_related (same_leading (n + m)) RS RD (same_leading (n + m)) g g' -> interpolations_related (same_leading (n + m)) RD g g' ->
    stepto_len g = stepto_len g' -> (forall a b, midpoint g a b = midpoint g' a b) ->
    Forall2 (sub_related (same_leading (n + m)) RV) (cfg_subs g) (cfg_subs g') -> cfg_dense g = cfg_dense g' ->
    opt_related (event_related (same_leading (n + m))) (cfg_event g) (cfg_event g') ->
    cfg_t0 g = cfg_t0 g' -> cfg_t1 g = cfg_t1 g' -> cfg_max_steps g = cfg_max_steps g' ->
    initials_related (same_leading (n + m)) RS eq i i' -> solves g i o ->
    exists o', solves g' i' o' /\ outcomes_related (same_leading (n + m)) RS eq RD RV o o'.
  Proof.
    intros A A' H1 H2 H3 H4 H5 H6 H7 H8 H9 H10 HI HS.
    apply (pf_C76_related (same_leading (n + m)) RS eq RD (same_leading (n + m)) RV g g' i i' o); [|exact HI|exact HS].
    assert (C : controllers_related (same_leading (n + m)) eq (same_leading (n + m)) g g').
    { intros a b y y' y1 y1' e e' s s' HY HY1 HE <-. cbn zeta. rewrite A, A'. unfold pid_loop_adapt.
      rewrite (pf_C80_decisions rms_norm n m k k' p _ _ y y' y1 y1' e e' s HY HY1 HE). auto 10. }
    unfold configs_related. repeat (split; [assumption|]). assumption.
  Qed.
End Solve.

(** Other norms *)
Lemma pf_C80_other_norms :
  exists (nm : tree -> xq) (p : pid_controller) (y0 y1 y0' y1' e e' : tree), norm p = nm /\
    same_leading 2 y0 y0' /\ same_leading 2 y1 y1' /\ same_leading 2 e e' /\
    po_keep (pid_adapt p (QFin 0) (QFin 1) y0 y1 e (PidState (QFin 1) (QFin 1) false)) <>
    po_keep (pid_adapt p (QFin 0) (QFin 1) y0' y1' e' (PidState (QFin 1) (QFin 1) false)).
Proof.
  set (nm := fun l : tree => fold_right (fun x m => xmax (xabs x) m) (QFin 0) (concat l)).
  exists nm, (PIDController 0 1 nm (fun x _ => x) 0 1 0 None None true (1#5) 10 (9#10) 1),
    [[QFin 0]; [QFin 0]], [[QFin 0]; [QFin 0]], [[QFin 0]; [QFin 0]; [QFin 0]], [[QFin 0]; [QFin 0]; [QFin 0]], [[QFin 0]; [QFin 0]], [[QFin 0]; [QFin 0]; [QFin 5]].
  repeat split. vm_compute. discriminate.
Qed.
