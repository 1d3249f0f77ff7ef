(** Examples for the theorems about whole solves. *)
From Coq Require Import ZArith Reals QArith Qreals List Bool Arith Lia Lra.
From Verif Require Import Model_Result Model_Loop Spec_Loop Ex_Loop.
From Verif Require Import Model_RK Model_Tableaus Model_Terms Model_Orders Model_Interp Model_DenseOutput.
From Verif Require Import Spec_RK Spec_RKLoop Spec_Order Spec_DenseOrder Spec_Lipschitz Spec_Convergence Ex_RK Ex_Order Ex_DenseOutput.
Import ListNotations.
Open Scope R_scope.

(** [y' = - y] is smooth along its solution. *)
Definition decay_along (t : R) (l : list (option unit -> R)) : unit -> R :=
  match l with [] => fun x => - decay_solution t x | [v] => fun x => - v (Some x) | _ => fun _ => 0 end.
Lemma decay_uniformly_smooth p b : (2 <= p)%nat -> uniformly_smooth p decay_f 0 b decay_solution.
Proof.
  intros Hp. exists decay_along. split; [|split].
  - intros t _ l l' u v w z x. destruct l as [|u0 [|u1 l]], l' as [|v0 l']; cbn; try ring.
  - intros m. exists 1. intros t l Bs Ht Hm H x. destruct l as [|u [|v l]].
    + inversion H; subst. cbn. rewrite Rabs_Ropp. unfold decay_solution. rewrite Rabs_pos_eq by (left; apply exp_pos).
      rewrite <- exp_0 at 1. rewrite Rmult_1_r. destruct (Req_dec t 0) as [->|Hn]; [rewrite Ropp_0; lra|].
      rewrite exp_0. assert (exp (- t) < exp 0) by (apply exp_increasing; lra). rewrite exp_0 in H0. lra.
    + inversion H as [|? B ? ? Hu H']; subst. inversion H'; subst. cbn. rewrite Rabs_Ropp, Rmult_1_r, Rmult_1_l. apply Hu.
    + cbn. rewrite Rabs_R0. rewrite Rmult_1_l. clear -H. induction H as [|z B l0 Bs Hu H IH]; cbn; [lra|].
      apply Rmult_le_pos; [|exact IH]. eapply Rle_trans; [apply Rabs_pos|apply (Hu None)].
  - exists 1, 0. split; [lra|]. split; [lra|]. intros t v B _ _ _ x.
    replace (sum_n p (fun m => decay_along t (repeat v m) x)) with (sum_n 2 (fun m => decay_along t (repeat v m) x)).
    + cbn. unfold decay_f. match goal with |- Rabs ?a <= _ => replace a with 0 by ring end. rewrite Rabs_R0. lra.
    + destruct p as [|[|p]]; [lia|lia|]. clear Hp. induction p as [|p IH]; [reflexivity|]. cbn [sum_n] in *.
      rewrite <- IH. cbn. ring.
Qed.

(** Dopri5 in the integration loop, with steps of up to [H], one of which is rejected at first, and dense output. *)
Definition scaled (H : R) (t : Z) : R := IZR t * (H / 300).
Definition conv_cfg (d : dense_method) (sv : solver unit unit R) (H : R)
  : config (unit -> R) (solver_state unit) nat ((unit -> R) * (unit -> R) * list (list (unit -> R)))
      (option (unit -> R)) (unit -> R) unit :=
  Config (rk_solver_step sv (scaled H) (fun _ _ _ _ _ => false)) (fun e => e)
    (rk_interpolate (dm_interpolation d) (scaled H)) rk_adapt None (fun a b => (a + b) / 2)%Z (fun m _ => m)
    [SubSaveAt false true (Some [100; 500]%Z) 1 (fun _ y => y)] true None 0 1000 (Some 20%nat).
Definition conv_solver : solver unit unit R := solver_of dopri5_tableau.
Lemma conv_run H : 0 < H <= 1 / 4 -> exists h o,
  rk_run (conv_cfg dopri5_dense conv_solver H) (rk_initial conv_solver) h o conv_solver (scaled H) 0 (fun _ => 1) /\
  steps_within (scaled H) H (9 / 10) h /\ length (accepted h) = 4%nat /\ out_result o = successful.
Proof.
  intros HH.
  assert (X : exists h o, solve_run (conv_cfg dopri5_dense conv_solver H) (rk_initial conv_solver) h o /\
    map (fun a => (at_from a, at_to a, at_end a, at_keep a, at_solver_result a)) h
    = [(0, 300, 300, true, successful); (300, 600, 600, true, successful); (600, 900, 600, false, successful);
       (600, 750, 750, true, successful); (750, 1000, 1000, true, successful)]%Z /\
    out_result o = successful).
  { apply runs. vm_compute. auto. }
  destruct X as (h & o & RUN & E & OK). exists h, o. split; [|split; [|split; [|exact OK]]].
  - split; [exact RUN|]. split; [eexists; reflexivity|]. split; [left; exact affine_rf_exact|]. split.
    { exists (fun _ _ _ => True). split; [|exact Logic.I].
      intros a b y y1 e cs _ H1 H2 _. cbn [conv_cfg adapt]. unfold rk_adapt.
      destruct (cs mod 3 =? 2)%nat; cbn [ao_keep ao_tprev ao_tnext]; repeat split; try discriminate; lia. }
    split.
    { intros a b y y1 e cs. cbn [conv_cfg adapt]. unfold rk_adapt.
      destruct (cs mod 3 =? 2)%nat; cbn [ao_keep ao_tprev ao_tnext ao_jump]; [discriminate|reflexivity]. }
    split.
    { intros a b Hab. cbn. split; [apply Z.div_le_lower_bound; lia|].
      assert ((a + b) / 2 < b + 1)%Z by (apply Z.div_lt_upper_bound; lia). lia. }
    split; [cbn; lia|]. split; [cbn; lia|]. split; [split; [reflexivity|left; reflexivity]|]. split; [unfold scaled; cbn; ring|reflexivity].
  - intros a Ha K. apply (in_map (fun a => (at_from a, at_to a, at_end a, at_keep a, at_solver_result a))) in Ha.
    rewrite E in Ha. unfold scaled.
    destruct Ha as [A|[A|[A|[A|[A|[]]]]]]; injection A as E1 E2 E3 E4 E5; try congruence; rewrite <- E1, <- E2, <- E3, <- E5; (split; [reflexivity|split; [reflexivity|lra]]).
  - unfold accepted. rewrite <- (map_length (fun a => (at_from a, at_to a, at_end a, at_keep a, at_solver_result a))).
    assert (F : forall l : list (attempt (unit -> R)),
      map (fun a => (at_from a, at_to a, at_end a, at_keep a, at_solver_result a)) (filter at_keep l)
      = filter (fun r => let '(_, _, _, k, _) := r in k) (map (fun a => (at_from a, at_to a, at_end a, at_keep a, at_solver_result a)) l)).
    { induction l as [|a l IH]; [reflexivity|]. cbn. destruct (at_keep a) eqn:Ek; cbn; rewrite ?IH, ?Ek; reflexivity. }
    rewrite F, E. reflexivity.
Qed.
Lemma conv_results H : results_ok (conv_cfg dopri5_dense conv_solver H) /\ rf_results_ok (conv_cfg dopri5_dense conv_solver H).
Proof.
  split; [split|].
  - intros a b y ss j. cbn zeta.
    assert (E : so_result (solver_step (conv_cfg dopri5_dense conv_solver H) a b y ss j) = successful) by (destruct ss as [[[] ?]|], j; vm_compute; reflexivity).
    rewrite E. split; discriminate.
  - intros a b y y1 e cs. cbn. unfold rk_adapt. destruct (cs mod 3 =? 2)%nat; cbn; split; discriminate.
  - intros e rf f lo hi start r E. discriminate.
Qed.
