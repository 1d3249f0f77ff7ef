(** Time as a component of the state. *)
From Coq Require Import Reals QArith Qreals List Bool Arith Lia Lra FunctionalExtensionality.
From Verif Require Import Model_Result Model_Loop Model_RK Model_Tableaus Model_Terms Model_Solvers Model_SRK Spec_RK Spec_SRK Spec_Frame
  Proof_RKStep Proof_RKProp Proof_RKShipped Proof_SRK Proof_SRKProps Proof_Frame.
Import ListNotations.
Open Scope R_scope.

Definition time_frame (I : Type) : frame I (option I) :=
  Frame (fun p => match p with None => [] | Some x => [(x, 1)] end) (fun _ => 0) (fun p => match p with None => 1 | Some _ => 0 end) 0.

Section TimeFrame.
  Context {I : Type}.
  Notation tf := (time_frame I).
  Lemma time_point t (y : I -> R) : point tf t y = with_time t y.
  Proof. apply functional_extensionality. intros [x|]; unfold point; cbn; ring. Qed.
  Lemma time_vector (u : I -> R) p : vector tf u p = match p with None => 0 | Some x => u x end.
  Proof. destruct p as [x|]; unfold vector; cbn; ring. Qed.
  Lemma time_shift t : t + fr_shift tf = t.
  Proof. cbn. ring. Qed.
  Lemma time_space t (y : I -> R) : space (with_time t y) = y.
  Proof. apply functional_extensionality. intros x. reflexivity. Qed.

  Lemma time_increments (f : R -> (I -> R) -> I -> R) h : increments_follow tf (ode_term f) (ode_term (autonomous f)) h h.
  Proof.
    intros t y p. rewrite time_point, time_vector. cbn [t_vf_prod ode_term with_default_vf_prod]. unfold autonomous. rewrite time_space.
    destruct p as [x|]; cbn; ring.
  Qed.
  Lemma time_drift (f : R -> (I -> R) -> I -> R) : drift_follows tf (ode_term f) (ode_term (autonomous f)).
  Proof.
    split.
    - intros t0 t1. rewrite !time_shift. reflexivity.
    - intros t0 t1. cbn [t_contr ode_term with_default_vf_prod]. apply time_increments.
  Qed.
  Lemma time_noise {K : Type} ks (g : R -> (I -> R) -> I * K -> R) path :
    noise_follows tf (control_term ks g path) (control_term ks (autonomous_noise g) path).
  Proof.
    split.
    - intros t0 t1. rewrite !time_shift. reflexivity.
    - intros c t y p. rewrite time_point, time_vector. cbn [t_vf_prod control_term with_default_vf_prod].
      unfold contract, autonomous_noise. rewrite time_space. cbn [with_time fst snd].
      destruct p as [x|]; [ring|]. induction ks as [|k l IH]; cbn [fold_right]; [ring|]. rewrite IH. ring.
  Qed.

  Lemma row_sums_single tab (m : term I I R) : exact_row_sums tab -> times_are_row_sums (num_stages tab) [(tab, m)].
  Proof.
    intros (H1 & H2 & H3) tab0 trm0 E0. cbn in E0. injection E0 as <- <-. split; [|split; assumption].
    intros tab' trm i [E1|[]] Hi. injection E1 as <- <-. apply H1, Hi.
  Qed.
  Lemma ode_valid (X : Type) (f : R -> (X -> R) -> X -> R) tab : post_init_ok tab = true -> valid_parts (num_stages tab) [(tab, ode_term f)].
  Proof.
    intros OK. split; [discriminate|]. split.
    - intros tab' m [E1|[]]. injection E1 as <- <-. split; [exact OK|]. split; [reflexivity|]. split.
      + intros t y c x. reflexivity.
      + intros a b u w c x. cbn. ring.
    - intros p q tab1 tab2 m1 m2 H1 H2 _ _. destruct p as [|[|p]], q as [|[|q]]; try reflexivity; discriminate.
  Qed.

  Lemma pf_C75_autonomous_rk (tab : tableau) (f : R -> (I -> R) -> I -> R) (sv : solver I I R) (sv' : solver (option I) (option I) R)
        (t0 t1 : R) (y0 : I -> R) (others others' : bool) (state : solver_state I) (state' : solver_state (option I)) (jump jump' : bool) :
    post_init_ok tab = true -> implicit tab = false -> (fsal tab = true -> ends_at_ends tab) -> exact_row_sums tab ->
    sv_parts sv = [(tab, ode_term f)] -> sv_parts sv' = [(tab, ode_term (autonomous f))] ->
    coherent (sv_parts sv) t0 y0 jump state -> coherent (sv_parts sv') t0 (with_time t0 y0) jump' state' ->
    ro_y (rk_step sv' t0 t1 (with_time t0 y0) others' state' jump') = with_time t1 (ro_y (rk_step sv t0 t1 y0 others state jump)).
  Proof.
    intros OK IM FE RS P P' CO CO'.
    rewrite <- !(time_point t0) in *. rewrite <- (time_point t1).
    pose proof (pf_C75_explicit_step tf sv sv' (num_stages tab) t0 t1 y0 others others' state state' jump jump') as T.
    rewrite !time_shift in T. rewrite P, P' in T. apply T; clear T.
    - apply ode_valid, OK.
    - intros tab' m [E1|[]]. injection E1 as <- <-. exact IM.
    - intros tab' m [E1|[]]. injection E1 as <- <-. exact FE.
    - apply ode_valid, OK.
    - intros tab' m [E1|[]]. injection E1 as <- <-. exact IM.
    - intros tab' m [E1|[]]. injection E1 as <- <-. exact FE.
    - split; [reflexivity|]. intros m tab' trm H. destruct m as [|[|m]]; try discriminate. cbn in H. injection H as <- <-.
      exists (ode_term (autonomous f)). split; [reflexivity|]. destruct (time_drift f) as (SC & IF). split; [exact SC|exact IF].
    - right. apply row_sums_single, RS.
    - rewrite P in CO. exact CO.
    - rewrite P' in CO'. exact CO'.
  Qed.

  Lemma pf_C75_autonomous_euler_heun (K : Type) (ks : list K) (f : R -> (I -> R) -> I -> R) (g : R -> (I -> R) -> I * K -> R)
        (path : R -> R -> K -> R) (t0 t1 : R) (y0 : I -> R) (jump : bool) :
    so_y (me_step (euler_heun (ode_term (autonomous f)) (control_term ks (autonomous_noise g) path)) t0 t1 (with_time t0 y0) tt jump)
    = with_time t1 (so_y (me_step (euler_heun (ode_term f) (control_term ks g path)) t0 t1 y0 tt jump)).
  Proof.
    pose proof (pf_C75_euler_heun tf _ _ _ _ _ _ _ _ _ _ t0 t1 y0 jump jump (time_drift f) (time_noise ks g path)) as T.
    rewrite !time_shift, !time_point in T. exact T.
  Qed.

  Lemma pf_C75_autonomous_srk (K : Type) (tab : stableau) (ks : list K) (f : R -> (I -> R) -> I -> R) (g : R -> (I -> R) -> I * K -> R)
        (path : R -> R -> K -> R) (levy : R -> R -> bm_inc K) (t0 t1 : R) (y0 : I -> R) (jump : bool) :
    spost_init_ok tab = true -> ignored_unused tab -> is_additive_noise tab = false -> sde_row_sums tab ->
    so_y (me_step (srk tab (ode_term (autonomous f)) (control_term ks (autonomous_noise g) path) levy) t0 t1 (with_time t0 y0) tt jump)
    = with_time t1 (so_y (me_step (srk tab (ode_term f) (control_term ks g path) levy) t0 t1 y0 tt jump)).
  Proof.
    intros OK IU NA RS.
    pose proof (pf_C75_srk_general tf tab _ _ _ _ levy levy t0 t1 y0 jump jump OK IU NA (or_intror RS) (time_increments f)
                  (proj2 (time_noise ks g path))) as T.
    rewrite !time_shift, !time_point in T. specialize (T eq_refl). cbv zeta in T. rewrite time_point in T. exact (proj1 T).
  Qed.

  (** Derivatives of the enlarged noise. *)
  Lemma pf_C75_autonomous_milstein (K : Type) (ks : list K) (eqb : K -> K -> bool) (f : R -> (I -> R) -> I -> R) (g : R -> (I -> R) -> I * K -> R)
        (jvp : ((I -> R) -> I * K -> R) -> (I -> R) -> (I -> R) -> I * K -> R)
        (jvp' : ((option I -> R) -> option I * K -> R) -> (option I -> R) -> (option I -> R) -> option I * K -> R)
        (Dg : R -> (I -> R) -> (I -> R) -> I * K -> R) (Dg' : R -> (option I -> R) -> (option I -> R) -> option I * K -> R)
        (path : R -> R -> K -> R) (t0 t1 : R) (y0 : I -> R) (jump : bool) :
    (forall t y v, directional (g t) y v (Dg t y v)) -> (forall t z v, directional (autonomous_noise g t) z v (Dg' t z v)) ->
    correct_jvp jvp -> correct_jvp jvp' ->
    so_y (me_step (ito_milstein eqb ks jvp' (ode_term (autonomous f)) (control_term ks (autonomous_noise g) path)) t0 t1 (with_time t0 y0) tt jump)
    = with_time t1 (so_y (me_step (ito_milstein eqb ks jvp (ode_term f) (control_term ks g path)) t0 t1 y0 tt jump)).
  Proof.
    intros HD HD' HJ HJ'.
    pose proof (pf_C75_ito_milstein tf K eqb ks f (autonomous f) g (autonomous_noise g) Dg Dg' path path jvp jvp' t0 t1 y0 jump jump HD HD' HJ HJ') as T.
    rewrite !time_shift, !time_point in T. apply T; [| |reflexivity].
    - intros t y p. rewrite time_point, time_vector. unfold autonomous. rewrite time_space. destruct p as [x|]; cbn; ring.
    - intros t y p k. rewrite time_point, time_vector. unfold autonomous_noise. rewrite time_space. destruct p as [x|]; reflexivity.
  Qed.
End TimeFrame.

Definition row_check (tab : tableau) : bool :=
  let d i := match tab_a_diagonal tab with None => 0%Q | Some d => nth i d 0%Q end in
  let s := num_stages tab in
  let a i j := if (j <? i)%nat then nth j (nth (i - 1) (tab_a_lower tab) []) 0%Q else if (j =? i)%nat then d i else 0%Q in
  let c i := match i with O => tab_c1 tab | S i => nth i (tab_c tab) 0%Q end in
  let total f := fold_right (fun i r => Qred (f i + r))%Q 0%Q (seq 0 s) in
  forallb (fun i => Qeq_bool (c i) (total (a i))) (seq 0 s) &&
  Qeq_bool (total (fun i => nth i (tab_b_sol tab) 0%Q)) 1 && Qeq_bool (total (fun i => nth i (tab_b_error tab) 0%Q)) 0.

Lemma Q2R_total (f : nat -> Q) n : forall k, Q2R (fold_right (fun i r => Qred (f i + r))%Q 0%Q (seq k n)) = sum_n n (fun i => Q2R (f (k + i)%nat)).
Proof.
  induction n as [|n IH]; intros k; [cbn; unfold Q2R; cbn; ring|]. cbn [seq fold_right].
  rewrite (Qeq_eqR _ _ (Qred_correct _)), Q2R_plus, IH, sum_n_shift, Nat.add_0_r. f_equal.
  apply sum_n_ext. intros i _. do 2 f_equal. lia.
Qed.
Lemma row_check_ok tab : row_check tab = true -> exact_row_sums tab.
Proof.
  unfold row_check, exact_row_sums. cbv zeta. intros H. apply andb_prop in H. destruct H as [H H3]. apply andb_prop in H. destruct H as [H1 H2].
  apply Qeq_bool_iff, Qeq_eqR in H2, H3. rewrite Q2R_total in H2, H3. cbn [Nat.add] in H2, H3.
  split; [|split].
  - intros i Hi. rewrite forallb_forall in H1. specialize (H1 i). assert (Hin : In i (seq 0 (num_stages tab))) by (apply in_seq; lia).
    specialize (H1 Hin). apply Qeq_bool_iff, Qeq_eqR in H1. rewrite Q2R_total in H1. cbn [Nat.add] in H1.
    assert (CC : coef_c tab i = Q2R match i with O => tab_c1 tab | S i => nth i (tab_c tab) 0%Q end) by (destruct i; reflexivity).
    rewrite CC, H1. apply sum_n_ext. intros j _. unfold coef_a.
    destruct (j <? i)%nat; [reflexivity|]. destruct (Nat.eqb_spec j i) as [->|]; [|unfold Q2R; cbn; ring].
    destruct (tab_a_diagonal tab); [reflexivity|unfold Q2R; cbn; ring].
  - unfold coef_b. rewrite H2. unfold Q2R. cbn. field.
  - unfold coef_e. rewrite H3. unfold Q2R. cbn. ring.
Qed.
Lemma pf_C75_shipped (tab : tableau) :
  In tab [bosh3_tableau; dopri5_tableau; heun_tableau; midpoint_tableau; ralston_tableau; kvaerno3_tableau; kvaerno4_tableau;
          kencarp4_implicit_tableau; sil3_explicit_tableau; sil3_implicit_tableau] -> exact_row_sums tab.
Proof.
  intros H. apply row_check_ok. repeat (destruct H as [<-|H]; [vm_compute; reflexivity|]). destruct H.
Qed.
Ltac sde_rows := split; [|split];
  [let j := fresh "j" in let Hj := fresh "Hj" in intros j Hj; cbn in Hj;
     do 8 (first [exfalso; lia|destruct j as [|j]; [cbn; try field; try lra|]])
  |cbn; unfold spark_x1, spark_x2; try field; try lra
  |let e := fresh "e" in let He := fresh "He" in intros e He; first [discriminate He|injection He as <-; cbn; unfold spark_x1, spark_x2; try field; try lra]].
Lemma pf_C75_shipped_sde (tab : stableau) :
  In tab [sra1; shark; sea; spark; general_shark; slowrk] -> sde_row_sums tab.
Proof.
  intros H. destruct H as [<-|[<-|[<-|[<-|[<-|[<-|[]]]]]]]; sde_rows.
Qed.
