(** Weighted sums that the equation conserves, for solvers other than Runge--Kutta methods. *)
From Coq Require Import ZArith Reals List Bool Arith Lia Lra FunctionalExtensionality.
From Verif Require Import Model_Result Model_Loop Model_RK Model_Terms Model_Solvers Model_SRK Model_Interp Spec_Loop Spec_RK Spec_SRK Spec_Frame
  Spec_Invariant Spec_Conserve Proof_RK Proof_Frame Proof_SRKAdd Proof_Invariant.
Import ListNotations.
Open Scope R_scope.

Section Sums.
  Context {I : Type}.
  Variable w : list (I * R).
  Lemma tot_ext u v : (forall x, u x = v x) -> total w u = total w v.
  Proof. intros H. exact (lin_ext (fun _ : unit => w) u v tt H). Qed.
  Lemma tot_add u v : total w (vadd u v) = total w u + total w v.
  Proof. exact (lin_plus (fun _ : unit => w) u v tt). Qed.
  Lemma tot_scale a u : total w (vscale a u) = a * total w u.
  Proof. exact (lin_scal (fun _ : unit => w) a u tt). Qed.
  Lemma tot_sub u v : total w (vsub u v) = total w u - total w v.
  Proof. exact (lin_minus (fun _ : unit => w) u v tt). Qed.
  Lemma tot_zero : total w vzero = 0.
  Proof. exact (lin_zero (fun _ : unit => w) tt). Qed.
  Lemma tot_over {A : Type} (l : list A) (u : A -> I -> R) : (forall a, total w (u a) = 0) -> total w (fun x => sum_over l (fun a => u a x)) = 0.
  Proof.
    intros H. induction l as [|a l IH]; [exact tot_zero|]. unfold sum_over in *. cbn [fold_right].
    pose proof (tot_add (u a) (fun x => fold_right (fun a acc => u a x + acc) 0 l)) as E. unfold vadd in E. rewrite E, H, IH. ring.
  Qed.
  Lemma tot_directional (f : (I -> R) -> I -> R) y v d : (forall z, total w (f z) = 0) -> directional f y v d -> total w d = 0.
  Proof.
    intros H HD.
    set (c := fun s : R => fun x => y x + s * v x).
    assert (C0 : c 0 = y) by (apply functional_extensionality; intros x; unfold c; ring).
    assert (CV : forall x, derivable_pt_lim (fun s => c s x) 0 (v x)).
    { intros x eps He. exists (mkposreal 1 Rlt_0_1). intros h Hh _. unfold c.
      replace ((y x + (0 + h) * v x - (y x + 0 * v x)) / h - v x) with 0 by (field; exact Hh). rewrite Rabs_R0. exact He. }
    pose proof (lin_derivable (fun _ : unit => w) (fun s => f (c s)) d tt (HD c C0 CV)) as D.
    apply (uniqueness_limite (fun s => total w (f (c s))) 0); [exact D|].
    replace (fun s => total w (f (c s))) with (fun _ : R => 0) by (apply functional_extensionality; intros s; symmetry; apply H).
    apply derivable_pt_lim_const.
  Qed.

  Context {J C : Type}.
  Lemma tot_prod (m : term I J C) t y c : conserving w m -> total w (t_vf_prod m t y c) = 0.
  Proof. intros (H1 & H2). rewrite (tot_ext _ _ (H1 t y c)). apply H2. Qed.
  Lemma tot_prod_add (m : term I J C) f g c : linear_term m -> total w (t_prod m (vadd f g) c) = total w (t_prod m f c) + total w (t_prod m g c).
  Proof.
    intros L. rewrite <- tot_add. apply tot_ext. intros x. replace (vadd f g) with (fun j => 1 * f j + 1 * g j) by (apply functional_extensionality; intros j; unfold vadd; ring).
    rewrite L. unfold vadd. ring.
  Qed.
  Lemma tot_prod_delta (m : term I J C) f g a c : linear_term m -> total w (t_prod m (vscale a (vsub f g)) c) = a * (total w (t_prod m f c) - total w (t_prod m g c)).
  Proof.
    intros L. rewrite <- tot_sub, <- tot_scale. apply tot_ext. intros x.
    replace (vscale a (vsub f g)) with (fun j => a * f j + (- a) * g j) by (apply functional_extensionality; intros j; unfold vsub, vscale; ring).
    rewrite L. unfold vsub, vscale. ring.
  Qed.
End Sums.

Section Stages.
  Context {I J J' K : Type}.
  Variable w : list (I * R).
  Notation Y := (I -> R).
  Notation nil_total := (Forall (fun u : Y => total w u = 0)).
  Lemma set_nth_all {A : Type} (P : A -> Prop) i v l : P v -> Forall P l -> Forall P (set_nth i v l).
  Proof. intros Hv. revert i. induction l as [|x l IH]; intros [|i] H; cbn; inversion H; subst; constructor; auto. Qed.
  Lemma repeat_all {A : Type} (P : A -> Prop) v n : P v -> Forall P (repeat v n).
  Proof. intros H. induction n; constructor; auto. Qed.
  Lemma tot_stages buff a : nil_total buff -> total w (sum_prev_stages buff a) = 0.
  Proof.
    intros H. revert a. induction H as [|u buff Hu _ IH]; intros [|x a]; cbn [sum_prev_stages]; try apply tot_zero.
    rewrite tot_add, tot_scale, Hu, IH. ring.
  Qed.
  Lemma tot_levy c l : nil_total l -> total w (levy_sum c l) = 0.
  Proof.
    intros H. revert c. induction H as [|u l Hu _ IH]; intros [|x c]; cbn [levy_sum]; try apply tot_zero.
    rewrite tot_add, tot_scale, Hu, IH. ring.
  Qed.
  Lemma tot_fold l u : nil_total l -> total w u = 0 -> total w (fold_left vadd l u) = 0.
  Proof. intros H. revert u. induction H as [|v l Hv _ IH]; intros u Hu; cbn [fold_left]; [exact Hu|]. apply IH. rewrite tot_add, Hu, Hv. ring. Qed.
  Lemma tot_map2 {A : Type} (f : A -> list Y -> Y) cs ls : (forall c l, nil_total l -> total w (f c l) = 0) -> Forall nil_total ls -> nil_total (map2 f cs ls).
  Proof. intros Hf H. revert cs. induction H as [|l ls Hl _ IH]; intros [|c cs]; cbn [map2]; constructor; auto. Qed.
  Lemma all_map2 {A : Type} (f : A -> list Y -> list Y) cs ls : (forall c l, nil_total l -> nil_total (f c l)) -> Forall nil_total ls -> Forall nil_total (map2 f cs ls).
  Proof. intros Hf H. revert cs. induction H as [|l ls Hl _ IH]; intros [|c cs]; cbn [map2]; constructor; auto. Qed.

  Context (tab : stableau) (drift : term I J R) (diffusion : term I J' (K -> R)) (levy : R -> R -> bm_inc K) (t0 t1 : R) (y0 : Y).
  Hypothesis CD : conserving w drift.
  Hypothesis CG : conserving w diffusion.
  Lemma insert_total h z j : nil_total h -> nil_total (insert_kf tab drift t0 t1 h z j).
  Proof. intros H. unfold insert_kf. destruct (ignored _ j); [exact H|]. apply set_nth_all; [apply tot_prod, CD|exact H]. Qed.
  Lemma zeros_total : nil_total (make_zeros tab).
  Proof. apply repeat_all, tot_zero. Qed.
  Lemma finish_total h d e : nil_total h -> total w d = 0 ->
    total w (so_y (srk_finish tab y0 h d e)) = total w y0.
  Proof. intros H Hd. cbn [srk_finish so_y]. rewrite !tot_add, Hd, tot_stages by exact H. ring. Qed.

  Lemma general_total : total w (so_y (general_step tab drift diffusion levy t0 t1 y0)) = total w y0.
  Proof.
    unfold general_step.
    assert (G : forall js carry, nil_total (fst (fst carry)) -> nil_total (snd (fst carry)) -> Forall nil_total (snd carry) ->
      let out := fold_left (general_stage tab drift diffusion levy t0 t1 y0) js carry in
      nil_total (fst (fst out)) /\ nil_total (snd (fst out)) /\ Forall nil_total (snd out)).
    { induction js as [|j js IH]; intros ((h & k) & l) A B D; cbn [fst snd fold_left] in *; [auto|]. apply IH; clear IH;
        unfold general_stage; cbv zeta; destruct (ignored (st_ignore_stage_g tab) j); cbn [fst snd]; auto using insert_total.
      - apply set_nth_all; [apply tot_prod, CG|exact B].
      - apply all_map2; [|exact D]. intros c u Hu. apply set_nth_all; [apply tot_prod, CG|exact Hu]. }
    specialize (G (seq 0 (st_n tab)) (make_zeros tab, make_zeros tab, map (fun _ => make_zeros tab) (st_coeffs_levy tab))).
    cbn [fst snd] in G. destruct (fold_left (general_stage tab drift diffusion levy t0 t1 y0) _ _) as ((h & k) & l).
    destruct G as (A & B & D); [apply zeros_total|apply zeros_total|apply Forall_forall; intros u Hu; apply in_map_iff in Hu; destruct Hu as (? & <- & _); apply zeros_total|].
    cbn [fst snd] in *. apply finish_total; [exact A|]. apply tot_fold; [|apply tot_stages, B]. apply tot_map2; [|exact D]. intros c u Hu. apply tot_stages, Hu.
  Qed.

  Lemma additive_total : linear_term diffusion -> total w (so_y (additive_step tab drift diffusion levy t0 t1 y0)) = total w y0.
  Proof.
    intros L. unfold additive_step.
    assert (G : forall js h, nil_total h -> nil_total (fold_left (additive_stage tab drift diffusion levy t0 t1 y0) js h)).
    { induction js as [|j js IH]; intros h A; cbn [fold_left]; [exact A|]. apply IH. unfold additive_stage. apply insert_total, A. }
    apply finish_total; [apply G, zeros_total|].
    assert (LG : nil_total (levy_kg0 tab diffusion levy t0 t1 y0)).
    { unfold levy_kg0. destruct (st_coeffs_hh tab), (st_coeffs_kk tab); cbn [app]; repeat constructor; apply CG. }
    assert (TV : forall c, total w (t_prod diffusion (g_delta diffusion t0 t1 y0) c) = 0).
    { intros c. unfold g_delta. rewrite tot_prod_delta by exact L. unfold g0. destruct CG as (_ & H). rewrite !H. ring. }
    rewrite tot_add. unfold add_levy_to_w. rewrite tot_add, tot_scale, tot_levy by exact LG.
    unfold w_kg0, g0. destruct CG as (_ & H). rewrite H. destruct (st_coeffs_hh tab); rewrite TV; ring.
  Qed.
End Stages.

Section Methods.
  Context {I : Type}.
  Variable w : list (I * R).
  Notation Y := (I -> R).

  (** A method without memory. *)
  Lemma memoryless (me : method Y unit (Y * Y)) :
    (forall t0 t1 y s j, let out := me_step me t0 t1 y s j in total w (so_y out) = total w y /\ so_dense out = (y, so_y out)) -> method_conserves w me.
  Proof.
    intros H. exists (fun _ _ => True). split; [auto|]. intros t0 t1 y s j _. destruct (H t0 t1 y s j) as (A & B). cbv zeta. rewrite B. cbn [fst snd]. auto.
  Qed.

  Lemma pf_C77_euler (J C : Type) (trm : term I J C) : conserving w trm -> method_conserves w (euler trm).
  Proof. intros H. apply memoryless. intros t0 t1 y s j. cbn [euler me_step so_y so_dense]. split; [|reflexivity]. rewrite tot_add, tot_prod by exact H. ring. Qed.
  Lemma pf_C77_euler_heun (J C J' C' : Type) (drift : term I J C) (diffusion : term I J' C') :
    conserving w drift -> conserving w diffusion -> method_conserves w (euler_heun drift diffusion).
  Proof.
    intros H H'. apply memoryless. intros t0 t1 y s j. cbn [euler_heun me_step so_y so_dense]. split; [|reflexivity].
    rewrite !tot_add, tot_scale, tot_add, !tot_prod by assumption. ring.
  Qed.
  Lemma pf_C77_leapfrog (J C : Type) (trm : term I J C) : conserving w trm -> method_conserves w (leapfrog_midpoint trm).
  Proof.
    intros H. exists (fun T s => total w (snd s) = T). split; [reflexivity|]. intros t0 t1 y (tm1, ym1) j G. cbn [snd] in G. cbn [leapfrog_midpoint me_step so_y so_state so_dense fst snd].
    rewrite tot_add, tot_prod, G by exact H. repeat split; try ring.
  Qed.
  Lemma pf_C77_reversible_heun (J C : Type) (trm : term I J C) : conserving w trm -> linear_term trm -> method_conserves w (reversible_heun trm).
  Proof.
    intros (HC & H) L. exists (fun T s => total w (fst s) = T /\ forall c, total w (t_prod trm (snd s) c) = 0). split; [split; [reflexivity|intros c; apply H]|].
    intros t0 t1 y (yhat, vf) j (G & F). cbn [fst snd] in G, F. cbn [reversible_heun me_step so_y so_state so_dense fst snd].
    assert (FJ : forall c, total w (t_prod trm (if j then t_vf trm t0 y else vf) c) = 0) by (intros c; destruct j; [apply H|apply F]).
    assert (T1 : forall u, total w (vadd y (vscale (1 / 2) (t_prod trm (vadd (if j then t_vf trm t0 y else vf) (t_vf trm t1 u)) (t_contr trm t0 t1)))) = total w y).
    { intros u. rewrite tot_add, tot_scale, tot_prod_add, FJ, H by exact L. ring. }
    split; [apply T1|]. split; [split; [|intros c; apply H]|split; [reflexivity|apply T1]].
    rewrite tot_add, tot_sub, tot_scale, G, FJ. ring.
  Qed.
  Lemma pf_C77_srk (J J' K : Type) (tab : stableau) (drift : term I J R) (diffusion : term I J' (K -> R)) (levy : R -> R -> bm_inc K) :
    conserving w drift -> conserving w diffusion -> is_additive_noise tab = false \/ linear_term diffusion -> method_conserves w (srk tab drift diffusion levy).
  Proof.
    intros H H' HA. apply memoryless. intros t0 t1 y s j. cbn [srk me_step]. unfold srk_step. destruct (is_additive_noise tab) eqn:E; (split; [|]).
    - destruct HA as [HA|HA]; [discriminate|]. apply additive_total; assumption.
    - reflexivity.
    - apply general_total; assumption.
    - unfold general_step. destruct (fold_left _ _ _) as ((? & ?) & ?). reflexivity.
  Qed.
  Lemma pf_C77_stratonovich_milstein (J C J' C' : Type) (jvp : (Y -> Y) -> Y -> Y -> Y) (drift : term I J C) (diffusion : term I J' C') :
    correct_jvp jvp -> (forall t c y v, exists d, directional (fun z => t_vf_prod diffusion t z c) y v d) ->
    conserving w drift -> conserving w diffusion -> method_conserves w (stratonovich_milstein jvp drift diffusion).
  Proof.
    intros HJ HD H H'. apply memoryless. intros t0 t1 y s j. cbn [stratonovich_milstein me_step so_y so_dense]. split; [|reflexivity].
    destruct (HD t0 (t_contr diffusion t0 t1) y (t_vf_prod diffusion t0 y (t_contr diffusion t0 t1))) as (d & D). rewrite (HJ _ _ _ _ D).
    rewrite !tot_add, tot_scale, !tot_prod by assumption.
    rewrite (tot_directional w _ _ _ d (fun z => tot_prod w diffusion t0 z _ H') D). ring.
  Qed.
  Lemma pf_C77_ito_milstein (J K : Type) (eqb : K -> K -> bool) (ks : list K) (jvp : (Y -> I * K -> R) -> Y -> Y -> I * K -> R) (drift : term I J R)
        (g : R -> Y -> I * K -> R) (path : R -> R -> K -> R) :
    correct_jvp jvp -> (forall t y v, exists d, directional (g t) y v d) ->
    conserving w drift -> conserving w (control_term ks g path) -> method_conserves w (ito_milstein eqb ks jvp drift (control_term ks g path)).
  Proof.
    intros HJ HD H (_ & H'). apply memoryless. intros t0 t1 y s j. cbn [ito_milstein me_step so_y so_dense]. split; [|reflexivity].
    rewrite !tot_add, tot_scale, !H', tot_prod by exact H.
    match goal with |- _ + 1 / 2 * total w (fun x => sum_over ks (@?u x)) = _ => idtac end.
    rewrite (tot_over w ks (fun k1 i => sum_over ks (fun k2 =>
       t_prod (control_term ks g path) (jvp (fun y0 : I -> R => t_vf (control_term ks g path) t0 y0) y
          (t_prod (control_term ks g path) (t_vf (control_term ks g path) t0 y) (unit_control eqb k1))) (unit_control eqb k2) i *
       (t_contr (control_term ks g path) t0 t1 k1 * t_contr (control_term ks g path) t0 t1 k2 - (if eqb k1 k2 then t_contr drift t0 t1 else 0))))); [ring|].
    intros k1. apply (tot_over w ks (fun k2 i => _ * _)). intros k2.
    set (v := t_prod _ _ (unit_control eqb k1)). cbn [control_term with_default_vf_prod t_vf t_prod].
    destruct (HD t0 y v) as (d & D). change (fun y0 : I -> R => g t0 y0) with (g t0). rewrite (HJ _ _ _ _ D).
    match goal with |- total w (fun i => _ * ?a) = 0 => pose proof (tot_scale w a (contract ks d (unit_control eqb k2))) as E; unfold vscale in E;
      rewrite (tot_ext w _ (fun i => a * contract ks d (unit_control eqb k2) i)) by (intros; ring); rewrite E end.
    rewrite (tot_directional w (fun z => contract ks (g t0 z) (unit_control eqb k2)) y v (contract ks d (unit_control eqb k2))); [ring| |].
    - intros z. apply (H' t0 z).
    - apply contract_directional, D.
  Qed.
  Lemma pf_C77_half (SS : Type) (me : method Y SS (Y * Y)) : method_conserves w me -> method_conserves w (half_solver me).
  Proof.
    intros (good & G0 & G). exists good. split; [exact G0|]. intros t0 t1 y s j Hs. cbn [half_solver me_step so_y so_state so_dense].
    set (out1 := me_step me t0 (t0 + 1 / 2 * (t1 - t0)) y s j). destruct (G t0 (t0 + 1 / 2 * (t1 - t0)) y s j Hs) as (A & B & _). fold out1 in A, B.
    rewrite <- A in B. destruct (G (t0 + 1 / 2 * (t1 - t0)) t1 (so_y out1) (so_state out1) false B) as (A' & B' & _). rewrite A in A', B'.
    destruct (G t0 t1 y s j Hs) as (_ & _ & D & D'). auto.
  Qed.
  (** Implicit Euler, when its root finder succeeds. *)
  Lemma pf_C77_implicit_euler (J C : Type) (root_find : (Y -> Y) -> Y -> Y * RESULTS) (trm : term I J C) (t0 t1 : R) (y : Y) (j : bool) :
    (forall f z, is_okay (snd (root_find f z)) = true -> forall x, f (fst (root_find f z)) x = 0) -> conserving w trm ->
    let out := me_step (implicit_euler root_find trm) t0 t1 y tt j in
    is_okay (so_result out) = true -> total w (so_y out) = total w y.
  Proof.
    intros HR H. cbn [implicit_euler me_step].
    specialize (HR (implicit_relation (t_vf_prod trm) t1 y (t_contr trm t0 t1)) (t_vf_prod trm t0 y (t_contr trm t0 t1))).
    destruct (root_find _ _) as (k & r). cbn [fst snd so_result so_y] in *. intros OK. specialize (HR OK).
    rewrite tot_add. assert (total w k = 0); [|lra].
    rewrite <- (tot_prod w trm t1 (vadd y k) (t_contr trm t0 t1) H). apply tot_ext. intros x. specialize (HR x). unfold implicit_relation, vsub in HR. lra.
  Qed.
End Methods.

(** The halves of the state of the symplectic Euler method. *)
Lemma pf_C77_semi_implicit (I1 I2 C1 C2 : Type) (term_1 : half_term (I2 -> R) (I1 -> R) C1) (term_2 : half_term (I1 -> R) (I2 -> R) C2)
      (w1 : list (I1 * R)) (w2 : list (I2 * R)) (t0 t1 : R) (y : (I1 -> R) * (I2 -> R)) (j : bool) :
  let y1 := so_y (me_step (semi_implicit_euler term_1 term_2) t0 t1 y tt j) in
  ((forall t z c, total w1 (ht_vf_prod term_1 t z c) = 0) -> total w1 (fst y1) = total w1 (fst y)) /\
  ((forall t z c, total w2 (ht_vf_prod term_2 t z c) = 0) -> total w2 (snd y1) = total w2 (snd y)).
Proof.
  destruct y as (q & p). cbn [semi_implicit_euler me_step so_y fst snd]. split; intros H; rewrite tot_add, H; ring.
Qed.

Section Whole.
  Context {I SS CS V MS : Type}.
  Notation Y := (I -> R).
  Notation config := (config Y SS CS (Y * Y) (option Y) V MS).
  Notation initial := (initial Y SS CS MS).
  Notation outcome := (outcome Y SS CS (Y * Y) V MS).
  Lemma pf_C77_methods (c : config) (i : initial) (me : method Y SS (Y * Y)) (time : Z -> R) (w : list (I * R)) (Q : V -> Prop) (o : outcome) :
    method_solve c i me time -> method_conserves w me ->
    (forall sub t y, In sub (cfg_subs c) -> total w y = total w (in_y i) -> Q (sub_fn sub t y)) ->
    solves c i o ->
    total w (out_yfinal o) = total w (in_y i) /\
    (forall s v, In s (out_save o) -> In (Some v) (ss_ys s) -> Q v) /\
    (forall d a b t, In (Some d) (st_dense_infos (out_state o)) -> total w (interpolate c a b d t) = total w (in_y i)).
  Proof.
    intros (E1 & E2 & E3) (good & G0 & G) HQ SO.
    assert (HI : forall a b d t, total w (fst d) = total w (in_y i) /\ total w (snd d) = total w (in_y i) -> total w (interpolate c a b d t) = total w (in_y i)).
    { intros a b (u & v) t (A & B). rewrite E2. cbn [fst snd] in *. unfold local_linear. set (r := linear_rescale _ _ _).
      rewrite (tot_ext w _ (vadd u (vscale r (vsub v u)))) by reflexivity. rewrite tot_add, tot_scale, tot_sub, A, B. ring. }
    destruct (pf_C77_kept c i (fun y => total w y = total w (in_y i)) (good (total w (in_y i)))
                (fun d => total w (fst d) = total w (in_y i) /\ total w (snd d) = total w (in_y i)) Q o) as (A & _ & B & D); try assumption.
    - intros a b y s j T S. rewrite E1. cbv zeta. rewrite <- T in S |- *. destruct (G (time a) (time b) y s j S) as (? & ? & ? & ?). auto.
    - reflexivity.
    - rewrite E3. apply G0.
    - split; [exact A|]. split; [exact B|]. intros d a b t Hd. apply HI, D, Hd.
  Qed.
End Whole.
