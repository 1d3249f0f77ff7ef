(** Superposition with solvers other than Runge--Kutta methods. *)
From Coq Require Import ZArith Reals List Bool Arith Lia Lra FunctionalExtensionality.
From Verif Require Import Model_Result Model_Loop Model_RK Model_Terms Model_Solvers Model_SRK Model_Interp Spec_Loop Spec_RK Spec_SRK Spec_Related
  Spec_Conserve Spec_Superpose Spec_SuperposeMethods Proof_RK Proof_SRKAdd Proof_Related Proof_Superpose.
Import ListNotations.
Open Scope R_scope.

Section Mix.
  Context {I : Type}.
  Variables a b : R.
  Notation Y := (I -> R).
  Notation mx := (mix a b).
  Notation mixed := (fun u v w : Y => w = mx u v).
  Notation mixes := (all3 mixed).
  Lemma mix_add (u v u' v' : Y) : vadd (mx u v) (mx u' v') = mx (vadd u u') (vadd v v').
  Proof. apply functional_extensionality. intros x. unfold mix, vadd. ring. Qed.
  Lemma mix_sub (u v u' v' : Y) : vsub (mx u v) (mx u' v') = mx (vsub u u') (vsub v v').
  Proof. apply functional_extensionality. intros x. unfold mix, vsub. ring. Qed.
  Lemma mix_scale r (u v : Y) : vscale r (mx u v) = mx (vscale r u) (vscale r v).
  Proof. apply functional_extensionality. intros x. unfold mix, vscale. ring. Qed.
  Lemma mix_zero : vzero = mx (@vzero I) vzero.
  Proof. apply functional_extensionality. intros x. unfold mix, vzero. ring. Qed.
  Lemma mix_over {A : Type} (l : list A) (u v w : A -> Y) : (forall k, w k = mx (u k) (v k)) ->
    (fun x => sum_over l (fun k => w k x)) = mx (fun x => sum_over l (fun k => u k x)) (fun x => sum_over l (fun k => v k x)).
  Proof.
    intros H. apply functional_extensionality. intros x. unfold mix at 1. induction l as [|k l IH]; unfold sum_over in *; cbn [fold_right]; [ring|].
    rewrite IH, H. unfold mix. ring.
  Qed.
  Lemma line_curve (y v : Y) : (fun x => y x + 0 * v x) = y /\ forall x, derivable_pt_lim (fun s => y x + s * v x) 0 (v x).
  Proof.
    split; [apply functional_extensionality; intros x; ring|]. intros x eps He. exists (mkposreal 1 Rlt_0_1). intros h Hh _.
    replace ((y x + (0 + h) * v x - (y x + 0 * v x)) / h - v x) with 0 by (field; exact Hh). rewrite Rabs_R0. exact He.
  Qed.
  Lemma mix_directional {K : Type} (f : Y -> K -> R) y z v u d1 d2 d3 : (forall y z, f (mx y z) = mix a b (f y) (f z)) ->
    directional f y v d1 -> directional f z u d2 -> directional f (mx y z) (mx v u) d3 -> d3 = mix a b d1 d2.
  Proof.
    intros L D1 D2 D3. apply functional_extensionality. intros k.
    destruct (line_curve y v) as (A1 & B1). destruct (line_curve z u) as (A2 & B2). destruct (line_curve (mx y z) (mx v u)) as (A3 & B3).
    pose proof (D1 (fun s x => y x + s * v x) A1 B1 k) as E1. pose proof (D2 (fun s x => z x + s * u x) A2 B2 k) as E2.
    pose proof (D3 (fun s x => mx y z x + s * mx v u x) A3 B3 k) as E3. cbv beta in *.
    apply (uniqueness_limite _ 0 _ _ E3).
    replace (fun s => f (fun x => mx y z x + s * mx v u x) k) with (fun s => a * f (fun x => y x + s * v x) k + b * f (fun x => z x + s * u x) k).
    - unfold mix. apply derivable_pt_lim_plus; [apply (derivable_pt_lim_scal _ a 0 _ E1)|apply (derivable_pt_lim_scal _ b 0 _ E2)].
    - apply functional_extensionality. intros s.
      replace (fun x => mx y z x + s * mx v u x) with (mx (fun x => y x + s * v x) (fun x => z x + s * u x))
        by (apply functional_extensionality; intros x; unfold mix; ring).
      rewrite L. reflexivity.
  Qed.

  Context {J C : Type}.
  Lemma mix_prod (m : term I J C) t y z c : superposing a b m -> t_vf_prod m t (mx y z) c = mx (t_vf_prod m t y c) (t_vf_prod m t z c).
  Proof.
    intros (H1 & H2).
    assert (E : forall u, t_vf_prod m t u c = t_prod m (t_vf m t u) c) by (intros u; apply functional_extensionality; intros x; apply H1).
    rewrite !E. apply H2.
  Qed.
  Lemma prod_add (m : term I J C) f g c : linear_term m -> t_prod m (vadd f g) c = vadd (t_prod m f c) (t_prod m g c).
  Proof.
    intros L. apply functional_extensionality. intros x. replace (vadd f g) with (fun j => 1 * f j + 1 * g j) by (apply functional_extensionality; intros j; unfold vadd; ring).
    rewrite L. unfold vadd. ring.
  Qed.
  Lemma prod_delta (m : term I J C) f g r c : linear_term m -> t_prod m (vscale r (vsub f g)) c = vscale r (vsub (t_prod m f c) (t_prod m g c)).
  Proof.
    intros L. apply functional_extensionality. intros x.
    replace (vscale r (vsub f g)) with (fun j => r * f j + (- r) * g j) by (apply functional_extensionality; intros j; unfold vsub, vscale; ring).
    rewrite L. unfold vsub, vscale. ring.
  Qed.
End Mix.

Section Stages.
  Context {I J J' K : Type}.
  Variables a b : R.
  Notation Y := (I -> R).
  Notation mx := (mix a b).
  Notation mixes := (all3 (fun u v w : Y => w = mx u v)).
  Lemma set_nth_mix {T : Type} (P : T -> T -> T -> Prop) i x y z l m n : P x y z -> all3 P l m n -> all3 P (set_nth i x l) (set_nth i y m) (set_nth i z n).
  Proof.
    intros H. revert i m n. induction l as [|u l IH]; intros i [|v m] [|w n] A; cbn in A; try contradiction; [destruct i; exact Logic.I|].
    destruct i; cbn; [tauto|]. split; [tauto|]. apply IH. tauto.
  Qed.
  Lemma repeat_mix {A : Type} (P : A -> A -> A -> Prop) x y z n : P x y z -> all3 P (repeat x n) (repeat y n) (repeat z n).
  Proof. intros H. induction n; cbn; auto. Qed.
  Lemma map_mix {A B : Type} (P : B -> B -> B -> Prop) (f g h : A -> B) l : (forall x, P (f x) (g x) (h x)) -> all3 P (map f l) (map g l) (map h l).
  Proof. intros H. induction l; cbn; auto. Qed.
  Lemma stages_mix l m n c : mixes l m n -> sum_prev_stages n c = mx (sum_prev_stages l c) (sum_prev_stages m c).
  Proof.
    revert m n c. induction l as [|u l IH]; intros [|v m] [|w n] [|r c] A; cbn in A; try contradiction; try apply mix_zero. destruct A as (-> & A). cbn [sum_prev_stages].
    rewrite (IH _ _ c A), mix_scale, mix_add. reflexivity.
  Qed.
  Lemma levy_mix l m n c : mixes l m n -> levy_sum c n = mx (levy_sum c l) (levy_sum c m).
  Proof.
    revert m n c. induction l as [|u l IH]; intros [|v m] [|w n] [|r c] A; cbn in A; try contradiction; try apply mix_zero. destruct A as (-> & A). cbn [levy_sum].
    rewrite (IH _ _ c A), mix_scale, mix_add. reflexivity.
  Qed.
  Lemma fold_mix l m n u v : mixes l m n -> fold_left vadd n (mx u v) = mx (fold_left vadd l u) (fold_left vadd m v).
  Proof.
    revert m n u v. induction l as [|x l IH]; intros [|y m] [|z n] u v A; cbn in A; try contradiction; [reflexivity|]. destruct A as (-> & A).
    cbn [fold_left]. rewrite mix_add. apply IH, A.
  Qed.
  Lemma map2_mix {T B D : Type} (P : B -> B -> B -> Prop) (Q : D -> D -> D -> Prop) (f : T -> B -> D) cs l m n :
    (forall c x y z, P x y z -> Q (f c x) (f c y) (f c z)) -> all3 P l m n -> all3 Q (map2 f cs l) (map2 f cs m) (map2 f cs n).
  Proof.
    intros H. revert l m n. induction cs as [|c cs IH]; intros [|x l] [|y m] [|z n] A; cbn in *; try contradiction; auto. destruct A. split; [apply H|apply IH]; assumption.
  Qed.
  Lemma map2_mix' {T B D : Type} (P : B -> B -> B -> Prop) (Q : D -> D -> D -> Prop) (f g h : T -> B -> D) cs l m n :
    (forall c x y z, P x y z -> Q (f c x) (g c y) (h c z)) -> all3 P l m n -> all3 Q (map2 f cs l) (map2 g cs m) (map2 h cs n).
  Proof.
    intros H. revert l m n. induction cs as [|c cs IH]; intros [|x l] [|y m] [|z n] A; cbn in *; try contradiction; auto. destruct A. split; [apply H|apply IH]; assumption.
  Qed.

  Context (tab : stableau) (drift : term I J R) (diffusion : term I J' (K -> R)) (levy : R -> R -> bm_inc K) (t0 t1 : R) (y z : Y).
  Hypothesis CD : superposing a b drift.
  Hypothesis CG : superposing a b diffusion.
  Lemma insert_mix h1 h2 h3 u v j : mixes h1 h2 h3 -> mixes (insert_kf tab drift t0 t1 h1 u j) (insert_kf tab drift t0 t1 h2 v j) (insert_kf tab drift t0 t1 h3 (mx u v) j).
  Proof. intros H. unfold insert_kf. destruct (ignored _ j); [exact H|]. apply set_nth_mix; [apply mix_prod, CD|exact H]. Qed.
  Lemma zeros_mix : mixes (make_zeros tab) (make_zeros tab) (make_zeros tab).
  Proof. apply (repeat_mix (fun u v w : Y => w = mx u v)), mix_zero. Qed.
  Lemma finish_mix h1 h2 h3 d1 d2 d3 e1 e2 e3 : mixes h1 h2 h3 -> d3 = mx d1 d2 ->
    so_y (srk_finish tab (mx y z) h3 d3 e3) = mx (so_y (srk_finish tab y h1 d1 e1)) (so_y (srk_finish tab z h2 d2 e2)).
  Proof. intros H ->. cbn [srk_finish so_y]. rewrite (stages_mix h1 h2 h3 _ H), !mix_add. reflexivity. Qed.

  Lemma general_mix : so_y (general_step tab drift diffusion levy t0 t1 (mx y z)) = mx (so_y (general_step tab drift diffusion levy t0 t1 y)) (so_y (general_step tab drift diffusion levy t0 t1 z)).
  Proof.
    unfold general_step.
    assert (G : forall js c1 c2 c3, mixes (fst (fst c1)) (fst (fst c2)) (fst (fst c3)) -> mixes (snd (fst c1)) (snd (fst c2)) (snd (fst c3)) -> all3 mixes (snd c1) (snd c2) (snd c3) ->
      let o1 := fold_left (general_stage tab drift diffusion levy t0 t1 y) js c1 in
      let o2 := fold_left (general_stage tab drift diffusion levy t0 t1 z) js c2 in
      let o3 := fold_left (general_stage tab drift diffusion levy t0 t1 (mx y z)) js c3 in
      mixes (fst (fst o1)) (fst (fst o2)) (fst (fst o3)) /\ mixes (snd (fst o1)) (snd (fst o2)) (snd (fst o3)) /\ all3 mixes (snd o1) (snd o2) (snd o3)).
    { induction js as [|j js IH]; intros ((h1 & k1) & l1) ((h2 & k2) & l2) ((h3 & k3) & l3) A B D; cbn [fst snd fold_left] in *; [auto|].
      set (zj := fun (y0 : Y) (h k : list Y) l => vadd (vadd y0 (drift_sum tab h j))
        (fold_left vadd (map2 (fun c g => sum_prev_stages g (nth j (rembed_a_lower (general_a c)) [])) (st_coeffs_levy tab) l)
           (sum_prev_stages k (nth j (rembed_a_lower (general_a (st_coeffs_w tab))) [])))).
      assert (ZM : zj (mx y z) h3 k3 l3 = mx (zj y h1 k1 l1) (zj z h2 k2 l2)).
      { unfold zj, drift_sum. rewrite (stages_mix h1 h2 h3 _ A), (stages_mix k1 k2 k3 _ B).
        rewrite (fold_mix (map2 (fun c g => sum_prev_stages g (nth j (rembed_a_lower (general_a c)) [])) (st_coeffs_levy tab) l1)
                          (map2 (fun c g => sum_prev_stages g (nth j (rembed_a_lower (general_a c)) [])) (st_coeffs_levy tab) l2)), !mix_add; [reflexivity|].
        apply (map2_mix mixes); [|exact D]. intros c u v w. apply stages_mix. }
      apply IH; clear IH; unfold general_stage; cbv zeta; fold (zj y h1 k1 l1) (zj z h2 k2 l2) (zj (mx y z) h3 k3 l3);
        destruct (ignored (st_ignore_stage_g tab) j); cbn [fst snd]; auto; rewrite ?ZM.
      - apply insert_mix, A.
      - apply insert_mix, A.
      - apply set_nth_mix; [apply mix_prod, CG|exact B].
      - apply (map2_mix' mixes); [|exact D]. intros c u v w H. apply set_nth_mix; [apply mix_prod, CG|exact H]. }
    set (c0 := (make_zeros tab, make_zeros tab, map (fun _ => make_zeros tab) (st_coeffs_levy tab))).
    specialize (G (seq 0 (st_n tab)) c0 c0 c0 zeros_mix zeros_mix). cbn [fst snd] in G. cbv zeta in G.
    specialize (G (map_mix mixes _ _ _ _ (fun _ => zeros_mix))).
    destruct (fold_left (general_stage tab drift diffusion levy t0 t1 y) _ _) as ((h1 & k1) & l1).
    destruct (fold_left (general_stage tab drift diffusion levy t0 t1 z) _ _) as ((h2 & k2) & l2).
    destruct (fold_left (general_stage tab drift diffusion levy t0 t1 (mx y z)) _ _) as ((h3 & k3) & l3). cbn [fst snd] in G. destruct G as (A & B & D).
    apply finish_mix; [exact A|]. rewrite (stages_mix k1 k2 k3 _ B). apply fold_mix. apply (map2_mix mixes); [|exact D]. intros c u v w. apply stages_mix.
  Qed.

  Lemma additive_mix : linear_term diffusion ->
    so_y (additive_step tab drift diffusion levy t0 t1 (mx y z)) = mx (so_y (additive_step tab drift diffusion levy t0 t1 y)) (so_y (additive_step tab drift diffusion levy t0 t1 z)).
  Proof.
    intros L. unfold additive_step.
    assert (W : w_kg0 diffusion levy t0 t1 (mx y z) = mx (w_kg0 diffusion levy t0 t1 y) (w_kg0 diffusion levy t0 t1 z)) by (unfold w_kg0, g0; apply CG).
    assert (LV : mixes (levy_kg0 tab diffusion levy t0 t1 y) (levy_kg0 tab diffusion levy t0 t1 z) (levy_kg0 tab diffusion levy t0 t1 (mx y z))).
    { unfold levy_kg0, g0. destruct (st_coeffs_hh tab), (st_coeffs_kk tab); cbn [app all3]; repeat split; apply CG. }
    assert (AL : forall r c, add_levy_to_w r c (w_kg0 diffusion levy t0 t1 (mx y z)) (levy_kg0 tab diffusion levy t0 t1 (mx y z)) =
      mx (add_levy_to_w r c (w_kg0 diffusion levy t0 t1 y) (levy_kg0 tab diffusion levy t0 t1 y)) (add_levy_to_w r c (w_kg0 diffusion levy t0 t1 z) (levy_kg0 tab diffusion levy t0 t1 z))).
    { intros r c. unfold add_levy_to_w. rewrite W, (levy_mix _ _ _ c LV), mix_scale, mix_add. reflexivity. }
    assert (TV : forall c, t_prod diffusion (g_delta diffusion t0 t1 (mx y z)) c = mx (t_prod diffusion (g_delta diffusion t0 t1 y) c) (t_prod diffusion (g_delta diffusion t0 t1 z) c)).
    { intros c. unfold g_delta, g0. rewrite !prod_delta by exact L. destruct CG as (_ & H). rewrite !H, mix_sub, mix_scale. reflexivity. }
    assert (G : forall js h1 h2 h3, mixes h1 h2 h3 -> mixes (fold_left (additive_stage tab drift diffusion levy t0 t1 y) js h1)
      (fold_left (additive_stage tab drift diffusion levy t0 t1 z) js h2) (fold_left (additive_stage tab drift diffusion levy t0 t1 (mx y z)) js h3)).
    { induction js as [|j js IH]; intros h1 h2 h3 A; cbn [fold_left]; [exact A|]. apply IH. unfold additive_stage. cbv zeta.
      unfold drift_sum. rewrite AL, (stages_mix h1 h2 h3 _ A), !mix_add. apply insert_mix, A. }
    apply finish_mix; [apply G, zeros_mix|]. rewrite AL. destruct (st_coeffs_hh tab); rewrite TV, mix_add; reflexivity.
  Qed.
End Stages.

Section Methods.
  Context {I : Type}.
  Variables a b : R.
  Notation Y := (I -> R).
  Notation mx := (mix a b).

  Lemma memoryless_mix (me : method Y unit (Y * Y)) :
    (forall t0 t1 y s j, so_dense (me_step me t0 t1 y s j) = (y, so_y (me_step me t0 t1 y s j)) /\ so_result (me_step me t0 t1 y s j) = successful) ->
    (forall t0 t1 y z s j, so_y (me_step me t0 t1 (mx y z) s j) = mx (so_y (me_step me t0 t1 y s j)) (so_y (me_step me t0 t1 z s j))) -> method_superposes a b me.
  Proof.
    intros D H. exists (fun _ _ _ => True). split; [auto|]. intros t0 t1 y z [] [] [] j _. cbv zeta.
    destruct (D t0 t1 y tt j) as (A1 & B1). destruct (D t0 t1 z tt j) as (A2 & B2). destruct (D t0 t1 (mx y z) tt j) as (A3 & B3).
    rewrite A1, A2, A3, B1, B2, B3. cbn [fst snd]. rewrite H. auto 10.
  Qed.

  Lemma pf_C81_euler (J C : Type) (trm : term I J C) : superposing a b trm -> method_superposes a b (euler trm).
  Proof.
    intros H. apply memoryless_mix; [split; reflexivity|]. intros t0 t1 y z s j. cbn [euler me_step so_y]. rewrite mix_prod, mix_add by exact H. reflexivity.
  Qed.
  Lemma pf_C81_euler_heun (J C J' C' : Type) (drift : term I J C) (diffusion : term I J' C') :
    superposing a b drift -> superposing a b diffusion -> method_superposes a b (euler_heun drift diffusion).
  Proof.
    intros H H'. apply memoryless_mix; [split; reflexivity|]. intros t0 t1 y z s j. cbn [euler_heun me_step so_y].
    rewrite (mix_prod a b drift), (mix_prod a b diffusion t0 y z), !mix_add, (mix_prod a b diffusion), !mix_add, mix_scale, mix_add by assumption. reflexivity.
  Qed.
  Lemma pf_C81_leapfrog (J C : Type) (trm : term I J C) : superposing a b trm -> method_superposes a b (leapfrog_midpoint trm).
  Proof.
    intros H. exists (fun s1 s2 s3 => fst s1 = fst s3 /\ fst s2 = fst s3 /\ snd s3 = mx (snd s1) (snd s2)). split; [intros; repeat split|].
    intros t0 t1 y z (u1, v1) (u2, v2) (u3, v3) j (A & B & D). cbn [fst snd] in A, B, D. subst. cbn [leapfrog_midpoint me_step so_y so_state so_dense so_result fst snd].
    rewrite mix_prod, mix_add by exact H. repeat split.
  Qed.
  Lemma pf_C81_reversible_heun (J C : Type) (trm : term I J C) : superposing a b trm -> linear_term trm -> method_superposes a b (reversible_heun trm).
  Proof.
    intros (HC & H) L. exists (fun s1 s2 s3 => fst s3 = mx (fst s1) (fst s2) /\ forall c, t_prod trm (snd s3) c = mx (t_prod trm (snd s1) c) (t_prod trm (snd s2) c)).
    split; [split; [reflexivity|intros c; apply H]|].
    intros t0 t1 y z (u1, v1) (u2, v2) (u3, v3) j (A & B). cbn [fst snd] in A, B. subst u3. cbn [reversible_heun me_step so_y so_state so_dense so_result fst snd].
    set (f1 := if j then t_vf trm t0 y else v1). set (f2 := if j then t_vf trm t0 z else v2). set (f3 := if j then t_vf trm t0 (mx y z) else v3).
    assert (FJ : forall c, t_prod trm f3 c = mx (t_prod trm f1 c) (t_prod trm f2 c)) by (intros c; unfold f1, f2, f3; destruct j; [apply H|apply B]).
    rewrite (FJ (t_contr trm t0 t1)), (mix_scale a b 2 y z), (mix_sub a b), (mix_add a b (vsub (vscale 2 y) u1)).
    rewrite !(prod_add trm) by exact L. rewrite FJ, H, !mix_add, mix_scale, mix_add. repeat split. intros c. apply H.
  Qed.
  Lemma pf_C81_srk (J J' K : Type) (tab : stableau) (drift : term I J R) (diffusion : term I J' (K -> R)) (levy : R -> R -> bm_inc K) :
    superposing a b drift -> superposing a b diffusion -> is_additive_noise tab = false \/ linear_term diffusion -> method_superposes a b (srk tab drift diffusion levy).
  Proof.
    intros H H' HA. apply memoryless_mix.
    - intros t0 t1 y s j. cbn [srk me_step]. unfold srk_step. destruct (is_additive_noise tab); [split; reflexivity|].
      unfold general_step. destruct (fold_left _ _ _) as ((? & ?) & ?). split; reflexivity.
    - intros t0 t1 y z s j. cbn [srk me_step]. unfold srk_step. destruct (is_additive_noise tab) eqn:E.
      + destruct HA as [HA|HA]; [discriminate|]. apply additive_mix; assumption.
      + apply general_mix; assumption.
  Qed.
  Lemma pf_C81_stratonovich_milstein (J C J' C' : Type) (jvp : (Y -> Y) -> Y -> Y -> Y) (drift : term I J C) (diffusion : term I J' C') :
    correct_jvp jvp -> (forall t c y v, exists d, directional (fun z => t_vf_prod diffusion t z c) y v d) ->
    superposing a b drift -> superposing a b diffusion -> method_superposes a b (stratonovich_milstein jvp drift diffusion).
  Proof.
    intros HJ HD H H'. apply memoryless_mix; [split; reflexivity|]. intros t0 t1 y z s j. cbn [stratonovich_milstein me_step so_y].
    set (dw := t_contr diffusion t0 t1). set (g := fun y0 => t_vf_prod diffusion t0 y0 dw).
    change (t_vf_prod diffusion t0 (mx y z) dw) with (g (mx y z)). change (t_vf_prod diffusion t0 y dw) with (g y). change (t_vf_prod diffusion t0 z dw) with (g z).
    assert (L : forall y z, g (mx y z) = mx (g y) (g z)) by (intros; apply mix_prod, H').
    assert (JV : jvp g (mx y z) (g (mx y z)) = mx (jvp g y (g y)) (jvp g z (g z))).
    { destruct (HD t0 dw y (g y)) as (d1 & D1). destruct (HD t0 dw z (g z)) as (d2 & D2). destruct (HD t0 dw (mx y z) (g (mx y z))) as (d3 & D3).
      fold g in D1, D2, D3. rewrite (HJ _ _ _ _ D1), (HJ _ _ _ _ D2), (HJ _ _ _ _ D3). rewrite L in D3. exact (mix_directional a b g y z _ _ d1 d2 d3 L D1 D2 D3). }
    rewrite JV, L, (mix_prod a b drift), !mix_add, mix_scale, mix_add by exact H. reflexivity.
  Qed.
  Lemma pf_C81_ito_milstein (J K : Type) (eqb : K -> K -> bool) (ks : list K) (jvp : (Y -> I * K -> R) -> Y -> Y -> I * K -> R) (drift : term I J R)
        (g : R -> Y -> I * K -> R) (path : R -> R -> K -> R) :
    correct_jvp jvp -> (forall t y v, exists d, directional (g t) y v d) ->
    superposing a b drift -> superposing a b (control_term ks g path) -> method_superposes a b (ito_milstein eqb ks jvp drift (control_term ks g path)).
  Proof.
    intros HJ HD H (_ & H'). apply memoryless_mix; [split; reflexivity|]. intros t0 t1 y z s j. cbn [ito_milstein me_step so_y].
    cbn [control_term with_default_vf_prod t_vf t_prod t_contr] in *. change (fun y0 : I -> R => g t0 y0) with (g t0).
    assert (JV : forall k1 k2, contract ks (jvp (g t0) (mx y z) (contract ks (g t0 (mx y z)) (unit_control eqb k1))) (unit_control eqb k2) =
      mx (contract ks (jvp (g t0) y (contract ks (g t0 y) (unit_control eqb k1))) (unit_control eqb k2))
         (contract ks (jvp (g t0) z (contract ks (g t0 z) (unit_control eqb k1))) (unit_control eqb k2))).
    { intros k1 k2. rewrite H'. set (v := contract ks (g t0 y) (unit_control eqb k1)). set (u := contract ks (g t0 z) (unit_control eqb k1)).
      destruct (HD t0 y v) as (d1 & D1). destruct (HD t0 z u) as (d2 & D2). destruct (HD t0 (mx y z) (mx v u)) as (d3 & D3).
      rewrite (HJ _ _ _ _ D1), (HJ _ _ _ _ D2), (HJ _ _ _ _ D3).
      apply (mix_directional a b (fun x => contract ks (g t0 x) (unit_control eqb k2)) y z v u); try (apply contract_directional; assumption). intros; apply H'. }
    rewrite (mix_prod a b drift), H' by exact H. rewrite !mix_add.
    match goal with |- vadd _ (vscale _ ?w) = mix a b (vadd _ (vscale _ ?u)) (vadd _ (vscale _ ?v)) => assert (E : w = mx u v) end.
    { apply (mix_over a b ks (fun k1 x => sum_over ks (fun k2 => _)) (fun k1 x => sum_over ks (fun k2 => _)) (fun k1 x => sum_over ks (fun k2 => _))). intros k1.
      apply (mix_over a b ks (fun k2 x => _ * _) (fun k2 x => _ * _) (fun k2 x => _ * _)). intros k2. rewrite JV. apply functional_extensionality. intros x. unfold mix. ring. }
    rewrite E, mix_scale, mix_add. reflexivity.
  Qed.
  Lemma pf_C81_half (SS : Type) (me : method Y SS (Y * Y)) : method_superposes a b me -> method_superposes a b (half_solver me).
  Proof.
    intros (good & G0 & G). exists good. split; [exact G0|]. intros t0 t1 y z s1 s2 s3 j Hs. cbn [half_solver me_step so_y so_state so_dense so_result].
    set (h := t0 + 1 / 2 * (t1 - t0)).
    destruct (G t0 h y z s1 s2 s3 j Hs) as (A & B & _ & _ & R1 & R2). cbv zeta in *. rewrite A.
    destruct (G h t1 (so_y (me_step me t0 h y s1 j)) (so_y (me_step me t0 h z s2 j)) _ _ _ false B) as (A' & B' & _ & _ & R1' & R2'). cbv zeta in *.
    destruct (G t0 t1 y z s1 s2 s3 j Hs) as (_ & _ & D & D' & R1'' & R2''). cbv zeta in *.
    split; [exact A'|]. split; [exact B'|]. split; [exact D|]. split; [exact D'|]. rewrite R1, R2, R1', R2', R1'', R2''. split; reflexivity.
  Qed.
End Methods.

Section Whole.
  Context {I SS CS V MS : Type}.
  Notation Y := (I -> R).
  Notation DI := (Y * Y)%type.
  Notation config := (config Y SS CS DI (option Y) V MS).
  Notation initial := (initial Y SS CS MS).
  Notation outcome := (outcome Y SS CS DI V MS).

  Lemma pf_C81_methods (a b : R) (c : config) (i1 i2 i3 : initial) (me : method Y SS DI) (time : Z -> R) (RV : V -> V -> V -> Prop) (o1 : outcome) :
    method_solve c i1 me time -> method_solve c i2 me time -> method_solve c i3 me time ->
    method_superposes a b me -> value_free c -> cfg_event c = None ->
    (forall sub t y z, In sub (cfg_subs c) -> RV (sub_fn sub t y) (sub_fn sub t z) (sub_fn sub t (mix a b y z))) ->
    in_y i3 = mix a b (in_y i1) (in_y i2) ->
    (forall i, In i [i1; i2] -> in_tnext i = in_tnext i3 /\ in_made_jump i = in_made_jump i3 /\ in_controller_state i = in_controller_state i3 /\ in_pad i = in_pad i3) ->
    solves c i1 o1 ->
    exists o2 o3, solves c i2 o2 /\ solves c i3 o3 /\ outcomes_mix a b RV c o1 o2 o3.
  Proof.
    intros (E1 & E2 & I1) (_ & _ & I2) (_ & _ & I3) (good & G0 & STEP) VF NE HV Q0 Q S1.
    destruct (Q i1 (or_introl eq_refl)) as (T1 & J1 & C1 & P1). destruct (Q i2 (or_intror (or_introl eq_refl))) as (T2 & J2 & C2 & P2).
    assert (G : good (in_solver_state i1) (in_solver_state i2) (in_solver_state i3)) by (rewrite I1, I2, I3, T1, T2, Q0; apply G0).
    clear G0 I1 I2 I3.
    destruct (pf_C76_related (fun u p => u = fst p) (fun st p => st = fst p /\ exists st3, good (fst p) (snd p) st3) eq (fun d p => d = fst p)
                (fun _ _ => True) (fun v p => v = fst p) c (pair_config c) i1 (pair_start i1 i2) o1) as (op & SOP & OR1); [| |exact S1|].
    { split; [|split; [|split; [|split; [reflexivity|split; [reflexivity|split; [|split; [reflexivity|split; [|split; [reflexivity|split; reflexivity]]]]]]]]].
      - intros t0 t1 y (y', z) st (st1, st2) j A (B & st3 & A1). cbn [fst snd] in A, B, A1. subst y' st1. cbn [pair_config solver_step so_y so_error so_dense so_state so_result fst snd].
        rewrite E1. destruct (STEP (time t0) (time t1) y z st st2 st3 j A1) as (_ & GS & _).
        split; [reflexivity|]. split; [exact Logic.I|]. split; [reflexivity|]. split; [split; [reflexivity|eexists; exact GS]|]. reflexivity.
      - intros t0 t1 d (d', ?) t A. cbn [fst] in A. subst d'. reflexivity.
      - intros t0 t1 y y' y1 y1' e e' cs cs' A1 A2 _ <-. cbn [pair_config adapt].
        rewrite (VF t0 t1 (fst y') y (fst y1') y1 e' e cs). repeat (split; [reflexivity|]). reflexivity.
      - cbn [pair_config cfg_subs]. clear -c. induction (cfg_subs c) as [|sub l IH]; constructor; [|exact IH].
        repeat (split; [reflexivity|]). intros t y (y', ?) A. cbn [fst] in A. subst y'. reflexivity.
      - cbn [pair_config cfg_event]. rewrite NE. exact Logic.I. }
    { repeat (split; [reflexivity|]). split; [split; [reflexivity|eexists; exact G]|]. split; reflexivity. }
    destruct (pf_C76_related (fun p u => u = snd p) (fun p st => st = snd p /\ exists st3, good (fst p) (snd p) st3) eq (fun p d => d = snd p)
                (fun _ _ => True) (fun p v => v = snd p) (pair_config c) c (pair_start i1 i2) i2 op) as (o2 & S2 & OR2); [| |exact SOP|].
    { split; [|split; [|split; [|split; [reflexivity|split; [reflexivity|split; [|split; [reflexivity|split; [|split; [reflexivity|split; reflexivity]]]]]]]]].
      - intros t0 t1 (y, z') z (st1, st2') st2 j A (B & st3 & A1). cbn [fst snd] in A, B, A1. subst z' st2'. cbn [pair_config solver_step so_y so_error so_dense so_state so_result fst snd].
        rewrite E1. destruct (STEP (time t0) (time t1) y z st1 st2 st3 j A1) as (_ & GS & _ & _ & R1 & R2).
        split; [reflexivity|]. split; [exact Logic.I|]. split; [reflexivity|]. split; [split; [reflexivity|eexists; exact GS]|]. congruence.
      - intros t0 t1 (?, d') d t A. cbn [snd] in A. subst d'. reflexivity.
      - intros t0 t1 y y' y1 y1' e e' cs cs' A1 A2 _ <-. cbn [pair_config adapt].
        rewrite (VF t0 t1 (fst y) y' (fst y1) y1' e e' cs). repeat (split; [reflexivity|]). reflexivity.
      - cbn [pair_config cfg_subs]. clear -c. induction (cfg_subs c) as [|sub l IH]; constructor; [|exact IH].
        repeat (split; [reflexivity|]). intros t (?, y') y A. cbn [snd] in A. subst y'. reflexivity.
      - cbn [pair_config cfg_event]. rewrite NE. exact Logic.I. }
    { split; [reflexivity|]. split; [cbn; congruence|]. split; [cbn; congruence|].
      split; [split; [reflexivity|eexists; exact G]|]. split; cbn; congruence. }
    destruct (pf_C76_related (fun p u => u = mix a b (fst p) (snd p)) (fun p st => good (fst p) (snd p) st) eq
                (fun p d => fst d = mix a b (fst (fst p)) (fst (snd p)) /\ snd d = mix a b (snd (fst p)) (snd (snd p)))
                (fun _ _ => True) (fun p v => RV (fst p) (snd p) v) (pair_config c) c (pair_start i1 i2) i3 op) as (o3 & S3 & OR3); [| |exact SOP|].
    { split; [|split; [|split; [|split; [reflexivity|split; [reflexivity|split; [|split; [reflexivity|split; [|split; [reflexivity|split; reflexivity]]]]]]]]].
      - intros t0 t1 (y, z) u (st1, st2) st3 j A A1. cbn [fst snd] in A, A1. subst u. cbn [pair_config solver_step so_y so_error so_dense so_state so_result fst snd].
        rewrite E1. destruct (STEP (time t0) (time t1) y z st1 st2 st3 j A1) as (T & GS & D & D' & R1 & R2).
        split; [exact T|]. split; [exact Logic.I|]. split; [split; assumption|]. split; [exact GS|]. exact R1.
      - intros t0 t1 ((u1, v1), (u2, v2)) (u3, v3) t (A & A'). cbn [fst snd] in A, A'. subst. cbn [pair_config interpolate fst snd]. rewrite E2.
        apply functional_extensionality. intros x. unfold mix, local_linear. cbn [fst snd]. ring.
      - intros t0 t1 y y' y1 y1' e e' cs cs' A1 A2 _ <-. cbn [pair_config adapt].
        rewrite (VF t0 t1 (fst y) y' (fst y1) y1' e e' cs). repeat (split; [reflexivity|]). reflexivity.
      - cbn [pair_config cfg_subs]. clear -HV. induction (cfg_subs c) as [|sub l IH]; constructor; [|apply IH; intros; apply HV; right; assumption].
        repeat (split; [reflexivity|]). intros t (y, z) u A. cbn [fst snd] in A. subst u. apply HV. left. reflexivity.
      - cbn [pair_config cfg_event]. rewrite NE. exact Logic.I. }
    { split; [exact Q0|]. split; [cbn; congruence|]. split; [cbn; congruence|]. split; [exact G|]. split; cbn; congruence. }
    exists o2, o3. split; [exact S2|]. split; [exact S3|]. clear T1 J1 C1 P1 T2 J2 C2 P2.
    destruct OR1 as (T1 & Y1 & R1 & V1 & N1 & _ & _ & DT1 & DD1 & _). destruct OR2 as (T2 & Y2 & R2 & V2 & N2 & _ & _ & DT2 & DD2 & _).
    destruct OR3 as (T3 & Y3 & R3 & V3 & N3 & _ & _ & DT3 & DD3 & _).
    assert (FL : forall A B (P : A -> B -> Prop) l l', Forall2 P l l' -> Forall2 (fun x y => P y x) l' l) by (intros A B P l l' H; induction H; constructor; auto).
    split; [rewrite Y3, <- Y1, <- Y2; reflexivity|]. split; [|split].
    - refine (all3_of _ _ _ _ _ _ (FL _ _ _ _ _ V1) V2 V3). cbv beta. intros x p q r (P1 & P2) (P3 & P4) (P5 & P6). split; [congruence|]. split; [congruence|].
      refine (all3_of _ _ _ _ _ _ (FL _ _ _ _ _ P2) P4 P6). cbv beta. intros [(v1, v2)|] [u1|] [u2|] [u3|] H1 H2 H3; cbn in *; try contradiction; [|exact Logic.I]. subst. exact H3.
    - refine (all3_of _ _ _ _ _ _ (FL _ _ _ _ _ DD1) DD2 DD3). cbv beta. intros [(v1, v2)|] [u1|] [u2|] [u3|] H1 H2 H3; cbn in *; try contradiction; [|exact Logic.I]. subst.
      destruct H3 as (A & A'). intros t0 t1 t. rewrite E2, A, A'. apply functional_extensionality. intros x. unfold mix, local_linear. ring.
    - intros o [<-|[<-|[]]]; repeat split; congruence.
  Qed.
End Whole.
