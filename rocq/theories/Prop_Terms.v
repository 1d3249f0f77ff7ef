(** Theorems about terms: C47. *)
From Coq Require Import ZArith Reals QArith List Bool Arith Lia Lra.
From Verif Require Import Model_Result Model_RK Model_Tableaus Model_Terms Spec_RK Spec_Terms Proof_Terms Ex_RK.
Import ListNotations.
Open Scope R_scope.

Section Theorems.
  Context {I : Type}.
  Notation Y := (I -> R).

  (** C47: [ODETerm] and [ControlTerm] are bilinear, and their increments add. *)
  Theorem C47_ode_term :
    forall (f : R -> Y -> Y),
    consistent_term (ode_term f) /\ linear_term (ode_term f) /\
    linear_control Rplus Rmult (ode_term f) /\ additive_term (ode_term f) /\
    (forall t y t0 t1 x, t_vf_prod (ode_term f) t y (t_contr (ode_term f) t0 t1) x = (t1 - t0) * f t y x).
  Proof. exact pf_C47_ode_term. Qed.
  Theorem C47_control_term :
    forall (K : Type) (k0 : K) (ks : list K) (f : R -> Y -> (I * K -> R)) (X : R -> K -> R),
    let trm := control_term ks f (increments X) in
    consistent_term trm /\ linear_term trm /\
    linear_control (fun u v k => u k + v k) (fun a u k => a * u k) trm /\ additive_term trm /\
    (forall t y t0 t1 x, t_vf_prod trm t y (t_contr trm t0 t1) x
       = sum_n (length ks) (fun m => f t y (x, nth m ks k0) * (X t1 (nth m ks k0) - X t0 (nth m ks k0)))).
  Proof. exact pf_C47_control_term. Qed.
  (** C47: [MultiTerm] is the sum of its parts. *)
  Section Multi.
    Context {J C : Type}.
    Notation term := (term I J C).
  Theorem C47_multi_term :
    forall (terms : list term) (controls : list C) t y x,
    length controls = length terms -> (forall trm, In trm terms -> consistent_term trm) ->
      t_vf_prod (multi_term terms) t y controls x = sum_n (length terms) (fun m => contribution terms controls t y m x) /\
      t_prod (multi_term terms) (t_vf (multi_term terms) t y) controls x
      = sum_n (length terms) (fun m => contribution terms controls t y m x).
  Proof. exact pf_C47_multi_term. Qed.
  Theorem C47_multi_contr :
    forall (terms : list term) t0 t1,
    length (t_contr (multi_term terms) t0 t1) = length terms /\
      forall m, nth_error (t_contr (multi_term terms) t0 t1) m
                = match nth_error terms m with Some trm => Some (t_contr trm t0 t1) | None => None end.
  Proof. exact pf_C47_multi_contr. Qed.
  End Multi.
  Theorem C47_multi_bilinear :
    forall (J C : Type) (terms : list (term I J C)),
    ((forall trm, In trm terms -> consistent_term trm) -> consistent_term (multi_term terms)) /\
    ((forall trm, In trm terms -> linear_term trm) -> linear_term (multi_term terms)) /\
    ((forall trm, In trm terms -> additive_term trm) -> additive_term (multi_term terms)).
  Proof. exact pf_C47_multi_bilinear. Qed.
  Theorem C47_mixed_terms :
    forall (J C J' C' : Type) (u : term I J C) (v : term I J' C'),
    consistent_term u -> linear_term u -> consistent_term v -> linear_term v ->
    let trm := multi_term [left_term (J' := J') (C' := C') u; right_term (J := J) (C := C) v] in
    consistent_term trm /\ linear_term trm /\
    forall t y t0 t1 x,
      t_vf_prod trm t y (t_contr trm t0 t1) x
      = t_prod u (t_vf u t y) (t_contr u t0 t1) x + t_prod v (t_vf v t y) (t_contr v t0 t1) x.
  Proof. exact pf_C47_mixed_terms. Qed.
  (** C47: [WrapTerm] reverses time. *)
  Theorem C47_wrap_twice :
    forall (J C : Type) (scale : R -> C -> C) (direction : Z) (trm : term I J C),
    direction = 1%Z \/ direction = (-1)%Z ->
    (forall c, scale 1 c = c) -> (forall a b c, scale a (scale b c) = scale (a * b) c) ->
    same_term (wrap_term scale direction (wrap_term scale direction trm)) trm.
  Proof. exact pf_C47_wrap_twice. Qed.
  Theorem C47_wrap_reflects :
    forall (K : Type) (ks : list K) (f : R -> Y -> (I * K -> R)) (X : R -> K -> R),
    same_term (wrap_term (fun a u k => a * u k) (-1) (control_term ks f (increments X)))
      (control_term ks (fun s => f (- s)) (increments (fun s => X (- s)))) /\
    same_term (wrap_term (fun a u k => a * u k) 1 (control_term ks f (increments X)))
      (control_term ks f (increments X)).
  Proof. exact pf_C47_wrap_reflects. Qed.
  Theorem C47_wrap_ode :
    forall (f : R -> Y -> Y) t y t0 t1 x,
    let u := wrap_term Rmult (-1) (ode_term f) in
    let v := ode_term (fun s y x => - f (- s) y x) in
    t_vf_prod u t y (t_contr u t0 t1) x = t_vf_prod v t y (t_contr v t0 t1) x.
  Proof. exact pf_C47_wrap_ode. Qed.

  (** C47: steps of any explicit Runge--Kutta solver.  Combining ODEs; combining terms of any kind, as
      one term or in an additive method; turning a controlled equation into an ODE; going backwards. *)
  Theorem C47_multi_of_odes :
    forall (fs : list (R -> Y -> Y)) (sv : solver I (nat * I) (list R)) (sv' : solver I I R) tab t0 t1 y0 others others' state state' made_jump made_jump',
    good_explicit tab -> sv_parts sv = [(tab, multi_term (map ode_term fs))] ->
    sv_parts sv' = [(tab, ode_term (fun t y x => sum_n (length fs) (fun m => nth m fs (fun _ _ _ => 0) t y x)))] ->
    coherent (sv_parts sv) t0 y0 made_jump state -> coherent (sv_parts sv') t0 y0 made_jump' state' ->
    same_result (rk_step sv t0 t1 y0 others state made_jump) (rk_step sv' t0 t1 y0 others' state' made_jump').
  Proof. exact pf_C47_multi_of_odes. Qed.
  Theorem C47_multi_split :
    forall (J C : Type) (terms : list (term I J C)) (sv : solver I (nat * J) (list C)) (sv' : solver I J C) tab t0 t1 y0 others others' state state' made_jump made_jump',
    good_explicit tab -> terms <> [] -> (forall trm, In trm terms -> consistent_term trm /\ linear_term trm) ->
    sv_parts sv = [(tab, multi_term terms)] -> sv_parts sv' = map (fun trm => (tab, trm)) terms ->
    coherent (sv_parts sv) t0 y0 made_jump state -> coherent (sv_parts sv') t0 y0 made_jump' state' ->
    same_result (rk_step sv t0 t1 y0 others state made_jump) (rk_step sv' t0 t1 y0 others' state' made_jump').
  Proof. exact pf_C47_multi_split. Qed.
  Theorem C47_to_ode :
    forall (K : Type) (k0 : K) (ks : list K) (f : R -> Y -> (I * K -> R)) (X X' : R -> K -> R) (sv : solver I (I * K) (K -> R)) (sv' : solver I I R) tab t0 t1 y0 others others' state state' made_jump made_jump',
    good_explicit tab -> sv_parts sv = [(tab, control_term ks f (increments X))] ->
    sv_parts sv' = [(tab, control_to_ode ks f (increments X) X')] ->
    (forall i k, (i < num_stages tab)%nat -> X t1 k - X t0 k = (t1 - t0) * X' (t0 + coef_c tab i * (t1 - t0)) k) ->
    coherent (sv_parts sv) t0 y0 made_jump state -> coherent (sv_parts sv') t0 y0 made_jump' state' ->
    same_result (rk_step sv t0 t1 y0 others state made_jump) (rk_step sv' t0 t1 y0 others' state' made_jump').
  Proof. exact pf_C47_to_ode. Qed.
  Theorem C47_backward_step :
    forall (f : R -> Y -> Y) (sv sv' : solver I I R) tab t0 t1 y0 others others' state state' made_jump made_jump',
    good_explicit tab -> sv_parts sv = [(tab, wrap_term Rmult (-1) (ode_term f))] ->
    sv_parts sv' = [(tab, ode_term f)] ->
    coherent (sv_parts sv) (- t0) y0 made_jump state -> coherent (sv_parts sv') t0 y0 made_jump' state' ->
    same_result (rk_step sv (- t0) (- t1) y0 others state made_jump) (rk_step sv' t0 t1 y0 others' state' made_jump').
  Proof. exact pf_C47_backward_step. Qed.
End Theorems.

(** A drift [-y dt] and noise [y dX_1 + 2 dX_2] in one term. *)
Definition drift : term unit unit R := decay.
Definition noise : term unit (unit * bool) (bool -> R) :=
  control_term [true; false] (fun _ y p => if snd p then y tt else 2) (increments (fun t (k : bool) => if k then t * t else t)).
Example C47_multi_term_instance y t t0 t1 :
  let trm := multi_term [left_term drift; right_term noise] in
  consistent_term trm /\ linear_term trm /\ additive_term noise /\
  t_vf_prod trm t y (t_contr trm t0 t1) tt = - y tt * (t1 - t0) + (y tt * (t1 * t1 - t0 * t0) + 2 * (t1 - t0)).
Proof.
  cbn zeta. destruct (C47_ode_term (fun _ y (i : unit) => - y i)) as (C1 & L1 & _).
  destruct (C47_control_term _ true [true; false] (fun _ (y : unit -> R) (p : unit * bool) => if snd p then y tt else 2) (fun t (k : bool) => if k then t * t else t))
    as (C2 & L2 & _ & A2 & _).
  destruct (C47_mixed_terms _ _ _ _ _ _ C1 L1 C2 L2) as (C3 & L3 & E).
  split; [exact C3|]. split; [exact L3|]. split; [exact A2|].
  unfold drift, decay, noise. rewrite E. cbn. unfold increments. ring.
Qed.

(** Dopri5, Tsit5, Dopri8, Bosh3, Heun, Midpoint and Ralston meet the conditions on tableaus; a path that
    is linear on the step and not elsewhere. *)
Example C47_step_instance :
  Forall good_explicit [dopri5_tableau; tsit5_tableau; dopri8_tableau; bosh3_tableau; heun_tableau; midpoint_tableau; ralston_tableau] /\
  (forall i k, (i < num_stages heun_tableau)%nat ->
     let X (t : R) (k : bool) := if k then Rmax t 0 else 2 * t in
     let X' (t : R) (k : bool) := if k then if Rlt_dec t 0 then 0 else 1 else 2 in
     X 3 k - X 1 k = (3 - 1) * X' (1 + coef_c heun_tableau i * (3 - 1)) k) /\
  coherent [(dopri5_tableau, multi_term [drift; drift])] 0 (fun _ => 1) true (Some (true, [vzero])) /\
  coherent [(dopri5_tableau, drift); (dopri5_tableau, drift)] 0 (fun _ => 1) true (Some (true, [vzero; vzero])) /\
  coherent [(heun_tableau, wrap_term Rmult (-1) drift)] 5 (fun _ => 1) false None.
Proof.
  split; [|split; [|split; [|split]]].
  - repeat constructor; try discriminate; vm_compute; reflexivity.
  - intros i k Hi. cbn zeta. destruct k; [|ring].
    assert (C : 0 <= coef_c heun_tableau i).
    { destruct i as [|[|i]]; unfold coef_c; cbn; unfold Q2R; cbn; try lra. destruct i; cbn; lra. }
    destruct (Rlt_dec _ 0); [lra|]. rewrite !Rmax_left; lra.
  - split; [reflexivity|left; reflexivity].
  - split; [reflexivity|left; reflexivity].
  - exact Logic.I.
Qed.
(** C47: the sign representation of [WrapTerm] for a concrete path. *)
Example C47_wrap_instance t0 t1 : t_contr (wrap_term (fun a u k => a * u k) (-1) noise) t0 t1 true = t1 * t1 - t0 * t0.
Proof. cbn. unfold increments. ring. Qed.

Print Assumptions C47_ode_term.
Print Assumptions C47_control_term.
Print Assumptions C47_multi_term.
Print Assumptions C47_multi_contr.
Print Assumptions C47_multi_bilinear.
Print Assumptions C47_mixed_terms.
Print Assumptions C47_wrap_twice.
Print Assumptions C47_wrap_reflects.
Print Assumptions C47_wrap_ode.
Print Assumptions C47_multi_of_odes.
Print Assumptions C47_multi_split.
Print Assumptions C47_to_ode.
Print Assumptions C47_backward_step.
