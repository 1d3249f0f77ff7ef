(** Theorems about [BacksolveAdjoint]: C50. *)
From Coq Require Import List Bool Arith Lia Reals Lra.
From Verif Require Import Model_Backsolve Spec_Backsolve Proof_Backsolve Ex_Backsolve.
Import ListNotations.
Open Scope R_scope.

(** C50: if the backward solves between adjacent saved times are exact, the cotangents returned are the
    sums over all saved points of the pullbacks to [t0] of their cotangents, each counted once. *)
  Theorem C50_every_gradient_once :
    forall (T Y A P S : Type) (add : A -> A -> A) (zero : A) (add_p : P -> P -> P) (zero_p : P) (solve : T -> T -> bool -> option S -> Y -> A -> P -> A * P * S) (pull : T -> T -> A -> A) (par : T -> T -> A -> P) (saveat_t0 : bool) (t0 : T) (ts : list T) (ys : list Y) (gs : list A),
    additive add zero -> additive add_p zero_p -> pullback add zero add_p zero_p pull par ->
  ts <> [] -> length ys = length ts -> length gs = length ts ->
  (saveat_t0 = true -> hd_error ts = Some t0) ->
  (forall s t y mj st a p,
     (if saveat_t0 then adjacent t0 (tl ts) (tl ys) s t y else adjacent t0 ts ys s t y) ->
     fst (solve t s mj st y a p) = (pull s t a, add_p p (par s t a))) ->
  loop_backsolve_bwd add zero zero_p solve saveat_t0 t0 ts ys gs =
  Some (total add zero (map (fun tg => pull t0 (fst tg) (snd tg)) (combine ts gs)),
        total add_p zero_p (map (fun tg => par t0 (fst tg) (snd tg)) (combine ts gs))).
  Proof. exact pf_C50_every_gradient_once. Qed.
Example C50_every_gradient_once_instance :
  let ts := [0; 1; 3; 4] in let ys := map exp ts in
  additive Rplus 0 /\ pullback Rplus 0 Rplus 0 ex_pull ex_par /\
  (forall saveat_t0 : bool, let ts := if saveat_t0 then ts else tl ts in let ys := if saveat_t0 then ys else tl ys in
    ts <> [] /\ length ys = length ts /\ (saveat_t0 = true -> hd_error ts = Some 0) /\
    (forall s t y mj st a p,
     (if saveat_t0 then adjacent 0 (tl ts) (tl ys) s t y else adjacent 0 ts ys s t y) ->
     fst (ex_solve t s mj st y a p) = (ex_pull s t a, p + ex_par s t a))).
Proof.
  cbn zeta. split; [exact ex_additive|]. split; [exact ex_pullback|].
  intros [|]; (split; [discriminate|]; split; [reflexivity|]; split; [try reflexivity; discriminate|]; reflexivity).
Qed.

(** C50: the backward solves are made over the intervals between adjacent times, each once, from the
    last to the first, ending at [t0]; every one but the first is given the states of the one before,
    and told that a jump was made. *)
  Theorem C50_calls :
    forall (T Y A : Type) (add : A -> A -> A) (zero : A) (solve : T -> T -> bool -> option (T * T) -> Y -> A -> list (T * T * bool * option (T * T)) -> A * list (T * T * bool * option (T * T)) * (T * T)) (saveat_t0 : bool) (t0 : T) (ts : list T) (ys : list Y) (gs : list A),
    (forall t s mj st y a p, exists a', solve t s mj st y a p = (a', p ++ [(t, s, mj, st)], (t, s))) ->
  ts <> [] -> length ys = length ts -> length gs = length ts ->
  (saveat_t0 = true -> hd_error ts = Some t0) ->
  exists a, loop_backsolve_bwd add zero [] solve saveat_t0 t0 ts ys gs =
    Some (a, calls_from None (rev (intervals t0 (if saveat_t0 then tl ts else ts)))).
  Proof. exact pf_C50_calls. Qed.
Example C50_calls_instance :
  calls_from None (rev (intervals 0 [1; 3; 4])) =
  [(4, 3, false, None); (3, 1, true, Some (4, 3)); (1, 0, true, Some (3, 1))].
Proof. reflexivity. Qed.

(** C50: the adjoint equation that is solved backward gives exact pullbacks: along every
    solution of it, and every tangent [v] of the solution for a perturbation [w] of the parameters, the
    pairing of cotangents and tangents is the same at both ends. *)
  Theorem C50_adjoint_equation :
    forall (n q : nat) (f : R -> vec -> vec -> vec) (vjp : R -> vec -> vec -> vec -> vec * vec) (jvp : R -> vec -> vec -> vec -> vec -> vec) (theta : vec) (t0 t1 : R) (y a p v : R -> vec) (w : vec),
    t0 <= t1 ->
  (forall t z b v w, dot n (fst (vjp t z theta b)) v + dot q (snd (vjp t z theta b)) w = dot n b (jvp t z theta v w)) ->
  (forall t i, t0 <= t <= t1 -> (i < n)%nat ->
     derivable_pt_lim (fun s => a s i) t (snd (fst (adjoint_vf_prod f vjp theta t (y t, a t, p t))) i)) ->
  (forall t i, t0 <= t <= t1 -> (i < q)%nat ->
     derivable_pt_lim (fun s => p s i) t (snd (adjoint_vf_prod f vjp theta t (y t, a t, p t)) i)) ->
  (forall t i, t0 <= t <= t1 -> (i < n)%nat -> derivable_pt_lim (fun s => v s i) t (jvp t (y t) theta (v t) w i)) ->
  dot n (a t0) (v t0) + dot q (p t0) w = dot n (a t1) (v t1) + dot q (p t1) w.
  Proof. exact pf_C50_adjoint_equation. Qed.
Example C50_adjoint_equation_instance :
  (forall t z b v w,
    dot 1 (fst (ex_vjp t z one_vec b)) v + dot 1 (snd (ex_vjp t z one_vec b)) w = dot 1 b (ex_jvp t z one_vec v w)) /\
  (forall t i, derivable_pt_lim (fun s => ex_a s i) t
    (snd (fst (adjoint_vf_prod ex_f ex_vjp one_vec t (ex_y t, ex_a t, ex_p t))) i)) /\
  (forall t i, derivable_pt_lim (fun s => ex_p s i) t
    (snd (adjoint_vf_prod ex_f ex_vjp one_vec t (ex_y t, ex_a t, ex_p t)) i)) /\
  (forall v0 w t i, derivable_pt_lim (fun s => ex_v v0 w s i) t (ex_jvp t (ex_y t) one_vec (ex_v v0 w t) (fun _ => w) i)).
Proof. exact (conj ex_transposed (conj ex_a_eq (conj ex_p_eq ex_v_eq))). Qed.

Print Assumptions C50_every_gradient_once.
Print Assumptions C50_calls.
Print Assumptions C50_adjoint_equation.
