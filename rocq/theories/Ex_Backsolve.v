(** The equation y' = theta y with theta = 1, started from y = 1 at time 0. *)
From Coq Require Import List Bool Arith Lia Reals Lra.
From Coquelicot Require Import Coquelicot.
From Verif Require Import Model_Backsolve Spec_Backsolve.
Import ListNotations.
Open Scope R_scope.

Definition ex_pull (s t a : R) : R := exp (t - s) * a.
Definition ex_par (s t a : R) : R := a * (t - s) * exp t.
Definition ex_solve (t s : R) (mj : bool) (st : option unit) (y a p : R) : R * R * unit :=
  (ex_pull s t a, p + ex_par s t a, tt).

Lemma ex_additive : additive Rplus 0.
Proof. constructor; intros; ring. Qed.
Lemma ex_pullback : pullback Rplus 0 Rplus 0 ex_pull ex_par.
Proof.
  constructor; unfold ex_pull, ex_par.
  - intros; constructor; intros; ring.
  - intros; constructor; intros; ring.
  - intros. replace (t - t) with 0 by ring. rewrite exp_0. ring.
  - intros. ring.
  - intros. rewrite <- Rmult_assoc, <- exp_plus. f_equal. f_equal. ring.
  - intros. replace (exp (u - t) * a * (t - s) * exp t) with ((exp (u - t) * exp t) * a * (t - s)) by ring.
    rewrite <- exp_plus. replace (u - t + t) with u by ring. ring.
Qed.
Lemma ex_exact (saveat_t0 : bool) t0 ts ys :
  forall s t y mj st a p,
     (if saveat_t0 then adjacent t0 (tl ts) (tl ys) s t y else adjacent t0 ts ys s t y) ->
     fst (ex_solve t s mj st y a p) = (ex_pull s t a, p + ex_par s t a).
Proof. reflexivity. Qed.

Definition ex_f (t : R) (y th : vec) : vec := fun _ => th 0%nat * y 0%nat.
Definition ex_vjp (t : R) (y th b : vec) : vec * vec := (fun _ => b 0%nat * th 0%nat, fun _ => b 0%nat * y 0%nat).
Definition ex_jvp (t : R) (y th v w : vec) : vec := fun _ => th 0%nat * v 0%nat + y 0%nat * w 0%nat.
Definition one_vec : vec := fun _ => 1.
Definition ex_y (t : R) : vec := fun _ => exp t.
Definition ex_a (t : R) : vec := fun _ => exp (1 - t).
Definition ex_p (t : R) : vec := fun _ => (1 - t) * exp 1.
Definition ex_v (v0 w t : R) : vec := fun _ => (v0 + w * t) * exp t.

Lemma ex_transposed t z b v w :
  dot 1 (fst (ex_vjp t z one_vec b)) v + dot 1 (snd (ex_vjp t z one_vec b)) w = dot 1 b (ex_jvp t z one_vec v w).
Proof. unfold dot, ex_vjp, ex_jvp, one_vec. cbn. ring. Qed.
Lemma ex_a_eq t i : derivable_pt_lim (fun s => ex_a s i) t
  (snd (fst (adjoint_vf_prod ex_f ex_vjp one_vec t (ex_y t, ex_a t, ex_p t))) i).
Proof.
  unfold ex_a, ex_f, ex_vjp, one_vec; cbn. apply is_derive_Reals. auto_derive; [trivial|]. unfold plus; cbn; unfold Rminus. ring.
Qed.
Lemma ex_p_eq t i : derivable_pt_lim (fun s => ex_p s i) t
  (snd (adjoint_vf_prod ex_f ex_vjp one_vec t (ex_y t, ex_a t, ex_p t)) i).
Proof.
  unfold ex_p, ex_a, ex_y, ex_f, ex_vjp, one_vec; cbn. apply is_derive_Reals. auto_derive; [trivial|].
  replace (- exp (1 - t) * exp t) with (- (exp (1 - t) * exp t)) by ring. rewrite <- exp_plus. replace (1 - t + t) with 1 by ring. ring.
Qed.
Lemma ex_v_eq v0 w t i : derivable_pt_lim (fun s => ex_v v0 w s i) t (ex_jvp t (ex_y t) one_vec (ex_v v0 w t) (fun _ => w) i).
Proof.
  unfold ex_v, ex_y, ex_jvp, one_vec; cbn. apply is_derive_Reals. auto_derive; [trivial|]. ring.
Qed.
