(** Instances for the theorems about [AdjointTerm]. *)
From Coq Require Import Reals List Bool Arith Lia Lra.
From Coquelicot Require Import Coquelicot.
From Verif Require Import Model_PyTree Model_AdjointTerm Spec_AdjointTerm Proof_PyTree Proof_AdjointTerm.
Import ListNotations.
Open Scope R_scope.

(** ** An instance: a control of two arrays, a state of two arrays *)
Definition ex_control : pytree array := Node 1 [Leaf (Array [2%nat] [0; 0]); Leaf (Array [] [0])].
Definition ex_out : pytree array := Node 2 [Leaf (Array [] [0]); Leaf (Array [2%nat; 1%nat] [0; 0])].
Definition ex_vf_prod (c : pytree array) : result (pytree array) :=
  match ravel c with
  | [a; b; t] => Ok (Node 2 [Leaf (Array [] [3 * a - t]); Leaf (Array [2%nat; 1%nat] [a + 2 * b; t])])
  | _ => Raise ValueError
  end.
Definition ex_vjp (_ w : pytree array) : result (pytree array) :=
  match ravel w with
  | [r; p; q] => Ok (Node 1 [Leaf (Array [2%nat] [3 * r + p; 2 * p]); Leaf (Array [] [q - r])])
  | _ => Raise ValueError
  end.
Lemma three (l : list R) : length l = 3%nat -> exists a b c, l = [a; b; c].
Proof. destruct l as [|a [|b [|c [|d l]]]]; try discriminate. eauto. Qed.
Lemma ex_like_control (c : pytree array) : like ex_control c -> exists a b t, ravel c = [a; b; t].
Proof. intros L. apply three. now rewrite (ravel_length _ _ L). Qed.
Lemma ex_like_out (c : pytree array) : like ex_out c -> exists a b t, ravel c = [a; b; t].
Proof. intros L. apply three. now rewrite (ravel_length _ _ L). Qed.
Lemma ex_prod_vf : like ex_control ex_control /\ linear ex_vf_prod ex_control ex_out /\ is_jvp ex_vf_prod ex_control (fun _ => ex_vf_prod) /\
  is_vjp ex_vf_prod ex_control ex_out ex_vjp /\ tree_leaves ex_control <> [] /\ tree_leaves ex_out <> [].
Proof.
  split; [split; [reflexivity|repeat constructor]|]. split; [constructor|split; [|split; [|split; discriminate]]].
  - intros c L. destruct (ex_like_control c L) as (a & b & t & E). unfold ex_vf_prod. rewrite E. eexists. split; [reflexivity|].
    split; [reflexivity|repeat constructor].
  - intros a b c d e x y z Lc Ld Le. destruct (ex_like_control c Lc) as (c1 & c2 & c3 & E1). destruct (ex_like_control d Ld) as (d1 & d2 & d3 & E2).
    unfold ex_vf_prod, combination. rewrite E1, E2. intros X Y Z Q. rewrite Q in Z. cbn in Z. injection X as <-. injection Y as <-. injection Z as <-.
    cbn. f_equal; [ring|]. f_equal. ring.
  - intros c d _ _. reflexivity.
  - intros c w Lc Lw. destruct (ex_like_out w Lw) as (w1 & w2 & w3 & E1). unfold ex_vjp. rewrite E1. eexists. split; [reflexivity|].
    split; [split; [reflexivity|repeat constructor]|]. intros d z Ld. destruct (ex_like_control d Ld) as (d1 & d2 & d3 & E2).
    unfold ex_vf_prod. rewrite E2. intros Z. injection Z as <-. cbn. ring.
Qed.
Definition ex_f (y theta c : vec) : vec := fun i => y i * theta 0%nat * c 0%nat.
Definition ex_f_vjp (y theta c w : vec) : vec * vec := (fun i => w i * theta 0%nat * c 0%nat, fun _ => (w 0%nat * y 0%nat + w 1%nat * y 1%nat) * c 0%nat).
Lemma ex_linear : linear_in_control 2 ex_f /\
  forall y theta c w, transposed_derivative 2 1 (fun y theta => ex_f y theta c) y theta w (ex_f_vjp y theta c w).
Proof.
  split; [intros y theta a b c d i _; unfold ex_f; ring|]. intros y theta c w d e. unfold ex_f, ex_f_vjp, inner, along. cbn [seq map fold_right fst snd].
  set (g := fun h => ((w 0%nat * y 0%nat + w 1%nat * y 1%nat) + h * (w 0%nat * d 0%nat + w 1%nat * d 1%nat)) * (theta 0%nat + h * e 0%nat) * c 0%nat).
  assert (D : derivable_pt_lim g 0 (((w 0%nat * d 0%nat + w 1%nat * d 1%nat) * theta 0%nat + (w 0%nat * y 0%nat + w 1%nat * y 1%nat) * e 0%nat) * c 0%nat)).
  { apply is_derive_Reals. unfold g. auto_derive; [trivial|]. ring. }
  intros eps He. destruct (D eps He) as [del Pd]. exists del. intros h H1 H2. specialize (Pd h H1 H2). unfold g in Pd.
  match goal with |- Rabs ?u < _ => match type of Pd with Rabs ?v < _ => replace u with v end end; [exact Pd|]. field. exact H1.
Qed.
