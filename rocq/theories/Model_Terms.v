(** Terms.  Models [/repo/diffrax/_term.py]: [AbstractTerm], [ODETerm], [ControlTerm], [MultiTerm], [WrapTerm].
    Values are functions from positions to reals, as in [Model_RK]; [args] is fixed.  Not modelled:
    dtypes and broadcasting and complex numbers (see [Model_ArrayTerm]), the extra information ([use_levy])
    some controls return, [lineax] operators other than dense matrices, and the error messages. *)
From Coq Require Import ZArith Reals List.
From Verif Require Import Model_RK.
Import ListNotations.
Open Scope R_scope.

Section Terms.
  Context {I : Type}.
  Notation Y := (I -> R).

  (** [_term.py:113-157]: the default [vf_prod]. *)
  Definition with_default_vf_prod {J C : Type} (vf : R -> Y -> (J -> R)) (contr : R -> R -> C)
             (prod : (J -> R) -> C -> Y) : term I J C :=
    Term vf contr prod (fun t y c => prod (vf t y) c).

  (** [_term.py:174-226] [ODETerm] *)
  Definition ode_term (vector_field : R -> Y -> Y) : term I I R :=
    with_default_vf_prod vector_field (fun t0 t1 => t1 - t0) (fun v control i => control * v i).

  (** [_term.py:264-268] [_prod]: the contraction with a control whose positions are [ks]. *)
  Definition contract {K : Type} (ks : list K) (vf : I * K -> R) (control : K -> R) : Y :=
    fun i => fold_right (fun k acc => vf (i, k) * control k + acc) 0 ks.

  (** [_term.py:271-557] [ControlTerm]; [evaluate] is that of the path; [vf_prod] only adds an error message. *)
  Definition control_term {K : Type} (ks : list K) (vector_field : R -> Y -> (I * K -> R))
             (evaluate : R -> R -> (K -> R)) : term I (I * K) (K -> R) :=
    with_default_vf_prod vector_field evaluate (contract ks).

  (** [_term.py:651-656] [_ControlToODE], used by [ControlTerm.to_ode] (545-555). *)
  Definition control_to_ode {K : Type} (ks : list K) (vector_field : R -> Y -> (I * K -> R))
             (evaluate : R -> R -> (K -> R)) (derivative : R -> (K -> R)) : term I I R :=
    ode_term (fun t y => t_vf_prod (control_term ks vector_field evaluate) t y (derivative t)).

  (** [_term.py:659-660] [_sum], of at least one value. *)
  Definition sum_terms (out : list Y) : Y :=
    match out with [] => vzero | x :: xs => fold_left vadd xs x end.

  (** [_term.py:666-731] [MultiTerm].  The tuple of vector fields is a function of the number of the term
      and the position; the tuple of controls is a list. *)
  Definition multi_vf {J C : Type} (terms : list (term I J C)) (t : R) (y : Y) : nat * J -> R :=
    fun p => match nth_error terms (fst p) with Some trm => t_vf trm t y (snd p) | None => 0 end.
  Definition multi_prod {J C : Type} (terms : list (term I J C)) (vf : nat * J -> R) (control : list C) : Y :=
    sum_terms (map2 (fun mt c => t_prod (snd mt) (fun j => vf (fst mt, j)) c)
                 (combine (seq 0 (length terms)) terms) control).
  Definition multi_term {J C : Type} (terms : list (term I J C)) : term I (nat * J) (list C) :=
    Term (multi_vf terms) (fun t0 t1 => map (fun trm => t_contr trm t0 t1) terms) (multi_prod terms)
      (fun t y control => sum_terms (map2 (fun trm c => t_vf_prod trm t y c) terms control)).

  (** [_term.py:666-731]: the terms of a [MultiTerm] may have different types of vector field and control;
      here they are injected into common ones first. *)
  Definition left_term {J C J' C' : Type} (trm : term I J C) : term I (J + J') (C + C') :=
    Term (fun t y j => match j with inl j => t_vf trm t y j | inr _ => 0 end) (fun t0 t1 => inl (t_contr trm t0 t1))
      (fun f c => match c with inl c => t_prod trm (fun j => f (inl j)) c | inr _ => vzero end)
      (fun t y c => match c with inl c => t_vf_prod trm t y c | inr _ => vzero end).
  Definition right_term {J C J' C' : Type} (trm : term I J' C') : term I (J + J') (C + C') :=
    Term (fun t y j => match j with inr j => t_vf trm t y j | inl _ => 0 end) (fun t0 t1 => inr (t_contr trm t0 t1))
      (fun f c => match c with inr c => t_prod trm (fun j => f (inr j)) c | inl _ => vzero end)
      (fun t y c => match c with inr c => t_vf_prod trm t y c | inl _ => vzero end).

  (** [_term.py:734-764] [WrapTerm]; [scale] multiplies a control by a number ([ω] arithmetic). *)
  Definition wrap_term {J C : Type} (scale : R -> C -> C) (direction : Z) (trm : term I J C) : term I J C :=
    let d := IZR direction in
    Term (fun t y => t_vf trm (t * d) y)
      (fun t0 t1 =>
         let t0' := if Z.eqb direction 1 then t0 else - t1 in
         let t1' := if Z.eqb direction 1 then t1 else - t0 in
         scale d (t_contr trm t0' t1'))
      (t_prod trm)
      (fun t y control => t_vf_prod trm (t * d) y control).
End Terms.
