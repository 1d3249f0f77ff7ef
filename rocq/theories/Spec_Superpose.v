(** Vocabulary for linear equations: superposition of solutions. *)
From Coq Require Import ZArith Reals List.
From Verif Require Import Model_Result Model_Loop Model_RK.
Import ListNotations.
Open Scope R_scope.

Definition mix {I : Type} (a b : R) (y z : I -> R) : I -> R := fun x => a * y x + b * z x.

(** No term tells mixtures from their parts: so are linear equations, and if [a + b = 1] also those with an
    inhomogeneity. *)
Definition superposes {I J C : Type} (a b : R) (ps : list (tableau * term I J C)) : Prop :=
  forall tab trm, In (tab, trm) ps -> forall t y z c, t_vf_prod trm t (mix a b y z) c = mix a b (t_vf_prod trm t y c) (t_vf_prod trm t z c).

(** The controller does not look at the solution and the error, like [ConstantStepSize] and [StepTo]. *)
Definition value_free {Y SS CS DI E V MS : Type} (c : config Y SS CS DI E V MS) : Prop :=
  forall t0 t1 y y' y1 y1' e e' s, adapt c t0 t1 y y1 e s = adapt c t0 t1 y' y1' e' s.

(** Lists of the same length, with triples of elements in relation. *)
Fixpoint all3 {A B C : Type} (P : A -> B -> C -> Prop) (l : list A) (m : list B) (n : list C) : Prop :=
  match l, m, n with
  | [], [], [] => True
  | x :: l, y :: m, z :: n => P x y z /\ all3 P l m n
  | _, _, _ => False
  end.
Definition opt3 {A B C : Type} (P : A -> B -> C -> Prop) (x : option A) (y : option B) (z : option C) : Prop :=
  match x, y, z with Some x, Some y, Some z => P x y z | None, None, None => True | _, _, _ => False end.

(** The third solve is the mixture of the others: at the same times, after the same steps, in the final value, the
    dense output of every step, and (as far as [RV] says) in the saved values. *)
Definition outcomes_mix {I SS CS DI E V MS : Type} (a b : R) (RV : V -> V -> V -> Prop)
           (c : config (I -> R) SS CS DI E V MS) (o1 o2 o3 : outcome (I -> R) SS CS DI V MS) : Prop :=
  out_yfinal o3 = mix a b (out_yfinal o1) (out_yfinal o2) /\
  all3 (fun s1 s2 s3 => ss_ts s1 = ss_ts s3 /\ ss_ts s2 = ss_ts s3 /\ all3 (opt3 RV) (ss_ys s1) (ss_ys s2) (ss_ys s3))
       (out_save o1) (out_save o2) (out_save o3) /\
  all3 (opt3 (fun d1 d2 d3 => forall t0 t1 t, interpolate c t0 t1 d3 t = mix a b (interpolate c t0 t1 d1 t) (interpolate c t0 t1 d2 t)))
       (st_dense_infos (out_state o1)) (st_dense_infos (out_state o2)) (st_dense_infos (out_state o3)) /\
  forall o, In o [o1; o2] -> out_tfinal o = out_tfinal o3 /\ out_result o = out_result o3 /\
    st_num_steps (out_state o) = st_num_steps (out_state o3) /\ st_dense_ts (out_state o) = st_dense_ts (out_state o3).
