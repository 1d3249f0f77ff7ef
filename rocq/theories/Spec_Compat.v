(** Specification of which terms fit a solver. *)
From Coq Require Import List Arith Bool.
From Verif Require Import Model_Typing Spec_Typing Model_Compat.
Import ListNotations.

Section SpecCompat.
  Context {V A K : Type} (inst : V -> cid -> bool).
  Notation term := (term V A K).

  (** A result is an instance of an annotation; subscripts are ignored. *)
  Fixpoint instance_of (x : V) (ann : ty) : Prop :=
    match ann with
    | TAny => True
    | TClass c | TSub c _ => inst x c = true
    | TUnion l => (fix any (l : list ty) : Prop :=
                     match l with [] => False | a :: l => instance_of x a \/ any l end) l
    | _ => False
    end.

  (** Annotations that can be checked: classes, subscripted classes, [Any], and unions of them. *)
  Fixpoint checkable (ann : ty) : bool :=
    match ann with
    | TAny | TClass _ | TSub _ _ => true
    | TUnion l => forallb checkable l
    | _ => false
    end.

  (** A term fits a leaf of the structure: a [MultiTerm] of the right number of fitting terms, or a term
      of the right class, whose vector field and control are of the annotated types. *)
  Inductive fits (G : table) (y : tree A) : ty -> term -> tree K -> Prop :=
  | fits_multi args tm kws :
      issubclass G (t_class tm) multi_id = true ->
      length (t_subs tm) = length args -> length kws = length args ->
      (forall i a t k, nth_error args i = Some a -> nth_error (t_subs tm) i = Some t ->
                       nth_error kws i = Some k -> fits G y a t k) ->
      fits G y (TSub multi_id [TSub tuple_id args]) tm (Node kws)
  | fits_single cls c tm k vf_type control_type v w :
      (cls = TClass c \/ exists args, cls = TSub c args /\ c <> multi_id) ->
      issubclass G (t_class tm) c = true ->
      get_args_of G term_id cls = Ok [vf_type; control_type] ->
      t_vf tm y = Some v -> instance_of v vf_type ->
      t_contr tm k = Some w -> instance_of w control_type ->
      fits G y cls tm (Leaf k).

  (** The same for a PyTree of terms. *)
  Inductive fits_tree (G : table) : tree ty -> tree term -> tree K -> tree A -> Prop :=
  | fits_leaf cls tm kw y : fits G y cls tm kw -> fits_tree G (Leaf cls) (Leaf tm) kw y
  | fits_node ss ts ks ys :
      length ts = length ss -> length ks = length ss -> length ys = length ss ->
      (forall i s t k y, nth_error ss i = Some s -> nth_error ts i = Some t ->
                         nth_error ks i = Some k -> nth_error ys i = Some y -> fits_tree G s t k y) ->
      fits_tree G (Node ss) (Node ts) (Node ks) (Node ys).

  (** Structures that a solver may declare. *)
  Inductive good_leaf (G : table) : ty -> Prop :=
  | good_multi args : (forall a, In a args -> good_leaf G a) ->
                      good_leaf G (TSub multi_id [TSub tuple_id args])
  | good_single cls c a b :
      (cls = TClass c \/ exists args, cls = TSub c args /\ c <> multi_id) ->
      get_args_of G term_id cls = Ok [a; b] -> checkable a = true -> checkable b = true ->
      good_leaf G cls.
  Inductive good_structure (G : table) : tree ty -> Prop :=
  | good_at cls : good_leaf G cls -> good_structure G (Leaf cls)
  | good_node ss : (forall s, In s ss -> good_structure G s) -> good_structure G (Node ss).

  (** Terms whose vector field and control can be evaluated. *)
  Inductive evaluates : term -> Prop :=
  | evaluates_intro tm : (forall y, t_vf tm y <> None) -> (forall k, t_contr tm k <> None) ->
                         (forall t, In t (t_subs tm) -> evaluates t) -> evaluates tm.
  Inductive tree_forall {B} (P : B -> Prop) : tree B -> Prop :=
  | tf_leaf b : P b -> tree_forall P (Leaf b)
  | tf_node l : (forall t, In t l -> tree_forall P t) -> tree_forall P (Node l).

  (** A [MultiTerm] that has not as many terms as the structure asks for. *)
  Inductive wrong_count (G : table) : ty -> term -> Prop :=
  | wc_here args tm : issubclass G (t_class tm) multi_id = true ->
      length (t_subs tm) <> length args -> wrong_count G (TSub multi_id [TSub tuple_id args]) tm
  | wc_part args tm i a t : nth_error args i = Some a -> nth_error (t_subs tm) i = Some t ->
      wrong_count G a t -> wrong_count G (TSub multi_id [TSub tuple_id args]) tm.
  Inductive wrong_count_tree (G : table) : tree ty -> tree term -> Prop :=
  | wct_leaf cls tm : wrong_count G cls tm -> wrong_count_tree G (Leaf cls) (Leaf tm)
  | wct_node ss ts i s t : nth_error ss i = Some s -> nth_error ts i = Some t ->
      wrong_count_tree G s t -> wrong_count_tree G (Node ss) (Node ts).

  (** Keyword arguments of the shape of the structure. *)
  Inductive kwargs_for : ty -> tree K -> Prop :=
  | kf_multi args kws : length kws = length args ->
      (forall i a k, nth_error args i = Some a -> nth_error kws i = Some k -> kwargs_for a k) ->
      kwargs_for (TSub multi_id [TSub tuple_id args]) (Node kws)
  | kf_single cls c k : (cls = TClass c \/ exists args, cls = TSub c args /\ c <> multi_id) ->
      kwargs_for cls (Leaf k).
  Inductive kwargs_for_tree : tree ty -> tree K -> Prop :=
  | kft_leaf cls kw : kwargs_for cls kw -> kwargs_for_tree (Leaf cls) kw
  | kft_node ss ks : length ks = length ss ->
      (forall i s k, nth_error ss i = Some s -> nth_error ks i = Some k -> kwargs_for_tree s k) ->
      kwargs_for_tree (Node ss) (Node ks).

  (** The same keyword arguments everywhere. *)
  Inductive all_leaves (k : K) : tree K -> Prop :=
  | al_leaf : all_leaves k (Leaf k)
  | al_node l : (forall t, In t l -> all_leaves k t) -> all_leaves k (Node l).

  (** The classes of [_term.py]: [AbstractTerm] is generic in the types of its vector field and control. *)
  Definition term_classes (G : table) : Prop :=
    In term_id (c_mro (G term_id)) /\ In generic_id (c_mro (G term_id)) /\
    length (c_params (G term_id)) = 2.
End SpecCompat.
