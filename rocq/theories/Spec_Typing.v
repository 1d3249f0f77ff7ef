(** Specification for [get_args_of]: how classes inherit from each other, as a type checker sees it. *)
From Coq Require Import List Arith Bool.
From Verif Require Import Model_Typing.
Import ListNotations.

(** Substitution of type variables, everywhere in an annotation. *)
Fixpoint subst (ks : list tvar) (vs : list ty) (x : ty) : ty :=
  match x with
  | TVar v => lookup ks vs v
  | TSub c args => TSub c (map (subst ks vs) args)
  | TUnion l => TUnion (map (subst ks vs) l)
  | TAnnot t k => TAnnot (subst ks vs t) k
  | _ => x
  end.

(** No type variables. *)
Fixpoint closed (x : ty) : bool :=
  match x with
  | TVar _ => false
  | TSub _ args => forallb closed args
  | TUnion l => forallb closed l
  | TAnnot t _ => closed t
  | _ => true
  end.

(** The parameters of a class used without subscript. *)
Definition anys (G : table) (c : cid) : list ty := map (fun _ => TAny) (c_params (G c)).

Definition special (c : cid) : Prop := c = generic_id \/ c = protocol_id.

(** [c[ps]] inherits from [b[out]]: following the class statements, with type variables replaced. *)
Inductive inherits (G : table) (b : cid) : cid -> list ty -> list ty -> Prop :=
| inh_here ps : inherits G b b ps ps
| inh_sub c ps d args out :
    In (TSub d args) (c_bases (G c)) -> ~ special d ->
    inherits G b d (map (subst (c_params (G c)) ps) args) out -> inherits G b c ps out
| inh_plain c ps d out :
    In (TClass d) (c_bases (G c)) ->
    inherits G b d (anys G d) out -> inherits G b c ps out.

(** The same, with a subscript at every step. *)
Inductive inherits_sub (G : table) (b : cid) : cid -> list ty -> list ty -> Prop :=
| ins_here ps : inherits_sub G b b ps ps
| ins_sub c ps d args out :
    c <> b -> In (TSub d args) (c_bases (G c)) -> ~ special d ->
    inherits_sub G b d (map (subst (c_params (G c)) ps) args) out -> inherits_sub G b c ps out.

Definition base_class (x : ty) : option cid :=
  match x with TClass d => Some d | TSub d _ => Some d | _ => None end.

(** What Python ensures about class statements. *)
Record python_classes (G : table) : Prop := {
  (** bases exist already, and are classes, subscripted or not *)
  py_bases : forall c x, In x (c_bases (G c)) -> exists d, base_class x = Some d /\ d < c;
  (** subscripts have the right number of arguments *)
  py_args : forall c d args, In (TSub d args) (c_bases (G c)) -> ~ special d ->
            args <> [] /\ length args = length (c_params (G d));
  (** a class without subscripted bases has no type variables *)
  py_params : forall c, own_orig_bases (G c) = None -> c_params (G c) = [];
  (** the method resolution order starts with the class; each other entry is a base of an earlier one;
      the entries of the bases are contained in it *)
  py_mro_head : forall c, exists l, c_mro (G c) = c :: l;
  py_mro_bases : forall c l1 x l2, c_mro (G c) = l1 ++ x :: l2 -> l1 <> [] ->
                 exists y z, In y l1 /\ In z (c_bases (G y)) /\ base_class z = Some x;
  py_mro_sub : forall c x d z, In x (c_bases (G c)) -> base_class x = Some d ->
               In z (c_mro (G d)) -> In z (c_mro (G c))
}.

(** In the class statements, type variables occur only directly as an argument: [Foo[T]] but not
    [Foo[list[T]]]. *)
Definition flat_bases (G : table) : Prop :=
  forall c d args, In (TSub d args) (c_bases (G c)) -> ~ special d ->
  forall a, In a args -> (exists v, a = TVar v) \/ closed a = true.

(** What is passed to [get_args_of]: a class, or a class with subscripts; type variables count as [Any]. *)
Inductive uses (G : table) : ty -> cid -> list ty -> Prop :=
| uses_class c : uses G (TClass c) c (anys G c)
| uses_sub c args : length args = length (c_params (G c)) ->
    uses G (TSub c args) c (map (fun x => match x with TVar _ => TAny | _ => x end) args).
