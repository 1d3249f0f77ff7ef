(** Model of [diffrax/_typing.py]: classes, generics and the arguments with which a class inherits from
    another one.

    Classes are numbers; what Python knows about them is a table.  The model leaves out [TypeVarTuple],
    [ParamSpec] and [__class_getitem__] overrides.  [Any] is a class in Python 3.11 and later
    ([pyproject.toml] asks for at least that). *)
From Coq Require Import List Arith Bool.
Import ListNotations.

Definition cid := nat.
Definition tvar := nat.

(** Annotations: a class, a subscripted class, a type variable, [Any], a union ([Union[...]] or [|]),
    [Annotated[t, ...]] with [k] pieces of metadata, and other special forms ([Literal[...]]). *)
Inductive ty :=
| TClass (c : cid)
| TSub (c : cid) (args : list ty)
| TVar (v : tvar)
| TAny
| TUnion (l : list ty)
| TAnnot (t : ty) (k : nat)
| TOther (n : nat).

(** Equality of annotations, as used by the [set] of [_typing.py:150].  Simplification: Python
    identifies unions up to order. *)
Fixpoint ty_eqb (a b : ty) : bool :=
  let fix list_eqb (l l' : list ty) : bool :=
    match l, l' with
    | [], [] => true
    | x :: l, y :: l' => ty_eqb x y && list_eqb l l'
    | _, _ => false
    end in
  match a, b with
  | TClass c, TClass c' => c =? c'
  | TSub c l, TSub c' l' => (c =? c') && list_eqb l l'
  | TVar v, TVar v' => v =? v'
  | TAny, TAny => true
  | TUnion l, TUnion l' => list_eqb l l'
  | TAnnot t k, TAnnot t' k' => ty_eqb t t' && (k =? k')
  | TOther n, TOther n' => n =? n'
  | _, _ => false
  end.

Fixpoint tys_eqb (l l' : list ty) : bool :=
  match l, l' with
  | [], [] => true
  | x :: l, y :: l' => ty_eqb x y && tys_eqb l l'
  | _, _ => false
  end.

(** What a class statement says: [__parameters__] (the type variables), the bases as written, and the
    method resolution order [__mro__] (the class itself first). *)
Record classinfo := Class { c_params : list tvar; c_bases : list ty; c_mro : list cid }.
Definition table := cid -> classinfo.

(** [typing.Generic] and [typing.Protocol]. *)
Definition generic_id : cid := 0.
Definition protocol_id : cid := 1.

(** Exceptions, and running out of fuel (shown not to happen). *)
Inductive exn := E_not_implemented | E_not_generic | E_not_subclass | E_multiple | E_assert | E_attribute
               | E_value | E_type | E_user | E_recursion | E_incompatible.
Inductive res (A : Type) := Ok (a : A) | Raise (e : exn) | OutOfFuel.
Arguments Ok {A} a.
Arguments Raise {A} e.
Arguments OutOfFuel {A}.

Definition rbind {A B} (r : res A) (f : A -> res B) : res B :=
  match r with Ok a => f a | Raise e => Raise e | OutOfFuel => OutOfFuel end.

Definition is_class (x : ty) : bool := match x with TClass _ => true | TAny => true | _ => false end.

(** Python sets [__orig_bases__] on a class when some base in the class statement is not a class
    ([types.resolve_bases]). *)
Definition own_orig_bases (k : classinfo) : option (list ty) :=
  if existsb (fun x => negb (is_class x)) (c_bases k) then Some (c_bases k) else None.

(** Attribute access [cls.__orig_bases__]: the first one along the method resolution order. *)
Fixpoint first_orig_bases (G : table) (mro : list cid) : option (list ty) :=
  match mro with
  | [] => None
  | c :: mro' => match own_orig_bases (G c) with
                 | Some xs => Some xs
                 | None => first_orig_bases G mro'
                 end
  end.
Definition orig_bases (G : table) (c : cid) : option (list ty) := first_orig_bases G (c_mro (G c)).

(** [issubclass(c, b)]. *)
Definition issubclass (G : table) (c b : cid) : bool := existsb (Nat.eqb b) (c_mro (G c)).

(** [typing.get_args]. *)
Definition get_args (x : ty) : list ty :=
  match x with
  | TSub _ args => args
  | TUnion l => l
  | TAnnot t k => t :: repeat (TOther 0) k
  | _ => []
  end.

(** [_typing.py:52-76] [get_origin_no_specials]. *)
Fixpoint get_origin_no_specials (x : ty) : res (option cid) :=
  match x with
  | TUnion _ => Raise E_not_implemented
  | TAnnot t _ => get_origin_no_specials t
  | TSub c _ => Ok (Some c)
  | TClass _ | TVar _ | TAny => Ok None
  | TOther _ => Raise E_not_implemented
  end.

(** [_typing.py:149, 166] [param_lookup.get(arg, Any)]. *)
Fixpoint lookup (ks : list tvar) (vs : list ty) (v : tvar) : ty :=
  match ks, vs with
  | k :: ks, x :: vs => if k =? v then x else lookup ks vs v
  | _, _ => TAny
  end.

(** [_typing.py:165-168]. *)
Definition fill (ks : list tvar) (vs : list ty) (arg : ty) : ty :=
  match arg with TVar v => lookup ks vs v | _ => arg end.

(** [base_params.add(...)] on a set. *)
Definition set_add (p : list ty) (acc : list (list ty)) : list (list ty) :=
  if existsb (tys_eqb p) acc then acc else acc ++ [p].

(** [_typing.py:154-175]: the loop over [cls.__orig_bases__].  [rec] is the recursive call. *)
Fixpoint scan_bases (G : table) (rec : cid -> list ty -> res (option (list ty))) (b : cid)
         (ks : list tvar) (vs : list ty) (xs : list ty) (acc : list (list ty))
  : res (list (list ty)) :=
  match xs with
  | [] => Ok acc
  | x :: xs' =>
      rbind (get_origin_no_specials x) (fun origin =>
      match origin with
      | Some o =>
          if (o =? generic_id) || (o =? protocol_id) then scan_bases G rec b ks vs xs' acc
          else
            match get_args x with
            | [] => Raise E_assert
            | args =>
                if issubclass G o b
                then rbind (rec o (map (fill ks vs) args)) (fun r =>
                       scan_bases G rec b ks vs xs'
                         (match r with Some p => set_add p acc | None => acc end))
                else scan_bases G rec b ks vs xs' acc
            end
      | None => if is_class x then scan_bases G rec b ks vs xs' acc else Raise E_assert
      end)
  end.

(** [_typing.py:143-190] [_get_args_of_impl].  [{k: v for k, v in zip(...)}] keeps the last of equal
    keys; Python does not allow equal type variables in [__parameters__]. *)
Fixpoint get_args_of_impl (fuel : nat) (G : table) (b c : cid) (ps : list ty)
  : res (option (list ty)) :=
  match fuel with
  | O => OutOfFuel
  | S fuel' =>
      if c =? b then Ok (Some ps)
      else if negb (length (c_params (G c)) =? length ps) then Raise E_assert
      else
        match orig_bases G c with
        | None => Raise E_attribute
        | Some xs =>
            rbind (scan_bases G (get_args_of_impl fuel' G b) b (c_params (G c)) ps xs []) (fun found =>
            match found with
            | [] => if issubclass G c b then Ok None else Raise E_assert
            | [p] => Ok (Some p)
            | _ => Raise E_multiple
            end)
        end
  end.

(** [_typing.py:127-131]: an argument of the outermost subscription that is a type variable. *)
Definition no_var (x : ty) : ty := match x with TVar _ => TAny | _ => x end.

(** [_typing.py:117-131]: the class, and its parameters. *)
Definition origin_params (G : table) (cls : ty) : res (cid * list ty) :=
  rbind (get_origin_no_specials cls) (fun origin =>
  match cls, origin with
  | TClass c, _ => Ok (c, map (fun _ => TAny) (c_params (G c)))
  | TAny, _ => Raise E_not_subclass
  | _, Some o => Ok (o, map no_var (get_args cls))
  | _, None => Raise E_assert
  end).

(** [_typing.py:79-140] [get_args_of]; [base_cls] is a class.  The recursion goes from a class to
    earlier ones, so its number is enough fuel. *)
Definition get_args_of (G : table) (b : cid) (cls : ty) : res (list ty) :=
  if negb (issubclass G b generic_id) then Raise E_not_generic else
  rbind (origin_params G cls) (fun '(c, ps) =>
  if issubclass G c b
  then rbind (get_args_of_impl (S c) G b c ps) (fun r =>
       match r with
       | None => Ok (map (fun _ => TAny) (c_params (G b)))
       | Some out => Ok out
       end)
  else Raise E_not_subclass).
