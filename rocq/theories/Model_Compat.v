(** Model of [_assert_term_compatible] in [diffrax/_integrate.py] and of the solver attributes
    [term_structure] and [term_compatible_contr_kwargs]. *)
From Coq Require Import List Arith Bool.
From Verif Require Import Model_Typing.
Import ListNotations.

(** PyTrees; simplification: tuples are the only nodes. *)
Inductive tree (A : Type) := Leaf (a : A) | Node (l : list (tree A)).
Arguments Leaf {A} a.
Arguments Node {A} l.

(** The classes [tuple], [AbstractTerm], [MultiTerm], [ODETerm]. *)
Definition tuple_id : cid := 2.
Definition term_id : cid := 10.
Definition multi_id : cid := 11.
Definition ode_id : cid := 12.

Section Compat.
  (** [V]: what [eval_shape] returns; [A]: leaves of [y]; [K]: dictionaries of keyword arguments. *)
  Context {V A K : Type}.
  (** [isinstance] of such a result. *)
  Context (inst : V -> cid -> bool).

  (** A term: its class, the terms it is made of ([MultiTerm.terms]), [vf] at the given time and
      arguments as a function of [y], and [contr] at the given times as a function of the keyword
      arguments.  [None]: the evaluation raises. *)
  Inductive term :=
  | Term (cls : cid) (subs : list term) (vf : tree A -> option V) (contr : K -> option V).

  Definition t_class (t : term) : cid := let 'Term c _ _ _ := t in c.
  Definition t_subs (t : term) : list term := let 'Term _ s _ _ := t in s.
  Definition t_vf (t : term) : tree A -> option V := let 'Term _ _ v _ := t in v.
  Definition t_contr (t : term) : K -> option V := let 'Term _ _ _ k := t in k.

  (** [_typing.py:32-49] [better_isinstance].  [Annotated] and [Literal] are not accepted
      (simplification: before Python 3.13, [Annotated] gives [False] and not an error). *)
  Fixpoint better_isinstance (x : V) (ann : ty) : res bool :=
    match ann with
    | TUnion l =>
        (fix any (l : list ty) : res bool :=
           match l with
           | [] => Ok false
           | a :: l => rbind (better_isinstance x a) (fun r => if r then Ok true else any l)
           end) l
    | TSub c _ => Ok (inst x c)
    | TAny => Ok true
    | TClass c => Ok (inst x c)
    | TVar _ | TAnnot _ _ | TOther _ => Raise E_not_implemented
    end.

  Definition opt {B} (o : option B) : res B := match o with Some b => Ok b | None => Raise E_user end.

  (** [_integrate.py:147-194]: a leaf of the structure that is not a subscripted [MultiTerm]. *)
  Definition check_single (G : table) (cls : ty) (t : tree term) (kw : tree K) (y : tree A) : res unit :=
    rbind (get_origin_no_specials cls) (fun origin =>
    rbind (match origin, cls with
           | Some o, _ => Ok o
           | None, TClass c => Ok c
           | None, _ => Raise E_type      (* [isinstance] with something that is not a class *)
           end) (fun origin_cls =>
    match t with
    | Node _ => Raise E_incompatible
    | Leaf tm =>
        if negb (issubclass G (t_class tm) origin_cls) then Raise E_incompatible else
        rbind (get_args_of G term_id cls) (fun args =>
        match args with
        | [] => Ok tt
        | [vf_expected; control_expected] =>
            rbind (opt (t_vf tm y)) (fun vf =>
            rbind (better_isinstance vf vf_expected) (fun ok1 =>
            if negb ok1 then Raise E_incompatible else
            match kw with
            | Node _ => Raise E_type       (* [**kwargs] with a tuple *)
            | Leaf k =>
                rbind (opt (t_contr tm k)) (fun control =>
                rbind (better_isinstance control control_expected) (fun ok2 =>
                if negb ok2 then Raise E_incompatible else Ok tt))
            end))
        | _ => Raise E_assert
        end)
    end)).

  (** [_integrate.py:131-194] [_check], at one leaf of the structure; for the components of a
      [MultiTerm] it is called through [_assert_term_compatible], which for a class is the same. *)
  Fixpoint check (G : table) (cls : ty) (t : tree term) (kw : tree K) (y : tree A) {struct cls}
    : res unit :=
    match cls with
    | TSub c cargs =>
        if c =? multi_id then
          match t with
          | Leaf tm =>
              if issubclass G (t_class tm) multi_id then
                match cargs with
                | [TSub tp args] =>
                    if negb (tp =? tuple_id) then Raise E_assert
                    else if negb (length (t_subs tm) =? length args) then Raise E_assert
                    else
                      match kw with
                      | Leaf _ => Raise E_assert
                      | Node kws =>
                          if negb (length (t_subs tm) =? length kws) then Raise E_assert
                          else
                            (fix each (args : list ty) (ts : list term) (kws : list (tree K)) : res unit :=
                               match args, ts, kws with
                               | a :: args, t :: ts, k :: kws =>
                                   rbind (check G a (Leaf t) k y) (fun _ => each args ts kws)
                               | _, _, _ => Ok tt
                               end) args (t_subs tm) kws
                      end
                | [_] => Raise E_assert
                | _ => Raise E_value
                end
              else Raise E_incompatible
          | Node _ => Raise E_incompatible
          end
        else check_single G cls t kw y
    | TAnnot _ _ =>
        rbind (get_origin_no_specials cls) (fun origin =>
        match origin with
        | Some o => if o =? multi_id
                    then match t with
                         | Leaf tm => if issubclass G (t_class tm) multi_id
                                      then Raise E_value   (* [[_tmp] = get_args(term_cls)] *)
                                      else Raise E_incompatible
                         | Node _ => Raise E_incompatible
                         end
                    else check_single G cls t kw y
        | None => check_single G cls t kw y
        end)
    | _ => check_single G cls t kw y
    end.

  (** [_integrate.py:196-205]: is the structure a prefix of the trees? *)
  Fixpoint prefix_ok (s : tree ty) (t : tree term) (kw : tree K) (y : tree A) : bool :=
    match s with
    | Leaf _ => true
    | Node ss =>
        match t, kw, y with
        | Node ts, Node ks, Node ys =>
            (length ss =? length ts) && (length ss =? length ks) && (length ss =? length ys) &&
            (fix each (ss : list (tree ty)) ts ks ys : bool :=
               match ss, ts, ks, ys with
               | s :: ss, t :: ts, k :: ks, y :: ys => prefix_ok s t k y && each ss ts ks ys
               | _, _, _, _ => true
               end) ss ts ks ys
        | _, _, _ => false
        end
    end.

  (** [_integrate.py:206-216]: the check at every leaf of the structure, in order. *)
  Fixpoint check_tree (G : table) (s : tree ty) (t : tree term) (kw : tree K) (y : tree A) : res unit :=
    match s with
    | Leaf cls => check G cls t kw y
    | Node ss =>
        match t, kw, y with
        | Node ts, Node ks, Node ys =>
            (fix each (ss : list (tree ty)) ts ks ys : res unit :=
               match ss, ts, ks, ys with
               | s :: ss, t :: ts, k :: ks, y :: ys =>
                   rbind (check_tree G s t k y) (fun _ => each ss ts ks ys)
               | _, _, _, _ => Ok tt
               end) ss ts ks ys
        | _, _, _ => Raise E_incompatible
        end
    end.

  (** [_integrate.py:121-216] [_assert_term_compatible]. *)
  Definition assert_term_compatible (G : table) (s : tree ty) (t : tree term) (kw : tree K) (y : tree A)
    : res unit :=
    if prefix_ok s t kw y then check_tree G s t kw y else Raise E_incompatible.

  (** [_solver/base.py:60-69] [_term_compatible_contr_kwargs], for a leaf of the structure.  On a leaf
      that is not a class of terms, [tree_map] calls the function again with the same argument. *)
  Fixpoint leaf_kwargs (G : table) (empty : K) (cls : ty) : res (tree K) :=
    match cls with
    | TSub c cargs =>
        if c =? multi_id then
          match cargs with
          | [TSub _ args] =>
              rbind ((fix each (args : list ty) : res (list (tree K)) :=
                        match args with
                        | [] => Ok []
                        | a :: args => rbind (leaf_kwargs G empty a) (fun k =>
                                       rbind (each args) (fun ks => Ok (k :: ks)))
                        end) args) (fun ks => Ok (Node ks))
          | [_] => Ok (Node [])
          | _ => Raise E_value
          end
        else if issubclass G c term_id then Ok (Leaf empty) else Raise E_recursion
    | TClass c => if issubclass G c term_id then Ok (Leaf empty) else Raise E_recursion
    | _ => Raise E_recursion
    end.

  Fixpoint contr_kwargs (G : table) (empty : K) (s : tree ty) : res (tree K) :=
    match s with
    | Leaf cls => leaf_kwargs G empty cls
    | Node ss =>
        rbind ((fix each (ss : list (tree ty)) : res (list (tree K)) :=
                  match ss with
                  | [] => Ok []
                  | s :: ss => rbind (contr_kwargs G empty s) (fun k =>
                               rbind (each ss) (fun ks => Ok (k :: ks)))
                  end) ss) (fun ks => Ok (Node ks))
    end.

  (** A [MultiTerm] of a tuple of terms; [_term.py:666-731].  Its [vf] and [contr] are the tuples of those of its
      parts; [tuple_of] makes the result. *)
  Definition all_some {B} (l : list (option B)) : option (list B) :=
    fold_right (fun o acc => match o, acc with Some b, Some bs => Some (b :: bs) | _, _ => None end)
               (Some []) l.
  Definition multi_term (tuple_of : list V -> V) (ts : list term) : term :=
    Term multi_id ts (fun y => option_map tuple_of (all_some (map (fun t => t_vf t y) ts)))
         (fun k => option_map tuple_of (all_some (map (fun t => t_contr t k) ts))).

  (** [_integrate.py:1102-1124]: for [EulerHeun], [ItoMilstein] and [StratonovichMilstein], a tuple of
      terms is turned into a [MultiTerm] if it passes the check against [(ODETerm, AbstractTerm)]. *)
  Definition upgrade_terms (G : table) (tuple_of : list V -> V) (kw : tree K) (t : tree term)
             (y : tree A) : tree term :=
    match assert_term_compatible G (Node [Leaf (TClass ode_id); Leaf (TClass term_id)]) t kw y with
    | Ok _ =>
        match t with
        | Node ts =>
            match all_some (map (fun u => match u with Leaf tm => Some tm | Node _ => None end) ts) with
            | Some tms => Leaf (multi_term tuple_of tms)
            | None => t
            end
        | Leaf _ => t
        end
    | _ => t
    end.

  (** The structures of the shipped solvers.  [real]: the annotation [RealScalarLike].
      [_solver/{euler,implicit_euler,leapfrog_midpoint,reversible_heun}.py], and
      [runge_kutta.py:370-373] for one tableau. *)
  Definition structure_any : tree ty := Leaf (TClass term_id).
  (** [_solver/semi_implicit_euler.py:28]. *)
  Definition structure_pair : tree ty := Node [Leaf (TClass term_id); Leaf (TClass term_id)].
  (** [_solver/runge_kutta.py:384-388], for [n] tableaus. *)
  Definition structure_imex (n : nat) : tree ty :=
    Leaf (TSub multi_id [TSub tuple_id (repeat (TClass term_id) n)]).
  (** [_solver/euler_heun.py:29-31], [milstein.py:44-46, 123-125]. *)
  Definition structure_sde (real : ty) : tree ty :=
    Leaf (TSub multi_id [TSub tuple_id [TSub term_id [TAny; real]; TClass term_id]]).
  (** [_solver/srk.py:287-294]; [levy] is [minimal_levy_area]. *)
  Definition structure_srk (real : ty) (levy : cid) : tree ty :=
    Leaf (TSub multi_id [TSub tuple_id [TSub term_id [TAny; real]; TSub term_id [TAny; TClass levy]]]).
  (** [_solver/srk.py:269]: [(dict(), dict(use_levy=True))]. *)
  Definition kwargs_srk (empty use_levy : K) : tree K := Node [Leaf empty; Leaf use_levy].
  (** [_solver/foster_langevin_srk.py:124-126]; the classes of the two terms. *)
  Definition structure_langevin (drift diffusion : cid) : tree ty :=
    Leaf (TSub multi_id [TSub tuple_id [TClass drift; TClass diffusion]]).
End Compat.
Arguments term : clear implicits.
