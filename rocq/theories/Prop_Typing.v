(** Theorems about the arguments of generic classes and about which terms a solver accepts: C64, C65. *)
From Coq Require Import List Arith Bool.
From Verif Require Import Model_Typing Spec_Typing Model_Compat Spec_Compat.
From Verif Require Import Proof_TypingProps Ex_Typing Proof_TypingRefuted.
Import ListNotations.

(** C64: what is returned is how the class inherits from the base, or [Any] throughout. *)
  Theorem C64_sound :
    forall (G : table) (b c : cid) (cls : ty) (ps out : list ty),
    python_classes G -> flat_bases G -> issubclass G b generic_id = true -> uses G cls c ps ->
  get_args_of G b cls = Ok out -> inherits G b c ps out \/ out = anys G b.
  Proof. exact pf_C64_sound. Qed.
(** C64: every way to inherit with subscripts is the one returned. *)
  Theorem C64_complete :
    forall (G : table) (b c : cid) (cls : ty) (ps out out' : list ty),
    python_classes G -> flat_bases G -> issubclass G b generic_id = true -> uses G cls c ps ->
  get_args_of G b cls = Ok out -> inherits_sub G b c ps out' -> out' = out.
  Proof. exact pf_C64_complete. Qed.
(** C64: a subclass gives a result, or an error if there are two ways to inherit; any other class gives an error. *)
  Theorem C64_total :
    forall (G : table) (b c : cid) (cls : ty) (ps : list ty),
    python_classes G -> flat_bases G -> issubclass G b generic_id = true -> uses G cls c ps ->
  c_params (G b) <> [] ->
  if issubclass G c b
  then (exists out, get_args_of G b cls = Ok out) \/
       (get_args_of G b cls = Raise E_multiple /\
        exists out1 out2, out1 <> out2 /\ inherits G b c ps out1 /\ inherits G b c ps out2)
  else get_args_of G b cls = Raise E_not_subclass.
  Proof. exact pf_C64_total. Qed.
(** C64: two different ways to inherit with subscripts are an error. *)
  Theorem C64_ambiguous :
    forall (G : table) (b c : cid) (cls : ty) (ps out1 out2 : list ty),
    python_classes G -> flat_bases G -> issubclass G b generic_id = true -> uses G cls c ps ->
  c_params (G b) <> [] -> issubclass G c b = true ->
  inherits_sub G b c ps out1 -> inherits_sub G b c ps out2 -> out1 <> out2 ->
  get_args_of G b cls = Raise E_multiple.
  Proof. exact pf_C64_ambiguous. Qed.
(** C64: there are as many arguments as the base has type variables. *)
  Theorem C64_length :
    forall (G : table) (b c : cid) (cls : ty) (ps out : list ty),
    python_classes G -> flat_bases G -> issubclass G b generic_id = true -> uses G cls c ps ->
  get_args_of G b cls = Ok out -> length out = length (c_params (G b)).
  Proof. exact pf_C64_length. Qed.

(** C64: type variables inside an argument are not replaced. *)
  Theorem C64_nested_refuted :
    exists (G : table) (b c : cid) (cls : ty) (ps out out' : list ty),
    python_classes G /\ issubclass G b generic_id = true /\ uses G cls c ps /\
    get_args_of G b cls = Ok out /\ inherits_sub G b c ps out' /\ out <> out' /\
    forallb closed ps = true /\ forallb closed out = false.
  Proof. exact pf_C64_nested_refuted. Qed.
(** C64: beside a subscripted base, the arguments given by a base without subscript are lost. *)
  Theorem C64_plain_base_refuted :
    exists (G : table) (b c : cid) (cls : ty) (ps out out' : list ty),
    python_classes G /\ flat_bases G /\ issubclass G b generic_id = true /\ uses G cls c ps /\
    get_args_of G b cls = Ok out /\ (forall o, inherits G b c ps o <-> o = out') /\ out <> out'.
  Proof. exact pf_C64_plain_base_refuted. Qed.
(** C64: two different ways to inherit through bases without subscript are no error. *)
  Theorem C64_plain_ambiguous_refuted :
    exists (G : table) (b c : cid) (cls : ty) (ps out out' : list ty),
    python_classes G /\ flat_bases G /\ issubclass G b generic_id = true /\ uses G cls c ps /\
    get_args_of G b cls = Ok out /\ inherits G b c ps out /\ inherits G b c ps out' /\ out <> out'.
  Proof. exact pf_C64_plain_ambiguous_refuted. Qed.
(** C64: the arguments of an annotated class are not those of the class. *)
  Theorem C64_annotated_refuted :
    exists (G : table) (b : cid) (args out : list ty) (metadata : nat),
    python_classes G /\ flat_bases G /\
    get_args_of G b (TSub b args) = Ok args /\
    get_args_of G b (TAnnot (TSub b args) metadata) = Ok out /\ out <> args.
  Proof. exact pf_C64_annotated_refuted. Qed.

(** The classes of [test/test_typing.py], and those of [_term.py]. *)
Example C64_instance :
  python_classes G0 /\ flat_bases G0 /\ issubclass G0 X1 generic_id = true /\ c_params (G0 X1) <> [] /\
  uses G0 (TSub X8 [TClass float_]) X8 [TClass float_] /\
  get_args_of G0 X1 (TSub X8 [TClass float_]) = Ok [TClass bool_; TClass bool_] /\
  get_args_of G0 X1 (TClass X7) = Raise E_multiple /\
  get_args_of G0 X1 (TClass X9) = Ok [TClass int_; TClass int_] /\
  get_args_of G0 term_id (TClass ode_id) = Ok [TAny; TClass real_] /\
  get_args_of G0 X1 (TClass ode_id) = Raise E_not_subclass.
Proof.
  split; [exact G0_ok|]. split; [exact G0_flat|]. split; [reflexivity|]. split; [discriminate|].
  split; [exact (uses_sub G0 X8 [TClass float_] eq_refl)|]. repeat split; reflexivity.
Qed.

Section Terms.
  Context {V A K : Type}.
  (** C65: terms are accepted exactly if they fit the structure of the solver. *)
  Theorem C65_accept :
    forall (inst : V -> cid -> bool) (G : table) (s : tree ty) (t : tree (term V A K)) (kw : tree K) (y : tree A),
    good_structure G s ->
    (assert_term_compatible inst G s t kw y = Ok tt <-> fits_tree inst G s t kw y).
  Proof. exact pf_C65_accept. Qed.
  (** C65: other terms are refused with the error for incompatible terms, or with an [AssertionError] if a
      [MultiTerm] has the wrong number of terms. *)
  Theorem C65_refuse :
    forall (inst : V -> cid -> bool) (G : table) (s : tree ty) (t : tree (term V A K)) (kw : tree K) (y : tree A),
    good_structure G s -> kwargs_for_tree s kw -> tree_forall evaluates t ->
    assert_term_compatible inst G s t kw y = Ok tt \/
    assert_term_compatible inst G s t kw y = Raise E_incompatible \/
    (assert_term_compatible inst G s t kw y = Raise E_assert /\ wrong_count_tree G s t).
  Proof. exact pf_C65_refuse. Qed.
  (** C65: the keyword arguments used by default. *)
  Theorem C65_default_kwargs :
    forall (G : table) (s : tree ty) (empty : K) (kw : tree K),
    good_structure G s -> contr_kwargs G empty s = Ok kw ->
    kwargs_for_tree s kw /\ all_leaves empty kw.
  Proof. exact pf_C65_default_kwargs. Qed.
  (** C65: solvers for one term. *)
  Theorem C65_any :
    forall (inst : V -> cid -> bool) (G : table) (t : tree (term V A K)) (kw : tree K) (y : tree A),
    term_classes G ->
    (assert_term_compatible inst G structure_any t kw y = Ok tt <->
     exists tm k, t = Leaf tm /\ kw = Leaf k /\ In term_id (c_mro (G (t_class tm))) /\
       t_vf tm y <> None /\ t_contr tm k <> None).
  Proof. exact pf_C65_any. Qed.
  (** C65: [SemiImplicitEuler]. *)
  Theorem C65_pair :
    forall (inst : V -> cid -> bool) (G : table) (t : tree (term V A K)) (k : K) (y : tree A),
    term_classes G ->
    (assert_term_compatible inst G structure_pair t (Node [Leaf k; Leaf k]) y = Ok tt <->
     exists t1 t2 y1 y2, t = Node [Leaf t1; Leaf t2] /\ y = Node [y1; y2] /\
       In term_id (c_mro (G (t_class t1))) /\ In term_id (c_mro (G (t_class t2))) /\
       t_vf t1 y1 <> None /\ t_contr t1 k <> None /\ t_vf t2 y2 <> None /\ t_contr t2 k <> None).
  Proof. exact pf_C65_pair. Qed.
  (** C65: implicit-explicit Runge-Kutta methods. *)
  Theorem C65_imex :
    forall (inst : V -> cid -> bool) (G : table) (n : nat) (t : tree (term V A K)) (k : K) (y : tree A),
    term_classes G ->
    (assert_term_compatible inst G (structure_imex n) t (Node (repeat (Leaf k) n)) y = Ok tt <->
     exists tm, t = Leaf tm /\ In multi_id (c_mro (G (t_class tm))) /\ length (t_subs tm) = n /\
       forall u, In u (t_subs tm) ->
         In term_id (c_mro (G (t_class u))) /\ t_vf u y <> None /\ t_contr u k <> None).
  Proof. exact pf_C65_imex. Qed.
  (** C65: [EulerHeun], [ItoMilstein], [StratonovichMilstein]. *)
  Theorem C65_sde :
    forall (inst : V -> cid -> bool) (G : table) (real : ty) (t : tree (term V A K)) (k : K) (y : tree A),
    term_classes G -> checkable real = true ->
    (assert_term_compatible inst G (structure_sde real) t (Node [Leaf k; Leaf k]) y = Ok tt <->
     exists tm t1 t2 w, t = Leaf tm /\ In multi_id (c_mro (G (t_class tm))) /\ t_subs tm = [t1; t2] /\
       In term_id (c_mro (G (t_class t1))) /\ In term_id (c_mro (G (t_class t2))) /\
       t_vf t1 y <> None /\ t_contr t1 k = Some w /\ instance_of inst w real /\
       t_vf t2 y <> None /\ t_contr t2 k <> None).
  Proof. exact pf_C65_sde. Qed.
  (** C65: stochastic Runge-Kutta methods: the control of the second term is the required Levy area. *)
  Theorem C65_srk :
    forall (inst : V -> cid -> bool) (G : table) (real : ty) (levy : cid) (t : tree (term V A K)) (empty use_levy : K) (y : tree A),
    term_classes G -> checkable real = true ->
    (assert_term_compatible inst G (structure_srk real levy) t (kwargs_srk empty use_levy) y = Ok tt <->
     exists tm t1 t2 w1 w2, t = Leaf tm /\ In multi_id (c_mro (G (t_class tm))) /\ t_subs tm = [t1; t2] /\
       In term_id (c_mro (G (t_class t1))) /\ In term_id (c_mro (G (t_class t2))) /\
       t_vf t1 y <> None /\ t_contr t1 empty = Some w1 /\ instance_of inst w1 real /\
       t_vf t2 y <> None /\ t_contr t2 use_levy = Some w2 /\ inst w2 levy = true).
  Proof. exact pf_C65_srk. Qed.
  (** C65: a tuple of terms is never accepted in place of a [MultiTerm] unless [y0] is a tuple. *)
  Theorem C65_tuple_array :
    forall (inst : V -> cid -> bool) (G : table) (real : ty) (tuple_of : list V -> V) (ts : list (tree (term V A K))) (kw : tree K) (y : A),
    assert_term_compatible inst G (structure_sde real) (upgrade_terms inst G tuple_of kw (Node ts) (Leaf y)) kw (Leaf y) <> Ok tt.
  Proof. exact pf_C65_tuple_array. Qed.
(** C65: with a pair as [y0], a tuple of terms is turned into a [MultiTerm] exactly if it is an [ODETerm] and a term. *)
  Theorem C65_tuple_pair :
    forall (inst : V -> cid -> bool) (G : table) (real : ty) (tuple_of : list V -> V) (t1 t2 : term V A K) (k : K) (y1 y2 : tree A),
    term_classes G -> checkable real = true -> get_args_of G term_id (TClass ode_id) = Ok [TAny; real] ->
  (upgrade_terms inst G tuple_of (Node [Leaf k; Leaf k]) (Node [Leaf t1; Leaf t2]) (Node [y1; y2])
     = Leaf (multi_term tuple_of [t1; t2]) <->
   In ode_id (c_mro (G (t_class t1))) /\ In term_id (c_mro (G (t_class t2))) /\
   t_vf t1 y1 <> None /\ (exists w, t_contr t1 k = Some w /\ instance_of inst w real) /\
   t_vf t2 y2 <> None /\ t_contr t2 k <> None).
  Proof. exact pf_C65_tuple_pair. Qed.
End Terms.

(** C65: the wrong number of terms does not give the error for incompatible terms. *)
  Theorem C65_count_refuted :
    exists (G : table) (s : tree ty) (t : tree (term cid nat bool)) (kw : tree bool) (y : tree nat),
    good_structure G s /\ kwargs_for_tree s kw /\ tree_forall evaluates t /\
    assert_term_compatible inst0 G s t kw y = Raise E_assert.
  Proof. exact pf_C65_count_refuted. Qed.
(** C65: the deprecated tuple is refused although the [MultiTerm] of the same terms is accepted. *)
  Theorem C65_tuple_refuted :
    exists (G : table) (real : ty) (t1 t2 : term cid nat bool) (k : bool) (y : nat),
    term_classes G /\ issubclass G (t_class t1) ode_id = true /\
    assert_term_compatible inst0 G (structure_sde real) (Leaf (multi_term (fun _ => tuple_id) [t1; t2]))
      (Node [Leaf k; Leaf k]) (Leaf y) = Ok tt /\
    assert_term_compatible inst0 G (structure_sde real)
      (upgrade_terms inst0 G (fun _ => tuple_id) (Node [Leaf k; Leaf k]) (Node [Leaf t1; Leaf t2]) (Leaf y))
      (Node [Leaf k; Leaf k]) (Leaf y) = Raise E_incompatible.
  Proof. exact pf_C65_tuple_refuted. Qed.

(** Concrete terms and structures. *)
Example C65_instance :
  term_classes G0 /\ checkable (TClass real_) = true /\
  good_structure G0 (structure_langevin drift_id diffusion_id) /\
  assert_term_compatible inst0 G0 (structure_srk (TClass real_) levy_id) (Leaf sde0) (kwargs_srk false true) (Leaf 0) = Ok tt /\
  assert_term_compatible inst0 G0 (structure_sde (TClass real_)) (Leaf sde0) (Node [Leaf false; Leaf false]) (Leaf 0) = Ok tt /\
  assert_term_compatible inst0 G0 (structure_srk (TClass real_) levy_id)
    (Leaf (multi_term (fun _ : list cid => tuple_id) [brownian0; ode0])) (kwargs_srk false true) (Leaf 0) = Raise E_incompatible /\
  assert_term_compatible inst0 G0 structure_any (Leaf sde0) (Leaf false) (Leaf 0) = Ok tt /\
  assert_term_compatible inst0 G0 structure_pair (Node [Leaf ode0; Leaf ode0]) (Node [Leaf false; Leaf false]) (Node [Leaf 0; Leaf 1]) = Ok tt /\
  assert_term_compatible inst0 G0 (structure_imex 2) (Leaf sde0) (Node [Leaf false; Leaf false]) (Leaf 0) = Ok tt /\
  contr_kwargs G0 false (structure_sde (TClass real_)) = Ok (Node [Leaf false; Leaf false]).
Proof.
  split; [exact G0_terms|]. split; [reflexivity|]. split; [exact ex_langevin_good|]. repeat split; reflexivity.
Qed.

Print Assumptions C64_sound.
Print Assumptions C64_complete.
Print Assumptions C64_total.
Print Assumptions C64_ambiguous.
Print Assumptions C64_length.
Print Assumptions C64_nested_refuted.
Print Assumptions C64_plain_base_refuted.
Print Assumptions C64_plain_ambiguous_refuted.
Print Assumptions C64_annotated_refuted.
Print Assumptions C65_accept.
Print Assumptions C65_refuse.
Print Assumptions C65_default_kwargs.
Print Assumptions C65_any.
Print Assumptions C65_pair.
Print Assumptions C65_imex.
Print Assumptions C65_sde.
Print Assumptions C65_srk.
Print Assumptions C65_tuple_array.
Print Assumptions C65_tuple_pair.
Print Assumptions C65_count_refuted.
Print Assumptions C65_tuple_refuted.
