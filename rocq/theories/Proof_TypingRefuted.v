(** Where [get_args_of] and the check of terms do not do what they are meant to. *)
From Coq Require Import List Arith Bool Lia.
From Verif Require Import Model_Typing Spec_Typing Proof_Typing Model_Compat Spec_Compat Proof_Compat Proof_TypingProps.
From Verif Require Import Ex_Typing.
Import ListNotations.

Lemma pf_C64_nested_refuted :
  exists (G : table) (b c : cid) (cls : ty) (ps out out' : list ty),
    python_classes G /\ issubclass G b generic_id = true /\ uses G cls c ps /\
    get_args_of G b cls = Ok out /\ inherits_sub G b c ps out' /\ out <> out' /\
    forallb closed ps = true /\ forallb closed out = false.
Proof.
  exists G1, X1, N_, (TSub N_ [TClass str_]), [TClass str_], [TSub list_ [T]; TClass int_], [TSub list_ [TClass str_]; TClass int_].
  split; [exact G1_ok|]. split; [reflexivity|]. split; [exact (uses_sub G1 N_ [TClass str_] eq_refl)|].
  split; [reflexivity|]. split.
  { apply (ins_sub G1 X1 N_ _ X1 [TSub list_ [T]; TClass int_]).
    - discriminate.
    - left. reflexivity.
    - apply specialb_spec. reflexivity.
    - exact (ins_here G1 X1 _). }
  split; [discriminate|]. split; reflexivity.
Qed.

(** Everything [Q_] inherits from [X1]. *)
Lemma inherits_here_only (G : table) b ps out : python_classes G -> inherits G b b ps out -> out = ps.
Proof.
  intros HG H.
  assert (Hge : forall c ps out, inherits G b c ps out -> b <= c).
  { intros c ps' out' Hi. induction Hi as [ps'|c ps' d args out' Hin Hns Hi IH|c ps' d out' Hin Hi IH]; [lia| |].
    - destruct (py_bases G HG c _ Hin) as (d' & Hd & Hlt). injection Hd as <-. lia.
    - destruct (py_bases G HG c _ Hin) as (d' & Hd & Hlt). injection Hd as <-. lia. }
  inversion H as [|c ps' d args out' Hin Hns Hi|c ps' d out' Hin Hi]; subst; [reflexivity| |].
  - destruct (py_bases G HG b _ Hin) as (d' & Hd & Hlt). injection Hd as <-. specialize (Hge d _ _ Hi). lia.
  - destruct (py_bases G HG b _ Hin) as (d' & Hd & Hlt). injection Hd as <-. specialize (Hge d _ _ Hi). lia.
Qed.

Lemma inherits_P out ps : inherits G2 X1 P_ ps out -> out = [TClass int_; TClass str_].
Proof.
  intros H. inversion H as [|c ps' d args out' Hin Hns Hi|c ps' d out' Hin Hi]; subst.
  - destruct Hin as [E|[]]. injection E as <- <-. apply (inherits_here_only G2 X1 _ _ G2_ok) in Hi. exact Hi.
  - destruct Hin as [E|[]]. discriminate.
Qed.

Lemma pf_C64_plain_base_refuted :
  exists (G : table) (b c : cid) (cls : ty) (ps out out' : list ty),
    python_classes G /\ flat_bases G /\ issubclass G b generic_id = true /\ uses G cls c ps /\
    get_args_of G b cls = Ok out /\ (forall o, inherits G b c ps o <-> o = out') /\ out <> out'.
Proof.
  exists G2, X1, Q_, (TSub Q_ [TClass str_]), [TClass str_], [TAny; TAny], [TClass int_; TClass str_].
  split; [exact G2_ok|]. split; [exact G2_flat|]. split; [reflexivity|].
  split; [exact (uses_sub G2 Q_ [TClass str_] eq_refl)|]. split; [reflexivity|]. split; [|discriminate].
  intros o. split.
  - intros H. inversion H as [|c ps' d args out' Hin Hns Hi|c ps' d out' Hin Hi]; subst.
    + destruct Hin as [E|[E|[]]]; [discriminate|]. injection E as <- <-.
      inversion Hi as [|c ps' d args' out' Hin' Hns' Hi'|c ps' d out' Hin' Hi']; subst.
      * destruct Hin' as [E|[]]. injection E as <- <-. exfalso. apply Hns'. left. reflexivity.
      * destruct Hin' as [E|[]]. discriminate.
    + destruct Hin as [E|[E|[]]]; [|discriminate]. injection E as <-. exact (inherits_P o _ Hi).
  - intros ->. apply (inh_plain G2 X1 Q_ _ P_); [left; reflexivity|].
    apply (inh_sub G2 X1 P_ _ X1 [TClass int_; TClass str_]);
      [left; reflexivity|apply specialb_spec; reflexivity|exact (inh_here G2 X1 _)].
Qed.

Lemma pf_C64_plain_ambiguous_refuted :
  exists (G : table) (b c : cid) (cls : ty) (ps out out' : list ty),
    python_classes G /\ flat_bases G /\ issubclass G b generic_id = true /\ uses G cls c ps /\
    get_args_of G b cls = Ok out /\ inherits G b c ps out /\ inherits G b c ps out' /\ out <> out'.
Proof.
  exists G2, X1, PP_, (TClass PP_), [], [TClass int_; TClass str_], [TClass str_; TClass str_].
  split; [exact G2_ok|]. split; [exact G2_flat|]. split; [reflexivity|].
  split; [exact (uses_class G2 PP_)|]. split; [reflexivity|]. split; [|split; [|discriminate]].
  - apply (inh_plain G2 X1 PP_ _ P_); [left; reflexivity|].
    apply (inh_sub G2 X1 P_ _ X1 [TClass int_; TClass str_]);
      [left; reflexivity|apply specialb_spec; reflexivity|exact (inh_here G2 X1 _)].
  - apply (inh_plain G2 X1 PP_ _ P'_); [right; left; reflexivity|].
    apply (inh_sub G2 X1 P'_ _ X1 [TClass str_; TClass str_]);
      [left; reflexivity|apply specialb_spec; reflexivity|exact (inh_here G2 X1 _)].
Qed.

Lemma pf_C64_annotated_refuted :
  exists (G : table) (b : cid) (args out : list ty) (metadata : nat),
    python_classes G /\ flat_bases G /\
    get_args_of G b (TSub b args) = Ok args /\
    get_args_of G b (TAnnot (TSub b args) metadata) = Ok out /\ out <> args.
Proof.
  exists G0, X1, [TClass int_; TClass str_], [TSub X1 [TClass int_; TClass str_]; TOther 0], 1.
  split; [exact G0_ok|]. split; [exact G0_flat|]. split; [reflexivity|]. split; [reflexivity|]. discriminate.
Qed.

Lemma pf_C65_count_refuted :
  exists (G : table) (s : tree ty) (t : tree (term cid nat bool)) (kw : tree bool) (y : tree nat),
    good_structure G s /\ kwargs_for_tree s kw /\ tree_forall evaluates t /\
    assert_term_compatible inst0 G s t kw y = Raise E_assert.
Proof.
  exists G0, (structure_sde (TClass real_)), (Leaf three0), (Node [Leaf false; Leaf false]), (Leaf 0).
  split.
  { constructor. constructor. intros a [<-|[<-|[]]]; [apply (good_sub G0 G0_terms); reflexivity|apply (good_any G0 G0_terms)]. }
  split.
  { constructor. constructor; [reflexivity|]. intros [|[|[|i]]] a k E1 E2; cbn in E1, E2; try discriminate;
      injection E1 as <-; injection E2 as <-.
    - apply (kf_single _ term_id). right. eexists. split; [reflexivity|discriminate].
    - apply (kf_single _ term_id). left. reflexivity. }
  split; [|reflexivity].
  constructor. constructor; [discriminate|discriminate|].
  intros t Ht.
  assert (Ho : evaluates ode0) by (constructor; [discriminate|intros; discriminate|intros ? []]).
  assert (Hb : evaluates brownian0) by (constructor; [discriminate|intros; discriminate|intros ? []]).
  destruct Ht as [<-|[<-|[<-|[]]]]; assumption.
Qed.

Lemma pf_C65_tuple_refuted :
  exists (G : table) (real : ty) (t1 t2 : term cid nat bool) (k : bool) (y : nat),
    term_classes G /\ issubclass G (t_class t1) ode_id = true /\
    assert_term_compatible inst0 G (structure_sde real) (Leaf (multi_term (fun _ => tuple_id) [t1; t2]))
      (Node [Leaf k; Leaf k]) (Leaf y) = Ok tt /\
    assert_term_compatible inst0 G (structure_sde real)
      (upgrade_terms inst0 G (fun _ => tuple_id) (Node [Leaf k; Leaf k]) (Node [Leaf t1; Leaf t2]) (Leaf y))
      (Node [Leaf k; Leaf k]) (Leaf y) = Raise E_incompatible.
Proof.
  exists G0, (TClass real_), ode0, brownian0, false, 0.
  split; [exact G0_terms|]. split; [reflexivity|]. split; reflexivity.
Qed.

