(** Concrete class tables: the classes of [test/test_typing.py] and of [_term.py], and the witnesses of the
    refutations. *)
From Coq Require Import List Arith Bool Lia.
From Verif Require Import Model_Typing Spec_Typing Proof_Typing Model_Compat Spec_Compat Proof_Compat Proof_TypingProps.
Import ListNotations.

(** A table from a list; other numbers are classes without bases. *)
Definition table_of (l : list classinfo) : table :=
  fun c => match nth_error l c with Some k => k | None => Class [] [] [c] end.

(** A boolean check of [python_classes]. *)
Definition specialb (c : cid) : bool := (c =? generic_id) || (c =? protocol_id).
Lemma specialb_spec c : specialb c = false <-> ~ special c.
Proof.
  unfold specialb, special. rewrite orb_false_iff, !Nat.eqb_neq. tauto.
Qed.

Fixpoint mro_ok (G : table) (seen rest : list cid) : bool :=
  match rest with
  | [] => true
  | x :: rest =>
      existsb (fun y => existsb (fun z => match base_class z with Some d => d =? x | None => false end)
                                (c_bases (G y))) seen && mro_ok G (seen ++ [x]) rest
  end.

Definition class_ok (G : table) (c : cid) : bool :=
  let k := G c in
  forallb (fun x => match base_class x with Some d => d <? c | None => false end) (c_bases k) &&
  forallb (fun x => match x with
                    | TSub d args => specialb d || (negb (length args =? 0) &&
                                     (length args =? length (c_params (G d))))
                    | _ => true end) (c_bases k) &&
  match own_orig_bases k with None => length (c_params k) =? 0 | Some _ => true end &&
  match c_mro k with h :: rest => (h =? c) && mro_ok G [h] rest | [] => false end &&
  forallb (fun x => match base_class x with
                    | Some d => forallb (fun z => existsb (Nat.eqb z) (c_mro k)) (c_mro (G d))
                    | None => true end) (c_bases k).

Lemma mro_ok_spec G : forall rest seen, mro_ok G seen rest = true ->
  forall l1 x l2, rest = l1 ++ x :: l2 ->
  exists y z, In y (seen ++ l1) /\ In z (c_bases (G y)) /\ base_class z = Some x.
Proof.
  induction rest as [|r rest IH]; intros seen H l1 x l2 He; [destruct l1; discriminate|].
  cbn [mro_ok] in H. apply andb_true_iff in H. destruct H as [H1 H2].
  destruct l1 as [|a l1]; cbn in He; injection He as -> He.
  - apply existsb_exists in H1. destruct H1 as (y & Hy & H1). apply existsb_exists in H1.
    destruct H1 as (z & Hz & H1). exists y, z. rewrite app_nil_r. split; [exact Hy|]. split; [exact Hz|].
    destruct (base_class z) as [d|]; [|discriminate]. apply Nat.eqb_eq in H1. congruence.
  - destruct (IH (seen ++ [a]) H2 l1 x l2 He) as (y & z & Hy & Hz). exists y, z.
    rewrite <- app_assoc in Hy. auto.
Qed.

Lemma table_ok l : forallb (class_ok (table_of l)) (seq 0 (length l)) = true -> python_classes (table_of l).
Proof.
  intros H.
  assert (Hc : forall c, class_ok (table_of l) c = true).
  { intros c. destruct (Nat.lt_ge_cases c (length l)) as [Hlt|Hge].
    - rewrite forallb_forall in H. apply H. apply in_seq. lia.
    - unfold class_ok, table_of. rewrite (proj2 (nth_error_None l c) Hge). cbn. rewrite Nat.eqb_refl. reflexivity. }
  clear H.
  assert (Hp : forall c, let k := table_of l c in
    (forallb (fun x => match base_class x with Some d => d <? c | None => false end) (c_bases k) = true) /\
    (forallb (fun x => match x with
                    | TSub d args => specialb d || (negb (length args =? 0) &&
                                     (length args =? length (c_params (table_of l d))))
                    | _ => true end) (c_bases k) = true) /\
    (match own_orig_bases k with None => length (c_params k) =? 0 | Some _ => true end = true) /\
    (match c_mro k with h :: rest => (h =? c) && mro_ok (table_of l) [h] rest | [] => false end = true) /\
    (forallb (fun x => match base_class x with
                    | Some d => forallb (fun z => existsb (Nat.eqb z) (c_mro k)) (c_mro (table_of l d))
                    | None => true end) (c_bases k) = true)).
  { intros c k. specialize (Hc c). unfold class_ok in Hc. cbv zeta in Hc.
    apply andb_true_iff in Hc. destruct Hc as [Hc H5].
    apply andb_true_iff in Hc. destruct Hc as [Hc H4].
    apply andb_true_iff in Hc. destruct Hc as [Hc H3].
    apply andb_true_iff in Hc. destruct Hc as [H1 H2]. auto. }
  clear Hc. set (G := table_of l) in *. split.
  - intros c x Hx. destruct (Hp c) as (H1 & _). rewrite forallb_forall in H1. specialize (H1 x Hx).
    destruct (base_class x) as [d|]; [|discriminate]. exists d. split; [reflexivity|]. apply Nat.ltb_lt. exact H1.
  - intros c d args Hx Hs. destruct (Hp c) as (_ & H2 & _). rewrite forallb_forall in H2. specialize (H2 _ Hx).
    apply specialb_spec in Hs. cbn in H2. rewrite Hs in H2. cbn [orb] in H2.
    apply andb_true_iff in H2. destruct H2 as [Ha Hb]. split; [|apply Nat.eqb_eq; exact Hb].
    intros ->. discriminate.
  - intros c Ho. destruct (Hp c) as (_ & _ & H3 & _). fold G in H3. rewrite Ho in H3.
    destruct (c_params (G c)); [reflexivity|discriminate].
  - intros c. destruct (Hp c) as (_ & _ & _ & H4 & _). fold G in H4. destruct (c_mro (G c)) as [|h rest]; [discriminate|].
    apply andb_true_iff in H4. destruct H4 as [H4 _]. apply Nat.eqb_eq in H4. subst h. eauto.
  - intros c l1 x l2 He Hne. destruct (Hp c) as (_ & _ & _ & H4 & _). fold G in H4. rewrite He in H4.
    destruct l1 as [|h l1]; [congruence|]. cbn in H4. apply andb_true_iff in H4. destruct H4 as [_ H4].
    destruct (mro_ok_spec G _ [h] H4 l1 x l2 eq_refl) as (y & z & Hy & Hz). exists y, z. auto.
  - intros c x d z Hx Hd Hz. destruct (Hp c) as (_ & _ & _ & _ & H5). rewrite forallb_forall in H5.
    specialize (H5 x Hx). rewrite Hd in H5. rewrite forallb_forall in H5. specialize (H5 z Hz).
    apply existsb_exists in H5. destruct H5 as (z' & Hz' & He). apply Nat.eqb_eq in He. subst z'. exact Hz'.
Qed.

Definition flatb (G : table) (n : nat) : bool :=
  forallb (fun c => forallb (fun x => match x with
    | TSub d args => specialb d || forallb (fun a => match a with TVar _ => true | _ => closed a end) args
    | _ => true end) (c_bases (G c))) (seq 0 n).

Lemma flat_ok l : flatb (table_of l) (length l) = true -> flat_bases (table_of l).
Proof.
  intros H c d args Hin Hs a Ha.
  destruct (Nat.lt_ge_cases c (length l)) as [Hlt|Hge].
  - unfold flatb in H. rewrite forallb_forall in H. specialize (H c ltac:(apply in_seq; lia)).
    rewrite forallb_forall in H. specialize (H _ Hin). cbn in H.
    apply specialb_spec in Hs. rewrite Hs in H. cbn [orb] in H. rewrite forallb_forall in H. specialize (H a Ha).
    destruct a; eauto.
  - exfalso. revert Hin. unfold table_of. rewrite (proj2 (nth_error_None l c) Hge). cbn. tauto.
Qed.

(** Type variables. *)
Definition T : ty := TVar 0.
Definition S_ : ty := TVar 1.
Definition U : ty := TVar 2.

(** Builtin classes and [equinox.Module]; [RealScalarLike] as one class. *)
Definition int_ : cid := 3.
Definition str_ : cid := 4.
Definition bool_ : cid := 5.
Definition float_ : cid := 6.
Definition module_ : cid := 7.
Definition real_ : cid := 8.
Definition list_ : cid := 9.
Definition control_id : cid := 13.
Definition drift_id : cid := 14.
Definition diffusion_id : cid := 15.
Definition x_id : cid := 16.
Definition increment_id : cid := 17.
Definition levy_id : cid := 18.
Definition brownian_increment_id : cid := 19.
Definition X1 : cid := 20.
Definition X2 : cid := 21.
Definition X3 : cid := 22.
Definition X4 : cid := 23.
Definition X5 : cid := 24.
Definition X6 : cid := 25.
Definition X7 : cid := 26.
Definition X8 : cid := 27.
Definition X9 : cid := 28.

Definition shipped : list classinfo :=
  [ Class [] [] [0]; Class [] [TClass 0] [1; 0]; Class [] [] [2]; Class [] [] [3]; Class [] [] [4];
    Class [] [TClass 3] [5; 3]; Class [] [] [6]; Class [] [] [7]; Class [] [] [8]; Class [] [] [9];
    (* [_term.py:35, 666, 174, 271, 1029, 955] *)
    Class [0; 1] [TClass module_; TSub 0 [T; S_]] [10; 7; 0];
    Class [2] [TClass term_id; TSub 0 [U]] [11; 10; 7; 0];
    Class [0] [TSub term_id [T; TClass real_]] [12; 10; 7; 0];
    Class [0; 1] [TSub term_id [T; S_]] [13; 10; 7; 0];
    Class [] [TClass term_id] [14; 10; 7; 0];
    Class [] [TSub term_id [TClass 16; TUnion [TClass 16; TClass 17]]] [15; 10; 7; 0];
    Class [] [] [16];
    (* [_custom_types.py]: [AbstractBrownianIncrement], [AbstractSpaceTimeLevyArea], [BrownianIncrement] *)
    Class [] [TClass module_] [17; 7]; Class [] [TClass 17] [18; 17; 7]; Class [] [TClass 17] [19; 17; 7];
    (* [test/test_typing.py:213-238] *)
    Class [0; 1] [TSub 0 [T; S_]] [20; 0];
    Class [0; 1] [TSub X1 [T; T]; TSub 0 [T; S_]] [21; 20; 0];
    Class [] [TClass X2] [22; 21; 20; 0];
    Class [0] [TSub X2 [TClass int_; T]] [23; 21; 20; 0];
    Class [] [TClass str_; TSub X1 [TClass str_; TClass str_]] [24; 4; 20; 0];
    Class [0; 2; 1] [TSub X1 [S_; T]; TSub 0 [T; U; S_]] [25; 20; 0];
    Class [] [TSub X6 [TClass int_; TClass str_; TClass bool_]; TSub X2 [TClass int_; TClass str_]]
          [26; 25; 21; 20; 0];
    Class [0] [TSub X6 [TClass bool_; T; TClass bool_]; TSub X2 [TClass bool_; TClass int_]]
          [27; 25; 21; 20; 0];
    Class [] [TClass X3; TSub X2 [TClass int_; TClass str_]] [28; 22; 21; 20; 0] ].

Definition G0 : table := table_of shipped.
Lemma G0_ok : python_classes G0.
Proof. apply table_ok. vm_compute. reflexivity. Qed.
Lemma G0_flat : flat_bases G0.
Proof. apply flat_ok. vm_compute. reflexivity. Qed.
Lemma G0_terms : term_classes G0.
Proof. vm_compute. intuition. Qed.

(** [test/test_typing.py:241-276]. *)
Example ex_x8 : get_args_of G0 X1 (TSub X8 [TClass float_]) = Ok [TClass bool_; TClass bool_].
Proof. reflexivity. Qed.
Example ex_x6 : get_args_of G0 X1 (TSub X6 [TClass int_; TClass str_; TClass bool_]) = Ok [TClass bool_; TClass int_].
Proof. reflexivity. Qed.
Example ex_x7 : get_args_of G0 X1 (TClass X7) = Raise E_multiple.
Proof. reflexivity. Qed.
Example ex_x9 : get_args_of G0 X1 (TClass X9) = Ok [TClass int_; TClass int_].
Proof. reflexivity. Qed.
Example ex_x3 : get_args_of G0 X2 (TClass X3) = Ok [TAny; TAny].
Proof. reflexivity. Qed.
Example ex_ode : get_args_of G0 term_id (TClass ode_id) = Ok [TAny; TClass real_].
Proof. reflexivity. Qed.
Example ex_drift : get_args_of G0 term_id (TClass drift_id) = Ok [TAny; TAny].
Proof. reflexivity. Qed.
Example ex_diffusion : get_args_of G0 term_id (TClass diffusion_id) = Ok [TClass x_id; TUnion [TClass x_id; TClass increment_id]].
Proof. reflexivity. Qed.

(** [class N(X1[list[T], int])]; [class P(X1[int, str])], [class Q(P, X0[T])] with [X0] another generic class;
    [class P'(X1[str, str])], [class PP(P, P')]. *)
Definition N_ : cid := 29.
Definition P_ : cid := 30.
Definition X0 : cid := 31.
Definition Q_ : cid := 32.
Definition P'_ : cid := 33.
Definition PP_ : cid := 34.
Definition more : list classinfo := shipped ++
  [ Class [0] [TSub X1 [TSub list_ [T]; TClass int_]] [29; 20; 0];
    Class [] [TSub X1 [TClass int_; TClass str_]] [30; 20; 0];
    Class [0] [TSub 0 [T]] [31; 0];
    Class [0] [TClass P_; TSub X0 [T]] [32; 30; 20; 31; 0];
    Class [] [TSub X1 [TClass str_; TClass str_]] [33; 20; 0];
    Class [] [TClass P_; TClass P'_] [34; 30; 33; 20; 0] ].
Definition G1 : table := table_of more.
Lemma G1_ok : python_classes G1.
Proof. apply table_ok. vm_compute. reflexivity. Qed.

(** The same without [N_]. *)
Definition more2 : list classinfo := shipped ++
  [ Class [] [] [29];
    Class [] [TSub X1 [TClass int_; TClass str_]] [30; 20; 0];
    Class [0] [TSub 0 [T]] [31; 0];
    Class [0] [TClass P_; TSub X0 [T]] [32; 30; 20; 31; 0];
    Class [] [TSub X1 [TClass str_; TClass str_]] [33; 20; 0];
    Class [] [TClass P_; TClass P'_] [34; 30; 33; 20; 0] ].
Definition G2 : table := table_of more2.
Lemma G2_ok : python_classes G2.
Proof. apply table_ok. vm_compute. reflexivity. Qed.
Lemma G2_flat : flat_bases G2.
Proof. apply flat_ok. vm_compute. reflexivity. Qed.

(** Terms for the examples: results are of the class they carry; a control that does not depend on the keyword
    arguments is [Some], one that needs [use_levy] gives a Lévy area only then. *)
Definition inst0 (v c : cid) : bool := issubclass G0 v c.
Definition ode0 : term cid nat bool := Term ode_id [] (fun _ => Some float_) (fun _ => Some real_).
Definition brownian0 : term cid nat bool :=
  Term control_id [] (fun _ => Some float_) (fun use_levy : bool => Some (if (use_levy : bool) then levy_id else real_)).
Definition sde0 : term cid nat bool := multi_term (fun _ => tuple_id) [ode0; brownian0].
Definition three0 : term cid nat bool := multi_term (fun _ => tuple_id) [ode0; brownian0; brownian0].

(** Examples. *)
Example ex_srk : assert_term_compatible inst0 G0 (structure_srk (TClass real_) levy_id) (Leaf sde0) (kwargs_srk false true) (Leaf 0) = Ok tt.
Proof. reflexivity. Qed.
Example ex_srk_order : assert_term_compatible inst0 G0 (structure_srk (TClass real_) levy_id)
  (Leaf (multi_term (fun _ : list cid => tuple_id) [brownian0; ode0])) (kwargs_srk false true) (Leaf 0) = Raise E_incompatible.
Proof. reflexivity. Qed.
Example ex_langevin_good : good_structure G0 (structure_langevin drift_id diffusion_id).
Proof.
  constructor. constructor. intros a [<-|[<-|[]]].
  - eapply good_single; [left; reflexivity|exact ex_drift|reflexivity|reflexivity].
  - eapply good_single; [left; reflexivity|exact ex_diffusion|reflexivity|reflexivity].
Qed.
