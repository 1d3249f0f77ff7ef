(** Runge--Kutta methods.  Models [/repo/diffrax/_solver/runge_kutta.py]: [ButcherTableau],
    [MultiButcherTableau] and [AbstractRungeKutta.init], [.step] for explicit, diagonally implicit and
    implicit-explicit methods.
    A value of the state is a function from the positions [I] of all leaves of the PyTree to reals; a value
    of a vector field is a function from positions [J] to reals (shared by all terms of a [MultiTerm]).
    Arithmetic is exact.  [args] is fixed.  Not modelled: gradients ([stop_gradient], checkpointing),
    dtypes, and the structure assertions. *)
From Coq Require Import Reals QArith Qabs Qreals List Bool Arith.
From Verif Require Import Model_Result.
Import ListNotations.
Open Scope R_scope.

(** [runge_kutta.py:48-67].  Coefficients are the exact rationals written in the source. *)
Record tableau := Tableau {
  tab_c : list Q;
  tab_b_sol : list Q;
  tab_b_error : list Q;
  tab_a_lower : list (list Q);
  tab_a_diagonal : option (list Q);
  tab_a_predictor : option (list (list Q));
  tab_c1 : Q
}.

Definition sumQ (l : list Q) : Q := fold_right Qplus 0%Q l.
Definition nthQ (l : list Q) (i : nat) : Q := nth i l 0%Q.

(** [np.allclose(x, y)]: [|x - y| <= atol + rtol * |y|] with NumPy's default tolerances. *)
Definition allclose (x y : Q) : bool :=
  Qle_bool (Qabs (x - y)) ((1 # 100000000) + (1 # 100000) * Qabs y).

(** [runge_kutta.py:127], [144] *)
Definition diagonal_or_zero (tab : tableau) (i : nat) : Q :=
  match tab_a_diagonal tab with None => 0%Q | Some d => nthQ d i end.

(** [runge_kutta.py:116-141]: the assertions of [__post_init__]. *)
Definition shapes_ok (tab : tableau) : bool :=
  Nat.eqb (length (tab_c tab)) (length (tab_a_lower tab)) &&
  forallb (fun p => Nat.eqb (S (fst p)) (length (snd p)))
    (combine (seq 0 (length (tab_a_lower tab))) (tab_a_lower tab)) &&
  Nat.eqb (S (length (tab_c tab))) (length (tab_b_sol tab)) &&
  Nat.eqb (S (length (tab_c tab))) (length (tab_b_error tab)).
Definition sums_ok (tab : tableau) : bool :=
  forallb (fun p => allclose (sumQ (fst (snd p)) + diagonal_or_zero tab (S (fst p))) (snd (snd p)))
    (combine (seq 0 (length (tab_a_lower tab))) (combine (tab_a_lower tab) (tab_c tab))) &&
  allclose (sumQ (tab_b_sol tab)) 1 && allclose (sumQ (tab_b_error tab)) 0.
Definition implicit_ok (tab : tableau) : bool :=
  match tab_a_diagonal tab, tab_a_predictor tab with
  | None, None => true
  | Some d, Some p =>
      Nat.eqb (S (length (tab_c tab))) (length d) &&
      Nat.eqb (length (tab_a_lower tab)) (length p) &&
      forallb (fun rs => Nat.eqb (length (fst rs)) (length (snd rs)) && allclose (sumQ (snd rs)) 1)
        (combine (tab_a_lower tab) p)
  | _, _ => false
  end.
(** [self.a_lower[-1]] (line 143) raises [IndexError] for a tableau of one stage. *)
Definition post_init_ok (tab : tableau) : bool :=
  shapes_ok tab && sums_ok tab && implicit_ok tab && negb (Nat.eqb (length (tab_a_lower tab)) 0).

(** [runge_kutta.py:143-151] *)
Definition lower_b_sol_equal (tab : tableau) : bool :=
  forallb (fun p => Qeq_bool (fst p) (snd p))
    (combine (removelast (tab_b_sol tab)) (last (tab_a_lower tab) [])).
Definition diagonal_b_sol_equal (tab : tableau) : bool :=
  Qeq_bool (last (tab_b_sol tab) 0%Q)
    (match tab_a_diagonal tab with None => 0%Q | Some d => last d 0%Q end).
Definition explicit_first_stage (tab : tableau) : bool :=
  match tab_a_diagonal tab with None => true | Some d => Qeq_bool (nthQ d 0) 0 end.
Definition explicit_last_stage (tab : tableau) : bool :=
  match tab_a_diagonal tab with None => true | Some d => Qeq_bool (last d 0%Q) 0 end.
(** [runge_kutta.py:152-165] *)
Definition fsal (tab : tableau) : bool :=
  lower_b_sol_equal tab && diagonal_b_sol_equal tab && explicit_first_stage tab.
Definition ssal (tab : tableau) : bool :=
  lower_b_sol_equal tab && diagonal_b_sol_equal tab && explicit_last_stage tab.
Definition implicit (tab : tableau) : bool :=
  match tab_a_diagonal tab with None => false | Some _ => true end.
Definition num_stages (tab : tableau) : nat := length (tab_b_sol tab).

(** Assigning the first entries of a row of zeros, as in [tab_a_lower[i + 1, : i + 1] = a_lower_i]. *)
Definition pad_row (n : nat) (row : list Q) : list Q := firstn n (row ++ repeat 0%Q n).
(** [runge_kutta.py:788-794] [embed_a_lower], also 810-815 for [implicit_predictor] *)
Definition embed (n : nat) (rows : list (list Q)) : list (list Q) :=
  repeat 0%Q n :: map (pad_row n) rows.
(** [runge_kutta.py:796-801] [embed_c] *)
Definition embed_c (tab : tableau) : list Q := tab_c1 tab :: tab_c tab.

(** [runge_kutta.py:219-239] *)
Inductive calculate_jacobian_kind : Set := never | every_stage | first_stage | second_stage.

Fixpoint map2 {A B C : Type} (f : A -> B -> C) (l : list A) (m : list B) : list C :=
  match l, m with x :: l, y :: m => f x y :: map2 f l m | _, _ => [] end.

(** [x.at[i].set(v)] *)
Fixpoint set_nth {A : Type} (i : nat) (v : A) (l : list A) : list A :=
  match l, i with
  | [], _ => []
  | _ :: l, 0%nat => v :: l
  | x :: l, S i => x :: set_nth i v l
  end.

Fixpoint find_index {A : Type} (p : A -> bool) (l : list A) : option nat :=
  match l with
  | [] => None
  | x :: l => if p x then Some 0%nat else option_map S (find_index p l)
  end.

Section Vectors.
  Context {K : Type}.
  Definition vzero : K -> R := fun _ => 0.
  Definition vadd (u v : K -> R) : K -> R := fun i => u i + v i.
  Definition vsub (u v : K -> R) : K -> R := fun i => u i - v i.
  Definition vscale (a : R) (u : K -> R) : K -> R := fun i => a * u i.
  (** [base.py:37-41] [vector_tree_dot] *)
  Fixpoint vector_tree_dot (a : list Q) (b : list (K -> R)) : K -> R :=
    match a, b with
    | x :: a, u :: b => vadd (vscale (Q2R x) u) (vector_tree_dot a b)
    | _, _ => vzero
    end.
  (** [runge_kutta.py:299-305] [_sum] *)
  Definition vsum (x : K -> R) (l : list (K -> R)) : K -> R := fold_left vadd l x.
End Vectors.

Section RK.
  Context {I J C : Type}.
  Notation Y := (I -> R).
  Notation F := (J -> R).

  (** The methods of [AbstractTerm] used by the solver, closed over [args]. *)
  Record term := Term {
    t_vf : R -> Y -> F;
    t_contr : R -> R -> C;
    t_prod : F -> C -> Y;
    t_vf_prod : R -> Y -> C -> Y
  }.

  (** [optx.AbstractRootFinder] with [root_find_max_steps]: [init] computes the state that holds the
      Jacobian, [optx.root_find(..., options=dict(init_state=...), throw=False)] solves.  Both get the
      stage number and the function whose root is sought; there is one pair for each of f- and k-space. *)
  Record root_finder := RootFinder {
    JF : Type; JK : Type;
    rf_init_f : nat -> (F -> F) -> F -> JF;
    rf_init_k : nat -> (Y -> Y) -> Y -> JK;
    rf_f : JF -> nat -> (F -> F) -> F -> F * RESULTS;
    rf_k : JK -> nat -> (Y -> Y) -> Y -> Y * RESULTS
  }.

  (** A solver applied to terms: the tableaus with their terms, in order.  A single tableau is a list of
      one.  [vf_expensive] is [terms.is_vf_expensive(...)]. *)
  Record solver := Solver {
    sv_parts : list (tableau * term);
    sv_vf_expensive : bool;
    sv_calculate_jacobian : calculate_jacobian_kind;
    sv_root_finder : root_finder
  }.

  Section Step.
    Variable sv : solver.
    Let tabs := map fst (sv_parts sv).
    Let terms := map snd (sv_parts sv).
    Let rf := sv_root_finder sv.

    (** [runge_kutta.py:392-404] [_common] *)
    Definition use_fsal : bool := forallb fsal tabs && negb (sv_vf_expensive sv).

    (** [runge_kutta.py:415-444] [init]: in both branches of the optimisation [f0] is zero. *)
    Definition solver_state := option (bool * list F).
    Definition rk_init : solver_state :=
      if use_fsal then Some (true, map (fun _ => vzero) terms) else None.

    (** [runge_kutta.py:511-528]: the position of the implicit tableau. *)
    Definition implicit_index : option nat := find_index implicit tabs.
    Definition has_implicit : bool := match implicit_index with Some _ => true | None => false end.

    (** [runge_kutta.py:576-591] *)
    Definition eval_fs : bool := negb (sv_vf_expensive sv) && use_fsal.
    Definition store_fs : bool := negb (sv_vf_expensive sv) && use_fsal && has_implicit.

    Definition nstages : nat := match tabs with tab :: _ => num_stages tab | [] => 0 end.

    Definition tab_dummy : tableau := Tableau [] [] [] [] None None 0.
    (** The tableau, and term, with [implicit == True]; only used if there is one. *)
    Definition implicit_tableau (p : nat) : tableau := nth p tabs tab_dummy.

    Variables t0 t1 : R.
    Variable y0 : Y.

    (** [runge_kutta.py:643-648] *)
    Let dt := t1 - t0.
    Definition controls : list C := map (fun term => t_contr term t0 t1) terms.

    (** [runge_kutta.py:650-671] [vf], [vf_prod], [prod] mapped over the terms; with [implicit_val] the
        implicit term is not evaluated. *)
    Definition patch {A : Type} (v : option A) (xs : list A) : list A :=
      match v, implicit_index with Some v, Some p => set_nth p v xs | _, _ => xs end.
    Definition vf_all (ts : list R) (y : Y) (implicit_val : option F) : list F :=
      patch implicit_val (map2 (fun term t => t_vf term t y) terms ts).
    Definition prod_all (fs : list F) : list Y :=
      map2 (fun tc f => t_prod (fst tc) f (snd tc)) (combine terms controls) fs.
    Definition vf_prod_all (ts : list R) (y : Y) (implicit_val : option Y) : list Y :=
      patch implicit_val
        (map2 (fun tc t => t_vf_prod (fst tc) t y (snd tc)) (combine terms controls) ts).

    (** [runge_kutta.py:888], [1023]: [t0 + c * dt], or exactly [t1] if [c == 1]. *)
    Definition stage_time (c : Q) : R := if Qeq_bool c 1 then t1 else t0 + Q2R c * dt.

    (** [runge_kutta.py:250-283] *)
    Definition implicit_relation_f (diagonal : R) (vf : R -> Y -> F) (prod : F -> Y) (ti : R) (yi_partial : Y)
               (fi : F) : F :=
      vsub fi (vf ti (vadd yi_partial (vscale diagonal (prod fi)))).
    Definition implicit_relation_k (diagonal : R) (vf_prod : R -> Y -> Y) (ti : R) (yi_partial : Y)
               (ki : Y) : Y :=
      vsub ki (vf_prod ti (vadd yi_partial (vscale diagonal ki))).

    (** The loop state of [rk_stage] but for the stage number; the unused one of [fs], [ks] and of the two
        Jacobians is empty. *)
    Record stage_state := StageState {
      sg_yi : Y;
      sg_f1 : list F;
      sg_jac_f : option (JF rf);
      sg_jac_k : option (JK rf);
      sg_fs : list (list F);   (* per term, per stage *)
      sg_ks : list (list Y);
      sg_result : RESULTS
    }.

    (** [runge_kutta.py:953-983]: which Jacobian a stage uses.  [old] is the one carried along. *)
    Definition choose_jac {A : Type} (stage : nat) (fresh : A) (old : option A) : A :=
      match sv_calculate_jacobian sv with
      | first_stage => if Nat.eqb stage 0 then fresh else match old with Some j => j | None => fresh end
      | second_stage => if Nat.eqb stage 1 then fresh else match old with Some j => j | None => fresh end
      | _ => fresh
      end.

    (** [runge_kutta.py:884-1015]: the implicit part of a stage, at term position [p] with term [term],
        control [control].  Returns the f-value (if evaluating in f-space), the k-value otherwise, the
        increment, the Jacobians and the result. *)
    Definition implicit_stage (p : nat) (term : term) (control : C) (stage : nat) (yi_partial : Y)
               (s : stage_state) : option F * option Y * Y * option (JF rf) * option (JK rf) * RESULTS :=
      let tab := implicit_tableau p in
      let diagonal := Q2R (diagonal_or_zero tab stage) in
      let predictor := match tab_a_predictor tab with
                       | Some rows => nth stage (embed nstages rows) [] | None => [] end in
      let ti := stage_time (nthQ (embed_c tab) stage) in
      if eval_fs then
        let relation := implicit_relation_f diagonal (t_vf term) (fun f => t_prod term f control) ti yi_partial in
        (* [use_fsal] holds here, so the first stage is explicit and its predictor is not replaced *)
        let pred := vector_tree_dot predictor (nth p (sg_fs s) []) in
        let jac := choose_jac stage (rf_init_f rf stage relation pred) (sg_jac_f s) in
        let '(fi, r) := rf_f rf jac stage relation pred in
        (Some fi, None, t_prod term fi control, Some jac, None, r)
      else
        let relation := implicit_relation_k diagonal (fun t y => t_vf_prod term t y control) ti yi_partial in
        let pred := vector_tree_dot predictor (nth p (sg_ks s) []) in
        let pred := if Nat.eqb stage 0 then t_vf_prod term t0 y0 control else pred in
        let jac := choose_jac stage (rf_init_k rf stage relation pred) (sg_jac_k s) in
        let '(ki, r) := rf_k rf jac stage relation pred in
        (None, Some ki, ki, None, Some jac, r).

    (** [runge_kutta.py:853-871]: the linear combination of the previous stages. *)
    Definition stage_partial (stage : nat) (s : stage_state) : Y :=
      let rows := map (fun tab => nth stage (embed nstages (tab_a_lower tab)) []) tabs in
      let increment := if store_fs then prod_all (map2 vector_tree_dot rows (sg_fs s))
                       else map2 vector_tree_dot rows (sg_ks s) in
      vsum y0 increment.

    (** [runge_kutta.py:847-1069] [rk_stage] *)
    Definition rk_stage (s : stage_state) (stage : nat) : stage_state :=
      let yi_partial := stage_partial stage s in
      let '(implicit_fi, implicit_ki, yi, jac_f, jac_k, result) :=
        match implicit_index with
        | None => (None, None, yi_partial, sg_jac_f s, sg_jac_k s, sg_result s)
        | Some p =>
            match nth_error terms p, nth_error controls p with
            | Some term, Some control =>
                let '(fi, ki, inc, jf, jk, r) := implicit_stage p term control stage yi_partial s in
                (fi, ki, vadd yi_partial (vscale (Q2R (diagonal_or_zero (implicit_tableau p) stage)) inc),
                 jf, jk, update_result (sg_result s) r)
            | _, _ => (None, None, yi_partial, sg_jac_f s, sg_jac_k s, sg_result s)  (* impossible *)
            end
        end in
      let ti := map (fun tab => stage_time (nthQ (embed_c tab) stage)) tabs in
      let fi := if eval_fs then vf_all ti yi implicit_fi else [] in
      let ki := if eval_fs then (if store_fs then [] else prod_all fi) else vf_prod_all ti yi implicit_ki in
      {| sg_yi := yi;
         sg_f1 := if use_fsal then fi else [];
         sg_jac_f := jac_f; sg_jac_k := jac_k;
         sg_fs := if store_fs then map2 (set_nth stage) fi (sg_fs s) else sg_fs s;
         sg_ks := if store_fs then sg_ks s else map2 (set_nth stage) ki (sg_ks s);
         sg_result := result |}.

    (** [runge_kutta.py:1080-1131]: the Jacobian at the start, that of a step with zero diagonal. *)
    Definition initial_jac_f : option (JF rf) :=
      match implicit_index with
      | Some p =>
          match nth_error terms p, nth_error controls p with
          | Some term, Some control =>
              if eval_fs then
                Some (rf_init_f rf 0 (implicit_relation_f 0 (t_vf term) (fun f => t_prod term f control) t0 y0)
                        vzero)
              else None
          | _, _ => None
          end
      | None => None
      end.
    Definition initial_jac_k : option (JK rf) :=
      match implicit_index with
      | Some p =>
          match nth_error terms p, nth_error controls p with
          | Some term, Some control =>
              if eval_fs then None
              else Some (rf_init_k rf 0 (implicit_relation_k 0 (fun t y => t_vf_prod term t y control) t0 y0)
                           vzero)
          | _, _ => None
          end
      | None => None
      end.

    (** What [step] returns (lines 1186-1203); the error is [None] if it is [jnp.inf] everywhere. *)
    Record rk_out := RKOut {
      ro_y : Y;
      ro_error : option Y;
      ro_k : list (list Y);   (* [dense_info["k"]] *)
      ro_state : solver_state;
      ro_result : RESULTS
    }.

    (** [runge_kutta.py:446-1203] [step].  [others] says whether some other element of a batch needs its
        first stage ([unvmap_any], line 687).  The solver state is [None] exactly if [fsal] is off; the
        assertion of line 685 is not modelled. *)
    Definition rk_step (others : bool) (state : solver_state) (made_jump : bool) : rk_out :=
      let '(first_step, f0) :=
        match state with Some (first_step, f0) => (first_step, f0) | None => (true, map (fun _ => vzero) terms) end in
      let eval_first_stage := first_step || made_jump || others in
      let init_stage_index := if use_fsal then (if eval_first_stage then 0%nat else 1%nat) else 0%nat in
      let f0 := if eval_first_stage then map (fun _ => vzero) f0 else f0 in
      let zero_fs := map (fun _ => repeat vzero nstages) terms in
      let zero_ks := map (fun _ => repeat vzero nstages) terms in
      let fs := if store_fs then map2 (set_nth 0) f0 zero_fs else [] in
      let ks := if store_fs then []
                else if use_fsal then map2 (set_nth 0) (prod_all f0) zero_ks else zero_ks in
      let final :=
        fold_left rk_stage (seq init_stage_index (nstages - init_stage_index))
          {| sg_yi := y0; sg_f1 := if use_fsal then f0 else [];
             sg_jac_f := initial_jac_f; sg_jac_k := initial_jac_k;
             sg_fs := fs; sg_ks := ks; sg_result := successful |} in
      let result := sg_result final in
      (* [jax.vmap(prod)(fs)], term by term *)
      let ks := if store_fs then
                  map2 (fun tc fs => map (fun f => t_prod (fst tc) f (snd tc)) fs)
                    (combine terms controls) (sg_fs final)
                else sg_ks final in
      let y1 := if forallb ssal tabs then sg_yi final
                else vsum y0 (map2 (fun tab k => vector_tree_dot (tab_b_sol tab) k) tabs ks) in
      let y_error := match map2 (fun tab k => vector_tree_dot (tab_b_error tab) k) tabs ks with
                     | [] => vzero | e :: es => vsum e es end in
      {| ro_y := y1;
         ro_error := if is_okay result then Some y_error else None;
         ro_k := ks;
         ro_state := if use_fsal then Some (false, sg_f1 final) else None;
         ro_result := result |}.
  End Step.
End RK.
Arguments term : clear implicits.
Arguments root_finder : clear implicits.
Arguments solver : clear implicits.
Arguments rk_out : clear implicits.
Arguments solver_state : clear implicits.
