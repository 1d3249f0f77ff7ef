(** Stochastic Runge--Kutta methods.  Models [/repo/diffrax/_solver/srk.py] ([AbstractSRK]), the tableaus of [SRA1],
    [ShARK], [SEA], [SPaRK], [GeneralShARK] and [SlowRK], and the two Milstein methods of [milstein.py].
    Values are functions from positions to reals, as in [Model_RK]; [args] is fixed.  Coefficients are real numbers
    (those of [SPaRK] are irrational).  Not modelled: dtypes, complex numbers ([jnp.conj]), rounding, the kinds of
    scan, and the checks that the Brownian increment has the Levy areas the method needs ([init], 296-326). *)
From Coq Require Import Reals List Bool.
From Verif Require Import Model_Result Model_Loop Model_RK Model_Terms Model_Solvers.
Import ListNotations.
Open Scope R_scope.

(** [srk.py:60-107] [AdditiveCoeffs], [GeneralCoeffs] *)
Inductive coeffs : Type :=
| AdditiveCoeffs (a : list R) (b_sol : R)
| GeneralCoeffs (a : list (list R)) (b_sol : list R) (b_error : option (list R)).

(** [srk.py:110-127] [StochasticButcherTableau] *)
Record stableau := STableau {
  st_a : list (list R);
  st_b_sol : list R;
  st_b_error : option (list R);
  st_c : list R;
  st_coeffs_w : coeffs;
  st_coeffs_hh : option coeffs;
  st_coeffs_kk : option coeffs;
  st_ignore_stage_f : option (list bool);
  st_ignore_stage_g : option (list bool)
}.

(** [srk.py:129-130] [is_additive_noise] *)
Definition is_additive (c : coeffs) : bool := match c with AdditiveCoeffs _ _ => true | _ => false end.
Definition is_additive_noise (tab : stableau) : bool := is_additive (st_coeffs_w tab).

Fixpoint shape_lower (i : nat) (a : list (list R)) : bool :=
  match a with [] => true | r :: a => Nat.eqb (length r) (S i) && shape_lower (S i) a end.
Definition opt_all {A : Type} (p : A -> bool) (o : option A) : bool := match o with None => true | Some x => p x end.

(** [srk.py:82-84, 96-104] [check]: whether it succeeds with the number [n]. *)
Definition check (n : nat) (c : coeffs) : bool :=
  match c with
  | AdditiveCoeffs a _ => Nat.eqb (length a) n
  | GeneralCoeffs a b e =>
      shape_lower 0 a && Nat.eqb (length b) (S (length a)) && opt_all (fun e => Nat.eqb (length e) (length b)) e
      && Nat.eqb (length b) n
  end.
Definition has_b_error (c : coeffs) : bool := match c with GeneralCoeffs _ _ (Some _) => true | _ => false end.
Definition is_none {A : Type} (o : option A) : bool := match o with None => true | _ => false end.

(** [srk.py:132-173] [__post_init__]: the assertions, but for the one that the weights sum to one up to rounding. *)
Definition spost_init_ok (tab : stableau) : bool :=
  let n := length (st_b_sol tab) in
  let same c := Bool.eqb (is_additive c) (is_additive_noise tab) && check n c in
  Nat.eqb (length (st_c tab)) (length (st_a tab)) && shape_lower 0 (st_a tab)
  && opt_all (fun e => Nat.eqb (length e) n) (st_b_error tab)
  && Nat.eqb (S (length (st_c tab))) n
  && check n (st_coeffs_w tab)
  && opt_all same (st_coeffs_hh tab)
  && opt_all (fun c => negb (is_none (st_coeffs_hh tab)) && same c) (st_coeffs_kk tab)
  && (is_none (st_b_error tab) || is_additive_noise tab
      || (has_b_error (st_coeffs_w tab) && opt_all has_b_error (st_coeffs_hh tab) && opt_all has_b_error (st_coeffs_kk tab)))
  && opt_all (fun l => Nat.eqb (length l) n) (st_ignore_stage_f tab)
  && opt_all (fun l => Nat.eqb (length l) n) (st_ignore_stage_g tab)
  && match st_ignore_stage_f tab, st_ignore_stage_g tab with
     | Some f, Some g => forallb negb (map2 andb f g) | _, _ => true end.

(** The result of a diffusion term's [contr(..., use_levy=True)]; areas that the method does not use are left out of
    account, so every increment has them here. *)
Record bm_inc (K : Type) := BMInc { bm_W : K -> R; bm_H : K -> R; bm_K : K -> R }.
Arguments BMInc {K}. Arguments bm_W {K}. Arguments bm_H {K}. Arguments bm_K {K}.

(** [srk.py:328-333] [_embed_a_lower]: a first row of zeros; every row is filled with zeros. *)
Definition rpad_row (n : nat) (row : list R) : list R := row ++ repeat 0 (n - length row).
Definition rembed_a_lower (a : list (list R)) : list (list R) :=
  map (rpad_row (S (length a))) ([] :: a).

Section SRK.
  Context {I J J' K : Type}.
  Notation Y := (I -> R).

  (** [srk.py:481-489] [sum_prev_stages] *)
  Fixpoint sum_prev_stages (stage_out_buff : list Y) (a_j : list R) : Y :=
    match a_j, stage_out_buff with
    | x :: a_j, u :: buff => vadd (vscale x u) (sum_prev_stages buff a_j)
    | _, _ => vzero
    end.

  (** [srk.py:415-422] [add_levy_to_w] *)
  Fixpoint levy_sum (c_levy : list R) (levy : list Y) : Y :=
    match c_levy, levy with
    | c :: c_levy, l :: levy => vadd (vscale c l) (levy_sum c_levy levy)
    | _, _ => vzero
    end.
  Definition add_levy_to_w (cw : R) (c_levy : list R) (w : Y) (levy : list Y) : Y :=
    vadd (vscale cw w) (levy_sum c_levy levy).

  Definition additive_a (c : coeffs) : list R := match c with AdditiveCoeffs a _ => a | _ => [] end.
  Definition additive_b (c : coeffs) : R := match c with AdditiveCoeffs _ b => b | _ => 0 end.
  Definition general_a (c : coeffs) : list (list R) := match c with GeneralCoeffs a _ _ => a | _ => [] end.
  Definition general_b (c : coeffs) : list R := match c with GeneralCoeffs _ b _ => b | _ => [] end.
  Definition general_e (c : coeffs) : option (list R) := match c with GeneralCoeffs _ _ e => e | _ => None end.
  Definition opt_list {A : Type} (o : option A) : list A := match o with None => [] | Some x => [x] end.

  Section Step.
    Context (tab : stableau) (drift : term I J R) (diffusion : term I J' (K -> R)) (levy : R -> R -> bm_inc K).
    Context (t0 t1 : R) (y0 : Y).

    (** [srk.py:364-413] *)
    Definition st_h : R := t1 - t0.
    Definition st_n : nat := length (st_b_sol tab).
    Definition st_embed_c : list R := 0 :: st_c tab.
    Definition st_bm : bm_inc K := levy t0 t1.
    Definition st_coeffs_levy : list coeffs := opt_list (st_coeffs_hh tab) ++ opt_list (st_coeffs_kk tab).
    Definition st_levy_areas : list (K -> R) :=
      match st_coeffs_hh tab with
      | None => []
      | Some _ => bm_H st_bm :: match st_coeffs_kk tab with None => [] | Some _ => [bm_K st_bm] end
      end.
    Definition ignored (o : option (list bool)) (j : nat) : bool :=
      match o with None => false | Some l => nth j l false end.
    Definition stage_time (j : nat) : R := t0 + nth j st_embed_c 0 * st_h.

    (** [srk.py:547-559] [compute_and_insert_kf_j], skipped for the stages in [ignore_stage_f] *)
    Definition insert_kf (h_kfs : list Y) (z_j : Y) (j : nat) : list Y :=
      if ignored (st_ignore_stage_f tab) j then h_kfs
      else set_nth j (t_vf_prod drift (stage_time j) z_j st_h) h_kfs.
    Definition drift_sum (h_kfs : list Y) (j : nat) : Y :=
      sum_prev_stages h_kfs (nth j (rembed_a_lower (st_a tab)) []).

    (** [srk.py:431-458], [497-517], [541-563]: additive noise; the carry is [_h_kfs]. *)
    Definition g0 : J' -> R := t_vf diffusion t0 y0.
    Definition g_delta : J' -> R := vscale (1 / 2) (vsub (t_vf diffusion t1 y0) g0).
    Definition w_kg0 : Y := t_prod diffusion g0 (bm_W st_bm).
    Definition levy_kg0 : list Y :=
      match st_coeffs_hh tab with None => [] | Some _ => [t_prod diffusion g0 (bm_H st_bm)] end
      ++ match st_coeffs_kk tab with None => [] | Some _ => [t_prod diffusion g0 (bm_K st_bm)] end.
    Definition additive_stage (h_kfs : list Y) (j : nat) : list Y :=
      let diffusion_result :=
        add_levy_to_w (nth j (additive_a (st_coeffs_w tab)) 0) (map (fun c => nth j (additive_a c) 0) st_coeffs_levy)
          w_kg0 levy_kg0 in
      let z_j := vadd (vadd y0 (drift_sum h_kfs j)) diffusion_result in
      insert_kf h_kfs z_j j.

    (** [srk.py:460-476], [517-539], [564-591]: general noise; the carry is [(_h_kfs, _w_kgs, _levylist_kgs)]. *)
    Definition general_stage (carry : list Y * list Y * list (list Y)) (j : nat) : list Y * list Y * list (list Y) :=
      let '(h_kfs, w_kgs, levylist_kgs) := carry in
      let w_kg_sum := sum_prev_stages w_kgs (nth j (rembed_a_lower (general_a (st_coeffs_w tab))) []) in
      let levy_sum_list :=
        map2 (fun c levy_gs => sum_prev_stages levy_gs (nth j (rembed_a_lower (general_a c)) [])) st_coeffs_levy levylist_kgs in
      let diffusion_result := fold_left vadd levy_sum_list w_kg_sum in
      let z_j := vadd (vadd y0 (drift_sum h_kfs j)) diffusion_result in
      let h_kfs := insert_kf h_kfs z_j j in
      if ignored (st_ignore_stage_g tab) j then (h_kfs, w_kgs, levylist_kgs)
      else
        (h_kfs,
         set_nth j (t_vf_prod diffusion (stage_time j) z_j (bm_W st_bm)) w_kgs,
         map2 (fun levy levy_gs => set_nth j (t_vf_prod diffusion (stage_time j) z_j levy) levy_gs)
           st_levy_areas levylist_kgs).

    Definition make_zeros : list Y := repeat vzero st_n.

    (** [srk.py:593-670] *)
    Definition srk_finish (h_kfs : list Y) (diffusion_result : Y) (diffusion_error : option Y)
      : step_out Y unit (Y * Y) (option Y) :=
      let error :=
        match st_b_error tab with
        | None => None
        | Some b_err =>
            let drift_error := sum_prev_stages h_kfs b_err in
            Some (match diffusion_error with None => drift_error | Some e => vadd drift_error e end)
        end in
      let drift_result := sum_prev_stages h_kfs (st_b_sol tab) in
      let y1 := vadd (vadd y0 drift_result) diffusion_result in
      StepOut y1 error (y0, y1) tt successful.

    Definition additive_step : step_out Y unit (Y * Y) (option Y) :=
      let h_kfs := fold_left additive_stage (seq 0 st_n) make_zeros in
      let diffusion_result :=
        add_levy_to_w (additive_b (st_coeffs_w tab)) (map additive_b st_coeffs_levy) w_kg0 levy_kg0 in
      let time_var_term :=
        match st_coeffs_hh tab with
        | Some _ => t_prod diffusion g_delta (vsub (bm_W st_bm) (vscale 2 (bm_H st_bm)))
        | None => t_prod diffusion g_delta (bm_W st_bm)
        end in
      srk_finish h_kfs (vadd diffusion_result time_var_term) None.

    Definition general_step : step_out Y unit (Y * Y) (option Y) :=
      let '(h_kfs, w_kgs, levylist_kgs) :=
        fold_left general_stage (seq 0 st_n) (make_zeros, make_zeros, map (fun _ => make_zeros) st_coeffs_levy) in
      let b_w_kgs := sum_prev_stages w_kgs (general_b (st_coeffs_w tab)) in
      let b_levylist_kgs := map2 (fun c levy_gs => sum_prev_stages levy_gs (general_b c)) st_coeffs_levy levylist_kgs in
      let diffusion_result := fold_left vadd b_levylist_kgs b_w_kgs in
      let diffusion_error :=
        match general_e (st_coeffs_w tab) with
        | None => None
        | Some bw_err =>
            let w_err := sum_prev_stages w_kgs bw_err in
            let levy_err := map2 (fun c levy_gs => sum_prev_stages levy_gs
                                    match general_e c with Some e => e | None => [] end) st_coeffs_levy levylist_kgs in
            Some (fold_left vadd levy_err w_err)
        end in
      srk_finish h_kfs diffusion_result diffusion_error.

    Definition srk_step : step_out Y unit (Y * Y) (option Y) := if is_additive_noise tab then additive_step else general_step.
  End Step.

  (** [srk.py:296-333, 335-670] [AbstractSRK] *)
  Definition srk (tab : stableau) (drift : term I J R) (diffusion : term I J' (K -> R)) (levy : R -> R -> bm_inc K)
    : method Y unit (Y * Y) := {|
    me_init := fun _ _ _ => tt;
    me_step := fun t0 t1 y0 _ _ => srk_step tab drift diffusion levy t0 t1 y0 |}.

  (** [milstein.py:75-101] [StratonovichMilstein]; [jvp f y v] is [jax.jvp(f, (y,), (v,))[1]]. *)
  Definition stratonovich_milstein {C C' : Type} (jvp : (Y -> Y) -> Y -> Y -> Y) (drift : term I J C) (diffusion : term I J' C')
    : method Y unit (Y * Y) := {|
    me_init := fun _ _ _ => tt;
    me_step := fun t0 t1 y0 _ _ =>
      let dt := t_contr drift t0 t1 in
      let dw := t_contr diffusion t0 t1 in
      let f0_prod := t_vf_prod drift t0 y0 dt in
      let g0_prod := t_vf_prod diffusion t0 y0 dw in
      let v0_prod := jvp (fun y => t_vf_prod diffusion t0 y dw) y0 g0_prod in
      let y1 := vadd (vadd (vadd y0 f0_prod) g0_prod) (vscale (1 / 2) v0_prod) in
      StepOut y1 None (y0, y1) tt successful |}.

  (** [milstein.py:146-372] [ItoMilstein], for controls with positions [ks].  The matrices that the code obtains as
      Jacobians of [prod] in the control are the values of [prod] at the unit controls, [prod] being linear in the control;
      the tree and axis bookkeeping is not modelled: the matrices are functions of positions.  [jvp] is that of the
      vector field. *)
  Definition unit_control (eqb : K -> K -> bool) (k : K) : K -> R := fun k' => if eqb k k' then 1 else 0.
  Definition sum_over {A : Type} (l : list A) (f : A -> R) : R := fold_right (fun x acc => f x + acc) 0 l.
  Definition ito_milstein (eqb : K -> K -> bool) (ks : list K) (jvp : (Y -> J' -> R) -> Y -> Y -> J' -> R)
             (drift : term I J R) (diffusion : term I J' (K -> R)) : method Y unit (Y * Y) := {|
    me_init := fun _ _ _ => tt;
    me_step := fun t0 t1 y0 _ _ =>
      let dt := t_contr drift t0 t1 in
      let dw := t_contr diffusion t0 t1 in
      let f0_prod := t_vf_prod drift t0 y0 dt in
      let vf0 := t_vf diffusion t0 y0 in
      let g0_prod := t_prod diffusion vf0 dw in
      let dwdw := fun k1 k2 => dw k1 * dw k2 - (if eqb k1 k2 then dt else 0) in
      let g0_matrix := fun k1 => t_prod diffusion vf0 (unit_control eqb k1) in
      let v0_matrix := fun k1 k2 =>
        t_prod diffusion (jvp (fun y => t_vf diffusion t0 y) y0 (g0_matrix k1)) (unit_control eqb k2) in
      let v0_prod := fun i => sum_over ks (fun k1 => sum_over ks (fun k2 => v0_matrix k1 k2 i * dwdw k1 k2)) in
      let y1 := vadd (vadd (vadd y0 f0_prod) g0_prod) (vscale (1 / 2) v0_prod) in
      StepOut y1 None (y0, y1) tt successful |}.
End SRK.

(** [sra1.py:10-30] *)
Definition sra1 : stableau := {|
  st_a := [[3/4]]; st_b_sol := [1/3; 2/3]; st_b_error := Some [-2/3; 2/3]; st_c := [3/4];
  st_coeffs_w := AdditiveCoeffs [0; 3/4] 1; st_coeffs_hh := Some (AdditiveCoeffs [0; 3/2] 0); st_coeffs_kk := None;
  st_ignore_stage_f := None; st_ignore_stage_g := None |}.
(** [shark.py:10-30] *)
Definition shark : stableau := {|
  st_a := [[5/6]]; st_b_sol := [2/5; 3/5]; st_b_error := Some [-3/5; 3/5]; st_c := [5/6];
  st_coeffs_w := AdditiveCoeffs [0; 5/6] 1; st_coeffs_hh := Some (AdditiveCoeffs [1; 1] 0); st_coeffs_kk := None;
  st_ignore_stage_f := None; st_ignore_stage_g := None |}.
(** [sea.py:10-30] *)
Definition sea : stableau := {|
  st_a := []; st_b_sol := [1]; st_b_error := None; st_c := [];
  st_coeffs_w := AdditiveCoeffs [1/2] 1; st_coeffs_hh := Some (AdditiveCoeffs [1] 0); st_coeffs_kk := None;
  st_ignore_stage_f := None; st_ignore_stage_g := None |}.
(** [spark.py:10-35] *)
Definition spark_x1 : R := (3 - sqrt 3) / 6.
Definition spark_x2 : R := sqrt 3 / 3.
Definition spark : stableau := {|
  st_a := [[1/2]; [0; 1]]; st_b_sol := [spark_x1; spark_x2; spark_x1];
  st_b_error := Some [spark_x1 - 1/2; spark_x2; spark_x1 - 1/2]; st_c := [1/2; 1];
  st_coeffs_w := GeneralCoeffs [[1/2]; [0; 1]] [spark_x1; spark_x2; spark_x1]
                   (Some [spark_x1 - 1/2; spark_x2; spark_x1 - 1/2]);
  st_coeffs_hh := Some (GeneralCoeffs [[sqrt 3]; [0; 0]] [1; 0; -1] (Some [1; 0; -1]));
  st_coeffs_kk := None; st_ignore_stage_f := None; st_ignore_stage_g := None |}.
(** [shark_general.py:10-32] *)
Definition general_shark : stableau := {|
  st_a := [[0]; [0; 5/6]]; st_b_sol := [0; 2/5; 3/5]; st_b_error := None; st_c := [0; 5/6];
  st_coeffs_w := GeneralCoeffs [[0]; [0; 5/6]] [0; 2/5; 3/5] None;
  st_coeffs_hh := Some (GeneralCoeffs [[1]; [1; 0]] [0; 6/5; -6/5] None);
  st_coeffs_kk := None; st_ignore_stage_f := Some [true; false; false]; st_ignore_stage_g := None |}.
(** [slowrk.py:11-53] *)
Definition slowrk : stableau := {|
  st_a := [[1/2]; [1/2; 0]; [1/2; 0; 0]; [1/2; 0; 0; 0]; [3/4; 0; 0; 0; 0]; [1; 0; 0; 0; 0; 0]];
  st_b_sol := [1/3; 0; 0; 0; 0; 2/3; 0]; st_b_error := None; st_c := [1/2; 1/2; 1/2; 1/2; 3/4; 1];
  st_coeffs_w := GeneralCoeffs [[0]; [0; 1/2]; [0; 0; 1/2]; [0; 0; 0; 1]; [0; 0; 0; 3/4; 0]; [0; 0; 1/2; 0; 0; 0]]
                   [0; 1/6; 1/3; 1/3; 1/6; 0; 0] None;
  st_coeffs_hh := Some (GeneralCoeffs [[0]; [0; 0]; [0; 0; 0]; [0; 0; 0; 0]; [0; 0; 0; 3/2; 0]; [0; 0; 0; 0; 0; 0]]
                          [0; 0; 0; 2; 0; 0; -2] None);
  st_coeffs_kk := None;
  st_ignore_stage_f := Some [false; true; true; true; true; false; true];
  st_ignore_stage_g := Some [true; false; false; false; false; true; false] |}.
