(** Brownian motion.  Models [/repo/diffrax/_brownian/tree.py] ([VirtualBrownianTree]) and
    [/repo/diffrax/_brownian/path.py] ([UnsafeBrownianPath]).

    One element of one leaf of the result is modelled; the elements do not interact.  Times are reals and
    arithmetic is exact.  Values live in a type [V] with the operations used: for [V = R] the model computes what
    the code computes from given samples, for other [V] it computes with random variables.
    A key is the path of splits by which it was obtained, [jr.split(key, n)[i] = i :: key], and the samples are an
    arbitrary function of the key. *)
From Coq Require Import Reals List Bool.
Import ListNotations.
Open Scope R_scope.

Record ops (V : Type) := Ops {
  op_zero : V;
  op_plus : V -> V -> V;
  op_minus : V -> V -> V;
  op_scale : R -> V -> V
}.
Arguments Ops {V}.
Arguments op_zero {V}.
Arguments op_plus {V}.
Arguments op_minus {V}.
Arguments op_scale {V}.

(** Numbers as values. *)
Definition real_ops : ops R := Ops 0 Rplus Rminus Rmult.

Definition key := list nat.
(** [jr.split(key, n)[i]] *)
Definition split (k : key) (i : nat) : key := i :: k.

(** The upper triangle of a symmetric 3x3 matrix: ww, wh, wk, hh, hk, kk *)
Record matrix3 := Matrix3 { m_ww : R; m_wh : R; m_wk : R; m_hh : R; m_hk : R; m_kk : R }.

(** [jr.normal(key)] and [jr.multivariate_normal(key, 0, cov)] *)
Record sampler (V : Type) := Sampler {
  normal : key -> V;
  multivariate_normal : key -> matrix3 -> V * V * V
}.
Arguments Sampler {V}.
Arguments normal {V}.
Arguments multivariate_normal {V}.

(** The type of increment: [BrownianIncrement], [SpaceTimeLevyArea], [SpaceTimeTimeLevyArea] *)
Inductive levy_area := BM | ST | STT.
(** [tree.py:61] *)
Inductive spline := Sqrt | Quad | Zero.

(** [2.0**-level] *)
Definition pow2 (level : nat) : R := (/ 2) ^ level.
(** [jax.nn.relu] *)
Definition relu (x : R) : R := Rmax 0 x.
(** [1 / jnp.where(jnp.abs(test) < eps, jnp.inf, x)] *)
Definition guarded_inverse (eps test x : R) : R := if Rlt_dec (Rabs test) eps then 0 else / x.

Section Tree.
  Context {V : Type} (o : ops V) (smp : sampler V) (la : levy_area) (spl : spline) (eps : R).
  Local Notation "0v" := (op_zero o).
  Local Notation "x [+] y" := (op_plus o x y) (at level 50, left associativity).
  Local Notation "x [-] y" := (op_minus o x y) (at level 50, left associativity).
  Local Notation "a [*] x" := (op_scale o a x) (at level 40, left associativity).

  (** [tree.py:69-84] [_LevyVal]; [H] and [K] are dummies ([None] in the code) if not available. *)
  Record levy_val := LevyVal { lv_dt : R; lv_W : V; lv_H : V; lv_bH : V; lv_K : V; lv_bK : V }.

  (** [tree.py:87-93] [_State]; a triple is the values at [s], at [u], and over [[s, u]].  [bhh] and [bkk] are dummies
      ([None] in the code) if not available. *)
  Record tree_state := TreeState {
    ts_level : nat; ts_s : R; ts_w : V * V * V; ts_key : key; ts_bhh : V * V * V; ts_bkk : V * V * V
  }.

  (** What is returned to the user: [_custom_types.py:70-100] *)
  Record increment := Increment { inc_dt : R; inc_W : V; inc_H : V; inc_K : V }.

  (** [tree.py:94-148] [_levy_diff] *)
  Definition levy_diff (x0 x1 : levy_val) : increment :=
    let su := lv_dt x1 - lv_dt x0 in
    match la with
    | BM => Increment su (lv_W x1 [-] lv_W x0) 0v 0v
    | _ =>
        let w_su := lv_W x1 [-] lv_W x0 in
        let inverse_su := guarded_inverse eps su su in
        let u_bb_s := lv_dt x1 [*] lv_W x0 [-] lv_dt x0 [*] lv_W x1 in
        let bhh_su := lv_bH x1 [-] lv_bH x0 [-] (1 / 2) [*] u_bb_s in
        let hh_su := inverse_su [*] bhh_su in
        match la with
        | STT =>
            let bkk_su :=
              lv_bK x1 [-] lv_bK x0 [-] (su / 2) [*] lv_bH x0 [+] (lv_dt x0 / 2) [*] bhh_su
              [-] ((lv_dt x1 - 2 * lv_dt x0) / 12) [*] u_bb_s in
            let su2 := su * su in
            let inverse_su2 := guarded_inverse eps su2 su2 in
            Increment su w_su hh_su (inverse_su2 [*] bkk_su)
        | _ => Increment su w_su hh_su 0v
        end
    end.

  (** [tree.py:151-159] [_make_levy_val] *)
  Definition make_levy_val (x : levy_val) : increment := Increment (lv_dt x) (lv_W x) (lv_H x) (lv_K x).

  (** [tree.py:162-175] [_split_interval] *)
  Definition split_interval (pred : bool) (x_stu : V * V * V) (x_st_tu : V * V) : V * V * V :=
    let '(x_s, x_t, x_u) := x_stu in
    let '(x_st, x_tu) := x_st_tu in
    (if pred then x_t else x_s, if pred then x_u else x_t, if pred then x_tu else x_st).

  (** [tree.py:626-773] [_brownian_arch]: [t], [w_stu], [w_st_tu], [keys], and the same for [bhh] and [bkk]. *)
  Definition brownian_arch (st : tree_state)
    : R * (V * V * V) * (V * V) * (key * key) * (V * V * V) * (V * V) * (V * V * V) * (V * V) :=
    let key_st := split (ts_key st) 0 in
    let midpoint_key := split (ts_key st) 1 in
    let key_tu := split (ts_key st) 2 in
    let keys := (key_st, key_tu) in
    let su := pow2 (ts_level st) in
    let st_ := su / 2 in
    let s := ts_s st in
    let t := s + st_ in
    let root_su := sqrt su in
    let '(w_s, w_u, w_su) := ts_w st in
    let '(bhh_s, bhh_u, bhh_su) := ts_bhh st in
    let '(bkk_s, bkk_u, bkk_su) := ts_bkk st in
    match la with
    | STT =>
        let z1 := normal smp (split midpoint_key 0) in
        let z2 := normal smp (split midpoint_key 1) in
        let z3 := normal smp (split midpoint_key 2) in
        let z := sqrt (su / 16) [*] z1 in
        let x1 := sqrt (su / 768) [*] z2 in
        let x2 := sqrt (su / 2880) [*] z3 in
        let su2 := su * su in
        let w_term1 := (1 / 2) [*] w_su in
        let w_term2 := (3 / (2 * su)) [*] bhh_su [+] z in
        let w_st := w_term1 [+] w_term2 in
        let w_tu := w_term1 [-] w_term2 in
        let bhh_term1 := (1 / 8) [*] bhh_su [-] (st_ / 2) [*] z in
        let bhh_term2 := (15 / (8 * su)) [*] bkk_su [+] st_ [*] x1 in
        let bhh_st := bhh_term1 [+] bhh_term2 in
        let bhh_tu := bhh_term1 [-] bhh_term2 in
        let bkk_term1 := (1 / 32) [*] bkk_su [-] (su2 / 8) [*] x1 in
        let bkk_term2 := (su2 / 4) [*] x2 in
        let bkk_st := bkk_term1 [+] bkk_term2 in
        let bkk_tu := bkk_term1 [-] bkk_term2 in
        let w_t := w_s [+] w_st in
        let t_bb_s := t [*] w_s [-] s [*] w_t in
        let bhh_t := bhh_s [+] bhh_st [+] (1 / 2) [*] t_bb_s in
        let bkk_t := bkk_s [+] bkk_st [+] (st_ / 2) [*] bhh_s [-] (s / 2) [*] bhh_st
                     [+] ((t - 2 * s) / 12) [*] t_bb_s in
        (t, (w_s, w_t, w_u), (w_st, w_tu), keys, (bhh_s, bhh_t, bhh_u), (bhh_st, bhh_tu), (bkk_s, bkk_t, bkk_u), (bkk_st, bkk_tu))
    | ST =>
        let z1 := normal smp (split midpoint_key 0) in
        let z2 := normal smp (split midpoint_key 1) in
        let z := (root_su / 4) [*] z1 in
        let n := sqrt (su / 12) [*] z2 in
        let w_term1 := (1 / 2) [*] w_su in
        let w_term2 := (3 / (2 * su)) [*] bhh_su [+] z in
        let w_st := w_term1 [+] w_term2 in
        let w_tu := w_term1 [-] w_term2 in
        let bhh_term1 := (1 / 8) [*] bhh_su [-] (su / 4) [*] z in
        let bhh_term2 := (su / 4) [*] n in
        let bhh_st := bhh_term1 [+] bhh_term2 in
        let bhh_tu := bhh_term1 [-] bhh_term2 in
        let w_t := w_s [+] w_st in
        let bhh_t := bhh_s [+] bhh_st [+] (1 / 2) [*] (t [*] w_s [-] s [*] w_t) in
        (t, (w_s, w_t, w_u), (w_st, w_tu), keys, (bhh_s, bhh_t, bhh_u), (bhh_st, bhh_tu), (0v, 0v, 0v), (0v, 0v))
    | BM =>
        let mean := (1 / 2) [*] w_su in
        let w_term2 := (root_su / 2) [*] normal smp midpoint_key in
        let w_st := mean [+] w_term2 in
        let w_tu := mean [-] w_term2 in
        let w_t := w_s [+] w_st in
        (t, (w_s, w_t, w_u), (w_st, w_tu), keys, (0v, 0v, 0v), (0v, 0v), (0v, 0v, 0v), (0v, 0v))
    end.

  (** [tree.py:377-407]: the initial state.  [key] is that of the leaf. *)
  Definition init_tree (k : key) : tree_state :=
    let state_key := split k 0 in
    let w_1 := normal smp (split k 1) in
    let bhh_1 := (1 / sqrt 12) [*] normal smp (split k 2) in
    let bkk_1 := (1 / sqrt 720) [*] normal smp (split k 3) in
    TreeState 0 0 (0v, w_1, w_1) state_key
      (match la with BM => (0v, 0v, 0v) | _ => (0v, bhh_1, bhh_1) end)
      (match la with STT => (0v, bkk_1, bkk_1) | _ => (0v, 0v, 0v) end).

  (** [tree.py:414-447] [_body_fun] *)
  Definition tree_body (r : R) (st : tree_state) : tree_state :=
    let '(t, w_stu, w_st_tu, keys, bhh_stu, bhh_st_tu, bkk_stu, bkk_st_tu) := brownian_arch st in
    let cond := if Rlt_dec t r then true else false in
    let '(key_st, key_tu) := keys in
    TreeState (ts_level st + 1) (if cond then t else ts_s st) (split_interval cond w_stu w_st_tu)
      (if cond then key_st else key_tu) (split_interval cond bhh_stu bhh_st_tu) (split_interval cond bkk_stu bkk_st_tu).

  (** [tree.py:409-412, 449]: [lax.while_loop(_cond_fun, _body_fun, init_state)]; [None] if [fuel] does not suffice. *)
  Fixpoint tree_loop (tol r : R) (fuel : nat) (st : tree_state) : option tree_state :=
    if Rlt_dec tol (pow2 (ts_level st)) then
      match fuel with O => None | S fuel => tree_loop tol r fuel (tree_body r st) end
    else Some st.

  (** [tree.py:451-624]: within the final interval.  ("quad" with Levy area is a [ValueError]; here it is "sqrt".) *)
  Definition tree_leaf (r : R) (final : tree_state) : levy_val :=
    let s := ts_s final in
    let su := pow2 (ts_level final) in
    let sr := relu (r - s) in
    let ru := relu (su - sr) in
    let '(w_s, w_u, w_su) := ts_w final in
    let '(bhh_s, bhh_u, bhh_su) := ts_bhh final in
    let '(bkk_s, bkk_u, bkk_su) := ts_bkk final in
    match la with
    | STT =>
        let sr_by_su := sr / su in
        let ru_by_su := ru / su in
        let sr_ru_by_su2 := sr_by_su * ru_by_su in
        let bb_mean := (6 * sr_ru_by_su2 / su) [*] bhh_su [+] (120 * sr_ru_by_su2 * (1 / 2 - sr_by_su) / su ^ 2) [*] bkk_su in
        let w_mean := sr_by_su [*] w_su [+] bb_mean in
        let h_mean := (sr_by_su ^ 2 / su) [*] (bhh_su [+] (30 * ru_by_su / su) [*] bkk_su) in
        let k_mean := (sr_by_su ^ 3 / su ^ 2) [*] bkk_su in
        let ww_cov := (sr_by_su * ru_by_su * ((sr - ru) ^ 4 + 4 * (sr ^ 2 * ru ^ 2))) / su ^ 3 in
        let wh_cov := - (sr_by_su ^ 3 * ru_by_su * (sr ^ 2 - 3 * sr * ru + 6 * ru ^ 2)) / (2 * su) in
        let wk_cov := sr_by_su ^ 4 * ru_by_su * (sr - ru) / 12 in
        let hh_cov := (sr / 12) * (1 - sr_by_su ^ 3 * (sr ^ 2 + 2 * sr * ru + 16 * ru ^ 2) / su ^ 2) in
        let hk_cov := - (ru / 24) * sr_by_su ^ 5 in
        let kk_cov := (sr / 720) * (1 - sr_by_su ^ 5) in
        let '(hat_w_sr, hat_hh_sr, hat_kk_sr) :=
          match spl with
          | Zero => (0v, 0v, 0v)
          | _ => multivariate_normal smp (ts_key final) (Matrix3 ww_cov wh_cov wk_cov hh_cov hk_cov kk_cov)
          end in
        let w_sr := w_mean [+] hat_w_sr in
        let w_r := w_s [+] w_sr in
        let r_bb_s := r [*] w_s [-] s [*] w_r in
        let bhh_sr := sr [*] (h_mean [+] hat_hh_sr) in
        let bhh_r := bhh_s [+] bhh_sr [+] (1 / 2) [*] r_bb_s in
        let bkk_sr := sr ^ 2 [*] (k_mean [+] hat_kk_sr) in
        let bkk_r := bkk_s [+] bkk_sr [+] (sr / 2) [*] bhh_s [-] (s / 2) [*] bhh_sr [+] ((r - 2 * s) / 12) [*] r_bb_s in
        let inverse_r := guarded_inverse eps (r * r) r in
        LevyVal r w_r (inverse_r [*] bhh_r) bhh_r (inverse_r ^ 2 [*] bkk_r) bkk_r
    | ST =>
        let sr3 := sr ^ 3 in
        let ru3 := ru ^ 3 in
        let su3 := su ^ 3 in
        let '(x1, x2) :=
          match spl with
          | Zero => (0v, 0v)
          | _ => (normal smp (split (ts_key final) 0), normal smp (split (ts_key final) 1))
          end in
        let sr_ru_half := sqrt (sr * ru) in
        let d := sqrt (sr3 + ru3) in
        let d_prime := 1 / (2 * su * d) in
        let a := d_prime * sr3 * sr_ru_half in
        let b := d_prime * ru3 * sr_ru_half in
        let w_sr := (sr / su) [*] w_su [+] (6 * sr * ru / su3) [*] bhh_su [+] (2 * (a + b) / su) [*] x1 in
        let w_r := w_s [+] w_sr in
        let c := sqrt (3 * sr3 * ru3) / (6 * d) in
        let bhh_sr := (sr3 / su3) [*] bhh_su [-] a [*] x1 [+] c [*] x2 in
        let bhh_r := bhh_s [+] bhh_sr [+] (1 / 2) [*] (r [*] w_s [-] s [*] w_r) in
        let inverse_r := guarded_inverse eps r r in
        LevyVal r w_r (inverse_r [*] bhh_r) bhh_r 0v 0v
    | BM =>
        let w_mean := w_s [+] (sr / su) [*] w_su in
        let bb :=
          match spl with
          | Sqrt => sqrt (sr * ru / su) [*] normal smp (ts_key final)
          | Quad => (sr * ru / su) [*] normal smp (ts_key final)
          | Zero => 0v
          end in
        LevyVal r (w_mean [+] bb) 0v 0v 0v 0v
    end.

  (** [tree.py:356-364] [_evaluate] and [_evaluate_leaf]; [None] also for the error of lines 358-362. *)
  Definition evaluate_leaf (tol : R) (k : key) (fuel : nat) (r : R) : option levy_val :=
    if Rlt_dec r 0 then None else if Rlt_dec 1 r then None
    else match tree_loop tol r fuel (init_tree k) with Some final => Some (tree_leaf r final) | None => None end.

  (** [tree.py:226-243, 266-269]: the tree; the tolerance is rescaled. *)
  Record tree := Tree { vt_t0 : R; vt_t1 : R; vt_tol : R; vt_key : key }.
  Definition scaled_tol (vt : tree) : R := vt_tol vt / (vt_t1 vt - vt_t0 vt).
  (** [_misc.py:71-82] [linear_rescale] *)
  Definition linear_rescale (t0 t t1 : R) : R :=
    if Req_EM_T t0 t1 then 0 / 1 else (t - t0) / (t1 - t0).
  (** [tree.py:303-323] [_denormalise_bm_inc] *)
  Definition denormalise (vt : tree) (x : increment) : increment :=
    let interval_len := vt_t1 vt - vt_t0 vt in
    let sqrt_len := sqrt interval_len in
    Increment (interval_len * inc_dt x) (sqrt_len [*] inc_W x) (sqrt_len [*] inc_H x) (sqrt_len [*] inc_K x).

  (** [tree.py:325-354] [evaluate(t0, t1, use_levy=True)]; without [use_levy] only [inc_W] of this is returned. *)
  Definition evaluate (vt : tree) (fuel : nat) (t0 : R) (t1 : option R) : option increment :=
    match evaluate_leaf (scaled_tol vt) (vt_key vt) fuel (linear_rescale (vt_t0 vt) t0 (vt_t1 vt)) with
    | None => None
    | Some levy_0 =>
        match t1 with
        | None => Some (denormalise vt (make_levy_val levy_0))
        | Some t1 =>
            match evaluate_leaf (scaled_tol vt) (vt_key vt) fuel (linear_rescale (vt_t0 vt) t1 (vt_t1 vt)) with
            | None => None
            | Some levy_1 => Some (denormalise vt (levy_diff levy_0 levy_1))
            end
        end
    end.

  (** [path.py:146-185] [UnsafeBrownianPath._evaluate_leaf]; [k] is the key derived from the bits of both times. *)
  Definition unsafe_evaluate (k : key) (t0 t1 : R) : increment :=
    let w_std := sqrt (t1 - t0) in
    let dt := t1 - t0 in
    match la with
    | STT => Increment dt (w_std [*] normal smp (split k 0)) ((w_std / sqrt 12) [*] normal smp (split k 1))
                       ((w_std / sqrt 720) [*] normal smp (split k 2))
    | ST => Increment dt (w_std [*] normal smp (split k 0)) ((w_std / sqrt 12) [*] normal smp (split k 1)) 0v
    | BM => Increment dt (w_std [*] normal smp k) 0v 0v
    end.
End Tree.
Arguments levy_val : clear implicits.
Arguments tree_state : clear implicits.
Arguments increment : clear implicits.
