(** Concrete problems for the examples about solvers. *)
From Coq Require Import ZArith Reals List Bool Arith Lia Lra.
From Verif Require Import Model_Result Model_Loop Spec_Loop Ex_Loop Model_RK Model_Tableaus Model_Terms Model_Solvers.
From Verif Require Import Spec_RK Spec_RKLoop Spec_Terms Spec_Solvers Ex_RK.
Import ListNotations.
Open Scope R_scope.

Lemma decay_additive : additive_term decay.
Proof. intros f a b c x. cbn. unfold vscale. ring. Qed.

(** [y' = t], whose Euler steps have an error of [h^2 / 2]. *)
Definition ramp : term unit unit R := ode_term (fun t _ _ => t).
Definition ramp_flow (t t' : R) (y : unit -> R) : unit -> R := fun i => y i + (t' * t' - t * t) / 2.

(** Two coupled pendulums; the state consists of momenta and angles. *)
Definition pull : half_term (bool -> R) (bool -> R) R :=
  HalfTerm (fun t0 t1 : R => t1 - t0)
           (fun (_ : R) (q : bool -> R) (h : R) (i : bool) => h * ((if i then -1 else 1) * sin (q true - q false))).
Definition glide : half_term (bool -> R) (bool -> R) R :=
  HalfTerm (fun t0 t1 : R => t1 - t0) (fun (_ : R) (p : bool -> R) (h : R) (i : bool) => h * p i).
Definition pull_derivative (_ h : R) (q v : bool -> R) : bool -> R :=
  fun i => h * ((if i then -1 else 1) * (cos (q true - q false) * (v true - v false))).
Definition glide_derivative (_ h : R) (p v : bool -> R) : bool -> R := fun i => h * v i.

Lemma scal_deriv f a x l : derivable_pt_lim f x l -> derivable_pt_lim (fun s => a * f s) x (a * l).
Proof. apply (derivable_pt_lim_scal f a x l). Qed.

Lemma pull_derives t h : derivative_of (fun q => ht_vf_prod pull t q h) (pull_derivative t h).
Proof.
  intros c v T i. cbn. unfold pull_derivative.
  apply (scal_deriv (fun s => (if i then -1 else 1) * sin (c s true - c s false))).
  apply (scal_deriv (fun s => sin (c s true - c s false))).
  apply (derivable_pt_lim_comp (fun s => c s true - c s false) sin).
  - apply (derivable_pt_lim_minus (fun s => c s true) (fun s => c s false)); apply T.
  - apply derivable_pt_lim_sin.
Qed.
Lemma pull_symmetric t h : symmetric [true; false] (pull_derivative t h).
Proof. intros y u v. cbn. unfold pull_derivative. ring. Qed.
Lemma glide_derives t h : derivative_of (fun p => ht_vf_prod glide t p h) (glide_derivative t h).
Proof. intros c v T i. cbn. unfold glide_derivative. apply (scal_deriv (fun s => c s i)), T. Qed.
Lemma glide_symmetric t h : symmetric [true; false] (glide_derivative t h).
Proof. intros y u v. cbn. unfold glide_derivative. ring. Qed.

(** A root finder for affine equations in one unknown. *)
Definition affine_find (g : (unit -> R) -> (unit -> R)) (_ : unit -> R) : (unit -> R) * RESULTS := affine_root g.
Lemma affine_finds : finds_roots affine_find.
Proof.
  intros g z. unfold affine_find, affine_root. cbn [fst snd]. destruct (Req_EM_T _ 0) as [E|E]; [|discriminate]. intros _ []. exact E.
Qed.
Lemma affine_step (t0 t1 : R) (y0 : unit -> R) : t0 <= t1 ->
  is_okay (so_result (me_step (implicit_euler affine_find decay) t0 t1 y0 tt false)) = true.
Proof.
  intros H. cbn. unfold affine_find, affine_root, implicit_relation. cbn. unfold vscale, vadd, vsub.
  destruct (Req_EM_T _ 0) as [E|E]; [reflexivity|]. exfalso. apply E. field. lra.
Qed.
Lemma affine_steps (ts : list R) (t0 : R) (y0 : unit -> R) : forwards t0 ts ->
  exists y1, good_steps (implicit_euler affine_find decay) t0 ts y0 tt y1 tt.
Proof.
  revert t0 y0. induction ts as [|t1 ts IH]; intros t0 y0 H; [exists y0; constructor|]. destruct H as (H & H').
  destruct (IH t1 (so_y (me_step (implicit_euler affine_find decay) t0 t1 y0 tt false)) H') as (y1 & G). exists y1. constructor.
  - apply affine_step, H.
  - cbv zeta. destruct (so_state _). exact G.
Qed.
Lemma decay_dissipative : dissipative [tt] (fun _ y i => - y i).
Proof. intros t y z. cbn. pose proof (Rle_0_sqr (y tt - z tt)). unfold Rsqr in *. lra. Qed.

(** A root finder that always fails, and returns the initial guess. *)
Definition failing_find (g : (unit -> R) -> (unit -> R)) (guess : unit -> R) : (unit -> R) * RESULTS := (guess, other_error 7).
Definition failing_rf : root_finder unit unit :=
  RootFinder unit unit (fun _ _ _ => tt) (fun _ _ _ => tt) (fun _ _ g guess => failing_find g guess) (fun _ _ g guess => failing_find g guess).

(** A controller that rejects steps without error estimate and accepts others. *)
Definition wary_adapt (a b : Z) (y y1 : unit -> R) (e : option (unit -> R)) (n : nat) : adapt_out nat :=
  match e with
  | None => AdaptOut false a (a + 100) false (S n) successful
  | Some _ => AdaptOut true b (b + 300) false (S n) successful
  end%Z.
Definition wary_cfg {SS DI} (step : Z -> Z -> (unit -> R) -> SS -> bool -> step_out (unit -> R) SS DI (option (unit -> R)))
  : config (unit -> R) SS nat DI (option (unit -> R)) (unit -> R) unit :=
  Config step (fun e => e) (fun a b d t => fun _ => 0) wary_adapt None (fun a b => (a + b) / 2)%Z (fun m _ => m)
    [SubSaveAt false true None 0 (fun _ y => y)] false None 0 1000 (Some 20%nat).
Definition wary_initial {SS} (s : SS) : initial (unit -> R) SS nat unit := Initial (fun _ => 1) 300%Z false s 0%nat tt PInf.
Lemma wary_rejects {SS DI} (step : Z -> Z -> (unit -> R) -> SS -> bool -> step_out (unit -> R) SS DI (option (unit -> R))) :
  rejects_missing_error (wary_cfg step).
Proof. intros a b y y1 cs. reflexivity. Qed.
Lemma wary_contract {SS DI} (step : Z -> Z -> (unit -> R) -> SS -> bool -> step_out (unit -> R) SS DI (option (unit -> R))) :
  controller_contract (wary_cfg step) (fun _ _ _ => True).
Proof.
  intros a b y y1 e cs _ H1 H2 _. cbn [wary_cfg adapt]. unfold wary_adapt.
  destruct e; cbn [ao_keep ao_tprev ao_tnext]; repeat split; try discriminate; lia.
Qed.
Lemma wary_announces {SS DI} (step : Z -> Z -> (unit -> R) -> SS -> bool -> step_out (unit -> R) SS DI (option (unit -> R))) :
  announces_jumps (wary_cfg step).
Proof. intros a b y y1 e cs. cbn [wary_cfg adapt]. unfold wary_adapt. destruct e; cbn; [reflexivity|discriminate]. Qed.

(** What the loop sees of a solver. *)
Definition loop_step {Y SS DI} (m : method Y SS DI) (time : Z -> R) (a b : Z) (y : Y) (s : SS) (j : bool) : step_out Y SS DI (option Y) :=
  me_step m (time a) (time b) y s j.
(** A Runge--Kutta solver as a method. *)
Definition rk_method (sv : solver unit unit R) : method (unit -> R) (solver_state unit) ((unit -> R) * (unit -> R) * list (list (unit -> R))) :=
  Method (fun _ _ _ => rk_init sv)
    (fun t0 t1 y s j => let out := rk_step sv t0 t1 y false s j in
       StepOut (ro_y out) (ro_error out) (y, ro_y out, ro_k out) (ro_state out) (ro_result out)).
