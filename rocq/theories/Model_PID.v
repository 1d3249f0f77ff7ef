(** The adaptive step size controller.  Models [/repo/diffrax/_step_size_controller/pid.py]. *)
From Coq Require Import QArith List Bool.
From Verif Require Import Model_Result Model_Loop Model_Float.
Import ListNotations.
Open Scope Q_scope.

(** A PyTree of arrays: its leaves, each flattened. *)
Definition tree := list (list xq).

(** [pid.py:299-310]: the fields; [error_order] is what [_get_error_order] returns, positive. The
    function [norm] and exponentiation [x ** c] are parameters. *)
Record pid_controller := PIDController {
  rtol : Q; atol : Q; norm : tree -> xq; power : xq -> Q -> xq;
  pcoeff : Q; icoeff : Q; dcoeff : Q;
  dtmin : option Q; dtmax : option Q; force_dtmin : bool;
  factormin : Q; factormax : Q; safety : Q; error_order : Q
}.

(** [pid.py:84-85] [_PidState]: the previous two inverse scaled errors and [at_dtmin]. *)
Record pid_state := PidState {
  prev_inv_scaled_error : xq; prev_prev_inv_scaled_error : xq; at_dtmin : bool
}.

Record pid_out := PidOut {
  po_keep : bool; po_t0 : xq; po_t1 : xq; po_state : pid_state; po_result : RESULTS
}.

(** [pid.py:375-392] [init], after the choice of [dt0]. *)
Definition pid_init (p : pid_controller) (t0 dt0 : xq) : xq * pid_state :=
  let dt0 := match dtmax p with Some m => xmin dt0 (QFin m) | None => dt0 end in
  let dt0 := match dtmin p with Some m => xmax dt0 (QFin m) | None => dt0 end in
  (xadd t0 dt0, PidState (QFin 1) (QFin 1) false).

(** [pid.py:483-490] [_scale], on one leaf. *)
Definition scale_leaf (p : pid_controller) (y0 y1 err : list xq) : list xq :=
  let nan := existsb is_nan y1 in
  let y1 := if nan then y0 else y1 in
  let y := map2 (fun a b => xmax (xabs a) (xabs b)) y0 y1 in
  map2 (fun e a => xdiv e (xadd (QFin (atol p)) (xmul a (QFin (rtol p))))) err y.

(** [pid.py:492] *)
Definition scaled_error (p : pid_controller) (y0 y1 err : tree) : xq :=
  norm p (map2 (fun yy e => scale_leaf p (fst yy) (snd yy) e) (combine y0 y1) err).

(** [pid.py:511-525]: the factor by which the step size is multiplied.  The case distinction
    [_zero_coeff] only matters for speed, as [x ** 0 = 1]. *)
Definition pid_factor (p : pid_controller) (keep : bool) (inv prev prev_prev : xq) : xq :=
  let coeff1 := (icoeff p + pcoeff p + dcoeff p) / error_order p in
  let coeff2 := - (pcoeff p + 2 * dcoeff p) / error_order p in
  let coeff3 := dcoeff p / error_order p in
  let fac c x := if Qeq_bool c 0 then QFin 1 else power p x c in
  let lo := if keep then 1 else factormin p in
  let hi := if keep then factormax p else safety p in
  xclip (xmul (xmul (xmul (QFin (safety p)) (fac coeff1 inv)) (fac coeff2 prev)) (fac coeff3 prev_prev))
        (QFin lo) (QFin hi).

(** [pid.py:394-567] [adapt_step_size].  [made_jump] is always False. *)
Definition pid_adapt (p : pid_controller) (t0 t1 : xq) (y0 y1 err : tree) (s : pid_state) : pid_out :=
  let prev_dt := xsub t1 t0 in
  let scaled := scaled_error p y0 y1 err in
  let keep := xlt scaled (QFin 1) in
  let keep := match dtmin p with Some _ => keep || at_dtmin s | None => keep end in
  let inv := xdiv (QFin 1) scaled in
  let factor := pid_factor p keep inv (prev_inv_scaled_error s) (prev_prev_inv_scaled_error s) in
  let dt := xmul prev_dt factor in
  let inv := if xeq inv (QFin 0) || is_inf inv then QFin 1 else inv in
  let dt := match dtmax p with Some m => xmin dt (QFin m) | None => dt end in
  let '(dt, result, at_min) :=
    match dtmin p with
    | None => (dt, successful, at_dtmin s)
    | Some m =>
        let result := if negb (force_dtmin p) && xlt dt (QFin m) then dt_min_reached else successful in
        let dt := if at_dtmin s && xeq factor (QFin 1) then QFin m else dt in
        let at_min := xle dt (QFin m) in
        (xmax dt (QFin m), result, at_min)
    end in
  let next_t0 := if keep then t1 else t0 in
  PidOut keep next_t0 (xadd next_t0 dt)
         (PidState (if keep then inv else prev_inv_scaled_error s)
                   (if keep then prev_inv_scaled_error s else prev_prev_inv_scaled_error s) at_min)
         result.
