(** Progress meters: [diffrax/_progress_meter.py].

    Progress is a rational number: the rounding of [linear_rescale] and of the comparison on
    line 140 is not modelled, nor is the formatting of a line ("{:.2f}%"): a line printed by a text
    meter, or a refresh of a tqdm bar, is the exact progress shown, so 0 stands for "0.00%" and 1
    for "100.00%". *)
From Coq Require Import QArith Qminmax List Bool Arith.
Import ListNotations.
Open Scope Q_scope.

(** What a meter asks of the manager on the host: the callbacks of lines 261-313. *)
Inductive call := CInit | CStep (p : Q) | CClose.

(** The two kinds of bars, [TextProgressMeter] (lines 99-163) and [TqdmProgressMeter]
    (lines 180-241).  The content of a bar is a number: [bar[0]] or [bar.n / 100]. *)
Inductive kind := Text | Tqdm.

(** [_init_bar]: lines 112-115 and 192-203. *)
Definition init_bar (k : kind) : Q * list Q := (0, [0]).
(** [_step_bar]: lines 121-130 and 209-213. *)
Definition step_bar (k : kind) (bar p : Q) : Q * list Q := (p, [p]).
(** [_close_bar]: lines 157-160 and 234-238. *)
Definition close_bar (k : kind) (bar : Q) : list Q :=
  match k with
  | Text => if Qeq_bool bar 1 then [] else [1]
  | Tqdm => [1]
  end.

(** The manager (lines 252-316) together with the solves that use it.  [w_bars] is the dictionary
    [self.bars]; [w_handle c] is the [meter_idx] held by the solve [c]; [w_out] everything printed
    so far, with the solve that caused it; [w_raised] lists the solves whose callback raised an
    exception.  All callbacks hold the lock, hence are atomic. *)
Record world := World {
  w_idx : nat;
  w_bars : nat -> option Q;
  w_handle : nat -> option nat;
  w_out : list (nat * Q);
  w_raised : list nat
}.
(** [_ProgressMeterManager.__init__], lines 255-259. *)
Definition world0 : world := World 0 (fun _ => None) (fun _ => None) [] [].

Definition update {A} (f : nat -> A) (k : nat) (v : A) : nat -> A :=
  fun i => if (i =? k)%nat then v else f i.

Section Manager.
  (** The kind of meter each solve uses. *)
  Variable kind_of : nat -> kind.

  (** One callback of the solve [c]: [_init] (lines 262-267), [_step] (lines 284-299: a missing bar
      is ignored), [_close] (lines 304-309: a missing bar is a [KeyError]).  A solve that never
      called [init] holds no index; its other calls are treated as calls with an index that is not
      in the dictionary. *)
  Definition serve (w : world) (e : nat * call) : world :=
    let '(c, what) := e in
    match what with
    | CInit =>
        let '(bar, lines) := init_bar (kind_of c) in
        let i := S (w_idx w) in
        World i (update (w_bars w) i (Some bar)) (update (w_handle w) c (Some i))
              (w_out w ++ map (pair c) lines) (w_raised w)
    | CStep p =>
        match w_handle w c with
        | None => w
        | Some i =>
            match w_bars w i with
            | None => w
            | Some bar =>
                let '(bar', lines) := step_bar (kind_of c) bar p in
                World (w_idx w) (update (w_bars w) i (Some bar')) (w_handle w)
                      (w_out w ++ map (pair c) lines) (w_raised w)
            end
        end
    | CClose =>
        match w_handle w c with
        | None => World (w_idx w) (w_bars w) (w_handle w) (w_out w) (w_raised w ++ [c])
        | Some i =>
            match w_bars w i with
            | None => World (w_idx w) (w_bars w) (w_handle w) (w_out w) (w_raised w ++ [c])
            | Some bar =>
                World (w_idx w) (update (w_bars w) i None) (w_handle w)
                      (w_out w ++ map (pair c) (close_bar (kind_of c) bar)) (w_raised w)
            end
        end
    end.

  Definition serve_all (tr : list (nat * call)) : world := fold_left serve tr world0.
End Manager.

(** The device side.  A batch of solves (under [vmap]) shares one meter; a row holds, for one
    iteration of the loop over steps and for every element of the batch, whether that element is
    still being solved and the progress the body of the loop computed for it.  (The body is
    evaluated for all elements and the new state kept for the active ones only.)  A single solve is
    a batch of one element. *)
Definition row := list (bool * Q).

(** [_unvmap_min], lines 90-91. *)
Definition unvmap_min (ps : list Q) : Q :=
  match ps with
  | [] => 1
  | p :: ps' => fold_left Qmin ps' p
  end.

(** [Qlt_bool] *)
Definition Qltb (a b : Q) : bool := negb (Qle_bool b a).

(** [TextProgressMeter.step], lines 132-155, and [_ProgressMeterManager.step], lines 281-282, which
    takes the minimum over the batch. *)
Definition text_pred (minimum_increase : Q) (state : list Q) (r : row) : bool :=
  forallb (fun sp : Q * (bool * Q) => Qltb minimum_increase (snd (snd sp) - fst sp) || Qeq_bool (snd (snd sp)) 1)
          (combine state r).
Definition text_step (minimum_increase : Q) (state : list Q) (r : row) : list Q * list call :=
  if text_pred minimum_increase state r
  then (map (fun sp : Q * (bool * Q) => if fst (snd sp) then snd (snd sp) else fst sp) (combine state r),
        [CStep (unvmap_min (map snd r))])
  else (state, []).
Fixpoint text_steps (minimum_increase : Q) (state : list Q) (rows : list row) : list call :=
  match rows with
  | [] => []
  | r :: rows' =>
      let '(state', calls) := text_step minimum_increase state r in
      calls ++ text_steps minimum_increase state' rows'
  end.
(** The callbacks of a whole solve of a batch of [n] elements: [_integrate.py:1330, 413-417, 1478]
    and [init], [close], lines 117-119 and 162-163. *)
Definition text_program (minimum_increase : Q) (n : nat) (rows : list row) : list call :=
  CInit :: text_steps minimum_increase (repeat 0 n) rows ++ [CClose].

(** [TqdmProgressMeter.step], lines 215-232: the state is a step counter. *)
Definition tqdm_step (refresh_steps : nat) (state : list nat) (r : row) : list nat * list call :=
  (map (fun sp : nat * (bool * Q) => if fst (snd sp) then S (fst sp) else fst sp) (combine state r),
   if (list_max state mod refresh_steps =? 0)%nat
   then [CStep (unvmap_min (map snd r))] else []).
Fixpoint tqdm_steps (refresh_steps : nat) (state : list nat) (rows : list row) : list call :=
  match rows with
  | [] => []
  | r :: rows' =>
      let '(state', calls) := tqdm_step refresh_steps state r in
      calls ++ tqdm_steps refresh_steps state' rows'
  end.
Definition tqdm_program (refresh_steps : nat) (n : nat) (rows : list row) : list call :=
  CInit :: tqdm_steps refresh_steps (repeat 0%nat n) rows ++ [CClose].

(** The text meter in the form in which the loop ([Model_Loop.meter_step]) carries it, for a single
    solve: the state on the device and the callbacks so far.  [rescale] is
    [linear_rescale(t0, _, t1)], [_integrate.py:415-417]. *)
Definition text_meter {T : Type} (minimum_increase : Q) (rescale : T -> Q)
    (ms : list Q * list call) (t : T) : list Q * list call :=
  let '(state, calls) := text_step minimum_increase (fst ms) [(true, rescale t)] in
  (state, snd ms ++ calls).
(** [_integrate.py:1330] *)
Definition text_meter_init : list Q * list call := ([0], [CInit]).
