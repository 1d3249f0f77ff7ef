(** Concrete problems for the clipping controller.  The inner controller follows a script: its state
    is the list of verdicts and proposed ends still to come. *)
From Coq Require Import ZArith List Bool Arith Lia Sorting.Sorted.
From Verif Require Import Model_Result Model_Loop Spec_Loop Model_Clip Spec_Clip Ex_Loop.
Import ListNotations.
Open Scope Z_scope.

Definition script := list (bool * Z).
Definition ex_inner (a b y y1 : Z) (e : unit) (s : script) : adapt_out script :=
  match s with
  | (keep, t) :: s' => let start := if keep then b else a in
                       AdaptOut keep start (Z.max start t) false s' successful
  | [] => AdaptOut true b (b + 1000) false [] successful
  end.
Lemma ex_inner_ok : inner_ok ex_inner.
Proof.
  constructor; intros a b y y1 e s; unfold ex_inner; destruct s as [|[[] t] s]; cbn; try congruence; lia.
Qed.
Lemma ex_inner_no_jumps : inner_no_jumps ex_inner.
Proof. intros a b y y1 e s. unfold ex_inner. destruct s as [|[[] t] s]; cbn; split; auto; congruence. Qed.

Definition ex_clip (steps jumps : option (list Z)) (store : option nat) : clip_controller Z unit script :=
  ClipController ex_inner steps jumps store.
(** From 0 to [t1]. *)
Definition ex_clip_cfg (k : clip_controller Z unit script) (t1 : Z) (subs : list (subsaveat Z Z))
  : config Z nat (clip_state script) (Z * Z) unit Z nat :=
  Config (ex_step 50000) (fun e => e) ex_interp (clip_adapt k) None (fun a b => a + (b - a) / 2)
         (fun n _ => S n) subs true None 0 t1 (Some 20%nat).
Definition ex_clip_init (k : clip_controller Z unit script) (first : Z) (s : script)
  : initial Z nat (clip_state script) nat :=
  Initial 10 (fst (clip_init k 0 first s)) false 0%nat (snd (clip_init k 0 first s)) 0%nat PInf.

Lemma ex_clip_solve steps jumps store t1 subs first s :
  Sorted Z.le (ts_of steps) -> Sorted Z.le (ts_of jumps) -> 0 < t1 -> 0 <= first ->
  let k := ex_clip steps jumps store in
  clip_solve k (ex_clip_cfg k t1 subs) (ex_clip_init k first s) first s.
Proof.
  intros Hs Hj Ht Hf k. split; [reflexivity|]. split; [cbn; destruct (clip_init k 0 first s); reflexivity|].
  split; [exact Hf|]. split; [apply ex_inner_ok|]. split; [exact Hs|]. split; [exact Hj|].
  split; [reflexivity|]. split; [exact Ht|].
  intros a b H. cbn. assert (0 <= (b - a) / 2 <= b - a); [|lia].
  split; [apply Z.div_pos; lia|]. apply Z.div_le_upper_bound; lia.
Qed.
Lemma ex_clip_results_ok k t1 subs :
  (exists a b c, k = ex_clip a b c) ->
  results_ok (ex_clip_cfg k t1 subs).
Proof.
  intros (a & b & c & ->). split; [intros t t' y ss j|intros t t' y y1 e cs].
  - cbn. destruct (50000 <=? t'); split; discriminate.
  - cbn zeta. cbn [adapt ex_clip_cfg]. unfold clip_adapt.
    assert (Hr : ao_result (controller_adapt (ex_clip a b c) t t' y y1 e (inner_state cs)) = successful).
    { cbn. unfold ex_inner. destruct (inner_state cs) as [|[[] x] s]; reflexivity. }
    destruct (adapt_steps _ _ _) as [n1 si]. destruct (adapt_jumps _ _ _ _) as [[[n0' n1'] mj] ji].
    destruct (adapt_rejects t' n1' _ _ (reject_info cs)) as [[n2 r] ri] eqn:Hrj. cbn [ao_result].
    rewrite Hr in Hrj. unfold adapt_rejects, where_ in Hrj.
    destruct (reject_info cs) as [[i ts]|]; injection Hrj as _ <- _; [|split; discriminate].
    destruct (match get_tz i ts with Some r0 => r0 <? t' | None => false end); cbn;
      rewrite ?andb_false_r; try (split; discriminate).
    destruct (_ <? 0); cbn; split; discriminate.
Qed.
Lemma ex_clip_rf_ok k t1 subs : rf_results_ok (ex_clip_cfg k t1 subs).
Proof. intros e rf f lo hi st r He. discriminate. Qed.
