(** The algebra of results. *)
From Coq Require Import Bool List.
From Verif Require Import Model_Result.
Import ListNotations.

(** Being an error: neither successful nor an event. *)
Definition is_error (r : RESULTS) : Prop := r <> successful /\ r <> event_occurred.
(** The same as a test. *)
Definition errorb (r : RESULTS) : bool :=
  match r with successful | event_occurred => false | _ => true end.

Lemma pf_C48_table (old new : RESULTS) :
  (old = successful -> update_result old new = new) /\
  (old = event_occurred -> new = successful \/ new = event_occurred ->
   update_result old new = event_occurred) /\
  (old = event_occurred -> is_error new -> update_result old new = new) /\
  (is_error old -> update_result old new = old).
Proof.
  unfold is_error; destruct old, new; cbn; repeat split; intros; try congruence;
    intuition congruence.
Qed.

Lemma pf_C48_associative (a b c : RESULTS) :
  update_result (update_result a b) c = update_result a (update_result b c) /\
  update_result successful a = a /\ update_result a successful = a.
Proof. destruct a, b, c; cbn; auto. Qed.

Lemma pf_C48_history (rs : list RESULTS) :
  fold_left update_result rs successful =
  match find errorb rs with
  | Some e => e
  | None => if existsb is_event rs then event_occurred else successful
  end.
Proof.
  assert (H : forall rs a, fold_left update_result rs a =
    if errorb a then a else
    match find errorb rs with
    | Some e => e
    | None => if is_event a || existsb is_event rs then event_occurred else successful
    end).
  { clear. induction rs as [|r rs IH]; intros a; cbn [fold_left find existsb].
    - destruct a; reflexivity.
    - rewrite IH. destruct a, r; cbn; try reflexivity. }
  rewrite H. reflexivity.
Qed.
