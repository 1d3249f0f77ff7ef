(** The shipped tableaus. *)
From Coq Require Import QArith List Bool.
From Verif Require Import Model_RK Model_Tableaus Spec_RK.
Import ListNotations.

Definition ends_at_endsb (tab : tableau) : bool :=
  Qeq_bool (tab_c1 tab) 0 && Qeq_bool (last (tab_c tab) 0) 1.

Lemma pf_C28_shipped_tableaus tab : In tab shipped_tableaus ->
  post_init_ok tab = true /\ (fsal tab = true -> ends_at_ends tab).
Proof.
  assert (H : forallb (fun t => post_init_ok t && (negb (fsal t) || ends_at_endsb t)) shipped_tableaus = true)
    by (vm_compute; reflexivity).
  intros Ht. rewrite forallb_forall in H. specialize (H _ Ht). apply andb_prop in H as (H1 & H2).
  split; [exact H1|]. intros F. rewrite F in H2. cbn in H2. unfold ends_at_endsb in H2.
  apply andb_prop in H2 as (H2 & H3). split; apply Qeq_bool_eq; assumption.
Qed.
