(** The orders that the solvers declare.  Models the [order] methods of the classes in
    [/repo/diffrax/_solver/*.py] whose tableaus are in [Model_Tableaus]. *)
From Coq Require Import QArith List.
From Verif Require Import Model_RK Model_Tableaus.
Import ListNotations.

(** The tableaus of a solver (two for implicit-explicit ones, in the order of the [MultiTerm]) with what
    [solver.order(terms)] returns. *)
Record rk_method := RKMethod { m_tableaus : list tableau; m_order : nat }.
(** [runge_kutta.py:165] [num_stages] *)
Definition m_stages (m : rk_method) : nat := match m_tableaus m with tab :: _ => num_stages tab | [] => 0 end.

(** [heun.py:41-42] *)
Definition heun : rk_method := RKMethod [heun_tableau] 2.
(** [midpoint.py:37-39] *)
Definition midpoint : rk_method := RKMethod [midpoint_tableau] 2.
(** [ralston.py:43-45] *)
Definition ralston : rk_method := RKMethod [ralston_tableau] 2.
(** [bosh3.py:38-40] *)
Definition bosh3 : rk_method := RKMethod [bosh3_tableau] 3.
(** [dopri5.py:98-100] *)
Definition dopri5 : rk_method := RKMethod [dopri5_tableau] 5.
(** [tsit5.py:188-189] *)
Definition tsit5 : rk_method := RKMethod [tsit5_tableau] 5.
(** [dopri8.py:347-349] *)
Definition dopri8 : rk_method := RKMethod [dopri8_tableau] 8.
(** [kvaerno3.py:77-79] *)
Definition kvaerno3 : rk_method := RKMethod [kvaerno3_tableau] 3.
(** [kvaerno4.py:118-120] *)
Definition kvaerno4 : rk_method := RKMethod [kvaerno4_tableau] 4.
(** [kvaerno5.py:124-126] *)
Definition kvaerno5 : rk_method := RKMethod [kvaerno5_tableau] 5.
(** [kencarp3.py:162-164], [173-175] *)
Definition kencarp3 : rk_method := RKMethod [kencarp3_explicit_tableau; kencarp3_implicit_tableau] 3.
(** [kencarp4.py:165-167], [176-177] *)
Definition kencarp4 : rk_method := RKMethod [kencarp4_explicit_tableau; kencarp4_implicit_tableau] 4.
(** [kencarp5.py:232-234], [243-245] *)
Definition kencarp5 : rk_method := RKMethod [kencarp5_explicit_tableau; kencarp5_implicit_tableau] 5.
(** [sil3.py:82-84], [99-101] *)
Definition sil3 : rk_method := RKMethod [sil3_explicit_tableau; sil3_implicit_tableau] 2.
