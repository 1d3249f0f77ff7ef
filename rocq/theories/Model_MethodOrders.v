(** The orders that the solvers without a tableau declare.  Models the [order] methods of these classes in [/repo/diffrax/_solver/*.py]. *)

(** [euler.py:31-32] *)
Definition euler_order : nat := 1.
(** [implicit_euler.py:45-47] *)
Definition implicit_euler_order : nat := 1.
(** [semi_implicit_euler.py:33-34] *)
Definition semi_implicit_euler_order : nat := 1.
(** [leapfrog_midpoint.py:51-52] *)
Definition leapfrog_midpoint_order : nat := 2.
(** [reversible_heun.py:43-44] *)
Definition reversible_heun_order : nat := 2.
