(** Model of [Extend] for workloads: src/scheduler/system.rs 72-76. *)
From stdpp Require Import prelude list.
From Verif Require Import Sched.
Local Open Scope nat_scope.

(** [extend]: system.rs 73-75.  Unlike [with_system] (workload.rs 297) it does not number the systems. *)
Definition wl_extend (ss : list wsys) (w : workload) : workload :=
  wl_set_systems w (wl_systems w ++ ss).
