(** Model of World::iter (src/world.rs:1526-1542) and AllStorages::iter (src/all_storages/mod.rs:1471-1478). *)
From stdpp Require Import prelude gmap.
From Coq Require Import NArith.
From Verif Require Import EntityId Base SparseSet Track World Iter.
Open Scope N_scope.

Section iter.
Context {V : Type} (kind : N -> tracking).
(** Borrowing creates the missing storages; the windows are made from the owned views, with the times
    of a view that has no last run (src/views/view.rs:52-77, src/borrow/mod.rs:290-299).  The borrows themselves are not part of
    this model, see Borrow.v. *)
Definition owned_views (w : world V) (i : N) : window V :=
  let s := store_or_new kind (w_stores w) i in
  window_owned i s (ss_last_ins s, ss_last_mod s, w_counter w).
Definition w_iter (w : world V) (q : query) : res (iter V) := component_iter (owned_views w) q.
End iter.
