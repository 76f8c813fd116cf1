(** Time windows of the views, the clearing functions of the world, the runs of a system, and
    add_distinct_component: src/borrow/mod.rs, src/views/view_mut.rs, src/all_storages/mod.rs,
    src/scheduler/into_workload_system.rs, src/add_distinct_component.rs. *)
From stdpp Require Import prelude list gmap.
From Coq Require Import NArith.
From Verif Require Import EntityId Base Entities SparseSet Track World.
Open Scope N_scope.

Section views.
Context {V : Type} (kind : N -> tracking).
Implicit Types (w : world V) (m : gmap N (sset V)).

(** View::borrow, ViewMut::borrow, src/borrow/mod.rs:169-190, 271-301: the window starts at
    [last_run.unwrap_or(sparse_set.last_insert)] (resp. last_modified) and ends at [current], the
    value [World::borrow] (src/world.rs:396-400) or the system took from the counter.
    [is_inserted]/[is_modified] are src/views/view_mut.rs:316 and the like. *)
Definition view_inserted w (e : eid) (i : N) (last_run : option N) : res bool :=
  let s := store_or_new kind (w_stores w) i in
  k_is_inserted (kind i) s e (default (ss_last_ins s) last_run) (w_counter w).
Definition view_modified w (e : eid) (i : N) (last_run : option N) : res bool :=
  let s := store_or_new kind (w_stores w) i in
  k_is_modified (kind i) s e (default (ss_last_mod s) last_run) (w_counter w).

(** Borrowing a view ticks the counter and creates the storage (src/all_storages/custom_storage.rs:215-237). *)
Definition w_borrow w (i : N) : world V :=
  w_tick (with_stores w (<[i := store_or_new kind (w_stores w) i]> (w_stores w))).

(** ViewMut::clear_all_inserted and its siblings, src/views/view_mut.rs:331-333, 400-402, 464-467,
    on a view borrowed for that *)
Definition w_view_clear w (i : N) (ins md : bool) : world V :=
  let s := store_or_new kind (w_stores w) i in
  let n := w_counter w in
  let s := if ins then private_clear_all_inserted s n else s in
  let s := if md then private_clear_all_modified s n else s in
  w_tick (with_stores w (<[i := s]> (w_stores w))).

(** src/all_storages/mod.rs:496-503 clear_all_inserted, 506-513 clear_all_modified, 516-524 both:
    [now] is what the counter contains, the counter is not advanced *)
Definition w_clear_all w (ins md : bool) (order : list N) : res (world V) :=
  let now := w_counter w in
  rlet m := for_stores order (λ _ s,
      let s := if ins then private_clear_all_inserted s now else s in
      Ok (if md then private_clear_all_modified s now else s)) (w_stores w) in
  Ok (with_stores w m).

(** One run of a system that asks about one component, src/scheduler/into_workload_system.rs:151-155:
    [last_run] is swapped for [current] and becomes the start of the window.  (The answers about the
    insertion and the modification, the world afterwards and the new [last_run].) *)
Definition sys_run w (last_run : N) (e : eid) (i : N) : res (bool * bool * world V * N) :=
  rlet bi := view_inserted w e i (Some last_run) in
  rlet bm := view_modified w e i (Some last_run) in
  Ok (bi, bm, w_borrow w i, w_counter w).

(** ** add_distinct_component *)
Context `{EqDecision V}.
(** src/add_distinct_component.rs:49-69 (71-92 for &mut ViewMut): one view *)
Definition add_distinct_one (s : sset V) (e : eid) (v : V) (t : N) : res (sset V * bool) :=
  rlet c := ss_get s e in
  match c with
  | Some c => if decide (c = v) then Ok (s, false)
              else rlet (s, r) := ss_insert s e v t in Ok (s, was_inserted r)
  | None => rlet (s, r) := ss_insert s e v t in Ok (s, was_inserted r)
  end.
(** src/add_distinct_component.rs:94-106, the chain of [||] *)
Fixpoint add_distinct_tuple m (e : eid) (cs : list (N * V)) (t : N) : res (gmap N (sset V) * bool) :=
  match cs with
  | [] => Ok (m, false)
  | (i, v) :: cs =>
      rlet (s, b) := add_distinct_one (store_or_new kind m i) e v t in
      if b : bool then Ok (<[i := s]> m, true) else add_distinct_tuple (<[i := s]> m) e cs t
  end.
(** src/entities/mod.rs:124-137  Entities::add_distinct_component, on views borrowed for that.
    Borrowing creates the missing storages; the model creates a storage when the tuple reaches it,
    which no view can tell apart. *)
Definition w_add_distinct w (e : eid) (cs : list (N * V)) : res (world V * bool) :=
  let t := w_counter w in
  let w := w_tick w in
  if is_alive (w_ents w) e then
    rlet (m, b) := add_distinct_tuple (w_stores w) e cs t in Ok (with_stores w m, b)
  else Panic.
End views.

(** The windows of the successive runs of a system whose [last_run] is [last] at first,
    src/scheduler/into_workload_system.rs:145, 153-154 *)
Fixpoint windows (last : N) (cs : list N) : list (N * N) :=
  match cs with
  | [] => []
  | c :: cs => (last, c) :: windows c cs
  end.
