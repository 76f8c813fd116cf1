(** Moving and cloning entities between worlds: src/all_storages/mod.rs:1529-1607, 1709-1768,
    src/sparse_set/mod.rs:817-833, 858-875 (World's methods, src/world.rs:1597-1757, only call these).

    [w] is the world the function is called on, [o] the other one. *)
From stdpp Require Import prelude list gmap.
From Coq Require Import NArith.
From Verif Require Import EntityId Base Entities SparseSet Track World.
Open Scope N_scope.

Section move.
Context {V : Type} (kind : N -> tracking).
Implicit Types (w o : world V) (m om : gmap N (sset V)).

(** Storage::move_component_from of a SparseSet, src/sparse_set/mod.rs:817-833; whether the insertion
    took place is ignored *)
Definition move_one om (i : N) (s : sset V) (from to : eid) (current other_current : N)
    : res (sset V * gmap N (sset V)) :=
  rlet (s, c) := dyn_remove s from current in
  match c with
  | Some v =>
      rlet (os, _) := ss_insert (store_or_new kind om i) to v other_current in
      Ok (s, <[i := os]> om)
  | None => Ok (s, om)
  end.
(** The loop over the storages, src/all_storages/mod.rs:1553-1562 and 1597-1606 *)
Fixpoint move_all (order : list N) m om (from to : eid) (current other_current : N)
    : res (gmap N (sset V) * gmap N (sset V)) :=
  match order with
  | [] => Ok (m, om)
  | i :: order =>
      match m !! i with
      | Some s =>
          rlet (s, om) := move_one om i s from to current other_current in
          move_all order (<[i := s]> m) om from to current other_current
      | None => move_all order m om from to current other_current
      end
  end.

(** src/all_storages/mod.rs:1529-1563  move_entity *)
Definition w_move_entity w o (e : eid) (order : list N) : res (world V * world V) :=
  rlet (es, b) := delete_unchecked (w_ents w) e in
  if b : bool then
    rlet (oes, b) := spawn (w_ents o) e in
    if b : bool then
      rlet (m, om) := move_all order (w_stores w) (w_stores o) e e (w_counter w) (w_counter o) in
      Ok (World es m (w_counter w + 1), World oes om (w_counter o + 1))
    else Panic
  else Panic.

(** src/all_storages/mod.rs:1592-1607  move_components *)
Definition w_move_components w o (from to : eid) (order : list N) : res (world V * world V) :=
  if is_alive (w_ents w) from then
    if is_alive (w_ents o) to then
      rlet (m, om) := move_all order (w_stores w) (w_stores o) from to (w_counter w) (w_counter o) in
      Ok (World (w_ents w) m (w_counter w + 1), World (w_ents o) om (w_counter o + 1))
    else Panic
  else Panic.

(** What is left of both worlds when the functions panic and the caller catches that
    (std::panic::catch_unwind); [true]: the function returned.  Both counters were incremented first
    (src/all_storages/mod.rs:1530-1531, 1593-1594).  A panic of [spawn] itself (the handle of generation 65535, only debug builds, not alive in any
    world) stays [Panic]. *)
(** src/all_storages/mod.rs:1529-1563  move_entity: the entity is deleted (line 1534) before the other
    world is asked (line 1544) *)
Definition p_move_entity w o (e : eid) (order : list N) : res (world V * world V * bool) :=
  rlet (es, b) := delete_unchecked (w_ents w) e in
  if b : bool then
    rlet (oes, b) := spawn (w_ents o) e in
    if b : bool then
      rlet (m, om) := move_all order (w_stores w) (w_stores o) e e (w_counter w) (w_counter o) in
      Ok (World es m (w_counter w + 1), World oes om (w_counter o + 1), true)
    else Ok (World es (w_stores w) (w_counter w + 1), World oes (w_stores o) (w_counter o + 1), false)
  else Ok (World es (w_stores w) (w_counter w + 1), w_tick o, false).
(** src/all_storages/mod.rs:1592-1607  move_components *)
Definition p_move_components w o (from to : eid) (order : list N) : res (world V * world V * bool) :=
  if is_alive (w_ents w) from && is_alive (w_ents o) to then
    rlet (w, o) := w_move_components w o from to order in Ok (w, o, true)
  else Ok (w_tick w, w_tick o, false).

(** Which storages of [w] have a clone function (register_clone, src/sparse_set/mod.rs:773-779) *)
Context (clone : N -> option (V -> V)).

(** Storage::clone_component_to of a SparseSet, src/sparse_set/mod.rs:858-875 *)
Definition clone_one om (i : N) (s : sset V) (from to : eid) (other_current : N) : res (gmap N (sset V)) :=
  match clone i with
  | Some f =>
      rlet c := ss_get s from in
      match c with
      | Some v =>
          rlet (os, _) := ss_insert (store_or_new kind om i) to (f v) other_current in
          Ok (<[i := os]> om)
      | None => Ok om
      end
  | None => Ok om
  end.
(** src/all_storages/mod.rs:1728-1733 and 1761-1766 *)
Fixpoint clone_all (order : list N) m om (from to : eid) (other_current : N) : res (gmap N (sset V)) :=
  match order with
  | [] => Ok om
  | i :: order =>
      match m !! i with
      | Some s => rlet om := clone_one om i s from to other_current in clone_all order m om from to other_current
      | None => clone_all order m om from to other_current
      end
  end.

(** src/all_storages/mod.rs:1709-1734  clone_entity_to.  It takes [&self] and locks the storages
    for reading: there is no new [w]. *)
Definition w_clone_entity_to w o (e : eid) (order : list N) : res (world V) :=
  if is_alive (w_ents w) e then
    rlet (oes, b) := spawn (w_ents o) e in
    if b : bool then
      rlet om := clone_all order (w_stores w) (w_stores o) e e (w_counter o) in
      Ok (World oes om (w_counter o + 1))
    else Panic
  else Panic.
(** src/all_storages/mod.rs:1739-1768  clone_components_to *)
Definition w_clone_components_to w o (from to : eid) (order : list N) : res (world V) :=
  if is_alive (w_ents w) from then
    if is_alive (w_ents o) to then
      rlet om := clone_all order (w_stores w) (w_stores o) from to (w_counter o) in
      Ok (World (w_ents o) om (w_counter o + 1))
    else Panic
  else Panic.

(** Again with what is left behind by a panic.
    src/all_storages/mod.rs:1709-1734  clone_entity_to *)
Definition p_clone_entity_to w o (e : eid) (order : list N) : res (world V * bool) :=
  if is_alive (w_ents w) e then
    rlet (oes, b) := spawn (w_ents o) e in
    if b : bool then
      rlet om := clone_all order (w_stores w) (w_stores o) e e (w_counter o) in
      Ok (World oes om (w_counter o + 1), true)
    else Ok (World oes (w_stores o) (w_counter o + 1), false)
  else Ok (w_tick o, false).
(** src/all_storages/mod.rs:1739-1768  clone_components_to *)
Definition p_clone_components_to w o (from to : eid) (order : list N) : res (world V * bool) :=
  if is_alive (w_ents w) from && is_alive (w_ents o) to then
    rlet o := w_clone_components_to w o from to order in Ok (o, true)
  else Ok (w_tick o, false).
End move.
