(** Model of src/all_storages/mod.rs (and the methods of src/world.rs that call it through
    [self.all_storages.get_mut()]): a world with any number of component storages.

    Component types are numbers, [V] is the (disjoint) union of all component values.  The storages
    of the world live in one hash map; the model keeps the [Entities] storage apart from the
    component storages.  The order in which a hash map enumerates its values is arbitrary: an argument [order] of
    the functions that loop over the storages, a permutation of the keys.
    The thread-local variants (NonSend, NonSync) of the storages are not modelled; the counter
    does not wrap (C54 is about the wrapping one). *)
From stdpp Require Import prelude list gmap.
From Coq Require Import NArith.
From Verif Require Import EntityId Base Entities SparseSet Track.
Open Scope N_scope.

(** src/all_storages/mod.rs:60-68 *)
Record world (V : Type) := World {
  w_ents : entities;
  w_stores : gmap N (sset V);
  w_counter : N;
}.
Arguments World {V}. Arguments w_ents {V}. Arguments w_stores {V}. Arguments w_counter {V}.

Section world.
Context {V : Type} (kind : N -> tracking).   (* Component::Tracking of each component type *)
Implicit Types (w : world V) (m : gmap N (sset V)).

Definition with_ents w (es : entities) : world V := World es (w_stores w) (w_counter w).
Definition with_stores w m : world V := World (w_ents w) m (w_counter w).

(** src/world.rs:46-61 (the counter starts at 1), src/all_storages/mod.rs:76-91 *)
Definition w_new : world V := World e_new ∅ 1.

(** src/all_storages/mod.rs:1232-1237, src/world.rs:842-847  get_current: fetch_add *)
Definition w_tick w : world V := World (w_ents w) (w_stores w) (w_counter w + 1).

(** src/all_storages/mod.rs:1124-1146  exclusive_storage_or_insert_mut *)
Definition store_or_new m (i : N) : sset V := default (ss_new_for (kind i)) (m !! i).

(** src/sparse_set/add_component.rs:59-95 (TupleAddComponent for T, Option<T>, tuples): the
    components of the tuple from left to right, those that are [None] left out. *)
Fixpoint add_tuple m (e : eid) (cs : list (N * V)) (t : N) : res (gmap N (sset V)) :=
  match cs with
  | [] => Ok m
  | (i, v) :: cs =>
      rlet (s, r) := ss_insert (store_or_new m i) e v t in
      if was_inserted r then add_tuple (<[i := s]> m) e cs t else Panic
  end.

(** src/all_storages/mod.rs:577-584  add_entity *)
Definition w_add_entity w (cs : list (N * V)) : res (world V * eid) :=
  let t := w_counter w in
  let w := w_tick w in
  rlet (es, e) := generate (w_ents w) in
  rlet m := add_tuple (w_stores w) e cs t in
  Ok (World es m (w_counter w), e).

(** src/all_storages/mod.rs:639-651  add_component *)
Definition w_add_component w (e : eid) (cs : list (N * V)) : res (world V) :=
  let t := w_counter w in
  let w := w_tick w in
  if is_alive (w_ents w) e then
    rlet m := add_tuple (w_stores w) e cs t in Ok (with_stores w m)
  else Panic.

(** The loop of src/sparse_set/remove.rs (impl_remove_component) *)
Fixpoint remove_tuple m (e : eid) (is : list N) (t : N)
    : res (gmap N (sset V) * list (option V)) :=
  match is with
  | [] => Ok (m, [])
  | i :: is =>
      rlet (s, r) := dyn_remove (store_or_new m i) e t in
      rlet (m, rs) := remove_tuple (<[i := s]> m) e is t in
      Ok (m, r :: rs)
  end.
(** src/all_storages/mod.rs:700-702  remove *)
Definition w_remove w (e : eid) (is : list N) : res (world V * list (option V)) :=
  rlet (m, rs) := remove_tuple (w_stores w) e is (w_counter w) in
  Ok (with_stores (w_tick w) m, rs).

(** The chain of [||] of src/sparse_set/delete.rs (impl_delete_component): a storage is only asked
    when the ones before it answered false *)
Fixpoint delete_tuple m (e : eid) (is : list N) (t : N) : res (gmap N (sset V) * bool) :=
  match is with
  | [] => Ok (m, false)
  | i :: is =>
      rlet (s, r) := dyn_delete (store_or_new m i) e t in
      if r : bool then Ok (<[i := s]> m, true) else delete_tuple (<[i := s]> m) e is t
  end.
(** src/all_storages/mod.rs:674-676  delete_component *)
Definition w_delete_component w (e : eid) (is : list N) : res (world V) :=
  rlet (m, _) := delete_tuple (w_stores w) e is (w_counter w) in
  Ok (with_stores (w_tick w) m).

(** src/delete.rs:54-64  Delete for a tuple of views: a chain of [|], every storage is asked.  The
    views of one borrow share their [current] (src/world.rs:396-400) and borrowing one creates its
    storage when it is missing. *)
Fixpoint view_delete m (e : eid) (is : list N) (t : N) : res (gmap N (sset V) * bool) :=
  match is with
  | [] => Ok (m, false)
  | i :: is =>
      rlet (s, r) := dyn_delete (store_or_new m i) e t in
      rlet (m, r') := view_delete (<[i := s]> m) e is t in
      Ok (m, r || r')
  end.
Definition w_view_delete w (e : eid) (is : list N) : res (world V * bool) :=
  rlet (m, b) := view_delete (w_stores w) e is (w_counter w) in
  Ok (with_stores (w_tick w) m, b).

(** A loop over [self.storages.get_mut().values_mut()] *)
Fixpoint for_stores (order : list N) (f : N -> sset V -> res (sset V)) m
    : res (gmap N (sset V)) :=
  match order with
  | [] => Ok m
  | i :: order =>
      match m !! i with
      | Some s => rlet s := f i s in for_stores order f (<[i := s]> m)
      | None => for_stores order f m
      end
  end.

(** Storage::delete of a SparseSet, src/sparse_set/mod.rs:782-784 *)
Definition store_delete (e : eid) (t : N) (s : sset V) : res (sset V) := rmap fst (dyn_delete s e t).

(** src/all_storages/mod.rs:295-301  strip *)
Definition w_strip w (e : eid) (order : list N) : res (world V) :=
  let t := w_counter w in
  let w := w_tick w in
  rlet m := for_stores order (λ _, store_delete e t) (w_stores w) in
  Ok (with_stores w m).

(** src/all_storages/mod.rs:260-273  delete_entity *)
Definition w_delete_entity w (e : eid) (order : list N) : res (world V * bool) :=
  rlet (es, b) := delete_unchecked (w_ents w) e in
  if b : bool then rlet w := w_strip (with_ents w es) e order in Ok (w, true)
  else Ok (with_ents w es, false).

(** The inner loop of bulk_strip, src/all_storages/mod.rs:343-345 *)
Fixpoint store_delete_all (l : list eid) (t : N) (s : sset V) : res (sset V) :=
  match l with
  | [] => Ok s
  | e :: l => rlet s := store_delete e t s in store_delete_all l t s
  end.
(** src/all_storages/mod.rs:330-353  bulk_strip (383-416 par_strip: the storages in parallel, no
    storage is shared between two of the tasks) *)
Definition w_bulk_strip w (l : list eid) (order : list N) : res (world V) :=
  let t := w_counter w in
  let w := w_tick w in
  rlet m := for_stores order (λ _, store_delete_all l t) (w_stores w) in
  Ok (with_stores w m).

(** src/all_storages/mod.rs:443-451  retain_storage_by_id *)
Definition w_retain_storage w (e : eid) (excluded : list N) (order : list N) : res (world V) :=
  let t := w_counter w in
  let w := w_tick w in
  rlet m := for_stores order
              (λ i s, if decide (i ∈ excluded) then Ok s else store_delete e t s) (w_stores w) in
  Ok (with_stores w m).

(** src/all_storages/mod.rs:465-471  clear; the storages include the one of the entities *)
Definition w_clear w (order : list N) : res (world V) :=
  let t := w_counter w in
  let w := w_tick w in
  rlet m := for_stores order (λ _ s, ss_clear s t) (w_stores w) in
  rlet es := e_clear (w_ents w) in
  Ok (World es m (w_counter w)).

(** src/world.rs:1378-1393  get::<&T>, src/advanced/get_component.rs:113-138: the storage is
    created when it is missing *)
Definition w_get w (e : eid) (i : N) : res (world V * option V) :=
  let s := store_or_new (w_stores w) i in
  rlet v := ss_get s e in
  Ok (with_stores (w_tick w) (<[i := s]> (w_stores w)), v).
(** get::<&mut T> and a write through the RefMut, src/advanced/get_component.rs:242-278, 80-100 *)
Definition w_write w (e : eid) (i : N) (f : V -> V) : res (world V * bool) :=
  rlet (s, b) := ss_write (store_or_new (w_stores w) i) e f (w_counter w) in
  Ok (with_stores (w_tick w) (<[i := s]> (w_stores w)), b).

(** src/all_storages/mod.rs:531-537  retain: panics when the storage does not exist *)
Definition w_retain w (i : N) (f : eid -> V -> bool) : res (world V) :=
  match w_stores w !! i with
  | Some s =>
      rlet (s, _) := ss_retain s (λ (_ : unit) e v, (tt, f e v)) tt (w_counter w) in
      Ok (with_stores (w_tick w) (<[i := s]> (w_stores w)))
  | None => Panic
  end.

(** src/all_storages/mod.rs:1221-1225  spawn *)
Definition w_spawn w (e : eid) : res (world V * bool) :=
  rlet (es, b) := spawn (w_ents w) e in Ok (with_ents w es, b).

(** The first part of TupleDeleteAny::delete_any, src/all_storages/delete_any/mod.rs:64-68 with
    custom_delete_any.rs:20-23 ([ids] as a list: the hash set without its duplicates) *)
Fixpoint collect_any m (is : list N) (ids : list eid) (t : N) : res (gmap N (sset V) * list eid) :=
  match is with
  | [] => Ok (m, ids)
  | i :: is =>
      match m !! i with
      | Some s =>
          rlet s' := ss_clear s t in
          collect_any (<[i := s']> m) is (remove_dups (ids ++ ss_dense s)) t
      | None => collect_any m is ids t
      end
  end.
(** The second part, src/all_storages/delete_any/mod.rs:70-72 *)
Fixpoint delete_each w (dl : list (eid * list N)) : res (world V) :=
  match dl with
  | [] => Ok w
  | (e, order) :: dl => rlet (w, _) := w_delete_entity w e order in delete_each w dl
  end.
(** src/all_storages/delete_any/mod.rs:58-73.  [dl] gives the order in which the hash set
    enumerates the entities, and for each of them the order of the storages; answering [Panic] when it
    is not such an order (the theorems give an order that is one). *)
Definition w_delete_any w (is : list N) (dl : list (eid * list N)) : res (world V) :=
  let t := w_counter w in
  let w := w_tick w in
  rlet (m, ids) := collect_any (w_stores w) is [] t in
  if decide (dl.*1 ≡ₚ ids) then delete_each (with_stores w m) dl else Panic.

(** ** Histories *)
Inductive wop :=
| WAddEntity (cs : list (N * V))
| WAddComponent (e : eid) (cs : list (N * V))
| WRemove (e : eid) (is : list N)
| WDeleteComponent (e : eid) (is : list N)
| WViewDelete (e : eid) (is : list N)
| WDeleteEntity (e : eid) (order : list N)
| WStrip (e : eid) (order : list N)
| WBulkStrip (l : list eid) (order : list N)
| WRetainStorage (e : eid) (excluded : list N) (order : list N)
| WClear (order : list N)
| WGet (e : eid) (i : N)
| WWrite (e : eid) (i : N) (f : V -> V)
| WRetain (i : N) (f : eid -> V -> bool)
| WSpawn (e : eid)
| WDeleteAny (is : list N) (dl : list (eid * list N)).
(** What the caller sees. *)
Inductive wevent :=
| WId (e : eid)
| WBool (b : bool)
| WVal (v : option V)
| WVals (l : list (option V))
| WUnit.

Definition w_step w (o : wop) : res (world V * wevent) :=
  match o with
  | WAddEntity cs => rlet (w, e) := w_add_entity w cs in Ok (w, WId e)
  | WAddComponent e cs => rlet w := w_add_component w e cs in Ok (w, WUnit)
  | WRemove e is => rlet (w, l) := w_remove w e is in Ok (w, WVals l)
  | WDeleteComponent e is => rlet w := w_delete_component w e is in Ok (w, WUnit)
  | WViewDelete e is => rlet (w, b) := w_view_delete w e is in Ok (w, WBool b)
  | WDeleteEntity e order => rlet (w, b) := w_delete_entity w e order in Ok (w, WBool b)
  | WStrip e order => rlet w := w_strip w e order in Ok (w, WUnit)
  | WBulkStrip l order => rlet w := w_bulk_strip w l order in Ok (w, WUnit)
  | WRetainStorage e ex order => rlet w := w_retain_storage w e ex order in Ok (w, WUnit)
  | WClear order => rlet w := w_clear w order in Ok (w, WUnit)
  | WGet e i => rlet (w, v) := w_get w e i in Ok (w, WVal v)
  | WWrite e i f => rlet (w, b) := w_write w e i f in Ok (w, WBool b)
  | WRetain i f => rlet w := w_retain w i f in Ok (w, WUnit)
  | WSpawn e => rlet (w, b) := w_spawn w e in Ok (w, WBool b)
  | WDeleteAny is dl => rlet w := w_delete_any w is dl in Ok (w, WUnit)
  end.

Fixpoint w_run w (ops : list wop) : res (world V * list wevent) :=
  match ops with
  | [] => Ok (w, [])
  | o :: ops =>
      rlet (w, ev) := w_step w o in
      rlet (w, evs) := w_run w ops in
      Ok (w, ev :: evs)
  end.
End world.
Arguments wop : clear implicits.
Arguments wevent : clear implicits.
