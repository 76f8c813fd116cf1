(** Bulk insertion: src/sparse_set/bulk_add_entity.rs (World::bulk_add_entity and
    AllStorages::bulk_add_entity, src/all_storages/mod.rs:605-607, only call it).
    The iterator of components is the list of its items and the lower bound of its size hint; a
    panicking iterator is [ss_bulk_interrupted]. *)
From stdpp Require Import prelude list gmap.
From Coq Require Import NArith.
From Verif Require Import EntityId Base Entities SparseSet Track World.
Open Scope N_scope.

Section sset.
Context {T : Type}.
Implicit Types (s : sset T).

(** The loop that points the sparse array at the new rows, src/sparse_set/bulk_add_entity.rs:99-103
    and 176-180, 186-190 *)
Fixpoint sa_write_all (sp : sparse_array) (ids : list eid) (pos : N) : res sparse_array :=
  match ids with
  | [] => Ok sp
  | e :: ids => rlet sp := sa_write sp e (eid_new pos) in sa_write_all sp ids (pos + 1)
  end.

(** src/sparse_set/bulk_add_entity.rs:81-103 for one storage: [vs] were already appended to the data,
    [ids] are the new handles, [ins] and [md] the stamps.  [dense[old_len]] panics when there is no
    new entity. *)
Definition ss_bulk s (ids : list eid) (vs : list T) (ins md : N) : res (sset T) :=
  let old_len := lenN (ss_dense s) in
  let dn := ss_dense s ++ ids in
  let im := if ss_ti s then ss_ins s ++ ((λ _, ins) <$> ids) else ss_ins s in
  let mm := if ss_tm s then ss_mod s ++ ((λ _, md) <$> ids) else ss_mod s in
  match getN dn old_len, getN dn (lenN dn - 1) with
  | Some first, Some last =>
      rlet sp := sa_bulk_allocate (ss_sparse s) first last in
      rlet sp := sa_write_all sp ids old_len in
      Ok (with_rows s sp dn (ss_data s ++ vs) im mm)
  | _, _ => Panic
  end.

(** The iterator panics after it gave [vs]: [data.extend] (line 72) has pushed them, nothing else has
    been done.  The guards of the storages are dropped while unwinding, the storage can be used again. *)
Definition ss_bulk_interrupted s (vs : list T) : sset T :=
  with_rows s (ss_sparse s) (ss_dense s) (ss_data s ++ vs) (ss_ins s) (ss_mod s).
End sset.

Section bulk.
Context {V : Type} (kind : N -> tracking).
Implicit Types (w : world V) (m : gmap N (sset V)).

(** BulkInsert for [()], src/sparse_set/bulk_add_entity.rs:36-58: [n] items, size hint [hint] *)
Fixpoint generate_n (es : entities) (n : nat) : res entities :=
  match n with
  | O => Ok es
  | S n => rlet (es, _) := generate es in generate_n es n
  end.
Definition w_bulk_unit w (hint n : nat) : res (world V * list eid) :=
  let len := length (e_data (w_ents w)) in
  rlet (es, _) := bulk_generate (w_ents w) hint in
  rlet es := generate_n es (n - hint) in
  Ok (World es (w_stores w) (w_counter w), drop len (e_data es)).

(** BulkInsert for a component, src/sparse_set/bulk_add_entity.rs:61-116 *)
Definition w_bulk_one w (i : N) (vs : list V) : res (world V * list eid) :=
  let now := w_counter w in
  let s := store_or_new kind (w_stores w) i in
  let len := length (e_data (w_ents w)) in
  rlet (es, ids) := bulk_generate (w_ents w) (length (ss_data s ++ vs) - length (ss_dense s)) in
  rlet s := ss_bulk s ids vs now origin in
  Ok (World es (<[i := s]> (w_stores w)) (now + 1), drop len (e_data es)).

(** BulkInsert for a tuple of components, src/sparse_set/bulk_add_entity.rs:127-208 (and for [(T,)],
    118-125, which is the one above).  [rows] are the tuples; the storages are borrowed one after the
    other and a type that occurs twice is a borrow error, unwrapped.  The clock is not read: all
    stamps are [TrackingTimestamp::new(0)]. *)
Fixpoint bulk_columns m (ids : list eid) (is : list N) (k : nat) (rows : list (list V)) : res (gmap N (sset V)) :=
  match is with
  | [] => Ok m
  | i :: is =>
      rlet s := ss_bulk (store_or_new kind m i) ids (omap (.!! k) rows) 0 0 in
      bulk_columns (<[i := s]> m) ids is (S k) rows
  end.
Definition w_bulk_tuple w (is : list N) (rows : list (list V)) : res (world V * list eid) :=
  match is with
  | i1 :: _ =>
      if decide (NoDup is) then
        let s := store_or_new kind (w_stores w) i1 in
        let len := length (e_data (w_ents w)) in
        rlet (es, ids) := bulk_generate (w_ents w) (length (ss_data s ++ omap (.!! 0%nat) rows) - length (ss_dense s)) in
        rlet m := bulk_columns (w_stores w) ids is 0 rows in
        Ok (World es m (w_counter w), drop len (e_data es))
      else Panic
  | [] => Panic
  end.

(** *** Through views *)

(** BulkReserve for views, src/advanced/reserve.rs:88-105 *)
Definition ss_reserve (s : sset V) (ids : list eid) : res (sset V) :=
  match ids, last ids with
  | first :: _, Some lst =>
      rlet sp := sa_bulk_allocate (ss_sparse s) first lst in
      Ok (with_rows s sp (ss_dense s) (ss_data s) (ss_ins s) (ss_mod s))
  | _, _ => Ok s
  end.
Fixpoint reserve_all m (is : list N) (ids : list eid) : res (gmap N (sset V)) :=
  match is with
  | [] => Ok m
  | i :: is => rlet s := ss_reserve (store_or_new kind m i) ids in reserve_all (<[i := s]> m) is ids
  end.
(** AddEntity for views and tuples of views, src/add_entity.rs:22-55: the result of the insertion is
    ignored *)
Fixpoint view_add m (e : eid) (cs : list (N * V)) (now : N) : res (gmap N (sset V)) :=
  match cs with
  | [] => Ok m
  | (i, v) :: cs => rlet (s, _) := ss_insert (store_or_new kind m i) e v now in view_add (<[i := s]> m) e cs now
  end.
Fixpoint view_add_all m (is : list N) (l : list (eid * list V)) (now : N) : res (gmap N (sset V)) :=
  match l with
  | [] => Ok m
  | (e, vs) :: l => rlet m := view_add m e (zip is vs) now in view_add_all m is l now
  end.
(** Entities::bulk_add_entity, src/entities/mod.rs:270-295, with the views of the component types [is]
    just borrowed from the world (src/world.rs:396-400); [rows] are the items and [hint] the lower
    bound of the size hint *)
Definition w_bulk_view w (is : list N) (hint : nat) (rows : list (list V)) : res (world V * list eid) :=
  let now := w_counter w in
  rlet (es0, ids) := bulk_generate (w_ents w) hint in
  rlet (x, slice) := bulk_add_entity_ids (w_ents w) hint rows in
  rlet m := reserve_all (w_stores w) is ids in
  rlet m := view_add_all m is x.2 now in
  Ok (World x.1 m (now + 1), slice).
End bulk.
