(** Cloning worlds: src/world.rs:64-79 (Clone for World), src/all_storages/mod.rs:1631-1705
    (register_clone, clone_storages_to), src/all_storages/clone.rs, src/sparse_set/mod.rs:773-779 and
    835-856, src/entities/mod.rs:461-467, src/unique.rs:43-54.

    No storage is exclusively borrowed during the call ([storage.borrow().unwrap()] would panic).  The
    thread-local variants are not modelled.  The scheduler of a world (its workloads) is not part of
    what is cloned: [World::clone] starts from [World::new]. *)
From stdpp Require Import prelude list gmap.
From Coq Require Import NArith.
From Verif Require Import EntityId Base Entities SparseSet Track World Unique.
Open Scope N_scope.

(** A world with the clone function of each of its storages (src/sparse_set/mod.rs:70, [None] when
    the storage is created). *)
Record cworld (V : Type) := CWorld { c_world : world V; c_fn : gmap N (V -> V) }.
Arguments CWorld {V}. Arguments c_world {V}. Arguments c_fn {V}.

Section clone.
Context {V : Type} (kind : N -> tracking).
Implicit Types (c o : cworld V) (m om : gmap N (sset V)) (fs ofs : gmap N (V -> V)).

(** src/world.rs:83-86  World::new *)
Definition c_new : cworld V := CWorld w_new ∅.

(** src/all_storages/clone.rs:16-22 with src/sparse_set/mod.rs:773-779: the storage is created when
    it is missing *)
Definition register_clone c (i : N) (f : V -> V) : cworld V :=
  CWorld (with_stores (c_world c) (<[i := store_or_new kind (w_stores (c_world c)) i]> (w_stores (c_world c))))
         (<[i := f]> (c_fn c)).

(** Storage::try_clone of a SparseSet, src/sparse_set/mod.rs:835-856; [SparseSet::new] takes the
    flags of the component type *)
Definition store_clone (i : N) (s : sset V) (f : V -> V) (other_current : N) : sset V :=
  ss_try_clone s f (k_track_insertion (kind i)) (k_track_modification (kind i)) (k_track_deletion (kind i))
    (k_track_removal (kind i)) other_current.
(** The loop of clone_storages_to over the component storages, src/all_storages/mod.rs:1644-1704.  The
    new storage replaces the one of the other world, with its clone function ([None]). *)
Fixpoint clone_stores (order : list N) m fs om ofs (other_current : N)
    : gmap N (sset V) * gmap N (V -> V) :=
  match order with
  | [] => (om, ofs)
  | i :: order =>
      match m !! i, fs !! i with
      | Some s, Some f =>
          clone_stores order m fs (<[i := store_clone i s f other_current]> om) (delete i ofs) other_current
      | _, _ => clone_stores order m fs om ofs other_current
      end
  end.
(** src/entities/mod.rs:461-467: always cloned, without the callback *)
Definition e_try_clone (es : entities) : entities := Entities (e_data es) (e_list es) [].

(** src/all_storages/mod.rs:1640-1705  clone_storages_to.  (The entities are one of the storages of
    the loop; their place in it makes no difference.)  [&self]: there is no new [c]. *)
Definition clone_storages_to c o (order : list N) : cworld V :=
  let p := clone_stores order (w_stores (c_world c)) (c_fn c) (w_stores (c_world o)) (c_fn o)
             (w_counter (c_world o)) in
  CWorld (World (e_try_clone (w_ents (c_world c))) p.1 (w_counter (c_world o) + 1)) p.2.
(** src/world.rs:64-79 *)
Definition world_clone c (order : list N) : cworld V := clone_storages_to c c_new order.
End clone.

(** The same for the unique storages. *)
Section unique.
Context {V : Type}.
(** src/unique.rs:43-54 *)
Definition us_try_clone (s : ustore V) (f : V -> V) (other_current : N) : ustore V :=
  UStore (f (u_val s)) other_current 0 0 0.
(** src/all_storages/mod.rs:1640-1705; the storages are independent of one another, so the order of
    the loop makes no difference *)
Definition uw_clone_to (w o : uworld V) (fs : gmap N (V -> V)) : uworld V :=
  UWorld (map_imap (λ i s, (λ f, us_try_clone s f (uw_counter o)) <$> fs !! i) (uw_stores w) ∪ uw_stores o)
         (uw_counter o + 1).
End unique.
