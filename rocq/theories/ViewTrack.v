(** Views that ask for tracking, what can be done to the storage behind one of them, and what they read.
    The exclusive view gives out [&mut SparseSet<T>], so the storage itself can be exchanged. *)
From stdpp Require Import prelude list gmap.
From Coq Require Import NArith.
From Verif Require Import EntityId Base SparseSet SparseSetSpec SparseSetHistory Iter.
Open Scope N_scope.

(** Track and T::Tracking, src/track/*.rs: which of the four things are tracked (the constant VALUE,
    e.g. src/track/insertion.rs:11) *)
Record trk := Trk { k_ins : bool; k_mod : bool; k_del : bool; k_rem : bool }.
(** src/track/nothing.rs *)
Definition untracked : trk := Trk false false false false.

Section model.
Context {T : Type}.

(** ViewMut, src/views/view_mut.rs:20-30; the borrows are left out (Borrow.v) *)
Record vmut := VMut {
  vm_set : sset T;     (* what sparse_set points to *)
  vm_li : N;           (* last_insertion *)
  vm_lm : N;           (* last_modification *)
  vm_lr : N;           (* last_removal_or_deletion *)
  vm_cur : N;          (* current *)
}.
Implicit Types (v : vmut) (s : sset T) (k : trk).

(** [ViewMut<T, k>] of the storage [s], src/borrow/mod.rs:268-300 (302-400 are the same for the
    wrappers of the feature thread_local); [None] is the error TrackingNotEnabled of
    src/sparse_set/mod.rs:509-522 *)
Definition borrow_view k s (last_run : option N) (current : N) : option vmut :=
  if check_tracking s (k_ins k) (k_mod k) (k_del k) (k_rem k) then
    Some (VMut s (default (ss_last_ins s) last_run) (default (ss_last_mod s) last_run)
            (default 0 last_run) current)
  else None.
(** ViewMut::new_for_custom_storage, src/views/view_mut.rs:157-184, once the storage is found; such a view
    is Untracked and all its timestamps are 0 *)
Definition custom_view s : vmut := VMut s 0 0 0 0.

(** The operations of a view use its timestamp, src/views/view_mut.rs:192-235 (clear, drain, apply,
    retain), src/add_component.rs (insertion), src/remove.rs:41-48, src/delete.rs:37-44,
    src/get.rs (writes), src/views/view_mut.rs:331-333, 400-402 (clear_all_inserted and the like) *)
Definition stamp (c : N) (o : sop T) : sop T :=
  match o with
  | OInsert e x _ => OInsert e x c
  | ORemove e _ => ORemove e c
  | ODelete e _ => ODelete e c
  | OWrite e f _ => OWrite e f c
  | OClear _ => OClear c
  | ODrain _ => ODrain c
  | ORetain f _ => ORetain f c
  | OApply a b f _ => OApply a b f c
  | OApplyMut a b f _ => OApplyMut a b f c
  | OClearInserted _ => OClearInserted c
  | OClearModified _ => OClearModified c
  | o => o
  end.
Definition v_with v s : vmut := VMut s (vm_li v) (vm_lm v) (vm_lr v) (vm_cur v).
(** One operation through the view; deref_mut, src/views/view_mut.rs:597-602, gives the rest (sort,
    track_insertion..) *)
Definition v_do v (o : sop T) : res (vmut * sevent T) :=
  rlet (s, ev) := s_step (vm_set v) (stamp (vm_cur v) o) in Ok (v_with v s, ev).
(** [*view = s], or one half of [mem::swap(&mut *a, &mut *b)]: a plain assignment through deref_mut,
    src/views/view_mut.rs:597-602, or as_mut, 611-616; the view keeps its timestamps *)
Definition v_put v s : vmut := v_with v s.

(** override_last_insertion, override_last_modification, override_last_removal_or_deletion,
    src/views/view_mut.rs:86-131 *)
Definition v_override v (li lm lr : N) : vmut := VMut (vm_set v) li lm lr (vm_cur v).

(** [view.is_inserted(e)], src/views/view_mut.rs:316-318 with src/track/insertion.rs:18-29 *)
Definition v_is_inserted v (e : eid) : res bool := is_inserted (vm_set v) e (vm_li v) (vm_cur v).
(** [view.is_modified(e)], src/views/view_mut.rs:380-382 with src/track/modification.rs:18-29 *)
Definition v_is_modified v (e : eid) : res bool := is_modified (vm_set v) e (vm_lm v) (vm_cur v).
(** [view.inserted().iter()] and the like, negated or not: src/views/view_mut.rs:321-328, 390-397, 454-461 with
    the iterators of Iter.v (src/iter/into_shiperator.rs, src/iter/sailor/tracking.rs) *)
Definition v_window v (i : N) : window T := window_of i (vm_set v) (vm_li v, vm_lm v, vm_cur v).
Definition v_iter v (neg : bool) (m : mark) : res (iter T) := shiperator (v_window v) (QTrack neg m 0).
End model.
Arguments vmut : clear implicits.
