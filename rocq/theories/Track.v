(** Model of the sixteen tracking types: src/track/*.rs and src/advanced/tracking.rs. *)
From stdpp Require Import prelude list.
From Coq Require Import NArith.
From Verif Require Import EntityId Base SparseSet.
Open Scope N_scope.

(** src/track.rs (the types), names as in the source *)
Inductive tracking :=
| Nothing | TInsertion | TModification | TDeletion | TRemoval
| InsertionAndModification | InsertionAndDeletion | InsertionAndRemoval
| ModificationAndDeletion | ModificationAndRemoval | DeletionAndRemoval
| InsertionAndModificationAndDeletion | InsertionAndModificationAndRemoval
| InsertionAndDeletionAndRemoval | ModificationAndDeletionAndRemoval | TAll.

(** Tracking::VALUE *)
Definition VALUE (k : tracking) : N :=
  match k with
  | Nothing => 0                                   (* src/track/nothing.rs:7 *)
  | TInsertion => 1                                (* src/track/insertion.rs:11 *)
  | TModification => 2                             (* src/track/modification.rs:11 *)
  | TDeletion => 4                                 (* src/track/deletion.rs:13 *)
  | TRemoval => 8                                  (* src/track/removal.rs:13 *)
  | InsertionAndModification => 3                  (* src/track/insertion_modification.rs:11 *)
  | InsertionAndDeletion => 5                      (* src/track/insertion_deletion.rs:14 *)
  | InsertionAndRemoval => 9                       (* src/track/insertion_removal.rs:14 *)
  | ModificationAndDeletion => 6                   (* src/track/modification_deletion.rs:14 *)
  | ModificationAndRemoval => N.land 2 10          (* src/track/modification_removal.rs:14 *)
  | DeletionAndRemoval => 12                       (* src/track/deletion_removal.rs:14 *)
  | InsertionAndModificationAndDeletion => 7       (* insertion_modification_deletion.rs:14 *)
  | InsertionAndModificationAndRemoval => 11       (* insertion_modification_removal.rs:14 *)
  | InsertionAndDeletionAndRemoval => 13           (* insertion_deletion_removal.rs:14 *)
  | ModificationAndDeletionAndRemoval => 14        (* modification_deletion_removal.rs:14 *)
  | TAll => 15                                     (* src/track/all.rs:14 *)
  end.
(** src/advanced/tracking.rs:33-35 *)
Definition k_track_insertion (k : tracking) : bool := negb (N.land (VALUE k) 1 =? 0).
(** src/advanced/tracking.rs:53-55 *)
Definition k_track_modification (k : tracking) : bool := negb (N.land (VALUE k) 2 =? 0).
(** src/advanced/tracking.rs:73-75 *)
Definition k_track_deletion (k : tracking) : bool := negb (N.land (VALUE k) 4 =? 0).
(** src/advanced/tracking.rs:93-95 *)
Definition k_track_removal (k : tracking) : bool := negb (N.land (VALUE k) 8 =? 0).

(** Which of the methods is_inserted, is_modified, is_deleted, is_removed the type redefines; the
    default (src/advanced/tracking.rs:100-145) answers false.  One line per file of src/track. *)
Definition overrides (k : tracking) : bool * bool * bool * bool :=
  match k with
  | Nothing => (false, false, false, false)
  | TInsertion => (true, false, false, false)                          (* insertion.rs:18 *)
  | TModification => (false, true, false, false)                       (* modification.rs:17 *)
  | TDeletion => (false, false, true, false)                           (* deletion.rs:19 *)
  | TRemoval => (false, false, false, true)                            (* removal.rs:19 *)
  | InsertionAndModification => (true, true, false, false)             (* :18, 31 *)
  | InsertionAndDeletion => (true, false, true, false)                 (* :21, 34 *)
  | InsertionAndRemoval => (true, false, false, true)                  (* :21, 34 *)
  | ModificationAndDeletion => (false, true, true, false)              (* :20, 33 *)
  | ModificationAndRemoval => (false, true, false, true)               (* :20, 33 *)
  | DeletionAndRemoval => (false, false, true, true)                   (* :20, 32 *)
  | InsertionAndModificationAndDeletion => (true, true, true, false)   (* :21, 35, 48 *)
  | InsertionAndModificationAndRemoval => (true, true, false, true)    (* :21, 35, 48 *)
  | InsertionAndDeletionAndRemoval => (true, false, true, true)        (* :21, 34, 46 *)
  | ModificationAndDeletionAndRemoval => (false, true, true, true)     (* :21, 34, 46 *)
  | TAll => (true, true, true, true)                                   (* :21, 35, 48, 60 *)
  end.
Definition k_is_inserted {T} (k : tracking) (s : sset T) e last current : res bool :=
  if (overrides k).1.1.1 then is_inserted s e last current else Ok false.
Definition k_is_modified {T} (k : tracking) (s : sset T) e last current : res bool :=
  if (overrides k).1.1.2 then is_modified s e last current else Ok false.
Definition k_is_deleted {T} (k : tracking) (s : sset T) e last current : bool :=
  if (overrides k).1.2 then is_deleted s e last current else false.
Definition k_is_removed {T} (k : tracking) (s : sset T) e last current : bool :=
  if (overrides k).2 then is_removed s e last current else false.

(** src/sparse_set/mod.rs:83-102  SparseSet::new for a component with Tracking = k *)
Definition ss_new_for {T} (k : tracking) : sset T :=
  ss_new (k_track_insertion k) (k_track_modification k) (k_track_deletion k) (k_track_removal k).

(** removed_or_deleted and the two clearing methods of RemovalOrDeletionTracking; a type that has
    no deletion (removal) in its methods leaves that log alone (src/track/removal.rs:35-60,
    deletion.rs:35-62, insertion_removal.rs:51-77, all.rs:79-112 and the like). *)
Definition k_removed_or_deleted {T} (k : tracking) (s : sset T) : list (eid * N) :=
  (if (overrides k).1.2 then map fst (ss_del s) else []) ++
  (if (overrides k).2 then ss_rem s else []).
Definition k_clear_all_removed_and_deleted {T} (k : tracking) (s : sset T) : sset T :=
  with_logs s (if (overrides k).1.2 then [] else ss_del s)
              (if (overrides k).2 then [] else ss_rem s).
Definition k_clear_older {T} (k : tracking) (s : sset T) (t : N) : sset T :=
  with_logs s
    (if (overrides k).1.2 then filter (λ x, is_older_than t x.1.2 = true) (ss_del s) else ss_del s)
    (if (overrides k).2 then filter (λ x, is_older_than t x.2 = true) (ss_rem s) else ss_rem s).
