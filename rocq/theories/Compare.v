(** Model of the comparisons of public types: src/storage/storage_id.rs, [TypeInfo] of src/scheduler/info.rs,
    the errors of src/error.rs.

    Simplified: a [TypeId] is a number, ordered and hashed as such; a text is the list of its bytes; the boxed
    error in a [Custom] variant, which no comparison looks at, is a number. *)
From stdpp Require Import prelude list.
From Verif Require Import LabelTypes.
Local Open Scope N_scope.

(** [StorageId]: storage_id.rs 5-10. *)
Inductive storage_id := SType (t : N) | SCustom (n : N).
Global Instance storage_id_eq_dec : EqDecision storage_id.
Proof. solve_decision. Defined.
(** [From<TypeId>], [From<u64>]: storage_id.rs 19-23, 25-29. *)
Definition sid_from_type (t : N) : storage_id := SType t.
Definition sid_from_u64 (n : N) : storage_id := SCustom n.
(** The derived [PartialEq]: storage_id.rs 4. *)
Definition sid_eq (a b : storage_id) : bool :=
  match a, b with
  | SType t, SType t' => t =? t'
  | SCustom n, SCustom n' => n =? n'
  | _, _ => false
  end.
(** The derived [Ord] (and [PartialOrd]): storage_id.rs 4; the earlier variant is the lesser. *)
Definition sid_cmp (a b : storage_id) : comparison :=
  match a, b with
  | SType t, SType t' => t ?= t'
  | SType _, SCustom _ => Lt
  | SCustom _, SType _ => Gt
  | SCustom n, SCustom n' => n ?= n'
  end.
(** The derived [Hash]: storage_id.rs 4; the discriminant, then the field. *)
Definition sid_hash (a : storage_id) : list hword :=
  match a with SType t => [HWord 0; HWord t] | SCustom n => [HWord 1; HWord n] end.
(** [PartialEq<TypeId>]: storage_id.rs 31-39. *)
Definition sid_eq_type (a : storage_id) (t : N) : bool :=
  match a with SType t' => t' =? t | _ => false end.
(** [PartialOrd<TypeId>]: storage_id.rs 41-49. *)
Definition sid_cmp_type (a : storage_id) (t : N) : option comparison :=
  match a with SType t' => Some (t' ?= t) | _ => Some Lt end.
(** [Default]: storage_id.rs 51-55. *)
Definition u64_max : N := 18446744073709551615.
Definition sid_default : storage_id := SCustom u64_max.

(** [Mutability], with its derived comparisons: borrow/mod.rs 34-41. *)
Inductive mutability := MShared | MExclusive.
Global Instance mutability_eq_dec : EqDecision mutability.
Proof. solve_decision. Defined.
Definition mut_disc (m : mutability) : N := match m with MShared => 0 | MExclusive => 1 end.
Definition mut_cmp (a b : mutability) : comparison := mut_disc a ?= mut_disc b.

(** [TypeInfo]: info.rs 101-113. *)
Record type_info := TypeInfo {
  ti_name : list N;
  ti_mut : mutability;
  ti_id : storage_id;
  ti_thread_safe : bool;
}.
(** [PartialEq]: info.rs 115-119. *)
Definition ti_eq (a b : type_info) : bool :=
  sid_eq (ti_id a) (ti_id b) && bool_decide (ti_mut a = ti_mut b).
(** [PartialEq<(TypeId, Mutability)>]: info.rs 121-125. *)
Definition ti_eq_pair (a : type_info) (p : N * mutability) : bool :=
  sid_eq_type (ti_id a) p.1 && bool_decide (ti_mut a = p.2).
(** [Ord]: info.rs 133-141. *)
Definition ti_cmp (a b : type_info) : comparison :=
  match sid_cmp (ti_id a) (ti_id b) with
  | Eq => mut_cmp (ti_mut a) (ti_mut b)
  | ord => ord
  end.
(** [PartialOrd]: info.rs 127-131. *)
Definition ti_partial_cmp (a b : type_info) : option comparison := Some (ti_cmp a b).
(** [Hash]: info.rs 154-159. *)
Definition ti_hash (a : type_info) : list hword := sid_hash (ti_id a) ++ [HWord (mut_disc (ti_mut a))].
(** Serialized and deserialized ([serde(skip)] on the id, which comes back as the default): info.rs 102-113,
    storage_id.rs 51-55. *)
Definition ti_serde (a : type_info) : type_info :=
  TypeInfo (ti_name a) (ti_mut a) sid_default (ti_thread_safe a).

(** [error::Borrow], with its derived comparison: error.rs 15-25. *)
Inductive berr := BUnique | BShared | BWrongThread | BMultipleThreads.
Global Instance berr_eq_dec : EqDecision berr.
Proof. solve_decision. Defined.

(** [GetStorage]: error.rs 54-81. *)
Inductive get_storage :=
| GAllStorages (b : berr)
| GStorage (name : option (list N)) (id : storage_id) (b : berr)
| GEntities (b : berr)
| GMissing (name : option (list N)) (id : storage_id)
| GTracking (name : option (list N)) (id : storage_id) (tracking : list N)
| GCustom (e : N).
(** [PartialEq for GetStorage]: error.rs 97-139. *)
Definition gs_eq (a b : get_storage) : bool :=
  match a, b with
  | GAllStorages l0, GAllStorages r0 => bool_decide (l0 = r0)
  | GStorage ln li lb, GStorage rn ri rb => bool_decide (ln = rn) && sid_eq li ri && bool_decide (lb = rb)
  | GEntities l0, GEntities r0 => bool_decide (l0 = r0)
  | GMissing ln li, GMissing rn ri => bool_decide (ln = rn) && sid_eq li ri
  | GTracking ln li lt, GTracking rn ri rt => bool_decide (ln = rn) && sid_eq li ri && bool_decide (lt = rt)
  | _, _ => false
  end.

(** [Run] and its [PartialEq]: error.rs 479-488, 511-520. *)
Inductive run_err := RGetStorage (g : get_storage) | RCustom (e : N).
Definition run_eq (a b : run_err) : bool :=
  match a, b with
  | RGetStorage l, RGetStorage r => gs_eq l r
  | _, _ => false
  end.

(** [Serialize] and [Deserialize], which derive [PartialEq] and [Eq]: error.rs 875-881, 908-914; the error of the
    format is a number. *)
Inductive serde_err := SEBorrow (g : get_storage) | SEFormat (e : N).
Definition serde_eq (a b : serde_err) : bool :=
  match a, b with
  | SEBorrow l, SEBorrow r => gs_eq l r
  | SEFormat l, SEFormat r => l =? r
  | _, _ => false
  end.

(** [==] of two [Vec<Box<dyn Label>>]: same length and equal elements. *)
Fixpoint labels_eq (a b : list dlabel) : bool :=
  match a, b with
  | [], [] => true
  | x :: a, y :: b => label_eq x y && labels_eq a b
  | _, _ => false
  end.

(** [ImpossibleRequirements] and its [PartialEq]: error.rs 766-774, 776-793. *)
Inductive impossible L :=
| IBeforeAndAfter (a b : L)
| IConstraints (w : L) (before after : list L)
| ICycle (l : list L).
Arguments IBeforeAndAfter {L}. Arguments IConstraints {L}. Arguments ICycle {L}.
Definition imp_eq (a b : impossible dlabel) : bool :=
  match a, b with
  | IBeforeAndAfter l0 l1, IBeforeAndAfter r0 r1 => label_eq l0 r0 && label_eq l1 r1
  | IConstraints l0 l1 l2, IConstraints r0 r1 r2 => label_eq l0 r0 && labels_eq l1 r1 && labels_eq l2 r2
  | ICycle l0, ICycle r0 => labels_eq l0 r0
  | _, _ => false
  end.

(** [AddWorkload]: error.rs 272-298. *)
Inductive add_workload_err L :=
| AAlreadyExists
| ABorrow
| AImpossible (i : impossible L)
| AMissingIn (l : L) (ls : list L)
| AMissingBefore (l : L) (ls : list L)
| AMissingAfter (l : L) (ls : list L)
| ATrackingAllStorages
| ATrackingStorage (name : option (list N)) (id : storage_id) (b : berr).
Arguments AAlreadyExists {L}. Arguments ABorrow {L}. Arguments AImpossible {L}. Arguments AMissingIn {L}.
Arguments AMissingBefore {L}. Arguments AMissingAfter {L}. Arguments ATrackingAllStorages {L}.
Arguments ATrackingStorage {L}.
(** [core::mem::discriminant]. *)
Definition add_disc {L} (a : add_workload_err L) : N :=
  match a with
  | AAlreadyExists => 0 | ABorrow => 1 | AImpossible _ => 2 | AMissingIn _ _ => 3 | AMissingBefore _ _ => 4
  | AMissingAfter _ _ => 5 | ATrackingAllStorages => 6 | ATrackingStorage _ _ _ => 7
  end.
(** [PartialEq for AddWorkload]: error.rs 300-328. *)
Definition add_eq (a b : add_workload_err dlabel) : bool :=
  match a, b with
  | AImpossible l0, AImpossible r0 => imp_eq l0 r0
  | AMissingIn l0 l1, AMissingIn r0 r1 => label_eq l0 r0 && labels_eq l1 r1
  | AMissingBefore l0 l1, AMissingBefore r0 r1 => label_eq l0 r0 && labels_eq l1 r1
  | AMissingAfter l0 l1, AMissingAfter r0 r1 => label_eq l0 r0 && labels_eq l1 r1
  | ATrackingStorage ln li lb, ATrackingStorage rn ri rb =>
      bool_decide (ln = rn) && sid_eq li ri && bool_decide (lb = rb)
  | _, _ => add_disc a =? add_disc b
  end.

(** [UniquePresence] and its [PartialEq]: error.rs 677-687, 689-698. *)
Inductive unique_presence L T := UWorkload (l : L) | UUnique (t : T) | UAllStorages | UScheduler.
Arguments UWorkload {L T}. Arguments UUnique {L T}. Arguments UAllStorages {L T}. Arguments UScheduler {L T}.
Definition up_disc {L T} (a : unique_presence L T) : N :=
  match a with UWorkload _ => 0 | UUnique _ => 1 | UAllStorages => 2 | UScheduler => 3 end.
Definition up_eq (a b : unique_presence dlabel type_info) : bool :=
  match a, b with
  | UWorkload l0, UWorkload r0 => label_eq l0 r0
  | UUnique l0, UUnique r0 => ti_eq l0 r0
  | _, _ => up_disc a =? up_disc b
  end.
