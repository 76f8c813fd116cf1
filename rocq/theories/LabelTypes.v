(** Model of the labels themselves: src/scheduler/label.rs, [UniqueSystemId] of
    src/scheduler/workload/create_workload.rs, shipyard_proc/src/label_expand.rs.

    Simplified: a text is the list of its bytes; a [TypeId] is a number, two types with the same number are the
    same type; a value of a type with [#[derive(Label)]] is a number, compared and hashed as such. *)
From stdpp Require Import prelude list.
Local Open Scope N_scope.

(** The implementors of [Label]: label.rs 52 (the three string types), 54-74 ([TypeId]), 76-93
    ([Box<dyn Label>]), 144-172 ([SequentialLabel]), 174-205 ([SystemLabel]), 207-238 ([WorkloadLabel]),
    create_workload.rs 370-397 ([UniqueSystemId]), types with [#[derive(Label)]]. *)
Inductive dlabel :=
| DStr (s : list N)
| DString (s : list N)
| DCow (s : list N)
| DTypeId (t : N)
| DUid (n : N)
| DUser (ty v : N)
| DSeq (l : dlabel)
| DSys (t : N) (name : dlabel)
| DWl (t : N) (name : dlabel)
| DBox (l : dlabel).

(** The type [as_any] shows. *)
Inductive dtype := TyStr | TyString | TyCow | TyTypeId | TyUid | TyUser (ty : N) | TySeq | TySys | TyWl.
Global Instance dtype_eq_dec : EqDecision dtype.
Proof. solve_decision. Defined.

(** [as_any]: label.rs 28-30 (57-59, 147-149, 181-183, 214-216), 77-79 for the box; the value behind the
    reference, which is never a box. *)
Fixpoint as_any (l : dlabel) : dlabel := match l with DBox l => as_any l | _ => l end.
(** [type_id] of what [as_any] returns. *)
Definition any_type (l : dlabel) : option dtype :=
  match as_any l with
  | DStr _ => Some TyStr | DString _ => Some TyString | DCow _ => Some TyCow | DTypeId _ => Some TyTypeId
  | DUid _ => Some TyUid | DUser t _ => Some (TyUser t) | DSeq _ => Some TySeq | DSys _ _ => Some TySys
  | DWl _ _ => Some TyWl | DBox _ => None
  end.

(** [dyn_eq] of each type: label.rs 31-37, 60-66, 80-82, 152-158, 186-192, 219-225, create_workload.rs
    376-382, label_expand.rs 12-18.  [downcast_ref::<Self>] is a match on the other's [as_any]. *)
Fixpoint dyn_eq (a b : dlabel) : bool :=
  match a with
  | DBox a => dyn_eq a b
  | DStr s => match as_any b with DStr s' => bool_decide (s = s') | _ => false end
  | DString s => match as_any b with DString s' => bool_decide (s = s') | _ => false end
  | DCow s => match as_any b with DCow s' => bool_decide (s = s') | _ => false end
  | DTypeId t => match as_any b with DTypeId t' => t =? t' | _ => false end
  | DUid n => match as_any b with DUid n' => n =? n' | _ => false end
  | DUser t v => match as_any b with DUser t' v' => (t =? t') && (v =? v') | _ => false end
  | DSeq l => match as_any b with DSeq l' => dyn_eq l l' | _ => false end
  | DSys t _ => match as_any b with DSys t' _ => t =? t' | _ => false end
  | DWl t _ => match as_any b with DWl t' _ => t =? t' | _ => false end
  end.
(** [PartialEq for dyn Label]: label.rs 109-113. *)
Definition label_eq (a b : dlabel) : bool := dyn_eq a b.

(** What a [Hasher] is given. *)
Inductive hword := HByte (b : N) | HType (t : option dtype) | HWord (n : N).

(** [Hash for str]: the bytes, then 0xff. *)
Definition hash_str (s : list N) : list hword := map HByte s ++ [HByte 255].
(** [dyn_hash] of each type: label.rs 38-40, 67-69, 83-85, 160-162 (derived, with [Hash for dyn Label] of the
    field), 194-196, 227-229, create_workload.rs 384-386, label_expand.rs 19-21. *)
Fixpoint dyn_hash (l : dlabel) : list hword :=
  match l with
  | DStr s | DString s | DCow s => hash_str s
  | DTypeId t => [HWord t]
  | DUid n => [HWord n]
  | DUser _ v => [HWord v]
  | DSeq l => HType (any_type l) :: dyn_hash l
  | DSys t _ => [HWord t]
  | DWl t _ => [HWord t]
  | DBox l => dyn_hash l
  end.
(** [Hash for dyn Label]: label.rs 102-107. *)
Definition label_hash (l : dlabel) : list hword := HType (any_type l) :: dyn_hash l.

(** [dyn_clone]: label.rs 41-43, 70-72, 86-88, 164-166, 198-200, 231-233, create_workload.rs 388-390,
    label_expand.rs 22-24; [Clone for Box<dyn Label>]: label.rs 95-100.  The [Box::new] of the result is
    the [Box<dyn Label>] itself, not a boxed box. *)
Fixpoint dyn_clone (l : dlabel) : dlabel :=
  match l with
  | DSeq l => DSeq (dyn_clone l)
  | DSys t n => DSys t (dyn_clone n)
  | DWl t n => DWl t (dyn_clone n)
  | DBox l => dyn_clone l
  | l => l
  end.
(** [as_label] of a label: label.rs 136-140. *)
Definition as_label (l : dlabel) : dlabel := dyn_clone l.

(** [as_label] of a function that is a system, [label] of a [WorkloadSystem] made from it, and of a function
    returning a [Workload]: into_workload_system.rs 175-180, 82-87, 60-66. *)
Definition fn_label (ty : N) (name : list N) : dlabel := DSys ty (as_label (DStr name)).
Definition sys_label (ty : N) (display : dlabel) : dlabel := DSys ty (dyn_clone display).
Definition workload_fn_label (ty : N) (name : list N) : dlabel := DWl ty (as_label (DStr name)).

(** A hash map keyed by labels ([ShipHashMap<Box<dyn Label>, _>], mod.rs 47), as far as the contract of [Hash]
    and [Eq] goes: entries are kept under the hash of their key, for any function [h] of what the hasher
    is given. *)
Section map.
  Context {V : Type} (h : list hword → N).
  Definition lmap := list (N * (dlabel * V)).
  (** [get]: the first entry in the bucket of the key's hash with an equal key. *)
  Fixpoint lm_get (k : dlabel) (m : lmap) : option V :=
    match m with
    | [] => None
    | (b, (k', v)) :: m => if (h (label_hash k) =? b) && label_eq k k' then Some v else lm_get k m
    end.
  (** [insert]: an equal key keeps its place and gets the new value. *)
  Fixpoint lm_insert (k : dlabel) (v : V) (m : lmap) : lmap :=
    match m with
    | [] => [(h (label_hash k), (k, v))]
    | (b, (k', v')) :: m =>
        if (h (label_hash k) =? b) && label_eq k k' then (b, (k', v)) :: m else (b, (k', v')) :: lm_insert k v m
    end.
  (** [remove]. *)
  Fixpoint lm_remove (k : dlabel) (m : lmap) : lmap :=
    match m with
    | [] => []
    | (b, (k', v')) :: m =>
        if (h (label_hash k) =? b) && label_eq k k' then m else (b, (k', v')) :: lm_remove k m
    end.
End map.
