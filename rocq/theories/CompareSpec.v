(** What the standard library asks of comparisons ([core::cmp], [core::hash]), and what the values of the compared
    types stand for. *)
From stdpp Require Import prelude list.
From Verif Require Import LabelTypes PropsLabel Compare.
Local Open Scope N_scope.

(** [PartialEq]: symmetric and transitive; [Eq]: reflexive as well. *)
Definition partial_eq_ok {A} (eq : A → A → bool) : Prop :=
  (∀ a b, eq a b = eq b a) ∧ (∀ a b c, eq a b = true → eq b c = true → eq a c = true).
Definition eq_ok {A} (eq : A → A → bool) : Prop := partial_eq_ok eq ∧ ∀ a, eq a a = true.
(** [Ord]: two ways round opposite, transitive, [Equal] exactly when equal. *)
Definition ord_ok {A} (eq : A → A → bool) (cmp : A → A → comparison) : Prop :=
  (∀ a b, cmp b a = CompOpp (cmp a b)) ∧
  (∀ a b c, cmp a b ≠ Gt → cmp b c ≠ Gt → cmp a c ≠ Gt) ∧
  (∀ a b c, cmp a b = Lt → cmp b c = Lt → cmp a c = Lt) ∧
  (∀ a b, cmp a b = Eq ↔ eq a b = true).
(** [Hash]: equal values give the hasher the same. *)
Definition hash_ok {A} (eq : A → A → bool) (hash : A → list hword) : Prop :=
  ∀ a b, eq a b = true → hash a = hash b.

(** A [TypeInfo] stands for a borrow of a storage. *)
Definition ti_ident (a : type_info) : storage_id * mutability := (ti_id a, ti_mut a).
(** An error about labels stands for one about what the labels are identified by. *)
Definition imp_ident (a : impossible dlabel) : impossible ident :=
  match a with
  | IBeforeAndAfter a b => IBeforeAndAfter (ident_of a) (ident_of b)
  | IConstraints w b a => IConstraints (ident_of w) (map ident_of b) (map ident_of a)
  | ICycle l => ICycle (map ident_of l)
  end.
Definition add_ident (a : add_workload_err dlabel) : add_workload_err ident :=
  match a with
  | AAlreadyExists => AAlreadyExists
  | ABorrow => ABorrow
  | AImpossible i => AImpossible (imp_ident i)
  | AMissingIn l ls => AMissingIn (ident_of l) (map ident_of ls)
  | AMissingBefore l ls => AMissingBefore (ident_of l) (map ident_of ls)
  | AMissingAfter l ls => AMissingAfter (ident_of l) (map ident_of ls)
  | ATrackingAllStorages => ATrackingAllStorages
  | ATrackingStorage n i b => ATrackingStorage n i b
  end.
Definition up_ident (a : unique_presence dlabel type_info) : unique_presence ident (storage_id * mutability) :=
  match a with
  | UWorkload l => UWorkload (ident_of l)
  | UUnique t => UUnique (ti_ident t)
  | UAllStorages => UAllStorages
  | UScheduler => UScheduler
  end.
(** Errors made by users' code cannot be compared. *)
Definition gs_custom (g : get_storage) : Prop := ∃ e, g = GCustom e.
