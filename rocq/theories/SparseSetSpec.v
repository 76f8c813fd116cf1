(** Specification of a component storage: a finite map from entity handles to rows, and two logs.
    Nothing here mentions the sparse / dense representation. *)
From stdpp Require Import prelude list gmap.
From Coq Require Import NArith.
From Verif Require Import EntityId SparseSet.
Open Scope N_scope.

(** What a storage knows about one entity: component, time of its last insertion, time of the last
    write to it (0 when there was none). *)
Record row (T : Type) := Row { r_val : T; r_ins : N; r_mod : N }.
Arguments Row {T}. Arguments r_val {T}. Arguments r_ins {T}. Arguments r_mod {T}.

Record sspec (T : Type) := SSpec {
  sp_map : gmap eid (row T);
  sp_del : list (eid * N * T);
  sp_rem : list (eid * N);
  sp_ti : bool; sp_tm : bool; sp_td : bool; sp_tr : bool;
  sp_last_ins : N; sp_last_mod : N;
}.
Arguments SSpec {T}.
Arguments sp_map {T}. Arguments sp_del {T}. Arguments sp_rem {T}. Arguments sp_ti {T}.
Arguments sp_tm {T}. Arguments sp_td {T}. Arguments sp_tr {T}.
Arguments sp_last_ins {T}. Arguments sp_last_mod {T}.

(** Handles the allocator can give out. *)
Definition handle_ok (e : eid) : Prop := idx e < INDEX_MASK /\ gen e < U16_MAX.

Section spec.
Context {T : Type}.
Implicit Types (m : gmap eid (row T)) (a : sspec T).

Definition sp_init (ti tm td tr : bool) : sspec T := SSpec ∅ [] [] ti tm td tr 0 0.

Definition upd a m dl rl : sspec T :=
  SSpec m dl rl (sp_ti a) (sp_tm a) (sp_td a) (sp_tr a) (sp_last_ins a) (sp_last_mod a).
Definition upd_map a m : sspec T := upd a m (sp_del a) (sp_rem a).
Definition upd_last a li lm : sspec T :=
  SSpec (sp_map a) (sp_del a) (sp_rem a) (sp_ti a) (sp_tm a) (sp_td a) (sp_tr a) li lm.
Definition upd_flags a m ti tm td tr : sspec T :=
  SSpec m (sp_del a) (sp_rem a) ti tm td tr (sp_last_ins a) (sp_last_mod a).

(** Components recorded for an index: at most one handle per index owns a component. *)
Definition index_free m (e : eid) : Prop := ∀ e', idx e' = idx e → m !! e' = None.
Definition no_older m (e : eid) : Prop :=
  ∀ e', idx e' = idx e → gen e' < gen e → m !! e' = None.

(** Operations on a storage and what they answer. *)
Inductive sop :=
| OInsert (e : eid) (v : T) (t : N)
| ORemove (e : eid) (t : N)
| ODelete (e : eid) (t : N)
| OWrite (e : eid) (f : T -> T) (t : N)
| OClear (t : N)
| ODrain (t : N)
| ORetain (f : eid -> T -> bool) (t : N)
| OSort (order : list N)
| OApply (a b : eid) (f : T -> T -> T) (t : N)
| OApplyMut (a b : eid) (f : T -> T -> T * T) (t : N)
| OTrack (ti tm td tr : bool)
| OClearInserted (t : N)
| OClearModified (t : N)
| OClearDeleted
| OClearRemoved.
Inductive sevent :=
| EInsert (r : insertion_result T)
| ERemove (r : option T)
| EDelete (r : bool)
| EWrite (r : bool)
| EDrain (l : list (eid * T))
| EUnit.

(** The value part of a map. *)
Definition vals m : list (eid * T) := prod_map id r_val <$> map_to_list m.

(** One step of the specification. *)
Inductive sp_step a : sop -> sspec T -> sevent -> Prop :=
| SpInsertNew e v t :
    index_free (sp_map a) e ->
    sp_step a (OInsert e v t) (upd_map a (<[e := Row v t 0]> (sp_map a))) (EInsert Inserted)
| SpInsertSame e v t r :
    sp_map a !! e = Some r ->
    sp_step a (OInsert e v t) (upd_map a (<[e := Row v (r_ins r) t]> (sp_map a)))
      (EInsert (ComponentOverride (r_val r)))
| SpInsertRefused e e' v t :
    idx e' = idx e -> gen e < gen e' -> is_Some (sp_map a !! e') ->
    sp_step a (OInsert e v t) a (EInsert NotInserted)
| SpRemove e t r :
    sp_map a !! e = Some r ->
    sp_step a (ORemove e t)
      (upd a (delete e (sp_map a)) (sp_del a)
         (if sp_tr a then sp_rem a ++ [(e, t)] else sp_rem a)) (ERemove (Some (r_val r)))
| SpRemoveNone e t :
    sp_map a !! e = None -> no_older (sp_map a) e ->
    sp_step a (ORemove e t) a (ERemove None)
| SpRemoveStale e e' t :
    idx e' = idx e -> gen e' < gen e -> is_Some (sp_map a !! e') ->
    sp_step a (ORemove e t) (upd_map a (delete e' (sp_map a))) (ERemove None)
| SpDelete e t r :
    sp_map a !! e = Some r ->
    sp_step a (ODelete e t)
      (upd a (delete e (sp_map a))
         (if sp_td a then sp_del a ++ [(e, t, r_val r)] else sp_del a) (sp_rem a)) (EDelete true)
| SpDeleteNone e t :
    sp_map a !! e = None -> no_older (sp_map a) e ->
    sp_step a (ODelete e t) a (EDelete false)
| SpDeleteStale e e' t :
    idx e' = idx e -> gen e' < gen e -> is_Some (sp_map a !! e') ->
    sp_step a (ODelete e t) (upd_map a (delete e' (sp_map a))) (EDelete false)
| SpWrite e f t r :
    sp_map a !! e = Some r ->
    sp_step a (OWrite e f t) (upd_map a (<[e := Row (f (r_val r)) (r_ins r) t]> (sp_map a)))
      (EWrite true)
| SpWriteNone e f t :
    sp_map a !! e = None ->
    sp_step a (OWrite e f t) a (EWrite false)
| SpClear t l :
    l ≡ₚ vals (sp_map a) ->
    sp_step a (OClear t)
      (upd a ∅ (if sp_td a then sp_del a ++ ((λ x, (x.1, t, x.2)) <$> l) else sp_del a) (sp_rem a))
      EUnit
| SpDrain t l :
    l ≡ₚ vals (sp_map a) ->
    sp_step a (ODrain t)
      (upd a ∅ (sp_del a)
         (if sp_tr a then sp_rem a ++ ((λ x, (x.1, t)) <$> l) else sp_rem a)) (EDrain l)
| SpRetain f t dropped :
    dropped ≡ₚ vals (filter (λ x, f x.1 (r_val x.2) = false) (sp_map a)) ->
    sp_step a (ORetain f t)
      (upd a (filter (λ x, f x.1 (r_val x.2) = true) (sp_map a))
         (if sp_td a then sp_del a ++ ((λ x, (x.1, t, x.2)) <$> dropped) else sp_del a)
         (sp_rem a)) EUnit
| SpSort order :
    sp_step a (OSort order) a EUnit
| SpApply x y f t rx ry :
    x ≠ y -> sp_map a !! x = Some rx -> sp_map a !! y = Some ry ->
    sp_step a (OApply x y f t)
      (upd_map a (<[x := Row (f (r_val rx) (r_val ry)) (r_ins rx) t]> (sp_map a))) EUnit
| SpApplyMut x y f t rx ry :
    x ≠ y -> sp_map a !! x = Some rx -> sp_map a !! y = Some ry ->
    sp_step a (OApplyMut x y f t)
      (upd_map a (<[y := Row (f (r_val rx) (r_val ry)).2 (r_ins ry) t]>
                  (<[x := Row (f (r_val rx) (r_val ry)).1 (r_ins rx) t]> (sp_map a)))) EUnit
| SpTrack ti tm td tr :
    (* components present when the tracking starts carry the time 0 *)
    sp_step a (OTrack ti tm td tr)
      (upd_flags a
         ((λ r, Row (r_val r) (if ti && negb (sp_ti a) then 0 else r_ins r)
                    (if tm && negb (sp_tm a) then 0 else r_mod r)) <$> sp_map a)
         (sp_ti a || ti) (sp_tm a || tm) (sp_td a || td) (sp_tr a || tr)) EUnit
| SpClearInserted t : sp_step a (OClearInserted t) (upd_last a t (sp_last_mod a)) EUnit
| SpClearModified t : sp_step a (OClearModified t) (upd_last a (sp_last_ins a) t) EUnit
| SpClearDeleted : sp_step a OClearDeleted (upd a (sp_map a) [] (sp_rem a)) EUnit
| SpClearRemoved : sp_step a OClearRemoved (upd a (sp_map a) (sp_del a) []) EUnit.

(** Operations allowed in a state: handles are real ones; an insertion never meets a component of an
    older generation (what C10 excludes); the operations that panic on purpose are not done;
    a sort is given a permutation of the positions. *)
Definition op_allowed (n : N) m (o : sop) : Prop :=
  match o with
  | OInsert e _ _ => handle_ok e ∧ no_older m e
  | ORemove e _ | ODelete e _ | OWrite e _ _ => gen e < U16_MAX
  | OSort order => order ≡ₚ (N.of_nat <$> seq 0 (N.to_nat n))
  | OApply x y _ _ | OApplyMut x y _ _ =>
      gen x < U16_MAX ∧ gen y < U16_MAX ∧ x ≠ y ∧ is_Some (m !! x) ∧ is_Some (m !! y)
  | _ => True
  end.

Definition msize m : N := N.of_nat (size m).

(** All runs of the specification over allowed operations. *)
Inductive sp_run : sspec T -> list sop -> sspec T -> list sevent -> Prop :=
| SpNil a : sp_run a [] a []
| SpCons a o a' ev ops a'' evs :
    op_allowed (msize (sp_map a)) (sp_map a) o ->
    sp_step a o a' ev -> sp_run a' ops a'' evs -> sp_run a (o :: ops) a'' (ev :: evs).
End spec.
Arguments sop : clear implicits.
Arguments sevent : clear implicits.
