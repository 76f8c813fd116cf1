(** What can be done with a tracking view, and what it should answer. *)
From stdpp Require Import prelude list gmap.
From Coq Require Import NArith.
From Verif Require Import EntityId Base SparseSet SparseSetSpec SparseSetHistory Iter ViewTrack.
Open Scope N_scope.

(** [a] tracks at least what [b] tracks. *)
Definition covers (a b : trk) : Prop :=
  (k_ins b = true -> k_ins a = true) ∧ (k_mod b = true -> k_mod a = true) ∧
  (k_del b = true -> k_del a = true) ∧ (k_rem b = true -> k_rem a = true).

Section spec.
Context {T : Type}.
Implicit Types (v : vmut T) (s : sset T) (h : hist T).

(** A storage of a component whose type tracks [st], wherever it lives: made by SparseSet::new and
    changed by any history of operations, that of turning more tracking on included. [h] is what its
    history says it holds. *)
Definition made (st : trk) s h : Prop :=
  ∃ ops, reaches (k_ins st) (k_mod st) (k_del st) (k_rem st) ops s h.

(** An exclusive view asking for [k], and what the storage behind it holds; when [exchange] is false
    the program does not assign to the storage as a whole. *)
Inductive held (st k : trk) (exchange : bool) : vmut T -> hist T -> Prop :=
| HeldBorrow s h last_run current v :
    made st s h -> borrow_view k s last_run current = Some v -> held st k exchange v h
| HeldDo v h o v' ev :
    held st k exchange v h -> h_allowed h (stamp (vm_cur v) o) -> v_do v o = Ok (v', ev) ->
    held st k exchange v' (h_step h (stamp (vm_cur v) o, ev))
| HeldOverride v h li lm lr :
    held st k exchange v h -> held st k exchange (v_override v li lm lr) h
| HeldPut v h s' h' :
    exchange = true -> held st k exchange v h -> made st s' h' -> held st k exchange (v_put v s') h'.

(** Whether the history says that the component of [e] was inserted, resp. last written, in the
    window of the view. *)
Definition new_in h v (e : eid) : bool := bool_decide (is_Some (h_val h e) ∧ vm_li v < h_ins h e ∧ h_ins h e <= vm_cur v).
Definition written_in h v (e : eid) : bool := bool_decide (is_Some (h_val h e) ∧ vm_lm v < h_mod h e ∧ h_mod h e <= vm_cur v).
Definition told h v (m : mark) (e : eid) : bool :=
  match m with MIns => new_in h v e | MMod => written_in h v e | MInsMod => new_in h v e || written_in h v e end.
(** The view type has the method. *)
Definition offers (k : trk) (m : mark) : Prop :=
  match m with MIns => k_ins k = true | MMod => k_mod k = true | MInsMod => k_ins k = true ∧ k_mod k = true end.
End spec.
