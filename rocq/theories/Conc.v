(** Concurrent access to the table of storages: src/all_storages/custom_storage.rs (custom_storage
    215-237, custom_storage_mut 260-282, custom_storage_or_insert_by_id 312-357,
    custom_storage_or_insert_mut_by_id 564-609), src/all_storages/mod.rs (add_unique 110-120,
    remove_unique 204-234), src/storage/sbox.rs (Drop 21-28).

    Any number of threads; one step per lock operation, table lookup or update, borrow attempt, release
    and free. The RwLock is a standard reader/writer lock (src/public_transport.rs). A borrow attempt is
    one step that succeeds iff no conflicting borrow of the cell is alive: this is what C25 and
    C26 prove about the borrow state. Storages live in heap cells; touching a freed cell sets [ub].
    Contents are lists of written values (a stand-in for any component storage or unique). *)
From stdpp Require Import prelude list gmap.
From Coq Require Import NArith.
From Verif Require Import EntityId.
Open Scope N_scope.

Inductive cpc :=
| PAccess (sid : N) (excl create : bool)   (* before [self.storages.read()] *)
| PLooking (sid : N) (excl create : bool)  (* holding the read lock, before [get] *)
| PBorrowR (sid cell : N) (excl : bool)    (* holding the read lock, found, before [borrow] *)
| PGotR (r : option N)                     (* holding the read lock, borrow attempted *)
| PMissR                                   (* holding the read lock, MissingStorage *)
| PDropR (sid : N) (excl : bool)           (* holding the read lock, not found, before [drop(storages)] *)
| PCreate (sid : N) (excl : bool)          (* before [self.storages.write()] *)
| PCreating (sid : N) (excl : bool)        (* holding the write lock, before [entry().or_insert_with] *)
| PBorrowW (sid cell : N) (excl : bool)    (* holding the write lock, before [borrow] *)
| PGotW (r : option N)                     (* holding the write lock, borrow attempted *)
| PRemove (sid : N)                        (* remove_unique, before [write()] *)
| PRemoving (sid : N)                      (* holding the write lock, before [entry] *)
| PTryW (sid cell : N)                     (* before [borrow_mut().err()] *)
| PLocked (sid cell v : N)                 (* the temporary borrow is alive *)
| PUnlocked (sid cell : N)                 (* it was dropped; before [entry.remove()] *)
| PRemoved (cell : N)                      (* before [Box::from_raw(..).into_inner()] *)
| PRetW (ok : bool)                        (* holding the write lock, about to return *)
| PAdd (sid : N)                           (* add_unique, before [write()] *)
| PAdding (sid : N).                       (* holding the write lock, before [entry().insert()] *)

Record cst := {
  readers : gset N;                 (* threads that hold the lock shared *)
  writer : option N;                (* thread that holds it exclusively *)
  table : gmap N N;                 (* StorageId -> cell *)
  freed : gset N;                   (* freed cells *)
  contents : gmap N (list N);       (* what was written into each cell, oldest first *)
  views : gmap N (N * bool);        (* live borrows: cell, exclusive? *)
  next_cell : N;
  next_view : N;
  pcs : gmap N cpc;                 (* calls in progress *)
  ub : bool
}.

(** AllStorages::new, all_storages/mod.rs 76-91 (the entities storage plays no role here). *)
Definition c_init : cst :=
  {| readers := ∅; writer := None; table := ∅; freed := ∅; contents := ∅; views := ∅;
     next_cell := 0; next_view := 0; pcs := ∅; ub := false |}.

Inductive caction :=
| CAccess (sid : N) (excl create : bool)   (* View/ViewMut (create) or UniqueView/UniqueViewMut borrow *)
| CRemove (sid : N)                        (* remove_unique *)
| CAdd (sid : N)                           (* add_unique *)
| CWrite (v x : N)                         (* write through an exclusive view *)
| CRead (v : N)                            (* read through a view *)
| CDrop (v : N)                            (* drop a view *)
| CStep.                                   (* continue the current call *)

Inductive cevent :=
| CeTau
| CeView (v : N)                           (* the access returned view [v] *)
| CeBorrowErr                              (* .. a borrow error *)
| CeMissing                                (* .. MissingStorage / MissingUnique *)
| CeRemoved (c : list N)                   (* remove_unique returned the value *)
| CeRemoveErr
| CeAdded
| CeValue (c : list N).                    (* value read *)

Definition upd_pc (t : N) (p : cpc) (s : cst) : cst :=
  {| readers := readers s; writer := writer s; table := table s; freed := freed s;
     contents := contents s; views := views s; next_cell := next_cell s; next_view := next_view s;
     pcs := <[t := p]> (pcs s); ub := ub s |}.
Definition set_lock (rd : gset N) (wr : option N) (s : cst) : cst :=
  {| readers := rd; writer := wr; table := table s; freed := freed s;
     contents := contents s; views := views s; next_cell := next_cell s; next_view := next_view s;
     pcs := pcs s; ub := ub s |}.
Definition end_pc (t : N) (s : cst) : cst :=
  {| readers := readers s; writer := writer s; table := table s; freed := freed s;
     contents := contents s; views := views s; next_cell := next_cell s; next_view := next_view s;
     pcs := delete t (pcs s); ub := ub s |}.
Definition set_views (vs : gmap N (N * bool)) (nv : N) (s : cst) : cst :=
  {| readers := readers s; writer := writer s; table := table s; freed := freed s;
     contents := contents s; views := vs; next_cell := next_cell s; next_view := nv;
     pcs := pcs s; ub := ub s |}.
(** The memory of [cell] is accessed. *)
Definition touch (cell : N) (s : cst) : cst :=
  {| readers := readers s; writer := writer s; table := table s; freed := freed s;
     contents := contents s; views := views s; next_cell := next_cell s; next_view := next_view s;
     pcs := pcs s; ub := ub s || bool_decide (cell ∈ freed s) |}.
Definition new_cell (sid : N) (s : cst) : cst :=
  {| readers := readers s; writer := writer s; table := <[sid := next_cell s]> (table s);
     freed := freed s; contents := <[next_cell s := []]> (contents s); views := views s;
     next_cell := next_cell s + 1; next_view := next_view s; pcs := pcs s; ub := ub s |}.
Definition del_entry (sid : N) (s : cst) : cst :=
  {| readers := readers s; writer := writer s; table := delete sid (table s);
     freed := freed s; contents := contents s; views := views s;
     next_cell := next_cell s; next_view := next_view s; pcs := pcs s; ub := ub s |}.
Definition free (cell : N) (s : cst) : cst :=
  {| readers := readers s; writer := writer s; table := table s;
     freed := {[cell]} ∪ freed s; contents := contents s; views := views s;
     next_cell := next_cell s; next_view := next_view s; pcs := pcs s; ub := ub s |}.
Definition write_cell (cell x : N) (s : cst) : cst :=
  {| readers := readers s; writer := writer s; table := table s; freed := freed s;
     contents := <[cell := default [] (contents s !! cell) ++ [x]]> (contents s); views := views s;
     next_cell := next_cell s; next_view := next_view s; pcs := pcs s; ub := ub s |}.

(** Does a live borrow of [cell] conflict with a new one? *)
Definition conflicting (cell : N) (excl : bool) (w : N * bool) : bool :=
  (w.1 =? cell) && (excl || w.2).
Definition can_borrow (cell : N) (excl : bool) (s : cst) : bool :=
  negb (existsb (fun kv => conflicting cell excl kv.2) (map_to_list (views s))).
(** [AtomicRefCell::borrow] / [borrow_mut]: the new state and the view obtained. *)
Definition try_borrow (cell : N) (excl : bool) (s : cst) : cst * option N :=
  let s := touch cell s in
  if can_borrow cell excl s
  then (set_views (<[next_view s := (cell, excl)]> (views s)) (next_view s + 1) s, Some (next_view s))
  else (s, None).

(** The next step of a call of thread [t]; [None] when it is blocked. *)
Definition c_continue (t : N) (p : cpc) (s : cst) : option (cst * cevent) :=
  match p with
  | PAccess sid excl create =>
      match writer s with
      | None => Some (upd_pc t (PLooking sid excl create) (set_lock ({[t]} ∪ readers s) None s), CeTau)
      | Some _ => None
      end
  | PLooking sid excl create =>
      Some (match table s !! sid with
            | Some cell => upd_pc t (PBorrowR sid cell excl) s
            | None => upd_pc t (if create then PDropR sid excl else PMissR) s
            end, CeTau)
  | PBorrowR sid cell excl =>
      let '(s1, r) := try_borrow cell excl s in Some (upd_pc t (PGotR r) s1, CeTau)
  | PGotR r =>
      Some (end_pc t (set_lock (readers s ∖ {[t]}) (writer s) s),
            match r with Some v => CeView v | None => CeBorrowErr end)
  | PMissR => Some (end_pc t (set_lock (readers s ∖ {[t]}) (writer s) s), CeMissing)
  | PDropR sid excl =>
      Some (upd_pc t (PCreate sid excl) (set_lock (readers s ∖ {[t]}) (writer s) s), CeTau)
  | PCreate sid excl =>
      match writer s with
      | None =>
          if bool_decide (readers s = ∅)
          then Some (upd_pc t (PCreating sid excl) (set_lock ∅ (Some t) s), CeTau) else None
      | Some _ => None
      end
  | PCreating sid excl =>
      Some (match table s !! sid with
            | Some cell => upd_pc t (PBorrowW sid cell excl) s
            | None => upd_pc t (PBorrowW sid (next_cell s) excl) (new_cell sid s)
            end, CeTau)
  | PBorrowW sid cell excl =>
      let '(s1, r) := try_borrow cell excl s in Some (upd_pc t (PGotW r) s1, CeTau)
  | PGotW r =>
      Some (end_pc t (set_lock (readers s) None s),
            match r with Some v => CeView v | None => CeBorrowErr end)
  | PRemove sid =>
      match writer s with
      | None =>
          if bool_decide (readers s = ∅)
          then Some (upd_pc t (PRemoving sid) (set_lock ∅ (Some t) s), CeTau) else None
      | Some _ => None
      end
  | PRemoving sid =>
      Some (match table s !! sid with
            | Some cell => upd_pc t (PTryW sid cell) s
            | None => upd_pc t (PRetW false) s
            end, CeTau)
  | PTryW sid cell =>
      let '(s1, r) := try_borrow cell true s in
      Some (upd_pc t (match r with Some v => PLocked sid cell v | None => PRetW true end) s1, CeTau)
  | PLocked sid cell v =>
      Some (upd_pc t (PUnlocked sid cell) (set_views (delete v (views s)) (next_view s) (touch cell s)), CeTau)
  | PUnlocked sid cell => Some (upd_pc t (PRemoved cell) (del_entry sid s), CeTau)
  | PRemoved cell =>
      Some (end_pc t (set_lock (readers s) None (free cell (touch cell s))),
            CeRemoved (default [] (contents s !! cell)))
  | PRetW false => Some (end_pc t (set_lock (readers s) None s), CeMissing)
  | PRetW true => Some (end_pc t (set_lock (readers s) None s), CeRemoveErr)
  | PAdd sid =>
      match writer s with
      | None =>
          if bool_decide (readers s = ∅)
          then Some (upd_pc t (PAdding sid) (set_lock ∅ (Some t) s), CeTau) else None
      | Some _ => None
      end
  | PAdding sid =>
      (* the previous SBox, if any, is dropped, which frees its cell *)
      let s1 := match table s !! sid with Some old => free old (touch old s) | None => s end in
      Some (end_pc t (set_lock (readers s) None (new_cell sid s1)), CeAdded)
  end.

(** [v] is still inside of a call: it was not returned to a user (yet). *)
Definition inside (v : N) (p : cpc) : bool :=
  match p with
  | PGotR (Some v') | PGotW (Some v') | PLocked _ _ v' => v =? v'
  | _ => false
  end.
(** The view [v] as seen by users. *)
Definition user_view (v : N) (s : cst) : option (N * bool) :=
  if existsb (fun kv => inside v kv.2) (map_to_list (pcs s)) then None else views s !! v.

Definition c_step (s : cst) (l : N * caction) : option (cst * cevent) :=
  let '(t, a) := l in
  match a, pcs s !! t with
  | CStep, Some p => c_continue t p s
  | CStep, None => None
  | _, Some _ => None
  | CAccess sid excl create, None => Some (upd_pc t (PAccess sid excl create) s, CeTau)
  | CRemove sid, None => Some (upd_pc t (PRemove sid) s, CeTau)
  | CAdd sid, None => Some (upd_pc t (PAdd sid) s, CeTau)
  | CWrite v x, None =>
      match user_view v s with
      | Some (cell, true) => Some (write_cell cell x (touch cell s), CeTau)
      | _ => None
      end
  | CRead v, None =>
      match user_view v s with
      | Some (cell, _) => Some (touch cell s, CeValue (default [] (contents s !! cell)))
      | None => None
      end
  | CDrop v, None =>
      match user_view v s with
      | Some (cell, _) => Some (set_views (delete v (views s)) (next_view s) (touch cell s), CeTau)
      | None => None
      end
  end.

(** All runs. *)
Inductive c_reach : list (N * caction * cevent) -> cst -> Prop :=
| c_reach_init : c_reach [] c_init
| c_reach_step tr s l s' ev :
    c_reach tr s -> c_step s l = Some (s', ev) -> c_reach (tr ++ [(l, ev)]) s'.
