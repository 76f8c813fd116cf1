(** The table of storages and the types in it: under which id a storage is found, as which type it is
    handed out, and on which threads.

    src/all_storages/custom_storage.rs (CustomStorageAccess), src/all_storages/mod.rs 61-230, 1071-1216,
    1629-1705, src/all_storages/clone.rs, src/storage/sbox.rs, src/storage/sbox/builder.rs,
    src/storage/storage_id.rs, src/storage/mod.rs 16-45, src/advanced/atomic_refcell.rs 15-255,
    src/borrow/mod.rs 405-645 (the views of uniques), src/world.rs 827-838, src/lib.rs 121-130.

    Storages are type-erased boxes ([*mut AtomicRefCell<dyn Storage>]). A storage is handed out again as
    a typed reference after a checked downcast, except in remove_unique, which casts the box. Whether it
    may be touched on a thread is decided by two fields of its cell that are set when it is created.

    Any number of worlds and threads. One step per call; what the borrow flag of the cell answers is an
    input of the call (C25, C26, C57, C71 are about the flag). The race of two first accesses is C27,
    the lifetime of a replaced or removed unique C28 and C56. What is inside of a storage is left out. *)
From stdpp Require Import prelude list gmap.
From Coq Require Import NArith.
Local Open Scope N_scope.

(** * Types and ids *)

(** How a cell is created: SBox::new, new_non_send, new_non_sync, new_non_send_sync
    (src/storage/sbox.rs 30-63); also the wrappers NonSend, NonSync, NonSendSync
    (src/borrow/non_send.rs 4-6, non_sync.rs, non_send_sync.rs). *)
Inductive mode := MPlain | MNonSend | MNonSync | MNonBoth.
Global Instance mode_eq_dec : EqDecision mode.
Proof. solve_decision. Defined.
Global Instance mode_countable : Countable mode.
Proof.
  refine (inj_countable'
    (λ w, match w with MPlain => 0 | MNonSend => 1 | MNonSync => 2 | MNonBoth => 3 end)
    (λ n, match n with 0 => MPlain | 1 => MNonSend | 2 => MNonSync | _ => MNonBoth end) _).
  by intros [].
Defined.

(** The types that implement [Storage]: Entities (src/entities/mod.rs 391), SparseSet<T> and its wrapped
    forms (src/sparse_set/mod.rs 781, thread_local.rs 10, 112, 213), UniqueStorage<T> and its wrapped
    forms (src/unique.rs 21, unique/thread_local.rs 8, 44, 80), and the types of users, for whom the
    trait is public and safe to implement (src/storage/mod.rs 33). *)
Inductive sty :=
| TyEnt
| TySet (w : mode) (T : N)
| TyUniq (w : mode) (T : N)
| TyUser (n : N).
Global Instance sty_eq_dec : EqDecision sty.
Proof. solve_decision. Defined.
Global Instance sty_countable : Countable sty.
Proof.
  refine (inj_countable'
    (λ s, match s with
          | TyEnt => inl (inl tt) | TySet w T => inl (inr (w, T))
          | TyUniq w T => inr (inl (w, T)) | TyUser n => inr (inr n) end)
    (λ x, match x with
          | inl (inl _) => TyEnt | inl (inr p) => TySet p.1 p.2
          | inr (inl p) => TyUniq p.1 p.2 | inr (inr n) => TyUser n end) _).
  by intros [].
Defined.

(** src/storage/storage_id.rs 3-17: [StorageId::of::<S>()] and [StorageId::Custom]. *)
Inductive sid := IdOf (X : sty) | IdNum (n : N).
Global Instance sid_eq_dec : EqDecision sid.
Proof. solve_decision. Defined.
Global Instance sid_countable : Countable sid.
Proof.
  refine (inj_countable' (λ s, match s with IdOf X => inl X | IdNum n => inr n end)
            (λ x, match x with inl X => IdOf X | inr n => IdNum n end) _).
  by intros [].
Defined.

(** The type parameters of a program: which component and unique types are [Send] and [Sync], the same
    for the user's storages, and as what a user's storage shows itself in [Storage::any], a provided
    method that may be overridden (src/storage/mod.rs 34-38). *)
Record prog_types := PT {
  pt_send : N → bool; pt_sync : N → bool;
  pt_usend : N → bool; pt_usync : N → bool;
  pt_any : N → sty;
}.

(** [Send] and [Sync] are auto traits: a SparseSet (src/sparse_set/mod.rs 52-72), a UniqueStorage
    (src/unique.rs 12-19) and the wrappers are what their component is. *)
Definition ty_send (p : prog_types) (X : sty) : bool :=
  match X with TyEnt => true | TySet _ T | TyUniq _ T => pt_send p T | TyUser n => pt_usend p n end.
Definition ty_sync (p : prog_types) (X : sty) : bool :=
  match X with TyEnt => true | TySet _ T | TyUniq _ T => pt_sync p T | TyUser n => pt_usync p n end.
(** [storage.any().type_id()], src/storage/mod.rs 34-38 *)
Definition ty_any (p : prog_types) (X : sty) : sty :=
  match X with TyUser n => pt_any p n | _ => X end.

(** The bounds of the constructors, src/storage/sbox.rs 32, 38, 49, 55. *)
Definition bound (p : prog_types) (m : mode) (X : sty) : bool :=
  match m with
  | MPlain => ty_send p X && ty_sync p X
  | MNonSend => ty_sync p X
  | MNonSync => ty_send p X
  | MNonBoth => true
  end.

(** * Cells and worlds *)

(** src/advanced/atomic_refcell.rs 15-25. [c_send] and [c_sync] are the fields send and is_sync;
    [c_ty] is the type of the box and [c_real] the thread its value was made on (neither is stored). *)
Record scell := SCell { c_ty : sty; c_send : option N; c_sync : bool; c_real : N }.

(** The fields of AllStorages, src/all_storages/mod.rs 61-68: [w_gen] is thread_id_generator, as a
    function of the thread that calls it, [w_main] is main_thread_id. [w_real] is the thread that made the
    world (not stored). *)
Record swld := SWld { w_gen : N → N; w_main : N; w_real : N; w_tab : gmap sid scell }.
Definition w_upd (w : swld) (tab : gmap sid scell) : swld := SWld (w_gen w) (w_main w) (w_real w) tab.

(** AtomicRefCell::new, new_non_send, new_non_sync, new_non_send_sync on thread [t]:
    src/advanced/atomic_refcell.rs 34-105. *)
Definition new_cell (gen : N → N) (m : mode) (t : N) (X : sty) : scell :=
  match m with
  | MPlain => SCell X None true t
  | MNonSend => SCell X (Some (gen t)) true t
  | MNonSync => SCell X None false t
  | MNonBoth => SCell X (Some (gen t)) false t
  end.

(** World::new and WorldBuilder::build on thread [t]: src/all_storages/mod.rs 76-90,
    src/all_storages/builder.rs 75-114. *)
Definition new_world (gen : N → N) (t : N) : swld :=
  SWld gen (gen t) t {[ IdOf TyEnt := new_cell gen MPlain t TyEnt ]}.

(** Shared with others; shared but alone (exclusive_read); exclusive. *)
Inductive acc := AShared | AAlone | AMut.
(** AtomicRefCell::borrow and borrow_mut, the part about threads:
    src/advanced/atomic_refcell.rs 151-210, 217-239. *)
Definition cell_acc (gen : N → N) (t : N) (m : bool) (c : scell) : option acc :=
  if m then
    match c_send c with
    | Some h => if decide (h = gen t) then Some AMut else None
    | None => Some AMut
    end
  else
    match c_send c, c_sync c with
    | _, true => Some AShared
    | None, false => Some AAlone
    | Some h, false => if decide (h = gen t) then Some AShared else None
    end.

(** * What happens *)

Inductive sev :=
| EMade (t : N) (X : sty)                  (* the value of a storage is made *)
| EGot (t : N) (a : acc) (c : scell) (X : sty)   (* a reference to the storage in [c], as an [X] *)
| EDrop (t : N) (c : scell)                (* the storage in [c] is dropped *)
| EMoved (t : N) (c : scell) (X : sty)     (* the box of [c] is opened as an [X] *)
| EOk | EErr | EPanic.                     (* the call returns Ok(()), returns an error, panics *)

(** Borrow and downcast: custom_storage.rs 219-230 and the like. [free]: the flag lets it be borrowed. *)
Definition hand_out (gen : N → N) (t : N) (m free : bool) (c : scell) (X : sty) : list sev :=
  match cell_acc gen t m c with
  | None => [EErr]
  | Some a => if free then (if decide (c_ty c = X) then [EGot t a c X] else [EPanic]) else [EErr]
  end.

(** custom_storage_or_insert_by_id and its seven variants, custom_storage.rs 312-357, 371-424, 438-483,
    497-552, 564-609, 623-676, 690-735, 749-804. [md] is the kind of cell, [m] the exclusive ones. *)
Definition get_or_insert (w : swld) (t : N) (md : mode) (m free : bool) (i : sid) (X : sty)
    : swld * list sev :=
  match w_tab w !! i with
  | Some c => (w, hand_out (w_gen w) t m free c X)
  | None =>
      if match md with MNonSend | MNonBoth => true | _ => false end && negb (w_gen w t =? w_main w)
      then (w, [EErr])
      else let c := new_cell (w_gen w) md t X in
           (w_upd w (<[i := c]> (w_tab w)), EMade t X :: hand_out (w_gen w) t m free c X)
  end.

(** exclusive_storage_or_insert_mut and its variants, src/all_storages/mod.rs 1124-1216, with get_mut
    (src/advanced/atomic_refcell.rs 242-255). *)
Definition hand_out_mut (gen : N → N) (t : N) (c : scell) (X : sty) : list sev :=
  match c_send c with
  | Some h => if decide (h = gen t)
              then (if decide (c_ty c = X) then [EGot t AMut c X] else [EPanic]) else [EPanic]
  | None => if decide (c_ty c = X) then [EGot t AMut c X] else [EPanic]
  end.
Definition excl_or_insert (w : swld) (t : N) (md : mode) (i : sid) (X : sty) : swld * list sev :=
  match w_tab w !! i with
  | Some c => (w, hand_out_mut (w_gen w) t c X)
  | None => let c := new_cell (w_gen w) md t X in
            (w_upd w (<[i := c]> (w_tab w)), EMade t X :: hand_out_mut (w_gen w) t c X)
  end.

(** add_unique and its variants, src/all_storages/mod.rs 110-178. Only add_unique replaces. *)
Definition add_unique (w : swld) (t : N) (md : mode) (T : N) : swld * list sev :=
  let i := IdOf (TyUniq MPlain T) in
  let c := new_cell (w_gen w) md t (TyUniq md T) in
  let ins := w_upd w (<[i := c]> (w_tab w)) in
  match md with
  | MPlain => (ins, EMade t (TyUniq md T) ::
                 match w_tab w !! i with Some c' => [EDrop t c'] | None => [] end)
  | _ =>
      if match md with MNonSend | MNonBoth => true | _ => false end && negb (w_gen w t =? w_main w)
      then (w, [])
      else match w_tab w !! i with
           | Some _ => (w, [])
           | None => (ins, [EMade t (TyUniq md T)])
           end
  end.

(** remove_unique, src/all_storages/mod.rs 204-230: the cell is borrowed exclusively, then its box is cast
    and opened as an AtomicRefCell<UniqueStorage<T>>. *)
Definition remove_unique (w : swld) (t : N) (free : bool) (T : N) : swld * list sev :=
  let i := IdOf (TyUniq MPlain T) in
  match w_tab w !! i with
  | None => (w, [EErr])
  | Some c =>
      match cell_acc (w_gen w) t true c with
      | Some _ => if free then (w_upd w (delete i (w_tab w)), [EMoved t c (TyUniq MPlain T)]) else (w, [EErr])
      | None => (w, [EErr])
      end
  end.

(** One turn of the loop of clone_storages_to, src/all_storages/mod.rs 1643-1704, from [a] to [b].
    [r] is the type of the storage that try_clone returns, if any. [tl] is the feature thread_local. *)
Definition clone_one (tl : bool) (p : prog_types) (a b : swld) (t : N) (free : bool) (i : sid)
    (r : option sty) : swld * list sev :=
  match w_tab a !! i with
  | None => (b, [])
  | Some c =>
      let is_send := bool_decide (c_send c = None) in
      if tl && (negb is_send || negb (c_sync c)) && negb (w_gen a t =? w_main a) then (b, [EPanic])
      else if tl && negb is_send && negb (w_gen b t =? w_main b) then (b, [EPanic])
      else match cell_acc (w_gen a) t false c with
      | None => (b, [EPanic])
      | Some ac =>
          if free then
            match r with
            | None => (b, [EGot t ac c (c_ty c)])
            | Some X =>
                if tl && negb (bool_decide (ty_any p (c_ty c) = ty_any p X))
                then (b, [EGot t ac c (c_ty c); EMade t X; EPanic])
                else
                  (* SBoxBuilder::build, src/storage/sbox/builder.rs 14-54, override_send_sync,
                     src/advanced/atomic_refcell.rs 132-141 *)
                  let c' := if tl then SCell X (if is_send then None else Some (w_gen b t)) (c_sync c) t
                            else new_cell (w_gen b) MPlain t X in
                  (w_upd b (<[i := c']> (w_tab b)),
                   EGot t ac c (c_ty c) :: EMade t X ::
                   match w_tab b !! i with Some c0 => [EDrop t c0] | None => [] end)
            end
          else (b, [EPanic])
      end
  end.

(** * Calls *)

(** A call names the world it is made on. [&mut AllStorages] ([true] for [excl]) is only had through the
    cell of AllStorages, which is a new_non_send one (builder.rs 100-108), or through [&mut World]. *)
Inductive scall :=
| SNew (gen : N → N)                                        (* a world, under the next free number *)
| SInsert (w : nat) (md : mode) (m free : bool) (i : sid) (X : sty)
                                      (* custom_storage_or_insert.._by_id; without by_id: i = IdOf X *)
| SGet (w : nat) (m free : bool) (X : sty)                  (* custom_storage, custom_storage_mut, 215-282 *)
| SGetDyn (w : nat) (m free : bool) (i : sid)               (* .._by_id, iter_storages, 238-303, 805-835 *)
| SUniq (w : nat) (md : mode) (m free : bool) (T : N)       (* the views of uniques *)
| SAddCustom (w : nat) (free : bool) (i : sid) (X : sty)    (* World::add_custom_storage *)
| SAddUnique (w : nat) (md : mode) (T : N)
| SRemUnique (w : nat) (free : bool) (T : N)
| SExcl (w : nat) (md : mode) (X : sty)                     (* add_component, move_entity, .. *)
| SExclGet (w : nat) (i : sid) (X : sty)                    (* exclusive_storage_mut(_by_id) *)
| SClone (a b : nat) (free : bool) (i : sid) (r : option sty)
| SDrop (w : nat).                                          (* the world is dropped *)

Definition on_world (ws : list swld) (k : nat) (f : swld → swld * list sev) : list swld * list sev :=
  match ws !! k with
  | Some w => let '(w', ev) := f w in (<[k := w']> ws, ev)
  | None => (ws, [])
  end.
(** Exclusive access to AllStorages: World::all_storages_mut and AllStoragesViewMut
    (src/world.rs, src/borrow/world_borrow.rs 50-73) by way of borrow_mut or get_mut of a cell whose field
    send is the main thread. Without the feature thread_local the cell is a plain one. *)
Definition exclusively (tl : bool) (t : N) (f : swld → swld * list sev) (w : swld) : swld * list sev :=
  if negb tl || (w_gen w t =? w_main w) then f w else (w, [EErr]).

Definition s_step (tl : bool) (p : prog_types) (ws : list swld) (t : N) (o : scall)
    : list swld * list sev :=
  match o with
  | SNew gen => (ws ++ [new_world gen t], [EMade t TyEnt])
  | SInsert k md m free i X => on_world ws k (λ w, get_or_insert w t md m free i X)
  | SGet k m free X =>
      on_world ws k (λ w, (w, match w_tab w !! IdOf X with
                              | Some c => hand_out (w_gen w) t m free c X | None => [EErr] end))
  | SGetDyn k m free i =>
      on_world ws k (λ w, (w, match w_tab w !! i with
                              | Some c => hand_out (w_gen w) t m free c (c_ty c) | None => [EErr] end))
  (* src/borrow/mod.rs 405-645 *)
  | SUniq k md m free T =>
      on_world ws k (λ w, (w, match w_tab w !! IdOf (TyUniq MPlain T) with
                              | Some c => hand_out (w_gen w) t m free c (TyUniq md T)
                              | None => [EErr] end))
  (* src/world.rs 827-838: only a panic comes through *)
  | SAddCustom k free i X =>
      on_world ws k (λ w, let '(w', ev) := get_or_insert w t MPlain false free i X in
                          (w', ev ++ if existsb (λ e, match e with EPanic => true | _ => false end) ev
                                     then [] else [EOk]))
  | SAddUnique k md T => on_world ws k (λ w, add_unique w t md T)
  | SRemUnique k free T => on_world ws k (λ w, remove_unique w t free T)
  | SExcl k md X => on_world ws k (exclusively tl t (λ w, excl_or_insert w t md (IdOf X) X))
  | SExclGet k i X =>
      on_world ws k (exclusively tl t (λ w, (w, match w_tab w !! i with
                                             | Some c => hand_out_mut (w_gen w) t c X
                                             | None => [EErr] end)))
  | SClone a b free i r =>
      match ws !! a with
      | Some wa => on_world ws b (exclusively tl t (λ wb, clone_one tl p wa wb t free i r))
      | None => (ws, [])
      end
  (* the table is dropped with the world: src/storage/sbox.rs 21-28 *)
  | SDrop k =>
      on_world ws k (λ w, (w_upd w ∅, (λ ic, EDrop t ic.2) <$> map_to_list (w_tab w)))
  end.

Fixpoint s_run (tl : bool) (p : prog_types) (ws : list swld) (h : list (N * scall))
    : list swld * list sev :=
  match h with
  | [] => (ws, [])
  | (t, o) :: h => let '(ws1, e1) := s_step tl p ws t o in
                   let '(ws2, e2) := s_run tl p ws1 h in (ws2, e1 ++ e2)
  end.
