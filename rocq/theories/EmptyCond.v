(** The ready-made conditions run_if_storage_empty, run_if_missing_unique, skip_if_storage_empty,
    skip_if_missing_unique and their by_id forms: which storage they look at and what they answer.

    src/scheduler/system_modificator.rs 17-96, src/scheduler/workload_modificator.rs 20-100, 126-182,
    src/all_storages/custom_storage.rs 238-258, the is_empty of the storages, and the calls that fill and
    empty storages. Types, ids and cells are those of StorageTypes.v.

    One world, one call at a time, by any thread. No view is held between calls, except where a condition is
    asked ([held]). Inside of a storage only the owners are kept (C10 to C17 are about storages). *)
From stdpp Require Import prelude list gmap.
From Coq Require Import NArith.
From Verif Require Import StorageTypes.
Local Open Scope N_scope.

(** An entity: index and generation. *)
Definition eid : Type := nat * N.

(** What is in a storage. [KEnt]: the slots of Entities (src/entities/mod.rs 43-50), each with the
    generation its current or next entity has, and whether it is alive. [KUser]: a storage of the user, by
    what its is_empty answers. *)
Inductive content :=
| KEnt (slots : list (N * bool))
| KSet (own : list eid)
| KUniq
| KUser (says : bool).

(** [Storage::is_empty]: src/entities/mod.rs 443-446, src/sparse_set/mod.rs 127-130, 796-798,
    src/sparse_set/thread_local.rs 25-27, 127-129, 228-230, src/unique.rs 31-33,
    src/unique/thread_local.rs 18-20, 54-56, 90-92. *)
Definition is_empty (k : content) : bool :=
  match k with
  | KEnt slots => match slots with [] => true | _ => false end
  | KSet own => match own with [] => true | _ => false end
  | KUniq => false
  | KUser says => says
  end.

(** AllStorages, src/all_storages/mod.rs 61-68. *)
Record cworld := CW { cw_gen : N → N; cw_main : N; cw_tab : gmap sid (scell * content) }.
Definition cw_upd (w : cworld) (tab : gmap sid (scell * content)) : cworld :=
  CW (cw_gen w) (cw_main w) tab.

(** A new world made by thread [t]: src/all_storages/builder.rs 75-114. *)
Definition cw_new (gen : N → N) (t : N) : cworld :=
  CW gen (gen t) {[ IdOf TyEnt := (new_cell gen MPlain t TyEnt, KEnt []) ]}.

(** Exclusive access to AllStorages: its cell is a new_non_send one with the feature thread_local
    (src/all_storages/builder.rs 95-113). *)
Definition excl_ok (tl : bool) (w : cworld) (t : N) : bool := negb tl || (cw_gen w t =? cw_main w).

(** Getting a storage exclusively, made at the first access: custom_storage_or_insert_mut and its variants,
    src/all_storages/custom_storage.rs 564-609, 623-676, 690-735, 749-804. [None]: WrongThread. *)
Definition touch (w : cworld) (t : N) (md : mode) (X : sty) : option cworld :=
  match cw_tab w !! IdOf X with
  | Some (c, _) => match cell_acc (cw_gen w) t true c with Some _ => Some w | None => None end
  | None =>
      if match md with MNonSend | MNonBoth => true | _ => false end && negb (cw_gen w t =? cw_main w)
      then None
      else Some (cw_upd w (<[IdOf X := (new_cell (cw_gen w) md t X, KSet [])]> (cw_tab w)))
  end.

(** What [f] makes of the owners in the storage [i]. *)
Definition on_set (i : sid) (f : list eid → list eid) (w : cworld) : cworld :=
  match cw_tab w !! i with
  | Some (c, KSet own) => cw_upd w (<[i := (c, KSet (f own))]> (cw_tab w))
  | _ => w
  end.
Definition owners (i : sid) (w : cworld) : list eid :=
  match cw_tab w !! i with Some (_, KSet own) => own | _ => [] end.

(** The entities; which dead slot is used again is an input (C06 says which). *)
Definition slots (w : cworld) : list (N * bool) :=
  match cw_tab w !! IdOf TyEnt with Some (_, KEnt l) => l | _ => [] end.
Definition set_slots (w : cworld) (l : list (N * bool)) : cworld :=
  match cw_tab w !! IdOf TyEnt with
  | Some (c, KEnt _) => cw_upd w (<[IdOf TyEnt := (c, KEnt l)]> (cw_tab w))
  | _ => w
  end.
Definition alive (w : cworld) (e : eid) : bool := bool_decide (slots w !! e.1 = Some (e.2, true)).

(** Storage::delete and Storage::clear of every storage: src/sparse_set/mod.rs 782-789 and
    thread_local.rs 11-18; uniques and the user's storages are left out of it (src/storage/mod.rs 44-51). *)
Definition k_strip (e : eid) (k : content) : content :=
  match k with KSet own => KSet (filter (λ x, x ≠ e) own) | _ => k end.
Definition k_clear (k : content) : content :=
  match k with
  | KSet _ => KSet []
  | KEnt l => KEnt ((λ s : N * bool, if s.2 then (s.1 + 1, false) else s) <$> l)
  | _ => k
  end.
Definition on_all (f : content → content) (w : cworld) : cworld :=
  cw_upd w ((λ ck : scell * content, (ck.1, f ck.2)) <$> cw_tab w).

(** The calls. [CTouch]: a view is borrowed. [CAdd], [CRem]: through a ViewMut, plain or wrapped.
    [CStrip], [CDel], [CClear]: of AllStorages. [CUser], [CSays]: add_custom_storage under a number, and what
    the user's storage answers from then on. *)
Inductive ccall :=
| CSpawn (i : nat)
| CTouch (md : mode) (T : N)
| CAdd (md : mode) (T : N) (e : eid)
| CRem (md : mode) (T : N) (e : eid)
| CStrip (e : eid)
| CDel (e : eid)
| CClear
| CAddU (md : mode) (T : N)
| CRemU (T : N)
| CUser (n : N) (says : bool)
| CSays (n : N) (says : bool).

(** Which calls there are: the wrapped views and uniques need the feature thread_local. *)
Definition avail (tl : bool) (md : mode) : bool := tl || bool_decide (md = MPlain).

(** One call and whether it succeeded ([false]: an error or [None] or [false] is returned, or the call does
    not exist, or it panics). *)
Definition c_step (tl : bool) (w : cworld) (t : N) (o : ccall) : cworld * bool :=
  match o with
  (* Entities::generate, src/entities/mod.rs 138-160 *)
  | CSpawn i =>
      match slots w !! i with
      | Some (g, false) => (set_slots w (<[i := (g, true)]> (slots w)), true)
      | _ => (set_slots w (slots w ++ [(0, true)]), true)
      end
  | CTouch md T =>
      if avail tl md then
        match touch w t md (TySet md T) with Some w' => (w', true) | None => (w, false) end
      else (w, false)
  (* Entities::add_component, src/entities/mod.rs 86-97, panics when the entity is not alive *)
  | CAdd md T e =>
      if avail tl md then
        match touch w t md (TySet md T) with
        | Some w' =>
            if alive w' e
            then (on_set (IdOf (TySet md T)) (λ own, if decide (e ∈ own) then own else own ++ [e]) w', true)
            else (w', false)
        | None => (w, false)
        end
      else (w, false)
  (* Remove::remove, src/remove.rs *)
  | CRem md T e =>
      if avail tl md then
        match touch w t md (TySet md T) with
        | Some w' =>
            if decide (e ∈ owners (IdOf (TySet md T)) w')
            then (on_set (IdOf (TySet md T)) (filter (λ x, x ≠ e)) w', true)
            else (w', false)
        | None => (w, false)
        end
      else (w, false)
  (* src/all_storages/mod.rs 295-301 *)
  | CStrip e => if excl_ok tl w t then (on_all (k_strip e) w, true) else (w, false)
  (* src/all_storages/mod.rs 260-273 *)
  | CDel e =>
      if excl_ok tl w t && alive w e
      then (on_all (k_strip e) (set_slots w (<[e.1 := (e.2 + 1, false)]> (slots w))), true)
      else (w, false)
  (* src/all_storages/mod.rs 465-471 *)
  | CClear => if excl_ok tl w t then (on_all k_clear w, true) else (w, false)
  (* src/all_storages/mod.rs 110-178; the answer is () in all cases *)
  | CAddU md T =>
      if avail tl md then
        let i := IdOf (TyUniq MPlain T) in
        let ins := cw_upd w (<[i := (new_cell (cw_gen w) md t (TyUniq md T), KUniq)]> (cw_tab w)) in
        match md with
        | MPlain => (ins, true)
        | _ =>
            if match md with MNonSend | MNonBoth => true | _ => false end && negb (cw_gen w t =? cw_main w)
            then (w, true)
            else match cw_tab w !! i with Some _ => (w, true) | None => (ins, true) end
        end
      else (w, false)
  (* src/all_storages/mod.rs 204-230 *)
  | CRemU T =>
      match cw_tab w !! IdOf (TyUniq MPlain T) with
      | Some (c, _) =>
          match cell_acc (cw_gen w) t true c with
          | Some _ => (cw_upd w (delete (IdOf (TyUniq MPlain T)) (cw_tab w)), true)
          | None => (w, false)
          end
      | None => (w, false)
      end
  (* World::add_custom_storage, src/world.rs 827-838: nothing when there is one; the code returns Ok(())
     all the same *)
  | CUser n says =>
      match cw_tab w !! IdNum n with
      | Some _ => (w, false)
      | None => (cw_upd w (<[IdNum n := (new_cell (cw_gen w) MPlain t (TyUser n), KUser says)]> (cw_tab w)), true)
      end
  | CSays n says =>
      match cw_tab w !! IdNum n with
      | Some (c, KUser _) => (cw_upd w (<[IdNum n := (c, KUser says)]> (cw_tab w)), true)
      | _ => (w, false)
      end
  end.

(** A run: the calls with their threads; what it leaves is each call with its thread and answer. *)
Fixpoint c_run (tl : bool) (w : cworld) (h : list (N * ccall)) : cworld * list (N * ccall * bool) :=
  match h with
  | [] => (w, [])
  | (t, o) :: h => let '(w1, b) := c_step tl w t o in
                   let '(w2, l) := c_run tl w1 h in (w2, (t, o, b) :: l)
  end.

(** * The conditions *)

(** The condition run_if_storage_empty_by_id makes, when it is called on thread [t]:
    system_modificator.rs 40-55, workload_modificator.rs 44-59, 134-146. First AllStoragesViewMut is
    borrowed; [None]: that fails, and so does the run. [held]: somebody else holds a view of the world. *)
Definition ask_empty (tl held : bool) (w : cworld) (t : N) (i : sid) : option bool :=
  if held || negb (excl_ok tl w t) then None
  else match cw_tab w !! i with
       | None => Some true                                          (* MissingStorage *)
       | Some (c, k) =>
           match cell_acc (cw_gen w) t false c with
           | Some _ => Some (is_empty k)
           | None => Some false                                     (* Err(_) *)
           end
       end.

(** What is passed as a condition, with the storage it names: system_modificator.rs 21-34, 62-75,
    workload_modificator.rs 25-40, 66-81, 126-133, 162-169. *)
Inductive builtin :=
| BStorageEmpty (T : N)          (* .._storage_empty::<T>() *)
| BMissingUnique (T : N)         (* .._missing_unique::<T>() *)
| BById (i : sid).               (* .._storage_empty_by_id(id) *)
Definition b_id (b : builtin) : sid :=
  match b with
  | BStorageEmpty T => IdOf (TySet MPlain T)
  | BMissingUnique T => IdOf (TyUniq MPlain T)
  | BById i => i
  end.

(** Whether the system or workload is run: run_if.. takes the answer, skip_if.. its negation
    (system_modificator.rs 81-96, 136-142, 217-223, 286-292; workload_modificator.rs 85-100, 147-161,
    170-182). *)
Definition ask (tl held skip : bool) (w : cworld) (t : N) (b : builtin) : option bool :=
  (if skip then negb else id) <$> ask_empty tl held w t (b_id b).

(** Where a condition is asked when thread [t] calls run_workload. That of the outermost workload: right
    there (src/world.rs 757-764). That of a system: by run_batch, which is run by a thread of the local
    pool if there is one ([ThreadPool::scope], src/world/run_batches.rs 120-125). *)
Definition ask_thread (pool : option N) (outermost : bool) (t : N) : N :=
  if outermost then t else match pool with Some p => p | None => t end.
