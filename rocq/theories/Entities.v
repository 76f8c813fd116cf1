(** Model of src/entities/mod.rs and src/entities/iterator.rs: the entity allocator. *)
From stdpp Require Import prelude list.
From Coq Require Import NArith.
From Verif Require Import EntityId Base.
Open Scope N_scope.

(** src/entities/mod.rs:38-42.  [e_log] is the sequence of arguments the [on_deletion] callback has
    received, assuming one is installed (the callback itself is arbitrary user code and has no
    access to the allocator). *)
Record entities := Entities {
  e_data : list eid;
  e_list : option (N * N);   (* (new, old) *)
  e_log : list eid;
}.

(** src/entities/mod.rs:46-52 *)
Definition e_new : entities := Entities [] None [].

(** src/entities/mod.rs:55-61 *)
Definition is_alive (s : entities) (e : eid) : bool :=
  match getN (e_data s) (idx e) with
  | Some self_entity => bool_decide (e = self_entity)
  | None => false
  end.

(** [data.get_unchecked_mut(pos).set_index(i)]: the unchecked access is [Ub] out of bounds, the
    assertion of src/entity_id/mod.rs:47 is [Panic]. *)
Definition set_index_at (d : list eid) (pos i : N) : res (list eid) :=
  match getN d pos with
  | None => Ub
  | Some e => if i <? INDEX_MASK then Ok (setN d pos (set_idx e i)) else Panic
  end.

(** src/entities/mod.rs:138-160 *)
Definition generate (s : entities) : res (entities * eid) :=
  match e_list s with
  | Some (new, old) =>
      rlet link := (if new =? old then Ok None
                    else rlet e := get_unchecked (e_data s) old in Ok (Some (new, idx e))) in
      rlet d := set_index_at (e_data s) old old in
      rlet e := get_unchecked d old in
      Ok (Entities d link (e_log s), e)
  | None =>
      let i := lenN (e_data s) in
      if i <? INDEX_MASK   (* assertion of EntityId::new, src/entity_id/mod.rs:76 *)
      then Ok (Entities (e_data s ++ [eid_new i]) None (e_log s), eid_new i)
      else Panic
  end.

(** The handles [start..start+count] of src/entities/mod.rs:163. *)
Definition new_ids (start : N) (count : nat) : list eid :=
  (fun k => eid_new (start + N.of_nat k)) <$> seq 0 count.

(** src/entities/mod.rs:161-166; returns the slice of new handles. *)
Definition bulk_generate (s : entities) (count : nat) : res (entities * list eid) :=
  let l := lenN (e_data s) in
  if l + N.of_nat count <=? INDEX_MASK   (* assertion of EntityId::new for each of them *)
  then Ok (Entities (e_data s ++ new_ids l count) (e_list s) (e_log s), new_ids l count)
  else Panic.

(** src/entities/mod.rs:169-209 *)
Definition delete_unchecked (s : entities) (e : eid) : res (entities * bool) :=
  if is_alive s e then
    rlet old := get_unchecked (e_data s) (idx e) in
    rlet s1 :=
      match bump old with
      | Some bumped =>
          let d := setN (e_data s) (idx e) bumped in
          match e_list s with
          | Some (new, o) =>
              rlet d1 := set_index_at d new (idx e) in
              rlet d2 := set_index_at d1 (idx e) max_idx in
              Ok (Entities d2 (Some (idx e, o)) (e_log s))
          | None =>
              rlet d1 := set_index_at d (idx e) max_idx in
              Ok (Entities d1 (Some (idx e, idx e)) (e_log s))
          end
      | None => Ok s
      end in
    Ok (Entities (e_data s1) (e_list s1) (e_log s1 ++ [e]), true)
  else Ok (s, false).

(** src/entities/iterator.rs:24-30: the handles whose index is their own position, in order. *)
Definition iter_from (start : N) (d : list eid) : list eid :=
  (fix go i l := match l with
                 | [] => []
                 | e :: l' => if i =? idx e then e :: go (i + 1) l' else go (i + 1) l'
                 end) start d.
(** src/entities/mod.rs:298-300 *)
Definition e_iter (s : entities) : list eid := iter_from 0 (e_data s).

(** The loop of src/entities/mod.rs:326-330: follow the links until the predecessor of [target] or
    of [new].  [fuel] bounds the iterations; running out of it is a non-terminating loop, reported
    as [Ub] (SpawnProofs show it does not happen). *)
Fixpoint find_pred (fuel : nat) (d : list eid) (target new current : N) : res N :=
  match fuel with
  | O => Ub
  | S fuel' =>
      rlet e := get_index d current in
      if (idx e =? target) || (idx e =? new) then Ok current
      else find_pred fuel' d target new (idx e)
  end.

(** [self.data[pos].set_index(i)] with checked indexing. *)
Definition set_index_checked (d : list eid) (pos i : N) : res (list eid) :=
  match getN d pos with
  | None => Panic
  | Some e => if i <? INDEX_MASK then Ok (setN d pos (set_idx e i)) else Panic
  end.

(** src/entities/mod.rs:316-339: take the slot [i] out of the free list. *)
Definition unlink (d : list eid) (new old i : N) : res (list eid * option (N * N)) :=
  if i =? old then
    if new =? old then Ok (d, None)
    else rlet e := get_index d i in Ok (d, Some (new, idx e))
  else
    rlet cur := find_pred (S (length d)) d i new old in
    rlet ecur := get_index d cur in
    if idx ecur =? new then
      rlet d1 := set_index_checked d cur max_idx in
      Ok (d1, Some (cur, old))
    else
      rlet enext := get_index d (idx ecur) in
      rlet d1 := set_index_checked d cur (idx enext) in
      Ok (d1, Some (new, old)).

(** The slots [old_len .. target-1] created by src/entities/mod.rs:352-372 when spawning at
    [target]: linked to the next one, the last one to max_index. *)
Definition gap_slots (old_len target : N) : list eid :=
  (fun k => let i := old_len + N.of_nat k in
            if i + 1 =? target then (max_idx, 0) else (i + 1, 0))
  <$> seq 0 (N.to_nat (target - old_len)).

(** src/entities/mod.rs:304-378.  [Panic] includes the u16 overflow of [entity.gen() + 1] (line
    315, debug builds). *)
Definition spawn (s : entities) (e : eid) : res (entities * bool) :=
  match getN (e_data s) (idx e) with
  | Some old_entity =>
      if is_alive s old_entity then
        if gen old_entity <=? gen e
        then Ok (Entities (setN (e_data s) (idx e) e) (e_list s) (e_log s), true)
        else Ok (s, false)
      else
        match e_list s with
        | Some (new, old) =>
            if gen e =? U16_MAX then Panic
            else if gen old_entity <=? gen e + 1 then
              rlet (d, lst) := unlink (e_data s) new old (idx e) in
              Ok (Entities (setN d (idx e) e) lst (e_log s), true)
            else Ok (s, false)
        | None => Ok (s, false)
        end
  | None =>
      let old_len := lenN (e_data s) in
      if idx e =? old_len then
        Ok (Entities (e_data s ++ [e]) (e_list s) (e_log s), true)
      else
        (* at least one slot between the end and the new one *)
        match e_list s with
        | Some (new, old) =>
            rlet d := set_index_checked (e_data s) new old_len in
            Ok (Entities (d ++ gap_slots old_len (idx e) ++ [e]) (Some (idx e - 1, old)) (e_log s),
                true)
        | None =>
            Ok (Entities (e_data s ++ gap_slots old_len (idx e) ++ [e])
                         (Some (idx e - 1, old_len)) (e_log s), true)
        end
  end.

(** src/entities/mod.rs:404-417: the loop over the slots from the last to the first.  [d] is the
    part of the data starting at position [i]; returns the new part, the final [last_alive] and the
    callback arguments in calling order. *)
Fixpoint clear_loop (i : N) (d : list eid) (last0 : N) : list eid * N * list eid :=
  match d with
  | [] => ([], last0, [])
  | e :: d' =>
      let '(r, target, log) := clear_loop (i + 1) d' last0 in
      match bump e with
      | Some b => (set_idx b target :: r, i, log ++ [e])
      | None => (set_idx e target :: r, target, log)
      end
  end.

(** [position(|id| id.gen() < max_gen())], src/entities/mod.rs:419-423 *)
Fixpoint position_usable (d : list eid) : option N :=
  match d with
  | [] => None
  | e :: d' => if gen e <? MAX_GEN then Some 0 else N.succ <$> position_usable d'
  end.

(** src/entities/mod.rs:392-431; [Panic] are the two [unwrap]s. *)
Definition e_clear (s : entities) : res entities :=
  match e_data s with
  | [] => Ok s
  | _ =>
      let last0 := if lenN (e_data s) =? max_idx then 0 else max_idx in
      let '(d, _, log) := clear_loop 0 (e_data s) last0 in
      match position_usable d, position_usable (rev d) with
      | Some b, Some e => Ok (Entities d (Some (lenN d - e - 1, b)) (e_log s ++ log))
      | _, _ => Panic
      end
  end.

(** src/entities/mod.rs:270-295 without the storages: [hint] is [size_hint().0] and [comps] the
    items of the iterator.  Returns the (id, component) pairs handed to AddEntity::add_entity and the
    handles of the returned iterator.  [(&mut iter).zip(ids)] asks [iter] first, so when the
    ids run out one item has already been taken and is dropped. *)
Fixpoint generate_for {C} (s : entities) (comps : list C) : res (entities * list (eid * C)) :=
  match comps with
  | [] => Ok (s, [])
  | c :: cs =>
      rlet (s1, e) := generate s in
      rlet (s2, r) := generate_for s1 cs in
      Ok (s2, (e, c) :: r)
  end.
Definition bulk_add_entity_ids {C} (s : entities) (hint : nat) (comps : list C)
  : res (entities * list (eid * C) * list eid) :=
  let entities_len := length (e_data s) in
  rlet (s1, ids) := bulk_generate s hint in
  let first := zip ids comps in
  rlet (s2, second) := generate_for s1 (drop (S hint) comps) in
  Ok (s2, first ++ second, drop entities_len (e_data s2)).

(** ** Histories *)
(** The public operations on the allocator. *)
Inductive eop :=
| OCreate
| OBulk (count : nat)
| ODelete (e : eid)
| OSpawn (e : eid)
| OClear.

(** What the caller sees of each operation. *)
Inductive eevent :=
| Created (es : list eid)
| Deleted (e : eid) (ok : bool)
| Spawned (e : eid) (ok : bool)
| Cleared.

Definition e_step (s : entities) (o : eop) : res (entities * eevent) :=
  match o with
  | OCreate => rlet (s', e) := generate s in Ok (s', Created [e])
  | OBulk n => rlet (s', es) := bulk_generate s n in Ok (s', Created es)
  | ODelete e => rlet (s', b) := delete_unchecked s e in Ok (s', Deleted e b)
  | OSpawn e => rlet (s', b) := spawn s e in Ok (s', Spawned e b)
  | OClear => rlet s' := e_clear s in Ok (s', Cleared)
  end.

Fixpoint e_run (s : entities) (ops : list eop) : res (entities * list eevent) :=
  match ops with
  | [] => Ok (s, [])
  | o :: ops' =>
      rlet (s1, ev) := e_step s o in
      rlet (s2, evs) := e_run s1 ops' in
      Ok (s2, ev :: evs)
  end.
