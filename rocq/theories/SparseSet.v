(** Model of src/sparse_set/sparse_array.rs and src/sparse_set/mod.rs. *)
From stdpp Require Import prelude list.
From Coq Require Import NArith.
From Verif Require Import EntityId Base.
Open Scope N_scope.

(** * SparseArray *)

(** src/sparse_set/mod.rs:41  BUCKET_SIZE = 256 / size_of::<EntityId>() *)
Definition BUCKET_SIZE : N := 32.
(** src/sparse_set/sparse_array.rs:11  Vec<Option<Box<[EntityId; N]>>>; a bucket is a list, its
    length (BUCKET_SIZE) is part of the invariant in SparseSetProofs.v *)
Notation sparse_array := (list (option (list eid))).
(** src/entity_id/mod.rs:104-106 *)
Definition bucket (e : eid) : N := idx e / BUCKET_SIZE.
(** src/entity_id/mod.rs:108-110 *)
Definition bucket_index (e : eid) : N := idx e mod BUCKET_SIZE.

(** A new bucket, src/sparse_set/sparse_array.rs:68 *)
Definition dead_bucket : list eid := replicate (N.to_nat BUCKET_SIZE) eid_dead.

(** Vec::resize(n, None) when n is larger than the length, sparse_array.rs:60-62, 73-75 *)
Definition sa_resize (sp : sparse_array) (n : N) : sparse_array :=
  sp ++ replicate (N.to_nat (n - lenN sp)) None.
(** Fill bucket b if missing, sparse_array.rs:65-69, 77-81 *)
Definition sa_fill (sp : sparse_array) (b : N) : res sparse_array :=
  match getN sp b with
  | Some (Some _) => Ok sp
  | Some None => Ok (setN sp b (Some dead_bucket))
  | None => Ub
  end.
(** src/sparse_set/sparse_array.rs:55-71  allocate_at *)
Definition sa_allocate_at (sp : sparse_array) (e : eid) : res sparse_array :=
  if eid_is_dead e then Panic
  else sa_fill (sa_resize sp (bucket e + 1)) (bucket e).
(** The loop of bulk_allocate, sparse_array.rs:76-82 *)
Fixpoint sa_fill_range (sp : sparse_array) (b : N) (n : nat) : res sparse_array :=
  match n with
  | O => Ok sp
  | S n => rlet sp := sa_fill sp b in sa_fill_range sp (b + 1) n
  end.
(** src/sparse_set/sparse_array.rs:72-83  bulk_allocate *)
Definition sa_bulk_allocate (sp : sparse_array) (s e : eid) : res sparse_array :=
  sa_fill_range (sa_resize sp (bucket e + 1)) (bucket s) (N.to_nat (bucket e + 1 - bucket s)).
(** src/sparse_set/sparse_array.rs:85-90  get *)
Definition sa_get (sp : sparse_array) (e : eid) : option eid :=
  match getN sp (bucket e) with
  | Some (Some b) => getN b (bucket_index e)
  | _ => None
  end.
(** src/sparse_set/sparse_array.rs:92-97  get_unchecked *)
Definition sa_get_unchecked (sp : sparse_array) (e : eid) : res eid :=
  match sa_get sp e with Some x => Ok x | None => Ub end.
(** A write through src/sparse_set/sparse_array.rs:99-104  get_mut_unchecked *)
Definition sa_write (sp : sparse_array) (e : eid) (v : eid) : res sparse_array :=
  match getN sp (bucket e) with
  | Some (Some b) =>
      match getN b (bucket_index e) with
      | Some _ => Ok (setN sp (bucket e) (Some (setN b (bucket_index e) v)))
      | None => Ub
      end
  | _ => Ub
  end.
(** src/sparse_set/sparse_array.rs:107-113  contains *)
Definition sa_contains (sp : sparse_array) (e : eid) : bool :=
  match sa_get sp e with Some x => gen x =? gen e | None => false end.

(** * Timestamps, src/advanced/tracking.rs *)
(** src/advanced/tracking.rs:207-209  is_within *)
Definition is_within (t last current : N) : bool := (last <? t) && (t <=? current).
(** src/advanced/tracking.rs:213-215  is_older_than *)
Definition is_older_than (t other : N) : bool := t <? other.
(** src/advanced/tracking.rs:196-198  origin *)
Definition origin : N := 0.

(** * SparseSet *)

(** Vec::swap_remove: panics when out of bounds, otherwise the last element takes the place of the
    removed one. *)
Definition swap_remove {A} (l : list A) (i : N) : res (A * list A) :=
  match getN l i, last l with
  | Some x, Some y => Ok (x, take (length l - 1) (setN l i y))
  | _, _ => Panic
  end.
(** [slice::swap]: panics when out of bounds. *)
Definition swapN {A} (l : list A) (i j : N) : res (list A) :=
  match getN l i, getN l j with
  | Some x, Some y => Ok (setN (setN l i y) j x)
  | _, _ => Panic
  end.
(** Write at an index without bounds check. *)
Definition set_unchecked {A} (l : list A) (i : N) (x : A) : res (list A) :=
  if i <? lenN l then Ok (setN l i x) else Ub.
(** [l[i] = x] with bounds check. *)
Definition set_index_panic {A} (l : list A) (i : N) (x : A) : res (list A) :=
  if i <? lenN l then Ok (setN l i x) else Panic.

(** src/sparse_set/mod.rs:52-71  SparseSet.  The callbacks are represented by the log of their
    calls, oldest first ([on_ins], [on_rem]); the clone function is modelled in World.v. *)
Record sset (T : Type) := SSet {
  ss_sparse : sparse_array;
  ss_dense : list eid;
  ss_data : list T;
  ss_last_ins : N;
  ss_last_mod : N;
  ss_ins : list N;
  ss_mod : list N;
  ss_del : list (eid * N * T);
  ss_rem : list (eid * N);
  ss_ti : bool;
  ss_tm : bool;
  ss_td : bool;
  ss_tr : bool;
  ss_on_ins : list (eid * T);
  ss_on_rem : list (eid * T);
}.
Arguments SSet {T}.
Arguments ss_sparse {T}. Arguments ss_dense {T}. Arguments ss_data {T}.
Arguments ss_last_ins {T}. Arguments ss_last_mod {T}. Arguments ss_ins {T}.
Arguments ss_mod {T}. Arguments ss_del {T}. Arguments ss_rem {T}.
Arguments ss_ti {T}. Arguments ss_tm {T}. Arguments ss_td {T}. Arguments ss_tr {T}.
Arguments ss_on_ins {T}. Arguments ss_on_rem {T}.

(** The four fields that follow the components (not a Rust function: record update notation). *)
Definition with_rows {T} (s : sset T) sp dn dt im mm : sset T :=
  SSet sp dn dt (ss_last_ins s) (ss_last_mod s) im mm (ss_del s) (ss_rem s)
       (ss_ti s) (ss_tm s) (ss_td s) (ss_tr s) (ss_on_ins s) (ss_on_rem s).
Definition with_logs {T} (s : sset T) dl rl : sset T :=
  SSet (ss_sparse s) (ss_dense s) (ss_data s) (ss_last_ins s) (ss_last_mod s) (ss_ins s)
       (ss_mod s) dl rl (ss_ti s) (ss_tm s) (ss_td s) (ss_tr s) (ss_on_ins s) (ss_on_rem s).
Definition with_calls {T} (s : sset T) oi onr : sset T :=
  SSet (ss_sparse s) (ss_dense s) (ss_data s) (ss_last_ins s) (ss_last_mod s) (ss_ins s)
       (ss_mod s) (ss_del s) (ss_rem s) (ss_ti s) (ss_tm s) (ss_td s) (ss_tr s) oi onr.
Definition with_last {T} (s : sset T) li lm : sset T :=
  SSet (ss_sparse s) (ss_dense s) (ss_data s) li lm (ss_ins s)
       (ss_mod s) (ss_del s) (ss_rem s) (ss_ti s) (ss_tm s) (ss_td s) (ss_tr s)
       (ss_on_ins s) (ss_on_rem s).
Definition with_flags {T} (s : sset T) ti tm td tr im mm : sset T :=
  SSet (ss_sparse s) (ss_dense s) (ss_data s) (ss_last_ins s) (ss_last_mod s) im mm
       (ss_del s) (ss_rem s) ti tm td tr (ss_on_ins s) (ss_on_rem s).

(** src/sparse_set/mod.rs:206-215 (InsertionResult) *)
Inductive insertion_result (T : Type) :=
| Inserted
| ComponentOverride (old : T)
| OtherComponentOverride
| NotInserted.
Arguments Inserted {T}. Arguments ComponentOverride {T}.
Arguments OtherComponentOverride {T}. Arguments NotInserted {T}.
(** src/sparse_set/mod.rs:211-218  was_inserted *)
Definition was_inserted {T} (r : insertion_result T) : bool :=
  match r with NotInserted => false | _ => true end.

Section sset.
Context {T : Type}.
Implicit Type s : sset T.

(** src/sparse_set/mod.rs:83-102  new; the four flags come from T::Tracking *)
Definition ss_new (ti tm td tr : bool) : sset T :=
  SSet [] [] [] 0 0 [] [] [] [] ti tm td tr [] [].

(** src/sparse_set/mod.rs:118-120 *)
Definition ss_contains s (e : eid) : bool :=
  match sa_get (ss_sparse s) e with Some x => gen x =? gen e | None => false end.
(** src/sparse_set/mod.rs:123-125 *)
Definition ss_len s : N := lenN (ss_dense s).
(** src/sparse_set/mod.rs:137-145  index_of *)
Definition index_of s (e : eid) : option N :=
  match sa_get (ss_sparse s) e with
  | Some x => if gen e =? gen x then Some (idx x) else None
  | None => None
  end.
(** src/sparse_set/mod.rs:159-161  id_at *)
Definition id_at s (i : N) : option eid := getN (ss_dense s) i.
(** src/sparse_set/mod.rs:190-193  private_get *)
Definition ss_get s (e : eid) : res (option T) :=
  match index_of s e with
  | Some p => rlet v := get_unchecked (ss_data s) p in Ok (Some v)
  | None => Ok None
  end.

(** src/sparse_set/mod.rs:234-319  insert *)
Definition ss_insert s (e : eid) (v : T) (current : N) : res (sset T * insertion_result T) :=
  rlet sp := sa_allocate_at (ss_sparse s) e in
  rlet slot := sa_get_unchecked sp e in
  let called := with_calls s (ss_on_ins s ++ [(e, v)]) (ss_on_rem s) in
  if eid_is_dead slot then
    if lenN (ss_dense s) <? INDEX_MASK then
      rlet sp := sa_write sp e (lenN (ss_dense s), gen e) in
      let im := if ss_ti s then ss_ins s ++ [current] else ss_ins s in
      let mm := if ss_tm s then ss_mod s ++ [origin] else ss_mod s in
      Ok (with_rows called sp (ss_dense s ++ [e]) (ss_data s ++ [v]) im mm, Inserted)
    else Panic
  else if gen e =? gen slot then
    rlet old := get_unchecked (ss_data s) (idx slot) in
    let dt := setN (ss_data s) (idx slot) v in
    rlet sp := sa_write sp e (copy_gn slot e) in
    rlet de := get_unchecked (ss_dense s) (idx slot) in
    rlet mm := (if ss_tm s then set_unchecked (ss_mod s) (idx slot) current else Ok (ss_mod s)) in
    Ok (with_rows called sp (setN (ss_dense s) (idx slot) (copy_idx_gen de e)) dt (ss_ins s) mm,
        ComponentOverride old)
  else if gen slot <? gen e then
    rlet old := get_unchecked (ss_data s) (idx slot) in
    let dt := setN (ss_data s) (idx slot) v in
    rlet sp := sa_write sp e (copy_gn slot e) in
    rlet de := get_unchecked (ss_dense s) (idx slot) in
    rlet im := (if ss_ti s then set_unchecked (ss_ins s) (idx slot) current else Ok (ss_ins s)) in
    Ok (with_rows called sp (setN (ss_dense s) (idx slot) (copy_idx_gen de e)) dt im (ss_mod s),
        OtherComponentOverride)
  else
    Ok (with_rows s sp (ss_dense s) (ss_data s) (ss_ins s) (ss_mod s), NotInserted).

(** src/sparse_set/mod.rs:350-389  actual_remove *)
Definition actual_remove s (e : eid) : res (sset T * option T) :=
  match sa_get (ss_sparse s) e with
  | None => Ok (s, None)
  | Some slot =>
      if gen slot <=? gen e then
        rlet sp := sa_write (ss_sparse s) e eid_dead in
        rlet (_, dn) := swap_remove (ss_dense s) (idx slot) in
        rlet im := (if ss_ti s then rmap snd (swap_remove (ss_ins s) (idx slot))
                    else Ok (ss_ins s)) in
        rlet mm := (if ss_tm s then rmap snd (swap_remove (ss_mod s) (idx slot))
                    else Ok (ss_mod s)) in
        rlet (c, dt) := swap_remove (ss_data s) (idx slot) in
        rlet sp := (if idx slot <? lenN dn then
                      rlet last := get_unchecked dn (idx slot) in
                      rlet ls := sa_get_unchecked sp last in
                      sa_write sp last (copy_idx ls slot)
                    else Ok sp) in
        let s' := with_rows s sp dn dt im mm in
        if gen e =? gen slot then
          Ok (with_calls s' (ss_on_ins s) (ss_on_rem s ++ [(e, c)]), Some c)
        else Ok (s', None)
      else Ok (s, None)
  end.
(** src/sparse_set/mod.rs:325-335  dyn_delete *)
Definition dyn_delete s (e : eid) (current : N) : res (sset T * bool) :=
  rlet (s', c) := actual_remove s e in
  match c with
  | Some c =>
      Ok (if ss_td s' then with_logs s' (ss_del s' ++ [(e, current, c)]) (ss_rem s') else s', true)
  | None => Ok (s', false)
  end.
(** src/sparse_set/mod.rs:339-347  dyn_remove *)
Definition dyn_remove s (e : eid) (current : N) : res (sset T * option T) :=
  rlet (s', c) := actual_remove s e in
  match c with
  | Some _ =>
      Ok (if ss_tr s' then with_logs s' (ss_del s') (ss_rem s' ++ [(e, current)]) else s', c)
  | None => Ok (s', c)
  end.

(** Writing through the [Mut] given by src/get.rs:80-103 (and IndexMut,
    src/views/view_mut.rs:641-670): the flag is set by src/mut.rs:34-42.  [f] is what the user does
    with the reference; the answer tells if the entity had a component. *)
Definition ss_write s (e : eid) (f : T -> T) (current : N) : res (sset T * bool) :=
  match index_of s e with
  | None => Ok (s, false)
  | Some p =>
      rlet v := get_unchecked (ss_data s) p in
      rlet mm := (if ss_tm s then set_unchecked (ss_mod s) p current else Ok (ss_mod s)) in
      Ok (with_rows s (ss_sparse s) (ss_dense s) (setN (ss_data s) p (f v)) (ss_ins s) mm, true)
  end.
(** src/views/view_mut.rs:285-305  get_or_insert_with (without the final reference, which is
    [ss_write] or [ss_get]) *)
Definition get_or_insert s (e : eid) (v : T) (current : N) : res (sset T * option T) :=
  rlet (s', ok) := (if ss_contains s e then Ok (s, true)
                    else rlet (s', r) := ss_insert s e v current in Ok (s', was_inserted r)) in
  if ok : bool then
    rlet c := ss_get s' e in
    match c with Some c => Ok (s', Some c) | None => Ub end
  else Ok (s', None).

(** src/sparse_set/mod.rs:394-405 *)
Definition private_clear_all_inserted s (current : N) : sset T :=
  with_last s current (ss_last_mod s).
Definition private_clear_all_modified s (current : N) : sset T :=
  with_last s (ss_last_ins s) current.
Definition private_clear_all_inserted_and_modified s (current : N) : sset T :=
  with_last s current current.
(** src/sparse_set/mod.rs:407-409 *)
Definition clear_all_deleted s : sset T := with_logs s [] (ss_rem s).
(** src/sparse_set/mod.rs:411-414 *)
Definition clear_all_deleted_older s (t : N) : sset T :=
  with_logs s (filter (λ x, is_older_than t x.1.2 = true) (ss_del s)) (ss_rem s).
(** src/sparse_set/mod.rs:416-418 *)
Definition clear_all_removed s : sset T := with_logs s (ss_del s) [].
(** src/sparse_set/mod.rs:420-423 *)
Definition clear_all_removed_older s (t : N) : sset T :=
  with_logs s (ss_del s) (filter (λ x, is_older_than t x.2 = true) (ss_rem s)).
(** src/sparse_set/mod.rs:425-427  the inherent method *)
Definition clear_all_removed_and_deleted s : sset T := with_logs s (ss_del s) [].
(** src/sparse_set/mod.rs:805-808  the method of the Storage trait *)
Definition storage_clear_all_removed_and_deleted s : sset T := with_logs s [] [].
(** src/sparse_set/mod.rs:429-437 and 809-815 *)
Definition clear_all_removed_and_deleted_older s (t : N) : sset T :=
  with_logs s (filter (λ x, is_older_than t x.1.2 = true) (ss_del s))
              (filter (λ x, is_older_than t x.2 = true) (ss_rem s)).

(** src/sparse_set/mod.rs:443-454 *)
Definition track_insertion s : sset T :=
  if ss_ti s then s
  else with_flags s true (ss_tm s) (ss_td s) (ss_tr s)
         (ss_ins s ++ replicate (length (ss_dense s)) 0) (ss_mod s).
(** src/sparse_set/mod.rs:457-468 *)
Definition track_modification s : sset T :=
  if ss_tm s then s
  else with_flags s (ss_ti s) true (ss_td s) (ss_tr s)
         (ss_ins s) (ss_mod s ++ replicate (length (ss_dense s)) 0).
(** src/sparse_set/mod.rs:470-473 *)
Definition track_deletion s : sset T :=
  with_flags s (ss_ti s) (ss_tm s) true (ss_tr s) (ss_ins s) (ss_mod s).
(** src/sparse_set/mod.rs:475-478 *)
Definition track_removal s : sset T :=
  with_flags s (ss_ti s) (ss_tm s) (ss_td s) true (ss_ins s) (ss_mod s).
(** src/sparse_set/mod.rs:480-485 *)
Definition track_all s : sset T :=
  track_removal (track_deletion (track_modification (track_insertion s))).
(** src/sparse_set/mod.rs:509-522 (check_tracking), the arguments are those of Track *)
Definition check_tracking s (ti tm td tr : bool) : bool :=
  negb ((ti && negb (ss_ti s)) || (tm && negb (ss_tm s)) || (td && negb (ss_td s))
        || (tr && negb (ss_tr s))).
(** src/sparse_set/mod.rs:524-537 *)
Definition enable_tracking s (ti tm td tr : bool) : sset T :=
  let s := if ti then track_insertion s else s in
  let s := if tm then track_modification s else s in
  let s := if td then track_deletion s else s in
  if tr then track_removal s else s.

(** src/track/insertion.rs:18-29 (and the other types tracking insertion): is_inserted *)
Definition is_inserted s (e : eid) (last current : N) : res bool :=
  match index_of s e with
  | Some p => rlet t := get_index (ss_ins s) p in Ok (is_within t last current)
  | None => Ok false
  end.
(** src/track/modification.rs:18-29: is_modified *)
Definition is_modified s (e : eid) (last current : N) : res bool :=
  match index_of s e with
  | Some p => rlet t := get_index (ss_mod s) p in Ok (is_within t last current)
  | None => Ok false
  end.
(** src/track/removal.rs:19-29: is_removed *)
Definition is_removed s (e : eid) (last current : N) : bool :=
  existsb (λ x, (if decide (x.1 = e) then true else false) && is_within x.2 last current)
    (ss_rem s).
(** src/track/deletion.rs:19-29: is_deleted *)
Definition is_deleted s (e : eid) (last current : N) : bool :=
  existsb (λ x, (if decide (x.1.1 = e) then true else false) && is_within x.1.2 last current)
    (ss_del s).
(** src/views/view_mut.rs:550-562: removed() *)
Definition v_removed s (last current : N) : list eid :=
  omap (λ x, if is_within x.2 last current then Some x.1 else None) (ss_rem s).
(** src/views/view_mut.rs:524-535: deleted() *)
Definition v_deleted s (last current : N) : list (eid * T) :=
  omap (λ x, if is_within x.1.2 last current then Some (x.1.1, x.2) else None) (ss_del s).

(** The inner loop of sort_unstable_by, src/sparse_set/mod.rs:560-564.  The code has no bound on
    the number of turns: running out of fuel (a loop that never ends) is reported as [Panic]. *)
Fixpoint sort_follow (fuel : nat) (tr : list N) (i pos : N) : res N :=
  if pos <? i then
    match fuel with
    | O => Panic
    | S fuel => rlet p := get_unchecked tr pos in sort_follow fuel tr i p
    end
  else Ok pos.
(** The swaps of one turn, src/sparse_set/mod.rs:566-573 *)
Definition sort_swap s (i pos : N) : res (sset T) :=
  rlet dn := swapN (ss_dense s) i pos in
  rlet dt := swapN (ss_data s) i pos in
  rlet im := (if ss_ti s then swapN (ss_ins s) i pos else Ok (ss_ins s)) in
  rlet mm := (if ss_tm s then swapN (ss_mod s) i pos else Ok (ss_mod s)) in
  Ok (with_rows s (ss_sparse s) dn dt im mm).
(** The outer loop, src/sparse_set/mod.rs:558-574 *)
Fixpoint sort_loop (n : nat) (tr : list N) (i : N) s : res (sset T) :=
  match n with
  | O => Ok s
  | S n =>
      rlet p0 := get_unchecked tr i in
      rlet pos := sort_follow (length tr) tr i p0 in
      rlet s := sort_swap s i pos in
      sort_loop n tr (i + 1) s
  end.
(** The last loop, src/sparse_set/mod.rs:576-580 *)
Fixpoint sort_reindex (i : N) (l : list eid) (sp : sparse_array) : res sparse_array :=
  match l with
  | [] => Ok sp
  | e :: l =>
      rlet x := sa_get_unchecked sp e in
      if i <? INDEX_MASK then
        rlet sp := sa_write sp e (set_idx x i) in
        sort_reindex (i + 1) l sp
      else Panic
  end.
(** src/sparse_set/mod.rs:548-581  sort_unstable_by.  [tr] is the vector [transform] after its
    sort (lines 549-556): an argument here, the theorems are for every sorted permutation of
    [0..len]. *)
Definition ss_sort s (tr : list N) : res (sset T) :=
  rlet s := sort_loop (length tr) tr 0 s in
  rlet sp := sort_reindex 0 (ss_dense s) (ss_sparse s) in
  Ok (with_rows s sp (ss_dense s) (ss_data s) (ss_ins s) (ss_mod s)).

(** src/sparse_set/mod.rs:591-623  private_apply.  [f a b] returns the value left in [a] and the
    result of the callback. *)
Definition ss_apply {R} s (a b : eid) (f : T -> T -> T * R) (current : N) : res (sset T * R) :=
  match index_of s a, index_of s b with
  | Some pa, Some pb =>
      if pa =? pb then Panic
      else
        rlet mm := (if ss_tm s then set_index_panic (ss_mod s) pa current else Ok (ss_mod s)) in
        rlet va := get_unchecked (ss_data s) pa in
        rlet vb := get_unchecked (ss_data s) pb in
        let (va', r) := f va vb in
        Ok (with_rows s (ss_sparse s) (ss_dense s) (setN (ss_data s) pa va') (ss_ins s) mm, r)
  | _, _ => Panic
  end.
(** src/sparse_set/mod.rs:633-666  private_apply_mut *)
Definition ss_apply_mut {R} s (a b : eid) (f : T -> T -> T * T * R) (current : N)
    : res (sset T * R) :=
  match index_of s a, index_of s b with
  | Some pa, Some pb =>
      if pa =? pb then Panic
      else
        rlet mm := (if ss_tm s then
                      rlet mm := set_index_panic (ss_mod s) pa current in
                      set_index_panic mm pb current
                    else Ok (ss_mod s)) in
        rlet va := get_unchecked (ss_data s) pa in
        rlet vb := get_unchecked (ss_data s) pb in
        let '(va', vb', r) := f va vb in
        Ok (with_rows s (ss_sparse s) (ss_dense s)
              (setN (setN (ss_data s) pa va') pb vb') (ss_ins s) mm, r)
  | _, _ => Panic
  end.

(** The loop over dense writing dead slots, src/sparse_set/mod.rs:670-674 and 699-704 *)
Fixpoint kill_slots (l : list eid) (sp : sparse_array) : res sparse_array :=
  match l with
  | [] => Ok sp
  | e :: l => rlet sp := sa_write sp e eid_dead in kill_slots l sp
  end.
(** src/sparse_set/mod.rs:669-690  private_clear *)
Definition ss_clear s (current : N) : res (sset T) :=
  rlet sp := kill_slots (ss_dense s) (ss_sparse s) in
  let dl := if ss_td s then
              ss_del s ++ zip_with (λ e c, (e, current, c)) (ss_dense s) (ss_data s)
            else ss_del s in
  Ok (with_logs (with_rows s sp [] [] [] []) dl (ss_rem s)).
(** src/sparse_set/drain.rs:8-12 *)
Record drain := Drain { dr_dense : list eid; dr_data : list T }.
(** src/sparse_set/drain.rs:37-50  WithId<SparseSetDrain>::next: [dr_dense] is the memory behind
    dense_ptr, it keeps the old elements *)
Definition drain_next (d : drain) : res (option ((eid * T) * drain)) :=
  match dr_data d with
  | [] => Ok None
  | c :: rest =>
      rlet e := (if lenN (dr_dense d) <? 1 + lenN rest then Panic
                 else get_unchecked (dr_dense d) (lenN (dr_dense d) - 1 - lenN rest)) in
      Ok (Some ((e, c), Drain (dr_dense d) rest))
  end.
(** src/sparse_set/mod.rs:693-721  private_drain.  The Vec::drain guard empties [data] when the
    iterator is dropped, leaked or exhausted. *)
Definition ss_drain s (current : N) : res (sset T * drain) :=
  let rl := if ss_tr s then ss_rem s ++ map (λ e, (e, current)) (ss_dense s) else ss_rem s in
  rlet sp := kill_slots (ss_dense s) (ss_sparse s) in
  Ok (with_logs (with_rows s sp [] [] [] []) (ss_del s) rl,
      Drain (ss_dense s) (ss_data s)).

(** src/sparse_set/mod.rs:723-740  private_retain.  The closure is a FnMut: it carries a state
    [St].  The loop counter is [i] and [removed] the number of deleted components. *)
Fixpoint retain_loop {St} (n : nat) (i removed : N) (f : St -> eid -> T -> St * bool)
    (st : St) (current : N) s : res (sset T * St) :=
  match n with
  | O => Ok (s, st)
  | S n =>
      if i <? removed then Panic
      else
        rlet e := get_unchecked (ss_dense s) (i - removed) in
        rlet c := get_unchecked (ss_data s) (i - removed) in
        let (st', keep) := f st e c in
        if keep : bool then retain_loop n (i + 1) removed f st' current s
        else
          rlet (s', _) := dyn_delete s e current in
          retain_loop n (i + 1) (removed + 1) f st' current s'
  end.
Definition ss_retain {St} s (f : St -> eid -> T -> St * bool) (st : St) (current : N)
    : res (sset T * St) :=
  retain_loop (length (ss_dense s)) 0 0 f st current s.

(** src/sparse_set/mod.rs:742-763  private_retain_mut.  The closure answers [Some v] when it used
    the reference mutably (which sets the flag, src/mut.rs:34-42) and left [v] behind. *)
Fixpoint retain_mut_loop {St} (n : nat) (i removed : N)
    (f : St -> eid -> T -> St * bool * option T)
    (st : St) (current : N) s : res (sset T * St) :=
  match n with
  | O => Ok (s, st)
  | S n =>
      if i <? removed then Panic
      else
        rlet e := get_unchecked (ss_dense s) (i - removed) in
        rlet c := get_unchecked (ss_data s) (i - removed) in
        let '(st', keep, w) := f st e c in
        let s := match w with
                 | Some v =>
                     with_rows s (ss_sparse s) (ss_dense s) (setN (ss_data s) (i - removed) v)
                       (ss_ins s) (setN (ss_mod s) (i - removed) current)
                 | None => s
                 end in
        if keep : bool then retain_mut_loop n (i + 1) removed f st' current s
        else
          rlet (s', _) := dyn_delete s e current in
          retain_mut_loop n (i + 1) (removed + 1) f st' current s'
  end.
Definition ss_retain_mut {St} s (f : St -> eid -> T -> St * bool * option T) (st : St)
    (current : N) : res (sset T * St) :=
  retain_mut_loop (length (ss_dense s)) 0 0 f st current s.

(** src/sparse_set/mod.rs:835-856  try_clone, for a storage with a clone function; the flags are
    those of T::Tracking, not those of the cloned storage.  Components are cloned with [cl]. *)
Definition ss_try_clone s (cl : T -> T) (ti tm td tr : bool) (other_current : N) : sset T :=
  SSet (ss_sparse s) (ss_dense s) (map cl (ss_data s)) 0 0
       (if ti then replicate (length (ss_dense s)) other_current else [])
       (if tm then replicate (length (ss_dense s)) origin else [])
       [] [] ti tm td tr [] [].
End sset.
Arguments drain : clear implicits.
