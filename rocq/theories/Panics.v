(** User code that panics, and a caller that catches the panic (std::panic::catch_unwind) and goes on
    with the same storage or world: the callbacks of src/sparse_set/mod.rs:66-69, the closures given to
    retain, retain_mut, apply, apply_mut and sort_unstable_by, the Drop of components.

    The functions here are those of SparseSet.v and World.v with one more answer: [None] when the
    stack was unwound, with the state that is left behind.  Unwinding only drops the guards of the
    borrows; no code of the crate repairs a storage while unwinding. *)
From stdpp Require Import prelude list gmap.
From Coq Require Import NArith.
From Verif Require Import EntityId Base Entities SparseSet SparseSetSpec SparseSetHistory Track World.
Open Scope N_scope.

(** What the closure of a retain does with one component. *)
Inductive panswer := AKeep | ADrop | ABoom.

Section sset.
Context {T : Type}.
Implicit Types (s : sset T).

(** src/sparse_set/mod.rs:234-319  insert.  [cb] tells on which arguments the insertion callback
    panics.  It is called on lines 249, 268 and 292, in each branch before anything is written; the
    allocation of the sparse array (line 240) was done. *)
Definition p_insert s (e : eid) (v : T) (t : N) (cb : eid -> T -> bool)
    : res (sset T * option (insertion_result T)) :=
  rlet sp := sa_allocate_at (ss_sparse s) e in
  rlet slot := sa_get_unchecked sp e in
  if (eid_is_dead slot || (gen slot <=? gen e)) && cb e v then
    Ok (with_calls (with_rows s sp (ss_dense s) (ss_data s) (ss_ins s) (ss_mod s))
          (ss_on_ins s ++ [(e, v)]) (ss_on_rem s), None)
  else rlet (s, r) := ss_insert s e v t in Ok (s, Some r).

(** The same function when the Drop of the component of an older generation panics
    (src/sparse_set/mod.rs:295-297): the new component was written, nothing after that was done. *)
Definition p_insert_drop s (e : eid) (v : T) (t : N) : res (sset T * option (insertion_result T)) :=
  rlet sp := sa_allocate_at (ss_sparse s) e in
  rlet slot := sa_get_unchecked sp e in
  if negb (eid_is_dead slot) && (gen slot <? gen e) then
    rlet _ := get_unchecked (ss_data s) (idx slot) in
    Ok (with_calls (with_rows s sp (ss_dense s) (setN (ss_data s) (idx slot) v) (ss_ins s) (ss_mod s))
          (ss_on_ins s ++ [(e, v)]) (ss_on_rem s), None)
  else rlet (s, r) := ss_insert s e v t in Ok (s, Some r).

(** src/sparse_set/mod.rs:350-389  actual_remove: the removal callback (line 379) is the last thing
    it does *)
Definition p_actual_remove s (e : eid) (cb : eid -> T -> bool) : res (sset T * option (option T)) :=
  rlet (s, c) := actual_remove s e in
  match c with
  | Some c => Ok (s, if cb e c then None else Some (Some c))
  | None => Ok (s, Some None)
  end.
(** src/sparse_set/mod.rs:325-335  dyn_delete *)
Definition p_dyn_delete s (e : eid) (t : N) (cb : eid -> T -> bool) : res (sset T * option bool) :=
  rlet (s, c) := p_actual_remove s e cb in
  match c with
  | Some (Some c) =>
      Ok (if ss_td s then with_logs s (ss_del s ++ [(e, t, c)]) (ss_rem s) else s, Some true)
  | Some None => Ok (s, Some false)
  | None => Ok (s, None)
  end.
(** src/sparse_set/mod.rs:339-347  dyn_remove *)
Definition p_dyn_remove s (e : eid) (t : N) (cb : eid -> T -> bool) : res (sset T * option (option T)) :=
  rlet (s, c) := p_actual_remove s e cb in
  match c with
  | Some (Some c) =>
      Ok (if ss_tr s then with_logs s (ss_del s) (ss_rem s ++ [(e, t)]) else s, Some (Some c))
  | Some None => Ok (s, Some None)
  | None => Ok (s, None)
  end.

(** One call of the closure of a retain: entity, component it was shown, what it answered, what it
    left in the component when it wrote to it. *)
Definition pcall : Type := eid * T * panswer * option T.

(** src/sparse_set/mod.rs:742-763  private_retain_mut, and 723-740 private_retain with a closure that
    never writes (SparseSetProofs2.retain_as_mut: without panics the two loops are the same).  The
    closure is a FnMut: it knows the calls before this one, [seen]. *)
Fixpoint p_retain_loop (n : nat) (i removed : N)
    (f : list (eid * T) -> eid -> T -> panswer * option T) (cb : eid -> T -> bool)
    (seen : list (eid * T)) (t : N) s : res (sset T * list pcall * bool) :=
  match n with
  | O => Ok (s, [], false)
  | S n =>
      if i <? removed then Panic
      else
        rlet e := get_unchecked (ss_dense s) (i - removed) in
        rlet c := get_unchecked (ss_data s) (i - removed) in
        let (ans, w) := f seen e c in
        let s := match w with
                 | Some v =>
                     with_rows s (ss_sparse s) (ss_dense s) (setN (ss_data s) (i - removed) v)
                       (ss_ins s) (setN (ss_mod s) (i - removed) t)
                 | None => s
                 end in
        let call := (e, c, ans, w) in
        match ans with
        | ABoom => Ok (s, [call], true)
        | AKeep =>
            rlet (r, boom) := p_retain_loop n (i + 1) removed f cb (seen ++ [(e, c)]) t s in
            Ok (r.1, call :: r.2, boom)
        | ADrop =>
            rlet (s, r) := p_dyn_delete s e t cb in
            match r with
            | Some _ =>
                rlet (r, boom) := p_retain_loop n (i + 1) (removed + 1) f cb (seen ++ [(e, c)]) t s in
                Ok (r.1, call :: r.2, boom)
            | None => Ok (s, [call], true)
            end
        end
  end.
Definition p_retain s f cb (t : N) : res (sset T * list pcall * bool) :=
  p_retain_loop (length (ss_dense s)) 0 0 f cb [] t s.

(** ** Histories *)
Inductive pop :=
| PDo (o : sop T)                                   (* nothing panics *)
| PInsert (e : eid) (v : T) (t : N)                 (* the insertion callback panics when called *)
| PInsertDrop (e : eid) (v : T) (t : N)             (* the Drop of an older generation's component panics *)
| PRemove (e : eid) (t : N)                         (* the removal callback panics when called *)
| PDelete (e : eid) (t : N)
| PRetain (f : list (eid * T) -> eid -> T -> panswer * option T) (cb : eid -> T -> bool) (t : N)
| PSort                                             (* the comparator panicked *)
| PApply (x y : eid) (f : T -> T -> T) (t : N)      (* the closure panics after it left these values *)
| PApplyMut (x y : eid) (f : T -> T -> T * T) (t : N)
| PClear (t : N).                                   (* the Drop of every component panics *)
Inductive pevent :=
| PEv (ev : sevent T)                               (* the call returned *)
| PBoom                                             (* the stack was unwound *)
| PCalls (calls : list pcall) (boom : bool).

Definition returned {A} (f : A -> sevent T) (x : option A) : pevent :=
  match x with Some x => PEv (f x) | None => PBoom end.
Definition p_step s (o : pop) : res (sset T * pevent) :=
  match o with
  | PDo o => rlet (s, ev) := s_step s o in Ok (s, PEv ev)
  | PInsert e v t => rlet (s, r) := p_insert s e v t (λ _ _, true) in Ok (s, returned EInsert r)
  | PInsertDrop e v t => rlet (s, r) := p_insert_drop s e v t in Ok (s, returned EInsert r)
  | PRemove e t => rlet (s, r) := p_dyn_remove s e t (λ _ _, true) in Ok (s, returned ERemove r)
  | PDelete e t => rlet (s, r) := p_dyn_delete s e t (λ _ _, true) in Ok (s, returned EDelete r)
  | PRetain f cb t => rlet (r, boom) := p_retain s f cb t in Ok (r.1, PCalls r.2 boom)
  (* src/sparse_set/mod.rs:549-556: only the vector [transform] was written *)
  | PSort => Ok (s, PBoom)
  (* src/sparse_set/mod.rs:612-619 and 655-662: the closure runs last *)
  | PApply x y f t => rlet (s, _) := ss_apply s x y (λ u v, (f u v, ())) t in Ok (s, PBoom)
  | PApplyMut x y f t => rlet (s, _) := ss_apply_mut s x y (λ u v, (f u v, ())) t in Ok (s, PBoom)
  (* src/sparse_set/mod.rs:669-690: without the tracking of deletions the components are dropped when
     [data] goes out of scope; both [drain]s empty their vector whatever a Drop does *)
  | PClear t => rlet s' := ss_clear s t in Ok (s', if ss_td s || (lenN (ss_data s) =? 0) then PEv EUnit else PBoom)
  end.
Fixpoint p_run s (ops : list pop) : res (sset T * list pevent) :=
  match ops with
  | [] => Ok (s, [])
  | o :: ops =>
      rlet (s, ev) := p_step s o in
      rlet (s, evs) := p_run s ops in
      Ok (s, ev :: evs)
  end.
End sset.
Arguments pcall : clear implicits. Arguments pop : clear implicits. Arguments pevent : clear implicits.

(** ** The world *)
Section world.
Context {V : Type} (kind : N -> tracking).
Implicit Types (w : world V) (m : gmap N (sset V)).
(** The insertion and the removal callback of each storage: on which arguments they panic. *)
Context (cbi cbr : N -> eid -> V -> bool).

(** src/sparse_set/add_component.rs:59-95; assert_inserted (src/sparse_set/mod.rs:216-223) panics too *)
Fixpoint x_add_tuple m (e : eid) (cs : list (N * V)) (t : N) : res (gmap N (sset V) * bool) :=
  match cs with
  | [] => Ok (m, true)
  | (i, v) :: cs =>
      rlet (s, r) := p_insert (store_or_new kind m i) e v t (cbi i) in
      match r with
      | Some r => if was_inserted r then x_add_tuple (<[i := s]> m) e cs t else Ok (<[i := s]> m, false)
      | None => Ok (<[i := s]> m, false)
      end
  end.
(** src/all_storages/mod.rs:577-584  add_entity: the entity was generated before *)
Definition x_add_entity w (cs : list (N * V)) : res (world V * option eid) :=
  rlet (es, e) := generate (w_ents w) in
  rlet (m, ok) := x_add_tuple (w_stores w) e cs (w_counter w) in
  Ok (World es m (w_counter w + 1), if ok : bool then Some e else None).
(** src/all_storages/mod.rs:639-651  add_component *)
Definition x_add_component w (e : eid) (cs : list (N * V)) : res (world V * bool) :=
  if is_alive (w_ents w) e then
    rlet (m, ok) := x_add_tuple (w_stores w) e cs (w_counter w) in
    Ok (with_stores (w_tick w) m, ok)
  else Ok (w_tick w, false).
(** src/sparse_set/remove.rs (impl_remove_component), src/all_storages/mod.rs:700-702 *)
Fixpoint x_remove_tuple m (e : eid) (is : list N) (t : N)
    : res (gmap N (sset V) * option (list (option V))) :=
  match is with
  | [] => Ok (m, Some [])
  | i :: is =>
      rlet (s, r) := p_dyn_remove (store_or_new kind m i) e t (cbr i) in
      match r with
      | Some r =>
          rlet (m, rs) := x_remove_tuple (<[i := s]> m) e is t in Ok (m, cons r <$> rs)
      | None => Ok (<[i := s]> m, None)
      end
  end.
Definition x_remove w (e : eid) (is : list N) : res (world V * option (list (option V))) :=
  rlet (m, rs) := x_remove_tuple (w_stores w) e is (w_counter w) in
  Ok (with_stores (w_tick w) m, rs).
(** src/sparse_set/delete.rs (impl_delete_component), src/all_storages/mod.rs:674-676 *)
Fixpoint x_delete_tuple m (e : eid) (is : list N) (t : N) : res (gmap N (sset V) * bool) :=
  match is with
  | [] => Ok (m, true)
  | i :: is =>
      rlet (s, r) := p_dyn_delete (store_or_new kind m i) e t (cbr i) in
      match r with
      | Some true => Ok (<[i := s]> m, true)
      | Some false => x_delete_tuple (<[i := s]> m) e is t
      | None => Ok (<[i := s]> m, false)
      end
  end.
Definition x_delete_component w (e : eid) (is : list N) : res (world V * bool) :=
  rlet (m, ok) := x_delete_tuple (w_stores w) e is (w_counter w) in
  Ok (with_stores (w_tick w) m, ok).
(** src/delete.rs:54-64  Delete for a tuple of views *)
Fixpoint x_view_delete_tuple m (e : eid) (is : list N) (t : N) : res (gmap N (sset V) * option bool) :=
  match is with
  | [] => Ok (m, Some false)
  | i :: is =>
      rlet (s, r) := p_dyn_delete (store_or_new kind m i) e t (cbr i) in
      match r with
      | Some r => rlet (m, rs) := x_view_delete_tuple (<[i := s]> m) e is t in Ok (m, orb r <$> rs)
      | None => Ok (<[i := s]> m, None)
      end
  end.
Definition x_view_delete w (e : eid) (is : list N) : res (world V * option bool) :=
  rlet (m, r) := x_view_delete_tuple (w_stores w) e is (w_counter w) in
  Ok (with_stores (w_tick w) m, r).

(** A loop over the storages that stops where the stack is unwound *)
Fixpoint x_for_stores (order : list N) (f : N -> sset V -> res (sset V * bool)) m
    : res (gmap N (sset V) * bool) :=
  match order with
  | [] => Ok (m, true)
  | i :: order =>
      match m !! i with
      | Some s =>
          rlet (s, ok) := f i s in
          if ok : bool then x_for_stores order f (<[i := s]> m) else Ok (<[i := s]> m, false)
      | None => x_for_stores order f m
      end
  end.
Definition x_store_delete (e : eid) (t : N) (i : N) (s : sset V) : res (sset V * bool) :=
  rlet (s, r) := p_dyn_delete s e t (cbr i) in Ok (s, match r with Some _ => true | None => false end).
(** src/all_storages/mod.rs:295-301  strip *)
Definition x_strip w (e : eid) (order : list N) : res (world V * bool) :=
  rlet (m, ok) := x_for_stores order (x_store_delete e (w_counter w)) (w_stores w) in
  Ok (with_stores (w_tick w) m, ok).
(** src/all_storages/mod.rs:260-273  delete_entity: the entity is deleted before its components *)
Definition x_delete_entity w (e : eid) (order : list N) : res (world V * option bool) :=
  rlet (es, b) := delete_unchecked (w_ents w) e in
  if b : bool then
    rlet (w, ok) := x_strip (with_ents w es) e order in
    Ok (w, if ok : bool then Some true else None)
  else Ok (with_ents w es, Some false).
(** src/all_storages/mod.rs:330-353  bulk_strip *)
Fixpoint x_store_delete_all (l : list eid) (t : N) (i : N) (s : sset V) : res (sset V * bool) :=
  match l with
  | [] => Ok (s, true)
  | e :: l =>
      rlet (s, ok) := x_store_delete e t i s in
      if ok : bool then x_store_delete_all l t i s else Ok (s, false)
  end.
Definition x_bulk_strip w (l : list eid) (order : list N) : res (world V * bool) :=
  rlet (m, ok) := x_for_stores order (x_store_delete_all l (w_counter w)) (w_stores w) in
  Ok (with_stores (w_tick w) m, ok).
(** src/all_storages/mod.rs:443-451  retain_storage_by_id *)
Definition x_retain_storage w (e : eid) (excluded : list N) (order : list N) : res (world V * bool) :=
  rlet (m, ok) := x_for_stores order
                    (λ i s, if decide (i ∈ excluded) then Ok (s, true) else x_store_delete e (w_counter w) i s)
                    (w_stores w) in
  Ok (with_stores (w_tick w) m, ok).
(** src/all_storages/mod.rs:531-537  retain; [f] may panic itself *)
Definition x_retain w (i : N) f : res (world V * bool) :=
  match w_stores w !! i with
  | Some s =>
      rlet (r, boom) := p_retain s f (cbr i) (w_counter w) in
      Ok (with_stores (w_tick w) (<[i := r.1]> (w_stores w)), negb boom)
  | None => Ok (w_tick w, false)
  end.
(** src/all_storages/delete_any/mod.rs:58-73: [clear] calls no callback, [delete_entity] does *)
Fixpoint x_delete_each w (dl : list (eid * list N)) : res (world V * bool) :=
  match dl with
  | [] => Ok (w, true)
  | (e, order) :: dl =>
      rlet (w, r) := x_delete_entity w e order in
      match r with Some _ => x_delete_each w dl | None => Ok (w, false) end
  end.
Definition x_delete_any w (is : list N) (dl : list (eid * list N)) : res (world V * bool) :=
  rlet (m, ids) := collect_any (w_stores w) is [] (w_counter w) in
  if decide (dl.*1 ≡ₚ ids) then x_delete_each (with_stores (w_tick w) m) dl else Panic.
End world.

Section run.
Context {V : Type} (kind : N -> tracking).
Implicit Types (w : world V).

(** An operation of the world with the callbacks of that moment, or a retain whose closure panics. *)
Inductive xop :=
| XOp (cbi cbr : N -> eid -> V -> bool) (o : wop V)
| XRetain (cbr : N -> eid -> V -> bool) (i : N) (f : list (eid * V) -> eid -> V -> panswer * option V).

Definition never_booms (f : eid -> V -> bool) : list (eid * V) -> eid -> V -> panswer * option V :=
  λ _ e v, (if f e v then AKeep else ADrop, None).
(** [None]: the stack was unwound. *)
Definition if_ok (ok : bool) : option (wevent V) := if ok then Some WUnit else None.
Definition x_step w (o : xop) : res (world V * option (wevent V)) :=
  match o with
  | XRetain cbr i f => rlet (w, ok) := x_retain cbr w i f in Ok (w, if_ok ok)
  | XOp cbi cbr o =>
    match o with
    | WAddEntity cs => rlet (w, e) := x_add_entity kind cbi w cs in Ok (w, WId <$> e)
    | WAddComponent e cs => rlet (w, ok) := x_add_component kind cbi w e cs in Ok (w, if_ok ok)
    | WRemove e is => rlet (w, l) := x_remove kind cbr w e is in Ok (w, WVals <$> l)
    | WDeleteComponent e is => rlet (w, ok) := x_delete_component kind cbr w e is in Ok (w, if_ok ok)
    | WDeleteEntity e order => rlet (w, b) := x_delete_entity cbr w e order in Ok (w, WBool <$> b)
    | WStrip e order => rlet (w, ok) := x_strip cbr w e order in Ok (w, if_ok ok)
    | WBulkStrip l order => rlet (w, ok) := x_bulk_strip cbr w l order in Ok (w, if_ok ok)
    | WRetainStorage e ex order => rlet (w, ok) := x_retain_storage cbr w e ex order in Ok (w, if_ok ok)
    | WRetain i f => rlet (w, ok) := x_retain cbr w i (never_booms f) in Ok (w, if_ok ok)
    | WDeleteAny is dl => rlet (w, ok) := x_delete_any cbr w is dl in Ok (w, if_ok ok)
    | WViewDelete e is => rlet (w, b) := x_view_delete kind cbr w e is in Ok (w, WBool <$> b)
    (* no callback is called *)
    | WClear _ | WGet _ _ | WWrite _ _ _ | WSpawn _ =>
        rlet (w, ev) := w_step kind w o in Ok (w, Some ev)
    end
  end.
Fixpoint x_run w (ops : list xop) : res (world V * list (option (wevent V))) :=
  match ops with
  | [] => Ok (w, [])
  | o :: ops =>
      rlet (w, ev) := x_step w o in
      rlet (w, evs) := x_run w ops in
      Ok (w, ev :: evs)
  end.
End run.
Arguments xop : clear implicits.
