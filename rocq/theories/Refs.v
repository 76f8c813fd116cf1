(** References to components outside of views: [World::get].

    src/advanced/get_component.rs, src/world.rs 1378-1393. The calls of one thread, in any order; a call
    is one step (the borrows of the cells under concurrency are C25-C28 and C63). References are
    numbered. Types of components are numbers; all of them Send + Sync. *)
From stdpp Require Import prelude list gmap.
From Coq Require Import NArith.
From Verif Require Import EntityId Base SparseSet Track World.
Open Scope N_scope.

(** A live [Ref] or [RefMut], get_component.rs 14-19, 50-57: a pointer to the row [pt_pos] of the storage
    [pt_store], the timestamp the flag gets, and the borrow. [pt_ent]: the entity asked for (ghost). *)
Record part := Part { pt_store : N; pt_mut : bool; pt_ent : eid; pt_pos : N; pt_stamp : N }.

Inductive gerr := GBorrow | GMissing.

Section refs.
Context {V : Type} (kind : N -> tracking).
Implicit Types (w : world V) (m : gmap N (sset V)).

(** The world, the live references, the number of the next one, and the references that were taken out
    of a [Ref] or [RefMut] ([ROut] below). *)
Record rst := RSt { r_world : world V; r_refs : gmap N part; r_next : N; r_out : list part }.
Definition r_new : rst := RSt w_new ∅ 0 [].

(** Which borrows of storages are alive. *)
Definition borrowed (refs : gmap N part) : list (N * bool) :=
  map (λ x : N * part, (pt_store x.2, pt_mut x.2)) (map_to_list refs).
(** AtomicRefCell::borrow(_mut) of storage [i] fails: advanced/atomic_refcell.rs 151-239 *)
Definition busy (held : list (N * bool)) (i : N) (mu : bool) : bool :=
  existsb (λ b, (b.1 =? i) && (b.2 || mu)) held.

(** GetComponent::get of [&T] / [&mut T], get_component.rs 128-152, 242-279, and of tuples, 405-420: from
    left to right; an error drops what was borrowed before. [mu]: the part is [&mut T]. *)
Fixpoint get_parts m (held : list (N * bool)) (e : eid) (now : N) (q : list (N * bool))
    : res (gmap N (sset V) * (list part + gerr)) :=
  match q with
  | [] => Ok (m, inl [])
  | (i, mu) :: q =>
      let s := store_or_new kind m i in
      let m := <[i := s]> m in
      if busy held i mu then Ok (m, inr GBorrow)
      else match index_of s e with
           | None => Ok (m, inr GMissing)
           | Some p =>
               rlet _ := get_unchecked (ss_data s) p in
               rlet _ := (if mu && ss_tm s then rlet _ := get_unchecked (ss_mod s) p in Ok tt else Ok tt) in
               rlet (m, r) := get_parts m ((i, mu) :: held) e now q in
               Ok (m, match r with inl ps => inl (Part i mu e p now :: ps) | inr x => inr x end)
           end
  end.

(** Dereferencing, get_component.rs 35-42, 74-81. The storage is gone or the row is beyond the end:
    undefined behaviour. *)
Definition deref w (p : part) : res V :=
  match w_stores w !! pt_store p with
  | Some s => get_unchecked (ss_data s) (pt_pos p)
  | None => Ub
  end.
(** A write through [DerefMut] or [AsMut], 90-111; [flag = false]: inside of RefMut::map, 59-72 *)
Definition deref_write w (p : part) (flag : bool) (f : V -> V) : res (world V) :=
  match w_stores w !! pt_store p with
  | Some s =>
      rlet v := get_unchecked (ss_data s) (pt_pos p) in
      rlet mm := (if flag && ss_tm s then set_unchecked (ss_mod s) (pt_pos p) (pt_stamp p) else Ok (ss_mod s)) in
      Ok (with_stores w (<[pt_store p := with_rows s (ss_sparse s) (ss_dense s) (setN (ss_data s) (pt_pos p) (f v))
                                          (ss_ins s) mm]> (w_stores w)))
  | None => Ub
  end.

(** What a shared [World] offers besides: borrowing [ViewMut]s of the storages [l] (world.rs 396-400,
    borrow/mod.rs 271-302) and using them. Missing storages are created on the way. *)
Fixpoint borrow_views m (held : list (N * bool)) (l : list N) : gmap N (sset V) * bool :=
  match l with
  | [] => (m, true)
  | i :: l =>
      let m := <[i := store_or_new kind m i]> m in
      if busy held i true then (m, false) else borrow_views m ((i, true) :: held) l
  end.
(** [Delete] of views, delete.rs; Entities::add_entity, entities/mod.rs 236-244 with add_entity.rs;
    Entities::add_component, entities/mod.rs 86-97 with add_component.rs 36-87, which for live entities does
    what the method of World does (a refused insertion, which only happens for older handles, would be
    ignored instead of a panic); [Get] of a ViewMut and a write, get.rs; ViewMut::retain, view_mut.rs
    228-231. The other operations of World.v need an exclusive World. *)
Definition through_views (o : wop V) : option (list N) :=
  match o with
  | WViewDelete _ is => Some is
  | WAddEntity cs => Some cs.*1
  | WAddComponent _ cs => Some cs.*1
  | WWrite _ i _ => Some [i]
  | WRetain i _ => Some [i]
  | _ => None
  end.

Inductive rop :=
| RGet (q : list (N * bool)) (e : eid)    (* world.get::<(&T, &mut U, ..)>(e) *)
| RDrop (n : N)                           (* drop a reference *)
| RRead (n : N)
| RWrite (n : N) (f : V -> V)
| RMap (n : N) (f : V -> V)               (* RefMut::map(r, |x| {change *x; x}) *)
| RView (o : wop V)
| ROwn (o : wop V)                        (* methods of [&mut World] *)
| ROut (n : N).
  (* The type of [*r] is [&'a T] for [r : Ref<'a, &'a T>] (35-42; ['a] is the borrow of the World,
     world.rs 1378-1381), so it can be copied and used as long as the World is not used exclusively. The
     closure of RefMut::map is given [&'a mut T] (59-72) and can store it. *)
Inductive revent :=
| RGot (ns : list N)
| RErr (x : gerr)
| RVal (v : V)
| RWorld (ev : wevent V)
| RDone.

Fixpoint number (n : N) (ps : list part) : gmap N part :=
  match ps with [] => ∅ | p :: ps => <[n := p]> (number (n + 1) ps) end.
Fixpoint numbers (n : N) (ps : list part) : list N :=
  match ps with [] => [] | _ :: ps => n :: numbers (n + 1) ps end.

Definition r_step (s : rst) (o : rop) : res (rst * revent) :=
  let w := r_world s in
  match o with
  | RGet q e =>
      rlet (m, r) := get_parts (w_stores w) (borrowed (r_refs s)) e (w_counter w) q in
      let w := with_stores (w_tick w) m in
      Ok (match r with
          | inl ps => (RSt w (number (r_next s) ps ∪ r_refs s) (r_next s + lenN ps) (r_out s),
                       RGot (numbers (r_next s) ps))
          | inr x => (RSt w (r_refs s) (r_next s) (r_out s), RErr x)
          end)
  | RDrop n => Ok (RSt w (delete n (r_refs s)) (r_next s) (r_out s), RDone)
  | RRead n =>
      match r_refs s !! n with
      | Some p => rlet v := deref w p in Ok (s, RVal v)
      | None => Panic
      end
  | RWrite n f =>
      match r_refs s !! n with
      | Some p => rlet w := deref_write w p true f in Ok (RSt w (r_refs s) (r_next s) (r_out s), RDone)
      | None => Panic
      end
  | RMap n f =>
      match r_refs s !! n with
      | Some p => rlet w := deref_write w p false f in Ok (RSt w (r_refs s) (r_next s) (r_out s), RDone)
      | None => Panic
      end
  | RView o =>
      match through_views o with
      | None => Panic
      | Some l =>
          match borrow_views (w_stores w) (borrowed (r_refs s)) l with
          | (m, false) => Ok (RSt (with_stores (w_tick w) m) (r_refs s) (r_next s) (r_out s), RErr GBorrow)
          | (_, true) =>
              rlet (w, ev) := w_step kind w o in Ok (RSt w (r_refs s) (r_next s) (r_out s), RWorld ev)
          end
      end
  | ROwn o => rlet (w, ev) := w_step kind w o in Ok (RSt w (r_refs s) (r_next s) (r_out s), RWorld ev)
  | ROut n =>
      match r_refs s !! n with
      | Some p => Ok (RSt w (if pt_mut p then delete n (r_refs s) else r_refs s) (r_next s) (r_out s ++ [p]), RDone)
      | None => Panic
      end
  end.

Fixpoint r_run (s : rst) (ops : list rop) : res (rst * list revent) :=
  match ops with
  | [] => Ok (s, [])
  | o :: ops => rlet (s, ev) := r_step s o in rlet (s, evs) := r_run s ops in Ok (s, ev :: evs)
  end.
End refs.
Arguments rst : clear implicits. Arguments rop : clear implicits. Arguments revent : clear implicits.
