(** A loop over mutable views whose body works on the components through the [Mut]s it is given.
    src/mut.rs, src/iter/captain.rs, src/iter/sailor.rs *)
From stdpp Require Import prelude list gmap.
From Coq Require Import NArith.
From Verif Require Import EntityId Base SparseSet Track Entities World Iter IterSpec.
Open Scope N_scope.

(** src/mut.rs:4-8  Mut: [flag] is the modification time of the component (none when the storage does
    not track modification; the iterators then give a plain [&mut T], which does the same) *)
Record handle (V : Type) := Handle {
  h_flag : option N;
  h_current : N;
  h_data : V;
}.
Arguments Handle {V}. Arguments h_flag {V}. Arguments h_current {V}. Arguments h_data {V}.

(** What a body can do with a [Mut]; [f] is what happens to the component behind the reference. *)
Inductive act (V : Type) :=
| ARead                    (* deref, as_ref, Debug: mut.rs:24-31, 44-49, 62-66 *)
| ADerefMut (f : V -> V)   (* deref_mut: mut.rs:33-42 *)
| AAsMut (f : V -> V)      (* as_mut: mut.rs:51-60 *)
| AMap (f : V -> V).       (* Mut::map: mut.rs:10-21; [f] is what the closure does to the component *)
Arguments ARead {V}. Arguments ADerefMut {V}. Arguments AAsMut {V}. Arguments AMap {V}.

Section model.
Context {V : Type} (kind : N -> tracking).

(** src/mut.rs:14-20, 24-31, 33-42, 44-60.  [map] gives a [Mut] of a part of the component with the flag
    of the whole; what is done with it afterwards are further actions, whose [f] acts on that part. *)
Definition mut_act (h : handle V) (a : act V) : handle V :=
  match a with
  | ARead => h
  | ADerefMut f | AAsMut f => Handle ((λ _, h_current h) <$> h_flag h) (h_current h) (f (h_data h))
  | AMap f => Handle (h_flag h) (h_current h) (f (h_data h))
  end.
Definition mut_run (h : handle V) (l : list (act V)) : handle V := foldl mut_act h l.

(** src/iter/captain.rs:95-101 and 36-38, src/iter/sailor.rs:89-95 and 36-38: the [Mut] of position [p] *)
Definition mut_at (s : sset V) (p current : N) : res (handle V) :=
  rlet v := get_unchecked (ss_data s) p in
  if ss_tm s then rlet t := get_unchecked (ss_mod s) p in Ok (Handle (Some t) current v)
  else Ok (Handle None current v).
(** The [Mut] points into the storage: what it holds at the end is what the storage holds. *)
Definition mut_back (s : sset V) (p : N) (h : handle V) : sset V :=
  with_rows s (ss_sparse s) (ss_dense s) (setN (ss_data s) p (h_data h)) (ss_ins s)
    (match h_flag h with Some t => setN (ss_mod s) p t | None => ss_mod s end).

(** [muts]: the views taken mutably, [now i]: the [current] of the view of [i], [body e x i]: what is
    done with the component [i] of the item [x] of [e]. *)
Context (muts : list N) (now : N -> N) (body : eid -> item V -> N -> list (act V)).

Definition visit_ref (m : gmap N (sset V)) (e : eid) (x : item V) (r : N * N) : res (gmap N (sset V)) :=
  if decide (r.1 ∈ muts) then
    let s := store_or_new kind m r.1 in
    rlet h := mut_at s r.2 (now r.1) in
    Ok (<[r.1 := mut_back s r.2 (mut_run h (body e x r.1))]> m)
  else Ok m.
Fixpoint visit_refs (m : gmap N (sset V)) (e : eid) (x : item V) (l : list (N * N)) : res (gmap N (sset V)) :=
  match l with
  | [] => Ok m
  | r :: l => rlet m := visit_ref m e x r in visit_refs m e x l
  end.
(** The loop over what the iterator visits: src/iter/mod.rs:44-122 (next and fold) and src/iter/with_id.rs:26-34 (next),
    with the body run on each item.  The references are positions, so the body works on the storage as
    the earlier rounds left it. *)
Fixpoint loop_stores (m : gmap N (sset V)) (L : list (eid * out V)) : res (gmap N (sset V)) :=
  match L with
  | [] => Ok m
  | (e, o) :: L => rlet m := visit_refs m e (erase o) (refs o) in loop_stores m L
  end.
(** Borrowing the [n] views moved the clock (get_current, src/all_storages/mod.rs:1232-1237). *)
Definition w_loop (w : world V) (n : nat) (L : list (eid * out V)) : res (world V) :=
  rlet m := loop_stores (w_stores w) L in
  Ok (with_stores (Nat.iter n (w_tick (V:=V)) w) m).
End model.
