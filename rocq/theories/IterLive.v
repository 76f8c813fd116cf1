(** A loop over mutable views where the iterator reads the storages as the body left them. *)
From stdpp Require Import prelude list gmap.
From Coq Require Import NArith.
From Verif Require Import EntityId Base SparseSet Track Entities World Iter IterSpec IterWrite.
Open Scope N_scope.

Section model.
Context {V : Type} (kind : N -> tracking).
Implicit Types (m : gmap N (sset V)) (it : iter V).

(** What the pointers of a window show while the storages are [m]; the lengths and timestamps were copied
    when it was made (src/sparse_set/window.rs:10-23, 163-176). *)
Definition see m (w : window V) : window V :=
  Window (wn_id w) (store_or_new kind m (wn_id w)) (wn_sparse_len w) (wn_last_ins w) (wn_last_mod w) (wn_current w).
Fixpoint see_ship m (s : ship V) : ship V :=
  match s with
  | SWin w => SWin (see m w)
  | SIds l => SIds l
  | SOpt w => SOpt (see m w)
  | SNot b w => SNot b (see m w)
  | STrack n k w => STrack n k (see m w)
  | SMixed mask ss => SMixed mask (see_ship m <$> ss)
  | SOr a b x y => SOr (see_ship m a) (see_ship m b) x y
  end.
Definition see_iter m it : iter V := Iter (see_ship m (it_ship it)) (it_acc it) (it_exact it) (it_start it) (it_end it).

Context (muts : list N) (now : N -> N) (body : eid -> item V -> N -> list (act V)).
(** The rounds of src/iter/mod.rs:103-118 (and, with the id, src/iter/with_id.rs:55-76) from position [k] on
    in one slice: the position is looked up, the body runs, then the next one is looked up. *)
Fixpoint live_from (fuel : nat) m it (k : N) : res (gmap N (sset V)) :=
  match fuel with
  | O => Ok m
  | S fuel =>
      rlet e := acc_get (it_acc it) k in
      rlet oo := item_at (see_iter m it) k in
      rlet m := (match oo with
                 | Some o => visit_refs kind muts now body m e (erase o) (refs o)
                 | None => Ok m
                 end) in
      live_from fuel m it (k + 1)
  end.
(** The whole loop, for iterators of one slice. *)
Definition w_live (w : world V) (n : nat) it : res (world V) :=
  rlet m := live_from (N.to_nat (it_end it - it_start it)) (w_stores w) it (it_start it) in
  Ok (with_stores (Nat.iter n (w_tick (V:=V)) w) m).
End model.
