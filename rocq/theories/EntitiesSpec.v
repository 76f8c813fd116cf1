(** Specification of the entity allocator: a set of live handles, a first-in first-out queue
    of handles ready to be given out, and the number of slots ever used.  No links, no vector. *)
From stdpp Require Import prelude list gmap.
From Coq Require Import NArith.
From Verif Require Import EntityId Base Entities.
Open Scope N_scope.

Record aspec := ASpec {
  a_next : N;
  a_ready : list eid;
  a_live : gset eid;
}.

Definition a_init : aspec := ASpec 0 [] ∅.

(** Handles (start, 0), (start+1, 0), ... *)
Fixpoint a_fresh (start : N) (n : nat) : list eid :=
  match n with O => [] | S n' => (start, 0) :: a_fresh (start + 1) n' end.

(** Handles of a generation >= 65533 are never recycled. *)
Definition last_gen : N := 65533.

Definition other_index (e h : eid) : Prop := idx h ≠ idx e.
Global Instance other_index_dec e h : Decision (other_index e h).
Proof. unfold other_index. apply _. Defined.

(** One operation of the specification, with what the caller observes. *)
Inductive a_step (a : aspec) : eop -> eevent -> aspec -> Prop :=
| A_create_recycle h q :
    a_ready a = h :: q ->
    a_step a OCreate (Created [h]) (ASpec (a_next a) q ({[h]} ∪ a_live a))
| A_create_new :
    a_ready a = [] ->
    a_step a OCreate (Created [(a_next a, 0)])
           (ASpec (a_next a + 1) [] ({[(a_next a, 0)]} ∪ a_live a))
| A_bulk n :
    a_step a (OBulk n) (Created (a_fresh (a_next a) n))
           (ASpec (a_next a + N.of_nat n) (a_ready a)
                  (list_to_set (a_fresh (a_next a) n) ∪ a_live a))
| A_delete e :
    e ∈ a_live a -> gen e < last_gen ->
    a_step a (ODelete e) (Deleted e true)
           (ASpec (a_next a) (a_ready a ++ [(idx e, gen e + 1)]) (a_live a ∖ {[e]}))
| A_delete_exhausted e :
    (* finding 8: nothing happens but the caller is told the entity was deleted *)
    e ∈ a_live a -> last_gen <= gen e ->
    a_step a (ODelete e) (Deleted e true) a
| A_delete_not_live e :
    e ∉ a_live a -> a_step a (ODelete e) (Deleted e false) a
| A_spawn_beyond e :
    a_next a <= idx e ->
    a_step a (OSpawn e) (Spawned e true)
           (ASpec (idx e + 1) (a_ready a ++ a_fresh (a_next a) (N.to_nat (idx e - a_next a)))
                  ({[e]} ∪ a_live a))
| A_spawn_live e h :
    h ∈ a_live a -> idx h = idx e -> gen h <= gen e ->
    a_step a (OSpawn e) (Spawned e true)
           (ASpec (a_next a) (a_ready a) ({[e]} ∪ filter (other_index e) (a_live a)))
| A_spawn_live_refused e h :
    h ∈ a_live a -> idx h = idx e -> gen e < gen h ->
    a_step a (OSpawn e) (Spawned e false) a
| A_spawn_ready e h :
    h ∈ a_ready a -> idx h = idx e -> gen h <= gen e + 1 ->
    a_step a (OSpawn e) (Spawned e true)
           (ASpec (a_next a) (filter (other_index e) (a_ready a)) ({[e]} ∪ a_live a))
| A_spawn_ready_refused e h :
    h ∈ a_ready a -> idx h = idx e -> gen e + 1 < gen h ->
    a_step a (OSpawn e) (Spawned e false) a
| A_clear ready' :
    (* every slot becomes ready, in slot order, with its generation bumped by one *)
    lenN ready' = a_next a ->
    (forall k h', getN ready' k = Some h' ->
       idx h' = k /\ exists h, (h ∈ a_live a \/ h ∈ a_ready a) /\ idx h = k /\ gen h' = gen h + 1) ->
    a_step a OClear Cleared (ASpec (a_next a) ready' ∅).

Inductive a_run : aspec -> list eop -> list eevent -> aspec -> Prop :=
| A_nil a : a_run a [] [] a
| A_cons a a1 a2 o ev ops evs :
    a_step a o ev a1 -> a_run a1 ops evs a2 -> a_run a (o :: ops) (ev :: evs) a2.

(** ** Observations on histories, independent of any allocator *)

(** All handles given out by creations. *)
Definition ev_created (ev : eevent) : list eid :=
  match ev with Created es => es | _ => [] end.
Definition created (evs : list eevent) : list eid := evs ≫= ev_created.

(** All handles given out by creations or put in place by spawn. *)
Definition ev_issued (ev : eevent) : list eid :=
  match ev with Created es => es | Spawned e true => [e] | _ => [] end.
Definition issued (evs : list eevent) : list eid := evs ≫= ev_issued.

(** [lives evs e]: after the history [evs] (oldest first), [e] was made and not unmade since. *)
Fixpoint lives_from (alive : Prop) (evs : list eevent) (e : eid) : Prop :=
  match evs with
  | [] => alive
  | Created es :: r => lives_from (alive \/ e ∈ es) r e
  | Deleted e' true :: r => lives_from (alive /\ e ≠ e') r e
  | Spawned e' true :: r => lives_from ((alive /\ idx e ≠ idx e') \/ e = e') r e
  | Cleared :: r => lives_from False r e
  | _ :: r => lives_from alive r e
  end.
Definition lives (evs : list eevent) (e : eid) : Prop := lives_from False evs e.

(** The operations of a history that never recycles a slot to the end of its counter: no
    successful deletion of a handle with generation >= 65533. *)
Definition ev_not_exhausted (ev : eevent) : Prop :=
  match ev with Deleted e true => gen e < last_gen | _ => True end.
