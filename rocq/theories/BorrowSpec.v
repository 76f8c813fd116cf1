(** What a client of a cell observes: which borrows are alive, computed from the sequence of
    requests and answers only. *)
From stdpp Require Import prelude list gmap.
From Coq Require Import NArith.
From Verif Require Import EntityId Borrow.
Open Scope N_scope.

(** A live borrow: shared, exclusive, or a read-only reborrow of exclusive borrow [b]
    (ViewMut::as_view). *)
Inductive lkind := LShared | LExcl | LFrom (b : N).
(** What a thread is waiting for. *)
Inductive request := RShared | RExcl | RFrom (b : N) | RDrop (k : lkind).

Record obs := { alive : gmap N lkind; waiting : gmap N request }.
Definition obs_init : obs := {| alive := ∅; waiting := ∅ |}.

(** Kind of the borrow obtained by a request. *)
Definition granted (o : obs) (r : request) : lkind :=
  match r with
  | RShared => LShared
  | RExcl => LExcl
  | RFrom b => match alive o !! b with Some LExcl => LFrom b | Some k => k | None => LShared end
  | RDrop k => k
  end.

Definition obs_step (o : obs) (e : N * action * event) : obs :=
  let '(t, a, ev) := e in
  match ev with
  | EvTau =>
      match a with
      | ABorrow => {| alive := alive o; waiting := <[t := RShared]> (waiting o) |}
      | ABorrowMut => {| alive := alive o; waiting := <[t := RExcl]> (waiting o) |}
      | AClone b => {| alive := alive o; waiting := <[t := RFrom b]> (waiting o) |}
      | ADrop b =>
          match alive o !! b with
          | Some k => {| alive := delete b (alive o); waiting := <[t := RDrop k]> (waiting o) |}
          | None => o
          end
      | AStep => o
      end
  | EvOk b =>
      match waiting o !! t with
      | Some r => {| alive := <[b := granted o r]> (alive o); waiting := delete t (waiting o) |}
      | None => o
      end
  | EvErr _ | EvPanic | EvDropped => {| alive := alive o; waiting := delete t (waiting o) |}
  | EvAbort => o
  end.
Definition observe (tr : list (N * action * event)) : obs := fold_left obs_step tr obs_init.

(** No event of thread [t]. *)
Definition silent (t : N) (tr : list (N * action * event)) : Prop :=
  forall e, e ∈ tr -> e.1.1 <> t.
