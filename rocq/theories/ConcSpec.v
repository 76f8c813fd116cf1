(** Specification for the concurrent storage table: what can be told from the trace of calls and
    results alone. *)
From stdpp Require Import prelude list gmap.
From Coq Require Import NArith.
From Verif Require Import EntityId Conc.
Open Scope N_scope.

Record cobs := {
  o_wait : gmap N N;            (* storage concerned by the last call of each thread *)
  o_view : gmap N N;            (* live views and the storage they belong to *)
  o_log : gmap N (list N)       (* values written into each storage since it was added *)
}.
Definition log (o : cobs) (sid : N) : list N := default [] (o_log o !! sid).
Definition co_step (o : cobs) (e : N * caction * cevent) : cobs :=
  let '(t, a, ev) := e in
  match a with
  | CAccess sid _ _ | CRemove sid | CAdd sid =>
      {| o_wait := <[t := sid]> (o_wait o); o_view := o_view o; o_log := o_log o |}
  | CWrite v x =>
      match o_view o !! v with
      | Some sid => {| o_wait := o_wait o; o_view := o_view o;
                       o_log := <[sid := log o sid ++ [x]]> (o_log o) |}
      | None => o
      end
  | CRead _ => o
  | CDrop v => {| o_wait := o_wait o; o_view := delete v (o_view o); o_log := o_log o |}
  | CStep =>
      match o_wait o !! t with
      | None => o
      | Some sid =>
          match ev with
          | CeView v => {| o_wait := o_wait o; o_view := <[v := sid]> (o_view o); o_log := o_log o |}
          | CeAdded | CeRemoved _ =>
              {| o_wait := o_wait o; o_view := o_view o; o_log := <[sid := []]> (o_log o) |}
          | _ => o
          end
      end
  end.
Definition co_init : cobs := {| o_wait := ∅; o_view := ∅; o_log := ∅ |}.
Definition cobserve (tr : list (N * caction * cevent)) : cobs := fold_left co_step tr co_init.

(** Runs in which add_unique never hits a unique that is being viewed. *)
Definition no_view (o : cobs) (t : N) : Prop :=
  forall v sid, o_view o !! v = Some sid -> o_wait o !! t = Some sid -> False.
Inductive c_reach_safe : list (N * caction * cevent) -> cst -> Prop :=
| c_safe_init : c_reach_safe [] c_init
| c_safe_step tr s t a s' ev :
    c_reach_safe tr s -> c_step s (t, a) = Some (s', ev) ->
    (ev = CeAdded -> no_view (cobserve tr) t) ->
    c_reach_safe (tr ++ [(t, a, ev)]) s'.

