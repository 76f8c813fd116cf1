(** Specification for timestamps: notions that only refer to the trace of calls and results. *)
From stdpp Require Import prelude list gmap.
From Coq Require Import NArith.
From Verif Require Import EntityId Clock.
Open Scope N_scope.

Notation ktrace := (list (kaction * kevent)).

(** Operation [o] got timestamp [t]. *)
Definition stamped (tr : ktrace) (o t : N) : Prop := (KNext o, KeStamp t) ∈ tr.
(** Operation [o] is a run of system [j]. *)
Definition run_of (tr : ktrace) (o j : N) : Prop := exists ex, (KStart (Some j) ex, KeStarted o) ∈ tr.
Definition changes (e : N) (a : kaction) : bool :=
  match a with KChange _ e' => e =? e' | _ => false end.

(** ** What a system is expected to see *)
(** Monitor for system [j]: the operations in progress (system, exclusive?), the entities changed by others
    since the last run of [j] started, and those the current run of [j] must report. *)
Record mon := {
  m_run : gmap N (option N * bool);
  m_dirty : gset N;
  m_window : gset N
}.
Definition m_init : mon := {| m_run := ∅; m_dirty := ∅; m_window := ∅ |}.
Definition mon_step (j : N) (m : mon) (x : kaction * kevent) : mon :=
  match x with
  | (KStart sys excl, KeStarted o) =>
      {| m_run := <[o := (sys, excl)]> (m_run m);
         m_dirty := if decide (sys = Some j) then ∅ else m_dirty m;
         m_window := if decide (sys = Some j) then m_dirty m else m_window m |}
  | (KChange o e, _) =>
      match m_run m !! o with
      | Some (sys, _) =>
          if decide (sys = Some j)
          then {| m_run := m_run m; m_dirty := m_dirty m; m_window := {[e]} ∪ m_window m |}
          else {| m_run := m_run m; m_dirty := {[e]} ∪ m_dirty m; m_window := m_window m |}
      | None => m
      end
  | (KEnd o, _) | (KNext o, KeFailed) =>
      {| m_run := delete o (m_run m); m_dirty := m_dirty m; m_window := m_window m |}
  | _ => m
  end.
Definition monitor (j : N) (tr : ktrace) : mon := fold_left (mon_step j) tr m_init.

(** Runs of [j] overlap neither each other nor operations that may change the storage. *)
Definition serial_start (j : N) (m : mon) (a : kaction) : Prop :=
  match a with
  | KStart sys excl =>
      (sys = Some j -> forall o sys' excl', m_run m !! o = Some (sys', excl') -> excl' = false /\ sys' <> Some j) /\
      (excl = true -> forall o sys' excl', m_run m !! o = Some (sys', excl') -> sys' <> Some j)
  | _ => True
  end.
Inductive k_serial (j : N) : ktrace -> kst -> Prop :=
| k_serial_init : k_serial j [] k_init
| k_serial_step tr s a s' ev :
    k_serial j tr s -> clock s + 1 < 2 ^ 64 -> serial_start j (monitor j tr) a ->
    k_step s a = Some (s', ev) -> k_serial j (tr ++ [(a, ev)]) s'.
