(** Timestamps of operations that run concurrently on one tracked storage: src/world.rs (borrow 396-400,
    get_current 842-847), src/scheduler/into_workload_system.rs (system_fn 151-155).

    Any number of operations are in progress at the same time. An operation is either a [World::borrow] /
    [World::run] (no system) or the run of a workload system. One step per access to the counter, swap of
    [last_run], borrow attempt, change or query. A borrow attempt is one step that succeeds iff no
    conflicting borrow is alive (C25, C26). The tracked storage is reduced to the timestamp of the last
    change of each entity ([modification_data], or [insertion_data] if the changes are insertions);
    that the storage keeps exactly this is C20/C21. *)
From stdpp Require Import prelude list gmap.
From Coq Require Import NArith.
From Verif Require Import EntityId Base SparseSet.
Open Scope N_scope.

Inductive phase :=
| KStarted                      (* before [get_current] *)
| KStamped (current : N)        (* before [last_run.swap] (systems) or the borrow (others) *)
| KSwapped (last current : N)   (* systems only, before the borrow *)
| KHolding (last current : N).  (* the view is alive *)

Record op := {
  op_sys : option N;   (* the system this is a run of *)
  op_excl : bool;      (* View or ViewMut *)
  op_phase : phase
}.

Record kst := {
  clock : N;                (* World::counter, an AtomicU64 *)
  last_runs : gmap N N;     (* [last_run] of each system, initially 0 *)
  stamps : gmap N N;        (* entity -> timestamp of its last change *)
  ops : gmap N op;          (* operations in progress *)
  next_op : N
}.

(** World::default, world.rs 46-61: the counter starts at 1. *)
Definition k_init : kst := {| clock := 1; last_runs := ∅; stamps := ∅; ops := ∅; next_op := 0 |}.

(** into_workload_system.rs 142: [AtomicU64::new(0)]. *)
Definition last_run (s : kst) (j : N) : N := default 0 (last_runs s !! j).

Inductive kaction :=
| KStart (sys : option N) (excl : bool)
| KNext (o : N)             (* next step of operation [o] up to the borrow *)
| KChange (o e : N)         (* change entity [e] through the exclusive view of [o] *)
| KQuery (o e : N)          (* is_modified / is_inserted through the view of system run [o] *)
| KEnd (o : N).             (* drop the view *)

Inductive kevent :=
| KeStarted (o : N)
| KeStamp (t : N)
| KeTau
| KeBorrowed
| KeFailed                  (* borrow error; the operation is over *)
| KeAnswer (b : bool).

Definition set_op (o : N) (p : op) (s : kst) : kst :=
  {| clock := clock s; last_runs := last_runs s; stamps := stamps s; ops := <[o := p]> (ops s);
     next_op := next_op s |}.
Definition del_op (o : N) (s : kst) : kst :=
  {| clock := clock s; last_runs := last_runs s; stamps := stamps s; ops := delete o (ops s);
     next_op := next_op s |}.
(** [self.counter.fetch_add(1, Acquire)], wrapping like the machine operation. *)
Definition tick (s : kst) : kst :=
  {| clock := (clock s + 1) mod 2 ^ 64; last_runs := last_runs s; stamps := stamps s; ops := ops s;
     next_op := next_op s |}.
(** [last_run.swap(current.get(), Acquire)] *)
Definition swap (j t : N) (s : kst) : kst :=
  {| clock := clock s; last_runs := <[j := t]> (last_runs s); stamps := stamps s; ops := ops s;
     next_op := next_op s |}.
Definition stamp (e t : N) (s : kst) : kst :=
  {| clock := clock s; last_runs := last_runs s; stamps := <[e := t]> (stamps s); ops := ops s;
     next_op := next_op s |}.

Definition k_conflict (excl : bool) (p : op) : bool :=
  match op_phase p with KHolding _ _ => excl || op_excl p | _ => false end.
Definition k_can_borrow (excl : bool) (s : kst) : bool :=
  negb (existsb (fun kv => k_conflict excl kv.2) (map_to_list (ops s))).

Definition with_phase (p : op) (ph : phase) : op :=
  {| op_sys := op_sys p; op_excl := op_excl p; op_phase := ph |}.

Definition k_borrow (o : N) (p : op) (last current : N) (s : kst) : kst * kevent :=
  if k_can_borrow (op_excl p) s then (set_op o (with_phase p (KHolding last current)) s, KeBorrowed)
  else (del_op o s, KeFailed).

Definition k_next (o : N) (p : op) (s : kst) : option (kst * kevent) :=
  match op_phase p with
  | KStarted => Some (set_op o (with_phase p (KStamped (clock s))) (tick s), KeStamp (clock s))
  | KStamped c =>
      match op_sys p with
      | Some j => Some (set_op o (with_phase p (KSwapped (last_run s j) c)) (swap j c s), KeTau)
      | None => Some (k_borrow o p 0 c s)
      end
  | KSwapped l c => Some (k_borrow o p l c s)
  | KHolding _ _ => None
  end.

Definition k_step (s : kst) (a : kaction) : option (kst * kevent) :=
  match a with
  | KStart sys excl =>
      Some ({| clock := clock s; last_runs := last_runs s; stamps := stamps s;
               ops := <[next_op s := {| op_sys := sys; op_excl := excl; op_phase := KStarted |}]> (ops s);
               next_op := next_op s + 1 |}, KeStarted (next_op s))
  | KNext o => match ops s !! o with Some p => k_next o p s | None => None end
  | KChange o e =>
      match ops s !! o with
      | Some p =>
          match op_excl p, op_phase p with
          | true, KHolding _ c => Some (stamp e c s, KeTau)
          | _, _ => None
          end
      | None => None
      end
  | KQuery o e =>
      match ops s !! o with
      | Some p =>
          match op_sys p, op_phase p with
          | Some _, KHolding l c =>
              Some (s, KeAnswer (match stamps s !! e with Some t => is_within t l c | None => false end))
          | _, _ => None
          end
      | None => None
      end
  | KEnd o =>
      match ops s !! o with
      | Some p => match op_phase p with KHolding _ _ => Some (del_op o s, KeTau) | _ => None end
      | None => None
      end
  end.

(** All runs during which the 64-bit counter does not wrap. *)
Inductive k_reach : list (kaction * kevent) -> kst -> Prop :=
| k_reach_init : k_reach [] k_init
| k_reach_step tr s a s' ev :
    k_reach tr s -> clock s + 1 < 2 ^ 64 -> k_step s a = Some (s', ev) -> k_reach (tr ++ [(a, ev)]) s'.
