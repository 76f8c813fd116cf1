(** The tracking counter and the last_run words of systems under weak memory: src/world.rs 842-852 and
    src/all_storages/mod.rs 1231-1243 (get_current, get_tracking_timestamp), src/scheduler/into_workload_system.rs 151-155
    (likewise into_workload_try_system.rs 198-201, 275-278, into_workload_run_if.rs 85-88, 177-180).

    Clock.v is about the same code with sequentially consistent steps. Here a word is a sequence of
    messages ordered by timestamps (its modification order), as in WeakBorrow.v, and a thread has seen each
    word up to some message. A read-modify-write reads a message that is not older than what
    the thread has seen and writes right behind it (the place has to be free); a load reads any message that is not older than
    what the thread has seen. The instructions use Acquire, and no instruction on these words
    uses Release, so nothing becomes known through them; what orders threads (borrows of cells, locks, joins: C71) is
    [ASync]. Release sequences and the views carried by messages are left out for that reason.
    Like in WeakBorrow.v there are no cycles of program order and reads-from. *)
From stdpp Require Import prelude list gmap.
From Coq Require Import NArith.
From Verif Require Import EntityId Base SparseSet.
Open Scope N_scope.

(** The words: 0 is the counter, j + 1 is the last_run of system j. *)
Record cst := {
  c_mem : N → N → option N;      (* word, timestamp: the value *)
  c_seen : N → N → N;            (* thread, word: the latest message seen *)
  c_cur : N → option N           (* thread: [current], its latest result of get_current *)
}.

(** World::default, world.rs 46-61: the counter starts at 1; into_workload_system.rs 145: last_run starts
    at 0. *)
Definition c_init : cst :=
  {| c_mem := λ l τ, if τ =? 0 then Some (if l =? 0 then 1 else 0) else None;
     c_seen := λ _ _, 0; c_cur := λ _, None |}.

Definition upd2 {A} (f : N → N → A) (a b : N) (x : A) : N → N → A :=
  λ a' b', if (a' =? a) && (b' =? b) then x else f a' b'.

(** What happened: a read-modify-write of word [l] by thread [t] that read [v] at [τ] and wrote [v'] at
    [τ + 1]; a load; everything so far in thread [a] happens before what comes next in [b]. *)
Inductive cevent :=
| ERmw (t l τ v v' : N)
| ELoad (t l τ v : N)
| ESync (a b : N).

Definition c_rmw (t l τ : N) (f : N → N) (s : cst) : option (cst * N * N) :=
  match c_mem s l τ, c_mem s l (τ + 1) with
  | Some v, None =>
      if c_seen s t l <=? τ then
        Some ({| c_mem := upd2 (c_mem s) l (τ + 1) (Some (f v)); c_seen := upd2 (c_seen s) t l (τ + 1);
                 c_cur := c_cur s |}, v, f v)
      else None
  | _, _ => None
  end.

Inductive caction :=
| AFetch (t τ : N)        (* get_current *)
| ASwap (t j τ : N)       (* last_run.swap(current, Acquire) in a run of system j *)
| ALoad (t τ : N)         (* get_tracking_timestamp *)
| ASync (a b : N).

(** fetch_add wraps around (world.rs 842-847). [ASwap] follows a get_current of the same thread
    (into_workload_system.rs 152-153). *)
Definition c_step (s : cst) (a : caction) : option (cst * cevent) :=
  match a with
  | AFetch t τ =>
      match c_rmw t 0 τ (λ v, (v + 1) mod 2 ^ 64) s with
      | Some (s', v, v') =>
          Some ({| c_mem := c_mem s'; c_seen := c_seen s'; c_cur := λ t', if t' =? t then Some v else c_cur s' t' |},
                ERmw t 0 τ v v')
      | None => None
      end
  | ASwap t j τ =>
      match c_cur s t with
      | Some current =>
          match c_rmw t (j + 1) τ (λ _, current) s with
          | Some (s', v, v') => Some (s', ERmw t (j + 1) τ v v')
          | None => None
          end
      | None => None
      end
  | ALoad t τ =>
      match c_mem s 0 τ with
      | Some v =>
          if c_seen s t 0 <=? τ then
            Some ({| c_mem := c_mem s; c_seen := upd2 (c_seen s) t 0 τ; c_cur := c_cur s |}, ELoad t 0 τ v)
          else None
      | None => None
      end
  | ASync a b =>
      Some ({| c_mem := c_mem s;
               c_seen := λ t l, if t =? b then N.max (c_seen s a l) (c_seen s b l) else c_seen s t l;
               c_cur := c_cur s |}, ESync a b)
  end.

Inductive c_reach : list cevent → cst → Prop :=
| CR_init : c_reach [] c_init
| CR_step tr s a s' ev : c_reach tr s → c_step s a = Some (s', ev) → c_reach (tr ++ [ev]) s'.

(** A given schedule, for concrete cases. *)
Fixpoint c_exec (s : cst) (l : list caction) : option (cst * list cevent) :=
  match l with
  | [] => Some (s, [])
  | a :: l =>
      match c_step s a with
      | None => None
      | Some (s', ev) => match c_exec s' l with Some (s'', tr) => Some (s'', ev :: tr) | None => None end
      end
  end.
