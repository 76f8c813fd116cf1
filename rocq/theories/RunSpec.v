(** Vocabulary for the theorems on running workloads: what a run looks like from outside. *)
From stdpp Require Import prelude countable list gmap.
From Verif Require Import Sched SchedSpec Run.
Local Open Scope nat_scope.

Section spec.
Context {V E T : Type}.

Definition ev_task (e : event V E T) : T :=
  match e with EvCond t _ _ | EvCondErr t _ _ | EvStart t _ | EvEnd t _ => t end.

(** The systems started, finished, and the conditions evaluated, in order. *)
Definition starts (tr : list (event V E T)) : list T :=
  omap (λ e, match e with EvStart t _ => Some t | _ => None end) tr.
Definition ends (tr : list (event V E T)) : list T :=
  omap (λ e, match e with EvEnd t _ => Some t | _ => None end) tr.
Definition conds (tr : list (event V E T)) : list T :=
  omap (λ e, match e with EvCond t _ _ | EvCondErr t _ _ => Some t | _ => None end) tr.

(** The run condition of [t] was evaluated to true. *)
Definition passed (tr : list (event V E T)) (t : T) : Prop := ∃ m, EvCond t m true ∈ tr.
(** [t] returned the error [e], or its run condition did. *)
Definition failed (tr : list (event V E T)) (t : T) (e : E) : Prop :=
  EvEnd t (Some e) ∈ tr ∨ ∃ m, EvCondErr t m e ∈ tr.
End spec.

(** The placed system in a slot of a batch. *)
Definition slot_of (b : binfo) (s : slot) : option psys :=
  match s with Sgl => bi_single b | Par j => bi_par b !! j end.
(** The declared system number [i] is run as [t]. *)
Definition runs_as (info : list binfo) (i : nat) (t : task) : Prop :=
  ∃ b s, info !! t.1 = Some b ∧ slot_of b t.2 = Some s ∧ pos s = i.

(** A program that only uses the storages it declared. *)
Definition may_read (bs : list tinfo) (s : N) : Prop :=
  ∃ t, t ∈ bs ∧ (t_storage t = SId s ∨ t_storage t = SAll).
Definition may_write (bs : list tinfo) (s : N) : Prop :=
  ∃ t, t ∈ bs ∧ ((t_storage t = SId s ∧ t_excl t = true) ∨ t_storage t = SAll).
Inductive respects {V A} (bs : list tinfo) : prog V A → Prop :=
| RespRet a : respects bs (Ret a)
| RespRd s k : may_read bs s → (∀ v, respects bs (k v)) → respects bs (Rd s k)
| RespWr s v p : may_write bs s → respects bs p → respects bs (Wr s v p).

(** A run condition that changes nothing, and that no write of a system of the workload can
    influence. *)
Definition steady {V E} (condf : N → prog V (E + bool)) (ss : list wsys) (c : cond) : Prop :=
  (∀ m, (ceval condf c m).1 = m) ∧
  (∀ m s v x, x ∈ ss → may_write (w_borrows x) s →
     (ceval condf c (put s v m)).2 = (ceval condf c m).2).

(** The scheduler [sc2] still has the workload built as [ba] in [sc']; functions are only
    ever added to a scheduler. *)
Definition loaded (sc' sc2 : sched) (l : label) (ba : batches) : Prop :=
  sc_workload l sc2 = Some ba ∧ f_systems (sc_fns sc') `prefix_of` f_systems (sc_fns sc2).
(** The condition of a whole workload holds. *)
Definition enabled {V E} (condf : N → prog V (E + bool)) (w : workload) (m : store V) : Prop :=
  match wl_run_if w with None => True | Some c => (ceval condf c m).2 = inr true end.
