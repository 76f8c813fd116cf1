(** Workloads as they are written: which labels the parts carry when they are put together, and the name a
    workload is stored under. Systems and workloads are those of Sched.v; here are added the functions that
    return workloads (src/scheduler/into_workload.rs 140-158, src/scheduler/workload_modificator.rs 206-289)
    and World::add_workload (src/scheduler/workload.rs 87-113), and the expressions users write. *)
From stdpp Require Import prelude countable list gmap.
From Verif Require Import Sched.
Local Open Scope nat_scope.

(** * Expressions *)

(** What is called on a system: src/scheduler/system_modificator.rs 120-200, 201-262. *)
Inductive smod :=
| MTag (n : N) | MBefore (n : N) | MAfter (n : N)
| MReqIn (n : N) | MReqBefore (n : N) | MReqAfter (n : N)
| MRunIf (c : cond) | MSkipIf (c : cond).
(** A system: its function ([sx_label] is its SystemLabel), what it borrows, and what is called on it. *)
Record sx := Sx { sx_type : N; sx_fn : N; sx_label : N; sx_borrows : list tinfo; sx_mods : list smod }.

(** What is called on a workload. [WFun f]: the function [f] that returns it is used in its place — as
    element of a tuple, by [f.into_workload()], or with a modificator, [f.run_if(..)]. [WSeqTag],
    [WSeqBefore]: what into_sequential_workload of a tuple does to its elements. *)
Inductive wmod :=
| WTag (n : N) | WRename (n : N) | WBefore (n : N) | WAfter (n : N) | WRunIf (c : cond)
| WBarrier | WSystem (s : sx) | WFun (f : N)
| WSequential | WSeqTag | WSeqBefore (l : label).

(** [XTuple1]: the first element of a tuple; the others are added by [XMerge] (into_workload.rs 231-234).
    [XMerge]: merge and with_workload; [XAppend]: append. *)
Inductive wx :=
| XNew (n : N)
| XSingle (n : N) (s : sx)
| XTuple1 (n : N) (w : wx)
| XMod (m : wmod) (w : wx)
| XMerge (w o : wx)
| XAppend (w o : wx).

(** * Meaning *)

Definition smod_apply (s : wsys) (m : smod) : wsys :=
  match m with
  | MTag n => s_tag (LName n) s
  | MBefore n => s_before_all (LName n) s
  | MAfter n => s_after_all (LName n) s
  | MReqIn n => s_require_in (LName n) s
  | MReqBefore n => s_require_before (LName n) s
  | MReqAfter n => s_require_after (LName n) s
  | MRunIf c => s_run_if c s
  | MSkipIf c => s_skip_if c s
  end.
Definition sx_eval (s : sx) : wsys :=
  fold_left smod_apply (sx_mods s) (mk_wsys (sx_type s) (sx_fn s) (LName (sx_label s)) (sx_borrows s)).

(** [workload = workload.tag(label.clone()); workload.name = Box::new(label)]: into_workload.rs 148-158,
    workload_modificator.rs 212-220 and so on. overwritten_name stays as it was. *)
Definition wl_fun (f : label) (w : workload) : workload :=
  {| wl_name := f; wl_tags := wl_tags w ++ [f]; wl_systems := wl_systems w;
     wl_run_if := wl_run_if w; wl_before_all := wl_before_all w;
     wl_after_all := wl_after_all w; wl_overwritten := wl_overwritten w;
     wl_req_before := wl_req_before w; wl_req_after := wl_req_after w;
     wl_barriers := wl_barriers w |}.

(** workload_modificator.rs 111-204, workload.rs 295-302, 552-556, into_workload.rs 120-138, 262-275.
    [None]: into_sequential_workload panics. *)
Definition wmod_apply (m : wmod) (w : workload) : option workload :=
  match m with
  | WTag n => Some (wl_tag (LName n) w)
  | WRename n => Some (wl_rename (LName n) w)
  | WBefore n => Some (wl_before (LName n) w)
  | WAfter n => Some (wl_after (LName n) w)
  | WRunIf c => Some (wl_set_run_if c w)
  | WBarrier => Some (wl_with_barrier w)
  | WSystem s => Some (wl_with_system (sx_eval s) w)
  | WFun f => Some (wl_fun (LName f) w)
  | WSequential => wl_into_sequential w
  | WSeqTag => Some (wl_tag (LSeq (wl_name w)) w)
  | WSeqBefore l => Some (wl_before (LSeq l) w)
  end.
Fixpoint eval (e : wx) : option workload :=
  match e with
  | XNew n => Some (wl_new (LName n))
  | XSingle n s => Some (single_workload (LName n) (sx_eval s))
  | XTuple1 n w => w ← eval w; Some (wl_merge (tuple_start (LName n)) w)
  | XMod m w => w ← eval w; wmod_apply m w
  | XMerge w o => w ← eval w; o ← eval o; Some (wl_merge w o)
  | XAppend w o => w ← eval w; o ← eval o; Some (wl_append w o)
  end.

(** World::add_workload with the function [f], after it returned [w]: workload.rs 87-113. *)
Definition add_workload (f : N) (w : workload) (sc : sched) :=
  let tags := wl_tags w ++ [LName f] in
  create_workload
    {| wl_name := if wl_overwritten w then wl_name w else LName f;
       wl_tags := if wl_overwritten w then tags ++ [wl_name w] else tags;
       wl_systems := wl_systems w; wl_run_if := wl_run_if w; wl_before_all := wl_before_all w;
       wl_after_all := wl_after_all w; wl_overwritten := wl_overwritten w;
       wl_req_before := wl_req_before w; wl_req_after := wl_req_after w; wl_barriers := wl_barriers w |} sc.
