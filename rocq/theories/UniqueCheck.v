(** [Workload::are_all_uniques_present_in_world]: src/scheduler/workload.rs 482-517 and
    [check_uniques_in_systems], 559-577.

    The borrows of the systems are those of ViewTypes.v.  The code recognizes a unique storage by its
    type name, which begins with the name of [UniqueStorage]; here by its [StorageId].  The guard of the
    table of storages is taken in one step: nothing else happens during the call. *)
From stdpp Require Import prelude list gmap.
From Coq Require Import NArith.
From Verif Require Import Sched ViewTypes.
Local Open Scope nat_scope.

(** A system as it is added to a workload: its parameters and body, and the parameters of its run
    condition (into_workload_run_if.rs 37-90), which are borrowed when the condition is evaluated but are
    not among the [borrow_constraints] of the system (system_modificator.rs 201-213). *)
Record usys := { u_sys : sys; u_cond : option (list param) }.

(** [borrow_constraints] of a WorkloadSystem, into_workload_system.rs 106-109, 145 and
    into_workload_try_system.rs 155-158, 195. *)
Definition constraints (tl : bool) (x : usys) : list tinfo := sys_info tl (s_params (u_sys x)).

(** The program that evaluates a run condition: into_workload_run_if.rs 81-88. *)
Definition ccond (ps : list param) : prog := csys {| s_params := ps; s_acts := [] |}.

(** [type_info.name.starts_with(unique_name)], workload.rs 569; the unique of a StorageId of
    UniqueStorage<T>. *)
Definition uniq_of (t : tinfo) : option N :=
  match t_storage t with
  | SId n => if N.eqb n 0 then None else if N.even n then Some (n / 2 - 1)%N else None
  | SAll => None
  end.

(** workload.rs 559-577: the first borrow of a unique that is not in the table of storages, whose keys
    do not depend on how the unique was added (all_storages/mod.rs 110-197). *)
Fixpoint check_uniques_in_systems (w : bw) (bs : list tinfo) : option tinfo :=
  match bs with
  | [] => None
  | t :: bs =>
      match uniq_of t with
      | Some T => if b_uniqs w !! T then check_uniques_in_systems w bs else Some t
      | None => check_uniques_in_systems w bs
      end
  end.

(** error::UniquePresence, error.rs 677-687 *)
Inductive presence := UPOk | UPUnique (t : tinfo) | UPAllStorages.

(** workload.rs 510-516 *)
Fixpoint check_systems (w : bw) (ss : list (list tinfo)) : presence :=
  match ss with
  | [] => UPOk
  | bs :: ss =>
      match check_uniques_in_systems w bs with
      | Some t => UPUnique t
      | None => check_systems w ss
      end
  end.

(** workload.rs 488-517; [gs]: the guards alive. *)
Definition are_all_uniques_present (tl : bool) (gs : list (cell * bool)) (w : bw) (ss : list usys) : presence :=
  match try_cell gs CAll WNone false true with
  | AGot _ => check_systems w (map (constraints tl) ss)
  | _ => UPAllStorages
  end.

(** The batches of a workload, one after the other, each on the world the one before left; every
    system of a batch may be anywhere in its execution when the next batch begins (world/run_batches.rs
    waits for it, which makes no difference here). *)
Inductive chain (thr : nat → bool) : bw → list (list sys) → list (list (nat * bevent)) → bw → Prop :=
| ChNil w : chain thr w [] [] w
| ChCons w ss sss tr trs s w' :
    b_reach thr (b_start w ss) tr s → chain thr (b_world s) sss trs w' →
    chain thr w (ss :: sss) (tr :: trs) w'.
