(** Adding a workload to a world: the scheduler, what [World::workloads_info] lists and the tracking
    the systems need.

    src/scheduler/workload.rs ([ScheduledWorkload], [add_to_world], [build]), src/scheduler/mod.rs,
    src/sparse_set/mod.rs ([enable_tracking]), src/advanced/tracking/tuple_track.rs.

    The scheduler is that of Sched.v, the storages are those of ViewTypes.v: which component storages
    exist and what they track. The parameters of a system are known from its type, as in the code
    ([par]: from [w_type]); component types are declared Untracked, so that only what is enabled at run
    time counts. *)
From stdpp Require Import prelude list gmap.
From Coq Require Import NArith.
From Verif Require Import Sched ViewTypes.
Local Open Scope nat_scope.

(** What [add_to_world] touches: [Scheduler] (scheduler/mod.rs 39-50), the field workloads_info apart,
    and the storages. *)
Record aw := {
  a_sched : sched;
  a_infos : gmap label (list binfo);
  a_world : bw
}.
(** [World::default]: an empty scheduler, no storage of components. *)
Definition aw_new : aw :=
  {| a_sched := sc_new; a_infos := ∅; a_world := {| b_comps := ∅; b_uniqs := ∅; b_next := 0 |} |}.

(** [error::AddWorkload], error.rs 274-296. *)
Inductive aerr :=
| ABorrow                     (* Borrow: the scheduler is borrowed *)
| ACreate (e : werr)          (* AlreadyExists, ImpossibleRequirements, Missing*  *)
| ATrackAll                   (* TrackingAllStoragesBorrow *)
| ATrack (e : berr).          (* TrackingStorageBorrow *)
Inductive aout := Added | Refused (e : aerr) | Unreachable.

(** [SparseSet::enable_tracking], sparse_set/mod.rs 524-537: nothing is switched off. *)
Definition enable (s : bw) (v : wrap) (T : N) (tr : trk) : bw :=
  {| b_comps := <[(v, T) := trk_or (default no_trk (b_comps s !! (v, T))) tr]> (b_comps s);
     b_uniqs := b_uniqs s; b_next := b_next s |}.

(** One of the functions pushed by [BorrowInfo::enable_tracking], borrow_info.rs 149-160 ... 455-477:
    custom_storage_or_insert*_mut, which creates a missing storage, then [enable_tracking]. [gs]: the
    guards that are alive. *)
Definition enable_one (home : bool) (gs : list grd) (s : bw) (f : wrap * N * trk) : bw * option berr :=
  let '(v, T, tr) := f in
  match attempt home gs s (RComp v true T no_trk) with
  | (s', AGot _) => (enable s' v T tr, None)
  | (s', AErr e) => (s', Some e)
  | (s', APanic) => (s', Some EMissing)
  end.
(** The loop of workload.rs 469-476 (and 79-81): it stops at the first error and leaves what was done. *)
Fixpoint enable_all (home : bool) (gs : list grd) (s : bw) (fs : list (wrap * N * trk)) : bw * option berr :=
  match fs with
  | [] => (s, None)
  | f :: fs => match enable_one home gs s f with (s', None) => enable_all home gs s' fs | r => r end
  end.

(** [tracking_to_enable]: create_workload.rs 325, the functions of the systems in the order of the
    workload, also of the systems that the scheduler knew (into_workload_system.rs 140-143). Conditions
    have none: into_workload_run_if.rs 48-91, 141-182. *)
Definition wl_tracking (par : N → list param) (wl : workload) : list (wrap * N * trk) :=
  flat_map (λ x, sys_tracking (par (w_type x))) (wl_systems wl).

(** [Workload::add_to_world], workload.rs 436-481. [sb]: the scheduler is borrowed; [home]: called on the
    main thread; [gs]: the guards that are alive. The borrow of all storages stays until the end.
    None: [create_workload] does not end, see C30. *)
Definition add_to_world (par : N → list param) (home sb : bool) (gs : list grd) (wl : workload) (st : aw) :
    option (aw * aout) :=
  if sb then Some (st, Refused ABorrow)
  else
    match create_workload wl (a_sched st) with
    | None => None
    | Some (sc, inl e) =>
        Some ({| a_sched := sc; a_infos := a_infos st; a_world := a_world st |}, Refused (ACreate e))
    | Some (sc, inr (info, _, _)) =>
        match try_cell gs CAll WNone false home with
        | AGot g =>
            match enable_all home (gs ++ [g]) (a_world st) (wl_tracking par wl) with
            | (w, None) =>
                Some ({| a_sched := sc; a_infos := <[wl_name wl := info]> (a_infos st); a_world := w |}, Added)
            | (w, Some e) =>
                Some ({| a_sched := sc; a_infos := a_infos st; a_world := w |},
                      match e with
                      | EBorrow | EThread => Refused (ATrack e)
                      | EMissing | ETrack => Unreachable
                      end)
            end
        | _ => Some ({| a_sched := sc; a_infos := a_infos st; a_world := a_world st |}, Refused ATrackAll)
        end
    end.

(** [Workload::build], workload.rs 519-549: a scheduler of its own. [ScheduledWorkload] (34-46): the
    functions, the batches and the tracking to enable. *)
Record scheduled := { sw_fns : fns; sw_batches : batches; sw_tracking : list (wrap * N * trk) }.
Definition build (par : N → list param) (wl : workload) : option (werr + scheduled * list binfo) :=
  match create_workload wl sc_new with
  | None => None
  | Some (_, inl e) => Some (inl e)
  | Some (sc, inr (info, ba, _)) =>
      Some (inr ({| sw_fns := sc_fns sc; sw_batches := ba; sw_tracking := wl_tracking par wl |}, info))
  end.
(** [ScheduledWorkload::apply_tracking], workload.rs 74-84. *)
Definition sw_apply (home : bool) (gs : list grd) (sw : scheduled) (s : bw) : bw * option berr :=
  match try_cell gs CAll WNone false home with
  | AGot g => enable_all home (gs ++ [g]) s (sw_tracking sw)
  | AErr e => (s, Some e)
  | APanic => (s, Some EBorrow)
  end.

(** What may happen to a world between two runs, as far as workloads and tracking go. *)
Inductive aop :=
| OAdd (home sb : bool) (gs : list grd) (wl : workload)   (* add_to_world *)
| OSetDefault (l : label)                                   (* set_default_workload *)
| ORename (old new : label)                                 (* rename_workload, which leaves workloads_info alone *)
| OBorrow (home : bool) (gs : list grd) (r : req)          (* a view is borrowed *)
| OAddUnique (T : N)                                        (* add_unique *)
| ORemoveUnique (T : N)                                     (* remove_unique, all_storages/mod.rs 204-240 *)
| OTrack (T : N) (tr : trk)                                 (* World::track_insertion .. track_all, world.rs 1283-1313;
                                                               one element of tuple_track.rs 22-110 *)
| OApply (home : bool) (gs : list grd) (sw : scheduled)     (* apply_tracking *)
| OCloneOver (ts : list (wrap * N * trk)).                  (* other.clone_storages_to(this world), all_storages/mod.rs 1639-1710:
                                                               the cloned storages replace those of this world *)

(** What the clone tracks: try_clone, sparse_set/mod.rs 835-855 (nothing), and those of
    sparse_set/thread_local.rs 64-90, 165-191, 268-294 (what the source, here [t], tracks). *)
Definition cloned_trk (v : wrap) (t : trk) : trk := match v with WNone => no_trk | _ => t end.

Definition a_with (w : bw) (st : aw) : aw :=
  {| a_sched := a_sched st; a_infos := a_infos st; a_world := w |}.
Definition a_sc (sc : sched) (st : aw) : aw :=
  {| a_sched := sc; a_infos := a_infos st; a_world := a_world st |}.
Definition a_step (par : N → list param) (st : aw) (o : aop) : aw :=
  match o with
  | OAdd home sb gs wl => match add_to_world par home sb gs wl st with Some (st', _) => st' | None => st end
  | OSetDefault l => a_sc (set_default l (a_sched st)).1 st
  | ORename old new => a_sc (sc_rename old new (a_sched st)) st
  | OBorrow home gs r => a_with (attempt home gs (a_world st) r).1 st
  | OAddUnique T => a_with (add_uniq (a_world st) T) st
  | ORemoveUnique T =>
      a_with {| b_comps := b_comps (a_world st); b_uniqs := delete T (b_uniqs (a_world st));
                b_next := b_next (a_world st) |} st
  | OTrack T tr => a_with (enable (a_world st) WNone T tr) st
  | OApply home gs sw => a_with (sw_apply home gs sw (a_world st)).1 st
  | OCloneOver ts =>
      a_with (fold_left (λ s f, {| b_comps := <[f.1 := cloned_trk f.1.1 f.2]> (b_comps s);
                                   b_uniqs := b_uniqs s; b_next := b_next s |}) ts (a_world st)) st
  end.
Definition a_run (par : N → list param) (st : aw) (os : list aop) : aw := fold_left (a_step par) os st.
