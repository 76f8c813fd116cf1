(** The parameters of systems: what they declare to the scheduler and what they borrow when the
    system runs.

    src/borrow/mod.rs ([Borrow]), src/borrow/borrow_info.rs ([BorrowInfo]), src/borrow/world_borrow.rs
    ([WorldBorrow]), src/views/unique_or_default.rs, unique_or_default_mut.rs, unique_or_init.rs,
    unique_or_init_mut.rs, src/scheduler/into_workload_system.rs 95-170 (the system function),
    src/scheduler/workload.rs 74-84 (apply_tracking).

    Any number of systems run at the same time, each on its thread. One step per borrow attempt, per
    guard dropped and per unique added. An attempt (the lookup in the table of storages, the creation of
    a missing storage, the borrow of its cell and check_tracking) is one step: C27 and C28 are about the
    table, C25, C26 and C57 about the cells. Views are types without values here; what a system does
    with its views is not modelled, except for the methods of UniqueOrInitView(Mut), which borrow. *)
From stdpp Require Import prelude list gmap.
From Coq Require Import NArith.
From Verif Require Import Sched.
Local Open Scope nat_scope.

(** * The types of parameters *)

(** No wrapper, [NonSend], [NonSync], [NonSendSync]: src/borrow/non_send.rs, non_sync.rs,
    non_send_sync.rs. *)
Inductive wrap := WNone | WSend | WSync | WBoth.
Global Instance wrap_eq_dec : EqDecision wrap.
Proof. solve_decision. Defined.
Global Instance wrap_countable : Countable wrap.
Proof.
  refine (inj_countable'
    (λ w, match w with WNone => 0 | WSend => 1 | WSync => 2 | WBoth => 3 end)
    (λ n, match n with 0 => WNone | 1 => WSend | 2 => WSync | _ => WBoth end) _).
  by intros [].
Defined.

(** What a view's [Track] asks for: insertion, modification, deletion, removal
    (advanced/tracking.rs 13-67). *)
Definition trk : Type := bool * bool * bool * bool.
Definition no_trk : trk := (false, false, false, false).
Definition trk_or (a b : trk) : trk :=
  let '(a1, a2, a3, a4) := a in let '(b1, b2, b3, b4) := b in
  (a1 || b1, a2 || b2, a3 || b3, a4 || b4).
(** check_tracking, sparse_set/mod.rs 509-523: nothing asked for is missing. *)
Definition trk_le (a b : trk) : bool :=
  let '(a1, a2, a3, a4) := a in let '(b1, b2, b3, b4) := b in
  implb a1 b1 && implb a2 b2 && implb a3 b3 && implb a4 b4.

(** The implementors of [Borrow], borrow/mod.rs 95-697. [m] is true for the exclusive view. Types of
    components and uniques are numbers. *)
Inductive view :=
| VNothing                                      (* [()] and [Nothing], 95-123 *)
| VEnt (m : bool)                               (* EntitiesView, EntitiesViewMut, 125-167 *)
| VComp (w : wrap) (m : bool) (T : N) (tr : trk)  (* View, ViewMut, 169-403 *)
| VUniq (w : wrap) (m : bool) (T : N)           (* UniqueView, UniqueViewMut, 405-645 *)
| VOption (v : view)                            (* 647-659 *)
| VTuple (vs : list view).                      (* 661-697 *)

(** The implementors of [WorldBorrow]: world_borrow.rs 21-73 and the four views that add a missing
    unique. *)
Inductive param :=
| PView (v : view)
| PAll (m : bool)                               (* AllStoragesView, AllStoragesViewMut *)
| POrDefault (m : bool) (T : N)                 (* UniqueOrDefaultView, UniqueOrDefaultViewMut *)
| POrInit (m : bool) (T : N).                   (* UniqueOrInitView, UniqueOrInitViewMut *)

(** * What is declared *)

(** [StorageId]s: Entities, SparseSet<T>, UniqueStorage<T>. *)
Definition sid_ent : storage := SId 0.
Definition sid_comp (T : N) : storage := SId (2 * T + 1).
Definition sid_uniq (T : N) : storage := SId (2 * T + 2).

(** The field thread_safe of the views, borrow_info.rs 137-449: shared access needs Sync, exclusive
    access needs Send. *)
Definition leaf_safe (w : wrap) (m : bool) : bool :=
  match w, m with
  | WNone, _ => true
  | WSend, m => negb m
  | WSync, m => m
  | WBoth, _ => false
  end.

(** [BorrowInfo::borrow_info] of the types that are [Borrow], borrow_info.rs 73-81, 113-497. The wrapped
    views of components declare SparseSet<T>, whichever the wrapper. *)
Fixpoint view_info (v : view) : list tinfo :=
  match v with
  | VNothing => []
  | VEnt m => [{| t_storage := sid_ent; t_excl := m; t_safe := true |}]
  | VComp w m T _ => [{| t_storage := sid_comp T; t_excl := m; t_safe := leaf_safe w m |}]
  | VUniq w m T => [{| t_storage := sid_uniq T; t_excl := m; t_safe := leaf_safe w m |}]
  | VOption v => view_info v
  | VTuple vs => flat_map view_info vs
  end.

(** [borrow_info] of a parameter; [tl]: the feature thread_local is on (borrow_info.rs 83-111;
    unique_or_default.rs 52-55, unique_or_default_mut.rs 58-61, unique_or_init.rs 170-173,
    unique_or_init_mut.rs 185-188 declare what UniqueView, UniqueViewMut declare). *)
Definition param_info (tl : bool) (p : param) : list tinfo :=
  match p with
  | PView v => view_info v
  | PAll m => [{| t_storage := SAll; t_excl := m; t_safe := negb tl |}]
  | POrDefault m T => view_info (VUniq WNone m T)
  | POrInit m T => view_info (VUniq WNone m T)
  end.

(** The borrow constraints of a system, into_workload_system.rs 106-109. *)
Definition sys_info (tl : bool) (ps : list param) : list tinfo := flat_map (param_info tl) ps.

(** * The storages *)

(** A cell that is borrowed. The uniques are numbered in the order they are added: adding a unique
    replaces the storage, cell included. The wrapped storages of components are storages of their own
    (StorageId::of::<NonSend<SparseSet<T>>>(), ..), unlike those of uniques. *)
Inductive cell := CAll | CEnt | CComp (w : wrap) (T : N) | CUniq (T g : N).
Global Instance cell_eq_dec : EqDecision cell.
Proof. solve_decision. Defined.

Notation grd := (cell * bool)%type (only parsing).   (* true: exclusive *)

Record bw := {
  b_comps : gmap (wrap * N) trk;           (* component storages and what they track *)
  b_uniqs : gmap N (N * wrap);             (* uniques: number of the cell, how it was added *)
  b_next : N
}.

(** The borrow requests: the calls of AllStorages in borrow/mod.rs 125-645 and of
    [World::all_storages] in world_borrow.rs. *)
Inductive req :=
| RAll (m : bool)
| REnt (m : bool)
| RComp (w : wrap) (m : bool) (T : N) (tr : trk)
| RUniq (w : wrap) (m : bool) (T : N).

(** error::GetStorage, error.rs: the cell is borrowed, MissingStorage, wrong thread, TrackingNotEnabled. *)
Inductive berr := EBorrow | EMissing | EThread | ETrack.

(** How a cell is accessed: BorrowState::read, exclusive_read, write (advanced/atomic_refcell/borrow_state.rs 50-103). *)
Inductive access := ARead | AXRead | AWrite.
Definition acc_excl (a : access) : bool := match a with AWrite => true | _ => false end.

(** AtomicRefCell::borrow / borrow_mut select the access by how the cell was made
    (advanced/atomic_refcell.rs 151-239, SBox::new, new_non_send, new_non_sync, new_non_send_sync);
    None: refused, wrong thread. *)
Definition access_of (w : wrap) (m home : bool) : option access :=
  match w, m with
  | WNone, false => Some ARead
  | WNone, true => Some AWrite
  | WSend, false => Some ARead
  | WSend, true => if home then Some AWrite else None
  | WSync, false => Some AXRead
  | WSync, true => Some AWrite
  | WBoth, false => if home then Some ARead else None
  | WBoth, true => if home then Some AWrite else None
  end.

(** A read is refused while an exclusive guard of the cell is alive, the others while any is. *)
Definition blocks (c : cell) (a : access) (g : grd) : bool :=
  bool_decide (g.1 = c) && match a with ARead => g.2 | _ => true end.
Definition blocked (gs : list grd) (c : cell) (a : access) : bool := existsb (blocks c a) gs.

Inductive answer := AGot (g : grd) | AErr (e : berr) | APanic.

Definition try_cell (gs : list grd) (c : cell) (w : wrap) (m home : bool) : answer :=
  match access_of w m home with
  | None => AErr EThread
  | Some a => if blocked gs c a then AErr EBorrow else AGot (c, acc_excl a)
  end.

(** One request, all guards alive being [gs]; [home]: made by the main thread.
    RAll: world_borrow.rs 29-36, 47-71. REnt: all_storages/mod.rs 1071-1100.
    RComp: custom_storage_or_insert* (custom_storage.rs 305-800): a missing storage is created, by the
    main thread only if it is !Send; then check_tracking (borrow/mod.rs 169-403), which drops the guard
    when it fails.
    RUniq: custom_storage(_mut)(_by_id), custom_storage.rs 215-304, and the downcast to the wrapped storage, which panics when the
    unique was added with another wrapper (borrow/mod.rs 405-645). *)
Definition attempt (home : bool) (gs : list grd) (s : bw) (r : req) : bw * answer :=
  match r with
  | RAll m => (s, try_cell gs CAll WNone m home)
  | REnt m => (s, try_cell gs CEnt WNone m home)
  | RComp w m T tr =>
      match b_comps s !! (w, T) with
      | Some t =>
          (s, match try_cell gs (CComp w T) w m home with
              | AGot g => if trk_le tr t then AGot g else AErr ETrack
              | a => a
              end)
      | None =>
          if negb home && match w with WSend | WBoth => true | _ => false end then (s, AErr EThread)
          else
            ({| b_comps := <[(w, T) := no_trk]> (b_comps s); b_uniqs := b_uniqs s; b_next := b_next s |},
             match try_cell gs (CComp w T) w m home with
             | AGot g => if trk_le tr no_trk then AGot g else AErr ETrack
             | a => a
             end)
      end
  | RUniq w m T =>
      match b_uniqs s !! T with
      | None => (s, AErr EMissing)
      | Some (g, w') =>
          (s, match try_cell gs (CUniq T g) w' m home with
              | AGot g => if bool_decide (w = w') then AGot g else APanic
              | a => a
              end)
      end
  end.

(** add_unique, all_storages/mod.rs 110-120: the storage that was there is dropped. *)
Definition add_uniq (s : bw) (T : N) : bw :=
  {| b_comps := b_comps s; b_uniqs := <[T := (b_next s, WNone)]> (b_uniqs s); b_next := (b_next s + 1)%N |}.

(** The cell of a guard was dropped with its storage. *)
Definition dangling (s : bw) (g : grd) : Prop :=
  match g.1 with CUniq T n => ∀ w, b_uniqs s !! T ≠ Some (n, w) | _ => False end.

(** ** Tracking *)

(** [BorrowInfo::enable_tracking], borrow_info.rs 149-160, .. 455-477: each view of a component pushes a function that
    borrows the storage exclusively. *)
Fixpoint view_tracking (v : view) : list (wrap * N * trk) :=
  match v with
  | VComp w _ T tr => [(w, T, tr)]
  | VOption v => view_tracking v
  | VTuple vs => flat_map view_tracking vs
  | _ => []
  end.
Definition param_tracking (p : param) : list (wrap * N * trk) :=
  match p with PView v => view_tracking v | _ => [] end.
Definition sys_tracking (ps : list param) : list (wrap * N * trk) := flat_map param_tracking ps.

(** apply_tracking, workload.rs 74-84 (and 467-478 when the workload is added), with no guard alive
    but that of all_storages, which is shared. *)
Definition track_one (home : bool) (s : bw) (f : wrap * N * trk) : bw + berr :=
  let '(w, T, tr) := f in
  match attempt home [(CAll, false)] s (RComp w true T no_trk) with
  | (s', AGot _) =>
      inl {| b_comps := <[(w, T) := trk_or (default no_trk (b_comps s' !! (w, T))) tr]> (b_comps s');
             b_uniqs := b_uniqs s'; b_next := b_next s' |}
  | (_, AErr e) => inr e
  | (_, APanic) => inr EBorrow
  end.
Fixpoint apply_tracking (home : bool) (s : bw) (fs : list (wrap * N * trk)) : bw + berr :=
  match fs with
  | [] => inl s
  | f :: fs => match track_one home s f with inl s' => apply_tracking home s' fs | inr e => inr e end
  end.

(** * What is borrowed *)

(** The instructions of a system as far as borrowing goes. [n] counts the guards that are alive; they
    are listed in the order they were obtained. *)
Inductive prog :=
| IDone                                      (* returned Ok *)
| IFail (e : berr)                           (* returned Err *)
| IPanicked                                  (* unwound by a panic *)
| ITry (r : req) (ok : prog) (err : berr → prog)
| IClone (k : prog)                          (* clone the shared borrow of all storages *)
| IPopTo (n : nat) (k : prog)                (* drop the latest guards until n are left *)
| IPopAt (n : nat) (k : prog)                (* drop the guard number n *)
| IAdd (T : N) (k : prog)                    (* add_unique *)
| IBody (k : prog).                          (* all parameters are borrowed *)

(** The [Borrow] of a single view: borrow/mod.rs 125-645 (the [?] drops all_borrow). *)
Definition leaf (r : req) (n : nat) (ok : nat → prog) (err : berr → prog) : prog :=
  ITry r (ok (n + 2)) (λ e, IPopTo n (err e)).

(** [Borrow::borrow], borrow/mod.rs 95-697. At the start [n + 1] guards are alive, the last one is the
    argument all_borrow. *)
Fixpoint cview (v : view) (n : nat) (ok : nat → prog) (err : berr → prog) {struct v} : prog :=
  match v with
  | VNothing => IPopTo n (ok n)
  | VEnt m => leaf (REnt m) n ok err
  | VComp w m T tr => leaf (RComp w m T tr) n ok err
  | VUniq w m T => leaf (RUniq w m T) n ok err
  | VOption v => cview v n ok (λ _, ok n)
  | VTuple vs =>
      foldr (λ v (rest : nat → prog) (m : nat), IClone (cview v m rest (λ e, IPopTo n (err e))))
        (λ m, IPopAt n (ok (m - 1))) vs (n + 1)
  end.

(** The system function returns the error: the guards obtained so far are dropped
    (into_workload_system.rs 151-155). *)
Definition give_up (e : berr) : prog := IPopTo 0 (IFail e).

(** What the body of a system may do with its parameter number [i] (a UniqueOrInitView or
    UniqueOrInitViewMut, otherwise nothing happens): set, fetch, get_or_init. *)
Inductive bact := BSet (i : nat) | BFetch (i : nat) | BInit (i : nat).
Definition bact_ix (a : bact) : nat := match a with BSet i => i | BFetch i => i | BInit i => i end.

(** unique_or_init.rs 41-134, unique_or_init_mut.rs 56-149: nothing happens once the view is there. An error
    is returned to the body, which goes on. At the end the guards are dropped. *)
Fixpoint cbody (ps : list param) (acts : list bact) (full : list nat) (n : nat) : prog :=
  match acts with
  | [] => IPopTo 0 IDone
  | a :: acts =>
      let i := bact_ix a in
      match ps !! i with
      | Some (POrInit m T) =>
          if bool_decide (i ∈ full) then cbody ps acts full n
          else
            let borrow (missing : prog) :=
              IClone (cview (VUniq WNone m T) n (λ n', cbody ps acts (i :: full) n')
                (λ e, match e with EMissing => missing | _ => cbody ps acts full n end)) in
            let go_on := cbody ps acts full n in
            match a with
            | BSet _ => IAdd T (borrow go_on)
            | BFetch _ => borrow go_on
            | BInit _ => borrow (IAdd T (borrow go_on))
            end
      | _ => cbody ps acts full n
      end
  end.

(** [world_borrow] of the parameters [qs] in turn, the first of which is number [i], then the body:
    world_borrow.rs 21-73, unique_or_default.rs 26-49, unique_or_default_mut.rs 32-55, unique_or_init.rs
    137-168, unique_or_init_mut.rs 152-183. *)
Fixpoint cparams (ps qs : list param) (acts : list bact) (i : nat) (full : list nat) (n : nat) : prog :=
  match qs with
  | [] => IBody (cbody ps acts full n)
  | PView v :: qs =>
      ITry (RAll false) (cview v n (cparams ps qs acts (S i) full) give_up) give_up
  | PAll m :: qs => ITry (RAll m) (cparams ps qs acts (S i) full (n + 1)) give_up
  | POrDefault m T :: qs =>
      let again := cview (VUniq WNone m T) n (cparams ps qs acts (S i) full) give_up in
      ITry (RAll false)
        (ITry (RUniq WNone m T) (IPopTo (n + 1) again)
           (λ e, match e with EMissing => IAdd T again | _ => give_up e end))
        give_up
  | POrInit m T :: qs =>
      ITry (RAll false)
        (IClone (cview (VUniq WNone m T) (n + 1) (cparams ps qs acts (S i) (i :: full))
           (λ e, match e with
                 | EMissing => cparams ps qs acts (S i) full (n + 1)
                 | _ => give_up e
                 end)))
        give_up
  end.

(** A system: its parameters and its body. *)
Record sys := { s_params : list param; s_acts : list bact }.
Definition csys (s : sys) : prog := cparams (s_params s) (s_params s) (s_acts s) 0 [] 0.

(** * Systems running at the same time *)

Record run := { r_prog : prog; r_guards : list grd }.
Record bst := { b_world : bw; b_runs : list run }.

Definition all_guards (s : bst) : list grd := flat_map r_guards (b_runs s).

Definition b_start (s : bw) (ss : list sys) : bst :=
  {| b_world := s; b_runs := map (λ x, {| r_prog := csys x; r_guards := [] |}) ss |}.

Inductive bevent :=
| EvTau
| EvErr (e : berr)                           (* a borrow was refused *)
| EvPanic
| EvBody (gs : list grd)                   (* the parameters are borrowed *)
| EvAdd.

(** The next step of a system. A panic unwinds: the guards are dropped. *)
Definition run_step (home : bool) (gs : list grd) (w : bw) (r : run) : option (bw * run * bevent) :=
  let G := r_guards r in
  match r_prog r with
  | IDone | IFail _ | IPanicked => None
  | ITry q ok err =>
      let '(w', a) := attempt home gs w q in
      Some (match a with
            | AGot g => (w', {| r_prog := ok; r_guards := G ++ [g] |}, EvTau)
            | AErr e => (w', {| r_prog := err e; r_guards := G |}, EvErr e)
            | APanic => (w', {| r_prog := IPopTo 0 IPanicked; r_guards := G |}, EvPanic)
            end)
  | IClone k => Some (w, {| r_prog := k; r_guards := G ++ [(CAll, false)] |}, EvTau)
  | IPopTo n k =>
      Some (w, if n <? length G then {| r_prog := IPopTo n k; r_guards := take (length G - 1) G |}
               else {| r_prog := k; r_guards := G |}, EvTau)
  | IPopAt n k => Some (w, {| r_prog := k; r_guards := take n G ++ drop (S n) G |}, EvTau)
  | IAdd T k => Some (add_uniq w T, {| r_prog := k; r_guards := G |}, EvAdd)
  | IBody k => Some (w, {| r_prog := k; r_guards := G |}, EvBody G)
  end.

(** System [i] makes a step; [thr i]: it runs on the main thread. *)
Definition b_step (thr : nat → bool) (s : bst) (i : nat) : option (bst * bevent) :=
  match b_runs s !! i with
  | None => None
  | Some r =>
      match run_step (thr i) (all_guards s) (b_world s) r with
      | None => None
      | Some (w', r', ev) => Some ({| b_world := w'; b_runs := <[i := r']> (b_runs s) |}, ev)
      end
  end.

(** The interleavings: which system made a step, and what happened. *)
Inductive b_reach (thr : nat → bool) (s0 : bst) : list (nat * bevent) → bst → Prop :=
| BR_init : b_reach thr s0 [] s0
| BR_step tr s i s' ev :
    b_reach thr s0 tr s → b_step thr s i = Some (s', ev) → b_reach thr s0 (tr ++ [(i, ev)]) s'.

(** A given schedule, for concrete cases. *)
Fixpoint b_exec (thr : nat → bool) (s : bst) (is : list nat) : option (bst * list (nat * bevent)) :=
  match is with
  | [] => Some (s, [])
  | i :: is =>
      match b_step thr s i with
      | None => None
      | Some (s', ev) =>
          match b_exec thr s' is with Some (s'', tr) => Some (s'', (i, ev) :: tr) | None => None end
      end
  end.
