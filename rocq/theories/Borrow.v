(** Model of the runtime borrow checker: src/advanced/atomic_refcell/borrow_state.rs 1-125 and the
    part of src/advanced/atomic_refcell.rs that uses it (borrow 151-210, borrow_mut 217-239).

    One step of the transition system is one atomic read-modify-write instruction or one piece of
    thread-local code between two of them, so every interleaving of any number of threads
    is a run of the system.

    Simplifications: the atomics are sequentially consistent; borrows are never leaked with
    [mem::forget]; the rules that the Rust type checker enforces on users (a borrow is not dropped
    while it is being cloned; an exclusive borrow is not dropped while a shared borrow made from it with
    [shared_reborrow] is alive, because of the lifetime of the latter) are guards of the transitions. *)
From stdpp Require Import prelude list gmap.
From Coq Require Import NArith.
From Verif Require Import EntityId.
Open Scope N_scope.

(** usize arithmetic of fetch_add / fetch_sub wraps. *)
Definition W64 : N := 2 ^ 64.
(** borrow_state.rs 4 *)
Definition HIGH_BIT : N := 2 ^ 63.
(** borrow_state.rs 5 *)
Definition MAX_FAILED_BORROWS : N := 2 ^ 63 + 2 ^ 62.

Definition fetch_add1 (w : N) : N := (w + 1) mod W64.
Definition fetch_sub1 (w : N) : N := (w + W64 - 1) mod W64.

(** [new & HIGH_BIT != 0], borrow_state.rs 53. *)
Definition high (w : N) : bool := negb (N.land w HIGH_BIT =? 0).

(** A live borrow object (SharedBorrow 11, ExclusiveBorrow 29). [root] is the id of the borrow that
    was obtained from the cell and of which this one is a (transitive) clone or reborrow; [under]
    tells whether that root is an exclusive borrow. *)
Inductive bobj :=
| BShared (root : N) (under : bool)
| BExcl.

(** What a thread is doing inside of a call; [new] / [old] are the values returned by the atomic
    instruction it has just executed. *)
Inductive pc :=
| ReadGot (new : N)                  (* read, after 52 *)
| ReadSub                            (* check_overflow called by read, before the fetch_sub of 108 *)
| XReadGot (old : N)                 (* exclusive_read, after 66-71 *)
| CloneGot (src root : N) (under : bool) (new : N)  (* read_reborrow of [src], after 82; [root] and
                                        [under] are those of the borrow to be returned *)
| CloneSub (src : N)                 (* check_overflow called by read_reborrow, before 108 *)
| WriteGot (old : N)                 (* write, after 91-96 *)
| DropS (root : N) (under : bool)    (* SharedBorrow::drop, before the fetch_sub of 16 *)
| DropX.                             (* ExclusiveBorrow::drop, before the store of 40 *)

(** The fields of AtomicRefCell that select the access rule (atomic_refcell.rs 18-22): [c_send = Some t]
    when only thread [t] may have exclusive access, [c_sync = false] for non-Sync content. Without the
    feature thread_local these are [None] and [true]. *)
Record cell_cfg := { c_send : option N; c_sync : bool }.

Record bst := {
  word : N;                 (* BorrowState.0 *)
  pool : gmap N bobj;       (* the live borrow objects *)
  calls : gmap N pc;        (* the calls in progress, by thread *)
  next_id : N;              (* next fresh borrow id *)
  aborted : bool            (* the process was aborted *)
}.

(** BorrowState::new, borrow_state.rs 45-48 *)
Definition b_init : bst :=
  {| word := 0; pool := ∅; calls := ∅; next_id := 0; aborted := false |}.

Inductive berr := ErrShared | ErrUnique | ErrWrongThread.
Inductive event :=
| EvOk (b : N)              (* the call returned the new borrow [b] *)
| EvErr (e : berr)          (* the call returned an error *)
| EvPanic                   (* the call panicked *)
| EvAbort                   (* the process is aborted *)
| EvDropped                 (* a drop is over *)
| EvTau.                    (* the call is still running *)

Inductive action :=
| ABorrow                   (* AtomicRefCell::borrow *)
| ABorrowMut                (* AtomicRefCell::borrow_mut *)
| AClone (b : N)            (* SharedBorrow::clone or ExclusiveBorrow::shared_reborrow *)
| ADrop (b : N)             (* drop of a borrow *)
| AStep.                    (* continue the current call *)

Definition set_call (t : N) (p : pc) (w : N) (s : bst) : bst :=
  {| word := w; pool := pool s; calls := <[t := p]> (calls s); next_id := next_id s;
     aborted := aborted s |}.
Definition end_call (t : N) (w : N) (s : bst) : bst :=
  {| word := w; pool := pool s; calls := delete t (calls s); next_id := next_id s;
     aborted := aborted s |}.
(** The call of thread [t] returns a new borrow. *)
Definition ret_borrow (t : N) (o : bobj) (s : bst) : bst :=
  {| word := word s; pool := <[next_id s := o]> (pool s); calls := delete t (calls s);
     next_id := next_id s + 1; aborted := aborted s |}.
Definition abort (s : bst) : bst :=
  {| word := word s; pool := pool s; calls := calls s; next_id := next_id s; aborted := true |}.

(** The root of a borrow made by cloning / reborrowing [b]. *)
Definition root_of (b : N) (o : bobj) : N * bool :=
  match o with BShared r u => (r, u) | BExcl => (b, true) end.

(** read (51-60), first instruction *)
Definition read_start (t : N) (s : bst) : bst * event :=
  let w := fetch_add1 (word s) in
  (set_call t (ReadGot w) w s, EvTau).
(** exclusive_read (64-78), first instruction *)
Definition xread_start (t : N) (s : bst) : bst * event :=
  (set_call t (XReadGot (word s)) (if word s =? 0 then 1 else word s) s, EvTau).
(** read_reborrow (81-87), first instruction *)
Definition clone_start (t b : N) (o : bobj) (s : bst) : bst * event :=
  let w := fetch_add1 (word s) in
  let '(r, u) := root_of b o in
  (set_call t (CloneGot b r u w) w s, EvTau).
(** write (90-104), first instruction *)
Definition write_start (t : N) (s : bst) : bst * event :=
  (set_call t (WriteGot (word s)) (if word s =? 0 then HIGH_BIT else word s) s, EvTau).

(** AtomicRefCell::borrow, atomic_refcell.rs 151-210 *)
Definition borrow_start (c : cell_cfg) (t : N) (s : bst) : bst * event :=
  match c_sync c, c_send c with
  | true, _ => read_start t s
  | false, None => xread_start t s
  | false, Some home => if home =? t then read_start t s else (s, EvErr ErrWrongThread)
  end.
(** AtomicRefCell::borrow_mut, atomic_refcell.rs 217-239 *)
Definition borrow_mut_start (c : cell_cfg) (t : N) (s : bst) : bst * event :=
  match c_send c with
  | Some home => if home =? t then write_start t s else (s, EvErr ErrWrongThread)
  | None => write_start t s
  end.

(** Borrow checker: [b] is referenced by a clone call in progress. *)
Definition in_clone (b : N) (p : pc) : bool :=
  match p with CloneGot b' _ _ _ | CloneSub b' => b =? b' | _ => false end.
Definition drop_under (b : N) (p : pc) : bool :=
  match p with DropS r true => b =? r | _ => false end.
Definition obj_under (b : N) (o : bobj) : bool :=
  match o with BShared r true => b =? r | _ => false end.

Definition anyb {A} (f : A -> bool) (m : gmap N A) : bool :=
  existsb (fun kv => f kv.2) (map_to_list m).

(** Is dropping [b] accepted by the borrow checker? *)
Definition may_drop (b : N) (o : bobj) (s : bst) : bool :=
  negb (anyb (in_clone b) (calls s)) &&
  match o with
  | BShared _ _ => true
  | BExcl => negb (anyb (obj_under b) (pool s)) && negb (anyb (drop_under b) (calls s))
  end.

(** The drop of borrow [b] starts: it is no longer usable, its destructor has not run yet. *)
Definition drop_start (t b : N) (o : bobj) (s : bst) : bst * event :=
  ({| word := word s; pool := delete b (pool s);
      calls := <[t := match o with BShared r u => DropS r u | BExcl => DropX end]> (calls s);
      next_id := next_id s; aborted := aborted s |}, EvTau).

(** The rest of each call. *)
Definition continue (t : N) (p : pc) (s : bst) : bst * event :=
  match p with
  | ReadGot new =>                                            (* 53-59 *)
      if high new then
        if new =? HIGH_BIT then (set_call t ReadSub (word s) s, EvTau)      (* 107 *)
        else if MAX_FAILED_BORROWS <=? new then (abort s, EvAbort)          (* 111-119 *)
        else (end_call t (word s) s, EvErr ErrShared)
      else (ret_borrow t (BShared (next_id s) false) s, EvOk (next_id s))
  | ReadSub => (end_call t (fetch_sub1 (word s)) s, EvPanic)  (* 108-110 *)
  | XReadGot old =>                                           (* 73-77 *)
      if old =? 0 then (ret_borrow t (BShared (next_id s) false) s, EvOk (next_id s))
      else (end_call t (word s) s, EvErr ErrShared)
  | CloneGot b r u new =>                                       (* 84-86 *)
      if new =? HIGH_BIT then (set_call t (CloneSub b) (word s) s, EvTau)
      else if MAX_FAILED_BORROWS <=? new then (abort s, EvAbort)
      else (ret_borrow t (BShared r u) s, EvOk (next_id s))
  | CloneSub b => (end_call t (fetch_sub1 (word s)) s, EvPanic)
  | WriteGot old =>                                           (* 98-103 *)
      if old =? 0 then (ret_borrow t BExcl s, EvOk (next_id s))
      else (end_call t (word s) s, EvErr ErrUnique)
  | DropS _ _ => (end_call t (fetch_sub1 (word s)) s, EvDropped)            (* 16 *)
  | DropX => (end_call t 0 s, EvDropped)                                    (* 40 *)
  end.

(** One step of thread [t]; [None] when the action is not possible (or not accepted by the type
    checker). A thread runs one call at a time. *)
Definition b_step (c : cell_cfg) (s : bst) (l : N * action) : option (bst * event) :=
  let '(t, a) := l in
  if aborted s then None
  else match a, calls s !! t with
  | AStep, Some p => Some (continue t p s)
  | AStep, None => None
  | _, Some _ => None
  | ABorrow, None => Some (borrow_start c t s)
  | ABorrowMut, None => Some (borrow_mut_start c t s)
  | AClone b, None =>
      match pool s !! b with Some o => Some (clone_start t b o s) | None => None end
  | ADrop b, None =>
      match pool s !! b with
      | Some o => if may_drop b o s then Some (drop_start t b o s) else None
      | None => None
      end
  end.

(** Runs: any sequence of steps of any threads. [load] bounds the number of simultaneous borrows
    and calls; failed attempts are not bounded. *)
Definition load (s : bst) : N := N.of_nat (size (pool s)) + N.of_nat (size (calls s)).

Inductive b_reach (c : cell_cfg) : list (N * action * event) -> bst -> Prop :=
| b_reach_init : b_reach c [] b_init
| b_reach_step tr s l s' ev :
    b_reach c tr s -> b_step c s l = Some (s', ev) -> load s' < 2 ^ 62 ->
    b_reach c (tr ++ [(l, ev)]) s'.

(** Executable version, for examples. *)
Fixpoint b_run (c : cell_cfg) (s : bst) (ls : list (N * action)) :
  option (bst * list (N * action * event)) :=
  match ls with
  | [] => Some (s, [])
  | l :: ls =>
      match b_step c s l with
      | Some (s1, ev) =>
          if load s1 <? 2 ^ 62 then
            match b_run c s1 ls with
            | Some (s2, tr) => Some (s2, (l, ev) :: tr)
            | None => None
            end
          else None
      | None => None
      end
  end.
