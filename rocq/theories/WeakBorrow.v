(** Model of the runtime borrow checker under release/acquire memory: the same code as Borrow.v
    (src/advanced/atomic_refcell/borrow_state.rs 1-125, src/advanced/atomic_refcell.rs 151-239), but
    the atomic word is not sequentially consistent here. What a thread may read is limited only by
    what it has seen, and data accesses made through borrows are ordered only by happens-before.

    The word is a set of messages ordered by timestamps (its modification order). A message carries a
    value and the set of data accesses that happen before its release. A thread has a view: the
    timestamp up to which it has seen the word, and the set of data accesses that happen before its
    current point.
    - A read-modify-write reads a message that is not older than the view and writes right behind it
      (the place has to be free). With [Acquire] the accesses carried by the message read become known.
      The message written carries on what the message read carries (release sequence) and, with [Release],
      what the thread knows.
    - A plain store goes to any free place newer than the view. It carries what the thread knows if it
      is a [Release] store and nothing otherwise.
    - A compare-exchange that fails is a [Relaxed] load of any message that is not older than the view and
      whose value is not the expected one.
    The orderings are a parameter ([ords]); those of the crate are [crate_ords].

    Simplifications: the thread-local code behind a read-modify-write is one step with it, but for the
    [fetch_sub] of [check_overflow], which is a step of its own; so the process is aborted at the same
    time as the word reaches MAX_FAILED_BORROWS. Borrows are never leaked with [mem::forget]. What the
    rules of Rust guarantee of the callers is a guard of the step in question ([w_shared_ok], [w_sole_ok],
    [w_bound_ok]): a reference to a borrow object reaches another thread only through synchronisation
    ([WSync], which stands for any synchronisation outside of the cell), a mutable one only after all
    uses of the object. *)
From stdpp Require Import prelude list gmap.
From Coq Require Import NArith.
From Verif Require Import EntityId Borrow.
Open Scope N_scope.

(** The orderings passed to the atomic instructions: [true] for Acquire (fields [a_]) or
    Release (fields [r_]), [false] for Relaxed. *)
Record ords := {
  a_read : bool;     (* fetch_add of read, borrow_state.rs 52 *)
  a_xread : bool;    (* compare_exchange of exclusive_read, success, 66-69 *)
  a_clone : bool;    (* fetch_add of read_reborrow, 82 *)
  a_write : bool;    (* compare_exchange of write, success, 91-94 *)
  r_shared : bool;   (* fetch_sub of SharedBorrow::drop, 16 *)
  r_excl : bool;     (* store of ExclusiveBorrow::drop, 40 *)
  r_undo : bool      (* fetch_sub of check_overflow, 108 *)
}.
(** borrow_state.rs 16, 40, 52, 69, 82, 94, 108 *)
Definition crate_ords : ords :=
  {| a_read := true; a_xread := true; a_clone := true; a_write := true;
     r_shared := true; r_excl := true; r_undo := true |}.

(** A value of BorrowState.0 (borrow_state.rs 7) and the data accesses released with it. *)
Record msg := { m_val : N; m_rel : gset N }.

(** A live borrow object (SharedBorrow 11, ExclusiveBorrow 29).
    [o_root = Some b]: made from the exclusive borrow [b] with shared_reborrow 32, or a clone of such a one.
    [o_born]: the accesses that happen before every use of the object (its creation, or the
    last write made through it). [o_used]: the accesses that happen before the end of some use of it. [o_ts]: timestamp of the
    instruction that made it. [o_own]: the thread that made it (it matters for content that is not Sync). *)
Record wobj := { o_excl : bool; o_root : option N; o_born : gset N; o_used : gset N; o_ts : N; o_own : N }.

(** A cell (AtomicRefCell, atomic_refcell.rs 15-25) and the threads around it. *)
Record wst := {
  hist : gmap N msg;          (* the messages of the word, by timestamp *)
  seen : gmap N N;            (* views of the threads: timestamp; 0 if absent *)
  known : gmap N (gset N);    (* views of the threads: data accesses; none if absent *)
  objs : gmap N wobj;         (* live borrow objects *)
  undo : gmap N unit;         (* threads inside of check_overflow, before the fetch_sub of 108 *)
  nobj : N;                   (* next borrow id *)
  nev : N;                    (* next data access *)
  reads : gset N;             (* data accesses so far that do not modify the content *)
  writes : gset N;            (* those that do *)
  raced : bool;               (* there was a data race *)
  dead : bool                 (* the process was aborted *)
}.

(** The view of a thread on the word of borrow_state.rs 7: timestamp, data accesses. *)
Definition sn (s : wst) (t : N) : N := default 0 (seen s !! t).
Definition kn (s : wst) (t : N) : gset N := default ∅ (known s !! t).

(** BorrowState::new, borrow_state.rs 45-48 *)
Definition w_init : wst :=
  {| hist := {[ 0 := {| m_val := 0; m_rel := ∅ |} ]}; seen := ∅; known := ∅; objs := ∅; undo := ∅;
     nobj := 0; nev := 0; reads := ∅; writes := ∅; raced := false; dead := false |}.

(** Thread [t] writes message [m] at [τ] (and has seen it) and knows [k]. *)
Definition put_msg (t τ : N) (m : msg) (k : gset N) (s : wst) : wst :=
  {| hist := <[τ := m]> (hist s); seen := <[t := τ]> (seen s); known := <[t := k]> (known s);
     objs := objs s; undo := undo s; nobj := nobj s; nev := nev s; reads := reads s;
     writes := writes s; raced := raced s; dead := dead s |}.
(** Thread [t] has read the message at [τ] with a Relaxed load. *)
Definition saw (t τ : N) (s : wst) : wst :=
  {| hist := hist s; seen := <[t := τ]> (seen s); known := known s;
     objs := objs s; undo := undo s; nobj := nobj s; nev := nev s; reads := reads s;
     writes := writes s; raced := raced s; dead := dead s |}.
(** Updates of the borrow objects (borrow_state.rs 11, 29), of the pending fetch_sub (108), abort (109-118). *)
Definition set_objs (m : gmap N wobj) (n : N) (s : wst) : wst :=
  {| hist := hist s; seen := seen s; known := known s;
     objs := m; undo := undo s; nobj := n; nev := nev s; reads := reads s;
     writes := writes s; raced := raced s; dead := dead s |}.
Definition set_undo (u : gmap N unit) (s : wst) : wst :=
  {| hist := hist s; seen := seen s; known := known s;
     objs := objs s; undo := u; nobj := nobj s; nev := nev s; reads := reads s;
     writes := writes s; raced := raced s; dead := dead s |}.
Definition die (s : wst) : wst :=
  {| hist := hist s; seen := seen s; known := known s;
     objs := objs s; undo := undo s; nobj := nobj s; nev := nev s; reads := reads s;
     writes := writes s; raced := raced s; dead := true |}.

(** An atomic read-modify-write (borrow_state.rs 16, 52, 82, 108) by thread [t] that reads the message at [τ]. *)
Definition rmw (acq rel : bool) (f : N → N) (t τ : N) (s : wst) : option wst :=
  match hist s !! τ, hist s !! (τ + 1) with
  | Some m, None =>
    if sn s t <=? τ then
      let k := if acq then kn s t ∪ m_rel m else kn s t in
      Some (put_msg t (τ + 1) {| m_val := f (m_val m); m_rel := if rel then m_rel m ∪ k else m_rel m |} k s)
    else None
  | _, _ => None
  end.
(** [compare_exchange(0, new, _, Relaxed)] (borrow_state.rs 66-69, 91-94) by thread [t] that reads the message at [τ];
    the answer tells whether it succeeded. *)
Definition cas (acq : bool) (new : N) (t τ : N) (s : wst) : option (wst * bool) :=
  match hist s !! τ with
  | Some m =>
    if m_val m =? 0 then
      match rmw acq false (λ _, new) t τ s with Some s' => Some (s', true) | None => None end
    else if sn s t <=? τ then Some (saw t τ s, false) else None
  | None => None
  end.

(** [SharedBorrow(self)] and [ExclusiveBorrow(self)] of borrow_state.rs 58, 75, 86, 101: thread [t] has made a borrow object with the instruction that wrote at [τ]. *)
Definition new_obj (t τ : N) (excl : bool) (root : option N) (s : wst) : wst :=
  set_objs (<[nobj s := {| o_excl := excl; o_root := root; o_born := kn s t; o_used := kn s t;
                           o_ts := τ; o_own := t |}]> (objs s)) (nobj s + 1) s.
(** Thread [t] ends a use of object [b] (of the [&self] of borrow_state.rs 22, 32 or of a data access). *)
Definition use_obj (t b : N) (s : wst) : wst :=
  match objs s !! b with
  | Some o => set_objs (<[b := {| o_excl := o_excl o; o_root := o_root o; o_born := o_born o;
                                  o_used := o_used o ∪ kn s t; o_ts := o_ts o; o_own := o_own o |}]> (objs s))
                       (nobj s) s
  | None => s
  end.
(** Thread [t] has written through object [b]; later uses come behind. *)
Definition wrote_obj (t b : N) (s : wst) : wst :=
  match objs s !! b with
  | Some o => set_objs (<[b := {| o_excl := o_excl o; o_root := o_root o; o_born := kn s t;
                                  o_used := o_used o ∪ kn s t; o_ts := o_ts o; o_own := o_own o |}]> (objs s))
                       (nobj s) s
  | None => s
  end.

(** The value at [τ]. *)
Definition val_at (τ : N) (s : wst) : N := match hist s !! τ with Some m => m_val m | None => 0 end.

(** check_overflow, borrow_state.rs 106-121, after the fetch_add that wrote at [τ]; [ok] is what the
    caller goes on with. *)
Definition overflow (t τ : N) (ok : wst → wst) (s : wst) : wst :=
  if val_at τ s =? HIGH_BIT then set_undo (<[t := tt]> (undo s)) s
  else if MAX_FAILED_BORROWS <=? val_at τ s then die s
  else ok s.

(** read, borrow_state.rs 51-60 *)
Definition w_read (o : ords) (t τ : N) (s : wst) : option wst :=
  match rmw (a_read o) false fetch_add1 t τ s with
  | Some s' =>
    if high (val_at (τ + 1) s') then Some (overflow t (τ + 1) (λ s, s) s')
    else Some (new_obj t (τ + 1) false None s')
  | None => None
  end.
(** exclusive_read, borrow_state.rs 64-78 *)
Definition w_xread (o : ords) (t τ : N) (s : wst) : option wst :=
  match cas (a_xread o) 1 t τ s with
  | Some (s', true) => Some (new_obj t (τ + 1) false None s')
  | Some (s', false) => Some s'
  | None => None
  end.
(** write, borrow_state.rs 90-104 *)
Definition w_write (o : ords) (t τ : N) (s : wst) : option wst :=
  match cas (a_write o) HIGH_BIT t τ s with
  | Some (s', true) => Some (new_obj t (τ + 1) true None s')
  | Some (s', false) => Some s'
  | None => None
  end.

(** Some live object was made from the exclusive borrow [b]. *)
Definition reborrowed (b : N) (s : wst) : bool :=
  bool_decide (map_Exists (λ _ o', o_root o' = Some b) (objs s)).
(** All live objects made from the exclusive borrow [b] belong to thread [t]. *)
Definition reborrows_of (t b : N) (s : wst) : bool :=
  bool_decide (map_Forall (λ _ o', o_root o' = Some b → o_own o' = t) (objs s)).

(** Thread [t] has a reference to object [o]. *)
Definition w_shared_ok (t : N) (o : wobj) (s : wst) : bool :=
  bool_decide (o_born o ⊆ kn s t) && (o_ts o <=? sn s t).
(** Thread [t] has object [b] for itself. *)
Definition w_sole_ok (t b : N) (o : wobj) (s : wst) : bool :=
  bool_decide (o_used o ⊆ kn s t) && (o_ts o <=? sn s t) && negb (o_excl o && reborrowed b s).
(** For content that is not Sync, a shared borrow stays with its thread, and an exclusive one is not
    used by two threads at a time: [&T] is not Send, and so are [ARef<&T>] (atomic_refcell.rs 259-262)
    and [&ARefMut<&mut T>] (306-309). *)
Definition w_bound_ok (c : cell_cfg) (t b : N) (o : wobj) (s : wst) : bool :=
  c_sync c || (if o_excl o then bool_decide (o_used o ⊆ kn s t) && reborrows_of t b s else o_own o =? t).

(** SharedBorrow::clone, borrow_state.rs 20-25, and shared_reborrow, 32-34, by way of read_reborrow, 81-87 *)
Definition w_clone (o : ords) (c : cell_cfg) (t b τ : N) (s : wst) : option wst :=
  match objs s !! b with
  | Some x =>
    if w_shared_ok t x s && w_bound_ok c t b x s then
      match rmw (a_clone o) false fetch_add1 t τ s with
      | Some s' =>
        Some (overflow t (τ + 1) (λ s, new_obj t (τ + 1) false (if o_excl x then Some b else o_root x) s)
                       (use_obj t b s'))
      | None => None
      end
    else None
  | None => None
  end.

(** SharedBorrow::drop, borrow_state.rs 13-18 *)
Definition w_drop_shared (o : ords) (t b : N) (x : wobj) (τ : N) (s : wst) : option wst :=
  match rmw false (r_shared o) fetch_sub1 t τ s with
  | Some s' =>
    let s'' := set_objs (delete b (objs s')) (nobj s') s' in
    Some (match o_root x with Some r => use_obj t r s'' | None => s'' end)
  | None => None
  end.
(** ExclusiveBorrow::drop, borrow_state.rs 37-42; the store goes to [τ]. *)
Definition w_drop_excl (o : ords) (t b τ : N) (s : wst) : option wst :=
  match hist s !! τ with
  | None =>
    if sn s t <? τ then
      Some (set_objs (delete b (objs s)) (nobj s)
              (put_msg t τ {| m_val := 0; m_rel := if r_excl o then kn s t else ∅ |} (kn s t) s))
    else None
  | Some _ => None
  end.
(** Drop of a borrow object, borrow_state.rs 13-18, 37-42 *)
Definition w_drop (o : ords) (c : cell_cfg) (t b τ : N) (s : wst) : option wst :=
  match objs s !! b with
  | Some x =>
    if w_sole_ok t b x s && w_bound_ok c t b x s then
      if o_excl x then w_drop_excl o t b τ s else w_drop_shared o t b x τ s
    else None
  | None => None
  end.
(** The fetch_sub of check_overflow, borrow_state.rs 108; then the call panics. *)
Definition w_undo (o : ords) (t τ : N) (s : wst) : option wst :=
  match rmw false (r_undo o) fetch_sub1 t τ s with
  | Some s' => Some (set_undo (delete t (undo s')) s')
  | None => None
  end.

(** A data access by thread [t]: it races if a conflicting access made before is not known to [t]. *)
Definition access (w : bool) (t : N) (s : wst) : wst :=
  {| hist := hist s; seen := seen s; known := <[t := kn s t ∪ {[nev s]}]> (known s);
     objs := objs s; undo := undo s; nobj := nobj s; nev := nev s + 1;
     reads := if w then reads s else reads s ∪ {[nev s]};
     writes := if w then writes s ∪ {[nev s]} else writes s;
     raced := raced s || negb (bool_decide ((if w then reads s ∪ writes s else writes s) ⊆ kn s t));
     dead := dead s |}.
(** Reading the content through object [b]: Deref of ARef and ARefMut, atomic_refcell.rs 286-293, 333-340. *)
Definition w_look (c : cell_cfg) (t b : N) (s : wst) : option wst :=
  match objs s !! b with
  | Some x =>
    if w_shared_ok t x s && w_bound_ok c t b x s then Some (use_obj t b (access false t s)) else None
  | None => None
  end.
(** Modifying the content through object [b]: DerefMut of ARefMut, atomic_refcell.rs 342-347; content
    that is not Sync may be modified through any object (a Cell, say). *)
Definition w_poke (c : cell_cfg) (t b : N) (s : wst) : option wst :=
  match objs s !! b with
  | Some x =>
    if w_shared_ok t x s && w_bound_ok c t b x s && (negb (c_sync c) || (o_excl x && w_sole_ok t b x s))
    then Some (wrote_obj t b (access true t s)) else None
  | None => None
  end.
(** Synchronisation outside of the cell: all that [t] has done so far happens before what
    [t'] does from now on. *)
Definition w_sync (t t' : N) (s : wst) : wst :=
  {| hist := hist s; seen := <[t' := N.max (sn s t) (sn s t')]> (seen s);
     known := <[t' := kn s t ∪ kn s t']> (known s);
     objs := objs s; undo := undo s; nobj := nobj s; nev := nev s; reads := reads s;
     writes := writes s; raced := raced s; dead := dead s |}.

(** AtomicRefCell::borrow, atomic_refcell.rs 151-210 *)
Definition w_borrow (o : ords) (c : cell_cfg) (t τ : N) (s : wst) : option wst :=
  if c_sync c then w_read o t τ s
  else match c_send c with
       | None => w_xread o t τ s
       | Some h => if h =? t then w_read o t τ s else Some s
       end.
(** AtomicRefCell::borrow_mut, atomic_refcell.rs 217-239 *)
Definition w_borrow_mut (o : ords) (c : cell_cfg) (t τ : N) (s : wst) : option wst :=
  match c_send c with
  | None => w_write o t τ s
  | Some h => if h =? t then w_write o t τ s else Some s
  end.

(** A step: thread, what it does, and the place in the history of the word. *)
Inductive waction :=
| WBorrow (t τ : N)
| WBorrowMut (t τ : N)
| WClone (t b τ : N)
| WDrop (t b τ : N)
| WUndo (t τ : N)
| WLook (t b : N)
| WPoke (t b : N)
| WSync (t t' : N).
Definition actor (a : waction) : N :=
  match a with
  | WBorrow t _ | WBorrowMut t _ | WClone t _ _ | WDrop t _ _ | WUndo t _ | WLook t _ | WPoke t _ | WSync t _ => t
  end.
(** A thread inside of check_overflow goes on with the fetch_sub and nothing else. *)
Definition may_act (a : waction) (s : wst) : bool :=
  match a with
  | WUndo t _ => bool_decide (is_Some (undo s !! t))
  | WSync t t' => bool_decide (undo s !! t = None) && bool_decide (undo s !! t' = None)
  | _ => bool_decide (undo s !! actor a = None)
  end.

(** One step of the borrow checker (borrow_state.rs, atomic_refcell.rs 151-239) or of its callers. *)
Definition w_step (o : ords) (c : cell_cfg) (s : wst) (a : waction) : option wst :=
  if dead s || negb (may_act a s) then None else
  match a with
  | WBorrow t τ => w_borrow o c t τ s
  | WBorrowMut t τ => w_borrow_mut o c t τ s
  | WClone t b τ => w_clone o c t b τ s
  | WDrop t b τ => w_drop o c t b τ s
  | WUndo t τ => w_undo o t τ s
  | WLook t b => w_look c t b s
  | WPoke t b => w_poke c t b s
  | WSync t t' => Some (w_sync t t' s)
  end.
(** A run: any interleaving of calls of atomic_refcell.rs 151-239 and of uses of the borrows. *)
Fixpoint w_run (o : ords) (c : cell_cfg) (s : wst) (l : list waction) : option wst :=
  match l with
  | [] => Some s
  | a :: l => match w_step o c s a with Some s' => w_run o c s' l | None => None end
  end.
