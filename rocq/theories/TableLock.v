(** The lock around the table of storages: who holds it, what runs under it, and what a panic does to it.

    src/public_transport.rs (RwLock, ReadGuard, WriteGuard), src/all_storages/custom_storage.rs,
    src/all_storages/mod.rs: add_unique, remove_unique, entities, clone_storages_to, clone_entity_to,
    clone_components_to, Debug.

    Any number of threads, each making calls on the table; a panic is caught between two calls of a thread.
    A thread does one instruction at a time. The lock is std::sync::RwLock, or a lock of the user
    (World::builder().with_custom_lock, any lock_api::RawRwLock); what is assumed of both is that a shared lock
    is granted only while nobody has it exclusively, and an exclusive one only while nobody has it. A lock
    may or may not let readers in while a writer waits ([pref]). Memory ordering is that of the lock.

    Only the ids in the table are kept; the storages themselves are behind their own cells (C25). *)
From stdpp Require Import prelude list gmap.
From Coq Require Import NArith.

(** * Programs *)

(** The calls. User code is run in some of them with the lock held: the closure that makes a storage, the
    Drop of a unique that is replaced or not needed, the Clone of components, Debug and memory_usage of the
    user's storages. User code may itself make calls (a closure can capture the world), and may panic. *)
Inductive call :=
| KLook (i : N)                       (* custom_storage.rs 215-302; all_storages/mod.rs 1071-1100 *)
| KOrInsert (i : N) (f : ucode)       (* custom_storage.rs 312-357, 371-424, 438-483, 497-552, 564-609,
                                         623-676, 690-735, 749-804 *)
| KPut (i : N) (d : ucode)            (* add_unique, all_storages/mod.rs 110-120: d drops the old one *)
| KPutNew (i : N) (d : ucode)         (* add_unique_non_send and so on, all_storages/mod.rs 129-178: d drops
                                         the value that is not needed *)
| KTake (i : N)                       (* remove_unique, all_storages/mod.rs 204-230 *)
| KEach (us : list ucode)             (* iter_storages, clone_storages_to, clone_entity_to,
                                         clone_components_to, Debug: custom_storage.rs 805-835,
                                         all_storages/mod.rs 1643, 1728, 1765, 1778, 1793 *)
| KMut                                (* the calls on [&mut AllStorages], by RwLock::get_mut *)
with ucode := U (cs : list call) (panics : bool).

Inductive lmode := LR | LW.
Global Instance lmode_eq_dec : EqDecision lmode.
Proof. solve_decision. Defined.

(** * What a thread does *)

Inductive instr :=
| IAcq (m : lmode) (body : list instr)    (* take a guard for the body: read(), write() *)
| IRel (m : lmode)                        (* drop the guard *)
| IPeek                                   (* look at the table *)
| IFind (i : N) (f : ucode)               (* look for i; if it is not there, come back with a write guard *)
| IEntry (i : N) (f : ucode)              (* entry(i).or_insert_with(f) *)
| IPut (i : N) (d : ucode)                (* entry(i).insert(..) *)
| IPutNew (i : N) (d : ucode)             (* entry(i).or_insert_with(..), the value is at hand *)
| IStore (i : N)
| ITake (i : N)
| IUser (u : ucode)
| ICall (c : call)
| IMut                                    (* get_mut().unwrap() *)
| IPanic
| ICatch (c : call).                      (* the end of the call c of the program *)

(** The code of a call; lines as above. custom_storage.rs 321-341: the read guard is dropped before the
    write guard is taken, and the table is searched again under it. *)
Definition compile (c : call) : list instr :=
  match c with
  | KLook i => [IAcq LR [IPeek]]
  | KOrInsert i f => [IAcq LR [IFind i f]]
  | KPut i d => [IAcq LW [IPut i d]]
  | KPutNew i d => [IAcq LW [IPutNew i d]]
  | KTake i => [IAcq LW [ITake i]]
  | KEach us => [IAcq LR (IPeek :: (IUser <$> us))]
  | KMut => [IMut]
  end.
Definition start (prog : list call) : list instr := prog ≫= λ c, [ICall c; ICatch c].

(** [th_unw]: a panic is unwinding. [th_out]: the calls that ended, and whether by a panic. *)
Record thr := Thr { th_code : list instr; th_unw : bool; th_out : list (call * bool) }.

(** The lock (src/public_transport.rs 5-12): who has it shared, who exclusively; whether it is poisoned (std
    only). [c_ub]: a guard was dropped by a thread that does not hold the lock that way, which is undefined
    behaviour of RawRwLock (unsafe fn unlock_shared, unlock_exclusive, 158-162). *)
Record conf := Conf {
  c_ths : list thr; c_rd : list nat; c_wr : option nat; c_poi : bool; c_ub : bool; c_tab : gset N }.
Definition with_th (c : conf) (t : nat) (th : thr) : conf :=
  Conf (<[t := th]> (c_ths c)) (c_rd c) (c_wr c) (c_poi c) (c_ub c) (c_tab c).
Definition with_tab (c : conf) (tab : gset N) : conf :=
  Conf (c_ths c) (c_rd c) (c_wr c) (c_poi c) (c_ub c) tab.

(** A thread that waits for an exclusive lock. *)
Definition waits_w (th : thr) : bool :=
  match th_code th with IAcq LW _ :: _ => negb (th_unw th) | _ => false end.
(** The lock is granted. *)
Definition granted (pref : bool) (c : conf) (m : lmode) : bool :=
  match c_wr c, m with
  | Some _, _ => false
  | None, LW => match c_rd c with [] => true | _ => false end
  | None, LR => negb (pref && existsb waits_w (c_ths c))
  end.
(** lock_shared and lock_exclusive: public_transport.rs 109-142, 177-193. *)
Definition lock (c : conf) (t : nat) (m : lmode) : conf :=
  match m with
  | LR => Conf (c_ths c) (t :: c_rd c) (c_wr c) (c_poi c) (c_ub c) (c_tab c)
  | LW => Conf (c_ths c) (c_rd c) (Some t) (c_poi c) (c_ub c) (c_tab c)
  end.
Fixpoint remove1 (t : nat) (l : list nat) : list nat :=
  match l with [] => [] | x :: l => if decide (x = t) then l else x :: remove1 t l end.
(** Dropping a guard: Drop for ReadGuard and WriteGuard, public_transport.rs 38-48, 83-93. The write guard of
    std poisons its lock when dropped by unwinding. *)
Definition unlock (std : bool) (c : conf) (t : nat) (m : lmode) (unw : bool) : conf :=
  match m with
  | LR => Conf (c_ths c) (remove1 t (c_rd c)) (c_wr c) (c_poi c)
            (c_ub c || negb (bool_decide (t ∈ c_rd c))) (c_tab c)
  | LW => Conf (c_ths c) (c_rd c) None (c_poi c || (std && unw))
            (c_ub c || negb (bool_decide (c_wr c = Some t))) (c_tab c)
  end.

(** One instruction of thread [t]; [None]: it has ended or waits for the lock. [std]: the lock is the one of
    std, whose read(), write() and get_mut() are unwrapped (public_transport.rs 120, 138, 146). *)
Definition lstep (std pref : bool) (c : conf) (t : nat) : option conf :=
  match c_ths c !! t with
  | None => None
  | Some (Thr code unw out) =>
      let go k := with_th c t (Thr k false out) in
      let panic k := with_th c t (Thr k true out) in
      match code with
      | [] => None
      | x :: k =>
          if unw then
            (* unwinding: guards are dropped, the rest is skipped *)
            match x with
            | IRel m => Some (with_th (unlock std c t m true) t (Thr k true out))
            | ICatch cl => Some (with_th c t (Thr k false (out ++ [(cl, true)])))
            | _ => Some (with_th c t (Thr k true out))
            end
          else
            match x with
            | IAcq m body =>
                if granted pref c m then
                  if std && c_poi c then Some (panic k)
                  else Some (with_th (lock c t m) t (Thr (body ++ IRel m :: k) false out))
                else None
            | IRel m => Some (with_th (unlock std c t m false) t (Thr k false out))
            | IPeek => Some (go k)
            | IFind i f =>
                match k with
                | IRel LR :: k' =>
                    Some (go (IRel LR :: if decide (i ∈ c_tab c) then k' else IAcq LW [IEntry i f] :: k'))
                | _ => Some (go k)
                end
            | IEntry i f => Some (go (if decide (i ∈ c_tab c) then k else IUser f :: IStore i :: k))
            | IPut i d => Some (go (if decide (i ∈ c_tab c) then IStore i :: IUser d :: k else IStore i :: k))
            | IPutNew i d => Some (go (if decide (i ∈ c_tab c) then IUser d :: k else IStore i :: k))
            | IStore i => Some (with_tab (go k) ({[i]} ∪ c_tab c))
            | ITake i => Some (with_tab (go k) (c_tab c ∖ {[i]}))
            | IUser (U cs p) => Some (go ((ICall <$> cs) ++ (if p then [IPanic] else []) ++ k))
            | ICall cl => Some (go (compile cl ++ k))
            | IMut => if std && c_poi c then Some (panic k) else Some (go k)
            | IPanic => Some (panic k)
            | ICatch cl => Some (with_th c t (Thr k false (out ++ [(cl, false)])))
            end
      end
  end.

(** From the programs of the threads. *)
Definition init (progs : list (list call)) (tab : gset N) : conf :=
  Conf ((λ p, Thr (start p) false []) <$> progs) [] None false false tab.
Inductive lruns (std pref : bool) : conf → conf → Prop :=
| LRefl c : lruns std pref c c
| LStep c1 c2 t c3 : lruns std pref c1 c2 → lstep std pref c2 t = Some c3 → lruns std pref c1 c3.
