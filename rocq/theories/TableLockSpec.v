(** What is asked of the lock around the table, in terms of what threads are about to do. *)
From stdpp Require Import prelude list gmap.
From Coq Require Import NArith.
From Verif Require Import TableLock.

(** The thread is about to read, to change the table. *)
Definition touches (x : instr) : option lmode :=
  match x with
  | IPeek | IFind _ _ => Some LR
  | IEntry _ _ | IPut _ _ | IPutNew _ _ | IStore _ | ITake _ => Some LW
  | _ => None
  end.
Definition about (m : lmode) (th : thr) : Prop :=
  th_unw th = false ∧ ∃ x k, th_code th = x :: k ∧ touches x = Some m.

(** No two threads touch the table at once, unless both only read. *)
Definition race_free (c : conf) : Prop :=
  ∀ t t' th th' m, t ≠ t' → c_ths c !! t = Some th → c_ths c !! t' = Some th' →
    about LW th → ¬ about m th'.

(** User code that makes no calls on the same world. *)
Definition quiet (u : ucode) : bool := match u with U [] _ => true | _ => false end.
Definition quiet_call (c : call) : bool :=
  match c with
  | KLook _ | KTake _ | KMut => true
  | KOrInsert _ u | KPut _ u | KPutNew _ u => quiet u
  | KEach us => forallb quiet us
  end.
Definition quiet_progs (progs : list (list call)) : Prop :=
  ∀ p c, p ∈ progs → c ∈ p → quiet_call c = true.

(** User code of the call may panic; it may panic while the table is being changed. *)
Definition u_panics (u : ucode) : bool := match u with U _ p => p end.
Definition may_panic (c : call) : bool :=
  match c with
  | KLook _ | KTake _ | KMut => false
  | KOrInsert _ u | KPut _ u | KPutNew _ u => u_panics u
  | KEach us => existsb u_panics us
  end.
Definition may_panic_w (c : call) : bool :=
  match c with KEach _ => false | _ => may_panic c end.

Definition ended (c : conf) : Prop := ∀ t th, c_ths c !! t = Some th → th_code th = [].
Definition stuck (std pref : bool) (c : conf) : Prop := ∀ t, lstep std pref c t = None.
