(** Happens-before and data races of a run of the borrow checker, in the way the C++ memory
    model (the one of Rust) defines them: from the steps of the run and from who wrote
    and read which message, without the views of the model of WeakBorrow.v. *)
From stdpp Require Import prelude list gmap.
From Coq Require Import NArith.
From Verif Require Import EntityId Borrow WeakBorrow.
Local Open Scope nat_scope.

(** A step of a run, with the states around it. *)
Record wev := { e_act : waction; e_pre : wst; e_post : wst }.

(** [tr] is a run from the new cell that ends in [s]. *)
Inductive wtrace (o : ords) (c : cell_cfg) : list wev → wst → Prop :=
| wt_nil : wtrace o c [] w_init
| wt_snoc tr s a s' : wtrace o c tr s → w_step o c s a = Some s' →
    wtrace o c (tr ++ [{| e_act := a; e_pre := s; e_post := s' |}]) s'.

(** The step writes the message [τ] of the word. *)
Definition writes_msg (e : wev) (τ : N) : Prop := hist (e_pre e) !! τ = None ∧ is_Some (hist (e_post e) !! τ).
(** The step is the drop of an exclusive borrow, the only one that is a plain store
    (borrow_state.rs 40). *)
Definition is_store (e : wev) : bool :=
  match e_act e with
  | WDrop _ b _ => match objs (e_pre e) !! b with Some x => o_excl x | None => false end
  | _ => false
  end.
(** The ordering with which the step writes is Release: borrow_state.rs 16, 40, 108. *)
Definition is_release (o : ords) (e : wev) : bool :=
  match e_act e with
  | WDrop _ _ _ => if is_store e then r_excl o else r_shared o
  | WUndo _ _ => r_undo o
  | _ => false
  end.
(** The ordering with which the step reads, if it also writes, is Acquire: borrow_state.rs 52, 69, 82, 94. *)
Definition is_acquire (o : ords) (c : cell_cfg) (e : wev) : bool :=
  match e_act e with
  | WBorrow _ _ => if c_sync c then a_read o else match c_send c with None => a_xread o | Some _ => a_read o end
  | WBorrowMut _ _ => a_write o
  | WClone _ _ _ => a_clone o
  | _ => false
  end.

(** Message [τ] belongs to the release sequence headed by step [i]: the message of [i] and the
    read-modify-writes right behind it. *)
Inductive rel_seq (tr : list wev) (i : nat) : N → Prop :=
| rs_head e τ : tr !! i = Some e → writes_msg e τ → rel_seq tr i τ
| rs_next j e τ : rel_seq tr i τ → tr !! j = Some e → writes_msg e (τ + 1)%N → is_store e = false →
    rel_seq tr i (τ + 1)%N.
(** Step [i] synchronizes with step [j]: [j] is an Acquire read-modify-write that reads a message of the
    release sequence headed by the Release write [i]. *)
Definition sync_with (o : ords) (c : cell_cfg) (tr : list wev) (i j : nat) : Prop :=
  ∃ e e' τ, tr !! i = Some e ∧ is_release o e = true ∧ rel_seq tr i τ ∧
    tr !! j = Some e' ∧ is_acquire o c e' = true ∧ is_store e' = false ∧ writes_msg e' (τ + 1)%N.

(** Happens-before: program order, synchronisation outside of the cell, synchronizes-with. *)
Inductive hb (o : ords) (c : cell_cfg) (tr : list wev) : nat → nat → Prop :=
| hb_po i j e e' : i < j → tr !! i = Some e → tr !! j = Some e' → actor (e_act e) = actor (e_act e') →
    hb o c tr i j
| hb_out i j e e' t t' : i < j → tr !! i = Some e → e_act e = WSync t t' → tr !! j = Some e' →
    actor (e_act e') = t' → hb o c tr i j
| hb_sw i j : i < j → sync_with o c tr i j → hb o c tr i j
| hb_trans i j k : hb o c tr i j → hb o c tr j k → hb o c tr i k.

(** The step is a data access; [Some true] if it modifies the content. *)
Definition data_access (e : wev) : option bool :=
  match e_act e with WLook _ _ => Some false | WPoke _ _ => Some true | _ => None end.

(** Steps [i] and [j] are conflicting accesses that are not ordered by happens-before. *)
Definition data_race (o : ords) (c : cell_cfg) (tr : list wev) (i j : nat) : Prop :=
  i < j ∧ ∃ e e' w w', tr !! i = Some e ∧ tr !! j = Some e' ∧ data_access e = Some w ∧ data_access e' = Some w' ∧
    w || w' = true ∧ ¬ hb o c tr i j.
