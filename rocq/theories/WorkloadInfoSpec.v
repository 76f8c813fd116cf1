(** What the entries of a [WorkloadInfo] have to say, in terms of the declared systems and of the batches
    that are run (SchedSpec.v). *)
From Coq Require Import Sorted.
From stdpp Require Import prelude list.
From Verif Require Import Sched SchedSpec WorkloadInfo.
Local Open Scope nat_scope.

(** The entries of a batch, its single system first. *)
Definition entries (b : batch_info) : list sysinfo := option_list b.1 ++ b.2.

(** [si] is what is reported, in batch [k], for the system declared at [p]: it is at the place of that
    system. *)
Definition entry (inf : list batch_info) (info : list binfo) (k p : nat) (si : sysinfo) : Prop :=
  ∃ bi b n s, inf !! k = Some bi ∧ info !! k = Some b ∧
    entries bi !! n = Some si ∧ members b !! n = Some s ∧ pos s = p.

(** The number a scheduler gives to the function of the system declared at [p]: workloads made of the same
    function share it. *)
Definition fn_id (w : workload) (sc : sched) (p : nat) : nat :=
  default 0 (p_index <$> (insert_systems (wl_systems w) (sc_fns sc)).2 !! p).

(** [c] names a borrow of a system that has [own] and one of a system with number [n] that has [other],
    which must not be active at the same time. *)
Definition names_clash (c : conflict) (own : list tinfo) (n : nat) (other : list tinfo) : Prop :=
  match c with
  | CBorrow a m b => m = n ∧ a ∈ own ∧ b ∈ other ∧ borrow_clash a b
  | COtherNotSendSync m b => m = n ∧ b ∈ other ∧ t_safe b = false ∧ ∃ a, a ∈ own ∧ t_safe a = false
  | CNotSendSync _ => False
  end.

(** The first element of [l] that is in [m]. *)
Definition first_in (l m : list label) (t : label) : Prop :=
  ∃ n, l !! n = Some t ∧ t ∈ m ∧ ∀ n' t', n' < n → l !! n' = Some t' → t' ∉ m.

(** [notes] has one note for each position [j] for which there is a [t] with [P j t], in order; the note
    consists of [num j] and of such a [t]. *)
Definition noted (notes : list (nat * label)) (num : nat → nat) (P : nat → label → Prop) : Prop :=
  ∃ js, StronglySorted lt js ∧ Forall2 (λ j n, n.1 = num j ∧ P j n.2) js notes ∧ ∀ j t, P j t → j ∈ js.
