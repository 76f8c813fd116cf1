(** When a workload whose systems may be numbered in any way can be scheduled: in terms of the declared systems
    and their numbers. *)
From stdpp Require Import prelude list gmap.
From Verif Require Import Sched SchedSpec Extend.
Local Open Scope nat_scope.

(** What users can build when they also use [extend]. *)
Inductive built_ext : workload → Prop :=
| XBuilt w : built w → built_ext w
| XExtend ss w : Forall declared ss → built_ext w → built_ext (wl_extend ss w)
| XSystem s w : declared s → built_ext w → built_ext (wl_with_system s w)
| XBarrier w : built_ext w → built_ext (wl_with_barrier w)
| XAppend w o : built_ext w → built_ext o → built_ext (wl_append w o)
| XTag n w : built_ext w → built_ext (wl_tag (LName n) w)
| XRunIf c w : built_ext w → built_ext (wl_set_run_if c w).

(** The system at [i] waits for the number [j]: there is a link, or [j] is the position of the last system
    before it that is ordered by declaration. *)
Definition waits_for (ss : list wsys) (bars : list nat) (j i : nat) : Prop :=
  linked ss bars j i ∨ (declared_first ss j i ∧ ∀ k, j < k → k < i → ¬ declared_first ss k i).

(** The system at [i] gets its turn: every number it waits for is the number of a system that gets its turn. *)
Inductive gets_turn (ss : list wsys) (bars : list nat) : nat → Prop :=
| GTurn i :
    (∀ j, waits_for ss bars j i →
       ∃ i' s, ss !! i' = Some s ∧ w_uid s = j ∧ gets_turn ss bars i') →
    gets_turn ss bars i.

(** What a placed system is known by here: function, borrows and run condition; the same for a declared one,
    with the function the scheduler knows for its type. *)
Definition placed_key (x : psys) : option nat * list tinfo * option cond :=
  (Some (p_index x), p_borrows x, p_run_if x).
Definition declared_key (f : fns) (s : wsys) : option nat * list tinfo * option cond :=
  (f_lookup f !! w_type s, w_borrows s, w_run_if s).

(** Workloads without requirements. *)
Definition no_reqs (w : workload) : Prop :=
  Forall (λ s, w_req_in s = [] ∧ w_req_before s = [] ∧ w_req_after s = []) (wl_systems w).
(** Adding the workload works. *)
Definition accepted (w : workload) (sc : sched) : Prop :=
  ∃ sc' r, create_workload w sc = Some (sc', inr r).
(** The systems added one by one. *)
Definition one_by_one (ss : list wsys) (w : workload) : workload :=
  fold_left (λ w s, wl_with_system s w) ss w.
