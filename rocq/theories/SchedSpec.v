(** What a workload's declarations mean, stated on the declarations alone (no reference
    to the ordering algorithm), and what the built batches look like from outside. *)
From stdpp Require Import prelude list relations.
From Verif Require Import Sched.
Local Open Scope nat_scope.

(** Two borrows that must not be active at the same time. *)
Definition borrow_clash (a b : tinfo) : Prop :=
  (t_storage a = t_storage b ∧ (t_excl a = true ∨ t_excl b = true)) ∨
  (t_safe a = false ∧ t_safe b = false) ∨
  t_storage a = SAll ∨ t_storage b = SAll.
Definition clash (la lb : list tinfo) : Prop :=
  ∃ a b, a ∈ la ∧ b ∈ lb ∧ borrow_clash a b.

(** A system with an explicit ordering constraint does not take part in the ordering by
    declaration. *)
Definition opted_out (s : wsys) : Prop := w_before_all s ≠ [] ∨ w_after_all s ≠ [].

(** [a] and [b] are positions in the list of declared systems. *)
Definition explicit (ss : list wsys) (a b : nat) : Prop :=
  a ≠ b ∧ ∃ sa sb, ss !! a = Some sa ∧ ss !! b = Some sb ∧
  ((∃ l, l ∈ w_before_all sa ∧ l ∈ w_tags sb) ∨ (∃ l, l ∈ w_after_all sb ∧ l ∈ w_tags sa)).
Definition barred (ss : list wsys) (bars : list nat) (a b : nat) : Prop :=
  b < length ss ∧ ∃ k, k ∈ bars ∧ a < k ∧ k ≤ b.
Definition declared_first (ss : list wsys) (a b : nat) : Prop :=
  a < b ∧ ∃ sa sb, ss !! a = Some sa ∧ ss !! b = Some sb ∧ ¬ opted_out sa ∧ ¬ opted_out sb.
Definition conflicting (ss : list wsys) (a b : nat) : Prop :=
  ∃ sa sb, ss !! a = Some sa ∧ ss !! b = Some sb ∧ clash (w_borrows sa) (w_borrows sb).

(** [a] has to run before [b]. *)
Definition must_precede (ss : list wsys) (bars : list nat) (a b : nat) : Prop :=
  explicit ss a b ∨ barred ss bars a b ∨ (declared_first ss a b ∧ conflicting ss a b).
(** The relation whose cycles make a workload impossible: it also has the order by
    declaration of systems which do not conflict. *)
Definition order_edge (ss : list wsys) (bars : list nat) (a b : nat) : Prop :=
  explicit ss a b ∨ barred ss bars a b ∨ declared_first ss a b.
Definition acyclic {A} (R : A → A → Prop) : Prop := ∀ x, ¬ tc R x x.

(** ** Well-formed workloads *)

(** Labels a user can not make: [UniqueSystemId] is private to the crate. *)
Definition user_label (l : label) : Prop := ∀ n, l ≠ LUid n.
Definition wf_wsys (s : wsys) : Prop :=
  Forall user_label (w_tags s) ∧ Forall user_label (w_before_all s) ∧
  Forall user_label (w_after_all s) ∧ w_before s = [] ∧
  Forall user_label (w_req_in s) ∧ Forall user_label (w_req_before s) ∧
  Forall user_label (w_req_after s).
Definition wf_workload (w : workload) : Prop :=
  Forall wf_wsys (wl_systems w) ∧
  (∀ i s, wl_systems w !! i = Some s → w_uid s = i) ∧
  Forall (λ k, k ≤ length (wl_systems w)) (wl_barriers w) ∧
  user_label (wl_name w) ∧ Forall user_label (wl_tags w) ∧
  Forall user_label (wl_before_all w) ∧ Forall user_label (wl_after_all w) ∧
  Forall user_label (wl_req_before w) ∧ Forall user_label (wl_req_after w).

(** ** Reading the result *)

(** Which declared system a placed system is: its number is its last tag. *)
Definition pos (s : psys) : nat :=
  match last (p_tags s) with Some (LUid n) => n | _ => 0 end.
Definition members (b : binfo) : list psys := option_list (bi_single b) ++ bi_par b.

(** The declared system number [i] is in batch number [k]; is the [k]th in sequence. *)
Definition in_batch (info : list binfo) (i k : nat) : Prop :=
  ∃ b s, info !! k = Some b ∧ s ∈ members b ∧ pos s = i.
Definition in_seq (order : list psys) (i k : nat) : Prop :=
  ∃ s, order !! k = Some s ∧ pos s = i.

(** [i] runs strictly before [j]: in every run of the batches, and in the sequential
    order. *)
Definition runs_before (info : list binfo) (order : list psys) (i j : nat) : Prop :=
  (∃ ki kj, in_batch info i ki ∧ in_batch info j kj ∧ ki < kj) ∧
  (∃ ki kj, in_seq order i ki ∧ in_seq order j kj ∧ ki < kj).

(** The batches of indices the code stores, from the batches of systems. *)
Definition batch_indices (b : binfo) : option nat * list nat :=
  (p_index <$> bi_single b, p_index <$> bi_par b).

(** ** What the public API can build *)

(** Systems a user can declare: made from a function, then modified.  Labels given by
    users are [LName]s. *)
Inductive declared : wsys → Prop :=
| DMk ty fn n bs : declared (mk_wsys ty fn (LName n) bs)
| DTag n s : declared s → declared (s_tag (LName n) s)
| DBefore n s : declared s → declared (s_before_all (LName n) s)
| DAfter n s : declared s → declared (s_after_all (LName n) s)
| DReqIn n s : declared s → declared (s_require_in (LName n) s)
| DReqBefore n s : declared s → declared (s_require_before (LName n) s)
| DReqAfter n s : declared s → declared (s_require_after (LName n) s)
| DRunIf c s : declared s → declared (s_run_if c s)
| DSkipIf c s : declared s → declared (s_skip_if c s).

(** Workloads a user can build. *)
Inductive built : workload → Prop :=
| BNew n : built (wl_new (LName n))
| BSystem s w : declared s → built w → built (wl_with_system s w)
| BBarrier w : built w → built (wl_with_barrier w)
| BMerge w o : built w → built o → built (wl_merge w o)
| BAppend w o : built w → built o → built (wl_append w o)
| BTag n w : built w → built (wl_tag (LName n) w)
| BRename n w : built w → built (wl_rename (LName n) w)
| BBefore n w : built w → built (wl_before (LName n) w)
| BAfter n w : built w → built (wl_after (LName n) w)
| BRunIf c w : built w → built (wl_set_run_if c w)
| BSingle n s : declared s → built (single_workload (LName n) s)
| BTuple n ws : (∀ w, w ∈ ws → built w) → built (tuple_into_workload (LName n) ws)
| BSeq n ws w' : (∀ w, w ∈ ws → built w) →
    tuple_into_sequential (LName n) ws = Some w' → built w'
| BSeqW w w' : built w → wl_into_sequential w = Some w' → built w'.

(** The functions of the scheduler are consistently registered. *)
Definition fns_ok (f : fns) : Prop :=
  ∀ ty i, f_lookup f !! ty = Some i → i < length (f_systems f).

(** A direct link of the kind the requirement checks follow: an explicit constraint, a
    barrier, or the nearest earlier conflicting system. *)
Definition nearest_conflict (ss : list wsys) (a b : nat) : Prop :=
  declared_first ss a b ∧ conflicting ss a b ∧
  ∀ k, a < k → k < b → declared_first ss k b → ¬ conflicting ss k b.
Definition linked (ss : list wsys) (bars : list nat) (a b : nat) : Prop :=
  explicit ss a b ∨ barred ss bars a b ∨ nearest_conflict ss a b.

(** Some system with tag [t] satisfies [P]. *)
Definition some_tagged (ss : list wsys) (t : label) (P : nat → Prop) : Prop :=
  ∃ j sj, ss !! j = Some sj ∧ t ∈ w_tags sj ∧ P j.

(** A list of borrows one system can not have. *)
Definition self_conflict (bs : list tinfo) : Prop :=
  ∃ i j a b, i ≠ j ∧ bs !! i = Some a ∧ bs !! j = Some b ∧
  ((t_storage a = t_storage b ∧ (t_excl a = true ∨ t_excl b = true)) ∨
   (t_storage a = SAll ∧ t_excl a = true)).

(** The position of the first system of element [i] of a tuple. *)
Definition start (ws : list workload) (i : nat) : nat :=
  length (concat (map wl_systems (take i ws))).

(** ** Histories of a scheduler *)
Inductive sc_op :=
| OpAdd (w : workload)
| OpDefault (l : label)
| OpRename (old new : label).
Definition sc_step (sc : sched) (o : sc_op) : sched :=
  match o with
  | OpAdd w => match create_workload w sc with Some (sc', _) => sc' | None => sc end
  | OpDefault l => (set_default l sc).1
  | OpRename old new => sc_rename old new sc
  end.
Definition sc_run (sc : sched) (os : list sc_op) : sched := fold_left sc_step os sc.

(** [w'] is [w] with more things declared after it. *)
Inductive grows : workload → workload → Prop :=
| GRefl w : grows w w
| GSystem s w w' : grows w w' → grows w (wl_with_system s w')
| GBarrier w w' : grows w w' → grows w (wl_with_barrier w')
| GMerge w w' o : grows w w' → grows w (wl_merge w' o)
| GAppend w w' o : grows w w' → grows w (wl_append w' o)
| GTag n w w' : grows w w' → grows w (wl_tag n w')
| GRename n w w' : grows w w' → grows w (wl_rename n w')
| GBefore n w w' : grows w w' → grows w (wl_before n w')
| GAfter n w w' : grows w w' → grows w (wl_after n w')
| GRunIf c w w' : grows w w' → grows w (wl_set_run_if c w').
