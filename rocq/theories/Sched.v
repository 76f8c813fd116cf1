(** Model of workload building: src/scheduler/workload.rs,
    src/scheduler/workload/create_workload.rs, src/scheduler/info.rs,
    src/scheduler/into_workload.rs, src/scheduler/into_workload_system.rs,
    src/scheduler/into_workload_run_if.rs, src/scheduler/mod.rs.

    Not modelled: names and strings used only in messages ([display_name],
    [WorkloadInfo]'s text, [Conflict] values beyond "there is one"),
    [system_generators], [tracking_to_enable]. *)
From stdpp Require Import prelude countable list gmap.
Local Open Scope nat_scope.

(** * Labels *)

(** [Box<dyn Label>] (src/scheduler/label.rs 10-140).  [LName] stands for every
    label a user can write (strings, types, system and workload labels, compared
    by their identity), [LSeq] for [SequentialLabel] (label.rs 144-172) and [LUid]
    for [UniqueSystemId] (create_workload.rs 370-397).  The last two types are
    private to the crate. *)
Inductive label :=
| LName (n : N)
| LUid (n : nat)
| LSeq (l : label).

Global Instance label_eq_dec : EqDecision label.
Proof. solve_decision. Defined.

Fixpoint label_enc (l : label) : gen_tree (N + nat) :=
  match l with
  | LName n => GenLeaf (inl n)
  | LUid n => GenLeaf (inr n)
  | LSeq l => GenNode 0 [label_enc l]
  end.
Fixpoint label_dec (t : gen_tree (N + nat)) : label :=
  match t with
  | GenLeaf (inl n) => LName n
  | GenLeaf (inr n) => LUid n
  | GenNode _ [t] => LSeq (label_dec t)
  | _ => LName 0
  end.
Global Instance label_countable : Countable label.
Proof.
  refine (inj_countable' label_enc label_dec _).
  intros l; induction l; simpl; congruence.
Defined.

(** [l1] has an element of [l2]: [any(|x| any(|y| x == y))]. *)
Definition overlap (l1 l2 : list label) : bool :=
  existsb (fun x => existsb (fun y => bool_decide (x = y)) l2) l1.

(** [DedupedLabels::add] and [extend]: src/scheduler/info.rs 177-217. *)
Definition dl_add (x : label) (l : list label) : list label :=
  if bool_decide (x ∈ l) then l else l ++ [x].
Definition dl_extend (l xs : list label) : list label :=
  fold_left (fun l x => dl_add x l) xs l.

(** * Declared systems and workloads *)

(** The storage a borrow is about ([TypeInfo::storage_id], info.rs 115-160);
    [SAll] is [AllStorages] itself. *)
Inductive storage := SAll | SId (n : N).
Global Instance storage_eq_dec : EqDecision storage.
Proof. solve_decision. Defined.

(** [TypeInfo]: src/scheduler/info.rs 115-160. *)
Record tinfo := { t_storage : storage; t_excl : bool; t_safe : bool }.

(** Run conditions: the boxed closures of src/scheduler/system.rs 76-82 and of
    [WorkloadRunIfFn]; [CAnd] is the closure built by
    [Ok(prev(world)? && next(world)?)] (workload_modificator.rs 112-125,
    system_modificator.rs 204-213, workload.rs 220-230) and [CNot] the one built
    by [skip_if] (workload_modificator.rs 148-161, system_modificator.rs 218-224). *)
Inductive cond := CBase (n : N) | CNot (c : cond) | CAnd (c d : cond).
Global Instance cond_eq_dec : EqDecision cond.
Proof. solve_decision. Defined.

(** Combining a run condition with one already present:
    workload_modificator.rs 112-125, system_modificator.rs 204-213. *)
Definition cond_and (prev : option cond) (c : cond) : option cond :=
  match prev with Some p => Some (CAnd p c) | None => Some c end.

(** [WorkloadSystem]: src/scheduler/system.rs 34-68.  [w_type] is the [TypeId] of
    the function, [w_fn] the closure value itself. *)
Record wsys := {
  w_type : N;
  w_fn : N;
  w_borrows : list tinfo;
  w_run_if : option cond;
  w_tags : list label;
  w_before_all : list label;
  w_after_all : list label;
  w_before : list nat;
  w_uid : nat;
  w_req_in : list label;
  w_req_before : list label;
  w_req_after : list label
}.

(** [Workload]: src/scheduler/workload.rs 148-170. *)
Record workload := {
  wl_name : label;
  wl_tags : list label;
  wl_systems : list wsys;
  wl_run_if : option cond;
  wl_before_all : list label;
  wl_after_all : list label;
  wl_overwritten : bool;
  wl_req_before : list label;
  wl_req_after : list label;
  wl_barriers : list nat
}.

(** ** Building systems *)

(** The [WorkloadSystem] made from a function: into_workload_system.rs 143-172
    ([lbl] is the function's [SystemLabel]). *)
Definition mk_wsys (ty fn : N) (lbl : label) (bs : list tinfo) : wsys :=
  {| w_type := ty; w_fn := fn; w_borrows := bs; w_run_if := None; w_tags := [lbl];
     w_before_all := []; w_after_all := []; w_before := []; w_uid := 0;
     w_req_in := []; w_req_before := []; w_req_after := [] |}.

(** [tag], [before_all], [after_all], [require_in_workload], [require_before],
    [require_after], [run_if], [skip_if] of [WorkloadSystem]:
    src/scheduler/system_modificator.rs 201-262. *)
Definition s_tag (t : label) (s : wsys) : wsys :=
  {| w_type := w_type s; w_fn := w_fn s; w_borrows := w_borrows s; w_run_if := w_run_if s;
     w_tags := w_tags s ++ [t]; w_before_all := w_before_all s;
     w_after_all := w_after_all s; w_before := w_before s; w_uid := w_uid s;
     w_req_in := w_req_in s; w_req_before := w_req_before s; w_req_after := w_req_after s |}.
Definition s_before_all (t : label) (s : wsys) : wsys :=
  {| w_type := w_type s; w_fn := w_fn s; w_borrows := w_borrows s; w_run_if := w_run_if s;
     w_tags := w_tags s; w_before_all := dl_add t (w_before_all s);
     w_after_all := w_after_all s; w_before := w_before s; w_uid := w_uid s;
     w_req_in := w_req_in s; w_req_before := w_req_before s; w_req_after := w_req_after s |}.
Definition s_after_all (t : label) (s : wsys) : wsys :=
  {| w_type := w_type s; w_fn := w_fn s; w_borrows := w_borrows s; w_run_if := w_run_if s;
     w_tags := w_tags s; w_before_all := w_before_all s;
     w_after_all := dl_add t (w_after_all s); w_before := w_before s; w_uid := w_uid s;
     w_req_in := w_req_in s; w_req_before := w_req_before s; w_req_after := w_req_after s |}.
Definition s_require_in (t : label) (s : wsys) : wsys :=
  {| w_type := w_type s; w_fn := w_fn s; w_borrows := w_borrows s; w_run_if := w_run_if s;
     w_tags := w_tags s; w_before_all := w_before_all s;
     w_after_all := w_after_all s; w_before := w_before s; w_uid := w_uid s;
     w_req_in := dl_add t (w_req_in s); w_req_before := w_req_before s;
     w_req_after := w_req_after s |}.
Definition s_require_before (t : label) (s : wsys) : wsys :=
  {| w_type := w_type s; w_fn := w_fn s; w_borrows := w_borrows s; w_run_if := w_run_if s;
     w_tags := w_tags s; w_before_all := w_before_all s;
     w_after_all := w_after_all s; w_before := w_before s; w_uid := w_uid s;
     w_req_in := w_req_in s; w_req_before := dl_add t (w_req_before s);
     w_req_after := w_req_after s |}.
Definition s_require_after (t : label) (s : wsys) : wsys :=
  {| w_type := w_type s; w_fn := w_fn s; w_borrows := w_borrows s; w_run_if := w_run_if s;
     w_tags := w_tags s; w_before_all := w_before_all s;
     w_after_all := w_after_all s; w_before := w_before s; w_uid := w_uid s;
     w_req_in := w_req_in s; w_req_before := w_req_before s;
     w_req_after := dl_add t (w_req_after s) |}.
Definition s_run_if (c : cond) (s : wsys) : wsys :=
  {| w_type := w_type s; w_fn := w_fn s; w_borrows := w_borrows s;
     w_run_if := cond_and (w_run_if s) c;
     w_tags := w_tags s; w_before_all := w_before_all s;
     w_after_all := w_after_all s; w_before := w_before s; w_uid := w_uid s;
     w_req_in := w_req_in s; w_req_before := w_req_before s; w_req_after := w_req_after s |}.
Definition s_skip_if (c : cond) (s : wsys) : wsys := s_run_if (CNot c) s.
(** [system.unique_id += n]: workload.rs 194-196 and 297. *)
Definition s_shift (n : nat) (s : wsys) : wsys :=
  {| w_type := w_type s; w_fn := w_fn s; w_borrows := w_borrows s; w_run_if := w_run_if s;
     w_tags := w_tags s; w_before_all := w_before_all s;
     w_after_all := w_after_all s; w_before := w_before s; w_uid := w_uid s + n;
     w_req_in := w_req_in s; w_req_before := w_req_before s; w_req_after := w_req_after s |}.

(** ** Building workloads *)

Definition wl_set_systems (w : workload) (ss : list wsys) : workload :=
  {| wl_name := wl_name w; wl_tags := wl_tags w; wl_systems := ss; wl_run_if := wl_run_if w;
     wl_before_all := wl_before_all w; wl_after_all := wl_after_all w;
     wl_overwritten := wl_overwritten w; wl_req_before := wl_req_before w;
     wl_req_after := wl_req_after w; wl_barriers := wl_barriers w |}.

(** [Workload::new]: workload.rs 174-189. *)
Definition wl_new (n : label) : workload :=
  {| wl_name := n; wl_tags := [n]; wl_systems := []; wl_run_if := None;
     wl_before_all := []; wl_after_all := []; wl_overwritten := true;
     wl_req_before := []; wl_req_after := []; wl_barriers := [] |}.

(** [with_system]: workload.rs 295-302. *)
Definition wl_with_system (s : wsys) (w : workload) : workload :=
  wl_set_systems w (wl_systems w ++ [s_shift (length (wl_systems w)) s]).

(** [with_barrier]: workload.rs 552-556. *)
Definition wl_with_barrier (w : workload) : workload :=
  {| wl_name := wl_name w; wl_tags := wl_tags w; wl_systems := wl_systems w;
     wl_run_if := wl_run_if w; wl_before_all := wl_before_all w;
     wl_after_all := wl_after_all w; wl_overwritten := wl_overwritten w;
     wl_req_before := wl_req_before w; wl_req_after := wl_req_after w;
     wl_barriers := wl_barriers w ++ [length (wl_systems w)] |}.

(** [append]: workload.rs 193-201. *)
Definition wl_append (w o : workload) : workload :=
  wl_set_systems w (wl_systems w ++ map (s_shift (length (wl_systems w))) (wl_systems o)).

(** The body of [propagate]'s loop: workload.rs 221-240. *)
Definition propagate_sys (w : workload) (s : wsys) : wsys :=
  {| w_type := w_type s; w_fn := w_fn s; w_borrows := w_borrows s;
     w_run_if :=
       match w_run_if s, wl_run_if w with
       | None, None => None
       | None, Some c => Some c
       | Some c, None => Some c
       | Some cs, Some cw => Some (CAnd cw cs)
       end;
     w_tags := w_tags s ++ wl_tags w;
     w_before_all := dl_extend (w_before_all s) (wl_before_all w);
     w_after_all := dl_extend (w_after_all s) (wl_after_all w);
     w_before := w_before s; w_uid := w_uid s; w_req_in := w_req_in s;
     w_req_before := dl_extend (w_req_before s) (wl_req_before w);
     w_req_after := dl_extend (w_req_after s) (wl_req_after w) |}.

(** [propagate]: workload.rs 220-249. *)
Definition wl_propagate (w : workload) : workload :=
  {| wl_name := wl_name w; wl_tags := []; wl_systems := map (propagate_sys w) (wl_systems w);
     wl_run_if := None; wl_before_all := []; wl_after_all := [];
     wl_overwritten := wl_overwritten w; wl_req_before := []; wl_req_after := [];
     wl_barriers := wl_barriers w |}.

(** [merge] ([with_workload]): workload.rs 204-217, 252-254. *)
Definition wl_merge (w o : workload) : workload :=
  let w := wl_propagate w in
  let o := wl_propagate o in
  let n := length (wl_systems w) in
  wl_append
    {| wl_name := wl_name w; wl_tags := wl_tags w; wl_systems := wl_systems w;
       wl_run_if := wl_run_if w; wl_before_all := wl_before_all w;
       wl_after_all := wl_after_all w; wl_overwritten := wl_overwritten w;
       wl_req_before := wl_req_before w; wl_req_after := wl_req_after w;
       wl_barriers := wl_barriers w ++ map (fun b => b + n) (wl_barriers o) |} o.

(** [tag], [rename], [before_all], [after_all], [run_if], [skip_if] of [Workload]:
    src/scheduler/workload_modificator.rs 111-209. *)
Definition wl_tag (t : label) (w : workload) : workload :=
  {| wl_name := wl_name w; wl_tags := wl_tags w ++ [t]; wl_systems := wl_systems w;
     wl_run_if := wl_run_if w; wl_before_all := wl_before_all w;
     wl_after_all := wl_after_all w; wl_overwritten := wl_overwritten w;
     wl_req_before := wl_req_before w; wl_req_after := wl_req_after w;
     wl_barriers := wl_barriers w |}.
Definition wl_rename (n : label) (w : workload) : workload :=
  {| wl_name := n; wl_tags := wl_tags w ++ [n]; wl_systems := wl_systems w;
     wl_run_if := wl_run_if w; wl_before_all := wl_before_all w;
     wl_after_all := wl_after_all w; wl_overwritten := true;
     wl_req_before := wl_req_before w; wl_req_after := wl_req_after w;
     wl_barriers := wl_barriers w |}.
Definition wl_before (t : label) (w : workload) : workload :=
  {| wl_name := wl_name w; wl_tags := wl_tags w; wl_systems := wl_systems w;
     wl_run_if := wl_run_if w; wl_before_all := dl_add t (wl_before_all w);
     wl_after_all := wl_after_all w; wl_overwritten := wl_overwritten w;
     wl_req_before := wl_req_before w; wl_req_after := wl_req_after w;
     wl_barriers := wl_barriers w |}.
Definition wl_after (t : label) (w : workload) : workload :=
  {| wl_name := wl_name w; wl_tags := wl_tags w; wl_systems := wl_systems w;
     wl_run_if := wl_run_if w; wl_before_all := wl_before_all w;
     wl_after_all := dl_add t (wl_after_all w); wl_overwritten := wl_overwritten w;
     wl_req_before := wl_req_before w; wl_req_after := wl_req_after w;
     wl_barriers := wl_barriers w |}.
Definition wl_set_run_if (c : cond) (w : workload) : workload :=
  {| wl_name := wl_name w; wl_tags := wl_tags w; wl_systems := wl_systems w;
     wl_run_if := cond_and (wl_run_if w) c; wl_before_all := wl_before_all w;
     wl_after_all := wl_after_all w; wl_overwritten := wl_overwritten w;
     wl_req_before := wl_req_before w; wl_req_after := wl_req_after w;
     wl_barriers := wl_barriers w |}.

(** ** [IntoWorkload] *)

(** The workload made from one system: into_workload.rs 163-188. *)
Definition single_workload (lbl : label) (s : wsys) : workload :=
  {| wl_name := lbl; wl_tags := [lbl]; wl_systems := [s]; wl_run_if := None;
     wl_before_all := []; wl_after_all := []; wl_overwritten := false;
     wl_req_before := []; wl_req_after := []; wl_barriers := [] |}.

(** The empty workload a tuple starts from: into_workload.rs 210-229, 242-259. *)
Definition tuple_start (lbl : label) : workload :=
  {| wl_name := lbl; wl_tags := [lbl]; wl_systems := []; wl_run_if := None;
     wl_before_all := []; wl_after_all := []; wl_overwritten := false;
     wl_req_before := []; wl_req_after := []; wl_barriers := [] |}.

(** [into_workload] of a tuple whose elements convert to [ws]: into_workload.rs 209-237. *)
Definition tuple_into_workload (lbl : label) (ws : list workload) : workload :=
  fold_left wl_merge ws (tuple_start lbl).

(** The second [$(...)+] of [into_sequential_workload], into_workload.rs 272-278:
    [tags] are the sequential tags of the elements still to come. *)
Fixpoint seq_merge (acc : workload) (ws : list workload) (tags : list label) : workload :=
  match ws with
  | [] => acc
  | w :: ws =>
      let w := match tags with t :: _ => wl_before t w | [] => w end in
      seq_merge (wl_merge acc w) ws (tail tags)
  end.

(** "appears twice in this workload": into_workload.rs 121-128 and 280-286. *)
Fixpoint has_dup (l : list N) : bool :=
  match l with [] => false | x :: l => bool_decide (x ∈ l) || has_dup l end.

(** [into_sequential_workload] of a tuple: into_workload.rs 240-289; [None] is the
    panic. *)
Definition tuple_into_sequential (lbl : label) (ws : list workload) : option workload :=
  let ws' := map (fun w => wl_tag (LSeq (wl_name w)) w) ws in
  let tags := map (fun w => LSeq (wl_name w)) ws in
  let w := seq_merge (tuple_start lbl) ws' (tail tags) in
  if has_dup (map w_type (wl_systems w)) then None else Some w.

(** [Workload::into_sequential_workload]: into_workload.rs 120-138; the label of a
    [TypeId] is modelled by [LName] of it. *)
Fixpoint seq_systems (ss : list wsys) : list wsys :=
  match ss with
  | s :: ((n :: _) as ss') => s_before_all (LSeq (LName (w_type n))) s :: seq_systems ss'
  | _ => ss
  end.
Definition wl_into_sequential (w : workload) : option workload :=
  if has_dup (map w_type (wl_systems w)) then None
  else Some (wl_set_systems w (seq_systems (wl_systems w))).

(** ** Validity of a system's own borrows *)

Definition same_excl (a b : tinfo) : bool :=
  bool_decide (t_storage a = t_storage b) && (t_excl a || t_excl b).

(** [borrows.contains(AllStorages exclusive) && borrows.len() > 1]: into_workload_system.rs
    111-119 (and into_workload_run_if.rs 54-62, 147-155); [TypeInfo]'s [PartialEq] compares
    the storage and the mutability only (info.rs 146-150). *)
Definition all_with_others (bs : list tinfo) : bool :=
  existsb (fun b => bool_decide (t_storage b = SAll) && t_excl b) bs && (1 <? length bs).

Fixpoint pair_conflict (bs : list tinfo) : bool :=
  match bs with [] => false | a :: bs => existsb (same_excl a) bs || pair_conflict bs end.

(** [into_workload_system]'s check: into_workload_system.rs 111-138; the same code is
    in [IntoWorkloadRunIf], into_workload_run_if.rs 147-174. *)
Definition system_valid (bs : list tinfo) : bool :=
  negb (all_with_others bs) && negb (pair_conflict bs).

(** [IntoRunIf]'s check: into_workload_run_if.rs 54-81. *)
Definition run_if_valid (bs : list tinfo) : bool :=
  let mid := length bs / 2 + (if length bs mod 2 =? 0 then 0 else 1) in
  negb (all_with_others bs) &&
  negb (existsb (fun a => existsb (same_excl a) (drop mid bs)) (take mid bs)).

(** * Ordering *)

(** [DedupedUniqueIds]: create_workload.rs 44-74; a sorted vector without
    duplicates. *)
Fixpoint uid_add (x : nat) (l : list nat) : list nat :=
  match l with
  | [] => [x]
  | y :: l' => if x =? y then l else if x <? y then x :: l else y :: uid_add x l'
  end.
Definition uid_retain (f : label → bool) (l : list nat) : list nat :=
  List.filter (fun x => f (LUid x)) l.
Definition uid_contains (x : nat) (l : list nat) : bool := bool_decide (x ∈ l).

(** [ToBePlacedSystem]: create_workload.rs 22-42 (without the fields that are only
    reported back to the user). *)
Record psys := {
  p_index : nat;
  p_borrows : list tinfo;
  p_tags : list label;
  p_before_all : list label;
  p_after_all : list label;
  p_hard : list nat;
  p_hard_before : list label;
  p_soft : list nat;
  p_req_in : list label;
  p_req_before : list label;
  p_req_after : list label;
  p_run_if : option cond
}.

Definition p_add_hard (x : nat) (s : psys) : psys :=
  {| p_index := p_index s; p_borrows := p_borrows s; p_tags := p_tags s;
     p_before_all := p_before_all s; p_after_all := p_after_all s;
     p_hard := uid_add x (p_hard s); p_hard_before := p_hard_before s; p_soft := p_soft s;
     p_req_in := p_req_in s; p_req_before := p_req_before s; p_req_after := p_req_after s;
     p_run_if := p_run_if s |}.
Definition p_add_soft (x : nat) (s : psys) : psys :=
  {| p_index := p_index s; p_borrows := p_borrows s; p_tags := p_tags s;
     p_before_all := p_before_all s; p_after_all := p_after_all s;
     p_hard := p_hard s; p_hard_before := p_hard_before s; p_soft := uid_add x (p_soft s);
     p_req_in := p_req_in s; p_req_before := p_req_before s; p_req_after := p_req_after s;
     p_run_if := p_run_if s |}.
Definition p_with (h so : list nat) (s : psys) : psys :=
  {| p_index := p_index s; p_borrows := p_borrows s; p_tags := p_tags s;
     p_before_all := p_before_all s; p_after_all := p_after_all s;
     p_hard := h; p_hard_before := p_hard_before s; p_soft := so;
     p_req_in := p_req_in s; p_req_before := p_req_before s; p_req_after := p_req_after s;
     p_run_if := p_run_if s |}.

(** The scheduler's functions and their table ([Scheduler::systems] and
    [lookup_table], src/scheduler/mod.rs 39-50). *)
Record fns := { f_systems : list N; f_lookup : gmap N nat }.

(** [lookup_table.entry(type_id).or_insert_with(..)]: create_workload.rs 319-325. *)
Definition fn_index (ty fn : N) (f : fns) : fns * nat :=
  match f_lookup f !! ty with
  | Some i => (f, i)
  | None =>
      ({| f_systems := f_systems f ++ [fn];
          f_lookup := <[ty := length (f_systems f)]> (f_lookup f) |}, length (f_systems f))
  end.

(** One system of [insert_systems_in_scheduler]: create_workload.rs 300-360.  ([after]
    is turned into labels that are never used, lines 329-334.) *)
Definition place_sys (s : wsys) (f : fns) : fns * psys :=
  let '(f, i) := fn_index (w_type s) (w_fn s) f in
  (f, {| p_index := i; p_borrows := w_borrows s; p_tags := w_tags s ++ [LUid (w_uid s)];
         p_before_all := w_before_all s; p_after_all := w_after_all s; p_hard := [];
         p_hard_before := dl_extend [] (map LUid (w_before s)); p_soft := [];
         p_req_in := w_req_in s; p_req_before := w_req_before s; p_req_after := w_req_after s;
         p_run_if := w_run_if s |}).

(** [insert_systems_in_scheduler]: create_workload.rs 287-364. *)
Fixpoint insert_systems (ss : list wsys) (f : fns) : fns * list psys :=
  match ss with
  | [] => (f, [])
  | s :: ss =>
      let '(f, p) := place_sys s f in
      let '(f, ps) := insert_systems ss f in
      (f, p :: ps)
  end.

(** [check_conflict]: create_workload.rs 725-757, for two borrows and for two lists. *)
Definition tinfo_conflict (a b : tinfo) : bool :=
  (negb (t_safe a) && negb (t_safe b)) ||
  (bool_decide (t_storage a = t_storage b) && (t_excl a || t_excl b)) ||
  bool_decide (t_storage a = SAll) || bool_decide (t_storage b = SAll).
Definition check_conflict (s : psys) (bs : list tinfo) : bool :=
  existsb (fun a => existsb (tinfo_conflict a) bs) (p_borrows s).

(** "has opted out of the implicit ordering": create_workload.rs 414, 424, 446, 456. *)
Definition p_opted (s : psys) : bool :=
  match p_before_all s, p_after_all s with [], [] => false | _, _ => true end.

(** [propagate_barriers]: create_workload.rs 400-408. *)
Definition propagate_barriers (ps : list psys) (bars : list nat) : list psys :=
  fold_left (fun ps index =>
    imap (fun k s => if index <=? k
                     then fold_left (fun s i => p_add_hard i s) (seq 0 index) s
                     else s) ps) bars ps.

(** The inner loop [for j in (0..i).rev()] of the two implicit passes: the largest
    [j < i] satisfying [f]. *)
Fixpoint find_down (f : nat → bool) (i : nat) : option nat :=
  match i with
  | 0 => None
  | S j => if f j then Some j else find_down f j
  end.

(** [propagate_implicit_hard_ordering]: create_workload.rs 411-440.  The pass reads
    only fields it does not write, so handling all [i] at once (here [imap]) is the same
    as the loop. *)
Definition implicit_hard (ps : list psys) : list psys :=
  imap (fun i s =>
    if p_opted s then s else
    match find_down (fun j => match ps !! j with
                              | Some o => negb (p_opted o) && check_conflict s (p_borrows o)
                              | None => false
                              end) i with
    | Some j => p_add_hard j s
    | None => s
    end) ps.

(** [propagate_implicit_soft_ordering]: create_workload.rs 443-467. *)
Definition implicit_soft (ps : list psys) : list psys :=
  imap (fun i s =>
    if p_opted s then s else
    match find_down (fun j => match ps !! j with
                              | Some o => negb (p_opted o)
                              | None => false
                              end) i with
    | Some j => p_add_soft j s
    | None => s
    end) ps.

Definition p_clear_before_all (s : psys) : psys :=
  {| p_index := p_index s; p_borrows := p_borrows s; p_tags := p_tags s;
     p_before_all := []; p_after_all := p_after_all s;
     p_hard := p_hard s; p_hard_before := p_hard_before s; p_soft := p_soft s;
     p_req_in := p_req_in s; p_req_before := p_req_before s; p_req_after := p_req_after s;
     p_run_if := p_run_if s |}.
Definition p_clear_after_all (s : psys) : psys :=
  {| p_index := p_index s; p_borrows := p_borrows s; p_tags := p_tags s;
     p_before_all := p_before_all s; p_after_all := [];
     p_hard := p_hard s; p_hard_before := p_hard_before s; p_soft := p_soft s;
     p_req_in := p_req_in s; p_req_before := p_req_before s; p_req_after := p_req_after s;
     p_run_if := p_run_if s |}.
Definition p_clear_hard_before (s : psys) : psys :=
  {| p_index := p_index s; p_borrows := p_borrows s; p_tags := p_tags s;
     p_before_all := p_before_all s; p_after_all := p_after_all s;
     p_hard := p_hard s; p_hard_before := []; p_soft := p_soft s;
     p_req_in := p_req_in s; p_req_before := p_req_before s; p_req_after := p_req_after s;
     p_run_if := p_run_if s |}.

(** [map_before_all_to_after]: create_workload.rs 472-497 (one [i], then the loop). *)
Definition before_all_step (ps : list psys) (i : nat) : list psys :=
  match ps !! i with
  | None => ps
  | Some si =>
      imap (fun j sj => if i =? j then p_clear_before_all sj
                        else if overlap (p_tags sj) (p_before_all si) then p_add_hard i sj
                        else sj) ps
  end.
Definition map_before_all (ps : list psys) : list psys :=
  fold_left before_all_step (seq 0 (length ps)) ps.

(** [map_after_all_to_after]: create_workload.rs 502-528. *)
Definition after_all_step (ps : list psys) (i : nat) : list psys :=
  match ps !! i with
  | None => ps
  | Some si =>
      let si' :=
        fold_left (fun s j =>
          if i =? j then s else
          match ps !! j with
          | Some sj => if overlap (p_after_all si) (p_tags sj) then p_add_hard j s else s
          | None => s
          end) (seq 0 (length ps)) (p_clear_after_all si) in
      <[i := si']> ps
  end.
Definition map_after_all (ps : list psys) : list psys :=
  fold_left after_all_step (seq 0 (length ps)) ps.

(** [map_before_to_after]: create_workload.rs 533-553; the inner loop stops at the first
    system with a matching tag. *)
Fixpoint before_first (i j : nat) (before : list label) (ps : list psys) : list psys :=
  match ps with
  | [] => []
  | s :: ps =>
      if i =? j then s :: before_first i (S j) before ps
      else if overlap (p_tags s) before then p_add_hard i s :: ps
      else s :: before_first i (S j) before ps
  end.
Definition before_step (ps : list psys) (i : nat) : list psys :=
  match ps !! i with
  | None => ps
  | Some si => before_first i 0 (p_hard_before si) (<[i := p_clear_hard_before si]> ps)
  end.
Definition map_before (ps : list psys) : list psys :=
  fold_left before_step (seq 0 (length ps)) ps.

(** ** Requirements *)

(** [required.retain(|r| system.tags.iter().all(|tag| tag != r))] over a list of systems.
    (The code leaves the loop early once nothing is required any more.) *)
Definition unmet (req : list label) (ss : list psys) : list label :=
  fold_left (fun req s => List.filter (fun r => negb (bool_decide (r ∈ p_tags s))) req) ss req.

(** [check_require_in_workload]: create_workload.rs 152-176; the position of the first
    system with an unmet requirement. *)
Fixpoint first_unmet (f : nat → list label) (i n : nat) : option (nat * list label) :=
  match n with
  | 0 => None
  | S n => match f i with [] => first_unmet f (S i) n | l => Some (i, l) end
  end.
Definition check_in (ps : list psys) : option (nat * list label) :=
  first_unmet (fun i => match ps !! i with Some s => unmet (p_req_in s) ps | None => [] end)
    0 (length ps).

(** [recursive_add_systems_before] and [recursive_add_systems_after]: create_workload.rs
    181-196 and 228-248; [succ] lists the neighbours that are followed. *)
Fixpoint add_rec (succ : nat → list nat) (fuel : nat) (acc : list nat) (v : nat) : list nat :=
  match fuel with
  | 0 => acc
  | S fuel =>
      if uid_contains v acc then acc
      else fold_left (add_rec succ fuel) (succ v) (uid_add v acc)
  end.

Definition hard_of (ps : list psys) (v : nat) : list nat :=
  match ps !! v with Some s => p_hard s | None => [] end.
(** The systems [i <> v] with [v] in their [hard_after]: create_workload.rs 239-247. *)
Definition hard_succ (ps : list psys) (v : nat) : list nat :=
  List.filter (fun i => negb (v =? i) && uid_contains v (hard_of ps i)) (seq 0 (length ps)).

Definition lookups (ps : list psys) (l : list nat) : list psys :=
  omap (fun i => ps !! i) l.

(** [systems_before] of system [i]: create_workload.rs 200-204. *)
Definition systems_before (ps : list psys) (i : nat) : list nat :=
  fold_left (add_rec (hard_of ps) (S (length ps))) (hard_of ps i) [].
(** [systems_after] of system [i]: create_workload.rs 252-264; line 261 passes [i], not [j]. *)
Definition systems_after (ps : list psys) (i : nat) : list nat :=
  fold_left (fun acc j =>
    if i =? j then acc
    else if uid_contains i (hard_of ps j) then add_rec (hard_succ ps) (S (length ps)) acc i
    else acc) (seq 0 (length ps)) [].

(** [check_require_before]: create_workload.rs 178-223. *)
Definition check_before (ps : list psys) : option (nat * list label) :=
  first_unmet (fun i => match ps !! i with
                        | Some s => unmet (p_req_before s) (lookups ps (systems_before ps i))
                        | None => [] end) 0 (length ps).
(** [check_require_after]: create_workload.rs 225-284. *)
Definition check_after (ps : list psys) : option (nat * list label) :=
  first_unmet (fun i => match ps !! i with
                        | Some s => unmet (p_req_after s) (lookups ps (systems_after ps i))
                        | None => [] end) 0 (length ps).

(** ** Batches *)

(** [BatchInfo]: info.rs 20-40; a [SystemInfo] is represented by the placed system. *)
Record binfo := { bi_single : option psys; bi_par : list psys }.
Definition bi_empty : binfo := {| bi_single := None; bi_par := [] |}.

(** [Batches]: src/scheduler/batches.rs 10-21.  [usize::MAX] ("no run condition") is
    [None]. *)
Record batches := {
  ba_par : list (option nat * list nat);
  ba_par_rif : list (option nat * list (option nat));
  ba_seq : list nat;
  ba_seq_rif : list (option nat);
  ba_sys_rif : list cond;
  ba_rif : option cond
}.
Definition ba_new (c : option cond) : batches :=
  {| ba_par := []; ba_par_rif := []; ba_seq := []; ba_seq_rif := []; ba_sys_rif := [];
     ba_rif := c |}.

Fixpoint upd_last {A} (f : A → A) (l : list A) : list A :=
  match l with
  | [] => []
  | [x] => [f x]
  | x :: l => x :: upd_last f l
  end.

(** [check_can_go_in_parallel_batch]: create_workload.rs 700-723 ([true]: it can not). *)
Definition batch_conflict (b : binfo) (s : psys) : bool :=
  match bi_single b with Some o => check_conflict s (p_borrows o) | None => false end ||
  existsb (fun o => check_conflict s (p_borrows o)) (bi_par b).

(** [is_single_system]: create_workload.rs 609-611. *)
Definition is_single (s : psys) : bool :=
  existsb (fun t => negb (t_safe t) || bool_decide (t_storage t = SAll)) (p_borrows s).

(** The variables of [order_systems]'s loop; [o_order] records the systems in the order
    they are popped (the code pushes their indices to [batches.sequential]). *)
Record ostate := {
  o_rem : list psys;
  o_queue : list psys;
  o_info : list binfo;
  o_ba : batches;
  o_del : list label;
  o_order : list psys
}.

(** Starting a new batch: create_workload.rs 586-590, 597-606, 671-679. *)
Definition push_batch (info : list binfo) (ba : batches) : list binfo * batches :=
  (info ++ [bi_empty],
   {| ba_par := ba_par ba ++ [(None, [])]; ba_par_rif := ba_par_rif ba ++ [(None, [])];
      ba_seq := ba_seq ba; ba_seq_rif := ba_seq_rif ba; ba_sys_rif := ba_sys_rif ba;
      ba_rif := ba_rif ba |}).

(** Placing a popped system: create_workload.rs 592-649. *)
Definition place (info : list binfo) (ba : batches) (s : psys) : list binfo * batches :=
  let '(info, ba) :=
    if batch_conflict (default bi_empty (last info)) s then push_batch info ba else (info, ba) in
  let single := is_single s in
  let info :=
    upd_last (fun b => if single then {| bi_single := Some s; bi_par := bi_par b |}
                       else {| bi_single := bi_single b; bi_par := bi_par b ++ [s] |}) info in
  let rif := match p_run_if s with Some _ => Some (length (ba_sys_rif ba)) | None => None end in
  (info,
   {| ba_par :=
        upd_last (fun b => if single then (Some (p_index s), b.2)
                           else (b.1, b.2 ++ [p_index s])) (ba_par ba);
      ba_par_rif :=
        upd_last (fun b => if single then (rif, b.2) else (b.1, b.2 ++ [rif])) (ba_par_rif ba);
      ba_seq := ba_seq ba ++ [p_index s];
      ba_seq_rif := ba_seq_rif ba ++ [rif];
      ba_sys_rif := ba_sys_rif ba ++ match p_run_if s with Some c => [c] | None => [] end;
      ba_rif := ba_rif ba |}).

(** [retain(|constraint| tags.iter().all(|tag| !tag.dyn_eq(constraint)))]. *)
Definition retain_not (tags : list label) (l : list nat) : list nat :=
  uid_retain (fun x => negb (bool_decide (x ∈ tags))) l.

Definition is_free (s : psys) : bool :=
  match p_hard s, p_soft s with [], [] => true | _, _ => false end.

(** [extract_if]: the elements satisfying the predicate, and the others, in order. *)
Definition extract (l : list psys) : list psys * list psys :=
  (List.filter is_free l, List.filter (fun s => negb (is_free s)) l).

(** One turn of [while let Some(system) = constraint_free_systems.pop_front()]:
    create_workload.rs 592-660. *)
Definition pop_step (st : ostate) (s : psys) (queue : list psys) : ostate :=
  let '(info, ba) := place (o_info st) (o_ba st) s in
  let rem := map (fun o => p_with (p_hard o) (retain_not (p_tags s) (p_soft o)) o) (o_rem st) in
  let '(free, rem) := extract rem in
  {| o_rem := rem; o_queue := queue ++ free; o_info := info; o_ba := ba;
     o_del := o_del st ++ p_tags s; o_order := o_order st ++ [s] |}.

(** The [while] loop. [None]: not finished within [fuel] turns. *)
Fixpoint pop_loop (fuel : nat) (st : ostate) : option ostate :=
  match o_queue st with
  | [] => Some st
  | s :: queue =>
      match fuel with
      | 0 => None
      | S fuel => pop_loop fuel (pop_step st s queue)
      end
  end.

(** The rest of the outer [loop]'s body: create_workload.rs 662-680; [inl]: break. *)
Definition release (st : ostate) : ostate + ostate :=
  let rem := map (fun o => p_with (retain_not (o_del st) (p_hard o)) (p_soft o) o) (o_rem st) in
  let '(free, rem) := extract rem in
  match free with
  | [] => inl {| o_rem := rem; o_queue := []; o_info := o_info st; o_ba := o_ba st;
                 o_del := o_del st; o_order := o_order st |}
  | _ =>
      let '(info, ba) := push_batch (o_info st) (o_ba st) in
      inr {| o_rem := rem; o_queue := free; o_info := info; o_ba := ba; o_del := [];
             o_order := o_order st |}
  end.

Fixpoint order_loop (fuel : nat) (st : ostate) : option ostate :=
  match fuel with
  | 0 => None
  | S fuel =>
      match pop_loop (length (o_queue st) + length (o_rem st)) st with
      | None => None
      | Some st =>
          match release st with
          | inl st => Some st
          | inr st => order_loop fuel st
          end
      end
  end.

(** What building a workload can report: [error::AddWorkload] and
    [ImpossibleRequirements::Cycle] (src/error.rs). *)
Inductive werr :=
| EExists
| EMissingIn (i : nat) (l : list label)
| EMissingBefore (i : nat) (l : list label)
| EMissingAfter (i : nat) (l : list label)
| ECycle (l : list psys).

(** [order_systems]: create_workload.rs 558-698.  [None]: the loops did not finish within
    the fuel (shown impossible). *)
Definition order_systems (ps : list psys) (ba : batches) :
    option (werr + (list binfo * batches * list psys)) :=
  match ps with
  | [] => Some (inr ([], ba, []))
  | _ =>
      let '(free, rem) := extract ps in
      let '(info, ba) := push_batch [] ba in
      match order_loop (S (S (length ps)))
              {| o_rem := rem; o_queue := free; o_info := info; o_ba := ba; o_del := [];
                 o_order := [] |} with
      | None => None
      | Some st =>
          match o_rem st with
          | [] => Some (inr (o_info st, o_ba st, o_order st))
          | l => Some (inl (ECycle l))
          end
      end
  end.

(** All the constraints: create_workload.rs 119-124. *)
Definition constrain (ps : list psys) (bars : list nat) : list psys :=
  map_before (map_after_all (map_before_all
    (implicit_soft (implicit_hard (propagate_barriers ps bars))))).

(** ** The scheduler *)

(** [Scheduler]: src/scheduler/mod.rs 39-50. *)
Record sched := {
  sc_fns : fns;
  sc_workloads : gmap label batches;
  sc_default : label
}.
(** [Scheduler::default]: mod.rs 52-64; the default workload's name is [""]. *)
Definition sc_new : sched :=
  {| sc_fns := {| f_systems := []; f_lookup := ∅ |}; sc_workloads := ∅;
     sc_default := LName 0 |}.

(** [create_workload]: create_workload.rs 77-150.  The systems are added to the scheduler
    even when building fails.  The result carries the batches and the placed systems in the
    order they were popped. *)
Definition create_workload (w : workload) (sc : sched) :
    option (sched * (werr + (list binfo * batches * list psys))) :=
  match sc_workloads sc !! wl_name w with
  | Some _ => Some (sc, inl EExists)
  | None =>
      let '(f, ps) := insert_systems (wl_systems w) (sc_fns sc) in
      let sc := {| sc_fns := f; sc_workloads := sc_workloads sc;
                   sc_default := sc_default sc |} in
      match check_in ps with
      | Some (i, l) => Some (sc, inl (EMissingIn i l))
      | None =>
          let ps := constrain ps (wl_barriers w) in
          match check_before ps with
          | Some (i, l) => Some (sc, inl (EMissingBefore i l))
          | None =>
              match check_after ps with
              | Some (i, l) => Some (sc, inl (EMissingAfter i l))
              | None =>
                  match order_systems ps (ba_new (wl_run_if w)) with
                  | None => None
                  | Some (inl e) => Some (sc, inl e)
                  | Some (inr r) =>
                      Some ({| sc_fns := f;
                               sc_workloads := <[wl_name w := r.1.2]> (sc_workloads sc);
                               sc_default := if bool_decide (sc_workloads sc = ∅)
                                             then wl_name w else sc_default sc |}, inr r)
                  end
              end
          end
      end
  end.

(** [set_default]: mod.rs 67-78; [false]: [MissingWorkload]. *)
Definition set_default (l : label) (sc : sched) : sched * bool :=
  match sc_workloads sc !! l with
  | Some _ => ({| sc_fns := sc_fns sc; sc_workloads := sc_workloads sc; sc_default := l |}, true)
  | None => (sc, false)
  end.
(** [rename]: mod.rs 95-103. *)
Definition sc_rename (old new : label) (sc : sched) : sched :=
  match sc_workloads sc !! old with
  | None => sc
  | Some b =>
      {| sc_fns := sc_fns sc;
         sc_workloads := <[new := b]> (delete old (sc_workloads sc));
         sc_default := if bool_decide (sc_default sc = old) then new else sc_default sc |}
  end.
(** [default_workload]: mod.rs 86-88 ([None] is the panic of the index); [workload]:
    mod.rs 79-85. *)
Definition default_workload (sc : sched) : option batches := sc_workloads sc !! sc_default sc.
Definition sc_workload (l : label) (sc : sched) : option batches := sc_workloads sc !! l.
