(** Model of what building a workload reports back: [WorkloadInfo], src/scheduler/info.rs 13-102,
    as it is filled by src/scheduler/workload/create_workload.rs.  The scheduling itself is that of
    Sched.v; here the systems to be placed also carry the fields that are only reported.

    Left out: the texts ([name], the [Debug] text of a label is the label itself here). *)
From stdpp Require Import prelude countable list gmap.
From Verif Require Import Sched.
Local Open Scope nat_scope.

(** [Conflict]: info.rs 77-102. *)
Inductive conflict :=
| CBorrow (own : tinfo) (other_system : nat) (other : tinfo)
| CNotSendSync (own : tinfo)
| COtherNotSendSync (other_system : nat) (other : tinfo).

(** [SystemInfo]: info.rs 43-61; [BeforeAfterConstraint] (265-272) is a pair. *)
Record sysinfo := {
  si_borrow : list tinfo;
  si_conflict : option conflict;
  si_after : list nat;
  si_after_all : list (nat * label);
  si_before_all : list (nat * label);
  si_unique_id : nat
}.
(** [BatchInfo]: info.rs 29-34. *)
Definition batch_info : Type := option sysinfo * list sysinfo.

(** [ToBePlacedSystem] with the fields [confict], [after_info], [after_all_info] and
    [before_all_info]: create_workload.rs 19-42. *)
Record isys := {
  i_sys : psys;
  i_conflict : option conflict;
  i_after : list nat;
  i_after_all : list (nat * label);
  i_before_all : list (nat * label)
}.
(** create_workload.rs 341-359 *)
Definition i_new (s : psys) : isys :=
  {| i_sys := s; i_conflict := None; i_after := []; i_after_all := []; i_before_all := [] |}.
(** Field updates of create_workload.rs 433, 496, 527, 572, 603. *)
Definition with_sys (s : isys) (p : psys) : isys :=
  {| i_sys := p; i_conflict := i_conflict s; i_after := i_after s; i_after_all := i_after_all s;
     i_before_all := i_before_all s |}.
Definition with_conflict (c : option conflict) (s : isys) : isys :=
  {| i_sys := i_sys s; i_conflict := c; i_after := i_after s; i_after_all := i_after_all s;
     i_before_all := i_before_all s |}.
Definition with_after (l : list nat) (s : isys) : isys :=
  {| i_sys := i_sys s; i_conflict := i_conflict s; i_after := l; i_after_all := i_after_all s;
     i_before_all := i_before_all s |}.
Definition with_after_all (l : list (nat * label)) (s : isys) : isys :=
  {| i_sys := i_sys s; i_conflict := i_conflict s; i_after := i_after s; i_after_all := l;
     i_before_all := i_before_all s |}.
Definition with_before_all (l : list (nat * label)) (s : isys) : isys :=
  {| i_sys := i_sys s; i_conflict := i_conflict s; i_after := i_after s; i_after_all := i_after_all s;
     i_before_all := l |}.
(** A pass that changes none of the reported fields. *)
Definition plain (f : list psys → list psys) (l : list isys) : list isys :=
  zip_with with_sys l (f (map i_sys l)).

(** [check_conflict]: create_workload.rs 725-757: the body of the loops, the inner loop, the outer one. *)
Definition pair_info (id : nat) (a b : tinfo) : option conflict :=
  if negb (t_safe a) && negb (t_safe b) then Some (COtherNotSendSync id b)
  else if (bool_decide (t_storage a = t_storage b) && (t_excl a || t_excl b)) ||
          bool_decide (t_storage a = SAll) || bool_decide (t_storage b = SAll)
  then Some (CBorrow a id b)
  else None.
Fixpoint first_some {A B} (f : A → option B) (l : list A) : option B :=
  match l with
  | [] => None
  | x :: l => match f x with Some y => Some y | None => first_some f l end
  end.
Definition conflict_info (s : psys) (id : nat) (bs : list tinfo) : option conflict :=
  first_some (λ a, first_some (pair_info id a) bs) (p_borrows s).

(** [propagate_implicit_hard_ordering]: create_workload.rs 411-440. *)
Definition i_implicit_hard (l : list isys) : list isys :=
  imap (λ i s,
    if p_opted (i_sys s) then s else
    match find_down (λ j, match l !! j with
                          | Some o => negb (p_opted (i_sys o)) &&
                                      check_conflict (i_sys s) (p_borrows (i_sys o))
                          | None => false
                          end) i with
    | Some j =>
        match l !! j with
        | Some o => with_conflict (conflict_info (i_sys s) (p_index (i_sys o)) (p_borrows (i_sys o)))
                      (with_sys s (p_add_hard j (i_sys s)))
        | None => s
        end
    | None => s
    end) l.

(** The notes of [map_before_all_to_after]: create_workload.rs 475-493, for the system at [i]. *)
Definition before_all_notes (l : list isys) (i : nat) (ls : list label) : list (nat * label) :=
  omap id (imap (λ j s,
    if i =? j then None
    else (λ t, (p_index (i_sys s), t)) <$> List.find (λ t, bool_decide (t ∈ ls)) (p_tags (i_sys s))) l).
Definition i_before_all_step (l : list isys) (i : nat) : list isys :=
  match l !! i with
  | None => l
  | Some si =>
      imap (λ j sj,
        if i =? j then with_before_all (before_all_notes l i (p_before_all (i_sys si)))
                         (with_sys sj (p_clear_before_all (i_sys sj)))
        else if overlap (p_tags (i_sys sj)) (p_before_all (i_sys si)) then with_sys sj (p_add_hard i (i_sys sj))
        else sj) l
  end.
Definition i_map_before_all (l : list isys) : list isys :=
  fold_left i_before_all_step (seq 0 (length l)) l.

(** [map_after_all_to_after]: create_workload.rs 502-529. *)
Definition after_all_notes (l : list isys) (i : nat) (ls : list label) : list (nat * label) :=
  omap id (imap (λ j s,
    if i =? j then None
    else (λ t, (j, t)) <$> List.find (λ t, bool_decide (t ∈ p_tags (i_sys s))) ls) l).
Definition i_after_all_step (l : list isys) (i : nat) : list isys :=
  match l !! i with
  | None => l
  | Some si =>
      let p :=
        fold_left (λ s j,
          if i =? j then s else
          match l !! j with
          | Some sj => if overlap (p_after_all (i_sys si)) (p_tags (i_sys sj)) then p_add_hard j s else s
          | None => s
          end) (seq 0 (length l)) (p_clear_after_all (i_sys si)) in
      <[i := with_after_all (after_all_notes l i (p_after_all (i_sys si))) (with_sys si p)]> l
  end.
Definition i_map_after_all (l : list isys) : list isys :=
  fold_left i_after_all_step (seq 0 (length l)) l.

(** create_workload.rs 119-124 *)
Definition i_constrain (l : list isys) (bars : list nat) : list isys :=
  plain map_before (i_map_after_all (i_map_before_all (plain implicit_soft
    (i_implicit_hard (plain (λ ps, propagate_barriers ps bars) l))))).

(** [latest_batch_info] and its elements, create_workload.rs 613-634, before the fields that are not
    reported are dropped. *)
Record ibinfo := { ib_single : option isys; ib_par : list isys }.
Definition ib_empty : ibinfo := {| ib_single := None; ib_par := [] |}.
Definition erase (b : ibinfo) : binfo :=
  {| bi_single := i_sys <$> ib_single b; bi_par := map i_sys (ib_par b) |}.

(** [check_can_go_in_parallel_batch]: create_workload.rs 700-723. *)
Definition batch_conflict_info (b : ibinfo) (s : psys) : option conflict :=
  match (match ib_single b with
         | Some o => conflict_info s (p_index (i_sys o)) (p_borrows (i_sys o))
         | None => None
         end) with
  | Some c => Some c
  | None => first_some (λ o, conflict_info s (p_index (i_sys o)) (p_borrows (i_sys o))) (ib_par b)
  end.

(** The variables of [order_systems]' loop, as in Sched.v. *)
Record iostate := {
  io_rem : list isys;
  io_queue : list isys;
  io_info : list ibinfo;
  io_ba : batches;
  io_del : list label
}.

(** Placing a popped system: create_workload.rs 592-635 (the batches of indices are those of Sched.v). *)
Definition i_place (info : list ibinfo) (ba : batches) (s : isys) : list ibinfo * batches :=
  let c := batch_conflict_info (default ib_empty (last info)) (i_sys s) in
  let ba := (place (map erase info) ba (i_sys s)).2 in
  let info' := match c with Some _ => info ++ [ib_empty] | None => info end in
  let s := match c with Some _ => with_conflict c s | None => s end in
  (upd_last (λ b, if is_single (i_sys s) then {| ib_single := Some s; ib_par := ib_par b |}
                  else {| ib_single := ib_single b; ib_par := ib_par b ++ [s] |}) info', ba).

(** create_workload.rs 578-580, 651-660, 664-670 *)
Definition i_extract (l : list isys) : list isys * list isys :=
  (List.filter (λ s, is_free (i_sys s)) l, List.filter (λ s, negb (is_free (i_sys s))) l).

(** create_workload.rs 592-661 *)
Definition i_pop_step (st : iostate) (s : isys) (queue : list isys) : iostate :=
  let '(info, ba) := i_place (io_info st) (io_ba st) s in
  let rem := map (λ o, with_sys o (p_with (p_hard (i_sys o))
                                     (retain_not (p_tags (i_sys s)) (p_soft (i_sys o))) (i_sys o)))
               (io_rem st) in
  let '(free, rem) := i_extract rem in
  {| io_rem := rem; io_queue := queue ++ free; io_info := info; io_ba := ba;
     io_del := io_del st ++ p_tags (i_sys s) |}.
Fixpoint i_pop_loop (fuel : nat) (st : iostate) : option iostate :=
  match io_queue st with
  | [] => Some st
  | s :: queue =>
      match fuel with
      | 0 => None
      | S fuel => i_pop_loop fuel (i_pop_step st s queue)
      end
  end.

(** create_workload.rs 663-684 *)
Definition i_release (st : iostate) : iostate + iostate :=
  let rem := map (λ o, with_sys o (p_with (retain_not (io_del st) (p_hard (i_sys o)))
                                     (p_soft (i_sys o)) (i_sys o))) (io_rem st) in
  let '(free, rem) := i_extract rem in
  match free with
  | [] => inl {| io_rem := rem; io_queue := []; io_info := io_info st; io_ba := io_ba st;
                 io_del := io_del st |}
  | _ => inr {| io_rem := rem; io_queue := free; io_info := io_info st ++ [ib_empty];
                io_ba := (push_batch [] (io_ba st)).2; io_del := [] |}
  end.
Fixpoint i_order_loop (fuel : nat) (st : iostate) : option iostate :=
  match fuel with
  | 0 => None
  | S fuel =>
      match i_pop_loop (length (io_queue st) + length (io_rem st)) st with
      | None => None
      | Some st =>
          match i_release st with
          | inl st => Some st
          | inr st => i_order_loop fuel st
          end
      end
  end.

(** [SystemInfo { .. }], create_workload.rs 615-623, 626-634. *)
Definition to_sysinfo (s : isys) : sysinfo :=
  {| si_borrow := p_borrows (i_sys s); si_conflict := i_conflict s; si_after := i_after s;
     si_after_all := i_after_all s; si_before_all := i_before_all s; si_unique_id := p_index (i_sys s) |}.
Definition to_batch_info (b : ibinfo) : batch_info := (to_sysinfo <$> ib_single b, map to_sysinfo (ib_par b)).

(** [order_systems]: create_workload.rs 558-698; line 571: [after_info] is a copy of [hard_after]. *)
Definition i_order_systems (l : list isys) (ba : batches) :
    option (werr + (list ibinfo * batches)) :=
  match l with
  | [] => Some (inr ([], ba))
  | _ =>
      let l := map (λ s, with_after (p_hard (i_sys s)) s) l in
      let '(free, rem) := i_extract l in
      match i_order_loop (S (S (length l)))
              {| io_rem := rem; io_queue := free; io_info := [ib_empty];
                 io_ba := (push_batch [] ba).2; io_del := [] |} with
      | None => None
      | Some st =>
          match io_rem st with
          | [] => Some (inr (io_info st, io_ba st))
          | l => Some (inl (ECycle (map i_sys l)))
          end
      end
  end.

(** [create_workload]: create_workload.rs 77-150, with the [batches_info] it returns. *)
Definition create_info (w : workload) (sc : sched) : option (sched * (werr + list batch_info)) :=
  match sc_workloads sc !! wl_name w with
  | Some _ => Some (sc, inl EExists)
  | None =>
      let '(f, ps) := insert_systems (wl_systems w) (sc_fns sc) in
      let sc := {| sc_fns := f; sc_workloads := sc_workloads sc; sc_default := sc_default sc |} in
      match check_in ps with
      | Some (i, l) => Some (sc, inl (EMissingIn i l))
      | None =>
          let l := i_constrain (map i_new ps) (wl_barriers w) in
          match check_before (map i_sys l) with
          | Some (i, l) => Some (sc, inl (EMissingBefore i l))
          | None =>
              match check_after (map i_sys l) with
              | Some (i, l) => Some (sc, inl (EMissingAfter i l))
              | None =>
                  match i_order_systems l (ba_new (wl_run_if w)) with
                  | None => None
                  | Some (inl e) => Some (sc, inl e)
                  | Some (inr (info, ba)) =>
                      Some ({| sc_fns := f;
                               sc_workloads := <[wl_name w := ba]> (sc_workloads sc);
                               sc_default := if bool_decide (sc_workloads sc = ∅)
                                             then wl_name w else sc_default sc |},
                            inr (map to_batch_info info))
                  end
              end
          end
      end
  end.
