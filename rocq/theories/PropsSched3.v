(** Concrete cases for the theorems on workloads, and the claims that are false. *)
From stdpp Require Import prelude list gmap relations sorting.
From Verif Require Import Sched SchedSpec SchedProofs SchedProofs2 SchedProofs3 SchedProofs4
  PropsSched PropsSched2.
Local Open Scope nat_scope.

Definition rd (n : N) : tinfo := {| t_storage := SId n; t_excl := false; t_safe := true |}.
Definition wr (n : N) : tinfo := {| t_storage := SId n; t_excl := true; t_safe := true |}.
Definition wr_local (n : N) : tinfo := {| t_storage := SId n; t_excl := true; t_safe := false |}.
Definition all_mut : tinfo := {| t_storage := SAll; t_excl := true; t_safe := true |}.
(** A function of type [n], labelled [n]. *)
Definition sy (n : N) (bs : list tinfo) : wsys := mk_wsys n n (LName n) bs.
Definition nm (n : N) (ss : list wsys) : workload :=
  fold_left (λ w s, wl_with_system s w) ss (wl_new (LName n)).

Lemma built_nm n ss : Forall declared ss → built (nm n ss).
Proof.
  unfold nm. assert (H : built (wl_new (LName n))) by constructor. revert H.
  generalize (wl_new (LName n)) as w. induction ss as [|s ss IH]; intros w Hw HF; [done|].
  cbn [fold_left]. apply Forall_cons in HF as [H1 H2]. apply IH; [by constructor|done].
Qed.
Ltac decl := repeat (apply List.Forall_nil || apply List.Forall_cons || constructor).

(** Numbers of the systems in each batch, and in sequence, of a build from the empty scheduler. *)
Definition shape (w : workload) : option (list (option nat * list nat) * list nat) :=
  match create_workload w sc_new with
  | Some (_, inr (info, _, order)) =>
      Some (map (λ b, (pos <$> bi_single b, pos <$> bi_par b)) info, map pos order)
  | _ => None
  end.
Definition cycles (w : workload) : bool :=
  match create_workload w sc_new with Some (_, inl (ECycle _)) => true | _ => false end.

(** Six systems: a conflict (0, 1), one bound to the main thread (2), all storages (3), one
    with an explicit constraint (4, before 1), one after a barrier (5). *)
Definition ex1 : workload :=
  wl_with_system (sy 15 [rd 3])
    (wl_with_barrier
      (nm 1 [sy 10 [wr 1]; sy 11 [rd 1; wr 2]; sy 12 [wr_local 5]; sy 13 [all_mut];
             s_before_all (LName 11) (sy 14 [rd 3])])).
Lemma ex1_built : built ex1.
Proof. repeat constructor. Qed.
Example ex1_shape :
  shape ex1 = Some ([(None, [0; 4]); (Some 2, [1]); (Some 3, []); (None, [5])], [0; 4; 1; 2; 3; 5]).
Proof. vm_compute. reflexivity. Qed.

Definition ex1_result := Eval vm_compute in create_workload ex1 sc_new.
Definition ex1_info : list binfo :=
  Eval vm_compute in match ex1_result with Some (_, inr (i, _, _)) => i | _ => [] end.
Definition ex1_ba : batches :=
  Eval vm_compute in match ex1_result with Some (_, inr (_, b, _)) => b | _ => ba_new None end.
Definition ex1_order : list psys :=
  Eval vm_compute in match ex1_result with Some (_, inr (_, _, o)) => o | _ => [] end.
Definition ex1_sc : sched :=
  Eval vm_compute in match ex1_result with Some (sc, _) => sc | _ => sc_new end.
Example ex1_create : create_workload ex1 sc_new = Some (ex1_sc, inr (ex1_info, ex1_ba, ex1_order)).
Proof. vm_compute. reflexivity. Qed.

Ltac in_b b s := exists b, s; split_and!;
  [reflexivity|repeat (first [apply elem_of_list_here|apply elem_of_list_further])|reflexivity].
Lemma ex1_in i k b s : ex1_info !! k = Some b → s ∈ members b → pos s = i → in_batch ex1_info i k.
Proof. intros. by exists b, s. Qed.

(** C29: systems 1 and 2 share a batch, both with borrows. *)
Example C29_case :
  in_batch ex1_info 1 1 ∧ in_batch ex1_info 2 1 ∧
  ∃ s1 s2, wl_systems ex1 !! 1 = Some s1 ∧ wl_systems ex1 !! 2 = Some s2 ∧
    ¬ clash (w_borrows s1) (w_borrows s2) ∧ w_borrows s1 ≠ [] ∧ w_borrows s2 ≠ [].
Proof.
  assert (H1 : in_batch ex1_info 1 1).
  { eapply ex1_in; [vm_compute; reflexivity| |].
    - apply elem_of_list_further, elem_of_list_here.
    - vm_compute. reflexivity. }
  assert (H2 : in_batch ex1_info 2 1).
  { eapply ex1_in; [vm_compute; reflexivity| |].
    - apply elem_of_list_here.
    - vm_compute. reflexivity. }
  split_and!; [done..|]. eexists _, _. split_and!; [vm_compute; reflexivity|vm_compute; reflexivity| |done|done].
  eapply C29_batch_conflict_free; [exact ex1_built|exact ex1_create|exact H1|exact H2|done|..];
    vm_compute; reflexivity.
Qed.
(** C29: a batch with all storages. *)
Example C29_case_all :
  in_batch ex1_info 3 2 ∧ ∃ s, wl_systems ex1 !! 3 = Some s ∧ all_mut ∈ w_borrows s.
Proof.
  split.
  - eapply ex1_in; [vm_compute; reflexivity| |].
    + apply elem_of_list_here.
    + vm_compute. reflexivity.
  - eexists. split; [vm_compute; reflexivity|]. apply elem_of_list_here.
Qed.
(** C29: a system on a worker thread. *)
Example C29_case_worker :
  ∃ b s x, ex1_info !! 1 = Some b ∧ s ∈ bi_par b ∧ wl_systems ex1 !! pos s = Some x ∧
    wr 2 ∈ w_borrows x.
Proof.
  eexists _, _, _. split_and!; [vm_compute; reflexivity|apply elem_of_list_here|vm_compute; reflexivity|].
  apply elem_of_list_further, elem_of_list_here.
Qed.

(** C30. *)
Example C30_case : map pos ex1_order = [0; 4; 1; 2; 3; 5] ∧ ba_seq ex1_ba = [0; 4; 1; 2; 3; 5].
Proof. split; vm_compute; reflexivity. Qed.
(** Two workloads with a function in common, with run conditions: the second one finds the
    function registered by the first. *)
Definition ex2 : workload := nm 2 [sy 20 [wr 7]; s_run_if (CBase 1) (sy 11 [rd 1; wr 2])].
Definition ex2_systems := Eval vm_compute in wl_systems ex2.
Lemma ex2_systems_eq : wl_systems ex2 = ex2_systems.
Proof. vm_compute. reflexivity. Qed.
Example C30_case_functions :
  ∃ sc' info ba order, create_workload ex2 ex1_sc = Some (sc', inr (info, ba, order)) ∧
    fns_ok (sc_fns ex1_sc) ∧
    (∀ y i, y ∈ wl_systems ex2 → f_lookup (sc_fns ex1_sc) !! w_type y = Some i →
      f_systems (sc_fns ex1_sc) !! i = Some (w_fn y)) ∧
    ba_seq ba = [6; 1] ∧ f_systems (sc_fns sc') !! 1 = Some 11%N ∧
    ba_seq_rif ba = [None; Some 0] ∧ ba_sys_rif ba = [CBase 1].
Proof.
  destruct (create_workload ex2 ex1_sc) as [[sc' [e|[[info ba] order]]]|] eqn:E;
    [vm_compute in E; done| |vm_compute in E; done].
  exists sc', info, ba, order. split; [done|]. split.
  { destruct (create_ok _ _ _ _ _ _ ex1_built ex1_create) as (_ & _ & _ & _ & _ & _ & _ & Hf & _).
    destruct (insert_systems (wl_systems ex1) (sc_fns sc_new)) as [f ps] eqn:Ef.
    rewrite Hf. eapply insert_systems_fns; [|exact Ef]. by intros ty i H. }
  split.
  { intros y i Hy. rewrite ex2_systems_eq in Hy. unfold ex2_systems in Hy.
    apply elem_of_cons in Hy as [->|Hy]; [|apply elem_of_list_singleton in Hy as ->].
    - vm_compute. done.
    - vm_compute. intros [= <-]. reflexivity. }
  vm_compute in E. injection E as <- <- <- <-. split_and!; vm_compute; reflexivity.
Qed.
(** Systems are told apart by their type: two closures of one type with different captured
    values are one function; the second is never run. *)
Theorem C30_function_refuted :
  ∃ w, built w ∧
    ∃ sc' info ba order k s x, create_workload w sc_new = Some (sc', inr (info, ba, order)) ∧
      order !! k = Some s ∧ wl_systems w !! pos s = Some x ∧
      f_systems (sc_fns sc') !! p_index s ≠ Some (w_fn x) ∧
      w_fn x ∉ f_systems (sc_fns sc').
Proof.
  exists (nm 1 [mk_wsys 5 100 (LName 5) [wr 1]; mk_wsys 5 200 (LName 5) [wr 1]]).
  split; [repeat constructor|].
  destruct (create_workload _ _) as [[sc' [e|[[info ba] order]]]|] eqn:E;
    [vm_compute in E; done| |vm_compute in E; done].
  vm_compute in E. injection E as <- <- <- <-.
  eexists _, _, _, _, 1, _, _. split_and!; [reflexivity..| |].
  - vm_compute. done.
  - cbn. intros H. apply elem_of_list_singleton in H. done.
Qed.

(** C31: the three kinds of constraints. *)
Example C31_case :
  must_precede (wl_systems ex1) (wl_barriers ex1) 0 1 ∧
  must_precede (wl_systems ex1) (wl_barriers ex1) 4 1 ∧
  must_precede (wl_systems ex1) (wl_barriers ex1) 2 5.
Proof.
  split_and!.
  - right. right. split.
    + split; [lia|]. eexists _, _. split_and!; [reflexivity..| |];
        (intros [H|H]; by destruct H).
    + eexists _, _. split_and!; [reflexivity..|]. exists (wr 1), (rd 1).
      split_and!; [apply elem_of_list_here|apply elem_of_list_here|].
      left. split; [done|]. by left.
  - left. split; [done|]. eexists _, _. split_and!; [reflexivity..|]. left. exists (LName 11).
    split; apply elem_of_list_here.
  - right. left. split; [vm_compute; lia|]. exists 5. split_and!; [apply elem_of_list_here|lia..].
Qed.

(** C32: a cycle of explicit constraints is refused, also one through the implicit order. *)
Example C32_case :
  cycles (nm 1 [s_before_all (LName 11) (sy 10 []); s_before_all (LName 10) (sy 11 [])]) = true ∧
  cycles (nm 1 [sy 10 [wr 1]; sy 11 [wr 1];
                s_after_all (LName 11) (s_before_all (LName 10) (sy 12 []))]) = true ∧
  cycles (nm 1 [sy 10 [wr 1]; sy 11 [wr 1];
                s_after_all (LName 10) (s_before_all (LName 11) (sy 12 []))]) = false.
Proof. split_and!; vm_compute; reflexivity. Qed.
(** The order by declaration counts even between systems which have nothing to do with each
    other: the constraints on what may run at the same time ([must_precede]) have no cycle
    here, still a cycle is reported. *)
Theorem C32_conflicts_only_refuted :
  ∃ w, built w ∧ acyclic (must_precede (wl_systems w) (wl_barriers w)) ∧
    sc_workloads sc_new !! wl_name w = None ∧
    ∃ sc' l, create_workload w sc_new = Some (sc', inl (ECycle l)).
Proof.
  exists (nm 1 [sy 10 []; sy 11 []; s_after_all (LName 11) (s_before_all (LName 10) (sy 12 []))]).
  split_and!; [repeat constructor| |done|].
  2: { destruct (create_workload _ _) as [[sc' [[| | | |l]|r]]|] eqn:E; try (vm_compute in E; done).
       eauto. }
  set (w := nm _ _). set (rank := λ i, match i with 1 => 0 | 2 => 1 | _ => 2 end).
  assert (H : ∀ a b, must_precede (wl_systems w) (wl_barriers w) a b → rank a < rank b).
  { intros a b [He|[Hb|[_ Hc]]].
    - destruct He as (Hne & sa & sb & Ha & Hb & H).
      destruct a as [|[|[|a]]]; cbn in Ha; try done; injection Ha as <-;
        destruct b as [|[|[|b]]]; cbn in Hb; try done; injection Hb as <-; cbn; try lia; exfalso;
        destruct H as [(l & H1 & H2)|(l & H1 & H2)]; cbn in H1, H2;
        repeat (apply elem_of_cons in H1 as [->|H1]);
        try (by apply elem_of_nil in H1);
        repeat (apply elem_of_cons in H2 as [H2|H2]); try done;
        try (by apply elem_of_nil in H2).
    - destruct Hb as (_ & k & Hk & _). by apply elem_of_nil in Hk.
    - destruct Hc as (sa & sb & Ha & Hb & (x & y & Hx & _)).
      destruct a as [|[|[|a]]]; cbn in Ha; try done; injection Ha as <-; by apply elem_of_nil in Hx. }
  intros x Hx. assert (Ht : ∀ a b, tc (must_precede (wl_systems w) (wl_barriers w)) a b → rank a < rank b).
  { induction 1 as [a b Hab|a b c Hab _ IH]; [by apply H|]. apply H in Hab. lia. }
  apply Ht in Hx. lia.
Qed.

(** C33: no explicit constraints; declaration order in sequence, conflicts in order. *)
Example C33_case :
  Forall (λ s, ¬ opted_out s) (wl_systems ex2) ∧
  shape (nm 1 [sy 10 [wr 1]; sy 11 [rd 2]; sy 12 [rd 1]; sy 13 [wr 1]; sy 14 [rd 2]]) =
    Some ([(None, [0; 1]); (None, [2]); (None, [3; 4])], [0; 1; 2; 3; 4]).
Proof.
  split; [|vm_compute; reflexivity].
  repeat (apply List.Forall_cons; [intros [H|H]; by destruct H|]). apply List.Forall_nil.
Qed.

(** C34: a barrier in a merged workload. *)
Example C34_case :
  shape (wl_merge (nm 1 [sy 10 []; sy 11 []])
           (wl_with_system (sy 13 []) (wl_with_barrier (nm 2 [sy 12 []])))) =
    Some ([(None, [0; 1; 2]); (None, [3])], [0; 1; 2; 3]) ∧
  barred (wl_systems (wl_with_system (sy 13 []) (wl_with_barrier (nm 2 [sy 12 []]))))
         (wl_barriers (wl_with_system (sy 13 []) (wl_with_barrier (nm 2 [sy 12 []])))) 0 1.
Proof.
  split; [vm_compute; reflexivity|]. split; [vm_compute; lia|]. exists 1.
  split_and!; [apply elem_of_list_here|lia..].
Qed.
Example C34_case_grows : grows (wl_with_barrier (nm 2 [sy 12 []]))
  (wl_with_system (sy 13 []) (wl_with_barrier (nm 2 [sy 12 []]))).
Proof. repeat constructor. Qed.
(** [append] drops the barriers of the workload it takes the systems of. *)
Theorem C34_append_refuted :
  ∃ w o sc' info ba order a b,
    built w ∧ built o ∧ barred (wl_systems o) (wl_barriers o) a b ∧
    create_workload (wl_append w o) sc_new = Some (sc', inr (info, ba, order)) ∧
    ¬ runs_before info order (length (wl_systems w) + a) (length (wl_systems w) + b).
Proof.
  set (w := nm 1 [sy 10 []]).
  set (o := wl_with_system (sy 13 []) (wl_with_barrier (nm 2 [sy 12 []]))).
  destruct (create_workload (wl_append w o) sc_new) as [[sc' [e|[[info ba] order]]]|] eqn:E;
    [vm_compute in E; done| |vm_compute in E; done].
  assert (Hb : built (wl_append w o)) by repeat constructor.
  exists w, o, sc', info, ba, order, 0, 1. split_and!; [repeat constructor|repeat constructor| |done|].
  - split; [vm_compute; lia|]. exists 1. split_and!; [apply elem_of_list_here|lia..].
  - vm_compute in E. injection E as <- <- <- <-.
    intros [(ki & kj & (b & s & Hb1 & _) & (b' & s' & Hb2 & _) & Hlt) _].
    destruct kj as [|[|kj]]; [lia|done|done].
Qed.

(** C35: three elements, the middle one a workload of two systems. *)
Definition seq3 : list workload :=
  [single_workload (LName 10) (sy 10 [wr 1]); nm 2 [sy 11 []; sy 12 []];
   single_workload (LName 13) (sy 13 [])].
Example C35_case :
  (∀ w, w ∈ seq3 → built w ∧ wl_systems w ≠ []) ∧
  ∃ w, tuple_into_sequential (LName 9) seq3 = Some w ∧
    shape w = Some ([(None, [0]); (None, [1; 2]); (None, [3])], [0; 1; 2; 3]).
Proof.
  split.
  - intros w Hw. repeat (apply elem_of_cons in Hw as [->|Hw]; [split; [repeat constructor|done]|]).
    by apply elem_of_nil in Hw.
  - eexists. split; [vm_compute; reflexivity|]. vm_compute. reflexivity.
Qed.
(** An empty element breaks the chain: the first and the third element are not ordered. *)
Theorem C35_empty_element_refuted :
  ∃ ws w sc' info ba order,
    (∀ w, w ∈ ws → built w) ∧ tuple_into_sequential (LName 9) ws = Some w ∧
    create_workload w sc_new = Some (sc', inr (info, ba, order)) ∧
    length (wl_systems w) = 2 ∧ ¬ runs_before info order 0 1.
Proof.
  set (ws := [single_workload (LName 10) (sy 10 []); nm 2 []; single_workload (LName 13) (sy 13 [])]).
  destruct (tuple_into_sequential (LName 9) ws) as [w|] eqn:Ew; [|vm_compute in Ew; done].
  destruct (create_workload w sc_new) as [[sc' [e|[[info ba] order]]]|] eqn:E;
    [vm_compute in Ew; injection Ew as <-; vm_compute in E; done|
     |vm_compute in Ew; injection Ew as <-; vm_compute in E; done].
  exists ws, w, sc', info, ba, order. split_and!; [|done|done| |].
  - intros x Hx. repeat (apply elem_of_cons in Hx as [->|Hx]; [repeat constructor|]).
    by apply elem_of_nil in Hx.
  - vm_compute in Ew. injection Ew as <-. reflexivity.
  - vm_compute in Ew. injection Ew as <-. vm_compute in E. injection E as <- <- <- <-.
    intros [(ki & kj & (b & s & Hb1 & _) & (b' & s' & Hb2 & _) & Hlt) _].
    destruct kj as [|[|kj]]; [lia|done|done].
Qed.
(** [into_sequential_workload] called on a [Workload] gives no order at all, and undoes the
    order by declaration: here two conflicting systems run in the opposite order. *)
Theorem C35_workload_refuted :
  ∃ w w' sc' info ba order,
    built w ∧ wl_into_sequential w = Some w' ∧
    create_workload w' sc_new = Some (sc', inr (info, ba, order)) ∧
    length (wl_systems w') = 3 ∧ ¬ runs_before info order 0 1 ∧ runs_before info order 1 0.
Proof.
  set (w := nm 2 [s_after_all (LName 12) (sy 10 [wr 1]); sy 11 [wr 1]; sy 12 []]).
  assert (Hw : built w) by repeat constructor.
  destruct (wl_into_sequential w) as [w'|] eqn:Ew; [|vm_compute in Ew; done].
  assert (Hw' : built w') by (by eapply BSeqW).
  destruct (create_workload w' sc_new) as [[sc' [e|[[info ba] order]]]|] eqn:E;
    [vm_compute in Ew; injection Ew as <-; vm_compute in E; done|
     |vm_compute in Ew; injection Ew as <-; vm_compute in E; done].
  destruct (create_ok _ _ _ _ _ _ Hw' E) as (segs & HP & _).
  assert (Hr : runs_before info order 1 0).
  { apply (batch_lt_runs_before _ _ _ _ HP). exists 0, 1. clear HP segs.
    vm_compute in Ew. injection Ew as <-. vm_compute in E. injection E as <- <- <- <-.
    split_and!; [| |lia].
    - eexists _, _. split_and!; [reflexivity|apply elem_of_list_here|reflexivity].
    - eexists _, _. split_and!; [reflexivity|apply elem_of_list_here|reflexivity]. }
  exists w, w', sc', info, ba, order. split_and!; [done..| | |done].
  - vm_compute in Ew. injection Ew as <-. reflexivity.
  - intros Hr'. eapply (runs_before_irrefl _ _ _ _ HP 0).
    eapply (runs_before_trans _ _ _ _ HP); done.
Qed.

(** C38: requirements that are met, and that are not. *)
Definition missing (w : workload) : option werr :=
  match create_workload w sc_new with Some (_, inl e) => Some e | _ => None end.
Example C38_case :
  missing (nm 1 [sy 10 [wr 1]; s_require_before (LName 10) (s_require_in (LName 12) (sy 11 [rd 1]));
                 s_require_after (LName 13) (sy 12 [wr 1]); sy 13 [wr 1]]) = None ∧
  missing (nm 1 [sy 10 []; s_require_in (LName 12) (sy 11 [])]) = Some (EMissingIn 1 [LName 12]) ∧
  missing (nm 1 [sy 10 []; s_require_before (LName 10) (sy 11 [])]) =
    Some (EMissingBefore 1 [LName 10]) ∧
  missing (nm 1 [s_require_after (LName 11) (sy 10 []); sy 11 []]) =
    Some (EMissingAfter 0 [LName 11]).
Proof. split_and!; vm_compute; reflexivity. Qed.
(** Only conflicts with the nearest conflicting system are followed: here the required system
    has to run before the requiring one (they conflict and are in order), still the workload
    is refused. *)
Theorem C38_require_before_refuted :
  ∃ w i s t sc' l,
    built w ∧ wl_systems w !! i = Some s ∧ t ∈ w_req_before s ∧
    some_tagged (wl_systems w) t (λ j, must_precede (wl_systems w) (wl_barriers w) j i) ∧
    create_workload w sc_new = Some (sc', inl (EMissingBefore i l)).
Proof.
  set (w := nm 1 [sy 10 [wr 1]; sy 11 [wr 2]; s_require_before (LName 10) (sy 12 [wr 1; wr 2])]).
  destruct (create_workload w sc_new) as [[sc' [[| |i l| |]|r]]|] eqn:E; try (vm_compute in E; done).
  eexists w, i, _, (LName 10), sc', l. split_and!; [repeat constructor| | | |done].
  - vm_compute in E. injection E as <- <- <-. reflexivity.
  - cbn. apply elem_of_list_here.
  - vm_compute in E. injection E as <- <- <-. exists 0. eexists. split_and!; [reflexivity|apply elem_of_list_here|].
    right. right. split.
    + split; [lia|]. eexists _, _. split_and!; [reflexivity..| |]; (intros [H|H]; by destruct H).
    + eexists _, _. split_and!; [reflexivity..|]. exists (wr 1), (wr 1).
      split_and!; [apply elem_of_list_here|apply elem_of_list_here|]. left. split; [done|]. by left.
Qed.
(** A system's own tag satisfies its [require_after], as soon as something comes after it. *)
Theorem C38_require_after_refuted :
  ∃ w i s t sc' info ba order,
    built w ∧ wl_systems w !! i = Some s ∧ t ∈ w_req_after s ∧
    create_workload w sc_new = Some (sc', inr (info, ba, order)) ∧
    ¬ some_tagged (wl_systems w) t (λ j, runs_before info order i j).
Proof.
  set (w := nm 1 [s_require_after (LName 10) (sy 10 [wr 1]); sy 11 [wr 1]]).
  assert (Hw : built w) by repeat constructor.
  destruct (create_workload w sc_new) as [[sc' [e|[[info ba] order]]]|] eqn:E;
    [vm_compute in E; done| |vm_compute in E; done].
  eexists w, 0, _, (LName 10), sc', info, ba, order. split_and!; [done|reflexivity| |done|].
  - apply elem_of_list_here.
  - intros (j & sj & Hj & Ht & Hr). destruct (create_ok _ _ _ _ _ _ Hw E) as (segs & HP & _).
    destruct j as [|[|j]]; cbn in Hj; [|injection Hj as <-|done].
    + by eapply (runs_before_irrefl _ _ _ _ HP).
    + cbn in Ht. by apply elem_of_list_singleton in Ht.
Qed.

(** C39. *)
Example C39_case :
  system_valid [rd 1; rd 1; wr 2] = true ∧ system_valid [rd 1; wr 2; wr 1] = false ∧
  system_valid [all_mut] = true ∧ system_valid [rd 1; all_mut] = false ∧
  run_if_valid [rd 1; rd 2] = true ∧ run_if_valid [rd 1; wr 1] = false.
Proof. split_and!; vm_compute; reflexivity. Qed.
(** A run condition may borrow one storage twice exclusively. *)
Theorem C39_run_if_refuted : ∃ bs, run_if_valid bs = true ∧ self_conflict bs.
Proof.
  exists [wr 1; wr 1; rd 2]. split; [vm_compute; reflexivity|].
  exists 0, 1, (wr 1), (wr 1). split_and!; [done..|]. left. split; [done|]. by left.
Qed.

(** C55. *)
Example C55_case :
  let sc := sc_run sc_new [OpAdd ex1; OpAdd ex2; OpDefault (LName 7); OpDefault (LName 2);
                           OpRename (LName 2) (LName 3)] in
  sc_default sc = LName 3 ∧ sc_workloads sc !! LName 1 ≠ None ∧
  (ba_seq <$> default_workload sc) = Some [6; 1].
Proof. split_and!; vm_compute; done. Qed.
Theorem C55_rename_overwrites_refuted :
  ∃ os old new, let sc := sc_run sc_new os in
    is_Some (default_workload sc) ∧
    default_workload (sc_rename old new sc) ≠ default_workload sc.
Proof.
  exists [OpAdd ex1; OpAdd ex2], (LName 2), (LName 1). split.
  - vm_compute. eauto.
  - vm_compute. done.
Qed.

Print Assumptions C29_batch_conflict_free.
Print Assumptions C29_all_storages_alone.
Print Assumptions C29_workers_only_get_safe_systems.
Print Assumptions C30_each_system_once.
Print Assumptions C30_stored_indices.
Print Assumptions C30_function_partial.
Print Assumptions C30_function_refuted.
Print Assumptions C31_constraints_respected.
Print Assumptions C32_terminates.
Print Assumptions C32_cycle_iff.
Print Assumptions C32_accepted_iff.
Print Assumptions C32_conflicts_only_refuted.
Print Assumptions C33_accepted.
Print Assumptions C33_declaration_order.
Print Assumptions C34_barrier_separates.
Print Assumptions C34_merged_barrier.
Print Assumptions C34_append_refuted.
Print Assumptions C35_adjacent.
Print Assumptions C35_all_pairs.
Print Assumptions C35_empty_element_refuted.
Print Assumptions C35_workload_refuted.
Print Assumptions C38_require_in.
Print Assumptions C38_require_before_sound.
Print Assumptions C38_require_before_complete_partial.
Print Assumptions C38_require_before_refuted.
Print Assumptions C38_require_after_sound_partial.
Print Assumptions C38_require_after_complete_partial.
Print Assumptions C38_require_after_refuted.
Print Assumptions C39_system_valid_iff.
Print Assumptions C39_run_if_partial.
Print Assumptions C39_run_if_refuted.
Print Assumptions C55_default_exists.
Print Assumptions C55_added_stays.
Print Assumptions C55_set_default.
Print Assumptions C55_rename_keeps_partial.
Print Assumptions C55_add_keeps.
Print Assumptions C55_rename_overwrites_refuted.
