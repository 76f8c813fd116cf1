(** Properties of concurrent accesses to the table of storages (C27, C28, C56). *)
From stdpp Require Import prelude list gmap.
From Coq Require Import NArith.
From Verif Require Import EntityId Conc ConcSpec ConcProofs.
Open Scope N_scope.

Lemma read_value tr s t v s' ev :
  c_reach_safe tr s -> c_step s (t, CRead v) = Some (s', ev) ->
  exists sid, o_view (cobserve tr) !! v = Some sid /\ ev = CeValue (log (cobserve tr) sid).
Proof.
  intros Hr Hst. pose proof (safe_CI tr s Hr) as HI. set (o := cobserve tr) in *.
  unfold c_step in Hst. destruct (pcs s !! t); [done|].
  destruct (user_view v s) as [[c e]|] eqn:Hu; [|done]. injection Hst as <- <-.
  apply user_view_spec in Hu as [Hv Hn].
  destruct (ci_user s o HI v (ltac:(by eexists)) Hn) as [sid Hs]. exists sid. split; [done|].
  destruct (ci_uview s o HI v sid Hs) as [(c1 & e1 & H1 & H2) _].
  assert (c1 = c) as -> by congruence.
  destruct (ci_table s o HI sid c H2) as (_ & _ & H3). by rewrite H3.
Qed.

(** ** C27 *)
(** Reading a storage through any view, at any point of any concurrent execution, gives exactly what
    was written to that storage through all views obtained by all threads since it was created: the
    storage is the same for everybody and nothing is lost. *)
Theorem C27_nothing_lost tr s t v s' l :
  c_reach_safe tr s -> c_step s (t, CRead v) = Some (s', CeValue l) ->
  exists sid, o_view (cobserve tr) !! v = Some sid /\ l = log (cobserve tr) sid.
Proof.
  intros Hr Hst. destruct (read_value tr s t v s' _ Hr Hst) as (sid & H1 & [= ->]). by exists sid.
Qed.

(** All the views of one storage lead to the same memory, those of two storages to different memory. *)
Theorem C27_same_storage tr s v1 v2 sid1 sid2 :
  c_reach_safe tr s -> o_view (cobserve tr) !! v1 = Some sid1 -> o_view (cobserve tr) !! v2 = Some sid2 ->
  exists c1 e1 c2 e2, user_view v1 s = Some (c1, e1) /\ user_view v2 s = Some (c2, e2) /\
    (c1 = c2 <-> sid1 = sid2).
Proof.
  intros Hr H1 H2. pose proof (safe_CI tr s Hr) as HI. set (o := cobserve tr) in *.
  destruct (ci_uview s o HI v1 sid1 H1) as [(c1 & e1 & Hv1 & Ht1) Hn1].
  destruct (ci_uview s o HI v2 sid2 H2) as [(c2 & e2 & Hv2 & Ht2) Hn2].
  exists c1, e1, c2, e2. split_and!; [by apply user_view_spec|by apply user_view_spec|].
  split; [|congruence]. intros ->. by apply (ci_inj s o HI sid1 sid2 c2).
Qed.

(** A view obtained can be used at once by any thread that is not in the middle of a call. *)
Theorem C27_view_usable tr s t v sid :
  c_reach_safe tr s -> o_view (cobserve tr) !! v = Some sid -> pcs s !! t = None ->
  exists s', c_step s (t, CRead v) = Some (s', CeValue (log (cobserve tr) sid)).
Proof.
  intros Hr Hv Ht. pose proof (safe_CI tr s Hr) as HI.
  destruct (ci_uview s _ HI v sid Hv) as [(c & e & H1 & H2) Hn].
  exists (touch c s). unfold c_step. rewrite Ht.
  rewrite (proj2 (user_view_spec v s c e) (conj H1 Hn)).
  destruct (ci_table s _ HI sid c H2) as (_ & _ & H3). by rewrite H3.
Qed.

(** Lookups, creations and removals never deadlock: while calls are in progress one of them can go on. *)
Theorem C27_no_deadlock tr s t p :
  c_reach_safe tr s -> pcs s !! t = Some p -> exists t', is_Some (c_step s (t', CStep)).
Proof.
  intros Hr Hp. pose proof (safe_CI tr s Hr) as HI.
  assert (forall t1 p1, pcs s !! t1 = Some p1 -> holds_r p1 = true \/ holds_w p1 = true ->
    is_Some (c_step s (t1, CStep))) as Hgo.
  { intros t1 p1 H1 Hh. unfold c_step. rewrite H1.
    destruct p1 as [| | |[v|]| | | | | |[v|]| | | | | | |[|]| |]; cbn [holds_r holds_w] in Hh;
      try (by destruct Hh); cbn [c_continue];
      try (destruct (try_borrow _ _ _)); eauto. }
  destruct (writer s) as [w|] eqn:Hw.
  { destruct (proj1 (ci_w s _ HI w) Hw) as (p1 & H1 & H2). exists w. apply (Hgo w p1 H1). by right. }
  destruct (decide (readers s = ∅)) as [Hre|Hre].
  - exists t. destruct (holds_r p) eqn:Hhr; [apply (Hgo t p Hp); by left|].
    destruct (holds_w p) eqn:Hhw; [apply (Hgo t p Hp); by right|].
    unfold c_step. rewrite Hp. destruct p; try done; cbn [c_continue]; rewrite Hw;
      rewrite ?(bool_decide_eq_true_2 _ Hre); eauto.
  - apply set_choose_L in Hre as [r Hin]. destruct (proj1 (ci_r s _ HI r) Hin) as (p1 & H1 & H2).
    exists r. apply (Hgo r p1 H1). by left.
Qed.

(** ** C28 *)
(** remove_unique hands the unique out only when no view of it exists; the value returned is the current
    one. *)
Theorem C28_removed_unviewed tr s t s' l :
  c_reach_safe tr s -> c_step s (t, CStep) = Some (s', CeRemoved l) ->
  exists sid, o_wait (cobserve tr) !! t = Some sid /\ l = log (cobserve tr) sid /\
    forall v, o_view (cobserve tr) !! v <> Some sid.
Proof.
  intros Hr Hst. pose proof (safe_CI tr s Hr) as HI. set (o := cobserve tr) in *.
  unfold c_step in Hst. destruct (pcs s !! t) as [p|] eqn:Hp; [|done].
  pose proof (ci_pc s o HI t p Hp) as Hok.
  destruct p as [| | |[v|]| | | | | |[v|]| | | | | |c|[|]| |]; cbn [c_continue] in Hst;
    try (destruct (writer s); try done; try (destruct (bool_decide _); try done); fail);
    try (destruct (try_borrow _ _ _); done); try done.
  injection Hst as _ <-. cbn [cpc_ok] in Hok.
  destruct Hok as (Hf & Hlt & Hnt & sid & H1 & H2 & H3). exists sid. split_and!; [done|by rewrite H3|].
  intros v Hv. destruct (ci_uview s o HI v sid Hv) as [(c1 & e1 & _ & H5) _]. congruence.
Qed.

(** Freed memory is never accessed: no lookup finds a removed storage, no view of it is left. *)
Theorem C28_no_use_after_free tr s : c_reach_safe tr s -> ub s = false.
Proof. intros Hr. exact (ci_ub s _ (safe_CI tr s Hr)). Qed.

(** ** C56: add_unique on a viewed unique *)
Fixpoint c_run (s : cst) (ls : list (N * caction)) : option (cst * list (N * caction * cevent)) :=
  match ls with
  | [] => Some (s, [])
  | l :: ls =>
      match c_step s l with
      | None => None
      | Some (s1, ev) =>
          match c_run s1 ls with None => None | Some (s2, tr) => Some (s2, (l, ev) :: tr) end
      end
  end.
Lemma c_run_reach ls : forall tr s s' tr',
  c_reach tr s -> c_run s ls = Some (s', tr') -> c_reach (tr ++ tr') s'.
Proof.
  induction ls as [|l ls IH]; intros tr s s' tr' Hr H; cbn [c_run] in H.
  - injection H as <- <-. by rewrite app_nil_r.
  - destruct (c_step s l) as [[s1 ev]|] eqn:Hst; [|done].
    destruct (c_run s1 ls) as [[s2 tr2]|] eqn:Hrn; [|done]. injection H as <- <-.
    rewrite cons_middle, app_assoc. apply (IH _ s1); [|done]. by apply (c_reach_step tr s).
Qed.

(** One thread: add a unique, take a view of it, add the unique again, read through the view. *)
Definition uaf : list (N * caction) :=
  [(0, CAdd 7); (0, CStep); (0, CStep);
   (0, CAccess 7 false false); (0, CStep); (0, CStep); (0, CStep); (0, CStep);
   (0, CAdd 7); (0, CStep); (0, CStep)].

(** Wanted: [forall tr s, c_reach tr s -> ub s = false]. It is false, already without concurrency: the
    view [v] is alive, reading through it succeeds and touches freed memory. *)
Theorem C56_add_unique_frees_refuted :
  exists tr s s' v l, c_reach tr s /\ o_view (cobserve tr) !! v = Some 7 /\ ub s = false /\
    (forall t, t <> 0 -> pcs s !! t = None) /\
    c_step s (0, CRead v) = Some (s', CeValue l) /\ ub s' = true.
Proof.
  assert (exists s tr, c_run c_init uaf = Some (s, tr) /\ o_view (cobserve tr) !! 0 = Some 7 /\
    ub s = false /\ map_to_list (pcs s) = [] /\
    exists s' l, c_step s (0, CRead 0) = Some (s', CeValue l) /\ ub s' = true) as
    (s & tr & Hrun & Hv & Hu & Hp & s' & l & Hst & Hu').
  { destruct (c_run c_init uaf) as [[s tr]|] eqn:E.
    - exists s, tr. vm_compute in E. injection E as <- <-. split_and!; try (vm_compute; reflexivity).
      eexists _, _. split; vm_compute; reflexivity.
    - vm_compute in E. done. }
  exists tr, s, s', 0, l. split_and!; try done.
  - apply (c_run_reach uaf [] c_init s tr); [constructor|done].
  - intros t _. apply map_to_list_empty_iff in Hp. rewrite Hp. apply lookup_empty.
Qed.

(** What holds: adding a unique nobody views is safe. *)
Theorem C56_add_unviewed_partial tr s : c_reach_safe tr s -> ub s = false.
Proof. apply C28_no_use_after_free. Qed.

(** ** Non-vacuity *)
Definition safe_step (o : cobs) (t : N) (ev : cevent) : bool :=
  match ev with
  | CeAdded =>
      match o_wait o !! t with
      | Some sid => forallb (fun kv => negb (kv.2 =? sid)) (map_to_list (o_view o))
      | None => true
      end
  | _ => true
  end.
Fixpoint c_run_safe (o : cobs) (s : cst) (ls : list (N * caction)) : option (cst * list (N * caction * cevent)) :=
  match ls with
  | [] => Some (s, [])
  | l :: ls =>
      match c_step s l with
      | None => None
      | Some (s1, ev) =>
          if safe_step o l.1 ev
          then match c_run_safe (co_step o (l, ev)) s1 ls with
               | None => None
               | Some (s2, tr) => Some (s2, (l, ev) :: tr)
               end
          else None
      end
  end.
Lemma c_run_safe_reach ls : forall tr s s' tr',
  c_reach_safe tr s -> c_run_safe (cobserve tr) s ls = Some (s', tr') -> c_reach_safe (tr ++ tr') s'.
Proof.
  induction ls as [|[t a] ls IH]; intros tr s s' tr' Hr H; cbn [c_run_safe] in H.
  - injection H as <- <-. by rewrite app_nil_r.
  - destruct (c_step s (t, a)) as [[s1 ev]|] eqn:Hst; [|done]. cbn [fst] in H.
    destruct (safe_step (cobserve tr) t ev) eqn:Hs; [|done].
    destruct (c_run_safe _ s1 ls) as [[s2 tr2]|] eqn:Hrn; [|done]. injection H as <- <-.
    rewrite cons_middle, app_assoc. apply (IH _ s1); [|by rewrite cobserve_app].
    apply (c_safe_step tr s); [done|done|]. intros -> v sid Hv Hw. cbn [safe_step] in Hs. rewrite Hw in Hs.
    rewrite forallb_forall in Hs. specialize (Hs (v, sid)). cbn [snd] in Hs.
    rewrite N.eqb_refl in Hs. cbn [negb] in Hs. discriminate Hs.
    by apply elem_of_list_In, elem_of_map_to_list.
Qed.

(** Two threads race to create the same storage (both find it missing before either creates it), then
    one writes through its view, drops it and the other one takes a view; a third thread adds a unique,
    views it, fails to have it removed by a fourth one, drops the view and it is removed. *)
Definition ex_race : list (N * caction) :=
  [(0, CAccess 7 true true); (1, CAccess 7 true true);
   (0, CStep); (1, CStep); (0, CStep); (1, CStep); (1, CStep); (0, CStep); (* both must create *)
   (0, CStep); (0, CStep); (0, CStep); (0, CStep);                         (* 0 creates and gets view 0 *)
   (1, CStep); (1, CStep); (1, CStep); (1, CStep);                         (* 1 finds it: borrow error *)
   (0, CWrite 0 100); (0, CWrite 0 101); (0, CDrop 0);
   (1, CAccess 7 true true); (1, CStep); (1, CStep); (1, CStep); (1, CStep);  (* view 1 *)
   (1, CWrite 1 102);
   (2, CAdd 8); (2, CStep); (2, CStep);
   (2, CAccess 8 false false); (2, CStep); (2, CStep); (2, CStep); (2, CStep); (* view 2 *)
   (3, CRemove 8); (3, CStep); (3, CStep); (3, CStep); (3, CStep);            (* error *)
   (2, CDrop 2);
   (3, CRemove 8); (3, CStep); (3, CStep); (3, CStep); (3, CStep); (3, CStep)].

Example ex_C27 : exists tr s s' l, c_reach_safe tr s /\
  o_view (cobserve tr) !! 1 = Some 7 /\ o_wait (cobserve tr) !! 3 = Some 8 /\
  c_step s (1, CRead 1) = Some (s', CeValue [100; 101; 102]) /\
  pcs s !! 3 = Some (PRemoved 1) /\
  c_step s (3, CStep) = Some (l, CeRemoved []).
Proof.
  destruct (c_run_safe co_init c_init ex_race) as [[s tr]|] eqn:E; [|vm_compute in E; done].
  exists tr, s. eexists _, _. split.
  { apply (c_run_safe_reach ex_race [] c_init s tr); [constructor|done]. }
  vm_compute in E. injection E as <- <-. split_and!; vm_compute; reflexivity.
Qed.
(** The failed removal and the lost race are part of that run. *)
Example ex_C28 : exists tr s, c_reach_safe tr s /\ (3, CStep, CeRemoveErr) ∈ tr /\ (1, CStep, CeBorrowErr) ∈ tr
  /\ (2, CStep, CeAdded) ∈ tr.
Proof.
  destruct (c_run_safe co_init c_init ex_race) as [[s tr]|] eqn:E; [|vm_compute in E; done].
  exists tr, s. split.
  { apply (c_run_safe_reach ex_race [] c_init s tr); [constructor|done]. }
  vm_compute in E. injection E as _ <-. split_and!; repeat (first [apply elem_of_list_here | apply elem_of_list_further]).
Qed.

Print Assumptions C27_nothing_lost.
Print Assumptions C27_same_storage.
Print Assumptions C27_view_usable.
Print Assumptions C27_no_deadlock.
Print Assumptions C28_removed_unviewed.
Print Assumptions C28_no_use_after_free.
Print Assumptions C56_add_unique_frees_refuted.
Print Assumptions C56_add_unviewed_partial.
