(** Concrete cases for C36 and C37, and the claims that are false. *)
From stdpp Require Import prelude countable list gmap sorting.
From Verif Require Import Sched SchedSpec SchedProofs SchedProofs2 SchedProofs3 PropsSched PropsSched2
  PropsSched3.
From Verif Require Import Run RunSpec RunProofs RunProofs2 RunProofs3 RunProofs4 PropsRun PropsRun2.
Local Open Scope nat_scope.

Lemma loaded_self w sc sc' info ba order :
  built w → create_workload w sc = Some (sc', inr (info, ba, order)) → loaded sc' sc' (wl_name w) ba.
Proof.
  intros Hb Hc. destruct (create_ok _ _ _ _ _ _ Hb Hc) as (_ & _ & _ & _ & _ & _ & _ & _ & _ & Hw).
  split; [|done]. unfold sc_workload. by rewrite Hw, lookup_insert.
Qed.
(** Adding other workloads keeps a workload loaded. *)
Lemma prefix_lookups {A} (l1 l2 : list A) :
  (∀ i x, l1 !! i = Some x → l2 !! i = Some x) → l1 `prefix_of` l2.
Proof.
  intros H. exists (drop (length l1) l2). rewrite <-(take_drop (length l1) l2) at 1. f_equal.
  apply list_eq. intros i. destruct (decide (i < length l1)) as [Hi|Hi].
  - rewrite lookup_take by done. destruct (lookup_lt_is_Some_2 l1 i Hi) as [x Hx]. rewrite Hx. by apply H.
  - rewrite lookup_take_ge by lia. symmetry. apply lookup_ge_None. lia.
Qed.
Lemma loaded_add sc' sc1 l ba w2 sc2 r :
  loaded sc' sc1 l ba → fns_ok (sc_fns sc1) → create_workload w2 sc1 = Some (sc2, r) → loaded sc' sc2 l ba.
Proof.
  intros [Hl Hp] Hok Hc. split.
  - unfold sc_workload in *.
    destruct (create_workloads _ _ _ _ Hc) as [(-> & _)|(x & _ & Hn & -> & _)]; [done|].
    rewrite lookup_insert_ne; [done|]. intros Heq. by rewrite Heq, Hl in Hn.
  - unfold create_workload in Hc. destruct (sc_workloads sc1 !! wl_name w2); [by injection Hc as <- _|].
    destruct (insert_systems (wl_systems w2) (sc_fns sc1)) as [f ps] eqn:Ei.
    destruct (insert_systems_fns _ _ _ _ Hok Ei) as (_ & _ & B & _).
    assert (sc_fns sc2 = f) as ->.
    { repeat case_match; simplify_eq; done. }
    etrans; [exact Hp|]. by apply prefix_lookups.
Qed.

Lemma fns_ok_new : fns_ok (sc_fns sc_new).
Proof. by intros ty i H. Qed.

(** * A workload with a run condition, in two batches *)

Definition set_prog (s v : N) : prog N (option unit) := Wr s (Some v) (Ret None).
Definition succ_prog (s t : N) : prog N (option unit) :=
  Rd s (λ v, Wr t (Some (default 0 v + 1))%N (Ret None)).
Definition run_sysf (f : N) : prog N (option unit) :=
  match f with
  | 10%N => set_prog 1 10
  | 11%N => succ_prog 1 2
  | 12%N => set_prog 3 30
  | 13%N => set_prog 4 40
  | _ => Ret (Some tt)
  end.
(** The condition is: storage [n] contains 1. *)
Definition run_condf (n : N) : prog N (unit + bool) := Rd n (λ v, Ret (inr (bool_decide (v = Some 1%N)))).

Definition exr : workload :=
  nm 1 [s_run_if (CBase 9) (sy 12 [wr 3]); s_run_if (CNot (CBase 9)) (sy 13 [wr 4]);
        sy 10 [wr 1]; sy 11 [rd 1; wr 2]].
Lemma exr_built : built exr.
Proof. apply built_nm. decl. Qed.
Definition exr_systems := Eval vm_compute in wl_systems exr.
Lemma exr_systems_eq : wl_systems exr = exr_systems.
Proof. vm_compute. reflexivity. Qed.
Definition exr_result := Eval vm_compute in create_workload exr sc_new.
Definition exr_info : list binfo :=
  Eval vm_compute in match exr_result with Some (_, inr (i, _, _)) => i | _ => [] end.
Definition exr_ba : batches :=
  Eval vm_compute in match exr_result with Some (_, inr (_, b, _)) => b | _ => ba_new None end.
Definition exr_order : list psys :=
  Eval vm_compute in match exr_result with Some (_, inr (_, _, o)) => o | _ => [] end.
Definition exr_sc : sched :=
  Eval vm_compute in match exr_result with Some (sc, _) => sc | _ => sc_new end.
Example exr_create : create_workload exr sc_new = Some (exr_sc, inr (exr_info, exr_ba, exr_order)).
Proof. vm_compute. reflexivity. Qed.
Example exr_shape : shape exr = Some ([(None, [0; 1; 2]); (None, [3])], [0; 1; 2; 3]).
Proof. vm_compute. reflexivity. Qed.

Lemma base_steady ss n :
  (∀ x, x ∈ ss → ¬ may_write (w_borrows x) n) → steady run_condf ss (CBase n).
Proof.
  intros H. split; [done|]. intros m s v x Hx Hw. cbn. unfold put.
  rewrite lookup_partial_alter_ne; [done|]. intros ->. by eapply H.
Qed.
Lemma not_steady ss c : steady run_condf ss c → steady run_condf ss (CNot c).
Proof.
  intros [H1 H2]. split.
  - intros m. cbn. specialize (H1 m). by destruct (ceval run_condf c m).
  - intros m s v x Hx Hw. cbn. specialize (H2 m s v x Hx Hw).
    destruct (ceval run_condf c m), (ceval run_condf c (put s v m)). cbn in *. by subst.
Qed.
Ltac each H := unfold exr_systems in H;
  repeat (apply elem_of_cons in H as [->|H]); try (by apply elem_of_nil in H).
Lemma exr_no9 x : x ∈ wl_systems exr → ¬ may_write (w_borrows x) 9.
Proof.
  rewrite exr_systems_eq. intros Hx (t & Ht & Hw). each Hx; cbn in Ht;
    repeat (apply elem_of_cons in Ht as [->|Ht]); try (by apply elem_of_nil in Ht);
    by destruct Hw as [[[=] _]|[=]].
Qed.
Lemma exr_steady x c : x ∈ wl_systems exr → w_run_if x = Some c → steady run_condf (wl_systems exr) c.
Proof.
  intros Hx Hc. pose proof exr_no9 as H9. pose proof Hx as Hx'. rewrite exr_systems_eq in Hx'.
  each Hx'; cbn in Hc; try done; injection Hc as <-.
  - by apply base_steady.
  - by apply not_steady, base_steady.
Qed.
Lemma set_respects bs s v : may_write bs s → respects bs (set_prog s v).
Proof. intros H. constructor; [done|constructor]. Qed.
Lemma exr_respects x : x ∈ wl_systems exr → respects (w_borrows x) (run_sysf (w_fn x)).
Proof.
  intros Hx. rewrite exr_systems_eq in Hx. each Hx; cbn.
  - apply set_respects. exists (wr 3). split; [by left|by left].
  - apply set_respects. exists (wr 4). split; [by left|by left].
  - apply set_respects. exists (wr 1). split; [by left|by left].
  - constructor.
    + exists (rd 1). split; [by left|by left].
    + intros v. constructor; [|constructor]. exists (wr 2). split; [right; by left|by left].
Qed.

Definition exr_m : store N := {[9%N := 1%N]}.
(** The hypotheses of C37 hold; every parallel run ends with the storages of the sequential
    run; C36 applies to it. *)
Example C37_case :
  ∃ tr m', run_workload_par run_sysf run_condf (wl_name exr) exr_sc exr_m tr m' None ∧
    m' = {[1%N := 10%N; 2%N := 11%N; 3%N := 30%N; 9%N := 1%N]}.
Proof.
  destruct (C36_run_exists run_sysf run_condf exr sc_new exr_sc exr_info exr_ba exr_order exr_sc exr_m)
    as (tr & m' & r & Hr); [apply exr_built|apply fns_ok_new|apply exr_create|
    by eapply loaded_self, exr_create; apply exr_built|].
  destruct (run_workload_seq run_sysf run_condf (wl_name exr) exr_sc exr_m) as [[trs ms] rs] eqn:Es.
  destruct (C37_declared_functions run_sysf run_condf exr sc_new exr_sc exr_info exr_ba exr_order exr_sc
    exr_m tr m' r trs ms rs) as [H1 H2];
    [apply exr_built|apply fns_ok_new|apply exr_create|by eapply loaded_self, exr_create; apply exr_built|
     |done|apply exr_respects|apply exr_steady|done|done|].
  - intros y z Hy Hz Ht. rewrite exr_systems_eq in Hy, Hz. each Hy; each Hz; done.
  - vm_compute in Es. injection Es as <- <- <-. exists tr, m'.
    rewrite (proj2 H1 eq_refl) in Hr. split; [done|]. rewrite H2 by done.
    apply map_eq. intros i. reflexivity.
Qed.
(** In this run systems 0, 2 and 3 are started, each once, and 1 is not. *)
Example C36_case :
  ∃ tr m', run_workload_par run_sysf run_condf (wl_name exr) exr_sc exr_m tr m' None ∧
    enabled run_condf exr exr_m ∧ NoDup (starts tr) ∧
    (0, Par 0) ∈ starts tr ∧ (0, Par 2) ∈ starts tr ∧ (1, Par 0) ∈ starts tr ∧ (0, Par 1) ∉ starts tr.
Proof.
  destruct C37_case as (tr & m' & Hr & _). exists tr, m'. split; [done|]. split; [done|].
  destruct (C36_success run_sysf run_condf exr sc_new exr_sc exr_info exr_ba exr_order exr_sc exr_m tr m')
    as (Hnd & _ & H); [apply exr_built|apply fns_ok_new|apply exr_create|
    by eapply loaded_self, exr_create; apply exr_built|done|done|].
  destruct (C36_only_enabled run_sysf run_condf exr sc_new exr_sc exr_info exr_ba exr_order exr_sc exr_m
    tr m' None) as (_ & _ & Ho); [apply exr_built|apply fns_ok_new|apply exr_create|
    by eapply loaded_self, exr_create; apply exr_built|done|done|].
  assert (Hplace : runs_as exr_info 0 (0, Par 0) ∧ runs_as exr_info 1 (0, Par 1) ∧
    runs_as exr_info 2 (0, Par 2) ∧ runs_as exr_info 3 (1, Par 0)).
  { split_and!; eexists _, _; (split; [reflexivity|]); (split; [reflexivity|]); reflexivity. }
  destruct Hplace as (P0 & P1 & P2 & P3).
  (* storage 9 is not written, so the conditions see its initial content *)
  split; [done|].
  destruct (H 0 _ eq_refl) as (t0 & _ & U0 & H0). rewrite <-(U0 _ P0) in H0. cbn in H0.
  destruct (H 1 _ eq_refl) as (t1 & _ & U1 & H1). rewrite <-(U1 _ P1) in H1. cbn in H1.
  destruct (H 2 _ eq_refl) as (t2 & _ & U2 & H2). rewrite <-(U2 _ P2) in H2. cbn in H2.
  destruct (H 3 _ eq_refl) as (t3 & _ & U3 & H3). rewrite <-(U3 _ P3) in H3. cbn in H3.
  assert (Hbatch : ∀ k m1 v, EvCond (0, Par k) m1 v ∈ tr → m1 = exr_m).
  { clear -Hr. intros k m1 v Hin. unfold run_workload_par in Hr. cbn in Hr.
    unfold run_batches_par, par_run in Hr. cbn in Hr.
    inversion Hr as [|? ? ? ? ? ? ? ? Hev|? ? ? ? ? ? ? ? ? ? Hev|? ? ? ? ? ? ? ? ? ? ? ? Hev|
      ? ? ? ? ? ? ? f tr1 ? ? tr2 ? ? Hev Hst Hres Hl]; subst.
    cbn in Hev. injection Hev as <- <- <-.
    apply elem_of_app in Hin as [Hin|Hin].
    { cbn in Hin. repeat (apply elem_of_cons in Hin as [[=]|Hin]); subst; try done. by apply elem_of_nil in Hin. }
    exfalso. apply elem_of_app in Hin as [Hin|Hin].
    - destruct (bsteps_facts _ _ _ _ _ _ _ Hst) as (? & ? & ? & [_ _ _ _ _ _ _ Hno _ _]).
      assert ((0, Par k) ∈ conds tr1) as Hc by (apply elem_of_conds; eauto).
      rewrite Hno in Hc. by apply elem_of_nil in Hc.
    - apply par_loop_batches in Hl as (trs & -> & _ & _ & _ & Htr).
      + apply concat_elem in Hin as (a & tra & Ha & Hin). destruct (Htr a tra Ha) as (? & ? & _ & Hbt).
        apply (bt_task _ _ _ _ _ _ _ _ Hbt) in Hin. done.
      + intros a b r Ha.
        apply (stored_wf exr sc_new exr_sc exr_info exr_ba exr_order exr_built exr_create fns_ok_new
          (f_systems (sc_fns exr_sc)) (reflexivity _) (S a)). exact Ha. }
  destruct H0 as (m2 & v2 & E2 & C2 & S2). destruct H1 as (m3 & v3 & E3 & C3 & S3).
  pose proof (Hbatch _ _ _ E2) as ->. pose proof (Hbatch _ _ _ E3) as ->.
  vm_compute in C2, C3. injection C2 as <-. injection C3 as <-.
  split_and!; [by apply S2|done|done|]. intros Hin. apply S3 in Hin. done.
Qed.

(** * A failing system *)

Definition exf : workload := nm 1 [sy 10 [wr 1]; sy 14 [wr 5]; sy 11 [rd 1; wr 2]].
Definition exf_systems := Eval vm_compute in wl_systems exf.
Definition exf_result := Eval vm_compute in create_workload exf sc_new.
Definition exf_info : list binfo :=
  Eval vm_compute in match exf_result with Some (_, inr (i, _, _)) => i | _ => [] end.
Definition exf_ba : batches :=
  Eval vm_compute in match exf_result with Some (_, inr (_, b, _)) => b | _ => ba_new None end.
Definition exf_order : list psys :=
  Eval vm_compute in match exf_result with Some (_, inr (_, _, o)) => o | _ => [] end.
Definition exf_sc : sched :=
  Eval vm_compute in match exf_result with Some (sc, _) => sc | _ => sc_new end.
Lemma exf_built : built exf.
Proof. apply built_nm. decl. Qed.
Example exf_create : create_workload exf sc_new = Some (exf_sc, inr (exf_info, exf_ba, exf_order)).
Proof. vm_compute. reflexivity. Qed.

(** Two systems of the first batch run at the same time, both started before one fails; the
    system of the second batch is not started. *)
Definition exf_tr : list (event N unit task) :=
  [EvStart (0, Par 0) 10; EvStart (0, Par 1) 14; EvEnd (0, Par 1) (Some tt); EvEnd (0, Par 0) None].
Lemma bsteps_cons_eq {V E} (sf : N → prog V (option E)) fs k own c1 tr1 c2 tr2 c3 tr :
  bstep sf fs k own c1 tr1 c2 → bsteps sf fs k own c2 tr2 c3 → tr = tr1 ++ tr2 →
  bsteps sf fs k own c1 tr c3.
Proof. intros H1 H2 ->. by econstructor. Qed.
Lemma exf_run :
  run_workload_par run_sysf run_condf (wl_name exf) exf_sc ∅ exf_tr {[1%N := 10%N]} (Some (RSystem 1 tt)).
Proof.
  unfold run_workload_par. cbn. unfold run_batches_par, par_run. cbn.
  change exf_tr with ([] ++ exf_tr). eapply PFail; [reflexivity| |].
  - vm_compute (batch_tasks _ _).
    eapply bsteps_cons_eq; [apply (BStart _ _ _ _ ∅ [] [(Par 1, 1)] (Par 0) 0 10%N [] []); reflexivity| |].
    1: eapply bsteps_cons_eq; [apply (BStart _ _ _ _ ∅ [] [] (Par 1) 1 14%N _ []); reflexivity| |].
    1: eapply bsteps_cons_eq; [apply (BWr _ _ _ _ ∅ [] [] [((Par 1, 1), Ret (Some tt))] (Par 0, 0) 1 (Some 10%N) (Ret None) [])| |].
    1: eapply bsteps_cons_eq; [apply (BEnd _ _ _ _ _ [] [((Par 0, 0), Ret None)] [] (Par 1, 1) (Some tt) [])| |].
    1: eapply bsteps_cons_eq; [apply (BEnd _ _ _ _ _ [] [] [] (Par 0, 0) None [((Par 1, 1), Some tt)])| |].
    1: apply bsteps_nil.
    all: reflexivity.
  - apply (BRPool _ _ (Par 1, 1) tt); [by left|done|].
    intros y e' Hy. cbn in Hy. apply elem_of_cons in Hy as [[= ->]|Hy]; [done|].
    by apply elem_of_list_singleton in Hy.
Qed.
Example C36_case_failure :
  failed exf_tr (0, Par 1) tt ∧ enabled run_condf exf ∅ ∧ loaded exf_sc exf_sc (wl_name exf) exf_ba ∧
  shape exf = Some ([(None, [0; 1]); (None, [2])], [0; 1; 2]) ∧
  run_workload_par run_sysf run_condf (wl_name exf) exf_sc ∅ exf_tr {[1%N := 10%N]} (Some (RSystem 1 tt)).
Proof.
  split_and!.
  - left. right. right. by left.
  - done.
  - eapply loaded_self, exf_create. apply exf_built.
  - vm_compute. reflexivity.
  - apply exf_run.
Qed.
Example C36_case_seq :
  (∃ tr m', run_workload_seq run_sysf run_condf (wl_name exr) exr_sc exr_m = (tr, m', None) ∧
     starts tr = [0; 2; 3]) ∧
  (∃ tr m', run_workload_seq run_sysf run_condf (wl_name exf) exf_sc ∅ = (tr, m', Some (RSystem 1 tt)) ∧
     starts tr = [0; 1]).
Proof. split; eexists _, _; (split; [vm_compute; reflexivity|reflexivity]). Qed.
(** A workload whose own condition does not hold. *)
Example C36_case_disabled :
  ∃ sc info ba order, create_workload (wl_set_run_if (CBase 8) exr) sc_new = Some (sc, inr (info, ba, order)) ∧
    sc_workload (wl_name exr) sc = Some ba ∧ ba_rif ba = Some (CBase 8) ∧
    (ceval run_condf (CBase 8) exr_m).2 = inr false.
Proof.
  destruct (create_workload (wl_set_run_if (CBase 8) exr) sc_new) as [[sc [e|[[info ba] order]]]|] eqn:E;
    [vm_compute in E; done| |vm_compute in E; done].
  exists sc, info, ba, order. split; [done|]. vm_compute in E. injection E as <- <- <- <-.
  split_and!; vm_compute; reflexivity.
Qed.
(** A function registered by an earlier workload is found by a later one, which stays loaded
    when more workloads are added. *)
Example loaded_case :
  ∃ sc2 r, create_workload ex2 exr_sc = Some (sc2, r) ∧ loaded exr_sc sc2 (wl_name exr) exr_ba.
Proof.
  destruct (create_workload ex2 exr_sc) as [[sc2 r]|] eqn:E; [|vm_compute in E; done].
  exists sc2, r. split; [done|]. eapply loaded_add; [| |exact E].
  - eapply loaded_self, exr_create. apply exr_built.
  - destruct (create_ok _ _ _ _ _ _ exr_built exr_create) as (_ & _ & _ & _ & _ & _ & _ & Hf & _).
    destruct (insert_systems (wl_systems exr) (sc_fns sc_new)) as [f ps] eqn:Ef.
    rewrite Hf. eapply insert_systems_fns; [|exact Ef]. apply fns_ok_new.
Qed.

(** * What is false *)

(** When the run conditions look at storages the systems write, the two ways of running differ:
    in parallel all conditions of a batch are evaluated before its first system, in sequence
    each just before its system.  Run conditions take no part in the conflict analysis. *)
Definition exc : workload := nm 1 [sy 10 [wr 1]; s_run_if (CBase 1) (sy 12 [wr 3])].
Definition one_sysf (f : N) : prog N (option unit) :=
  match f with 10%N => set_prog 1 1 | _ => set_prog 3 30 end.
Theorem C37_run_if_refuted :
  ∃ w sc' info ba order, built w ∧ create_workload w sc_new = Some (sc', inr (info, ba, order)) ∧
    loaded sc' sc' (wl_name w) ba ∧
    (∀ x, x ∈ wl_systems w → respects (w_borrows x) (one_sysf (w_fn x))) ∧
    (∀ c m, (ceval run_condf c m).1 = m) ∧
    ∃ tr m' trs ms, run_workload_par one_sysf run_condf (wl_name w) sc' ∅ tr m' None ∧
      run_workload_seq one_sysf run_condf (wl_name w) sc' ∅ = (trs, ms, None) ∧
      m' !! 3%N = None ∧ ms !! 3%N = Some 30%N.
Proof.
  exists exc.
  assert (Hb : built exc) by (apply built_nm; decl).
  destruct (create_workload exc sc_new) as [[sc' [e|[[info ba] order]]]|] eqn:E;
    [vm_compute in E; done| |vm_compute in E; done].
  exists sc', info, ba, order. split; [done|]. split; [done|].
  split; [by eapply loaded_self|]. split_and!.
  - intros x Hx. vm_compute in Hx. apply elem_of_cons in Hx as [->|Hx].
    + apply set_respects. exists (wr 1). split; [by left|by left].
    + apply elem_of_list_singleton in Hx as ->. apply set_respects. exists (wr 3). split; [by left|by left].
  - intros c. induction c as [n|c IH|c IHc d IHd]; intros m; cbn [ceval].
    + done.
    + specialize (IH m). by destruct (ceval run_condf c m).
    + specialize (IHc m). destruct (ceval run_condf c m) as [m1 [e|[]]]; cbn in *; subst; done.
  - vm_compute in E. injection E as <- <- <- <-.
    eexists _, _, _, _. split.
    { unfold run_workload_par. vm_compute (sc_workload _ _). cbv beta iota.
      unfold run_batches_par. vm_compute (workload_rif _ _ _). cbv beta iota. unfold par_run.
      vm_compute (zip _ _). eapply PNext; [vm_compute; reflexivity| |apply BROk|apply PNil].
      - vm_compute (batch_tasks _ _). vm_compute (f_systems _).
        eapply bsteps_cons; [apply (BStart _ _ _ _ ∅ [] [] (Par 0) 0 10%N [] []); reflexivity|]. cbn [app].
        eapply bsteps_cons; [apply (BWr _ _ _ _ ∅ [] [] [] (Par 0, 0) 1 (Some 1%N) (Ret None) [])|].
        eapply bsteps_cons; [apply (BEnd _ _ _ _ _ [] [] [] (Par 0, 0) None [])|].
        apply bsteps_nil.
      - intros x r Hx. by apply elem_of_list_singleton in Hx as [= -> ->]. }
    split; [vm_compute; reflexivity|]. split; vm_compute; reflexivity.
Qed.

(** When a system fails, what its batch still does depends on the schedule, and differs from
    the sequential run, which stops at once. *)
Definition exg : workload := nm 1 [sy 14 [wr 5]; sy 10 [wr 1]].
Theorem C37_failure_refuted :
  ∃ w sc' info ba order, built w ∧ create_workload w sc_new = Some (sc', inr (info, ba, order)) ∧
    loaded sc' sc' (wl_name w) ba ∧
    (∀ x, x ∈ wl_systems w → w_run_if x = None ∧ respects (w_borrows x) (run_sysf (w_fn x))) ∧
    ∃ tr m' trs ms e, run_workload_par run_sysf run_condf (wl_name w) sc' ∅ tr m' (Some e) ∧
      run_workload_seq run_sysf run_condf (wl_name w) sc' ∅ = (trs, ms, Some e) ∧
      m' !! 1%N = Some 10%N ∧ ms !! 1%N = None.
Proof.
  exists exg.
  assert (Hb : built exg) by (apply built_nm; decl).
  destruct (create_workload exg sc_new) as [[sc' [e|[[info ba] order]]]|] eqn:E;
    [vm_compute in E; done| |vm_compute in E; done].
  exists sc', info, ba, order. split; [done|]. split; [done|].
  split; [by eapply loaded_self|]. split_and!.
  - intros x Hx. vm_compute in Hx. apply elem_of_cons in Hx as [->|Hx].
    + split; [done|]. constructor.
    + apply elem_of_list_singleton in Hx as ->. split; [done|].
      apply set_respects. exists (wr 1). split; [by left|by left].
  - vm_compute in E. injection E as <- <- <- <-.
    eexists _, _, _, _, _. split.
    { unfold run_workload_par. vm_compute (sc_workload _ _). cbv beta iota.
      unfold run_batches_par. vm_compute (workload_rif _ _ _). cbv beta iota. unfold par_run.
      vm_compute (zip _ _). eapply PFail; [vm_compute; reflexivity| |].
      - vm_compute (batch_tasks _ _). vm_compute (f_systems _).
        eapply bsteps_cons; [apply (BStart _ _ _ _ ∅ [] [(Par 1, 1)] (Par 0) 0 14%N [] []); reflexivity|]. cbn [app].
        eapply bsteps_cons; [apply (BStart _ _ _ _ ∅ [] [] (Par 1) 1 10%N _ []); reflexivity|]. cbn [app].
        eapply bsteps_cons; [apply (BWr _ _ _ _ ∅ [] [((Par 0, 0), Ret (Some tt))] [] (Par 1, 1) 1 (Some 10%N) (Ret None) [])|].
        eapply bsteps_cons; [apply (BEnd _ _ _ _ _ [] [] [((Par 1, 1), Ret None)] (Par 0, 0) (Some tt) [])|].
        eapply bsteps_cons; [apply (BEnd _ _ _ _ _ [] [] [] (Par 1, 1) None [((Par 0, 0), Some tt)])|].
        apply bsteps_nil.
      - apply (BROwn _ _ (Par 0, 0) tt); [by left|done]. }
    split; [vm_compute; reflexivity|]. split; vm_compute; reflexivity.
Qed.

Print Assumptions C36_success.
Print Assumptions C36_only_enabled.
Print Assumptions C36_batches_in_order.
Print Assumptions C36_failure_stops.
Print Assumptions C36_error_reported.
Print Assumptions C36_disabled.
Print Assumptions C36_default.
Print Assumptions C36_run_exists.
Print Assumptions C36_seq_success.
Print Assumptions C36_seq_only_enabled.
Print Assumptions C36_seq_failure.
Print Assumptions C37_parallel_is_sequential.
Print Assumptions C37_declared_functions.
Print Assumptions C37_schedule_independent.
Print Assumptions C37_run_if_refuted.
Print Assumptions C37_failure_refuted.
