(** Properties of running a workload: C36. *)
From stdpp Require Import prelude countable list gmap sorting.
From Verif Require Import Sched SchedSpec SchedProofs SchedProofs2 SchedProofs3 PropsSched PropsSched3.
From Verif Require Import Run RunSpec RunProofs RunProofs2 RunProofs4.
Local Open Scope nat_scope.

Section run.
Context {V E : Type} (sysf : N → prog V (option E)) (condf : N → prog V (E + bool)).

(** The shape of a run of an enabled workload. *)
Lemma run_batches_trace w sc sc' info ba order sc2 m tr m' r :
  built w → fns_ok (sc_fns sc) → create_workload w sc = Some (sc', inr (info, ba, order)) →
  loaded sc' sc2 (wl_name w) ba → enabled condf w m →
  run_workload_par sysf condf (wl_name w) sc2 m tr m' r →
  ∃ trs, tr = concat trs ∧ length trs ≤ length info ∧
    (r = None → length trs = length info) ∧ (r ≠ None → trs ≠ []) ∧
    (∀ a tra, trs !! a = Some tra → ∃ bi rf, info !! a = Some bi ∧ aligned (ba_sys_rif ba) bi rf ∧
       batch_trace condf (f_systems (sc_fns sc2)) ba a (batch_indices bi) rf tra
         (if S a =? length trs then r else None)).
Proof.
  intros Hb Hok Hc [Hl Hfs] Hen Hrun. unfold run_workload_par in Hrun. rewrite Hl in Hrun.
  unfold run_batches_par, workload_rif in Hrun.
  destruct (create_ok _ _ _ _ _ _ Hb Hc) as (segs & _ & _ & Hrif & _). rewrite Hrif in Hrun.
  assert (∃ m1, par_run sysf condf (f_systems (sc_fns sc2)) ba m1 tr m' r) as [m1 Hp].
  { unfold enabled in Hen. destruct (wl_run_if w) as [c|]; [|eauto].
    destruct (ceval condf c m) as [m1 x]. cbn in Hen. subst x. eauto. }
  unfold par_run in Hp. apply par_loop_batches in Hp as (trs & -> & H1 & H2 & H3 & H4).
  2: { intros a b rf Ha. by eapply stored_wf. }
  exists trs. erewrite (stored_length w sc sc' info ba order) in H1, H2 by done. split_and!; try done.
  intros a tra Ha. destruct (H4 a tra Ha) as (b & rf & Hbr & Hbt).
  eapply stored_at in Hbr as (bi & Hbi & -> & Hal); [|done..]. eauto.
Qed.

(** * C36: with the feature "parallel" *)

(** In a run that succeeds, every declared system has exactly one place; there it was started
    if it has no run condition; otherwise its condition was evaluated, and it was started
    exactly if the condition gave true. Nothing is started twice and all that was started
    finished without error. *)
Theorem C36_success w sc sc' info ba order sc2 m tr m' :
  built w → fns_ok (sc_fns sc) → create_workload w sc = Some (sc', inr (info, ba, order)) →
  loaded sc' sc2 (wl_name w) ba → enabled condf w m →
  run_workload_par sysf condf (wl_name w) sc2 m tr m' None →
  NoDup (starts tr) ∧ (∀ t, t ∈ starts tr → EvEnd t None ∈ tr) ∧
  (∀ i x, wl_systems w !! i = Some x → ∃ t, runs_as info i t ∧ (∀ t', runs_as info i t' → t' = t) ∧
     match w_run_if x with
     | None => t ∈ starts tr
     | Some c => ∃ m1 v, EvCond t m1 v ∈ tr ∧ (ceval condf c m1).2 = inr v ∧ (v = true ↔ t ∈ starts tr)
     end).
Proof.
  intros Hb Hok Hc Hl Hen Hrun.
  destruct (run_batches_trace _ _ _ _ _ _ _ _ _ _ _ Hb Hok Hc Hl Hen Hrun) as
    (trs & -> & _ & Hlen & _ & Htr). specialize (Hlen eq_refl).
  assert (Hnone : ∀ a : nat, (if S a =? length trs then @None (rerr E) else None) = None).
  { intros a. by destruct (_ =? _). }
  assert (Hnum : ∀ a tra t, trs !! a = Some tra → t ∈ starts tra → t.1 = a).
  { intros a tra t Ha Ht. destruct (Htr a tra Ha) as (bi & rf & _ & _ & Hbt).
    apply elem_of_starts in Ht as [f Hf]. by apply (bt_task _ _ _ _ _ _ _ _ Hbt) in Hf. }
  split_and!.
  - rewrite starts_concat. apply (nodup_concat fst 0). intros a l Ha.
    rewrite list_lookup_fmap in Ha. apply fmap_Some in Ha as (tra & Ha & ->).
    destruct (Htr a tra Ha) as (bi & rf & _ & _ & Hbt). split; [by eapply bt_starts|].
    intros t Ht. by eapply Hnum.
  - intros t Ht. rewrite starts_concat in Ht. apply concat_elem in Ht as (a & l & Ha & Ht).
    rewrite list_lookup_fmap in Ha. apply fmap_Some in Ha as (tra & Ha & ->).
    destruct (Htr a tra Ha) as (bi & rf & _ & _ & Hbt). rewrite Hnone in Hbt.
    rewrite (bt_ends _ _ _ _ _ _ _ _ Hbt) in Ht. apply elem_of_ends in Ht as [o Ho].
    destruct o as [e|]; [|apply concat_elem; eauto].
    exfalso. eapply (bt_err _ _ _ _ _ _ _ _ Hbt t e); [by left|done].
  - intros i x Hx. destruct (runs_as_exists _ _ _ _ _ _ Hb Hc _ _ Hx) as [t Ht].
    exists t. split; [done|]. split.
    { intros t' Ht'. by eapply runs_as_unique. }
    destruct Ht as (b & s & Hk & Hs & Hp). destruct t as [k sl]. cbn in Hk, Hs.
    destruct (lookup_lt_is_Some_2 trs k) as [tra Ha].
    { rewrite Hlen. by apply lookup_lt_Some in Hk. }
    destruct (Htr k tra Ha) as (bi & rf & Hbi & Hal & Hbt). rewrite Hk in Hbi. injection Hbi as <-.
    rewrite Hnone in Hbt. destruct (slot_job _ _ _ _ _ Hal Hs) as (c & Hj & Hres).
    pose proof (bt_ok _ _ _ _ _ _ _ _ Hbt eq_refl _ _ _ Hj) as Hst.
    destruct (create_ok _ _ _ _ _ _ Hb Hc) as (segs & HP & _).
    destruct (member_sys w sc info order segs k b s Hb HP Hk) as (y & Hy & _ & R & _);
      [by eapply slot_member|]. rewrite Hp, Hx in Hy. injection Hy as <-. rewrite R in Hres.
    assert (Hss : (k, sl) ∈ starts (concat trs) ↔ (k, sl) ∈ starts tra).
    { rewrite starts_concat, concat_elem. split.
      - intros (a & l & Ha' & Hin). rewrite list_lookup_fmap in Ha'.
        apply fmap_Some in Ha' as (tra' & Ha' & ->). pose proof (Hnum _ _ _ Ha' Hin). cbn in H. subst a.
        rewrite Ha in Ha'. by injection Ha' as <-.
      - intros Hin. exists k, (starts tra). by rewrite list_lookup_fmap, Ha. }
    destruct (w_run_if x) as [cx|], c as [c|]; try done; cbn in Hres.
    + destruct Hst as (m1 & v & Hv & Hi). exists m1, v. split_and!.
      * apply concat_elem. eauto.
      * destruct (bt_cond _ _ _ _ _ _ _ _ Hbt _ _ _ Hv) as (ix & ci & cd & Hj' & Hcd & Hce).
        rewrite Hj in Hj'. injection Hj' as <- <-. rewrite Hres in Hcd. by injection Hcd as <-.
      * rewrite Hss. done.
    + by apply Hss.
Qed.

(** In every run, successful or not: what is started is a declared system, whose condition (if
    it has one) was evaluated in this run and held; nothing is started twice; what starts ends. *)
Theorem C36_only_enabled w sc sc' info ba order sc2 m tr m' r :
  built w → fns_ok (sc_fns sc) → create_workload w sc = Some (sc', inr (info, ba, order)) →
  loaded sc' sc2 (wl_name w) ba → enabled condf w m →
  run_workload_par sysf condf (wl_name w) sc2 m tr m' r →
  NoDup (starts tr) ∧ starts tr ≡ₚ ends tr ∧
  (∀ t f, EvStart t f ∈ tr → ∃ i x b s, wl_systems w !! i = Some x ∧ runs_as info i t ∧
     info !! t.1 = Some b ∧ slot_of b t.2 = Some s ∧ f_systems (sc_fns sc2) !! p_index s = Some f ∧
     match w_run_if x with
     | None => True
     | Some c => ∃ m1, EvCond t m1 true ∈ tr ∧ (ceval condf c m1).2 = inr true
     end).
Proof.
  intros Hb Hok Hc Hl Hen Hrun.
  destruct (run_batches_trace _ _ _ _ _ _ _ _ _ _ _ Hb Hok Hc Hl Hen Hrun) as (trs & -> & _ & _ & _ & Htr).
  split_and!.
  - rewrite starts_concat. apply (nodup_concat fst 0). intros a l Ha.
    rewrite list_lookup_fmap in Ha. apply fmap_Some in Ha as (tra & Ha & ->).
    destruct (Htr a tra Ha) as (bi & rf & _ & _ & Hbt). split; [by eapply bt_starts|].
    intros t Ht. apply elem_of_starts in Ht as [f Hf]. by apply (bt_task _ _ _ _ _ _ _ _ Hbt) in Hf.
  - rewrite starts_concat, ends_concat. clear -Htr.
    assert (H : ∀ tra, tra ∈ trs → starts tra ≡ₚ ends tra).
    { intros tra Hin. apply elem_of_list_lookup in Hin as [a Ha].
      destruct (Htr a tra Ha) as (bi & rf & _ & _ & Hbt). by eapply bt_ends. }
    clear Htr. induction trs as [|tra trs IH]; [done|]. cbn [map concat].
    rewrite H by (by left). rewrite IH; [done|]. intros x Hx. apply H. by right.
  - intros t f Hin. apply concat_elem in Hin as (a & tra & Ha & Hin).
    destruct (Htr a tra Ha) as (bi & rf & Hbi & Hal & Hbt).
    pose proof (bt_task _ _ _ _ _ _ _ _ Hbt _ Hin) as Ht. destruct t as [k sl]. cbn in Ht. subst k.
    destruct (bt_start _ _ _ _ _ _ _ _ Hbt _ _ Hin) as (ix & c & Hj & Hf & Hp).
    destruct (job_slot _ _ _ _ _ _ Hal Hj) as (s & Hs & -> & Hres).
    destruct (create_ok _ _ _ _ _ _ Hb Hc) as (segs & HP & _).
    destruct (member_sys w sc info order segs a bi s Hb HP Hbi) as (y & Hy & _ & R & _);
      [by eapply slot_member|].
    exists (pos s), y, bi, s. split_and!; try done; [by exists bi, s|].
    rewrite R in Hres. destruct (w_run_if y) as [cy|]; [|done]. destruct c as [c|]; [|done]. cbn in Hres.
    destruct Hp as [Hp|[m1 Hp]]; [done|]. exists m1. split; [apply concat_elem; eauto|].
    destruct (bt_cond _ _ _ _ _ _ _ _ Hbt _ _ _ Hp) as (ix & ci & cd & Hj' & Hcd & Hce).
    rewrite Hj in Hj'. injection Hj' as <- <-. rewrite Hres in Hcd. by injection Hcd as <-.
Qed.

(** The batches are run one after the other: everything that happens in a batch happens after
    all that happens in the earlier ones.  Within a batch all conditions are evaluated before
    the first system starts; a system ends after it started. *)
Theorem C36_batches_in_order w sc sc' info ba order sc2 m tr m' r :
  built w → fns_ok (sc_fns sc) → create_workload w sc = Some (sc', inr (info, ba, order)) →
  loaded sc' sc2 (wl_name w) ba → enabled condf w m →
  run_workload_par sysf condf (wl_name w) sc2 m tr m' r →
  (∀ tr1 e1 tr2 e2 tr3, tr = tr1 ++ e1 :: tr2 ++ e2 :: tr3 → (ev_task e1).1 ≤ (ev_task e2).1) ∧
  (∀ tr1 t f tr2 t', tr = tr1 ++ EvStart t f :: tr2 → t' ∈ conds tr2 → t.1 < t'.1) ∧
  (∀ tr1 t x tr2, tr = tr1 ++ EvEnd t x :: tr2 → t ∈ starts tr1).
Proof.
  intros Hb Hok Hc Hl Hen Hrun.
  destruct (run_batches_trace _ _ _ _ _ _ _ _ _ _ _ Hb Hok Hc Hl Hen Hrun) as (trs & -> & _ & _ & _ & Htr).
  assert (Hnum : ∀ a tra, trs !! a = Some tra → ∀ ev, ev ∈ tra → (ev_task ev).1 = a).
  { intros a tra Ha ev Hev. destruct (Htr a tra Ha) as (bi & rf & _ & _ & Hbt).
    by apply (bt_task _ _ _ _ _ _ _ _ Hbt) in Hev. }
  assert (Hsplit : ∀ tr1 ev tr2, concat trs = tr1 ++ ev :: tr2 →
    ∃ a tra l1 l2, trs !! a = Some tra ∧ tra = l1 ++ ev :: l2 ∧
      tr1 = concat (take a trs) ++ l1 ∧ tr2 = l2 ++ concat (drop (S a) trs)).
  { clear. induction trs as [|tra trs IH]; cbn [concat]; intros tr1 ev tr2 Heq; [by destruct tr1|].
    apply app_split in Heq as [(l & -> & ->)|(l & -> & Heq)].
    - exists 0, (tr1 ++ ev :: l), tr1, l. done.
    - destruct (IH _ _ _ Heq) as (a & tra' & l1 & l2 & H1 & H2 & -> & ->).
      exists (S a), tra', l1, l2. cbn [take concat]. split_and!; [done|done|by rewrite app_assoc|done]. }
  split_and!.
  - intros tr1 e1 tr2 e2 tr3 Heq. eapply (sorted_concat (λ e, (ev_task e).1) 0); [|exact Heq].
    intros a l Ha ev Hev. by rewrite (Hnum a l Ha ev Hev).
  - intros tr1 t f tr2 t' Heq Hin. destruct (Hsplit _ _ _ Heq) as (a & tra & l1 & l2 & H1 & H2 & -> & ->).
    destruct (Htr a tra H1) as (bi & rf & _ & _ & Hbt).
    pose proof (bt_start_after _ _ _ _ _ _ _ _ Hbt _ _ _ _ H2) as Hno.
    rewrite conds_app, Hno in Hin. cbn [app] in Hin.
    assert (Ht : t.1 = a).
    { apply (Hnum a tra H1 (EvStart t f)). rewrite H2. apply elem_of_app. right. by left. }
    assert (∃ ev, ev ∈ concat (drop (S a) trs) ∧ ev_task ev = t') as (ev & Hev & <-).
    { apply elem_of_conds in Hin as [(m0 & v & Hv)|(m0 & v & Hv)]; eauto. }
    apply concat_elem in Hev as (b & l & Hl' & Hev). rewrite lookup_drop in Hl'.
    rewrite (Hnum _ _ Hl' _ Hev). lia.
  - intros tr1 t x tr2 Heq. destruct (Hsplit _ _ _ Heq) as (a & tra & l1 & l2 & H1 & H2 & -> & ->).
    destruct (Htr a tra H1) as (bi & rf & _ & _ & Hbt).
    pose proof (bt_end_after _ _ _ _ _ _ _ _ Hbt _ _ _ _ H2) as Hin.
    rewrite starts_app. apply elem_of_app. by right.
Qed.

(** When a system or its condition fails, the run is reported as failed, and no system of a
    later batch is started. *)
Theorem C36_failure_stops w sc sc' info ba order sc2 m tr m' r t e :
  built w → fns_ok (sc_fns sc) → create_workload w sc = Some (sc', inr (info, ba, order)) →
  loaded sc' sc2 (wl_name w) ba → enabled condf w m →
  run_workload_par sysf condf (wl_name w) sc2 m tr m' r → failed tr t e →
  (∃ i' e', r = Some (RSystem i' e')) ∧ (∀ ev, ev ∈ tr → (ev_task ev).1 ≤ t.1).
Proof.
  intros Hb Hok Hc Hl Hen Hrun Hf.
  destruct (run_batches_trace _ _ _ _ _ _ _ _ _ _ _ Hb Hok Hc Hl Hen Hrun) as (trs & -> & _ & _ & _ & Htr).
  assert (∃ a tra, trs !! a = Some tra ∧ failed tra t e) as (a & tra & Ha & Hfa).
  { destruct Hf as [H|[m0 H]]; apply concat_elem in H as (a & tra & Ha & H); exists a, tra; split; [done| |done|].
    - by left.
    - right. eauto. }
  destruct (Htr a tra Ha) as (bi & rf & _ & _ & Hbt).
  assert (Hta : t.1 = a).
  { destruct Hfa as [H|[m0 H]]; by apply (bt_task _ _ _ _ _ _ _ _ Hbt) in H. }
  pose proof (bt_err _ _ _ _ _ _ _ _ Hbt _ _ Hfa) as Hne.
  destruct (S a =? length trs) eqn:El; [|done]. apply Nat.eqb_eq in El. split.
  - destruct r as [x|]; [|done]. destruct (bt_kind _ _ _ _ _ _ _ _ Hbt x eq_refl) as (i' & e' & ->). eauto.
  - intros ev Hev. apply concat_elem in Hev as (a' & tra' & Ha' & Hev).
    destruct (Htr a' tra' Ha') as (bi' & rf' & _ & _ & Hbt').
    rewrite (bt_task _ _ _ _ _ _ _ _ Hbt' _ Hev). apply lookup_lt_Some in Ha'.
    assert (a' < S a) by (rewrite El; exact Ha'). rewrite Hta. lia.
Qed.

(** A run that reports an error names a declared system which failed with this error (itself or
    its condition); there is no other error. *)
Theorem C36_error_reported w sc sc' info ba order sc2 m tr m' x :
  built w → fns_ok (sc_fns sc) → create_workload w sc = Some (sc', inr (info, ba, order)) →
  loaded sc' sc2 (wl_name w) ba → enabled condf w m →
  run_workload_par sysf condf (wl_name w) sc2 m tr m' (Some x) →
  ∃ t b s e y, failed tr t e ∧ x = RSystem (p_index s) e ∧ info !! t.1 = Some b ∧
    slot_of b t.2 = Some s ∧ wl_systems w !! pos s = Some y.
Proof.
  intros Hb Hok Hc Hl Hen Hrun.
  destruct (run_batches_trace _ _ _ _ _ _ _ _ _ _ _ Hb Hok Hc Hl Hen Hrun) as (trs & -> & _ & _ & Hne & Htr).
  specialize (Hne ltac:(done)).
  destruct (lookup_lt_is_Some_2 trs (length trs - 1)) as [tra Ha].
  { destruct trs; [done|]. cbn. lia. }
  destruct (Htr _ tra Ha) as (bi & rf & Hbi & Hal & Hbt).
  assert ((S (length trs - 1) =? length trs) = true) as Heq.
  { apply Nat.eqb_eq. destruct trs; [done|]. cbn. lia. }
  rewrite Heq in Hbt. destruct (bt_kind _ _ _ _ _ _ _ _ Hbt x eq_refl) as (i & e & ->).
  destruct (bt_res _ _ _ _ _ _ _ _ Hbt i e eq_refl) as (sl & c & Hj & Hf).
  destruct (job_slot _ _ _ _ _ _ Hal Hj) as (s & Hs & -> & _).
  destruct (create_ok _ _ _ _ _ _ Hb Hc) as (segs & HP & _).
  destruct (member_sys w sc info order segs _ bi s Hb HP Hbi) as (y & Hy & _); [by eapply slot_member|].
  exists (length trs - 1, sl), bi, s, e, y. split_and!; try done.
  destruct Hf as [H|[m0 H]]; [left|right; exists m0]; apply concat_elem; eauto.
Qed.

(** A workload whose own condition does not hold runs nothing and is not an error; when the
    condition fails its error is returned; an unknown workload is an error. *)
Theorem C36_disabled sc2 l ba m tr m' r :
  run_workload_par sysf condf l sc2 m tr m' r →
  (sc_workload l sc2 = None → tr = [] ∧ m' = m ∧ r = Some RMissing) ∧
  (∀ c, sc_workload l sc2 = Some ba → ba_rif ba = Some c →
     ((ceval condf c m).2 = inr false → tr = [] ∧ r = None) ∧
     (∀ e, (ceval condf c m).2 = inl e → tr = [] ∧ r = Some (RWorkload e))).
Proof.
  unfold run_workload_par. intros H. split.
  - intros Hl. by rewrite Hl in H.
  - intros c Hl Hr. rewrite Hl in H. unfold run_batches_par, workload_rif in H. rewrite Hr in H.
    destruct (ceval condf c m) as [m1 [e|[]]]; cbn; split; try done.
    + intros e' [= <-]. by destruct H as (-> & _ & ->).
    + intros _. by destruct H as (-> & _ & ->).
Qed.

(** The default workload: nothing to do in an empty scheduler, else like any other. *)
Theorem C36_default sc2 m tr m' r :
  run_default_par sysf condf sc2 m tr m' r →
  (sc_workloads sc2 = ∅ ∧ tr = [] ∧ m' = m ∧ r = None) ∨
  (sc_workloads sc2 ≠ ∅ ∧ (is_Some (default_workload sc2) →
     run_workload_par sysf condf (sc_default sc2) sc2 m tr m' r)).
Proof.
  unfold run_default_par. case_bool_decide; [by left|]. intros Hr. right. split; [done|].
  unfold run_workload_par, sc_workload, default_workload in *. by destruct (sc_workloads sc2 !! sc_default sc2);
    [|intros []].
Qed.

(** There always is a run, whatever the storages contain. *)
Theorem C36_run_exists w sc sc' info ba order sc2 m :
  built w → fns_ok (sc_fns sc) → create_workload w sc = Some (sc', inr (info, ba, order)) →
  loaded sc' sc2 (wl_name w) ba →
  ∃ tr m' r, run_workload_par sysf condf (wl_name w) sc2 m tr m' r.
Proof.
  intros Hb Hok Hc [Hl Hfs]. unfold run_workload_par, run_batches_par. rewrite Hl.
  destruct (workload_rif condf ba m) as [m1 [r1|[]]]; [by eexists _, _, _|].
  eapply par_loop_exists. intros a b r Ha. by eapply stored_wf.
Qed.

(** * C36: without the feature "parallel" *)

Lemma run_seq_facts w sc sc' info ba order sc2 m tr m' r :
  built w → fns_ok (sc_fns sc) → create_workload w sc = Some (sc', inr (info, ba, order)) →
  loaded sc' sc2 (wl_name w) ba → enabled condf w m →
  run_workload_seq sysf condf (wl_name w) sc2 m = (tr, m', r) →
  seq_facts condf (f_systems (sc_fns sc2)) ba 0 (zip (ba_seq ba) (ba_seq_rif ba)) tr r.
Proof.
  intros Hb Hok Hc [Hl Hfs] Hen Hrun. unfold run_workload_seq in Hrun. rewrite Hl in Hrun.
  unfold run_batches_seq, workload_rif in Hrun.
  destruct (create_ok _ _ _ _ _ _ Hb Hc) as (segs & _ & _ & Hrif & _). rewrite Hrif in Hrun.
  assert (∃ m1, seq_run sysf condf (f_systems (sc_fns sc2)) ba m1 = (tr, m', r)) as [m1 Hp].
  { unfold enabled in Hen. destruct (wl_run_if w) as [c|]; [|eauto].
    destruct (ceval condf c m) as [m1 x]. cbn in Hen. subst x. eauto. }
  eapply seq_loop_facts; [|exact Hp]. intros j ix rf Hj.
  eapply seq_at in Hj as (s & Hs & -> & Hres); [|done..]. split; [by eapply order_fn|].
  destruct rf as [c|]; [|done]. cbn in Hres. destruct (p_run_if s); [|done]. by rewrite Hres.
Qed.

(** The systems are numbered by their place in the sequence; the starts are in this order. *)
Theorem C36_seq_success w sc sc' info ba order sc2 m tr m' :
  built w → fns_ok (sc_fns sc) → create_workload w sc = Some (sc', inr (info, ba, order)) →
  loaded sc' sc2 (wl_name w) ba → enabled condf w m →
  run_workload_seq sysf condf (wl_name w) sc2 m = (tr, m', None) →
  StronglySorted lt (starts tr) ∧ (∀ t, t ∈ starts tr → EvEnd t None ∈ tr) ∧
  (∀ i x, wl_systems w !! i = Some x → ∃ t, in_seq order i t ∧ (∀ t', in_seq order i t' → t' = t) ∧
     match w_run_if x with
     | None => t ∈ starts tr
     | Some c => ∃ m1 v, EvCond t m1 v ∈ tr ∧ (ceval condf c m1).2 = inr v ∧ (v = true ↔ t ∈ starts tr)
     end).
Proof.
  intros Hb Hok Hc Hl Hen Hrun.
  destruct (run_seq_facts _ _ _ _ _ _ _ _ _ _ _ Hb Hok Hc Hl Hen Hrun) as [F1 F2 F3 F4 F5 F6 F7 F8].
  split_and!; [done| |].
  - intros t Ht. rewrite F4 in Ht. apply elem_of_ends in Ht as [[e|] Ho]; [|done].
    destruct (F7 t e) as [(? & ? & _ & ?) _]; [by left|done].
  - intros i x Hx. destruct (create_ok _ _ _ _ _ _ Hb Hc) as (segs & HP & _).
    pose proof (built_wf w Hb) as Hwf.
    pose proof (placed_length (wl_systems w) (wl_barriers w) (sc_fns sc) (Hsys w Hwf)) as Hlen.
    destruct (in_seq_exists _ _ _ _ HP i) as [t Ht].
    { rewrite Hlen. by apply lookup_lt_Some in Hx. }
    exists t. split; [done|]. split; [intros t' Ht'; by eapply in_seq_unique|].
    destruct Ht as (s & Hs & Hp). destruct (seq_of _ _ _ _ _ _ Hb Hc _ _ Hs) as (rf & Hz & Hres).
    pose proof (F6 eq_refl _ _ _ Hz) as Hst.
    destruct (order_sys w sc info order segs t s Hb HP Hs) as (y & Hy & _ & R & _).
    rewrite Hp, Hx in Hy. injection Hy as <-. rewrite R in Hres. cbn [plus] in Hst.
    destruct (w_run_if x) as [cx|], rf as [c|]; try done; cbn in Hres.
    destruct Hst as (m1 & v & Hv & Hi). exists m1, v. split_and!; [done| |done].
    destruct (F5 _ _ _ Hv) as (ix & ci & cd & Hj & Hcd & Hce). rewrite Nat.sub_0_r, Hz in Hj.
    injection Hj as <- <-. rewrite Hres in Hcd. by injection Hcd as <-.
Qed.

Theorem C36_seq_only_enabled w sc sc' info ba order sc2 m tr m' r :
  built w → fns_ok (sc_fns sc) → create_workload w sc = Some (sc', inr (info, ba, order)) →
  loaded sc' sc2 (wl_name w) ba → enabled condf w m →
  run_workload_seq sysf condf (wl_name w) sc2 m = (tr, m', r) →
  StronglySorted lt (starts tr) ∧ starts tr = ends tr ∧
  (∀ t f, EvStart t f ∈ tr → ∃ s x, order !! t = Some s ∧ wl_systems w !! pos s = Some x ∧
     f_systems (sc_fns sc2) !! p_index s = Some f ∧
     match w_run_if x with
     | None => True
     | Some c => ∃ m1, EvCond t m1 true ∈ tr ∧ (ceval condf c m1).2 = inr true
     end).
Proof.
  intros Hb Hok Hc Hl Hen Hrun.
  destruct (run_seq_facts _ _ _ _ _ _ _ _ _ _ _ Hb Hok Hc Hl Hen Hrun) as [F1 F2 F3 F4 F5 F6 F7 F8].
  split_and!; [done|done|]. intros t f Hin. destruct (F2 _ _ Hin) as (ix & rf & Hz & Hf & Hp).
  rewrite Nat.sub_0_r in Hz. destruct (seq_at _ _ _ _ _ _ Hb Hc _ _ _ Hz) as (s & Hs & -> & Hres).
  destruct (create_ok _ _ _ _ _ _ Hb Hc) as (segs & HP & _).
  destruct (order_sys w sc info order segs t s Hb HP Hs) as (y & Hy & _ & R & _).
  exists s, y. split_and!; try done. rewrite R in Hres.
  destruct (w_run_if y) as [cy|]; [|done]. destruct rf as [c|]; [|done]. cbn in Hres.
  destruct Hp as [Hp|[m1 Hp]]; [done|]. exists m1. split; [done|].
  destruct (F5 _ _ _ Hp) as (ix & ci & cd & Hj & Hcd & Hce). rewrite Nat.sub_0_r, Hz in Hj.
  injection Hj as <- <-. rewrite Hres in Hcd. by injection Hcd as <-.
Qed.

(** The run stops at the first failure and returns exactly this error. *)
Theorem C36_seq_failure w sc sc' info ba order sc2 m tr m' r :
  built w → fns_ok (sc_fns sc) → create_workload w sc = Some (sc', inr (info, ba, order)) →
  loaded sc' sc2 (wl_name w) ba → enabled condf w m →
  run_workload_seq sysf condf (wl_name w) sc2 m = (tr, m', r) →
  (∀ t e, failed tr t e → (∀ t', t' ∈ starts tr → t' ≤ t) ∧
     ∃ s, order !! t = Some s ∧ r = Some (RSystem (p_index s) e)) ∧
  (∀ x, r = Some x → ∃ t s e, order !! t = Some s ∧ x = RSystem (p_index s) e ∧ failed tr t e).
Proof.
  intros Hb Hok Hc Hl Hen Hrun.
  destruct (run_seq_facts _ _ _ _ _ _ _ _ _ _ _ Hb Hok Hc Hl Hen Hrun) as [F1 F2 F3 F4 F5 F6 F7 F8].
  split.
  - intros t e Hf. destruct (F7 t e Hf) as [(ix & rf & Hz & ->) H]. split; [done|].
    rewrite Nat.sub_0_r in Hz. destruct (seq_at _ _ _ _ _ _ Hb Hc _ _ _ Hz) as (s & Hs & -> & _). eauto.
  - intros x Hx. destruct (F8 x Hx) as (ix & rf & e & t & _ & Hz & -> & Hf).
    rewrite Nat.sub_0_r in Hz. destruct (seq_at _ _ _ _ _ _ Hb Hc _ _ _ Hz) as (s & Hs & -> & _).
    exists t, s, e. done.
Qed.
End run.
