(** Proofs about running workloads: a run is a sequence of runs of batches. *)
From stdpp Require Import prelude countable list gmap.
From Verif Require Import Sched SchedSpec Run RunSpec RunProofs.
Local Open Scope nat_scope.

Section proofs.
Context {V E : Type} (sysf : N → prog V (option E)) (condf : N → prog V (E + bool)).
Notation event := (event V E).

(** What the batches stored by the scheduler satisfy. *)
Definition wf_batch (fs : list N) (ba : batches) (b : option nat * list nat)
    (r : option nat * list (option nat)) : Prop :=
  (b.1 = None → r.1 = None) ∧ length b.2 = length r.2 ∧
  (∀ sl ix c, job b r sl = Some (ix, Some c) → is_Some (ba_sys_rif ba !! c)) ∧
  (∀ sl ix c, job b r sl = Some (ix, c) → is_Some (fs !! ix)).

(** The part of a run made by batch number [k], and its result. *)
Record batch_trace (fs : list N) (ba : batches) (k : nat) (b : option nat * list nat)
    (r : option nat * list (option nat)) (tr : list (event task)) (res : option (rerr E)) : Prop := {
  bt_task : ∀ ev, ev ∈ tr → (ev_task ev).1 = k;
  bt_start : ∀ sl f, EvStart (k, sl) f ∈ tr → ∃ ix c, job b r sl = Some (ix, c) ∧
    fs !! ix = Some f ∧ (c = None ∨ passed tr (k, sl));
  bt_starts : NoDup (starts tr);
  bt_ends : starts tr ≡ₚ ends tr;
  bt_cond : ∀ sl m v, EvCond (k, sl) m v ∈ tr → ∃ ix ci cd, job b r sl = Some (ix, Some ci) ∧
    ba_sys_rif ba !! ci = Some cd ∧ (ceval condf cd m).2 = inr v;
  bt_conds : NoDup (conds tr);
  bt_ok : res = None → ∀ sl ix c, job b r sl = Some (ix, c) →
    match c with
    | None => (k, sl) ∈ starts tr
    | Some _ => ∃ m v, EvCond (k, sl) m v ∈ tr ∧ (v = true ↔ (k, sl) ∈ starts tr)
    end;
  bt_err : ∀ t e, failed tr t e → res ≠ None;
  bt_res : ∀ i e, res = Some (RSystem i e) →
    ∃ sl c, job b r sl = Some (i, c) ∧ failed tr (k, sl) e;
  bt_kind : ∀ x, res = Some x → ∃ i e, x = RSystem i e;
  bt_end_after : ∀ t x tr1 tr2, tr = tr1 ++ EvEnd t x :: tr2 → t ∈ starts tr1;
  bt_start_after : ∀ t f tr1 tr2, tr = tr1 ++ EvStart t f :: tr2 → conds tr2 = []
}.

(** Splitting a concatenation at an element. *)
Lemma app_split {A} (l1 l2 l3 l4 : list A) x :
  l1 ++ l2 = l3 ++ x :: l4 →
  (∃ l, l1 = l3 ++ x :: l ∧ l4 = l ++ l2) ∨ (∃ l, l3 = l1 ++ l ∧ l2 = l ++ x :: l4).
Proof.
  revert l3. induction l1 as [|y l1 IH]; intros l3; cbn [app].
  - intros ->. right. by exists l3.
  - destruct l3 as [|z l3]; cbn [app].
    + intros [= -> <-]. left. by exists l1.
    + intros [= <- H]. destruct (IH _ H) as [(l & -> & ->)|(l & -> & ->)]; [left|right]; by exists l.
Qed.

Lemma jobs_job k b r sl nm c :
  ((k, sl), nm, Some c) ∈ jobs k b r → (b.1 = None → r.1 = None) →
  ∃ ix, nm = Some ix ∧ job b r sl = Some (ix, Some c).
Proof.
  intros H Hwf. apply jobs_elem in H as [(E1 & -> & Hc)|(j & i & E1 & -> & H)].
  - injection E1 as ->. destruct (b.1) as [i|] eqn:Eb; [|by rewrite Hwf in Hc].
    exists i. split; [done|]. unfold job. rewrite Eb, Hc. done.
  - injection E1 as ->. exists i. done.
Qed.

(** The conditions of a batch. *)
Lemma eval_batch_trace fs ba k b r m m1 evs c :
  wf_batch fs ba b r → eval_batch condf ba k b r m = (m1, evs, c) →
  starts evs = [] ∧ ends evs = [] ∧ NoDup (conds evs) ∧
  (∀ ev, ev ∈ evs → (ev_task ev).1 = k) ∧
  (∀ sl m v, EvCond (k, sl) m v ∈ evs → ∃ ix ci cd, job b r sl = Some (ix, Some ci) ∧
    ba_sys_rif ba !! ci = Some cd ∧ (ceval condf cd m).2 = inr v) ∧
  match c with
  | inl e => ∃ sl ix ci m e', job b r sl = Some (ix, Some ci) ∧ EvCondErr (k, sl) m e' ∈ evs ∧
      e = RSystem ix e'
  | inr f => (∀ t m e, EvCondErr t m e ∉ evs) ∧ length f.2 = length b.2 ∧
      ∀ sl ix ci, job b r sl = Some (ix, ci) →
        ∃ v, match sl with Sgl => Some f.1 | Par j => f.2 !! j end = Some v ∧
          match ci with None => v = true | Some _ => ∃ m, EvCond (k, sl) m v ∈ evs end
  end.
Proof.
  intros (W1 & W2 & W3 & W4) H. rewrite eval_batch_list in H.
  destruct (eval_list condf ba (jobs k b r) m) as [[m' evs'] c'] eqn:El.
  injection H as <- <- Hc. pose proof (eval_list_spec condf ba _ _ _ _ _ El) as Hev.
  destruct (evals_no_start _ _ _ _ _ Hev) as [Hs He].
  assert (Htask : ∀ t nm c, (t, nm, c) ∈ jobs k b r → t.1 = k).
  { intros t nm c0 Hin. apply jobs_elem in Hin as [(-> & _)|(j & i & -> & _)]; done. }
  split_and!; [done|done|by apply (ev_nodup _ _ _ _ _ Hev), nodup_jobs|..].
  - intros ev Hin. destruct (ev_in _ _ _ _ _ Hev _ Hin) as (t & nm & ci & cd & H1 & _ & H2).
    apply Htask in H1. by destruct H2 as [(?&?& -> &_)|(?&?& -> &_)].
  - intros sl m0 v Hin. destruct (ev_in _ _ _ _ _ Hev _ Hin) as (t & nm & ci & cd & H1 & H2 & H3).
    destruct H3 as [(?&?& [= <- <- <-] & Hv)|(?&?& [=] &_)].
    apply jobs_job in H1 as (ix & -> & Hj); [|done]. eauto 6.
  - destruct c' as [e|[|b0 bs]].
    + subst c. destruct (ev_err _ _ _ _ _ Hev e eq_refl) as
        [(t & nm & ci & m0 & e' & H1 & H2 & ->)|(_ & t & nm & ci & H1 & H2)].
      * pose proof (Htask _ _ _ H1) as Ht. destruct t as [k' sl]. cbn in Ht. subst k'.
        apply jobs_job in H1 as (ix & -> & Hj); [|done]. exists sl, ix, ci, m0, e'. done.
      * exfalso. pose proof (Htask _ _ _ H1) as Ht. destruct t as [k' sl]. cbn in Ht. subst k'.
        apply jobs_job in H1 as (ix & -> & Hj); [|done].
        destruct (W3 _ _ _ Hj) as [x Hx]. congruence.
    + subst c. exfalso. pose proof (ev_ok _ _ _ _ _ Hev [] eq_refl) as HF.
      apply Forall2_length in HF. done.
    + subst c. pose proof (ev_ok _ _ _ _ _ Hev _ eq_refl) as HF.
      split_and!.
      * intros t m0 e Hin. destruct (ev_in _ _ _ _ _ Hev _ Hin) as (?&?&?&?&_&_&[(?&?&?&_)|(?&?&?&_&?)]); done.
      * apply Forall2_length in HF. unfold jobs in HF. cbn [length] in HF.
        rewrite imap_length, zip_with_length in HF. cbn [snd]. lia.
      * unfold jobs in HF. apply Forall2_cons in HF as [HF0 HF].
        intros sl ix ci Hj. destruct sl as [|j]; cbn [fst snd] in *.
        -- exists b0. split; [done|]. unfold job in Hj. destruct (b.1); [|done].
           injection Hj as <- <-. done.
        -- unfold job in Hj.
           destruct (Forall2_lookup_l _ _ _ j ((k, Par j), Some ix, ci) HF) as (v & Hv & HP).
           { rewrite list_lookup_imap, Hj. done. }
           exists v. done.
Qed.

Lemma zip_job b r sl ix c :
  job b r sl = Some (ix, c) →
  match sl with Sgl => b.1 = Some ix | Par j => b.2 !! j = Some ix end.
Proof.
  destruct sl; cbn.
  - destruct (b.1); [|done]. by intros [= <- <-].
  - intros H. apply lookup_zip_with_Some in H as (? & ? & [= -> ->] & ? & ?). done.
Qed.
Lemma task_job fs ba b r f sl ix :
  wf_batch fs ba b r → (sl, ix) ∈ batch_tasks b f → ∃ c, job b r sl = Some (ix, c).
Proof.
  intros (W1 & W2 & _) H. apply batch_tasks_elem in H as [(-> & Hb & _)|(j & -> & Hb & _)]; cbn.
  - rewrite Hb. cbn. eauto.
  - destruct (lookup_lt_is_Some_2 (r.2) j) as [c Hc].
    { rewrite <-W2. by apply lookup_lt_Some in Hb. }
    exists c. apply lookup_zip_with_Some. eauto.
Qed.

(** One complete batch. *)
Lemma batch_complete fs ba k b r m m1 evs f tr m2 fin res :
  wf_batch fs ba b r → eval_batch condf ba k b r m = (m1, evs, inr f) →
  bsteps sysf fs k (fst <$> (own_task b f).1)
    {| b_store := m1; b_pend := batch_tasks b f; b_run := []; b_done := [] |} tr
    {| b_store := m2; b_pend := []; b_run := []; b_done := fin |} →
  batch_result (fst <$> (own_task b f).1) fin res →
  batch_trace fs ba k b r (evs ++ tr) res.
Proof.
  intros Hwf Hev Hst Hres.
  destruct (eval_batch_trace _ _ _ _ _ _ _ _ _ Hwf Hev) as (S1 & S2 & S3 & S4 & S5 & S6 & S7 & S8).
  destruct (bsteps_facts _ _ _ _ _ _ _ Hst) as (st & sk & fin' & HB).
  destruct HB as [B1 B2 B3 B4 B5 B6 B7 B8 B9 B10]; cbn [b_pend b_run b_done map app] in *.
  subst fin'. rewrite app_nil_r in B1.
  assert (Hnd : NoDup (batch_tasks b f).*1) by apply batch_tasks_nodup.
  assert (Hflag : ∀ sl ix c, job b r sl = Some (ix, c) →
    ((sl, ix) ∈ batch_tasks b f ↔ match c with None => True | Some _ => ∃ m, EvCond (k, sl) m true ∈ evs end)).
  { intros sl ix c Hj. destruct (S8 _ _ _ Hj) as (v & Hv & Hc).
    assert (Hin : (sl, ix) ∈ batch_tasks b f ↔ v = true).
    { rewrite batch_tasks_elem. apply zip_job in Hj. destruct sl as [|j].
      - injection Hv as ->. split; [intros [(_ & _ & ?)|(j & ? & _)]; done|]. intros ->. by left.
      - split.
        + intros [(? & _)|(j' & [= <-] & _ & H)]; [done|congruence].
        + intros ->. right. eauto. }
    rewrite Hin. destruct c as [c|]; [|done]. split.
    - intros ->. done.
    - intros [m' Hm']. destruct Hc as [m'' Hm''].
      by destruct (cond_once _ _ _ _ _ _ S3 Hm' Hm''). }
  assert (Hsub : ∀ x, x ∈ st → x ∈ batch_tasks b f).
  { intros x Hx. rewrite B1. apply elem_of_app. by left. }
  assert (Hpass : ∀ t, passed (evs ++ tr) t ↔ ∃ m, EvCond t m true ∈ evs).
  { intros t. unfold passed. split; [|intros [m' H]; exists m'; apply elem_of_app; by left].
    intros [m' H]. exists m'. apply elem_of_app in H as [H|H]; [done|]. exfalso.
    assert (t ∈ conds tr) as Hc; [apply elem_of_conds; eauto|]. rewrite B8 in Hc. by apply elem_of_nil in Hc. }
  assert (Hcondin : ∀ t m v, EvCond t m v ∈ evs ++ tr → EvCond t m v ∈ evs).
  { intros t m' v H. apply elem_of_app in H as [H|H]; [done|]. exfalso.
    assert (t ∈ conds tr) as Hc; [apply elem_of_conds; eauto|]. rewrite B8 in Hc. by apply elem_of_nil in Hc. }
  assert (Hstart : ∀ t f', EvStart t f' ∈ evs ++ tr ↔ EvStart t f' ∈ tr).
  { intros t f'. rewrite elem_of_app. split; [|by right]. intros [H|H]; [|done]. exfalso.
    assert (t ∈ starts evs) as Hc; [apply elem_of_starts; eauto|]. rewrite S1 in Hc. by apply elem_of_nil in Hc. }
  assert (Hend : ∀ t f', EvEnd t f' ∈ evs ++ tr ↔ EvEnd t f' ∈ tr).
  { intros t f'. rewrite elem_of_app. split; [|by right]. intros [H|H]; [|done]. exfalso.
    assert (t ∈ ends evs) as Hc; [apply elem_of_ends; eauto|]. rewrite S2 in Hc. by apply elem_of_nil in Hc. }
  assert (Hfail : ∀ t e, failed (evs ++ tr) t e ↔ ∃ x, (x, Some e) ∈ fin ∧ t = (k, x.1)).
  { intros t e. unfold failed. rewrite Hend, B6. split; [|by left].
    intros [H|[m' H]]; [done|]. exfalso. apply elem_of_app in H as [H|H]; [by eapply S6|].
    assert (t ∈ conds tr) as Hc; [apply elem_of_conds; eauto|]. rewrite B8 in Hc. by apply elem_of_nil in Hc. }
  assert (Hfinst : ∀ x r, (x, r) ∈ fin → x ∈ st).
  { intros x r' Hx. rewrite B3. apply elem_of_list_In, in_map_iff. exists (x, r').
    by rewrite <-elem_of_list_In. }
  constructor.
  - intros ev Hin. apply elem_of_app in Hin as [Hin|Hin]; [by apply S4|].
    destruct ev as [t m' v|t m' e|t f'|t r']; cbn.
    + exfalso. assert (t ∈ conds tr) as Hc; [apply elem_of_conds; eauto|].
      rewrite B8 in Hc. by apply elem_of_nil in Hc.
    + exfalso. assert (t ∈ conds tr) as Hc; [apply elem_of_conds; eauto|].
      rewrite B8 in Hc. by apply elem_of_nil in Hc.
    + apply B4 in Hin as (x & _ & -> & _). done.
    + apply B6 in Hin as (x & _ & ->). done.
  - intros sl f' Hin. apply Hstart, B4 in Hin as ([sl' ix] & Hx & [= <-] & Hf). cbn in Hf.
    apply Hsub in Hx. destruct (task_job _ _ _ _ _ _ _ Hwf Hx) as [c Hj].
    exists ix, c. split_and!; [done|done|]. apply (Hflag _ _ _ Hj) in Hx.
    destruct c; [right|by left]. by apply Hpass.
  - rewrite starts_app, S1, B5. cbn [app].
    replace (map (λ x, (k, x.1)) st) with (pair k <$> st.*1) by (rewrite <-list_fmap_compose; done).
    apply NoDup_fmap_2; [by intros ?? [=]|]. rewrite B1, fmap_app in Hnd.
    by apply NoDup_app in Hnd as [? _].
  - rewrite starts_app, ends_app, S1, S2, B5, B7. cbn [app]. rewrite B3, map_map. done.
  - intros sl m' v Hin. apply Hcondin in Hin. by apply S5.
  - rewrite conds_app, B8, app_nil_r. done.
  - intros -> sl ix c Hj. inversion Hres as [| |Hall]; subst.
    assert (sk = []) as ->.
    { destruct sk as [|y sk]; [done|]. destruct B9 as (x & e & Hx & _); [done|]. by apply Hall in Hx. }
    rewrite app_nil_r in B1.
    assert (Hss : (k, sl) ∈ starts (evs ++ tr) ↔ (sl, ix) ∈ batch_tasks b f).
    { rewrite starts_app, S1, B5. cbn [app]. split.
      - intros Hin. apply elem_of_list_In, in_map_iff in Hin as ([sl' ix'] & [= ->] & Hin).
        apply elem_of_list_In in Hin. apply Hsub in Hin.
        destruct (task_job _ _ _ _ _ _ _ Hwf Hin) as [c' Hj']. rewrite Hj in Hj'. by injection Hj' as -> _.
      - intros Hin. rewrite B1 in Hin. apply elem_of_list_In, in_map_iff. exists (sl, ix).
        by rewrite <-elem_of_list_In. }
    destruct c as [ci|].
    + destruct (S8 _ _ _ Hj) as (v & _ & m' & Hm').
      exists m', v. split; [apply elem_of_app; by left|].
      rewrite Hss, (Hflag _ _ _ Hj). split; [intros ->; eauto|].
      intros [m'' Hm'']. by destruct (cond_once _ _ _ _ _ _ S3 Hm' Hm'').
    + rewrite Hss, (Hflag _ _ _ Hj). done.
  - intros t e Hf ->. apply Hfail in Hf as (x & Hx & _). inversion Hres as [| |Hall]; subst.
    by apply Hall in Hx.
  - intros i e ->. assert (∃ x, (x, Some e) ∈ fin ∧ x.2 = i) as ([sl ix] & Hx & <-).
    { inversion Hres; subst; eauto. }
    destruct (task_job fs ba b r f sl ix Hwf) as [c Hj]; [by eapply Hsub, Hfinst|].
    exists sl, c. split; [done|]. apply Hfail. by exists (sl, ix).
  - intros x ->. inversion Hres; subst; eauto.
  - intros t x tr1 tr2 Heq.
    assert (EvEnd t x ∈ tr) as Hin.
    { apply Hend. rewrite Heq. apply elem_of_app. right. by left. }
    apply app_split in Heq as [(l & -> & _)|(l & -> & Heq)].
    + exfalso. rewrite ends_app in S2. apply app_eq_nil in S2 as [_ S2]. done.
    + destruct (bsteps_end_after_start _ _ _ _ _ _ _ _ _ _ _ Hst Heq) as [H|H]; [by apply elem_of_nil in H|].
      rewrite starts_app. apply elem_of_app. by right.
  - intros t f' tr1 tr2 Heq. apply app_split in Heq as [(l & -> & ->)|(l & -> & ->)].
    + exfalso. rewrite starts_app in S1. apply app_eq_nil in S1 as [_ S1]. done.
    + rewrite conds_app in B8. apply app_eq_nil in B8 as [_ B8]. done.
Qed.

(** A batch whose conditions fail. *)
Lemma batch_cond_error fs ba k b r m m1 evs e :
  wf_batch fs ba b r → eval_batch condf ba k b r m = (m1, evs, inl e) →
  batch_trace fs ba k b r evs (Some e).
Proof.
  intros Hwf Hev.
  destruct (eval_batch_trace _ _ _ _ _ _ _ _ _ Hwf Hev) as (S1 & S2 & S3 & S4 & S5 & S6).
  destruct S6 as (sl & ix & ci & m' & e' & Hj & Hin & ->).
  assert (Hnos : ∀ t f, EvStart t f ∉ evs).
  { intros t f H. assert (t ∈ starts evs) as Hc; [apply elem_of_starts; eauto|].
    rewrite S1 in Hc. by apply elem_of_nil in Hc. }
  constructor.
  - done.
  - intros sl' f H. by apply Hnos in H.
  - rewrite S1. apply NoDup_nil_2.
  - by rewrite S1, S2.
  - done.
  - done.
  - done.
  - done.
  - intros i e'' [= -> ->]. exists sl, (Some ci). split; [done|]. right. eauto.
  - intros x [= <-]. eauto.
  - intros t x tr1 tr2 ->. rewrite ends_app in S2. apply app_eq_nil in S2 as [_ S2]. done.
  - intros t f tr1 tr2 ->. exfalso. apply (Hnos t f). apply elem_of_app. right. by left.
Qed.

(** A run is the sequence of the runs of the batches, up to the first that fails. *)
Lemma par_loop_batches fs ba k l m tr m' res :
  (∀ a b r, l !! a = Some (b, r) → wf_batch fs ba b r) →
  par_loop sysf condf fs ba k l m tr m' res →
  ∃ trs, tr = concat trs ∧ length trs ≤ length l ∧
    (res = None → length trs = length l) ∧ (res ≠ None → trs ≠ []) ∧
    (∀ a tra, trs !! a = Some tra → ∃ b r, l !! a = Some (b, r) ∧
       batch_trace fs ba (k + a) b r tra (if S a =? length trs then res else None)).
Proof.
  intros Hwf H. induction H as [k m|k b r l m m1 evs e Hev|k b r l m m1 evs f sl ix Hev Hin Hno|
    k b r l m m1 evs f tr m2 fin e Hev Hst Hres|k b r l m m1 evs f tr m2 fin tr' m3 res Hev Hst Hres Hl IH].
  - exists []. split_and!; done.
  - exists [evs]. cbn. rewrite app_nil_r. split_and!; try done; [lia|].
    intros a tra Ha. apply list_lookup_singleton_Some in Ha as [-> <-]. exists b, r. split; [done|].
    rewrite Nat.add_0_r. cbn. eapply batch_cond_error; [by eapply (Hwf 0)|done].
  - exfalso. pose proof (Hwf 0 b r eq_refl) as Hw.
    destruct (task_job _ _ _ _ _ _ _ Hw Hin) as [c Hj].
    destruct Hw as (_ & _ & _ & W4). destruct (W4 _ _ _ Hj). congruence.
  - exists [evs ++ tr]. cbn. rewrite app_nil_r. split_and!; try done; [lia|].
    intros a tra Ha. apply list_lookup_singleton_Some in Ha as [-> <-]. exists b, r. split; [done|].
    rewrite Nat.add_0_r. cbn. eapply batch_complete; [by eapply (Hwf 0)|done..].
  - destruct IH as (trs & -> & Hlen & Hn & Hs & Ht).
    { intros a b' r' Ha. by apply (Hwf (S a)). }
    exists ((evs ++ tr) :: trs). cbn [concat length]. split_and!.
    + by rewrite <-app_assoc.
    + lia.
    + intros Hr. by rewrite Hn.
    + done.
    + intros a tra Ha. destruct a as [|a].
      * injection Ha as <-. exists b, r. split; [done|]. rewrite Nat.add_0_r.
        assert ((if 1 =? S (length trs) then res else None) = None) as ->.
        { destruct trs as [|tr0 trs]; [|done]. cbn. destruct res; [|done]. by destruct Hs. }
        eapply batch_complete; [by eapply (Hwf 0)|done..].
      * destruct (Ht a tra Ha) as (b' & r' & Hb' & Hbt). exists b', r'. split; [done|].
        by rewrite Nat.add_succ_r.
Qed.

(** * A run exists *)

(** From any configuration of a batch the batch can be finished. *)
Lemma bsteps_trans fs k own c1 tr1 c2 tr2 c3 :
  bsteps sysf fs k own c1 tr1 c2 → bsteps sysf fs k own c2 tr2 c3 → bsteps sysf fs k own c1 (tr1 ++ tr2) c3.
Proof.
  intros H1 H2. induction H1 as [c|c1 tra c2 trb c3' Hs _ IH]; [done|].
  rewrite <-app_assoc. econstructor; [done|by apply IH].
Qed.
Lemma finish_one fs k own m pend x p r2 done0 :
  ∃ tr m' d, bsteps sysf fs k own
    {| b_store := m; b_pend := pend; b_run := (x, p) :: r2; b_done := done0 |} tr
    {| b_store := m'; b_pend := pend; b_run := r2; b_done := done0 ++ d |}.
Proof.
  revert m. induction p as [a|s kont IH|s v p IH]; intros m.
  - eexists _, m, [(x, a)]. eapply bsteps_cons; [|apply bsteps_nil].
    apply (BEnd sysf fs k own m pend [] r2 x a done0).
  - destruct (IH (m !! s) m) as (tr & m' & d & H). eexists _, m', d.
    eapply bsteps_cons; [|exact H]. apply (BRd sysf fs k own m pend [] r2 x s kont done0).
  - destruct (IH (put s v m)) as (tr & m' & d & H). eexists _, m', d.
    eapply bsteps_cons; [|exact H]. apply (BWr sysf fs k own m pend [] r2 x s v p done0).
Qed.
Lemma finish_running fs k own run m pend done0 :
  ∃ tr m' d, bsteps sysf fs k own
    {| b_store := m; b_pend := pend; b_run := run; b_done := done0 |} tr
    {| b_store := m'; b_pend := pend; b_run := []; b_done := d |}.
Proof.
  revert m done0. induction run as [|[x p] run IH]; intros m done0.
  - eexists _, m, done0. apply bsteps_nil.
  - destruct (finish_one fs k own m pend x p run done0) as (tr & m1 & d & H).
    destruct (IH m1 (done0 ++ d)) as (tr' & m2 & d' & H'). eexists _, m2, d'. by eapply bsteps_trans.
Qed.
Lemma finish_batch fs k own pend run m done0 :
  (∀ x, x ∈ pend → is_Some (fs !! x.2)) →
  ∃ tr m' d, bsteps sysf fs k own
    {| b_store := m; b_pend := pend; b_run := run; b_done := done0 |} tr
    {| b_store := m'; b_pend := []; b_run := []; b_done := d |}.
Proof.
  revert m run done0. induction pend as [|[sl ix] pend IH]; intros m run done0 Hp.
  - apply finish_running.
  - destruct (Hp (sl, ix)) as [f Hf]; [by left|].
    destruct (IH m (run ++ [((sl, ix), sysf f)]) done0) as (tr & m' & d & H).
    { intros x Hx. apply Hp. by right. }
    eexists _, m', d. eapply bsteps_cons; [|exact H].
    by apply (BStart sysf fs k own m [] pend sl ix f run done0).
Qed.
#[local] Instance slot_eq_dec : EqDecision slot.
Proof. solve_decision. Defined.
Lemma batch_result_exists own (fin : list (slot * nat * option E)) : ∃ res, batch_result own fin res.
Proof.
  destruct (decide (Exists (λ y, is_Some y.2 ∧ own = Some y.1.1) fin)) as [Hx|Hx].
  - apply Exists_exists in Hx as ([x o] & Hin & [[e He] Ho]). cbn in He, Ho. subst o. eexists. by eapply BROwn.
  - destruct (decide (Exists (λ y, is_Some y.2) fin)) as [Hy|Hy].
    + apply Exists_exists in Hy as ([x o] & Hin & [e He]). cbn in He. subst o. eexists. eapply BRPool; [done| |].
      * intros Ho. apply Hx. apply Exists_exists. eexists. split; [done|]. eauto.
      * intros y e' Hin' Ho. apply Hx. apply Exists_exists. eexists. split; [done|]. eauto.
    + exists None. apply BROk. intros x r Hin. destruct r as [e|]; [|done]. exfalso.
      apply Hy. apply Exists_exists. exists (x, Some e). eauto.
Qed.
Lemma par_loop_exists fs ba k l m :
  (∀ a b r, l !! a = Some (b, r) → wf_batch fs ba b r) →
  ∃ tr m' res, par_loop sysf condf fs ba k l m tr m' res.
Proof.
  revert k m. induction l as [|[b r] l IH]; intros k m Hwf.
  { eexists _, _, _. apply PNil. }
  destruct (eval_batch condf ba k b r m) as [[m1 evs] [e|f]] eqn:Ev.
  { eexists _, _, _. by apply (PCondErr sysf condf fs ba k b r l m m1 evs e). }
  destruct (finish_batch fs k (fst <$> (own_task b f).1) (batch_tasks b f) [] m1 []) as (tr & m2 & d & Hst).
  { intros [sl ix] Hin. pose proof (Hwf 0 b r eq_refl) as Hw.
    destruct (task_job _ _ _ _ _ _ _ Hw Hin) as [c Hj].
    destruct Hw as (_ & _ & _ & W4). by apply W4 in Hj. }
  destruct (batch_result_exists (fst <$> (own_task b f).1) d) as [[e|] Hres].
  - eexists _, _, _. by eapply PFail.
  - destruct (IH (S k) m2) as (tr' & m3 & res & Hl); [intros a b' r' Ha; by apply (Hwf (S a))|].
    eexists _, _, _. by eapply PNext.
Qed.
End proofs.
