(** Properties of running a workload whose systems or conditions panic: C69. *)
From stdpp Require Import prelude countable list gmap sorting.
From Verif Require Import Sched SchedSpec SchedProofs SchedProofs2 SchedProofs3 PropsSched PropsSched2
  PropsSched3.
From Verif Require Import Run RunSpec RunProofs RunProofs2 RunProofs3 RunProofs4 PropsRun PropsRun2 PropsRun3.
From Verif Require Import RunSerial PropsRunSerial RunPanic.
Local Open Scope nat_scope.

(** The system was run by the thread that called [run_workload]. *)
Definition by_caller {V E} (tr : list (event V E task)) (t : task) : Prop :=
  t.2 = Sgl ∨ (t.2 = Par 0 ∧ (t.1, Sgl) ∉ starts tr).

(** * Systems that were not started although their condition held *)
Section skips.
Context {V E : Type} (sysf : N → prog V (option E)) (condf : N → prog V (E + bool)).

Lemma batch_skips fs ba k b r m m1 evs f tr m2 fin :
  wf_batch fs ba b r → eval_batch condf ba k b r m = (m1, evs, inr f) →
  bsteps sysf fs k (fst <$> (own_task b f).1)
    {| b_store := m1; b_pend := batch_tasks b f; b_run := []; b_done := [] |} tr
    {| b_store := m2; b_pend := []; b_run := []; b_done := fin |} →
  ∀ sl ix c, job b r sl = Some (ix, c) → c = None ∨ passed (evs ++ tr) (k, sl) →
    (k, sl) ∉ starts tr → ∃ sl' e, EvEnd (k, sl') (Some e) ∈ tr ∧ ¬ by_caller tr (k, sl').
Proof.
  intros W Hev Hst sl ix c Hj Hp Hns.
  destruct (eval_batch_trace condf fs ba k b r m m1 evs _ W Hev) as (S1 & S2 & S3 & S4 & S5 & S6 & S7 & S8).
  destruct (bsteps_facts sysf fs k _ _ _ _ Hst) as (st & sk & fin' & [B1 B2 B3 B4 B5 B6 B7 B8 B9 B10]).
  cbn [b_pend b_run b_done map app] in *. subst fin'. rewrite app_nil_r in B1.
  assert (Hin : (sl, ix) ∈ batch_tasks b f).
  { destruct (S8 _ _ _ Hj) as (v & Hv & Hc). assert (v = true) as ->.
    { destruct c as [ci|]; [|done]. destruct Hp as [|[m' Hp]]; [done|]. destruct Hc as [m'' Hc].
      apply elem_of_app in Hp as [Hp|Hp].
      - by destruct (cond_once _ _ _ _ _ _ S3 Hp Hc).
      - exfalso. assert ((k, sl) ∈ conds tr) as Hx; [apply elem_of_conds; eauto|].
        rewrite B8 in Hx. by apply elem_of_nil in Hx. }
    rewrite batch_tasks_elem. apply zip_job in Hj. destruct sl as [|j].
    - injection Hv as Hv. by left.
    - right. eauto. }
  assert (Hstart : ∀ x, x ∈ st → (k, x.1) ∈ starts tr).
  { intros x Hx. rewrite B5. apply elem_of_list_In, in_map_iff. exists x. by rewrite <-elem_of_list_In. }
  assert (Hsk : (sl, ix) ∈ sk).
  { rewrite B1 in Hin. apply elem_of_app in Hin as [Hin|Hin]; [|done]. by apply Hstart in Hin. }
  destruct B9 as ([sl' ix'] & e & Hx & Hown); [by intros ->; apply elem_of_nil in Hsk|]. cbn in Hown.
  exists sl', e. split; [apply B6; by exists (sl', ix')|].
  assert (Hin' : (sl', ix') ∈ batch_tasks b f).
  { rewrite B1. apply elem_of_app. left. rewrite B3. apply elem_of_list_In, in_map_iff.
    exists (sl', ix', Some e). by rewrite <-elem_of_list_In. }
  assert (Hownst : ∀ y, (own_task b f).1 = Some y → (k, y.1) ∈ starts tr).
  { intros y Hy. pose proof (own_task_in b f y Hy) as H. rewrite B1 in H.
    apply elem_of_app in H as [H|H]; [by apply Hstart|]. exfalso. apply (B10 _ H). by rewrite Hy. }
  intros [Hc|[Hc Hno]]; cbn in *; subst sl'; apply Hown.
  - apply batch_tasks_elem in Hin' as [(_ & Hb & Hf)|(j & [=] & _)].
    unfold own_task. by rewrite Hf, Hb.
  - apply batch_tasks_elem in Hin' as [([=] & _)|(j & [= <-] & Hb & Hf)].
    unfold own_task in *. destruct (if f.1 then b.1 else None) as [i0|].
    + exfalso. apply Hno. by apply (Hownst (Sgl, i0)).
    + destruct (b.2) as [|i1 ?]; [done|]. destruct (f.2) as [|f1 ?]; [done|]. cbn in Hf. injection Hf as ->. done.
Qed.

Lemma by_caller_app_l (tr1 tr2 : list (event V E task)) t :
  (∀ t', t' ∈ starts tr1 → t'.1 ≠ t.1) → by_caller (tr1 ++ tr2) t → by_caller tr2 t.
Proof.
  intros H [Hc|[Hc Hn]]; [by left|right]. split; [done|]. intros Hin. apply Hn.
  rewrite starts_app. apply elem_of_app. by right.
Qed.
Lemma by_caller_app_r (tr1 tr2 : list (event V E task)) t :
  by_caller (tr1 ++ tr2) t → by_caller tr1 t.
Proof.
  intros [Hc|[Hc Hn]]; [by left|right]. split; [done|]. intros Hin. apply Hn.
  rewrite starts_app. apply elem_of_app. by left.
Qed.

Lemma par_loop_skips fs ba k l m tr m' res :
  (∀ a b r, l !! a = Some (b, r) → wf_batch fs ba b r) →
  par_loop sysf condf fs ba k l m tr m' res →
  ∀ a b r sl ix c, l !! a = Some (b, r) → job b r sl = Some (ix, c) →
    c = None ∨ passed tr (k + a, sl) → (∃ t, t ∈ starts tr ∧ t.1 = k + a) → (k + a, sl) ∉ starts tr →
    ∃ sl' e, EvEnd (k + a, sl') (Some e) ∈ tr ∧ ¬ by_caller tr (k + a, sl').
Proof.
  intros Hwf H.
  induction H as [k m|k b r l m m1 evs e Hev|k b r l m m1 evs f sl ix Hev Hin Hno|
    k b r l m m1 evs f tr m2 fin e Hev Hst Hres|k b r l m m1 evs f tr m2 fin tr' m3 res Hev Hst Hres Hl IH];
    intros a b' r' sl0 ix0 c0 Ha Hj Hp (t & Ht & Hta) Hns.
  - by apply elem_of_nil in Ht.
  - exfalso. destruct (eval_batch_trace condf fs ba k b r m m1 evs _ (Hwf 0 _ _ eq_refl) Hev) as (S1 & _).
    rewrite S1 in Ht. by apply elem_of_nil in Ht.
  - exfalso. destruct (eval_batch_trace condf fs ba k b r m m1 evs _ (Hwf 0 _ _ eq_refl) Hev) as (S1 & _).
    rewrite S1 in Ht. by apply elem_of_nil in Ht.
  - destruct (eval_batch_trace condf fs ba k b r m m1 evs _ (Hwf 0 _ _ eq_refl) Hev) as (S1 & _ & _ & S4 & _).
    destruct (bsteps_facts sysf fs k _ _ _ _ Hst) as (st & sk & fin' & F).
    rewrite starts_app, S1 in Ht, Hns. cbn [app] in Ht, Hns.
    assert (a = 0) as ->.
    { rewrite (bf_starts _ _ _ _ _ _ _ _ _ F) in Ht. apply elem_of_list_In, in_map_iff in Ht as (x & <- & _).
      cbn in Hta. lia. }
    injection Ha as <- <-. rewrite Nat.add_0_r in *.
    destruct (batch_skips _ _ _ _ _ _ _ _ _ _ _ _ (Hwf 0 _ _ eq_refl) Hev Hst _ _ _ Hj Hp Hns) as (sl' & e' & H1 & H2).
    exists sl', e'. split; [apply elem_of_app; by right|]. intros Hc. apply H2. eapply by_caller_app_l; [|exact Hc].
    intros t' Ht'. rewrite S1 in Ht'. by apply elem_of_nil in Ht'.
  - destruct (eval_batch_trace condf fs ba k b r m m1 evs _ (Hwf 0 _ _ eq_refl) Hev) as (S1 & _ & _ & S4 & _).
    destruct (bsteps_facts sysf fs k _ _ _ _ Hst) as (st & sk & fin' & F).
    assert (Htr : ∀ t, t ∈ starts tr → t.1 = k).
    { intros t' Ht'. rewrite (bf_starts _ _ _ _ _ _ _ _ _ F) in Ht'.
      by apply elem_of_list_In, in_map_iff in Ht' as (x & <- & _). }
    pose proof Hl as Hl'. apply par_loop_batches in Hl' as (trs & Htrs & _ & _ & _ & Hb).
    2: { intros a' b0 r0 Ha'. by apply (Hwf (S a')). }
    assert (Hnum : ∀ ev, ev ∈ tr' → S k ≤ (ev_task ev).1).
    { intros ev Hin. rewrite Htrs in Hin. apply concat_elem in Hin as (a' & tra & Ha' & Hin).
      destruct (Hb _ _ Ha') as (b0 & r0 & _ & Hbt). rewrite (bt_task _ _ _ _ _ _ _ _ Hbt _ Hin). lia. }
    rewrite !starts_app, S1 in Ht, Hns. cbn [app] in Ht, Hns.
    apply not_elem_of_app in Hns as [Hn1 Hn2]. destruct a as [|a].
    + injection Ha as <- <-. rewrite Nat.add_0_r in *. destruct Hp as [Hp|[m' Hp]].
      * destruct (batch_skips _ _ _ _ _ _ _ _ _ _ _ _ (Hwf 0 _ _ eq_refl) Hev Hst _ _ _ Hj (or_introl Hp) Hn1)
          as (sl' & e' & H1 & H2).
        exists sl', e'. split; [set_solver|]. intros Hc. apply H2.
        apply (by_caller_app_l evs). { intros t' Ht'. rewrite S1 in Ht'. by apply elem_of_nil in Ht'. }
        apply (by_caller_app_r _ tr'). by rewrite <-app_assoc.
      * assert (Hp' : passed (evs ++ tr) (k, sl0)).
        { exists m'. rewrite app_assoc in Hp. apply elem_of_app in Hp as [Hp|Hp]; [done|].
          apply Hnum in Hp. cbn in Hp. lia. }
        destruct (batch_skips _ _ _ _ _ _ _ _ _ _ _ _ (Hwf 0 _ _ eq_refl) Hev Hst _ _ _ Hj (or_intror Hp') Hn1)
          as (sl' & e' & H1 & H2).
        exists sl', e'. split; [set_solver|]. intros Hc. apply H2.
        apply (by_caller_app_l evs). { intros t' Ht'. rewrite S1 in Ht'. by apply elem_of_nil in Ht'. }
        apply (by_caller_app_r _ tr'). by rewrite <-app_assoc.
    + cbn in Ha. rewrite Nat.add_succ_r, <-Nat.add_succ_l in *.
      destruct (IH ltac:(intros a' b0 r0 Ha'; by apply (Hwf (S a'))) a b' r' sl0 ix0 c0 Ha Hj) as (sl' & e' & H1 & H2).
      * destruct Hp as [Hp|[m' Hp]]; [by left|right]. exists m'.
        apply elem_of_app in Hp as [Hp|Hp]; [apply S4 in Hp; cbn in Hp; lia|].
        apply elem_of_app in Hp as [Hp|Hp]; [|done].
        exfalso. assert ((S k + a, sl0) ∈ conds tr) as Hx; [apply elem_of_conds; eauto|].
        rewrite (bf_conds _ _ _ _ _ _ _ _ _ F) in Hx. by apply elem_of_nil in Hx.
      * exists t. split; [|done]. apply elem_of_app in Ht as [Ht|Ht]; [|done]. apply Htr in Ht. lia.
      * done.
      * exists sl', e'. split; [set_solver|]. intros Hc. apply H2.
        rewrite app_assoc in Hc. eapply by_caller_app_l; [|exact Hc].
        intros t' Ht'. rewrite starts_app, S1 in Ht'. apply Htr in Ht'. cbn. lia.
Qed.
End skips.

Section panics.
Context {V E : Type}.
Context (sysf : N → prog V (option (fail E))) (condf : N → prog V (fail E + bool)).
Notation event := (event V (fail E)).

(** * The same runs as in Run.v, which differ in how they end *)

Lemma outcome_result own (fin : list (slot * nat * option (fail E))) o :
  batch_outcome own fin o →
  ∃ r, batch_result own fin r ∧ (r = None ↔ o = Returned None) ∧
    (∀ x, o = Returned (Some x) → ends_call r = o).
Proof.
  intros H. destruct H as [x Hx|x e Hn Hx Ho|x e Hn Hx Ho Hp|Hall].
  - destruct (batch_result_exists own fin) as [r Hr]. exists r. split; [done|]. split; [|done].
    split; [|done]. intros ->. inversion Hr as [| |Hall]; subst. by apply Hall in Hx.
  - eexists. split; [by eapply BROwn|]. done.
  - eexists. split; [by eapply BRPool|]. done.
  - exists None. split; [by apply BROk|]. done.
Qed.
Lemma result_outcome own (fin : list (slot * nat * option (fail E))) r :
  batch_result own fin r → ∃ o, batch_outcome own fin o ∧ (r = None ↔ o = Returned None).
Proof.
  intros H. destruct (decide (Exists (λ y, (match y.2 with Some Panicked => true | _ => false end) = true) fin)) as [He|He].
  { apply Exists_exists in He as ([x q] & Hx & Hq). cbn in Hq. destruct q as [[e|]|]; try done.
    exists Unwound. split; [by eapply BOPanic|]. split; [|done]. intros ->.
    inversion H as [| |Hall]; subst. by apply Hall in Hx. }
  assert (Hn : ∀ y, (y, Some Panicked) ∉ fin).
  { intros y Hy. apply He. apply Exists_exists. eexists. split; [exact Hy|done]. }
  destruct H as [x e Hx Ho|x e Hx Ho Hp|Hall].
  - destruct e as [e|]; [|by apply Hn in Hx]. eexists. split; [by eapply BOOwn|]. done.
  - destruct e as [e|]; [|by apply Hn in Hx]. eexists. split; [by eapply BOPool|]. done.
  - eexists. split; [by apply BOOk|]. done.
Qed.

Lemma ppar_par fs ba k l m tr m' o :
  ppar_loop sysf condf fs ba k l m tr m' o →
  ∃ r, par_loop sysf condf fs ba k l m tr m' r ∧ (o = Returned None → r = None) ∧
    (∀ x, o = Returned (Some x) → ends_call r = o).
Proof.
  induction 1 as [k m|k b r l m m1 evs e Hev|k b r l m m1 evs f sl ix Hev Hin Hno|
    k b r l m m1 evs f tr m2 fin o Hev Hst Ho Hne|k b r l m m1 evs f tr m2 fin tr' m3 o Hev Hst Ho Hl IH].
  - exists None. split; [constructor|]. done.
  - exists (Some e). split; [by eapply PCondErr|]. split; [|done]. cbn. by destruct e as [|[]|? []|].
  - exists (Some RPanic). split; [by eapply PPanic|]. done.
  - destruct (outcome_result _ _ _ Ho) as (r0 & H1 & H2 & H3). destruct r0 as [e|].
    + exists (Some e). split; [by eapply PFail|]. split; [done|]. done.
    + exfalso. apply Hne. by apply H2.
  - destruct IH as (r0 & I1 & I2 & I3). destruct (outcome_result _ _ _ Ho) as (r1 & H1 & H2 & _).
    rewrite (proj2 H2 eq_refl) in H1. exists r0. split; [by eapply PNext|]. done.
Qed.
Lemma par_ppar fs ba k l m tr m' r :
  par_loop sysf condf fs ba k l m tr m' r → ∃ o, ppar_loop sysf condf fs ba k l m tr m' o.
Proof.
  induction 1 as [k m|k b r l m m1 evs e Hev|k b r l m m1 evs f sl ix Hev Hin Hno|
    k b r l m m1 evs f tr m2 fin e Hev Hst Ho|k b r l m m1 evs f tr m2 fin tr' m3 res Hev Hst Ho Hl IH].
  - eexists. constructor.
  - eexists. by eapply QCondErr.
  - eexists. by eapply QPanic.
  - destruct (result_outcome _ _ _ Ho) as (o & H1 & H2). exists o. eapply QStop; [done|done|done|].
    intros ->. destruct H2 as [_ H2]. by specialize (H2 eq_refl).
  - destruct IH as (o & IH). destruct (result_outcome _ _ _ Ho) as (o1 & H1 & H2).
    rewrite (proj1 H2 eq_refl) in H1. exists o. by eapply QNext.
Qed.

(** Unwinding is about panics. *)
Lemma eval_batch_fails fs ba k b r m m1 evs c :
  wf_batch fs ba b r → eval_batch condf ba k b r m = (m1, evs, c) →
  ∀ t m0 e, EvCondErr t m0 e ∈ evs → ∃ i, c = inl (RSystem i e).
Proof.
  intros (W1 & W2 & W3 & W4) H t m0 e Hin. rewrite eval_batch_list in H.
  destruct (eval_list condf ba (jobs k b r) m) as [[m' evs'] c'] eqn:El.
  injection H as <- <- Hc. pose proof (eval_list_spec condf ba _ _ _ _ _ El) as Hev.
  destruct (ev_in _ _ _ _ _ Hev _ Hin) as (t' & nm & ci & cd & H1 & _ & [(? & ? & [=] & _)|(? & ? & [= <- <- <-] & _ & ->)]).
  assert (∃ sl, t = (k, sl)) as [sl ->].
  { apply jobs_elem in H1 as [(-> & _)|(j & i & -> & _)]; eauto. }
  apply jobs_job in H1 as (ix & -> & _); [|done]. eauto.
Qed.

Definition panicked {T} (tr : list (event T)) : Prop := ∃ t, failed tr t Panicked.
Lemma panicked_app {T} (tr1 tr2 : list (event T)) : panicked (tr1 ++ tr2) ↔ panicked tr1 ∨ panicked tr2.
Proof.
  unfold panicked, failed. setoid_rewrite elem_of_app. split.
  - intros (t & [[H|H]|(m & [H|H])]); eauto.
  - intros [(t & [H|(m & H)])|(t & [H|(m & H)])]; eauto 6.
Qed.
Lemma ppar_panics fs ba k l m tr m' o :
  (∀ a b r, l !! a = Some (b, r) → wf_batch fs ba b r) →
  ppar_loop sysf condf fs ba k l m tr m' o → o = Unwound ↔ panicked tr.
Proof.
  intros Hwf H.
  induction H as [k m|k b r l m m1 evs e Hev|k b r l m m1 evs f sl ix Hev Hin Hno|
    k b r l m m1 evs f tr m2 fin o Hev Hst Ho Hne|k b r l m m1 evs f tr m2 fin tr' m3 o Hev Hst Ho Hl IH].
  - split; [done|]. intros (t & [H|(? & H)]); by apply elem_of_nil in H.
  - pose proof (Hwf 0 _ _ eq_refl) as W.
    destruct (eval_batch_trace condf fs ba k b r m m1 evs _ W Hev) as (S1 & S2 & _ & _ & _ & S6).
    destruct S6 as (sl & ix & ci & m0 & e' & Hj & Hin & ->). split.
    + cbn. destruct e' as [e'|]; [done|]. intros _. exists (k, sl). right. eauto.
    + intros (t & [H|(m2 & H)]).
      * by apply (no_ends _ _ _ S2) in H.
      * destruct (eval_batch_fails _ _ _ _ _ _ _ _ _ W Hev _ _ _ H) as (i & [= -> ->]). done.
  - exfalso. pose proof (Hwf 0 _ _ eq_refl) as W. destruct (task_job fs ba b r f sl ix W Hin) as [c Hj].
    destruct W as (_ & _ & _ & W). destruct (W _ _ _ Hj). congruence.
  - pose proof (Hwf 0 _ _ eq_refl) as W.
    destruct (eval_batch_trace condf fs ba k b r m m1 evs _ W Hev) as (S1 & S2 & _ & _ & _ & S6 & _).
    destruct (bsteps_facts sysf fs k _ _ _ _ Hst) as (st & sk & fin' & [B1 B2 B3 B4 B5 B6 B7 B8 B9 B10]).
    cbn [b_pend b_run b_done map app] in *. subst fin'.
    assert (Hp : panicked (evs ++ tr) ↔ ∃ x, (x, Some Panicked) ∈ fin).
    { rewrite panicked_app. split.
      - intros [(t & [H|(m0 & H)])|(t & [H|(m0 & H)])].
        + by apply (no_ends _ _ _ S2) in H.
        + by apply S6 in H.
        + apply B6 in H as (x & H & _). eauto.
        + exfalso. assert (t ∈ conds tr) as Hx; [apply elem_of_conds; eauto|].
          rewrite B8 in Hx. by apply elem_of_nil in Hx.
      - intros (x & Hx). right. exists (k, x.1). left. apply B6. eauto. }
    rewrite Hp. destruct Ho as [x Hx|x e Hn Hx Ho|x e Hn Hx Ho Hpo|Hall].
    + split; [eauto|done].
    + split; [done|]. intros (y & Hy). by apply Hn in Hy.
    + split; [done|]. intros (y & Hy). by apply Hn in Hy.
    + done.
  - pose proof (Hwf 0 _ _ eq_refl) as W.
    destruct (eval_batch_trace condf fs ba k b r m m1 evs _ W Hev) as (S1 & S2 & _ & _ & _ & S6 & _).
    destruct (bsteps_facts sysf fs k _ _ _ _ Hst) as (st & sk & fin' & [B1 B2 B3 B4 B5 B6 B7 B8 B9 B10]).
    cbn [b_pend b_run b_done map app] in *. subst fin'.
    rewrite !panicked_app. rewrite IH by (intros a b' r' Ha; by apply (Hwf (S a))). split; [by right; right|].
    intros [(t & [H|(m0 & H)])|[(t & [H|(m0 & H)])|H]]; [..|done]; exfalso.
    + by apply (no_ends _ _ _ S2) in H.
    + by apply S6 in H.
    + apply B6 in H as (x & H & _). inversion Ho as [| | |Hall]; subst. by apply Hall in H.
    + assert (t ∈ conds tr) as Hx; [apply elem_of_conds; eauto|].
      rewrite B8 in Hx. by apply elem_of_nil in Hx.
Qed.

(** * C69 *)

(** Panics change how a run can end, not what it does before: the events and the storages are
    those of runs where a panic is just an error. *)
Theorem C69_same_runs l sc2 m tr m' :
  (∃ o, prun_workload_par sysf condf l sc2 m tr m' o) ↔ (∃ r, run_workload_par sysf condf l sc2 m tr m' r).
Proof.
  unfold prun_workload_par, run_workload_par, run_batches_par. destruct (sc_workload l sc2) as [ba|].
  - destruct (workload_rif condf ba m) as [m1 [r1|[]]].
    + split; intros (? & -> & -> & ->); eauto.
    + split.
      * intros (o & H). apply ppar_par in H as (r & H & _). eauto.
      * intros (r & H). apply par_ppar in H as (o & H). eauto.
  - split; intros (? & -> & -> & ->); eauto.
Qed.

Lemma prun_enabled w sc sc' info ba order sc2 m tr m' o :
  built w → create_workload w sc = Some (sc', inr (info, ba, order)) →
  loaded sc' sc2 (wl_name w) ba → enabled condf w m →
  prun_workload_par sysf condf (wl_name w) sc2 m tr m' o →
  ∃ m1, ppar_loop sysf condf (f_systems (sc_fns sc2)) ba 0 (zip (ba_par ba) (ba_par_rif ba)) m1 tr m' o ∧
    ∀ r, par_loop sysf condf (f_systems (sc_fns sc2)) ba 0 (zip (ba_par ba) (ba_par_rif ba)) m1 tr m' r →
      run_workload_par sysf condf (wl_name w) sc2 m tr m' r.
Proof.
  intros Hb Hc [Hl Hfs] Hen Hrun. unfold prun_workload_par in Hrun. rewrite Hl in Hrun.
  unfold run_workload_par, run_batches_par, workload_rif in *. rewrite Hl.
  destruct (create_ok _ _ _ _ _ _ Hb Hc) as (segs & _ & _ & Hrif & _). rewrite Hrif in *.
  unfold enabled in Hen. destruct (wl_run_if w) as [c|]; [|by exists m].
  destruct (ceval condf c m) as [m1 x]. cbn in Hen. subst x. by exists m1.
Qed.

(** The call unwinds exactly if a system or a condition panicked: no panic is swallowed, not
    even when there are errors as well, and there is no other reason to unwind. *)
Theorem C69_unwinds w sc sc' info ba order sc2 m tr m' o :
  built w → fns_ok (sc_fns sc) → create_workload w sc = Some (sc', inr (info, ba, order)) →
  loaded sc' sc2 (wl_name w) ba → enabled condf w m →
  prun_workload_par sysf condf (wl_name w) sc2 m tr m' o →
  o = Unwound ↔ ∃ t, failed tr t Panicked.
Proof.
  intros Hb Hok Hc Hl Hen Hrun.
  destruct (prun_enabled _ _ _ _ _ _ _ _ _ _ _ Hb Hc Hl Hen Hrun) as (m1 & Hp & _). destruct Hl as [Hl Hfs].
  eapply ppar_panics; [|exact Hp]. intros a b r Ha. by eapply stored_wf.
Qed.

(** The condition of the workload itself. *)
Theorem C69_workload_condition w sc sc' info ba order sc2 m tr m' o c :
  built w → create_workload w sc = Some (sc', inr (info, ba, order)) →
  loaded sc' sc2 (wl_name w) ba → wl_run_if w = Some c →
  prun_workload_par sysf condf (wl_name w) sc2 m tr m' o →
  ((ceval condf c m).2 = inl Panicked → tr = [] ∧ o = Unwound) ∧
  (∀ e, (ceval condf c m).2 = inl (Failed e) → tr = [] ∧ o = Returned (Some (RWorkload e))) ∧
  ((ceval condf c m).2 = inr false → tr = [] ∧ o = Returned None).
Proof.
  intros Hb Hc [Hl Hfs] Hw Hrun. unfold prun_workload_par in Hrun. rewrite Hl in Hrun.
  unfold workload_rif in Hrun.
  destruct (create_ok _ _ _ _ _ _ Hb Hc) as (segs & _ & _ & Hrif & _). rewrite Hrif, Hw in Hrun.
  destruct (ceval condf c m) as [m1 [[e|]|[]]]; cbn; split_and!; try done.
  - intros e' [= <-]. by destruct Hrun as (-> & _ & ->).
  - by destruct Hrun as (-> & _ & ->).
  - by destruct Hrun as (-> & _ & ->).
Qed.

(** A run that returns an error names a system that failed with this error, and nothing
    panicked; a run that returns without error saw no failure at all. *)
Theorem C69_returns w sc sc' info ba order sc2 m tr m' r :
  built w → fns_ok (sc_fns sc) → create_workload w sc = Some (sc', inr (info, ba, order)) →
  loaded sc' sc2 (wl_name w) ba → enabled condf w m →
  prun_workload_par sysf condf (wl_name w) sc2 m tr m' (Returned r) →
  match r with
  | None => ∀ t e, ¬ failed tr t e
  | Some x => (∀ t, ¬ failed tr t Panicked) ∧
      ∃ t b s e y, failed tr t (Failed e) ∧ x = RSystem (p_index s) e ∧ info !! t.1 = Some b ∧
        slot_of b t.2 = Some s ∧ wl_systems w !! pos s = Some y
  end.
Proof.
  intros Hb Hok Hc Hl Hen Hrun.
  pose proof (C69_unwinds _ _ _ _ _ _ _ _ _ _ _ Hb Hok Hc Hl Hen Hrun) as Hu.
  destruct (prun_enabled _ _ _ _ _ _ _ _ _ _ _ Hb Hc Hl Hen Hrun) as (m1 & Hp & Hr).
  apply ppar_par in Hp as (q & Hq & Q1 & Q2). apply Hr in Hq. destruct r as [x|].
  - split; [intros t Ht; destruct Hu as [_ Hu]; by specialize (Hu (ex_intro _ t Ht))|].
    specialize (Q2 x eq_refl). destruct q as [q|]; [|done].
    destruct (C36_error_reported _ _ _ _ _ _ _ _ _ _ _ _ _ Hb Hok Hc Hl Hen Hq) as (t & b & s & e & y & H1 & -> & H2 & H3 & H4).
    cbn in Q2. destruct e as [e|]; [|done]. injection Q2 as <-. exists t, b, s, e, y. done.
  - rewrite (Q1 eq_refl) in Hq. intros t e Hf.
    by destruct (C36_failure_stops _ _ _ _ _ _ _ _ _ _ _ _ _ _ _ Hb Hok Hc Hl Hen Hq Hf) as [(? & ? & ?) _].
Qed.

(** When the call unwinds (or returns), nothing of the workload is still running: what was
    started has ended; no system was started twice; and nothing happened in the batches after
    the one where the panic was. *)
Theorem C69_nothing_left w sc sc' info ba order sc2 m tr m' o :
  built w → fns_ok (sc_fns sc) → create_workload w sc = Some (sc', inr (info, ba, order)) →
  loaded sc' sc2 (wl_name w) ba → enabled condf w m →
  prun_workload_par sysf condf (wl_name w) sc2 m tr m' o →
  NoDup (starts tr) ∧ starts tr ≡ₚ ends tr ∧
  (∀ t e, failed tr t e → ∀ ev, ev ∈ tr → (ev_task ev).1 ≤ t.1).
Proof.
  intros Hb Hok Hc Hl Hen Hrun.
  assert (∃ r, run_workload_par sysf condf (wl_name w) sc2 m tr m' r) as [r Hr] by (apply C69_same_runs; eauto).
  destruct (C36_only_enabled _ _ _ _ _ _ _ _ _ _ _ _ _ Hb Hok Hc Hl Hen Hr) as (H1 & H2 & _).
  split_and!; [done|done|]. intros t e Hf.
  by destruct (C36_failure_stops _ _ _ _ _ _ _ _ _ _ _ _ _ _ _ Hb Hok Hc Hl Hen Hr Hf) as [_ H].
Qed.

(** In a batch that was begun, a system whose condition held (or which has none) can only be
    left out when one of the batch run by the pool failed or panicked: a panic on the calling
    thread alone stops nothing in its batch. *)
Theorem C69_left_out w sc sc' info ba order sc2 m tr m' o i x t :
  built w → fns_ok (sc_fns sc) → create_workload w sc = Some (sc', inr (info, ba, order)) →
  loaded sc' sc2 (wl_name w) ba → enabled condf w m →
  prun_workload_par sysf condf (wl_name w) sc2 m tr m' o →
  wl_systems w !! i = Some x → runs_as info i t → w_run_if x = None ∨ passed tr t →
  (∃ t', t' ∈ starts tr ∧ t'.1 = t.1) → t ∉ starts tr →
  ∃ t' e, t'.1 = t.1 ∧ EvEnd t' (Some e) ∈ tr ∧ ¬ by_caller tr t'.
Proof.
  intros Hb Hok Hc Hl Hen Hrun Hx (bi & s & Hbi & Hs & Hpos) Hp Hex Hns.
  destruct (prun_enabled _ _ _ _ _ _ _ _ _ _ _ Hb Hc Hl Hen Hrun) as (m1 & Hpl & _). destruct Hl as [Hl Hfs].
  apply ppar_par in Hpl as (q & Hq & _). destruct t as [k sl]. cbn in Hbi, Hs.
  destruct (lookup_lt_is_Some_2 (zip (ba_par ba) (ba_par_rif ba)) k) as [[b r] Hz].
  { erewrite (stored_length w sc sc' info ba order) by done. by apply lookup_lt_Some in Hbi. }
  destruct (stored_at w sc sc' info ba order Hb Hc _ _ _ Hz) as (bi' & Hbi' & -> & Hal).
  rewrite Hbi in Hbi'. injection Hbi' as <-.
  destruct (slot_job _ _ _ _ _ Hal Hs) as (c & Hj & Hres).
  destruct (create_ok _ _ _ _ _ _ Hb Hc) as (segs & HP & _).
  destruct (member_sys w sc info order segs k bi s Hb HP Hbi) as (y & Hy & _ & R & _);
    [by eapply slot_member|]. rewrite Hpos, Hx in Hy. injection Hy as <-.
  destruct (par_loop_skips sysf condf (f_systems (sc_fns sc2)) ba 0 (zip (ba_par ba) (ba_par_rif ba)) m1 tr m' q)
    with (a := k) (b := batch_indices bi) (r := r) (sl := sl) (ix := p_index s) (c := c)
    as (sl' & e & H1 & H2); [|done|done|done| |done|done|].
  - intros a b0 r0 Ha. by eapply stored_wf.
  - destruct Hp as [Hp|Hp]; [left|by right]. rewrite R, Hp in Hres. by destruct c.
  - exists (k, sl'), e. done.
Qed.

(** The storages after a panic are those of running alone, in the order of their starts, the
    systems that were started, each up to its end or its panic (C68). *)
Theorem C69_serial w sc sc' info ba order sc2 m tr m' o :
  built w → fns_ok (sc_fns sc) → create_workload w sc = Some (sc', inr (info, ba, order)) →
  loaded sc' sc2 (wl_name w) ba →
  (∀ s x f, s ∈ order → wl_systems w !! pos s = Some x →
     f_systems (sc_fns sc2) !! p_index s = Some f → respects (w_borrows x) (sysf f)) →
  prun_workload_par sysf condf (wl_name w) sc2 m tr m' o →
  serial sysf condf (cond_at w info) tr tr (after_rif condf w m) m'.
Proof.
  intros Hb Hok Hc Hl Hresp Hrun.
  assert (∃ r, run_workload_par sysf condf (wl_name w) sc2 m tr m' r) as [r Hr] by (apply C69_same_runs; eauto).
  by eapply C68_serial.
Qed.

(** Without the feature "parallel": the call stops at the first failure, and unwinds exactly if
    it is a panic. *)
Theorem C69_seq w sc sc' info ba order sc2 m tr m' o :
  built w → fns_ok (sc_fns sc) → create_workload w sc = Some (sc', inr (info, ba, order)) →
  loaded sc' sc2 (wl_name w) ba → enabled condf w m →
  prun_workload_seq sysf condf (wl_name w) sc2 m = (tr, m', o) →
  (o = Unwound ↔ ∃ t, failed tr t Panicked) ∧
  (∀ t e, failed tr t e → (∀ t', t' ∈ starts tr → t' ≤ t) ∧
     ∃ s, order !! t = Some s ∧
       o = match e with Failed e => Returned (Some (RSystem (p_index s) e)) | Panicked => Unwound end) ∧
  (o = Returned None ∨ ∃ t e, failed tr t e) ∧ starts tr = ends tr.
Proof.
  intros Hb Hok Hc Hl Hen Hrun. unfold prun_workload_seq in Hrun.
  destruct (run_workload_seq sysf condf (wl_name w) sc2 m) as [[tr0 m0] r] eqn:Er. injection Hrun as <- <- <-.
  destruct (C36_seq_failure _ _ _ _ _ _ _ _ _ _ _ _ _ Hb Hok Hc Hl Hen Er) as [H1 H2].
  destruct (C36_seq_only_enabled _ _ _ _ _ _ _ _ _ _ _ _ _ Hb Hok Hc Hl Hen Er) as (_ & H3 & _).
  split_and!; [|..|done].
  - split.
    + destruct r as [x|]; [|done]. destruct (H2 x eq_refl) as (t & s & e & _ & -> & Hf). cbn.
      destruct e; [done|]. eauto.
    + intros (t & Hf). destruct (H1 _ _ Hf) as (_ & s & _ & ->). done.
  - intros t e Hf. destruct (H1 _ _ Hf) as (H & s & Hs & ->). split; [done|]. exists s. by destruct e.
  - destruct r as [x|]; [|by left]. right. destruct (H2 x eq_refl) as (t & s & e & _ & _ & Hf). eauto.
Qed.
End panics.

(** * Concrete cases *)

Definition pan_sysf (f : N) : prog N (option (fail unit)) :=
  match f with
  | 10%N => Wr 1 (Some 10%N) (Ret None)
  | 14%N => Wr 5 (Some 50%N) (Ret (Some Panicked))
  | 15%N => Ret (Some (Failed tt))
  | _ => Ret None
  end.
(** The condition panics when storage [n] is empty. *)
Definition pan_condf (n : N) : prog N (fail unit + bool) :=
  Rd n (λ v, Ret match v with None => inl Panicked | Some x => inr (bool_decide (x = 1%N)) end).

(** Four systems: the first batch consists of the first three, the calling thread runs the
    first of them; in the second batch is the one that reads what the panicking one writes. *)
Definition exp : workload :=
  nm 1 [sy 10 [wr 1]; sy 14 [wr 5]; sy 15 [wr 3]; sy 11 [rd 5; wr 2]].
Definition exp_result := Eval vm_compute in create_workload exp sc_new.
Definition exp_info : list binfo :=
  Eval vm_compute in match exp_result with Some (_, inr (i, _, _)) => i | _ => [] end.
Definition exp_ba : batches :=
  Eval vm_compute in match exp_result with Some (_, inr (_, b, _)) => b | _ => ba_new None end.
Definition exp_order : list psys :=
  Eval vm_compute in match exp_result with Some (_, inr (_, _, o)) => o | _ => [] end.
Definition exp_sc : sched :=
  Eval vm_compute in match exp_result with Some (sc, _) => sc | _ => sc_new end.
Lemma exp_built : built exp.
Proof. apply built_nm. decl. Qed.
Example exp_create : create_workload exp sc_new = Some (exp_sc, inr (exp_info, exp_ba, exp_order)).
Proof. vm_compute. reflexivity. Qed.
Example exp_shape : shape exp = Some ([(None, [0; 1; 2]); (None, [3])], [0; 1; 2; 3]).
Proof. vm_compute. reflexivity. Qed.
Lemma exp_loaded : loaded exp_sc exp_sc (wl_name exp) exp_ba.
Proof. eapply loaded_self, exp_create. apply exp_built. Qed.
Lemma exp_respects s x f :
  s ∈ exp_order → wl_systems exp !! pos s = Some x →
  f_systems (sc_fns exp_sc) !! p_index s = Some f → respects (w_borrows x) (pan_sysf f).
Proof.
  intros Hs. unfold exp_order in Hs.
  repeat (apply elem_of_cons in Hs as [->|Hs]); [..|by apply elem_of_nil in Hs];
    (intros Hx; vm_compute in Hx; injection Hx as <-; intros Hf; vm_compute in Hf; injection Hf as <-; cbn).
  - constructor; [|constructor]. exists (wr 1). split; [by left|by left].
  - constructor; [|constructor]. exists (wr 5). split; [by left|by left].
  - constructor.
  - constructor.
Qed.

(** The pool's system panics; the third one of the batch, also for the pool, is left out; the
    first one still runs to its end, after the panic. *)
Definition exp_tr : list (event N (fail unit) task) :=
  [EvStart (0, Par 1) 14; EvEnd (0, Par 1) (Some Panicked); EvStart (0, Par 0) 10; EvEnd (0, Par 0) None].
Lemma exp_run :
  prun_workload_par pan_sysf pan_condf (wl_name exp) exp_sc ∅ exp_tr
    (put 1 (Some 10%N) (put 5 (Some 50%N) ∅)) Unwound.
Proof.
  unfold prun_workload_par. vm_compute (sc_workload _ _). cbv beta iota.
  vm_compute (workload_rif _ _ _). cbv beta iota. vm_compute (zip _ _).
  change exp_tr with ([] ++ exp_tr). eapply QStop; [vm_compute; reflexivity| |by apply (BOPanic _ _ (Par 1, 1)); left|done].
  vm_compute (batch_tasks _ _). vm_compute (own_task _ _). vm_compute (f_systems _).
  eapply bsteps_cons_eq; [apply (BStart _ _ _ _ ∅ [(Par 0, 0)] [(Par 2, 2)] (Par 1) 1 14%N [] []); reflexivity| |].
  1: eapply bsteps_cons_eq; [apply (BWr _ _ _ _ ∅ _ [] [] (Par 1, 1) 5 (Some 50%N) (Ret (Some Panicked)) [])| |].
  1: eapply bsteps_cons_eq; [apply (BEnd _ _ _ _ _ _ [] [] (Par 1, 1) (Some Panicked) [])| |].
  1: eapply bsteps_cons_eq; [apply (BSkip _ _ _ _ _ [(Par 0, 0)] [] (Par 2) 2 [] [((Par 1, 1), Some Panicked)] (Par 1, 1) Panicked)| |];
    [done|by left|done| |].
  1: eapply bsteps_cons_eq; [apply (BStart _ _ _ _ _ [] [] (Par 0) 0 10%N _ _); reflexivity| |].
  1: eapply bsteps_cons_eq; [apply (BWr _ _ _ _ _ [] [] [] (Par 0, 0) 1 (Some 10%N) (Ret None) _)| |].
  1: eapply bsteps_cons_eq; [apply (BEnd _ _ _ _ _ [] [] [] (Par 0, 0) None _)| |].
  1: apply bsteps_nil.
  all: reflexivity.
Qed.
Example C69_case :
  enabled pan_condf exp ∅ ∧ (∃ t, failed exp_tr t Panicked) ∧
  starts exp_tr ≡ₚ ends exp_tr ∧ (0, Par 2) ∉ starts exp_tr ∧
  (∃ t' e, t'.1 = 0 ∧ EvEnd t' (Some e) ∈ exp_tr ∧ ¬ by_caller exp_tr t') ∧
  serial pan_sysf pan_condf (cond_at exp exp_info) exp_tr exp_tr ∅ (put 1 (Some 10%N) (put 5 (Some 50%N) ∅)).
Proof.
  split; [done|]. split.
  { by apply (C69_unwinds pan_sysf pan_condf exp sc_new exp_sc exp_info exp_ba exp_order exp_sc ∅ exp_tr
      _ Unwound exp_built fns_ok_new exp_create exp_loaded I exp_run). }
  destruct (C69_nothing_left pan_sysf pan_condf exp sc_new exp_sc exp_info exp_ba exp_order exp_sc ∅ exp_tr
    _ Unwound exp_built fns_ok_new exp_create exp_loaded I exp_run) as (_ & H & _).
  split; [done|]. split.
  { cbn. intros H'. repeat (apply elem_of_cons in H' as [[=]|H']). by apply elem_of_nil in H'. }
  split.
  - eapply (C69_left_out pan_sysf pan_condf exp sc_new exp_sc exp_info exp_ba exp_order exp_sc ∅ exp_tr
      _ Unwound 2 _ (0, Par 2) exp_built fns_ok_new exp_create exp_loaded I exp_run).
    + reflexivity.
    + eexists _, _. split_and!; reflexivity.
    + by left.
    + exists (0, Par 1). split; [by left|done].
    + cbn. intros H'. repeat (apply elem_of_cons in H' as [[=]|H']). by apply elem_of_nil in H'.
  - by apply (C69_serial pan_sysf pan_condf exp sc_new exp_sc exp_info exp_ba exp_order exp_sc ∅ exp_tr
      _ Unwound exp_built fns_ok_new exp_create exp_loaded exp_respects exp_run).
Qed.

(** The calling thread's system returns an error and another one panics: the error is lost, the
    call unwinds. *)
Definition exo : workload := nm 1 [sy 15 [wr 3]; sy 14 [wr 5]].
Example C69_panic_wins :
  ∃ sc' info ba order tr m', built exo ∧ create_workload exo sc_new = Some (sc', inr (info, ba, order)) ∧
    loaded sc' sc' (wl_name exo) ba ∧ enabled pan_condf exo ∅ ∧
    prun_workload_par pan_sysf pan_condf (wl_name exo) sc' ∅ tr m' Unwound ∧
    (∀ o, prun_workload_par pan_sysf pan_condf (wl_name exo) sc' ∅ tr m' o → o = Unwound) ∧
    EvEnd (0, Par 0) (Some (Failed tt)) ∈ tr ∧ by_caller tr (0, Par 0).
Proof.
  assert (Hb : built exo) by (apply built_nm; decl).
  destruct (create_workload exo sc_new) as [[sc' [e|[[info ba] order]]]|] eqn:E;
    [vm_compute in E; done| |vm_compute in E; done].
  pose proof (loaded_self _ _ _ _ _ _ Hb E) as Hl.
  set (tr := [EvStart (0, Par 0) 15%N; EvEnd (0, Par 0) (Some (Failed tt)); EvStart (0, Par 1) 14%N;
              EvEnd (0, Par 1) (Some Panicked)] : list (event N (fail unit) task)).
  exists sc', info, ba, order, tr, (put 5 (Some 50%N) ∅).
  split_and!; [done|done|done|done| | |by right; left|right; split; [done|]].
  - vm_compute in E. injection E as <- <- <- <-.
    unfold prun_workload_par. vm_compute (sc_workload _ _). cbv beta iota.
    vm_compute (workload_rif _ _ _). cbv beta iota. vm_compute (zip _ _).
    change tr with ([] ++ tr).
    eapply QStop; [vm_compute; reflexivity| |by apply (BOPanic _ _ (Par 1, 1)); right; left|done].
    vm_compute (batch_tasks _ _). vm_compute (own_task _ _). vm_compute (f_systems _).
    eapply bsteps_cons_eq; [apply (BStart _ _ _ _ ∅ [] [(Par 1, 1)] (Par 0) 0 15%N [] []); reflexivity| |].
    1: eapply bsteps_cons_eq; [apply (BEnd _ _ _ _ _ _ [] [] (Par 0, 0) (Some (Failed tt)) [])| |].
    1: eapply bsteps_cons_eq; [apply (BStart _ _ _ _ _ [] [] (Par 1) 1 14%N _ _); reflexivity| |].
    1: eapply bsteps_cons_eq; [apply (BWr _ _ _ _ _ [] [] [] (Par 1, 1) 5 (Some 50%N) (Ret (Some Panicked)) _)| |].
    1: eapply bsteps_cons_eq; [apply (BEnd _ _ _ _ _ [] [] [] (Par 1, 1) (Some Panicked) _)| |].
    1: apply bsteps_nil.
    all: reflexivity.
  - intros o Ho. apply (C69_unwinds pan_sysf pan_condf exo sc_new sc' info ba order sc' ∅ tr
      _ o Hb fns_ok_new E Hl I Ho). exists (0, Par 1). left. right. right. right. by left.
  - cbn. intros H'. repeat (apply elem_of_cons in H' as [[=]|H']). by apply elem_of_nil in H'.
Qed.
(** A run with an error and no panic returns the error. *)
Definition exe : workload := nm 1 [sy 15 [wr 3]].
Example C69_case_error :
  ∃ sc' info ba order tr m', built exe ∧ create_workload exe sc_new = Some (sc', inr (info, ba, order)) ∧
    loaded sc' sc' (wl_name exe) ba ∧ enabled pan_condf exe ∅ ∧
    prun_workload_par pan_sysf pan_condf (wl_name exe) sc' ∅ tr m' (Returned (Some (RSystem 0 tt))).
Proof.
  assert (Hb : built exe) by (apply built_nm; decl).
  destruct (create_workload exe sc_new) as [[sc' [e|[[info ba] order]]]|] eqn:E;
    [vm_compute in E; done| |vm_compute in E; done].
  pose proof (loaded_self _ _ _ _ _ _ Hb E) as Hl.
  exists sc', info, ba, order, ([] ++ [EvStart (0, Par 0) 15%N; EvEnd (0, Par 0) (Some (Failed tt))]), ∅.
  split_and!; [done|done|done|done|].
  vm_compute in E. injection E as <- <- <- <-.
  unfold prun_workload_par. vm_compute (sc_workload _ _). cbv beta iota.
  vm_compute (workload_rif _ _ _). cbv beta iota. vm_compute (zip _ _).
  eapply QStop; [vm_compute; reflexivity| |apply (BOOwn _ _ (Par 0, 0) tt); [|by left|done]|done].
  - vm_compute (batch_tasks _ _). vm_compute (own_task _ _). vm_compute (f_systems _).
    eapply bsteps_cons_eq; [apply (BStart _ _ _ _ ∅ [] [] (Par 0) 0 15%N [] []); reflexivity| |].
    1: eapply bsteps_cons_eq; [apply (BEnd _ _ _ _ _ _ [] [] (Par 0, 0) (Some (Failed tt)) [])| |].
    1: apply bsteps_nil.
    all: reflexivity.
  - intros y Hy. by apply elem_of_list_singleton in Hy.
Qed.
(** A panicking condition of the workload, and the sequential run. *)
Example C69_case_condition :
  ∃ sc info ba order, create_workload (wl_set_run_if (CBase 8) exe) sc_new = Some (sc, inr (info, ba, order)) ∧
    loaded sc sc (wl_name exe) ba ∧ (ceval pan_condf (CBase 8) ∅).2 = inl Panicked.
Proof.
  destruct (create_workload (wl_set_run_if (CBase 8) exe) sc_new) as [[sc [e|[[info ba] order]]]|] eqn:E;
    [vm_compute in E; done| |vm_compute in E; done].
  exists sc, info, ba, order. split; [done|]. vm_compute in E. injection E as <- <- <- <-.
  split; [|done]. split; [vm_compute; reflexivity|done].
Qed.
Example C69_case_seq :
  ∃ tr m', prun_workload_seq pan_sysf pan_condf (wl_name exp) exp_sc ∅ = (tr, m', Unwound) ∧
    starts tr = [0; 1] ∧ failed tr 1 Panicked ∧ m' = put 5 (Some 50%N) (put 1 (Some 10%N) ∅).
Proof.
  eexists _, _. split; [vm_compute; reflexivity|]. split_and!; [reflexivity| |reflexivity].
  left. right. right. right. by left.
Qed.

Print Assumptions C69_same_runs.
Print Assumptions C69_unwinds.
Print Assumptions C69_workload_condition.
Print Assumptions C69_returns.
Print Assumptions C69_nothing_left.
Print Assumptions C69_left_out.
Print Assumptions C69_serial.
Print Assumptions C69_seq.
