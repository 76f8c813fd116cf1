(** Proofs about running workloads: traces of batches. *)
From stdpp Require Import prelude countable list gmap.
From Verif Require Import Sched SchedSpec Run RunSpec.
Local Open Scope nat_scope.

Lemma elem_of_split_app {A} (x : A) l : x ∈ l → ∃ l1 l2, l = l1 ++ x :: l2.
Proof. apply elem_of_list_split. Qed.

Lemma ol_some {A} (x : A) : option_list (Some x) = [x].
Proof. done. Qed.
Lemma ol_none {A} : option_list (None : option A) = [].
Proof. done. Qed.

Section trace.
Context {V E T : Type}.
Implicit Types (tr : list (event V E T)).
Lemma starts_app tr1 tr2 : starts (tr1 ++ tr2) = starts tr1 ++ starts tr2.
Proof. unfold starts. by rewrite omap_app. Qed.
Lemma ends_app tr1 tr2 : ends (tr1 ++ tr2) = ends tr1 ++ ends tr2.
Proof. unfold ends. by rewrite omap_app. Qed.
Lemma conds_app tr1 tr2 : conds (tr1 ++ tr2) = conds tr1 ++ conds tr2.
Proof. unfold conds. by rewrite omap_app. Qed.
Lemma elem_of_starts tr t : t ∈ starts tr ↔ ∃ f, EvStart t f ∈ tr.
Proof.
  unfold starts. rewrite elem_of_list_omap. split.
  - intros ([] & H & [=]); subst. eauto.
  - intros [f H]. by exists (EvStart t f).
Qed.
Lemma elem_of_ends tr t : t ∈ ends tr ↔ ∃ r, EvEnd t r ∈ tr.
Proof.
  unfold ends. rewrite elem_of_list_omap. split.
  - intros ([] & H & [=]); subst. eauto.
  - intros [f H]. by exists (EvEnd t f).
Qed.
Lemma elem_of_conds tr t :
  t ∈ conds tr ↔ (∃ m b, EvCond t m b ∈ tr) ∨ (∃ m e, EvCondErr t m e ∈ tr).
Proof.
  unfold conds. rewrite elem_of_list_omap. split.
  - intros ([] & H & [=]); subst; eauto.
  - intros [(m & b & H)|(m & e & H)]; [by exists (EvCond t m b)|by exists (EvCondErr t m e)].
Qed.
Lemma nodup_omap_inj {A B} (f : A → option B) (l : list A) x y b :
  NoDup (omap f l) → x ∈ l → y ∈ l → f x = Some b → f y = Some b → x = y.
Proof.
  induction l as [|z l IH]; [by intros _ H%elem_of_nil|].
  simpl. intros Hnd Hx Hy Fx Fy.
  assert (Hnd' : NoDup (omap f l)).
  { destruct (f z); [by apply NoDup_cons in Hnd as [_ ?]|done]. }
  assert (Hz : ∀ w, w ∈ l → f w = Some b → f z = Some b → False).
  { intros w Hw Fw Fz. rewrite Fz in Hnd. apply NoDup_cons in Hnd as [Hni _]. apply Hni.
    apply elem_of_list_omap. eauto. }
  apply elem_of_cons in Hx as [-> |Hx]; apply elem_of_cons in Hy as [-> |Hy]; try done.
  - exfalso. eauto.
  - exfalso. eauto.
  - eauto.
Qed.
(** Each condition is evaluated once. *)
Lemma cond_once tr t m b m' b' :
  NoDup (conds tr) → EvCond t m b ∈ tr → EvCond t m' b' ∈ tr → b = b' ∧ m = m'.
Proof.
  intros Hn H1 H2.
  assert (EvCond t m b = (EvCond t m' b' : event V E T)) as [= -> ->]; [|done].
  unfold conds in Hn. by eapply (nodup_omap_inj _ _ _ _ t Hn).
Qed.
End trace.

Section proofs.
Context {V E : Type} (sysf : N → prog V (option E)) (condf : N → prog V (E + bool)).
Notation event := (event V E).

(** * Run conditions *)

Section conds.
Context (ba : batches).

(** All the conditions of a batch in one list. *)
Fixpoint eval_list (l : list (task * option nat * option nat)) (m : store V) :
    store V * list (event task) * (rerr E + list bool) :=
  match l with
  | [] => (m, [], inr [])
  | (t, nm, r) :: l =>
      let '(m1, evs, c) := eval_rif condf ba t nm r m in
      match c with
      | inl e => (m1, evs, inl e)
      | inr b =>
          let '(m2, evs', c') := eval_list l m1 in
          (m2, evs ++ evs', match c' with inl e => inl e | inr bs => inr (b :: bs) end)
      end
  end.
Definition jobs (k : nat) (b : option nat * list nat) (r : option nat * list (option nat)) :
    list (task * option nat * option nat) :=
  ((k, Sgl), b.1, r.1) :: imap (λ j x, ((k, Par j), Some x.1, x.2)) (zip b.2 r.2).

Lemma eval_pars_list k j l m :
  eval_pars condf ba k j l m = eval_list (imap (λ i x, ((k, Par (j + i)), Some x.1, x.2)) l) m.
Proof.
  revert j m. induction l as [|[ix r] l IH]; intros j m; [done|].
  cbn [eval_pars]. rewrite imap_cons. cbn [eval_list fst snd]. rewrite Nat.add_0_r.
  destruct (eval_rif _ _ _ _ _ _) as [[m1 evs] [e|b]]; [done|].
  rewrite IH. erewrite (imap_ext _ (_ ∘ S)); [reflexivity|].
  intros i x _. simpl. by rewrite Nat.add_succ_r.
Qed.
Lemma eval_batch_list k b r m :
  eval_batch condf ba k b r m =
  let '(m, evs, c) := eval_list (jobs k b r) m in
  (m, evs, match c with inl e => inl e | inr [] => inl RPanic | inr (b :: bs) => inr (b, bs) end).
Proof.
  unfold eval_batch, jobs. cbn [eval_list].
  destruct (eval_rif _ _ _ _ _ _) as [[m1 evs] [e|b0]]; [done|].
  rewrite eval_pars_list. simpl.
  destruct (eval_list _ m1) as [[m2 evs'] [e|bs]]; done.
Qed.

Record evals (l : list (task * option nat * option nat)) (evs : list (event task))
    (c : rerr E + list bool) : Prop := {
  ev_in : ∀ ev, ev ∈ evs → ∃ t nm ci cd, (t, nm, Some ci) ∈ l ∧ ba_sys_rif ba !! ci = Some cd ∧
    ((∃ m b, ev = EvCond t m b ∧ (ceval condf cd m).2 = inr b) ∨
     (∃ m e, ev = EvCondErr t m e ∧ (ceval condf cd m).2 = inl e ∧
        c = inl match nm with Some i => RSystem i e | None => RPanic end));
  ev_nodup : NoDup (map (λ x, x.1.1) l) → NoDup (conds evs);
  ev_ok : ∀ bs, c = inr bs → Forall2 (λ x b, match x.2 with None => b = true
     | Some _ => ∃ m, EvCond x.1.1 m b ∈ evs end) l bs;
  ev_err : ∀ e, c = inl e →
    (∃ t nm ci m e', (t, nm, Some ci) ∈ l ∧ EvCondErr t m e' ∈ evs ∧
       e = match nm with Some i => RSystem i e' | None => RPanic end) ∨
    (e = RPanic ∧ ∃ t nm ci, (t, nm, Some ci) ∈ l ∧ ba_sys_rif ba !! ci = None)
}.

Lemma eval_list_spec l m m' evs c : eval_list l m = (m', evs, c) → evals l evs c.
Proof.
  revert m m' evs c. induction l as [|[[t nm] r] l IH]; intros m m' evs c.
  { intros [= <- <- <-]. constructor.
    - intros ev H. by apply elem_of_nil in H.
    - intros _. apply NoDup_nil_2.
    - intros bs [= <-]. constructor.
    - done. }
  cbn [eval_list]. unfold eval_rif. destruct r as [ci|].
  2: { destruct (eval_list l m) as [[m2 evs'] c'] eqn:E1. intros [= <- <- <-].
    destruct (IH _ _ _ _ E1) as [I1 I2 I3 I4]. constructor.
    - intros ev Hev. destruct (I1 ev Hev) as (t0 & nm0 & ci & cd & H1 & H2 & H3).
      exists t0, nm0, ci, cd. split_and!; [by right|done|].
      destruct H3 as [H3|(m0 & e & H3 & H4 & ->)]; [by left|]. right. eauto.
    - intros Hnd. cbn in Hnd. apply NoDup_cons in Hnd as [_ Hnd]. by apply I2.
    - intros bs Hbs. destruct c' as [e|bs']; [done|]. injection Hbs as <-.
      constructor; [done|]. by apply I3.
    - intros e He. destruct c' as [e'|bs']; [|done]. injection He as ->.
      destruct (I4 e eq_refl) as [(t0 & nm0 & ci & m0 & e' & H1 & H2 & H3)|(H1 & t0 & nm0 & ci & H2 & H3)].
      + left. exists t0, nm0, ci, m0, e'. split_and!; [by right|done..].
      + right. split; [done|]. exists t0, nm0, ci. split; [by right|done]. }
  destruct (ba_sys_rif ba !! ci) as [cd|] eqn:Ecd.
  2: { intros [= <- <- <-]. constructor.
    - intros ev H. by apply elem_of_nil in H.
    - intros _. apply NoDup_nil_2.
    - done.
    - intros e [= <-]. right. split; [done|]. exists t, nm, ci. split; [by left|done]. }
  destruct (ceval condf cd m) as [m1 [e|b]] eqn:Ece.
  { intros [= <- <- <-]. constructor.
    - intros ev H%elem_of_list_singleton. subst ev. exists t, nm, ci, cd. split_and!; [by left|done|].
      right. exists m, e. split_and!; [done|by rewrite Ece|done].
    - intros _. apply NoDup_singleton.
    - done.
    - intros e0 [= <-]. left. exists t, nm, ci, m, e. split_and!; [by left|by left|done]. }
  destruct (eval_list l m1) as [[m2 evs'] c'] eqn:E1. intros [= <- <- <-].
  destruct (IH _ _ _ _ E1) as [I1 I2 I3 I4]. constructor.
  - intros ev Hev. apply elem_of_cons in Hev as [-> |Hev].
    + exists t, nm, ci, cd. split_and!; [by left|done|]. left. exists m, b. by rewrite Ece.
    + destruct (I1 ev Hev) as (t0 & nm0 & ci0 & cd0 & H1 & H2 & H3).
      exists t0, nm0, ci0, cd0. split_and!; [by right|done|].
      destruct H3 as [H3|(m0 & e & H3 & H4 & ->)]; [by left|]. right. eauto.
  - intros Hnd. cbn in Hnd. apply NoDup_cons in Hnd as [Hni Hnd].
    cbn [app]. apply NoDup_cons. split; [|by apply I2].
    intros Hin. apply Hni.
    assert (∃ ev, ev ∈ evs' ∧ ev_task ev = t) as (ev & Hev & Hte).
    { apply elem_of_conds in Hin as [(m0 & b0 & H)|(m0 & b0 & H)]; eauto. }
    destruct (I1 ev Hev) as (t0 & nm0 & ci0 & cd0 & H1 & H2 & H3).
    apply elem_of_list_In, in_map_iff. exists (t0, nm0, Some ci0). cbn.
    rewrite <-elem_of_list_In. split; [|done]. rewrite <-Hte.
    by destruct H3 as [(?&?& -> &_)|(?&?& -> &_)].
  - intros bs Hbs. destruct c' as [e|bs']; [done|]. injection Hbs as <-.
    constructor; [cbn; exists m; by left|].
    eapply Forall2_impl; [by apply I3|]. intros [[t0 nm0] [ci0|]] b0; cbn; [|done].
    intros [m0 H]. exists m0. by right.
  - intros e He. destruct c' as [e'|bs']; [|done]. injection He as ->.
    destruct (I4 e eq_refl) as [(t0 & nm0 & ci0 & m0 & e' & H1 & H2 & H3)|(H1 & t0 & nm0 & ci0 & H2 & H3)].
    + left. exists t0, nm0, ci0, m0, e'. split_and!; [by right|by right|done].
    + right. split; [done|]. exists t0, nm0, ci0. split; [by right|done].
Qed.
Lemma evals_no_start l evs c : evals l evs c → starts evs = [] ∧ ends evs = [].
Proof.
  intros H. split.
  - destruct (starts evs) as [|t ts] eqn:Es; [done|]. exfalso.
    assert (t ∈ starts evs) as [f Hf]%elem_of_starts by (rewrite Es; by left).
    destruct (ev_in _ _ _ H _ Hf) as (?&?&?&?&_&_&[(?&?&?&_)|(?&?&?&_)]); done.
  - destruct (ends evs) as [|t ts] eqn:Es; [done|]. exfalso.
    assert (t ∈ ends evs) as [f Hf]%elem_of_ends by (rewrite Es; by left).
    destruct (ev_in _ _ _ H _ Hf) as (?&?&?&?&_&_&[(?&?&?&_)|(?&?&?&_)]); done.
Qed.
End conds.

(** * The slots of a batch *)

Definition job (b : option nat * list nat) (r : option nat * list (option nat)) (sl : slot) :
    option (nat * option nat) :=
  match sl with
  | Sgl => (λ i, (i, r.1)) <$> b.1
  | Par j => zip b.2 r.2 !! j
  end.

Lemma jobs_elem k b r t nm c :
  (t, nm, c) ∈ jobs k b r ↔
  (t = (k, Sgl) ∧ nm = b.1 ∧ c = r.1) ∨
  (∃ j i, t = (k, Par j) ∧ nm = Some i ∧ zip b.2 r.2 !! j = Some (i, c)).
Proof.
  unfold jobs. rewrite elem_of_cons. split.
  - intros [[= -> -> ->]|H]; [by left|]. right.
    apply elem_of_lookup_imap in H as (j & [i c'] & [= -> -> ->] & H). eauto.
  - intros [(-> & -> & ->)|(j & i & -> & -> & H)]; [by left|]. right.
    apply elem_of_lookup_imap. by exists j, (i, c).
Qed.
Lemma fst_imap {A} (l : list A) n :
  map fst (imap (λ j x, (n + j, x)) l) = seq n (length l).
Proof.
  revert n. induction l as [|x l IH]; intros n; [done|].
  rewrite imap_cons. simpl. rewrite Nat.add_0_r. f_equal.
  rewrite <-(IH (S n)). f_equal. apply imap_ext. intros i y _. simpl. by rewrite Nat.add_succ_r.
Qed.
Lemma nodup_jobs k b r : NoDup (map (λ x, x.1.1) (jobs k b r)).
Proof.
  unfold jobs. cbn [map fst snd]. apply NoDup_cons. split.
  - intros H. apply elem_of_list_In, in_map_iff in H as (x & Hx & H).
    apply elem_of_list_In, elem_of_lookup_imap in H as (j & y & -> & _). done.
  - apply NoDup_alt. intros i j x Hi Hj.
    rewrite list_lookup_fmap, list_lookup_imap in Hi, Hj.
    destruct (zip b.2 r.2 !! i), (zip b.2 r.2 !! j); try done.
    cbn in Hi, Hj. congruence.
Qed.

Definition tagged {A} (n : nat) (l : list A) : list (nat * A) := imap (λ j x, (n + j, x)) l.

Lemma pool_tasks_elem b f start sl ix :
  (sl, ix) ∈ pool_tasks b f start ↔
  ∃ j, sl = Par j ∧ start ≤ j ∧ b.2 !! j = Some ix ∧ f.2 !! j = Some true.
Proof.
  unfold pool_tasks. rewrite elem_of_list_omap. split.
  - intros ([j [i fl]] & Hin & Heq). cbn in Heq. destruct fl; [|done]. injection Heq as <- <-.
    exists j. apply elem_of_list_lookup in Hin as [a Ha].
    rewrite lookup_drop, list_lookup_imap in Ha.
    destruct (zip b.2 f.2 !! (start + a)) as [p|] eqn:Ez; [|done].
    injection Ha as <- ->. apply lookup_zip_with_Some in Ez as (x & y & [= -> ->] & H1 & H2).
    split_and!; [done|lia|done|done].
  - intros (j & -> & Hle & H1 & H2). exists (j, (ix, true)). split; [|done].
    apply elem_of_list_lookup. exists (j - start). rewrite lookup_drop, list_lookup_imap.
    replace (start + (j - start)) with j by lia.
    assert (zip b.2 f.2 !! j = Some (ix, true)) as ->; [|done].
    apply lookup_zip_with_Some. eauto.
Qed.
Lemma pool_tasks_nodup b f start : NoDup (pool_tasks b f start).*1.
Proof.
  unfold pool_tasks. generalize (zip b.2 f.2). intros l.
  assert (H : NoDup (drop start (imap (λ j x, (j, x)) l)).*1).
  { rewrite fmap_drop. apply NoDup_alt. intros i j x. rewrite !lookup_drop, !list_lookup_fmap, !list_lookup_imap.
    destruct (l !! (start + i)), (l !! (start + j)); try done. cbn. intros [= <-] [= H]. lia. }
  revert H. generalize (drop start (imap (λ j x, (j, x)) l)). clear l start.
  intros l. induction l as [|[j [i fl]] l IH]; intros Hnd; [apply NoDup_nil_2|].
  cbn in Hnd. apply NoDup_cons in Hnd as [Hni Hnd]. cbn.
  destruct fl; [|by apply IH]. cbn. apply NoDup_cons. split; [|by apply IH].
  intros Hin. apply Hni. apply elem_of_list_fmap in Hin as ([sl i'] & Heq & Hin). cbn in Heq. subst sl.
  apply elem_of_list_omap in Hin as ([j' [i'' fl']] & Hin & Heq). cbn in Heq.
  destruct fl'; [|done]. injection Heq as -> ->. apply elem_of_list_fmap. by exists (j, (i', true)).
Qed.
(** Exactly the systems whose condition holds are run. *)
Lemma batch_tasks_elem b f sl ix :
  (sl, ix) ∈ batch_tasks b f ↔
  (sl = Sgl ∧ b.1 = Some ix ∧ f.1 = true) ∨
  (∃ j, sl = Par j ∧ b.2 !! j = Some ix ∧ f.2 !! j = Some true).
Proof.
  unfold batch_tasks, own_task. destruct (if f.1 then b.1 else None) as [i0|] eqn:E1.
  - rewrite ol_some, elem_of_app, elem_of_list_singleton, pool_tasks_elem.
    assert (f.1 = true ∧ b.1 = Some i0) as [Hf Hb] by (by destruct (f.1)).
    rewrite Hf, Hb. split.
    + intros [[= -> ->]|(j & -> & _ & H1 & H2)]; [by left|right; eauto].
    + intros [(-> & [= ->] & _)|(j & -> & H1 & H2)]; [by left|]. right. exists j. split_and!; [done|lia|done|done].
  - assert (Hno : ∀ i, b.1 = Some i → f.1 = true → False).
    { intros i Hi Hf. by rewrite Hi, Hf in E1. }
    assert (Hcases : ∀ own start, (match b.2, f.2 with
      | i :: _, true :: _ => (Some (Par 0, i), 1) | _, _ => (None, 0) end) = (own, start) →
      ((sl, ix) ∈ option_list own ++ pool_tasks b f start ↔
       ∃ j, sl = Par j ∧ b.2 !! j = Some ix ∧ f.2 !! j = Some true)).
    { intros own start Heq. rewrite elem_of_app, pool_tasks_elem.
      destruct b as [b0 [|i bs]]; cbn [snd] in *.
      { injection Heq as <- <-. rewrite ol_none, elem_of_nil.
        split; [intros [[]|(j & ? & ? & ? & ?)]; done|intros (j & _ & ? & _); done]. }
      destruct f as [f0 [|[] fs]]; cbn [snd] in *; injection Heq as <- <-; rewrite ?ol_some, ?ol_none.
      - rewrite elem_of_nil. split; [intros [[]|(j & ? & ? & ? & ?)]; done|intros (j & _ & _ & ?); done].
      - rewrite elem_of_list_singleton. split.
        + intros [[= -> ->]|(j & -> & Hle & H1 & H2)]; [by exists 0|eauto].
        + intros (j & -> & H1 & H2). destruct j as [|j].
          * left. cbn in H1. by injection H1 as ->.
          * right. exists (S j). split_and!; [done|lia|done|done].
      - rewrite elem_of_nil. split.
        + intros [[]|(j & -> & Hle & H1 & H2)]. eauto.
        + intros (j & -> & H1 & H2). right. exists j. split_and!; [done|lia|done|done]. }
    destruct (match b.2, f.2 with
      | i :: _, true :: _ => (Some (Par 0, i), 1) | _, _ => (None, 0) end) as [own start] eqn:Eo.
    rewrite (Hcases _ _ eq_refl). split; [eauto|].
    intros [(-> & H1 & H2)|H]; [|done]. exfalso. eauto.
Qed.
Lemma batch_tasks_nodup b f : NoDup (batch_tasks b f).*1.
Proof.
  unfold batch_tasks. destruct (own_task b f) as [own start] eqn:Eo.
  rewrite fmap_app. apply NoDup_app. split_and!; [|..|apply pool_tasks_nodup].
  - destruct own; [apply NoDup_singleton|apply NoDup_nil_2].
  - intros sl Hsl Hin. apply elem_of_list_fmap in Hin as ([sl' ix] & -> & Hin).
    apply pool_tasks_elem in Hin as (j & -> & Hle & H1 & H2). cbn in Hsl.
    unfold own_task in Eo. destruct (if f.1 then b.1 else None).
    { injection Eo as <- <-. cbn in Hsl. by apply elem_of_list_singleton in Hsl. }
    destruct (b.2) as [|i bs]; [injection Eo as <- <-; by apply elem_of_nil in Hsl|].
    destruct (f.2) as [|[] fs]; injection Eo as <- <-; cbn in Hsl; try by apply elem_of_nil in Hsl.
    apply elem_of_list_singleton in Hsl. injection Hsl as ->. lia.
Qed.
Lemma own_task_in b f x : (own_task b f).1 = Some x → x ∈ batch_tasks b f.
Proof.
  unfold batch_tasks. destruct (own_task b f) as [own start]. cbn. intros ->. by left.
Qed.

(** * The steps of a batch *)

Record bfacts (fs : list N) (k : nat) (own : option slot) (c1 : bcfg V E) (tr : list (event task))
    (c2 : bcfg V E) (st skipped : list (slot * nat)) (fin : list (slot * nat * option E)) : Prop := {
  bf_pend : b_pend c1 ≡ₚ st ++ skipped ++ b_pend c2;
  bf_done : b_done c2 = b_done c1 ++ fin;
  bf_run : map fst (b_run c1) ++ st ≡ₚ map fst (b_run c2) ++ map fst fin;
  bf_start : ∀ t f, EvStart t f ∈ tr ↔ ∃ x, x ∈ st ∧ t = (k, x.1) ∧ fs !! x.2 = Some f;
  bf_starts : starts tr = map (λ x, (k, x.1)) st;
  bf_end : ∀ t r, EvEnd t r ∈ tr ↔ ∃ x, (x, r) ∈ fin ∧ t = (k, x.1);
  bf_ends : ends tr = map (λ x, (k, x.1.1)) fin;
  bf_conds : conds tr = [];
  bf_skip : skipped ≠ [] → ∃ x e, (x, Some e) ∈ b_done c2 ∧ own ≠ Some x.1;
  bf_skip_own : ∀ x, x ∈ skipped → own ≠ Some x.1
}.

Lemma bsteps_facts fs k own c1 tr c2 :
  bsteps sysf fs k own c1 tr c2 → ∃ st skipped fin, bfacts fs k own c1 tr c2 st skipped fin.
Proof.
  intros H. induction H as [c|c1 tr1 c2 tr2 c3 H1 _ (st & sk & fin & IH)].
  { exists [], [], []. constructor; try done.
    - by rewrite app_nil_r.
    - intros t f. rewrite elem_of_nil. split; [done|]. intros (x & Hx & _). by apply elem_of_nil in Hx.
    - intros t f. rewrite elem_of_nil. split; [done|]. intros (x & Hx & _). by apply elem_of_nil in Hx.
    - intros x Hx. by apply elem_of_nil in Hx. }
  destruct IH as [I1 I2 I3 I4 I5 I6 I7 I8 I9 I10].
  destruct H1 as [m p1 p2 sl ix f run done0 Hf|m pend r1 r2 x s kont done0|m pend r1 r2 x s v p done0|
    m pend r1 r2 x r done0|m p1 p2 sl ix run done0 x e Hs1 Hs2 Hs3]; cbn [b_pend b_run b_done b_store] in *.
  - exists ((sl, ix) :: st), sk, fin. constructor; cbn [b_pend b_run b_done b_store].
    + rewrite <-Permutation_middle. by rewrite I1.
    + done.
    + rewrite map_app in I3. cbn in I3. rewrite <-I3. rewrite <-app_assoc. done.
    + intros t f'. cbn [app]. rewrite elem_of_cons, I4. split.
      * intros [[= -> ->]|(x & Hx & -> & Hfx)]; [exists (sl, ix)|exists x]; split_and!; try done; [by left|by right].
      * intros (x & Hx & -> & Hfx). apply elem_of_cons in Hx as [-> |Hx]; [left|right; eauto].
        cbn in *. congruence.
    + by rewrite starts_app, I5.
    + intros t r. cbn [app]. rewrite elem_of_cons, I6. split; [by intros [?|?]|by right].
    + by rewrite ends_app, I7.
    + by rewrite conds_app, I8.
    + done.
    + done.
  - exists st, sk, fin. constructor; cbn [b_pend b_run b_done b_store]; try done.
    rewrite map_app in *. done.
  - exists st, sk, fin. constructor; cbn [b_pend b_run b_done b_store]; try done.
    rewrite map_app in *. done.
  - exists st, sk, ((x, r) :: fin). constructor; cbn [b_pend b_run b_done b_store].
    + done.
    + by rewrite I2, <-app_assoc.
    + rewrite map_app in *. cbn [map fst app] in *. rewrite <-!Permutation_middle.
      cbn [app]. by rewrite I3.
    + intros t f. cbn [app]. rewrite elem_of_cons, I4. split; [by intros [?|?]|by right].
    + by rewrite starts_app, I5.
    + intros t r'. cbn [app]. rewrite elem_of_cons, I6. split.
      * intros [[= -> ->]|(y & Hy & ->)]; [exists x|exists y]; split; try done; [by left|by right].
      * intros (y & Hy & ->). apply elem_of_cons in Hy as [[= -> ->]|Hy]; [by left|right; eauto].
    + by rewrite ends_app, I7.
    + by rewrite conds_app, I8.
    + done.
    + done.
  - exists st, ((sl, ix) :: sk), fin. constructor; cbn [b_pend b_run b_done b_store]; try done.
    + rewrite <-Permutation_middle, I1. cbn [app]. by rewrite <-Permutation_middle.
    + intros _. exists x, e. rewrite I2. split; [|done]. apply elem_of_app. by left.
    + intros y Hy. apply elem_of_cons in Hy as [-> |Hy]; [done|by apply I10].
Qed.

(** A system ends after it started. *)
Lemma bsteps_end_after_start fs k own c1 tr c2 t r tr1 tr2 :
  bsteps sysf fs k own c1 tr c2 → tr = tr1 ++ EvEnd t r :: tr2 →
  t ∈ map (λ x, (k, x.1.1)) (b_run c1) ∨ t ∈ starts tr1.
Proof.
  intros H. revert tr1 tr2. induction H as [c|c1 tra c2 trb c3 H1 _ IH]; intros tr1 tr2 Heq.
  { by destruct tr1. }
  destruct H1 as [m p1 p2 sl ix f run done0 Hf|m pend r1 r2 x s kont done0|m pend r1 r2 x s v p done0|
    m pend r1 r2 x r0 done0|m p1 p2 sl ix run done0 x e Hs1 Hs2 Hs3]; cbn [b_pend b_run b_done b_store app] in *.
  - destruct tr1 as [|ev tr1]; [done|]. injection Heq as <- Heq.
    destruct (IH _ _ Heq) as [Hin|Hin].
    + rewrite map_app in Hin. apply elem_of_app in Hin as [Hin|Hin]; [by left|right].
      cbn in Hin. apply elem_of_list_singleton in Hin as ->. by left.
    + right. by right.
  - destruct (IH _ _ Heq) as [Hin|Hin]; [left|by right]. rewrite map_app in *. done.
  - destruct (IH _ _ Heq) as [Hin|Hin]; [left|by right]. rewrite map_app in *. done.
  - destruct tr1 as [|ev tr1].
    + injection Heq as <- <- _. left. rewrite map_app. apply elem_of_app. right. by left.
    + injection Heq as <- Heq. destruct (IH _ _ Heq) as [Hin|Hin].
      * left. rewrite map_app in *. apply elem_of_app in Hin as [Hin|Hin]; apply elem_of_app; [by left|].
        right. by right.
      * by right.
  - eauto.
Qed.
End proofs.
