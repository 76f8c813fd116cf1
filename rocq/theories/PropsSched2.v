(** Properties of workload building, continued: barriers, sequential workloads,
    requirements, validity of borrows, the default workload (C34, C35, C38, C39, C55);
    concrete cases for C29-C35, C38, C39, C55. *)
From stdpp Require Import prelude list gmap relations sorting.
From Verif Require Import Sched SchedSpec SchedProofs SchedProofs2 SchedProofs3 SchedProofs4
  PropsSched.
Local Open Scope nat_scope.

(** * C34 *)

(** Whatever is declared later: the systems present at [with_barrier] run before those that
    were not. *)
Theorem C34_barrier_separates w w' sc sc' info ba order a b :
  built w' → grows (wl_with_barrier w) w' →
  create_workload w' sc = Some (sc', inr (info, ba, order)) →
  a < length (wl_systems w) → length (wl_systems w) ≤ b → b < length (wl_systems w') →
  runs_before info order a b.
Proof.
  intros Hb Hg Hc Ha Hb1 Hb2. eapply C31_constraints_respected; [done..|].
  right. left. split; [done|]. exists (length (wl_systems w)). split_and!; [|done|done].
  apply grows_prefix in Hg as [_ Hg]. apply Hg. cbn [wl_with_barrier wl_barriers].
  apply elem_of_app. right. by left.
Qed.

(** The barriers of a workload merged into another one still separate its systems. *)
Theorem C34_merged_barrier w o w' sc sc' info ba order a b :
  built w' → grows (wl_merge w o) w' →
  create_workload w' sc = Some (sc', inr (info, ba, order)) →
  barred (wl_systems o) (wl_barriers o) a b →
  runs_before info order (length (wl_systems w) + a) (length (wl_systems w) + b).
Proof.
  intros Hb Hg Hc (Hlen & k & Hk & Hak & Hkb). eapply C31_constraints_respected; [done..|].
  apply grows_prefix in Hg as [Hl Hg]. rewrite merge_length in Hl.
  right. left. split; [lia|]. exists (k + length (wl_systems w)). split_and!; [|lia|lia].
  apply Hg. unfold wl_merge, wl_append. cbn [wl_set_systems wl_barriers wl_systems wl_propagate].
  rewrite map_length. apply elem_of_app. right. by apply (elem_of_list_fmap_1 (λ b, b + _)).
Qed.

(** * C35 *)

(** [into_sequential_workload] of a tuple: each element before the next one. *)
Theorem C35_adjacent n ws w sc sc' info ba order i wa wb a b :
  (∀ w, w ∈ ws → built w) → tuple_into_sequential (LName n) ws = Some w →
  create_workload w sc = Some (sc', inr (info, ba, order)) →
  ws !! i = Some wa → ws !! S i = Some wb →
  a < length (wl_systems wa) → b < length (wl_systems wb) →
  runs_before info order (start ws i + a) (start ws (S i) + b).
Proof.
  intros Hws Hs Hc Ha Hb Hla Hlb. eapply C31_constraints_respected; [by eapply BSeq|done|].
  left. by eapply sequential_explicit.
Qed.

(** Without empty elements: each element before all the later ones. *)
Theorem C35_all_pairs n ws w sc sc' info ba order i j wa wb a b :
  (∀ w, w ∈ ws → built w ∧ wl_systems w ≠ []) →
  tuple_into_sequential (LName n) ws = Some w →
  create_workload w sc = Some (sc', inr (info, ba, order)) →
  i < j → ws !! i = Some wa → ws !! j = Some wb →
  a < length (wl_systems wa) → b < length (wl_systems wb) →
  runs_before info order (start ws i + a) (start ws j + b).
Proof.
  intros Hws Hs Hc Hij Ha Hb Hla Hlb.
  assert (Hbw : built w) by (eapply BSeq; [|exact Hs]; intros; by apply Hws).
  destruct (create_ok _ _ _ _ _ _ Hbw Hc) as (segs & HP & _).
  revert wb b Hb Hlb. induction Hij as [|j Hij IH]; intros wb b Hb Hlb.
  - eapply C35_adjacent; [|done..]. intros; by apply Hws.
  - destruct (lookup_lt_is_Some_2 ws j) as [wm Hm]; [apply lookup_lt_Some in Hb; lia|].
    assert (Hne : 0 < length (wl_systems wm)).
    { destruct (Hws wm) as [_ H]; [by eapply elem_of_list_lookup_2|].
      destruct (wl_systems wm); [done|]. simpl. lia. }
    eapply (runs_before_trans _ _ _ _ HP).
    + by apply (IH wm 0).
    + eapply C35_adjacent; [|done..]. intros; by apply Hws.
Qed.

(** * C38 *)

Lemma user_tag s t : wf_wsys s → user_label t → t ∈ w_tags s ++ [LUid (w_uid s)] ↔ t ∈ w_tags s.
Proof.
  intros _ Ht. rewrite elem_of_app, elem_of_list_singleton. split; [|by left].
  intros [?| ->]; [done|]. by destruct (Ht (w_uid s)).
Qed.

Lemma unmet_not req l t : t ∈ req → t ∉ unmet req l → ∃ s, s ∈ l ∧ t ∈ p_tags s.
Proof.
  intros Ht Hn. destruct (decide (Exists (λ s, t ∈ p_tags s) l)) as [H|H].
  - apply Exists_exists in H as (s & Hs & H). eauto.
  - exfalso. apply Hn, unmet_elem. split; [done|]. intros s Hs Hts. apply H, Exists_exists. eauto.
Qed.

Section requirements.
  Context (w : workload) (f : fns).
  Hypothesis Hb : built w.
  Let ss := wl_systems w.
  Let bars := wl_barriers w.
  Let ps := placed ss bars f.

  Lemma req_hard_lt i s j : ps !! i = Some s → j ∈ p_hard s → j < length ps.
  Proof. intros Hs Hj. eapply placed_dep_lt; [by apply built_wf|exact Hs|by left]. Qed.

  Lemma hard_link_linked a b : hard_link ps a b ↔ linked ss bars a b.
  Proof.
    pose proof (built_wf w Hb) as Hwf. unfold hard_link, hard_of.
    destruct (ss !! b) as [x|] eqn:Hx.
    - destruct (placed_lookup ss bars f (Hsys w Hwf) b x Hx) as
        (s & Hs & _ & _ & _ & _ & _ & _ & _ & Hh & _).
      fold ps in Hs. rewrite Hs, Hh. unfold linked. split.
      + intros [(k & ? & ? & ?)|[(Ho & Hlt & (o & Ho1 & Ho2 & Ho3) & Hn)|He]].
        * right. left. split; [by apply lookup_lt_Some in Hx|eauto].
        * right. right. split_and!.
          -- split; [done|]. by exists o, x.
          -- exists o, x. split_and!; [done|done|]. by apply clash_sym.
          -- intros k H1 H2 (_ & sk & sb & Hsk & Hsb & Hok & _) (sk' & sb' & Hsk' & Hsb' & Hc).
             rewrite Hsk in Hsk'. injection Hsk' as <-. rewrite Hx in Hsb'. injection Hsb' as <-.
             apply (Hn k H1 H2). exists sk. split_and!; [done..|]. by apply clash_sym.
        * by left.
      + intros [He|[(_ & k & ? & ? & ?)|(Hd & Hc & Hn)]].
        * by right; right.
        * left. eauto.
        * right. left. destruct Hd as (Hlt & sa & sb & Hsa & Hsb & Hoa & Hob).
          rewrite Hx in Hsb. injection Hsb as <-. split; [done|]. split_and!; [done| |].
          -- exists sa. split_and!; [done..|]. destruct Hc as (sa' & sb' & Ha' & Hb' & Hc).
             rewrite Hsa in Ha'. injection Ha' as <-. rewrite Hx in Hb'. injection Hb' as <-.
             by apply clash_sym.
          -- intros k H1 H2 (o & Ho1 & Ho2 & Ho3). apply (Hn k H1 H2).
             ++ split; [done|]. by exists o, x.
             ++ exists o, x. split_and!; [done..|]. by apply clash_sym.
    - assert (ps !! b = None) as ->.
      { apply lookup_ge_None. unfold ps. rewrite (placed_length ss bars f (Hsys w Hwf)).
        by apply lookup_ge_None in Hx. }
      rewrite elem_of_nil. split; [done|]. apply lookup_ge_None in Hx.
      intros [(_ & sa & sb & _ & Hsb & _)|[(Hl & _)|((_ & sa & sb & _ & Hsb & _) & _)]].
      + apply lookup_lt_Some in Hsb. lia.
      + lia.
      + apply lookup_lt_Some in Hsb. lia.
  Qed.

  Lemma placed_some_tagged t (P : nat → Prop) :
    user_label t →
    (∃ j s, ps !! j = Some s ∧ t ∈ p_tags s ∧ P j) ↔ some_tagged ss t P.
  Proof.
    intros Ht. pose proof (built_wf w Hb) as Hwf. split.
    - intros (j & s & Hs & Hts & HP). destruct (placed_inv w f Hwf j s Hs) as [x Hx].
      destruct (placed_lookup ss bars f (Hsys w Hwf) j x Hx) as (s' & Hs' & _ & T & _).
      fold ps in Hs'. rewrite Hs in Hs'. injection Hs' as <-.
      exists j, x. split_and!; [done| |done]. rewrite T in Hts. apply user_tag in Hts; [done| |done].
      pose proof (Hsys w Hwf) as HF. rewrite Forall_lookup in HF. by apply (HF j).
    - intros (j & x & Hx & Htx & HP).
      destruct (placed_lookup ss bars f (Hsys w Hwf) j x Hx) as (s' & Hs' & _ & T & _).
      exists j, s'. split_and!; [done| |done]. rewrite T. apply elem_of_app. by left.
  Qed.

  Lemma req_user i s t : ss !! i = Some s →
    t ∈ w_req_in s ∨ t ∈ w_req_before s ∨ t ∈ w_req_after s → user_label t.
  Proof.
    intros Hs Ht. pose proof (Hsys w (built_wf w Hb)) as HF. rewrite Forall_lookup in HF.
    destruct (HF i s Hs) as (_ & _ & _ & _ & R1 & R2 & R3).
    rewrite Forall_forall in R1, R2, R3. destruct Ht as [?|[?|?]]; auto.
  Qed.

  (** The requirement check of [require_before], in terms of the declarations. *)
  Lemma unmet_before i s t :
    ss !! i = Some s → t ∈ w_req_before s →
    (t ∈ unmet (w_req_before s) (lookups ps (systems_before ps i)) ↔
     ¬ some_tagged ss t (λ j, tc (linked ss bars) j i)) ∧
    (t ∉ unmet (w_req_before s) (lookups ps (systems_before ps i)) →
     some_tagged ss t (λ j, tc (linked ss bars) j i)).
  Proof.
    intros Hs Ht. assert (Hu : user_label t) by (eapply req_user; eauto).
    rewrite <-(placed_some_tagged t (λ j, tc (linked ss bars) j i) Hu).
    assert (Hl : ∀ j, j ∈ systems_before ps i ↔ tc (linked ss bars) j i).
    { intros j. rewrite (systems_before_elem ps req_hard_lt). split; apply tc_mono.
      - intros a b H. apply tc_once. by apply hard_link_linked.
      - intros a b H. apply tc_once. by apply hard_link_linked. }
    split; [rewrite unmet_elem; split|].
    - intros [_ H] (j & x & Hx & Htx & Hj). apply (H x); [|done].
      apply lookups_elem. exists j. split; [by apply Hl|done].
    - intros H. split; [done|]. intros x Hx Htx. apply lookups_elem in Hx as (j & Hj & Hx).
      apply H. exists j, x. split_and!; [done..|]. by apply Hl.
    - intros H. apply unmet_not in H as (x & Hx & Htx); [|done].
      apply lookups_elem in Hx as (j & Hj & Hx). exists j, x. split_and!; [done..|]. by apply Hl.
  Qed.

  (** The systems counted by the check of [require_after]: those that come after, and the
      system itself if there is one. *)
  Lemma systems_after_linked i x :
    x ∈ systems_after ps i ↔
    (∃ j, i ≠ j ∧ linked ss bars i j) ∧
    rtc (λ a b, a ≠ b ∧ linked ss bars a b) i x.
  Proof.
    rewrite (systems_after_elem ps req_hard_lt).
    assert (Hr : rtc (λ a b, a ≠ b ∧ hard_link ps a b) i x ↔
                 rtc (λ a b, a ≠ b ∧ linked ss bars a b) i x).
    { split; induction 1 as [a|a b c [Hn H] _ IH]; [by constructor| |by constructor|];
        (eapply rtc_l; [|exact IH]; split; [done|]; by apply hard_link_linked). }
    rewrite Hr. split; intros [(j & Hn & Hj) ?]; (split; [|done]); exists j; (split; [done|]);
      by apply hard_link_linked.
  Qed.
  Lemma unmet_after i s t :
    ss !! i = Some s → t ∈ w_req_after s →
    (t ∈ unmet (w_req_after s) (lookups ps (systems_after ps i)) ↔
     ¬ some_tagged ss t (λ j, (∃ k, i ≠ k ∧ linked ss bars i k) ∧
                             rtc (λ a b, a ≠ b ∧ linked ss bars a b) i j)) ∧
    (t ∉ unmet (w_req_after s) (lookups ps (systems_after ps i)) →
     some_tagged ss t (λ j, (∃ k, i ≠ k ∧ linked ss bars i k) ∧
                             rtc (λ a b, a ≠ b ∧ linked ss bars a b) i j)).
  Proof.
    intros Hs Ht. assert (Hu : user_label t) by (eapply req_user; eauto).
    rewrite <-(placed_some_tagged t (λ j, (∃ k, i ≠ k ∧ linked ss bars i k) ∧
                             rtc (λ a b, a ≠ b ∧ linked ss bars a b) i j) Hu).
    split; [rewrite unmet_elem; split|].
    - intros [_ H] (j & x & Hx & Htx & Hj). apply (H x); [|done].
      apply lookups_elem. exists j. split; [by apply systems_after_linked|done].
    - intros H. split; [done|]. intros x Hx Htx. apply lookups_elem in Hx as (j & Hj & Hx).
      apply H. exists j, x. split; [done|]. split; [done|]. by apply systems_after_linked.
    - intros H. apply unmet_not in H as (x & Hx & Htx); [|done].
      apply lookups_elem in Hx as (j & Hj & Hx). exists j, x.
      split; [done|]. split; [done|]. by apply systems_after_linked.
  Qed.
End requirements.

(** [require_in_workload]: rejected exactly when some required tag is on no system. *)
Theorem C38_require_in w sc sc' r :
  built w → sc_workloads sc !! wl_name w = None → create_workload w sc = Some (sc', r) →
  (∃ i l, r = inl (EMissingIn i l)) ↔
  (∃ i s t, wl_systems w !! i = Some s ∧ t ∈ w_req_in s ∧
            ¬ some_tagged (wl_systems w) t (λ _, True)).
Proof.
  intros Hb Hn. pose proof (built_wf w Hb) as Hwf. unfold create_workload. rewrite Hn.
  destruct (insert_systems _ _) as [f ps] eqn:Ei.
  destruct (insert_systems_lookup _ _ _ _ Ei) as [Hlen Hil].
  assert (Hinv : ∀ i p, ps !! i = Some p → ∃ s, wl_systems w !! i = Some s).
  { intros i p Hp. apply lookup_lt_is_Some. rewrite <-Hlen. by apply lookup_lt_Some in Hp. }
  assert (Hun : ∀ i s t, wl_systems w !! i = Some s → t ∈ w_req_in s →
    t ∈ unmet (w_req_in s) ps ↔ ¬ some_tagged (wl_systems w) t (λ _, True)).
  { intros i s t Hs Ht.
    assert (Hu : user_label t) by (eapply req_user; eauto). rewrite unmet_elem. split.
    - intros [_ H] (j & x & Hx & Htx & _). destruct (Hil j x Hx) as (p & Hp & _ & T & _).
      apply (H p); [by eapply elem_of_list_lookup_2|]. rewrite T. apply elem_of_app. by left.
    - intros H. split; [done|]. intros p Hp Htp. apply elem_of_list_lookup in Hp as [j Hp].
      destruct (Hinv j p Hp) as [x Hx]. destruct (Hil j x Hx) as (p' & Hp' & _ & T & _).
      rewrite Hp in Hp'. injection Hp' as <-. apply H. exists j, x. split_and!; [done| |done].
      rewrite T in Htp. apply user_tag in Htp; [done| |done].
      pose proof (Hsys w Hwf) as HF. rewrite Forall_lookup in HF. by apply (HF j). }
  destruct (check_in ps) as [[i l]|] eqn:E1.
  - intros [= <- <-]. split; [|eauto]. intros _. unfold check_in in E1.
    apply first_unmet_some in E1 as (E & Hne & _ & Hi).
    destruct (ps !! i) as [p|] eqn:Ep; [|by subst]. destruct (Hinv i p Ep) as [s Hs].
    destruct (Hil i s Hs) as (p' & Hp' & R). rewrite Ep in Hp'. injection Hp' as <-.
    assert (p_req_in p = w_req_in s) as Er by (by destruct R as (_&_&_&_&_&_&_&?&_)).
    rewrite Er in E. destruct l as [|t l]; [done|].
    assert (Ht : t ∈ unmet (w_req_in s) ps) by (rewrite E; by left).
    pose proof (proj1 (proj1 (unmet_elem _ _ _) Ht)) as Hreq.
    exists i, s, t. split_and!; [done..|]. by apply (Hun i s t).
  - intros Hc. split.
    + intros (i & l & ->). exfalso.
      destruct (check_before _) as [[]|]; [done|]. destruct (check_after _) as [[]|]; [done|].
      destruct (order_systems_spec (constrain ps (wl_barriers w)))
        with (ba := ba_new (wl_run_if w)) as [(? & ? & ? & ? & Ho & _)|(? & Ho & _)].
      * intros i' s. pose proof (placed_tag w (sc_fns sc) Hwf i' s) as H. unfold placed in H.
        by rewrite Ei in H.
      * intros i' s j. pose proof (placed_dep_lt w (sc_fns sc) Hwf i' s j) as H. unfold placed in H.
        by rewrite Ei in H.
      * by rewrite Ho in Hc.
      * by rewrite Ho in Hc.
    + intros (i & s & t & Hs & Ht & Hno). exfalso. unfold check_in in E1.
      apply lookup_lt_Some in Hs as Hi.
      pose proof (proj1 (first_unmet_none _ _ _) E1 i) as E. destruct (Hil i s Hs) as (p & Hp & R).
      cbv beta in E. rewrite Hp in E.
      assert (p_req_in p = w_req_in s) as Er by (by destruct R as (_&_&_&_&_&_&_&?&_)).
      rewrite Er in E. apply (Hun i s t Hs Ht) in Hno. rewrite E in Hno by lia.
      by apply elem_of_nil in Hno.
Qed.

Lemma linked_must ss bars a b : linked ss bars a b → must_precede ss bars a b.
Proof.
  intros [?|[?|(? & ? & _)]]; [by left|by right; left|]. right. right. done.
Qed.

(** [require_before]: a workload that is built has, for each required tag, a system with it
    that runs before. *)
Theorem C38_require_before_sound w sc sc' info ba order i s t :
  built w → create_workload w sc = Some (sc', inr (info, ba, order)) →
  wl_systems w !! i = Some s → t ∈ w_req_before s →
  some_tagged (wl_systems w) t (λ j, runs_before info order j i).
Proof.
  intros Hb Hc Hs Ht. pose proof (built_wf w Hb) as Hwf.
  destruct (create_ok _ _ _ _ _ _ Hb Hc) as (segs & HP & _ & _ & _ & Hcb & _).
  destruct (unmet_before w (sc_fns sc) Hb i s t Hs Ht) as [_ Hu].
  destruct Hu as (j & sj & Hsj & Htj & Hj).
  { pose proof (proj1 (first_unmet_none _ _ _) Hcb i) as E.
    destruct (placed_lookup _ (wl_barriers w) (sc_fns sc) (Hsys w Hwf) i s Hs) as
      (p & Hp & _ & _ & _ & R & _).
    cbv beta in E. rewrite Hp, R in E. rewrite E; [apply not_elem_of_nil|lia|]. by apply lookup_lt_Some in Hp. }
  exists j, sj. split_and!; [done..|].
  assert (∀ a b, linked (wl_systems w) (wl_barriers w) a b → runs_before info order a b) as Hl.
  { intros a b Hab. eapply C31_constraints_respected; [done..|]. by apply linked_must. }
  clear -Hj Hl HP. induction Hj as [a b Hab|a b c Hab _ IH]; [by apply Hl|].
  eapply (runs_before_trans _ _ _ _ HP); [by apply Hl|done].
Qed.

(** A workload is rejected for a missing "before" only if no system with that tag is linked
    to the requiring system by explicit constraints, barriers and nearest conflicts.
    Missing: conflicts that are not with the nearest conflicting system. *)
Theorem C38_require_before_complete_partial w sc sc' i l :
  built w → create_workload w sc = Some (sc', inl (EMissingBefore i l)) →
  l ≠ [] ∧ ∃ s, wl_systems w !! i = Some s ∧
  ∀ t, t ∈ l → t ∈ w_req_before s ∧
    ¬ some_tagged (wl_systems w) t (λ j, tc (linked (wl_systems w) (wl_barriers w)) j i).
Proof.
  intros Hb. pose proof (built_wf w Hb) as Hwf. unfold create_workload.
  pose proof (unmet_before w (sc_fns sc) Hb) as Hun.
  pose proof (placed_lookup _ (wl_barriers w) (sc_fns sc) (Hsys w Hwf)) as Hpl.
  pose proof (placed_inv w (sc_fns sc) Hwf) as Hpi. unfold placed in *.
  destruct (sc_workloads sc !! wl_name w); [done|].
  destruct (insert_systems _ _) as [f ps] eqn:Ei. cbn [snd] in *.
  destruct (check_in ps) as [[]|]; [done|].
  destruct (check_before _) as [[i' l']|] eqn:E2.
  - intros [= <- <- <-]. apply first_unmet_some in E2 as (E & Hne & _ & Hi).
    destruct (constrain _ _ !! i') as [p|] eqn:Ep; [|by subst].
    destruct (Hpi i' p Ep) as [s Hs]. destruct (Hpl i' s Hs) as (p' & Hp' & _ & _ & _ & R & _).
    rewrite Ep in Hp'. injection Hp' as <-. rewrite R in E. split; [done|]. exists s. split; [done|].
    intros t Ht. rewrite <-E in Ht. pose proof (proj1 (proj1 (unmet_elem _ _ _) Ht)) as Hreq.
    split; [done|]. by apply (Hun i' s t Hs Hreq).
  - destruct (check_after _) as [[]|]; [done|].
    destruct (order_systems_spec (constrain ps (wl_barriers w)))
      with (ba := ba_new (wl_run_if w)) as [(? & ? & ? & ? & Ho & _)|(? & Ho & _)].
    + intros j s. pose proof (placed_tag w (sc_fns sc) Hwf j s) as H. unfold placed in H.
      by rewrite Ei in H.
    + intros j s k. pose proof (placed_dep_lt w (sc_fns sc) Hwf j s k) as H. unfold placed in H.
      by rewrite Ei in H.
    + by rewrite Ho.
    + by rewrite Ho.
Qed.

(** [require_after]: as for [require_before], except that the system's own tags are counted
    too.  Missing: tags the requiring system has itself. *)
Theorem C38_require_after_sound_partial w sc sc' info ba order i s t :
  built w → create_workload w sc = Some (sc', inr (info, ba, order)) →
  wl_systems w !! i = Some s → t ∈ w_req_after s → t ∉ w_tags s →
  some_tagged (wl_systems w) t (λ j, runs_before info order i j).
Proof.
  intros Hb Hc Hs Ht Hown. pose proof (built_wf w Hb) as Hwf.
  destruct (create_ok _ _ _ _ _ _ Hb Hc) as (segs & HP & _ & _ & _ & _ & Hca & _).
  destruct (unmet_after w (sc_fns sc) Hb i s t Hs Ht) as [_ Hu].
  destruct Hu as (j & sj & Hsj & Htj & _ & Hj).
  { pose proof (proj1 (first_unmet_none _ _ _) Hca i) as E.
    destruct (placed_lookup _ (wl_barriers w) (sc_fns sc) (Hsys w Hwf) i s Hs) as
      (p & Hp & _ & _ & _ & _ & R & _).
    cbv beta in E. rewrite Hp, R in E. rewrite E; [apply not_elem_of_nil|lia|]. by apply lookup_lt_Some in Hp. }
  exists j, sj. split_and!; [done..|].
  assert (∀ a b, linked (wl_systems w) (wl_barriers w) a b → runs_before info order a b) as Hl.
  { intros a b Hab. eapply C31_constraints_respected; [done..|]. by apply linked_must. }
  assert (j = i ∨ runs_before info order i j) as [->|]; [|congruence|done].
  clear -Hj Hl HP. induction Hj as [a|a b c [_ Hab] _ IH]; [by left|]. right.
  destruct IH as [->|IH]; [by apply Hl|].
  eapply (runs_before_trans _ _ _ _ HP); [by apply Hl|done].
Qed.
Theorem C38_require_after_complete_partial w sc sc' i l :
  built w → create_workload w sc = Some (sc', inl (EMissingAfter i l)) →
  l ≠ [] ∧ ∃ s, wl_systems w !! i = Some s ∧
  ∀ t, t ∈ l → t ∈ w_req_after s ∧
    ¬ some_tagged (wl_systems w) t
        (λ j, tc (λ a b, a ≠ b ∧ linked (wl_systems w) (wl_barriers w) a b) i j).
Proof.
  intros Hb. pose proof (built_wf w Hb) as Hwf. unfold create_workload.
  pose proof (unmet_after w (sc_fns sc) Hb) as Hun.
  pose proof (placed_lookup _ (wl_barriers w) (sc_fns sc) (Hsys w Hwf)) as Hpl.
  pose proof (placed_inv w (sc_fns sc) Hwf) as Hpi. unfold placed in *.
  destruct (sc_workloads sc !! wl_name w); [done|].
  destruct (insert_systems _ _) as [f ps] eqn:Ei. cbn [snd] in *.
  destruct (check_in ps) as [[]|]; [done|]. destruct (check_before _) as [[]|]; [done|].
  destruct (check_after _) as [[i' l']|] eqn:E2.
  - intros [= <- <- <-]. apply first_unmet_some in E2 as (E & Hne & _ & Hi).
    destruct (constrain _ _ !! i') as [p|] eqn:Ep; [|by subst].
    destruct (Hpi i' p Ep) as [s Hs]. destruct (Hpl i' s Hs) as (p' & Hp' & _ & _ & _ & _ & R & _).
    rewrite Ep in Hp'. injection Hp' as <-. rewrite R in E. split; [done|]. exists s. split; [done|].
    intros t Ht. rewrite <-E in Ht. pose proof (proj1 (proj1 (unmet_elem _ _ _) Ht)) as Hreq.
    split; [done|]. apply (Hun i' s t Hs Hreq) in Ht. intros (j & sj & Hsj & Htj & Hj).
    apply Ht. exists j, sj. split; [done|]. split; [done|]. split.
    + clear -Hj. destruct Hj as [a b H|a b c H _]; eauto.
    + by apply tc_rtc.
  - destruct (order_systems_spec (constrain ps (wl_barriers w)))
      with (ba := ba_new (wl_run_if w)) as [(? & ? & ? & ? & Ho & _)|(? & Ho & _)].
    + intros j s. pose proof (placed_tag w (sc_fns sc) Hwf j s) as H. unfold placed in H.
      by rewrite Ei in H.
    + intros j s k. pose proof (placed_dep_lt w (sc_fns sc) Hwf j s k) as H. unfold placed in H.
      by rewrite Ei in H.
    + by rewrite Ho.
    + by rewrite Ho.
Qed.

(** * C39 *)

Lemma same_excl_true a b :
  same_excl a b = true ↔ t_storage a = t_storage b ∧ (t_excl a = true ∨ t_excl b = true).
Proof. unfold same_excl. rewrite andb_true_iff, orb_true_iff, bool_decide_eq_true. done. Qed.

Lemma pair_conflict_true bs :
  pair_conflict bs = true ↔
  ∃ i j a b, i < j ∧ bs !! i = Some a ∧ bs !! j = Some b ∧ same_excl a b = true.
Proof.
  induction bs as [|x bs IH]; cbn [pair_conflict].
  - split; [done|]. intros (i & j & a & b & _ & H & _). by rewrite lookup_nil in H.
  - rewrite orb_true_iff, IH, existsb_exists. split.
    + intros [(b & Hb & E)|(i & j & a & b & Hij & Ha & Hb & E)].
      * apply elem_of_list_In, elem_of_list_lookup in Hb as [j Hb].
        exists 0, (S j), x, b. split_and!; [lia|done..].
      * exists (S i), (S j), a, b. split_and!; [lia|done..].
    + intros (i & j & a & b & Hij & Ha & Hb & E). destruct j as [|j]; [lia|].
      destruct i as [|i]; cbn in Ha, Hb.
      * left. injection Ha as ->. exists b. split; [|done].
        apply elem_of_list_In. by eapply elem_of_list_lookup_2.
      * right. exists i, j, a, b. split_and!; [lia|done..].
Qed.

Lemma all_with_others_true bs :
  all_with_others bs = true ↔
  ∃ i j a b, i ≠ j ∧ bs !! i = Some a ∧ bs !! j = Some b ∧ t_storage a = SAll ∧ t_excl a = true.
Proof.
  unfold all_with_others. rewrite andb_true_iff, existsb_exists, Nat.ltb_lt. split.
  - intros [(a & Ha & E) Hl]. apply andb_true_iff in E as [E1 E2]. apply bool_decide_eq_true in E1.
    apply elem_of_list_In, elem_of_list_lookup in Ha as [i Hi].
    destruct (lookup_lt_is_Some_2 bs (if decide (i = 0) then 1 else 0)) as [b Hb].
    { destruct (decide _); lia. }
    exists i, (if decide (i = 0) then 1 else 0), a, b. split_and!; try done.
    destruct (decide _); lia.
  - intros (i & j & a & b & Hne & Ha & Hb & E1 & E2). split.
    + exists a. split; [apply elem_of_list_In; by eapply elem_of_list_lookup_2|].
      by rewrite bool_decide_true.
    + apply lookup_lt_Some in Ha, Hb. lia.
Qed.

(** A system (and a workload's run condition, same check) is accepted exactly when its own
    borrows do not conflict. *)
Theorem C39_system_valid_iff bs : system_valid bs = true ↔ ¬ self_conflict bs.
Proof.
  unfold system_valid. rewrite andb_true_iff, !negb_true_iff, <-!not_true_iff_false.
  rewrite all_with_others_true, pair_conflict_true. split.
  - intros [H1 H2] (i & j & a & b & Hne & Ha & Hb & [[E H]|[E H]]).
    + apply H2. destruct (lt_eq_lt_dec i j) as [[Hlt| -> ]|Hlt]; [|done|].
      * exists i, j, a, b. split_and!; [done..|]. by apply same_excl_true.
      * exists j, i, b, a. split_and!; [done..|]. apply same_excl_true. split; [done|]. tauto.
    + apply H1. exists i, j, a, b. done.
  - intros H. split; intros (i & j & a & b & Hij & Ha & Hb & E); apply H; exists i, j, a, b.
    + split_and!; try done. by right.
    + split_and!; [lia|done|done|]. left. by apply same_excl_true.
Qed.

(** The check of a system's run condition refuses only conflicting borrows; it is exact up to
    two borrows.  Missing: it compares only the first half with the second. *)
Theorem C39_run_if_partial bs :
  (run_if_valid bs = false → self_conflict bs) ∧
  (length bs ≤ 2 → run_if_valid bs = true ↔ ¬ self_conflict bs).
Proof.
  assert (H1 : run_if_valid bs = false → self_conflict bs).
  { unfold run_if_valid. rewrite andb_false_iff, !negb_false_iff, all_with_others_true.
    intros [(i & j & a & b & Hij & Ha & Hb & E)|H].
    - exists i, j, a, b. split_and!; try done. by right.
    - apply existsb_exists in H as (a & Ha & H). apply existsb_exists in H as (b & Hb & H).
      apply elem_of_list_In, elem_of_list_lookup in Ha as [i Ha].
      apply elem_of_list_In, elem_of_list_lookup in Hb as [j Hb].
      apply lookup_take_Some in Ha as [Ha Hi]. rewrite lookup_drop in Hb.
      eexists i, _, a, b. split_and!; [|exact Ha|exact Hb|].
      + lia.
      + left. by apply same_excl_true. }
  split; [done|]. intros Hl. split.
  - destruct bs as [|a [|b [|c bs]]]; [..|cbn [length] in Hl; lia].
    + intros _ (i & j & x & y & _ & H & _). by rewrite lookup_nil in H.
    + intros _ (i & j & x & y & Hij & H & H' & _).
      apply list_lookup_singleton_Some in H as [-> _].
      apply list_lookup_singleton_Some in H' as [-> _]. done.
    + unfold run_if_valid. cbn -[same_excl all_with_others]. rewrite !orb_false_r.
      intros H. apply C39_system_valid_iff. unfold system_valid. cbn [pair_conflict existsb].
      by rewrite !orb_false_r.
  - intros H. destruct (run_if_valid bs) eqn:E; [done|]. by destruct H; apply H1.
Qed.

(** * C55 *)

Lemma create_workloads w sc sc' r :
  create_workload w sc = Some (sc', r) →
  (sc_workloads sc' = sc_workloads sc ∧ sc_default sc' = sc_default sc ∧ ∀ x, r ≠ inr x) ∨
  (∃ x, r = inr x ∧ sc_workloads sc !! wl_name w = None ∧
    sc_workloads sc' = <[wl_name w := x.1.2]> (sc_workloads sc) ∧
    ((sc_workloads sc = ∅ ∧ sc_default sc' = wl_name w) ∨
     (sc_workloads sc ≠ ∅ ∧ sc_default sc' = sc_default sc))).
Proof.
  unfold create_workload. destruct (sc_workloads sc !! wl_name w) eqn:En.
  { intros [= <- <-]. left. by split_and!. }
  destruct (insert_systems _ _) as [f ps].
  destruct (check_in ps) as [[]|]; [intros [= <- <-]; left; by split_and!|].
  destruct (check_before _) as [[]|]; [intros [= <- <-]; left; by split_and!|].
  destruct (check_after _) as [[]|]; [intros [= <- <-]; left; by split_and!|].
  destruct (order_systems _ _) as [[e|x]|]; [intros [= <- <-]; left; by split_and!| |done].
  intros [= <- <-]. right. exists x. cbn [sc_workloads sc_default]. split_and!; [done..|].
  case_bool_decide; [left|right]; done.
Qed.

Definition default_ok (sc : sched) : Prop :=
  sc_workloads sc = ∅ ∨ is_Some (default_workload sc).

Lemma default_ok_step sc o : default_ok sc → default_ok (sc_step sc o).
Proof.
  unfold default_ok, default_workload. intros H. destruct o as [w|l|old new]; cbn [sc_step].
  - destruct (create_workload w sc) as [[sc' r]|] eqn:E; [|done].
    destruct (create_workloads _ _ _ _ E) as [(-> & -> & _)|(x & _ & Hn & -> & [[He ->]|[He ->]])].
    + done.
    + right. rewrite lookup_insert. eauto.
    + right. destruct H as [H|[b H]]; [done|]. rewrite lookup_insert_ne; [eauto|congruence].
  - unfold set_default. destruct (sc_workloads sc !! l) eqn:E; [|done]. cbn. right. eauto.
  - unfold sc_rename. destruct (sc_workloads sc !! old) as [b|] eqn:E; [|done].
    cbn [sc_workloads sc_default]. right. case_bool_decide as Hd.
    + rewrite lookup_insert. eauto.
    + destruct H as [H|[d H]]; [by rewrite H, lookup_empty in E|].
      destruct (decide (sc_default sc = new)) as [->|Hne]; [rewrite lookup_insert; eauto|].
      rewrite lookup_insert_ne, lookup_delete_ne by congruence. eauto.
Qed.

(** After any history in which some workload exists, the default workload exists. *)
Theorem C55_default_exists os :
  let sc := sc_run sc_new os in
  sc_workloads sc ≠ ∅ → is_Some (default_workload sc).
Proof.
  intros sc Hne. assert (H : default_ok sc); [|by destruct H].
  unfold sc, sc_run. assert (H0 : default_ok sc_new) by (by left).
  clear sc Hne. revert H0. generalize sc_new as sc0. induction os as [|o os IH]; intros sc0 H0; [done|].
  cbn [fold_left]. by apply IH, default_ok_step.
Qed.

(** A workload exists from the first one that is added on. *)
Theorem C55_added_stays os os' w info :
  create_workload w (sc_run sc_new os) = Some (sc_step (sc_run sc_new os) (OpAdd w), inr info) →
  sc_workloads (sc_run sc_new (os ++ OpAdd w :: os')) ≠ ∅.
Proof.
  intros Hc. unfold sc_run. rewrite fold_left_app. cbn [fold_left]. fold (sc_run sc_new os).
  destruct (create_workloads _ _ _ _ Hc) as [(_ & _ & H)|(x & _ & _ & Hw & _)]; [by destruct (H info)|].
  assert (H : sc_workloads (sc_step (sc_run sc_new os) (OpAdd w)) ≠ ∅).
  { rewrite Hw. apply insert_non_empty. }
  revert H. generalize (sc_step (sc_run sc_new os) (OpAdd w)) as sc. clear.
  induction os' as [|o os' IH]; intros sc H; [done|]. cbn [fold_left]. apply IH.
  destruct o as [w|l|old new]; cbn [sc_step].
  - destruct (create_workload w sc) as [[sc' r]|] eqn:E; [|done].
    destruct (create_workloads _ _ _ _ E) as [(-> & _)|(x & _ & _ & -> & _)]; [done|].
    apply insert_non_empty.
  - unfold set_default. by destruct (sc_workloads sc !! l).
  - unfold sc_rename. destruct (sc_workloads sc !! old); [|done]. apply insert_non_empty.
Qed.

Theorem C55_set_default sc l :
  (sc_workloads sc !! l = None → set_default l sc = (sc, false)) ∧
  (∀ b, sc_workloads sc !! l = Some b →
     (set_default l sc).2 = true ∧ default_workload (set_default l sc).1 = Some b ∧
     sc_workloads (set_default l sc).1 = sc_workloads sc).
Proof.
  unfold set_default, default_workload. split.
  - by intros ->.
  - intros b Hb. rewrite Hb. cbn. by rewrite Hb.
Qed.

(** Adding or renaming keeps the default's batches.  Missing: renaming over another existing
    workload. *)
Theorem C55_rename_keeps_partial sc old new :
  sc_workloads sc !! new = None → sc_workloads sc ≠ ∅ → is_Some (default_workload sc) →
  default_workload (sc_rename old new sc) = default_workload sc ∧
  sc_workload new (sc_rename old new sc) = sc_workload old sc ∧
  (∀ l, l ≠ old → l ≠ new → sc_workload l (sc_rename old new sc) = sc_workload l sc).
Proof.
  unfold default_workload, sc_workload, sc_rename. intros Hn Hne [d Hd].
  destruct (sc_workloads sc !! old) as [b|] eqn:E; cbn [sc_workloads sc_default].
  - split_and!.
    + case_bool_decide as H.
      * rewrite lookup_insert. by rewrite H, E.
      * rewrite lookup_insert_ne, lookup_delete_ne; [done|congruence..].
    + by rewrite lookup_insert.
    + intros l H1 H2. by rewrite lookup_insert_ne, lookup_delete_ne.
  - split_and!; done.
Qed.
Theorem C55_add_keeps sc w sc' r b :
  create_workload w sc = Some (sc', r) → default_workload sc = Some b →
  default_workload sc' = Some b.
Proof.
  unfold default_workload. intros Hc Hd.
  destruct (create_workloads _ _ _ _ Hc) as [(-> & -> & _)|(x & _ & Hn & -> & [[He ->]|[He ->]])].
  - done.
  - by rewrite He, lookup_empty in Hd.
  - rewrite lookup_insert_ne; [done|congruence].
Qed.
