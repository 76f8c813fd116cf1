(** C82: labels in workload expressions mean what the expression says, and a workload is stored under the
    name it was given. *)
From stdpp Require Import prelude countable list gmap.
From Verif Require Import Sched SchedSpec SchedProofs SchedProofs2 SchedProofs3 PropsSched Names NamesSpec.
Local Open Scope nat_scope.

(** * Well-formed *)

Lemma sx_declared s : declared (sx_eval s).
Proof.
  unfold sx_eval. set (x := mk_wsys _ _ _ _). assert (declared x) as H by constructor. revert H. generalize x. clear x.
  induction (sx_mods s) as [|m ms IH]; intros x Hx; [done|]. cbn [fold_left]. apply IH.
  destruct m; cbn [smod_apply]; by constructor.
Qed.
Lemma wf_wmod m w w' : wmod_apply m w = Some w' → wf_workload w → wf_workload w'.
Proof.
  intros E Hw. destruct m; cbn [wmod_apply] in E; try injection E as <-.
  - by apply wf_tag.
  - destruct Hw as (H1 & H2 & H3 & H4 & H5 & Hr). unfold wf_workload, wl_rename.
    cbn [wl_systems wl_barriers wl_name wl_tags wl_before_all wl_after_all wl_req_before wl_req_after].
    split_and!; try tauto; [done|]. apply Forall_app. split; [done|]. by repeat constructor.
  - by apply wf_before.
  - destruct Hw as (H1 & H2 & H3 & H4 & H5 & H6 & H7 & Hr). unfold wf_workload, wl_after.
    cbn [wl_systems wl_barriers wl_name wl_tags wl_before_all wl_after_all wl_req_before wl_req_after].
    split_and!; try tauto. by apply dl_add_user.
  - exact Hw.
  - destruct Hw as (H1 & H2 & H3 & Hr). unfold wf_workload, wl_with_barrier.
    cbn [wl_systems wl_barriers wl_name wl_tags wl_before_all wl_after_all wl_req_before wl_req_after].
    split_and!; try tauto. apply Forall_app. split; [done|]. by repeat constructor.
  - pose proof (sx_declared s) as Hs. apply declared_wf in Hs as [Hs Hu].
    destruct Hw as (H1 & H2 & H3 & Hr). unfold wf_workload, wl_with_system, wl_set_systems.
    cbn [wl_systems wl_barriers wl_name wl_tags wl_before_all wl_after_all wl_req_before wl_req_after].
    split_and!; try tauto.
    + apply Forall_app. split; [done|]. constructor; [exact Hs|constructor].
    + intros i x Hx. apply lookup_app_Some in Hx as [Hx|[Hi Hx]]; [by apply H2|].
      apply list_lookup_singleton_Some in Hx as [Hx <-]. cbn [s_shift w_uid]. lia.
    + eapply Forall_impl; [exact H3|]. simpl. intros. rewrite app_length. lia.
  - destruct Hw as (H1 & H2 & H3 & H4 & H5 & Hr). unfold wf_workload, wl_fun.
    cbn [wl_systems wl_barriers wl_name wl_tags wl_before_all wl_after_all wl_req_before wl_req_after].
    split_and!; try tauto; [done|]. apply Forall_app. split; [done|]. by repeat constructor.
  - unfold wl_into_sequential in E. destruct (has_dup _); [done|]. injection E as <-.
    destruct Hw as (H1 & H2 & H3 & Hr). destruct (wf_seq_systems _ H1) as (G1 & G2 & G3).
    unfold wf_workload, wl_set_systems.
    cbn [wl_systems wl_barriers wl_name wl_tags wl_before_all wl_after_all wl_req_before wl_req_after].
    split_and!; try tauto.
    + intros i s Hs. destruct (G3 i s Hs) as (s' & Hs' & ->). by apply H2.
    + by rewrite G2.
  - by apply wf_tag.
  - by apply wf_before.
Qed.
Lemma eval_wf e w : eval e = Some w → wf_workload w.
Proof.
  revert w. induction e as [n|n s|n e IH|m e IH|e1 IH1 e2 IH2|e1 IH1 e2 IH2]; intros w E; cbn [eval] in E.
  - injection E as <-. apply built_wf. constructor.
  - injection E as <-. apply built_wf. constructor. apply sx_declared.
  - destruct (eval e) as [w1|]; [|done]. injection E as <-. apply wf_merge; [apply wf_start|by apply IH].
  - destruct (eval e) as [w1|]; [|done]. eapply wf_wmod; [exact E|by apply IH].
  - destruct (eval e1) as [w1|]; [|done]. destruct (eval e2) as [w2|]; [|done]. injection E as <-.
    apply wf_merge; auto.
  - destruct (eval e1) as [w1|]; [|done]. destruct (eval e2) as [w2|]; [|done]. injection E as <-.
    apply wf_append; auto.
Qed.

(** * What is said and what is stored *)

(** Three fields are treated alike: the labels of a system and of a workload as a whole. *)
Definition holds (ls : list label) (ns : list N) : Prop := ∀ n, LName n ∈ ls ↔ n ∈ ns.
Lemma holds_nil : holds [] [].
Proof. intros n. by rewrite !elem_of_nil. Qed.
Lemma holds_app l1 l2 n1 n2 : holds l1 n1 → holds l2 n2 → holds (l1 ++ l2) (n1 ++ n2).
Proof. intros H1 H2 n. rewrite !elem_of_app. specialize (H1 n). specialize (H2 n). tauto. Qed.
Lemma holds_snoc l n1 n2 : holds l n1 → holds (l ++ [LName n2]) (n1 ++ [n2]).
Proof. intros H. apply holds_app; [done|]. intros n. rewrite !elem_of_list_singleton. naive_solver. Qed.
Lemma holds_seq l n1 l2 : holds l n1 → holds (l ++ [LSeq l2]) n1.
Proof. intros H n. rewrite elem_of_app, elem_of_list_singleton. specialize (H n). naive_solver. Qed.
Lemma holds_add l n1 n2 : holds l n1 → holds (dl_add (LName n2) l) (n1 ++ [n2]).
Proof. intros H n. rewrite dl_add_elem, elem_of_app, elem_of_list_singleton. specialize (H n). naive_solver. Qed.
Lemma holds_add_seq l n1 l2 : holds l n1 → holds (dl_add (LSeq l2) l) n1.
Proof. intros H n. rewrite dl_add_elem. specialize (H n). naive_solver. Qed.
Lemma holds_extend l1 l2 n1 n2 : holds l1 n1 → holds l2 n2 → holds (dl_extend l1 l2) (n1 ++ n2).
Proof. intros H1 H2 n. rewrite dl_extend_elem, elem_of_app. specialize (H1 n). specialize (H2 n). tauto. Qed.
Lemma holds_nil_l l : holds l [] → ∀ l2 n2, holds l2 n2 → holds (l2 ++ l) n2.
Proof. intros H l2 n2 H2. rewrite <-(app_nil_r n2). by apply holds_app. Qed.

Lemma sx_said s :
  holds (w_tags (sx_eval s)) (s_labels s) ∧ holds (w_before_all (sx_eval s)) (s_befores s) ∧
  holds (w_after_all (sx_eval s)) (s_afters s).
Proof.
  unfold sx_eval, s_labels, s_befores, s_afters.
  assert (H : ∀ ms x n1 n2 n3,
    holds (w_tags x) n1 ∧ holds (w_before_all x) n2 ∧ holds (w_after_all x) n3 →
    let y := fold_left smod_apply ms x in
    holds (w_tags y) (n1 ++ omap (λ m, match m with MTag n => Some n | _ => None end) ms) ∧
    holds (w_before_all y) (n2 ++ omap (λ m, match m with MBefore n => Some n | _ => None end) ms) ∧
    holds (w_after_all y) (n3 ++ omap (λ m, match m with MAfter n => Some n | _ => None end) ms)).
  { induction ms as [|m ms IH]; intros x n1 n2 n3 (H1 & H2 & H3); [by rewrite !app_nil_r|].
    destruct m; cbn [fold_left smod_apply]; csimpl;
      rewrite ?(cons_middle _ n1), ?(cons_middle _ n2), ?(cons_middle _ n3), ?(app_assoc n1), ?(app_assoc n2), ?(app_assoc n3);
      apply IH; cbn; split; [|split| |split| |split| |split| |split| |split| |split| |split]; try done;
      first [by apply holds_snoc|by apply holds_add]. }
  pose proof (H (sx_mods s) (mk_wsys (sx_type s) (sx_fn s) (LName (sx_label s)) (sx_borrows s)) [sx_label s] [] []) as G.
  apply G. split; [|split; apply holds_nil]. intros n. cbn. rewrite !elem_of_list_singleton. naive_solver.
Qed.

Record said (e : wx) (w : workload) : Prop := {
  sd_tags : holds (wl_tags w) (labels_whole e);
  sd_before : holds (wl_before_all w) (befores_whole e);
  sd_after : holds (wl_after_all w) (afters_whole e);
  sd_stags : Forall2 (λ s ns, holds (w_tags s) ns) (wl_systems w) (labels_of e);
  sd_sbefore : Forall2 (λ s ns, holds (w_before_all s) ns) (wl_systems w) (befores_of e);
  sd_safter : Forall2 (λ s ns, holds (w_after_all s) ns) (wl_systems w) (afters_of e);
}.

Lemma Forall2_shift (f : wsys → list label) k ss nss :
  (∀ s, f (s_shift k s) = f s) →
  Forall2 (λ s ns, holds (f s) ns) ss nss → Forall2 (λ s ns, holds (f s) ns) (map (s_shift k) ss) nss.
Proof. intros Hf. induction 1; cbn; constructor; [by rewrite Hf|done]. Qed.
Lemma Forall2_prop (f : wsys → list label) (g : wsys → wsys) ss nss ns :
  (∀ s l, holds (f s) l → holds (f (g s)) (l ++ ns)) →
  Forall2 (λ s ns, holds (f s) ns) ss nss →
  Forall2 (λ s ns, holds (f s) ns) (map g ss) ((λ l, l ++ ns) <$> nss).
Proof. intros Hf. induction 1; cbn; constructor; auto. Qed.
Lemma Forall2_same (f : wsys → list label) (g : wsys → wsys) ss nss :
  (∀ s l, holds (f s) l → holds (f (g s)) l) →
  Forall2 (λ s ns, holds (f s) ns) ss nss → Forall2 (λ s ns, holds (f s) ns) (map g ss) nss.
Proof. intros Hf. induction 1; cbn; constructor; auto. Qed.
Lemma seq_systems_same (f : wsys → list label) ss nss :
  (∀ s l n, holds (f s) l → holds (f (s_before_all (LSeq n) s)) l) →
  Forall2 (λ s ns, holds (f s) ns) ss nss → Forall2 (λ s ns, holds (f s) ns) (seq_systems ss) nss.
Proof.
  intros Hf. induction 1 as [|s ns ss nss Hs Hss IH]; [constructor|]. destruct ss as [|n ss]; [by constructor|].
  change (seq_systems (s :: n :: ss)) with (s_before_all (LSeq (LName (w_type n))) s :: seq_systems (n :: ss)).
  constructor; [by apply Hf|done].
Qed.

(** Merging. *)
Lemma said_merge (w o : workload) e1 e2 ns1 ns2 ns3 l1 l2 l3 :
  said e2 o → holds (wl_tags w) [] → holds (wl_before_all w) [] → holds (wl_after_all w) [] →
  Forall2 (λ s ns, holds (w_tags s) ns) (wl_systems w) l1 →
  Forall2 (λ s ns, holds (w_before_all s) ns) (wl_systems w) l2 →
  Forall2 (λ s ns, holds (w_after_all s) ns) (wl_systems w) l3 →
  ns1 = l1 ++ ((λ l, l ++ labels_whole e2) <$> labels_of e2) →
  ns2 = l2 ++ ((λ l, l ++ befores_whole e2) <$> befores_of e2) →
  ns3 = l3 ++ ((λ l, l ++ afters_whole e2) <$> afters_of e2) →
  labels_whole e1 = [] → befores_whole e1 = [] → afters_whole e1 = [] →
  labels_of e1 = ns1 → befores_of e1 = ns2 → afters_of e1 = ns3 → said e1 (wl_merge w o).
Proof.
  intros [O1 O2 O3 O4 O5 O6] W1 W2 W3 H1 H2 H3 -> -> -> E1 E2 E3 E4 E5 E6.
  split; rewrite ?E1, ?E2, ?E3, ?E4, ?E5, ?E6; cbn; try apply holds_nil.
  - apply Forall2_app.
    + apply Forall2_same; [|done]. intros s l Hs. cbn. by apply holds_nil_l.
    + apply Forall2_shift; [done|]. apply Forall2_prop; [|done]. intros s l Hs. cbn. by apply holds_app.
  - apply Forall2_app.
    + apply Forall2_same; [|done]. intros s l Hs. cbn. rewrite <-(app_nil_r l). by apply holds_extend.
    + apply Forall2_shift; [done|]. apply Forall2_prop; [|done]. intros s l Hs. cbn. by apply holds_extend.
  - apply Forall2_app.
    + apply Forall2_same; [|done]. intros s l Hs. cbn. rewrite <-(app_nil_r l). by apply holds_extend.
    + apply Forall2_shift; [done|]. apply Forall2_prop; [|done]. intros s l Hs. cbn. by apply holds_extend.
Qed.

Lemma eval_said e w : tidy e → eval e = Some w → said e w.
Proof.
  revert w. induction e as [n|n s|n e IH|m e IH|e1 IH1 e2 IH2|e1 IH1 e2 IH2]; intros w T E; cbn [eval] in E.
  - injection E as <-. split; cbn; try apply holds_nil; try (by apply Forall2_nil).
    intros n'. cbn. rewrite !elem_of_list_singleton. split; [by intros [= ->]|by intros ->].
  - injection E as <-. destruct (sx_said s) as (H1 & H2 & H3).
    split; cbn; try apply holds_nil; try (by constructor; [done|constructor]).
    intros n'. cbn. rewrite !elem_of_list_singleton. split; [by intros [= ->]|by intros ->].
  - destruct (eval e) as [w1|]; [|done]. injection E as <-. specialize (IH w1 T eq_refl).
    (* the label of the tuple is given to the systems it has by then: none *)
    change (wl_merge (tuple_start (LName n)) w1) with
      (wl_merge (wl_propagate (tuple_start (LName n))) w1).
    eapply (said_merge (wl_propagate (tuple_start (LName n))) w1 _ e _ _ _ [] [] []);
      [exact IH|apply holds_nil|apply holds_nil|apply holds_nil|constructor|constructor|constructor|reflexivity..].
  - destruct (eval e) as [w1|]; [|done]. specialize (IH w1 T eq_refl). destruct IH as [H1 H2 H3 H4 H5 H6].
    unfold labels_whole, befores_whole, afters_whole, labels_of, befores_of, afters_of in *.
    destruct m; cbn in E; simplify_eq; split;
      unfold labels_whole, befores_whole, afters_whole, labels_of, befores_of, afters_of;
      cbn [whole within m_labels m_befores m_afters]; rewrite ?app_nil_r;
      try done; try (by apply holds_snoc); try (by apply holds_add).
    + cbn. apply Forall2_app; [done|]. constructor; [apply (sx_said s)|constructor].
    + cbn. apply Forall2_app; [done|]. constructor; [apply (sx_said s)|constructor].
    + cbn. apply Forall2_app; [done|]. constructor; [apply (sx_said s)|constructor].
    + unfold wl_into_sequential in E. destruct (has_dup _); [done|]. by injection E as <-.
    + unfold wl_into_sequential in E. destruct (has_dup _); [done|]. by injection E as <-.
    + unfold wl_into_sequential in E. destruct (has_dup _); [done|]. by injection E as <-.
    + unfold wl_into_sequential in E. destruct (has_dup _); [done|]. injection E as <-. cbn.
      by apply seq_systems_same.
    + unfold wl_into_sequential in E. destruct (has_dup _); [done|]. injection E as <-. cbn.
      apply seq_systems_same; [|done]. intros s l l' Hs. cbn. by apply holds_add_seq.
    + unfold wl_into_sequential in E. destruct (has_dup _); [done|]. injection E as <-. cbn.
      by apply seq_systems_same.
    + by apply holds_seq.
    + by apply holds_add_seq.
  - destruct T as (T1 & T2 & T3 & T4 & T5).
    destruct (eval e1) as [w1|]; [|done]. destruct (eval e2) as [w2|]; [|done]. injection E as <-.
    specialize (IH1 _ T1 eq_refl). specialize (IH2 _ T2 eq_refl). destruct IH1 as [H1 H2 H3 H4 H5 H6].
    rewrite T3 in H1. rewrite T4 in H2. rewrite T5 in H3.
    eapply said_merge; [exact IH2|exact H1|exact H2|exact H3|exact H4|exact H5|exact H6|..]; done.
  - destruct T as (T1 & T2).
    destruct (eval e1) as [w1|]; [|done]. destruct (eval e2) as [w2|]; [|done]. injection E as <-.
    specialize (IH1 _ T1 eq_refl). specialize (IH2 _ T2 eq_refl).
    destruct IH1 as [H1 H2 H3 H4 H5 H6]. destruct IH2 as [_ _ _ G4 G5 G6].
    split; cbn; try done.
    + apply Forall2_app; [done|]. by apply Forall2_shift.
    + apply Forall2_app; [done|]. by apply Forall2_shift.
    + apply Forall2_app; [done|]. by apply Forall2_shift.
Qed.

(** * What the workload has to do *)

Lemma create_ok_wf w sc sc' info ba order :
  wf_workload w → create_workload w sc = Some (sc', inr (info, ba, order)) →
  (∃ segs, Placed (placed (wl_systems w) (wl_barriers w) (sc_fns sc)) info order segs) ∧
  sc_workloads sc !! wl_name w = None ∧ sc_workloads sc' = <[wl_name w := ba]> (sc_workloads sc).
Proof.
  intros Hwf. unfold create_workload.
  destruct (sc_workloads sc !! wl_name w) eqn:En; [done|].
  unfold placed. destruct (insert_systems _ _) as [f ps] eqn:Ei. cbn [fst snd].
  destruct (check_in ps) as [[]|] eqn:E1; [done|].
  destruct (check_before _) as [[]|] eqn:E2; [done|].
  destruct (check_after _) as [[]|] eqn:E3; [done|].
  destruct (order_systems_spec (constrain ps (wl_barriers w)))
    with (ba := ba_new (wl_run_if w)) as [(info' & ba' & order' & segs & Ho & HP)|(l & Ho & _)].
  - intros i s. pose proof (placed_tag w (sc_fns sc) Hwf i s) as H. unfold placed in H.
    by rewrite Ei in H.
  - intros i s j. pose proof (placed_dep_lt w (sc_fns sc) Hwf i s j) as H. unfold placed in H.
    by rewrite Ei in H.
  - rewrite Ho. cbn [fst snd]. intros [= <- -> -> ->]. split; [by exists segs|done].
  - by rewrite Ho.
Qed.
Lemma explicit_wf w sc sc' info ba order a b :
  wf_workload w → create_workload w sc = Some (sc', inr (info, ba, order)) →
  explicit (wl_systems w) a b → runs_before info order a b.
Proof.
  intros Hwf Hc (Hne & sa & sb & Hsa & Hsb & Hl). destruct (create_ok_wf _ _ _ _ _ _ Hwf Hc) as ((segs & HP) & _).
  destruct (placed_lookup _ (wl_barriers w) (sc_fns sc) (Hsys w Hwf) _ _ Hsb) as
    (p & Hp & _ & _ & _ & _ & _ & _ & _ & Hh & _).
  eapply hard_runs_before; [exact HP|exact Hp|]. apply Hh. right. right.
  split; [done|]. by exists sa, sb.
Qed.
Lemma add_wf f w sc sc' info ba order :
  wf_workload w → add_workload f w sc = Some (sc', inr (info, ba, order)) →
  ∃ w', wf_workload w' ∧ wl_systems w' = wl_systems w ∧
    wl_name w' = (if wl_overwritten w then wl_name w else LName f) ∧
    create_workload w' sc = Some (sc', inr (info, ba, order)).
Proof.
  intros (H1 & H2 & H3 & H4 & H5 & Hr) E. unfold add_workload in E. eexists. split; [|split; [|split; [|exact E]]]; [|done..].
  unfold wf_workload. cbn [wl_systems wl_barriers wl_name wl_tags wl_before_all wl_after_all wl_req_before wl_req_after].
  split; [done|]. split; [done|]. split; [done|]. split; [by destruct (wl_overwritten w)|]. split; [|done].
  destruct (wl_overwritten w).
  - apply Forall_app. split; [|by repeat constructor]. apply Forall_app. split; [done|]. by repeat constructor.
  - apply Forall_app. split; [done|]. by repeat constructor.
Qed.

(** * C82: labels *)

(** Two systems that [before_all] or [after_all] relates — said of the systems or of workloads they are
    in — run in that order. *)
Theorem C82_before_all e w f sc sc' info ba order i j bi lj n :
  tidy e → eval e = Some w → add_workload f w sc = Some (sc', inr (info, ba, order)) →
  befores_of e !! i = Some bi → labels_of e !! j = Some lj → n ∈ bi → n ∈ lj → i ≠ j →
  runs_before info order i j.
Proof.
  intros T E A Hi Hj Hn Hn' Hne. destruct (eval_said e w T E) as [_ _ _ H4 H5 _].
  destruct (add_wf _ _ _ _ _ _ _ (eval_wf _ _ E) A) as (w' & Hwf & Hs & _ & Hc).
  eapply explicit_wf; [exact Hwf|exact Hc|]. split; [done|]. rewrite Hs.
  destruct (Forall2_lookup_r _ _ _ _ _ H5 Hi) as (sa & Hsa & Ha).
  destruct (Forall2_lookup_r _ _ _ _ _ H4 Hj) as (sb & Hsb & Hb).
  exists sa, sb. split; [done|]. split; [done|]. left. exists (LName n). split; [by apply Ha|by apply Hb].
Qed.
Theorem C82_after_all e w f sc sc' info ba order i j ai lj n :
  tidy e → eval e = Some w → add_workload f w sc = Some (sc', inr (info, ba, order)) →
  afters_of e !! i = Some ai → labels_of e !! j = Some lj → n ∈ ai → n ∈ lj → i ≠ j →
  runs_before info order j i.
Proof.
  intros T E A Hi Hj Hn Hn' Hne. destruct (eval_said e w T E) as [_ _ _ H4 _ H5].
  destruct (add_wf _ _ _ _ _ _ _ (eval_wf _ _ E) A) as (w' & Hwf & Hs & _ & Hc).
  eapply explicit_wf; [exact Hwf|exact Hc|]. split; [done|]. rewrite Hs.
  destruct (Forall2_lookup_r _ _ _ _ _ H5 Hi) as (sa & Hsa & Ha).
  destruct (Forall2_lookup_r _ _ _ _ _ H4 Hj) as (sb & Hsb & Hb).
  exists sb, sa. split; [done|]. split; [done|]. right. exists (LName n). split; [by apply Ha|by apply Hb].
Qed.

(** Nothing else is asked for by names: a system of the workload has a name among its tags, or among what
    it is to be before or after, exactly if the expression says so. *)
Theorem C82_exact e w :
  tidy e → eval e = Some w →
  length (wl_systems w) = length (labels_of e) ∧
  ∀ i s, wl_systems w !! i = Some s → ∃ li bi ai,
    labels_of e !! i = Some li ∧ befores_of e !! i = Some bi ∧ afters_of e !! i = Some ai ∧
    ∀ n, (LName n ∈ w_tags s ↔ n ∈ li) ∧ (LName n ∈ w_before_all s ↔ n ∈ bi) ∧ (LName n ∈ w_after_all s ↔ n ∈ ai).
Proof.
  intros T E. destruct (eval_said e w T E) as [_ _ _ H4 H5 H6]. split; [by eapply Forall2_length|]. intros i s Hs.
  destruct (Forall2_lookup_l _ _ _ _ _ H4 Hs) as (li & Hli & Hl).
  destruct (Forall2_lookup_l _ _ _ _ _ H5 Hs) as (bi & Hbi & Hb).
  destruct (Forall2_lookup_l _ _ _ _ _ H6 Hs) as (ai & Hai & Ha).
  exists li, bi, ai. split; [done|]. split; [done|]. split; [done|]. intros n. split; [apply Hl|]. split; [apply Hb|apply Ha].
Qed.

(** * Tuples *)

Lemma tuple_eval n es ws e :
  Forall2 (λ e w, eval e = Some w) es ws → tuple n es = Some e → eval e = Some (tuple_into_workload (LName n) ws).
Proof.
  intros H. destruct H as [|e0 w0 es ws H0 H]; [done|]. intros [= <-]. unfold tuple_into_workload. cbn [fold_left].
  assert (G : eval (XTuple1 n e0) = Some (wl_merge (tuple_start (LName n)) w0)) by (cbn [eval]; by rewrite H0).
  revert G. generalize (XTuple1 n e0), (wl_merge (tuple_start (LName n)) w0).
  induction H as [|e1 w1 es ws H1 H IH]; intros x y G; [done|]. cbn [fold_left]. apply IH. cbn [eval].
  by rewrite G, H1.
Qed.

Record alike (e e' : wx) : Prop := {
  al_labels : labels_of e' = labels_of e; al_befores : befores_of e' = befores_of e;
  al_afters : afters_of e' = afters_of e; al_wl : labels_whole e' = labels_whole e;
  al_wb : befores_whole e' = befores_whole e; al_wa : afters_whole e' = afters_whole e;
  al_tidy : tidy e → tidy e' }.
Lemma alike_refl e : alike e e.
Proof. done. Qed.
Lemma alike_tag e e' : alike e e' → alike e (XMod WSeqTag e').
Proof.
  intros [? ? ? H1 H2 H3 ?]. split; try done; cbn; by rewrite app_nil_r.
Qed.
Lemma alike_before l e e' : alike e e' → alike e (XMod (WSeqBefore l) e').
Proof. intros [? ? ? H1 H2 H3 ?]. split; try done; cbn; by rewrite app_nil_r. Qed.
Lemma alike_merge a a' b b' : alike a a' → alike b b' → alike (XMerge a b) (XMerge a' b').
Proof.
  intros [A1 A2 A3 A4 A5 A6 A7] [B1 B2 B3 B4 B5 B6 B7].
  unfold labels_of, befores_of, afters_of, labels_whole, befores_whole, afters_whole in *.
  split; unfold labels_of, befores_of, afters_of, labels_whole, befores_whole, afters_whole; cbn [whole within];
    rewrite ?A1, ?A2, ?A3, ?B1, ?B2, ?B3, ?B4, ?B5, ?B6; try done.
  intros (T1 & T2 & T3 & T4 & T5). unfold labels_whole, befores_whole, afters_whole in *.
  split; [auto|]. split; [auto|]. unfold labels_whole, befores_whole, afters_whole. split_and!; congruence.
Qed.
Lemma alike_tuple1 n b b' : alike b b' → alike (XTuple1 n b) (XTuple1 n b').
Proof.
  intros [B1 B2 B3 B4 B5 B6 B7]. unfold labels_of, befores_of, afters_of, labels_whole, befores_whole, afters_whole in *.
  split; unfold labels_of, befores_of, afters_of, labels_whole, befores_whole, afters_whole; cbn [whole within];
    rewrite ?B1, ?B2, ?B3, ?B4, ?B5, ?B6; done.
Qed.
Lemma seq_elem e w t tags :
  eval e = Some w → (∀ x, x ∈ t → ∃ l, x = LSeq l) →
  tags = t → ∃ e', alike e e' ∧
    eval e' = Some (match tags with t :: _ => wl_before t (wl_tag (LSeq (wl_name w)) w) | [] => wl_tag (LSeq (wl_name w)) w end).
Proof.
  intros E Ht ->. destruct t as [|x t].
  - exists (XMod WSeqTag e). split; [apply alike_tag, alike_refl|]. cbn [eval]. by rewrite E.
  - destruct (Ht x) as [l ->]; [by left|]. exists (XMod (WSeqBefore l) (XMod WSeqTag e)).
    split; [apply alike_before, alike_tag, alike_refl|]. cbn [eval]. by rewrite E.
Qed.
Lemma seq_merge_eval es ws tags acc a a' :
  Forall2 (λ e w, eval e = Some w) es ws → (∀ x, x ∈ tags → ∃ l, x = LSeq l) →
  alike a a' → eval a' = Some acc →
  ∃ e', alike (fold_left XMerge es a) e' ∧
    eval e' = Some (seq_merge acc (map (fun w => wl_tag (LSeq (wl_name w)) w) ws) tags).
Proof.
  intros H. revert tags acc a a'. induction H as [|e w es ws E H IH]; intros tags acc a a' Ht Ha Ea.
  - exists a'. split; [done|]. exact Ea.
  - destruct (seq_elem e w tags tags E Ht eq_refl) as (e' & He & Ee). cbn [fold_left map seq_merge].
    apply (IH (tail tags) _ _ (XMerge a' e')).
    + intros x Hx. apply Ht. destruct tags; [done|by right].
    + by apply alike_merge.
    + cbn [eval]. by rewrite Ea, Ee.
Qed.
(** A tuple made sequential says the same as the tuple. *)
Lemma sequential_eval n es ws e w :
  Forall2 (λ e w, eval e = Some w) es ws → tuple n es = Some e → tuple_into_sequential (LName n) ws = Some w →
  ∃ e', alike e e' ∧ eval e' = Some w.
Proof.
  intros H. destruct H as [|e0 w0 es ws H0 H]; [done|]. intros [= <-]. unfold tuple_into_sequential.
  destruct (has_dup _); [done|]. intros [= <-]. cbn [map seq_merge tail].
  set (tags := map (λ w, LSeq (wl_name w)) ws).
  assert (Ht : ∀ x, x ∈ tags → ∃ l, x = LSeq l).
  { intros x Hx. apply elem_of_list_fmap in Hx as (y & -> & _). eauto. }
  destruct (seq_elem e0 w0 tags tags H0 Ht eq_refl) as (e' & He & Ee).
  apply (seq_merge_eval es ws (tail tags) _ _ (XTuple1 n e')); [done| |by apply alike_tuple1|].
  - intros x Hx. apply Ht. destruct tags; [done|by right].
  - cbn [eval]. by rewrite Ee.
Qed.

(** The same for tuples made sequential. *)
Theorem C82_sequential_before_all n es ws e w f sc sc' info ba order i j bi lj m :
  Forall2 (λ e w, eval e = Some w) es ws → tuple n es = Some e → tuple_into_sequential (LName n) ws = Some w →
  tidy e → add_workload f w sc = Some (sc', inr (info, ba, order)) →
  befores_of e !! i = Some bi → labels_of e !! j = Some lj → m ∈ bi → m ∈ lj → i ≠ j →
  runs_before info order i j.
Proof.
  intros H Ht Hs T A Hi Hj. destruct (sequential_eval _ _ _ _ _ H Ht Hs) as (e' & [L B _ _ _ _ T'] & E).
  eapply C82_before_all; [exact (T' T)|exact E|exact A|by rewrite B|by rewrite L].
Qed.

Theorem C82_sequential_after_all n es ws e w f sc sc' info ba order i j ai lj m :
  Forall2 (λ e w, eval e = Some w) es ws → tuple n es = Some e → tuple_into_sequential (LName n) ws = Some w →
  tidy e → add_workload f w sc = Some (sc', inr (info, ba, order)) →
  afters_of e !! i = Some ai → labels_of e !! j = Some lj → m ∈ ai → m ∈ lj → i ≠ j →
  runs_before info order j i.
Proof.
  intros H Ht Hs T A Hi Hj. destruct (sequential_eval _ _ _ _ _ H Ht Hs) as (e' & [L _ B _ _ _ T'] & E).
  eapply C82_after_all; [exact (T' T)|exact E|exact A|by rewrite B|by rewrite L].
Qed.

(** The name given by Workload::new to a workload others are then merged into is lost: a system to be
    before all of that workload can be in a batch with a system of it. *)
Definition sysA : sx := Sx 1 1 10 [] [MBefore 5].
Definition sysB : sx := Sx 2 2 20 [] [].
Definition sched0 : sched :=
  {| sc_fns := {| f_systems := []; f_lookup := ∅ |}; sc_workloads := ∅; sc_default := LName 0 |}.
(** (a.before_all("X"), Workload::new("X").with_workload(b)).into_workload() *)
Definition lost : wx := XMerge (XTuple1 100 (XSingle 11 sysA)) (XMerge (XNew 5) (XSingle 21 sysB)).

Definition lost_w : workload := Eval vm_compute in default (wl_new (LName 0)) (eval lost).
Lemma lost_eval : eval lost = Some lost_w.
Proof. reflexivity. Qed.
Definition lost_made := Eval vm_compute in add_workload 40 lost_w sched0.

Theorem C82_merge_refuted :
  ∃ e w f sc sc' info ba order i j bi lj n,
    eval e = Some w ∧ add_workload f w sc = Some (sc', inr (info, ba, order)) ∧
    befores_of e !! i = Some bi ∧ labels_of e !! j = Some lj ∧ n ∈ bi ∧ n ∈ lj ∧ i ≠ j ∧
    ¬ runs_before info order i j ∧ ∃ k, in_batch info i k ∧ in_batch info j k.
Proof.
  exists lost, lost_w, 40%N, sched0.
  destruct lost_made as [[sc' [|[[info ba] order]]]|] eqn:E; [discriminate E| |discriminate E].
  exists sc', info, ba, order, 0, 1, [5%N], [20%N; 21%N; 5%N], 5%N.
  split; [apply lost_eval|]. split; [by rewrite <-E|]. split; [done|]. split; [done|].
  split; [by left|]. split; [by do 2 right; left|]. split; [done|].
  unfold lost_made in E. injection E as _ <- _ _. split.
  - intros [(ki & kj & (b & s & Hb & _ & _) & (b' & s' & Hb' & _ & _) & Hlt) _].
    destruct ki as [|ki]; [|done]. destruct kj as [|kj]; [lia|done].
  - exists 0. split.
    + eexists _, _. split; [done|]. split; [by left|done].
    + eexists _, _. split; [done|]. split; [by right; left|done].
Qed.

(** * C82: names *)

Lemma eval_name e w :
  name_kept e → eval e = Some w →
  match given e with Some n => wl_overwritten w = true ∧ wl_name w = LName n | None => wl_overwritten w = false end.
Proof.
  revert w. induction e as [n|n s|n e IH|m e IH|e1 IH1 e2 IH2|e1 IH1 e2 IH2]; intros w T E; cbn [eval] in E.
  - by injection E as <-.
  - by injection E as <-.
  - destruct (eval e) as [w1|]; [|done]. by injection E as <-.
  - destruct (eval e) as [w1|]; [|done]. destruct m; cbn in E;
      try (injection E as <-; first [exact (IH w1 T eq_refl)|by split]).
    + injection E as <-. cbn [given]. destruct T as [Hg T]. specialize (IH w1 T eq_refl). by rewrite Hg in *.
    + unfold wl_into_sequential in E. destruct (has_dup _); [done|]. injection E as <-. exact (IH w1 T eq_refl).
  - destruct (eval e1) as [w1|]; [|done]. destruct (eval e2) as [w2|]; [|done]. injection E as <-. exact (IH1 w1 T eq_refl).
  - destruct (eval e1) as [w1|]; [|done]. destruct (eval e2) as [w2|]; [|done]. injection E as <-. exact (IH1 w1 T eq_refl).
Qed.

(** A workload that is accepted is stored under the name it was given, or else under the function's, and was
    not there before. *)
Theorem C82_stored e w f sc sc' info ba order :
  name_kept e → eval e = Some w → add_workload f w sc = Some (sc', inr (info, ba, order)) →
  sc_workloads sc !! LName (default f (given e)) = None ∧
  sc_workloads sc' = <[LName (default f (given e)) := ba]> (sc_workloads sc).
Proof.
  intros T E A. destruct (add_wf _ _ _ _ _ _ _ (eval_wf _ _ E) A) as (w' & Hwf & _ & Hn & Hc).
  destruct (create_ok_wf _ _ _ _ _ _ Hwf Hc) as (_ & H1 & H2). rewrite Hn in H1, H2.
  pose proof (eval_name e w T E) as G. destruct (given e) as [n|].
  - destruct G as [G1 G2]. by rewrite G1, G2 in *.
  - by rewrite G in *.
Qed.

(** fn w() -> Workload { b.into_workload().rename("X") }   fn w2() -> Workload { w.run_if(..) }
    world.add_workload(w2): found under the label of [w], neither under "X" nor under [w2]. *)
Definition renamed : wx := XMod (WRunIf (CBase 7)) (XMod (WFun 30) (XMod (WRename 5) (XSingle 21 sysB))).
Definition renamed_w : workload := Eval vm_compute in default (wl_new (LName 0)) (eval renamed).
Definition renamed_made := Eval vm_compute in add_workload 40 renamed_w sched0.
Theorem C82_name_refuted :
  ∃ e w f sc sc' r n, eval e = Some w ∧ given e = Some n ∧ add_workload f w sc = Some (sc', inr r) ∧
    sc_workloads sc' !! LName n = None ∧ sc_workloads sc' !! LName f = None ∧
    is_Some (sc_workloads sc' !! LName 30).
Proof.
  exists renamed, renamed_w, 40%N, sched0.
  destruct renamed_made as [[sc' [|r]]|] eqn:E; [discriminate E| |discriminate E].
  exists sc', r, 5%N. split; [reflexivity|]. split; [reflexivity|]. split; [by rewrite <-E|].
  unfold renamed_made in E. injection E as <- _. split; [reflexivity|]. split; [reflexivity|]. by eexists.
Qed.

(** * A case *)

(** (a.before_all("X"), (b, c.after_all("Y")).into_workload().rename("X"), Workload::new("Y").with_system(d)) :
    four systems; a runs before b and c, d before c. *)
Definition ex : wx :=
  XMerge (XMerge (XTuple1 100 (XSingle 11 sysA))
    (XMod (WRename 5) (XMerge (XTuple1 101 (XSingle 21 sysB)) (XSingle 31 (Sx 3 3 30 [] [MAfter 6])))))
    (XMod (WSystem (Sx 4 4 45 [] [])) (XNew 6)).
Definition ex_w : workload := Eval vm_compute in default (wl_new (LName 0)) (eval ex).
Definition ex_made := Eval vm_compute in add_workload 40 ex_w sched0.
Example C82_case :
  tidy ex ∧ name_kept ex ∧ eval ex = Some ex_w ∧
  labels_of ex = [[10; 11]; [20; 21; 5]; [30; 31; 5]; [45; 6]]%N ∧
  befores_of ex = [[5]; []; []; []]%N ∧ afters_of ex = [[]; []; [6]; []]%N ∧
  ∃ sc' info ba order, add_workload 40 ex_w sched0 = Some (sc', inr (info, ba, order)) ∧
    runs_before info order 0 1 ∧ runs_before info order 0 2 ∧ runs_before info order 3 2 ∧
    sc_workloads sc' !! LName 40 = Some ba.
Proof.
  assert (T : tidy ex) by (cbn; tauto). assert (K : name_kept ex) by (cbn; tauto).
  assert (E : eval ex = Some ex_w) by reflexivity.
  split; [done|]. split; [done|]. split; [done|]. split; [done|]. split; [done|]. split; [done|].
  destruct ex_made as [[sc' [|[[info ba] order]]]|] eqn:M; [discriminate M| |discriminate M].
  exists sc', info, ba, order. assert (A : add_workload 40 ex_w sched0 = Some (sc', inr (info, ba, order))) by (by rewrite <-M).
  split; [done|]. split; [|split; [|split]].
  - eapply (C82_before_all ex); [done|exact E|exact A|reflexivity|reflexivity|by left|by do 2 right; left|done].
  - eapply (C82_before_all ex); [done|exact E|exact A|reflexivity|reflexivity|by left|by do 2 right; left|done].
  - eapply (C82_after_all ex _ _ _ _ _ _ _ 2 3); [done|exact E|exact A|reflexivity|reflexivity|by left|by right; left|done].
  - destruct (C82_stored _ _ _ _ _ _ _ _ K E A) as [_ ->]. apply lookup_insert.
Qed.
(** A tuple made sequential. *)
Definition seq_es : list wx := [XSingle 31 (Sx 3 3 30 [] []); XSingle 11 sysA; XMod (WRename 5) (XSingle 21 sysB)].
Definition seq_ws : list workload := Eval vm_compute in omap eval seq_es.
Definition seq_w : workload :=
  Eval vm_compute in default (wl_new (LName 0)) (tuple_into_sequential (LName 100) seq_ws).
Definition seq_made := Eval vm_compute in add_workload 40 seq_w sched0.
Definition seq_e : wx := Eval vm_compute in default (XNew 0) (tuple 100 seq_es).
Example C82_sequential_case :
  Forall2 (λ e w, eval e = Some w) seq_es seq_ws ∧ tuple 100 seq_es = Some seq_e ∧ tidy seq_e ∧
  tuple_into_sequential (LName 100) seq_ws = Some seq_w ∧
  ∃ sc' info ba order, add_workload 40 seq_w sched0 = Some (sc', inr (info, ba, order)) ∧ runs_before info order 1 2.
Proof.
  assert (H : Forall2 (λ e w, eval e = Some w) seq_es seq_ws) by repeat constructor.
  assert (T : tidy seq_e) by (cbn; tauto).
  assert (E : tuple_into_sequential (LName 100) seq_ws = Some seq_w) by (vm_compute; reflexivity).
  split; [exact H|]. split; [reflexivity|]. split; [exact T|]. split; [exact E|].
  destruct seq_made as [[sc' [|[[info ba] order]]]|] eqn:M; [discriminate M| |discriminate M].
  assert (A : add_workload 40 seq_w sched0 = Some (sc', inr (info, ba, order))).
  { rewrite <-M. vm_compute. reflexivity. }
  exists sc', info, ba, order. split; [exact A|]. clear M.
  assert (L1 : befores_of seq_e !! 1 = Some [5%N]) by reflexivity.
  assert (L2 : labels_of seq_e !! 2 = Some [20; 21; 5]%N) by reflexivity.
  eapply (C82_sequential_before_all 100 seq_es seq_ws seq_e seq_w); [exact H|reflexivity|exact E|exact T|exact A|exact L1|exact L2| | |].
  - by left.
  - by do 2 right; left.
  - done.
Qed.

Print Assumptions C82_before_all.
Print Assumptions C82_after_all.
Print Assumptions C82_exact.
Print Assumptions C82_sequential_before_all.
Print Assumptions C82_sequential_after_all.
Print Assumptions C82_merge_refuted.
Print Assumptions C82_stored.
Print Assumptions C82_name_refuted.
Print Assumptions C82_case.
Print Assumptions C82_sequential_case.
