(** From the loops to the declarations. *)
From stdpp Require Import prelude list gmap relations sorting.
From Verif Require Import Sched SchedSpec SchedProofs SchedProofs2.
Local Open Scope nat_scope.

(** * Built workloads are well-formed *)

Lemma user_LName n : user_label (LName n).
Proof. by intros k. Qed.
Lemma user_LSeq l : user_label (LSeq l).
Proof. by intros k. Qed.
Global Hint Resolve user_LName user_LSeq : core.

Lemma dl_add_elem x y l : y ∈ dl_add x l ↔ y = x ∨ y ∈ l.
Proof.
  unfold dl_add. case_bool_decide.
  - split; [by right|]. by intros [->|].
  - rewrite elem_of_app, elem_of_list_singleton. tauto.
Qed.
Lemma dl_extend_elem y l xs : y ∈ dl_extend l xs ↔ y ∈ l ∨ y ∈ xs.
Proof.
  unfold dl_extend. revert l. induction xs as [|x xs IH]; intros l; cbn [fold_left].
  - rewrite elem_of_nil. tauto.
  - rewrite IH, dl_add_elem, elem_of_cons. tauto.
Qed.
Lemma dl_add_user (P : label → Prop) x l : P x → Forall P l → Forall P (dl_add x l).
Proof. rewrite !Forall_forall. intros Hx Hl y Hy. apply dl_add_elem in Hy as [->|]; auto. Qed.
Lemma dl_extend_user (P : label → Prop) l xs : Forall P l → Forall P xs → Forall P (dl_extend l xs).
Proof.
  rewrite !Forall_forall. intros Hl Hxs y Hy. apply dl_extend_elem in Hy as []; auto.
Qed.

Lemma declared_wf s : declared s → wf_wsys s ∧ w_uid s = 0.
Proof.
  induction 1 as [| | | | | | | |];
    repeat match goal with H : _ ∧ w_uid _ = 0 |- _ => destruct H as [(?&?&?&?&?&?&?) ?] end;
    unfold wf_wsys; cbn [mk_wsys s_tag s_before_all s_after_all s_require_in s_require_before
      s_require_after s_run_if s_skip_if w_tags w_before_all w_after_all w_before w_req_in
      w_req_before w_req_after w_uid];
    split_and!; try done; try (apply dl_add_user; done).
  - by repeat constructor.
  - apply Forall_app. split; [done|]. by repeat constructor.
Qed.

Lemma wf_shift n s : wf_wsys s → wf_wsys (s_shift n s).
Proof. done. Qed.

Lemma wf_propagate w : wf_workload w → wf_workload (wl_propagate w).
Proof.
  intros (H1 & H2 & H3 & H4 & H5 & H6 & H7 & H8 & H9).
  unfold wf_workload, wl_propagate.
  cbn [wl_systems wl_barriers wl_name wl_tags wl_before_all wl_after_all wl_req_before wl_req_after].
  rewrite map_length. split_and!; try done; try constructor.
  - apply Forall_fmap. eapply Forall_impl; [exact H1|].
    intros s (?&?&?&?&?&?&?). unfold wf_wsys, compose.
    cbn [propagate_sys w_tags w_before_all w_after_all w_before w_req_in w_req_before w_req_after].
    split_and!; try done; try (by apply dl_extend_user). by apply Forall_app.
  - intros i s Hs. apply list_lookup_fmap_Some in Hs as (s' & Hs' & ->).
    cbn [propagate_sys w_uid]. by apply H2.
Qed.

Lemma wf_append_systems ss ss' :
  Forall wf_wsys ss → (∀ i s, ss !! i = Some s → w_uid s = i) →
  Forall wf_wsys ss' → (∀ i s, ss' !! i = Some s → w_uid s = i) →
  Forall wf_wsys (ss ++ map (s_shift (length ss)) ss') ∧
  (∀ i s, (ss ++ map (s_shift (length ss)) ss') !! i = Some s → w_uid s = i).
Proof.
  intros H1 H2 H3 H4. split.
  - apply Forall_app. split; [done|]. apply Forall_fmap. exact H3.
  - intros i s Hs. apply lookup_app_Some in Hs as [Hs|[Hi Hs]]; [by apply H2|].
    apply list_lookup_fmap_Some in Hs as (s' & Hs' & ->). cbn [s_shift w_uid].
    rewrite (H4 _ _ Hs'). lia.
Qed.

Lemma wf_append w o : wf_workload w → wf_workload o → wf_workload (wl_append w o).
Proof.
  intros (H1 & H2 & H3 & Hr) (G1 & G2 & G3 & _).
  destruct (wf_append_systems _ _ H1 H2 G1 G2) as [K1 K2].
  unfold wf_workload, wl_append, wl_set_systems.
  cbn [wl_systems wl_barriers wl_name wl_tags wl_before_all wl_after_all wl_req_before wl_req_after].
  split_and!; try tauto; [done..|].
  eapply Forall_impl; [exact H3|]. simpl. intros. rewrite app_length. lia.
Qed.

Lemma wf_merge w o : wf_workload w → wf_workload o → wf_workload (wl_merge w o).
Proof.
  intros Hw Ho. unfold wl_merge. apply wf_propagate in Hw, Ho.
  revert Hw Ho. generalize (wl_propagate w) as w', (wl_propagate o) as o'. clear.
  intros w o (H1 & H2 & H3 & Hr) (G1 & G2 & G3 & _).
  destruct (wf_append_systems _ _ H1 H2 G1 G2) as [K1 K2].
  unfold wf_workload, wl_append, wl_set_systems.
  cbn [wl_systems wl_barriers wl_name wl_tags wl_before_all wl_after_all wl_req_before wl_req_after].
  split_and!; try tauto; [done..|].
  rewrite app_length, map_length. apply Forall_app. split.
  - eapply Forall_impl; [exact H3|]. simpl. intros. lia.
  - apply Forall_fmap. eapply Forall_impl; [exact G3|]. unfold compose. intros. lia.
Qed.

Lemma wf_start n : wf_workload (tuple_start (LName n)).
Proof.
  unfold wf_workload, tuple_start.
  cbn [wl_systems wl_barriers wl_name wl_tags wl_before_all wl_after_all wl_req_before wl_req_after].
  split_and!; try done; try constructor; try done.
Qed.
Lemma wf_tag t w : user_label t → wf_workload w → wf_workload (wl_tag t w).
Proof.
  intros Ht (?&?&?&?&?&?). unfold wf_workload, wl_tag.
  cbn [wl_systems wl_barriers wl_name wl_tags wl_before_all wl_after_all wl_req_before wl_req_after].
  split_and!; try tauto. apply Forall_app. split; [done|]. by repeat constructor.
Qed.
Lemma wf_before t w : user_label t → wf_workload w → wf_workload (wl_before t w).
Proof.
  intros Ht (?&?&?&?&?&?&?). unfold wf_workload, wl_before.
  cbn [wl_systems wl_barriers wl_name wl_tags wl_before_all wl_after_all wl_req_before wl_req_after].
  split_and!; try tauto. by apply dl_add_user.
Qed.

Lemma wf_seq_merge acc ws tags :
  wf_workload acc → (∀ w, w ∈ ws → wf_workload w) → Forall user_label tags →
  wf_workload (seq_merge acc ws tags).
Proof.
  revert acc tags. induction ws as [|w ws IH]; intros acc tags Ha Hws Ht; [done|].
  cbn [seq_merge]. apply IH.
  - apply wf_merge; [done|]. destruct tags as [|t tags].
    + apply Hws. by left.
    + apply wf_before; [exact (proj1 (Forall_cons_1 _ _ _ Ht))|]. apply Hws. by left.
  - intros w' Hw'. apply Hws. by right.
  - destruct tags; [done|]. exact (proj2 (Forall_cons_1 _ _ _ Ht)).
Qed.

Lemma wf_seq_systems ss :
  Forall wf_wsys ss → Forall wf_wsys (seq_systems ss) ∧
  length (seq_systems ss) = length ss ∧
  (∀ i s, seq_systems ss !! i = Some s → ∃ s', ss !! i = Some s' ∧ w_uid s = w_uid s').
Proof.
  induction 1 as [|s ss Hs Hss IH]; [split_and!; [constructor|done|intros i x Hx; cbn in Hx; done]|].
  destruct ss as [|n ss].
  { split_and!; [by constructor|done|]. intros i x Hx. eauto. }
  destruct IH as (I1 & I2 & I3).
  change (seq_systems (s :: n :: ss)) with
    (s_before_all (LSeq (LName (w_type n))) s :: seq_systems (n :: ss)).
  split_and!.
  - constructor; [|done]. destruct Hs as (?&?&?&?&?). split_and!; try tauto.
    cbn [s_before_all w_before_all]. by apply dl_add_user.
  - cbn [length]. rewrite I2. done.
  - intros [|i] x Hx; cbn in Hx.
    + injection Hx as <-. exists s. done.
    + apply I3 in Hx. done.
Qed.

Lemma built_wf w : built w → wf_workload w.
Proof.
  induction 1 as [n|s w Hs Hw IH|w Hw IH|w o Hw IHw Ho IHo|w o Hw IHw Ho IHo|n w Hw IH|n w Hw IH
    |n w Hw IH|n w Hw IH|c w Hw IH|n s Hs|n ws Hws IH|n ws w' Hws IH Hseq|w w' Hw IH Hseq].
  - unfold wf_workload, wl_new.
    cbn [wl_systems wl_barriers wl_name wl_tags wl_before_all wl_after_all wl_req_before wl_req_after].
    split_and!; try done; try constructor; try done.
  - apply declared_wf in Hs as [Hs Hu].
    destruct IH as (H1 & H2 & H3 & Hr). unfold wf_workload, wl_with_system, wl_set_systems.
    cbn [wl_systems wl_barriers wl_name wl_tags wl_before_all wl_after_all wl_req_before wl_req_after].
    split_and!; try tauto.
    + apply Forall_app. split; [done|]. constructor; [exact Hs|constructor].
    + intros i x Hx. apply lookup_app_Some in Hx as [Hx|[Hi Hx]]; [by apply H2|].
      apply list_lookup_singleton_Some in Hx as [Hx <-]. cbn [s_shift w_uid]. lia.
    + eapply Forall_impl; [exact H3|]. simpl. intros. rewrite app_length. lia.
  - destruct IH as (H1 & H2 & H3 & Hr). unfold wf_workload, wl_with_barrier.
    cbn [wl_systems wl_barriers wl_name wl_tags wl_before_all wl_after_all wl_req_before wl_req_after].
    split_and!; try tauto. apply Forall_app. split; [done|]. by repeat constructor.
  - by apply wf_merge.
  - by apply wf_append.
  - by apply wf_tag.
  - destruct IH as (H1 & H2 & H3 & H4 & H5 & Hr). unfold wf_workload, wl_rename.
    cbn [wl_systems wl_barriers wl_name wl_tags wl_before_all wl_after_all wl_req_before wl_req_after].
    split_and!; try tauto; [done|]. apply Forall_app. split; [done|]. by repeat constructor.
  - by apply wf_before.
  - destruct IH as (H1 & H2 & H3 & H4 & H5 & H6 & H7 & Hr). unfold wf_workload, wl_after.
    cbn [wl_systems wl_barriers wl_name wl_tags wl_before_all wl_after_all wl_req_before wl_req_after].
    split_and!; try tauto. by apply dl_add_user.
  - exact IH.
  - apply declared_wf in Hs as [Hs Hu]. unfold wf_workload, single_workload.
    cbn [wl_systems wl_barriers wl_name wl_tags wl_before_all wl_after_all wl_req_before wl_req_after].
    split_and!; try done; try (constructor; [done|constructor]); try constructor.
    intros [|i] x Hx; cbn in Hx; [by injection Hx as <-|done].
  - unfold tuple_into_workload.
    assert (Hg : ∀ acc, wf_workload acc → wf_workload (fold_left wl_merge ws acc)).
    { clear Hws. induction ws as [|w ws IHws]; intros acc Hacc; [done|]. cbn [fold_left].
      apply IHws; [intros; apply IH; by right|]. apply wf_merge; [done|]. apply IH. by left. }
    apply Hg, wf_start.
  - unfold tuple_into_sequential in Hseq. destruct (has_dup _); [done|]. injection Hseq as <-.
    apply wf_seq_merge; [apply wf_start| |].
    + intros w Hw. apply elem_of_list_fmap in Hw as (w0 & -> & Hw0). apply wf_tag; [done|].
      by apply IH.
    + apply Forall_forall. intros l Hl.
      assert (l ∈ map (λ w, LSeq (wl_name w)) ws) as Hl'.
      { destruct ws; [done|]. cbn [map tail] in *. by right. }
      apply elem_of_list_fmap in Hl' as (w0 & -> & _). done.
  - unfold wl_into_sequential in Hseq. destruct (has_dup _); [done|]. injection Hseq as <-.
    destruct IH as (H1 & H2 & H3 & Hr). destruct (wf_seq_systems _ H1) as (G1 & G2 & G3).
    unfold wf_workload, wl_set_systems.
    cbn [wl_systems wl_barriers wl_name wl_tags wl_before_all wl_after_all wl_req_before wl_req_after].
    split_and!; try tauto.
    + intros i s Hs. destruct (G3 i s Hs) as (s' & Hs' & ->). by apply H2.
    + by rewrite G2.
Qed.

Lemma tc_mono {A} (R S : A → A → Prop) a b :
  (∀ a b, R a b → tc S a b) → tc R a b → tc S a b.
Proof.
  intros H. induction 1 as [a b Hab|a b c Hab _ IH]; [by apply H|].
  eapply tc_transitive; [by apply H|done].
Qed.

(** * The result of building *)

Section result.
  Context (w : workload) (f : fns).
  Hypothesis Hwf : wf_workload w.
  Let ss := wl_systems w.
  Let bars := wl_barriers w.
  Let ps := placed ss bars f.

  Lemma Hsys : Forall wf_wsys ss.
  Proof. exact (proj1 Hwf). Qed.

  Lemma placed_inv i s : ps !! i = Some s → ∃ x, ss !! i = Some x.
  Proof.
    intros H. apply lookup_lt_is_Some. rewrite <-(placed_length ss bars f Hsys).
    by apply lookup_lt_Some in H.
  Qed.

  Lemma placed_tag i s : ps !! i = Some s → pos s = i ∧ ∀ j, LUid j ∈ p_tags s ↔ j = i.
  Proof.
    intros Hs. destruct (placed_inv i s Hs) as [x Hx].
    destruct (placed_lookup ss bars f Hsys i x Hx) as (s' & Hs' & _ & Ht & _).
    fold ps in Hs'. rewrite Hs in Hs'. injection Hs' as <-.
    destruct Hwf as (H1 & H2 & _). pose proof (H2 i x Hx) as Hu.
    split.
    - unfold pos. by rewrite Ht, last_snoc.
    - intros j. rewrite Ht, elem_of_app, elem_of_list_singleton, Hu. split; [|naive_solver].
      intros [Hj|[= ->]]; [|done]. exfalso. rewrite Forall_lookup in H1.
      destruct (H1 i x Hx) as (Hu' & _). rewrite Forall_forall in Hu'.
      by destruct (Hu' _ Hj j).
  Qed.

  Lemma placed_dep_lt i s j : ps !! i = Some s → j ∈ p_hard s ∨ j ∈ p_soft s → j < length ps.
  Proof.
    intros Hs Hj. pose proof Hs as Hi. apply lookup_lt_Some in Hi.
    destruct (placed_inv i s Hs) as [x Hx].
    destruct (placed_lookup ss bars f Hsys i x Hx) as
      (s' & Hs' & _ & _ & _ & _ & _ & _ & _ & Hh & Hso).
    fold ps in Hs'. rewrite Hs in Hs'. injection Hs' as <-.
    rewrite Hh, Hso in Hj. unfold ps in *. rewrite (placed_length ss bars f Hsys) in *.
    destruct Hj as [[(k & _ & ? & ?)|[(_ & ? & _)|(_ & sa & sb & Hsa & _)]]|(_ & ? & _)];
      try lia. by apply lookup_lt_Some in Hsa.
  Qed.

  (** The links between systems, in terms of the declarations. *)
  Lemma dep_edge j i : dep ps j i → order_edge ss bars j i.
  Proof.
    intros (s & Hs & Hj). destruct (placed_inv i s Hs) as [x Hx].
    destruct (placed_lookup ss bars f Hsys i x Hx) as
      (s' & Hs' & _ & _ & _ & _ & _ & _ & _ & Hh & Hso).
    fold ps in Hs'. rewrite Hs in Hs'. injection Hs' as <-.
    rewrite Hh, Hso in Hj. unfold order_edge.
    destruct Hj as [[(k & ? & ? & ?)|[(Ho & Hlt & (o & Ho1 & Ho2 & _) & _)|He]]|
      (Ho & Hlt & (o & Ho1 & Ho2) & _)].
    - right. left. split; [by apply lookup_lt_Some in Hx|]. eauto.
    - right. right. split; [done|]. by exists o, x.
    - by left.
    - right. right. split; [done|]. by exists o, x.
  Qed.

  Lemma declared_first_soft j i :
    declared_first ss j i →
    tc (λ a b, ∃ s, ps !! b = Some s ∧ a ∈ p_soft s) j i.
  Proof.
    intros (Hlt & sj & si & Hsj & Hsi & Hoj & Hoi).
    revert si Hsi Hoi. induction i as [i IH] using lt_wf_ind. intros si Hsi Hoi.
    destruct (placed_lookup ss bars f Hsys i si Hsi) as
      (s & Hs & _ & _ & _ & _ & _ & _ & _ & _ & Hso).
    assert (∃ k, nearest (λ k, ∃ o, ss !! k = Some o ∧ ¬ opted_out o) k i) as [k Hk].
    { assert (Hdec : ∀ k, Decision (∃ o, ss !! k = Some o ∧ ¬ opted_out o)).
      { intros k. destruct (ss !! k) as [o|] eqn:E.
        - assert (Decision (opted_out o)) as [H|H].
          { unfold opted_out. apply _. }
          + right. intros (o' & [= <-] & ?). done.
          + left. eauto.
        - right. by intros (? & [=] & ?). }
      assert (∀ n, n < i → (∃ k, nearest (λ k, ∃ o, ss !! k = Some o ∧ ¬ opted_out o) k i) ∨
        ∀ k, n ≤ k → k < i → ¬ ∃ o, ss !! k = Some o ∧ ¬ opted_out o) as Hn.
      { intros n Hn. remember (i - n) as d eqn:Ed. revert n Hn Ed.
        induction d as [|d IHd]; intros n Hn Ed; [lia|].
        destruct (decide (S n < i)) as [Hs1|Hs1].
        - destruct (IHd (S n)) as [?|Hnone]; [lia..|by left|].
          destruct (Hdec n) as [Hy|Hy].
          + left. exists n. split; [done|]. split; [done|]. intros k Hk1 Hk2. apply Hnone; lia.
          + right. intros k Hk1 Hk2. destruct (decide (k = n)) as [->|]; [done|].
            apply Hnone; lia.
        - destruct (Hdec n) as [Hy|Hy].
          + left. exists n. split; [done|]. split; [done|]. intros k Hk1 Hk2. lia.
          + right. intros k Hk1 Hk2. assert (k = n) as -> by lia. done. }
      destruct (Hn j Hlt) as [?|Hnone]; [done|]. exfalso. apply (Hnone j); [lia..|]. eauto. }
    assert (Hki : k ∈ p_soft s) by (by apply Hso).
    destruct Hk as (Hk1 & (o & Ho1 & Ho2) & Hk3).
    destruct (lt_eq_lt_dec j k) as [[Hjk| -> ]|Hjk].
    - eapply tc_r; [|by exists s]. by eapply IH.
    - apply tc_once. by exists s.
    - exfalso. apply (Hk3 j); [done..|]. eauto.
  Qed.

  Lemma edge_dep j i : order_edge ss bars j i → tc (dep ps) j i.
  Proof.
    intros [He|[Hb|Hd]].
    - apply tc_once. destruct He as (Hne & sa & sb & Hsa & Hsb & Hl).
      destruct (placed_lookup ss bars f Hsys i sb Hsb) as
        (s & Hs & _ & _ & _ & _ & _ & _ & _ & Hh & _).
      exists s. split; [done|]. left. apply Hh. right. right.
      split; [done|]. by exists sa, sb.
    - apply tc_once. destruct Hb as (Hi & k & Hk & ? & ?).
      assert (∃ sb, ss !! i = Some sb) as [sb Hsb] by (by apply lookup_lt_is_Some).
      destruct (placed_lookup ss bars f Hsys i sb Hsb) as
        (s & Hs & _ & _ & _ & _ & _ & _ & _ & Hh & _).
      exists s. split; [done|]. left. apply Hh. left. eauto.
    - apply declared_first_soft in Hd. clear -Hd. induction Hd as [a b (s & ? & ?)|a b c (s & ? & ?)].
      + apply tc_once. exists s. auto.
      + eapply tc_l; [|done]. exists s. auto.
  Qed.

  Lemma acyclic_iff : acyclic (dep ps) ↔ acyclic (order_edge ss bars).
  Proof.
    split; intros Ha x Hx; apply (Ha x).
    - eapply tc_mono; [|exact Hx]. intros a b. apply edge_dep.
    - eapply tc_mono; [|exact Hx]. intros a b H. by apply tc_once, dep_edge.
  Qed.
End result.

(** ** Positions of systems in batches and in the sequence *)

Section positions.
  Context (ps : list psys) (info : list binfo) (order : list psys) (segs : list (list psys)).
  Hypothesis HP : Placed ps info order segs.

  Lemma pos_nodup : NoDup (map pos (concat segs)).
  Proof. rewrite (pl_perm _ _ _ _ HP). apply NoDup_seq. Qed.

  Lemma seg_members k : info !! k = to_binfo <$> segs !! k.
  Proof. rewrite (pl_info _ _ _ _ HP). apply list_lookup_fmap. Qed.

  Lemma in_batch_seg i k :
    in_batch info i k ↔ ∃ seg s, segs !! k = Some seg ∧ s ∈ seg ∧ pos s = i.
  Proof.
    unfold in_batch. rewrite seg_members. split.
    - intros (b & s & Hb & Hs & Hp). apply fmap_Some in Hb as (seg & Hseg & ->).
      rewrite members_perm in Hs by (eapply pl_free; [exact HP|]; by eapply elem_of_list_lookup_2).
      eauto.
    - intros (seg & s & Hseg & Hs & Hp). rewrite Hseg. exists (to_binfo seg), s.
      rewrite members_perm by (eapply pl_free; [exact HP|]; by eapply elem_of_list_lookup_2).
      done.
  Qed.

  (** The position in the sequence of an element of a batch. *)
  Lemma seg_lookup k seg a :
    segs !! k = Some seg → a < length seg →
    concat segs !! (length (concat (take k segs)) + a) = seg !! a.
  Proof.
    intros Hk Ha.
    assert (concat segs = concat (take k segs) ++ seg ++ concat (drop (S k) segs)) as Hc.
    { pose proof (f_equal (@concat psys) (take_drop_middle segs k seg Hk)) as Hc.
      rewrite concat_app in Hc. by rewrite <-Hc. }
    rewrite Hc, lookup_app_r by lia. rewrite Nat.add_comm, Nat.add_sub.
    by rewrite lookup_app_l by done.
  Qed.

  Lemma take_concat_mono k k' seg : k < k' → segs !! k = Some seg →
    length (concat (take k segs)) + length seg ≤ length (concat (take k' segs)).
  Proof.
    intros Hlt Hk.
    assert (take k' segs = take k segs ++ seg :: drop (S k) (take k' segs)) as ->.
    { rewrite <-(take_drop_middle (take k' segs) k seg) at 1.
      - rewrite take_take, Nat.min_l by lia. done.
      - by rewrite lookup_take. }
    rewrite concat_app, app_length. cbn [concat]. rewrite app_length. lia.
  Qed.

  Lemma in_batch_seq_lt i j ki kj :
    in_batch info i ki → in_batch info j kj → ki < kj →
    ∃ a b, in_seq order i a ∧ in_seq order j b ∧ a < b.
  Proof.
    intros Hi Hj Hlt. apply in_batch_seg in Hi as (segi & si & Hki & Hsi & Hpi).
    apply in_batch_seg in Hj as (segj & sj & Hkj & Hsj & Hpj).
    apply elem_of_list_lookup in Hsi as [a Ha]. apply elem_of_list_lookup in Hsj as [b Hb].
    pose proof (lookup_lt_Some _ _ _ Ha). pose proof (lookup_lt_Some _ _ _ Hb).
    exists (length (concat (take ki segs)) + a), (length (concat (take kj segs)) + b).
    unfold in_seq. rewrite (pl_order _ _ _ _ HP).
    rewrite !(seg_lookup _ _ _ Hki), !(seg_lookup _ _ _ Hkj) by done.
    split_and!; [eauto..|]. pose proof (take_concat_mono ki kj segi Hlt Hki). lia.
  Qed.

  Lemma in_seq_unique i a b : in_seq order i a → in_seq order i b → a = b.
  Proof.
    intros (s & Hs & Hp) (s' & Hs' & Hp'). rewrite (pl_order _ _ _ _ HP) in Hs, Hs'.
    eapply NoDup_lookup; [exact pos_nodup| |].
    - rewrite list_lookup_fmap, Hs. simpl. by rewrite Hp.
    - rewrite list_lookup_fmap, Hs'. simpl. by rewrite Hp'.
  Qed.
  Lemma in_batch_unique i k k' : in_batch info i k → in_batch info i k' → k = k'.
  Proof.
    intros H1 H2. destruct (lt_eq_lt_dec k k') as [[Hlt| -> ]|Hlt]; [|done|].
    - destruct (in_batch_seq_lt i i k k' H1 H2 Hlt) as (a & b & Ha & Hb & Hab).
      pose proof (in_seq_unique i a b Ha Hb). lia.
    - destruct (in_batch_seq_lt i i k' k H2 H1 Hlt) as (a & b & Ha & Hb & Hab).
      pose proof (in_seq_unique i a b Ha Hb). lia.
  Qed.

  Lemma in_batch_exists i : i < length ps → ∃ k, in_batch info i k.
  Proof.
    intros Hi.
    assert (i ∈ map pos (concat segs)) as H.
    { rewrite (pl_perm _ _ _ _ HP). apply elem_of_seq. lia. }
    apply elem_of_list_fmap in H as (s & -> & Hs).
    apply elem_of_list_In, in_concat in Hs as (seg & Hseg & Hs).
    apply elem_of_list_In, elem_of_list_lookup in Hseg as [k Hk].
    exists k. apply in_batch_seg. exists seg, s. by rewrite elem_of_list_In.
  Qed.
  Lemma in_seq_exists i : i < length ps → ∃ k, in_seq order i k.
  Proof.
    intros Hi.
    assert (i ∈ map pos (concat segs)) as H.
    { rewrite (pl_perm _ _ _ _ HP). apply elem_of_seq. lia. }
    apply elem_of_list_fmap in H as (s & -> & Hs).
    apply elem_of_list_lookup in Hs as [k Hk]. exists k, s. by rewrite (pl_order _ _ _ _ HP).
  Qed.

  Lemma batch_lt_runs_before i j :
    (∃ ki kj, in_batch info i ki ∧ in_batch info j kj ∧ ki < kj) → runs_before info order i j.
  Proof.
    intros H. split; [done|]. destruct H as (ki & kj & Hi & Hj & Hlt).
    by eapply in_batch_seq_lt.
  Qed.

  Lemma runs_before_trans i j k :
    runs_before info order i j → runs_before info order j k → runs_before info order i k.
  Proof.
    intros [(a & b & Ha & Hb & Hab) _] [(c & d & Hc & Hd & Hcd) _].
    apply batch_lt_runs_before. pose proof (in_batch_unique j b c Hb Hc).
    exists a, d. split_and!; [done..|]. lia.
  Qed.
  Lemma runs_before_irrefl i : ¬ runs_before info order i i.
  Proof.
    intros [(a & b & Ha & Hb & Hab) _]. pose proof (in_batch_unique i a b Ha Hb). lia.
  Qed.

  Lemma hard_runs_before i j s : ps !! i = Some s → j ∈ p_hard s → runs_before info order j i.
  Proof.
    intros Hs Hj. apply batch_lt_runs_before.
    destruct (in_batch_exists i) as [k Hk]; [by apply lookup_lt_Some in Hs|].
    pose proof Hk as Hk0. apply in_batch_seg in Hk as (seg & x & Hseg & Hx & Hp).
    rewrite <-Hp in Hs.
    destruct (pl_hard _ _ _ _ HP k seg x s j Hseg Hx Hs Hj) as (k' & seg' & x' & ? & ? & ? & ?).
    exists k', k. split_and!; [|done|done]. apply in_batch_seg. eauto.
  Qed.

  Lemma dep_seq i j : dep ps j i → ∃ a b, in_seq order j a ∧ in_seq order i b ∧ a < b.
  Proof.
    intros (s & Hs & Hj). destruct (in_seq_exists i) as [b Hb]; [by apply lookup_lt_Some in Hs|].
    pose proof Hb as Hb0. destruct Hb as (x & Hx & Hp). rewrite (pl_order _ _ _ _ HP) in Hx.
    rewrite <-Hp in Hs.
    destruct (pl_seq _ _ _ _ HP b x s j Hx Hs Hj) as (a & x' & Hab & Hx' & Hp').
    exists a, b. split_and!; [|done|done]. exists x'. by rewrite (pl_order _ _ _ _ HP).
  Qed.
  Lemma tc_dep_seq i j : tc (dep ps) j i → ∃ a b, in_seq order j a ∧ in_seq order i b ∧ a < b.
  Proof.
    induction 1 as [j i H|j k i H _ IH]; [by apply dep_seq|].
    apply dep_seq in H as (a & b & Ha & Hb & Hab). destruct IH as (c & d & Hc & Hd & Hcd).
    pose proof (in_seq_unique k b c Hb Hc). exists a, d. split_and!; [done..|]. lia.
  Qed.

  (** Earlier in the sequence and conflicting: a strictly earlier batch. *)
  Lemma clash_runs_before i j si sj a b :
    ps !! i = Some si → ps !! j = Some sj → clash (p_borrows si) (p_borrows sj) → i ≠ j →
    in_seq order i a → in_seq order j b → a < b → runs_before info order i j.
  Proof.
    intros Hsi Hsj Hc Hne Ha Hb Hab. apply batch_lt_runs_before.
    destruct (in_batch_exists i) as [ki Hki]; [by apply lookup_lt_Some in Hsi|].
    destruct (in_batch_exists j) as [kj Hkj]; [by apply lookup_lt_Some in Hsj|].
    exists ki, kj. split_and!; [done..|].
    destruct (lt_eq_lt_dec ki kj) as [[Hlt| -> ]|Hlt]; [done| |].
    - exfalso. apply in_batch_seg in Hki as (seg & x & Hseg & Hx & Hpx).
      apply in_batch_seg in Hkj as (seg' & y & Hseg' & Hy & Hpy).
      rewrite Hseg in Hseg'. injection Hseg' as <-.
      assert (Hcore : ∀ z, z ∈ seg → ∃ z0, ps !! pos z = Some z0 ∧ core_eq z z0).
      { intros z Hz. apply (pl_core _ _ _ _ HP). apply elem_of_list_In, in_concat.
        exists seg. rewrite <-!elem_of_list_In. split; [by eapply elem_of_list_lookup_2|done]. }
      destruct (Hcore x Hx) as (x0 & Hx0 & (_ & Bx & _)).
      destruct (Hcore y Hy) as (y0 & Hy0 & (_ & By & _)).
      rewrite Hpx, Hsi in Hx0. injection Hx0 as <-.
      rewrite Hpy, Hsj in Hy0. injection Hy0 as <-.
      rewrite <-Bx, <-By in Hc.
      apply elem_of_list_lookup in Hx as [p Hp]. apply elem_of_list_lookup in Hy as [q Hq].
      eapply (pl_free _ _ _ _ HP seg); [by eapply elem_of_list_lookup_2|exact Hp|exact Hq| |done].
      intros ->. rewrite Hp in Hq. injection Hq as ->. congruence.
    - exfalso. destruct (in_batch_seq_lt j i kj ki Hkj Hki Hlt) as (b' & a' & Hb' & Ha' & ?).
      pose proof (in_seq_unique i a a' Ha Ha'). pose proof (in_seq_unique j b b' Hb Hb'). lia.
  Qed.
End positions.

(** * The function registered for a system *)

Lemma fn_index_spec ty fn f f' i :
  fns_ok f → fn_index ty fn f = (f', i) →
  fns_ok f' ∧ f_lookup f' !! ty = Some i ∧ i < length (f_systems f') ∧
  (∀ ty' i', f_lookup f !! ty' = Some i' → f_lookup f' !! ty' = Some i') ∧
  (∀ i' x, f_systems f !! i' = Some x → f_systems f' !! i' = Some x) ∧
  (f_lookup f !! ty = None → f_systems f' !! i = Some fn) ∧
  (∀ ty' i', f_lookup f' !! ty' = Some i' →
     f_lookup f !! ty' = Some i' ∨ (ty' = ty ∧ f_systems f' !! i' = Some fn)).
Proof.
  intros Hok. unfold fn_index. destruct (f_lookup f !! ty) as [k|] eqn:E.
  - intros [= <- <-]. split_and!; try done; [by eapply Hok|]. by left.
  - intros [= <- <-]. cbn [f_lookup f_systems]. rewrite app_length. simpl.
    split_and!.
    + intros ty' i'. cbn [f_lookup f_systems]. rewrite app_length. simpl.
      rewrite lookup_insert_Some. intros [[_ <-]|[_ H]]; [lia|]. apply Hok in H. lia.
    + by rewrite lookup_insert.
    + lia.
    + intros ty' i' H. rewrite lookup_insert_ne; [done|]. congruence.
    + intros i' x H. by apply lookup_app_l_Some.
    + intros _. rewrite lookup_app_r by lia. by rewrite Nat.sub_diag.
    + intros ty' i'. rewrite lookup_insert_Some. intros [[<- <-]|[_ H]]; [|by left].
      right. split; [done|]. rewrite lookup_app_r by lia. by rewrite Nat.sub_diag.
Qed.

(** The table after adding systems: every system's type is in it, with the index stored
    in the placed system; older entries stay. *)
Lemma insert_systems_fns ss f f' ps :
  fns_ok f → insert_systems ss f = (f', ps) →
  fns_ok f' ∧
  (∀ ty i, f_lookup f !! ty = Some i → f_lookup f' !! ty = Some i) ∧
  (∀ i x, f_systems f !! i = Some x → f_systems f' !! i = Some x) ∧
  (∀ i s p, ss !! i = Some s → ps !! i = Some p → f_lookup f' !! w_type s = Some (p_index p)) ∧
  (∀ ty i, f_lookup f' !! ty = Some i → f_lookup f !! ty = Some i ∨
     ∃ s, s ∈ ss ∧ w_type s = ty ∧ f_systems f' !! i = Some (w_fn s)).
Proof.
  revert f f' ps. induction ss as [|s ss IH]; intros f f' ps Hok; cbn [insert_systems].
  - intros [= <- <-]. split_and!; try done. by left.
  - unfold place_sys. destruct (fn_index (w_type s) (w_fn s) f) as [f1 k] eqn:E1.
    destruct (insert_systems ss f1) as [f2 ps'] eqn:E2. intros [= <- <-].
    destruct (fn_index_spec _ _ _ _ _ Hok E1) as (A1 & A2 & A3 & A4 & A5 & A6 & A7).
    destruct (IH _ _ _ A1 E2) as (B1 & B2 & B3 & B4 & B5).
    split_and!; try done.
    + intros ty i H. by apply B2, A4.
    + intros i x H. by apply B3, A5.
    + intros [|i] x p Hx Hp; cbn in Hx, Hp.
      * injection Hx as <-. injection Hp as <-. cbn [p_index]. by apply B2.
      * by eapply B4.
    + intros ty i H. destruct (B5 ty i H) as [H1|(x & Hx & Ht & Hf)].
      * destruct (A7 ty i H1) as [H2|[-> H2]]; [by left|]. right. exists s.
        split_and!; [by left|done|]. by apply B3.
      * right. exists x. split_and!; [by right|done|done].
Qed.
