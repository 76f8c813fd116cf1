(** What the passes before the ordering compute: the constraints of each system. *)
From stdpp Require Import prelude list gmap relations sorting.
From Verif Require Import Sched SchedSpec.
Local Open Scope nat_scope.

(** * Small facts *)

Lemma uid_add_elem x y l : y ∈ uid_add x l ↔ y = x ∨ y ∈ l.
Proof.
  induction l as [|z l IH]; simpl; [set_solver|].
  destruct (x =? z) eqn:E1; [apply Nat.eqb_eq in E1; subst; set_solver|].
  destruct (x <? z) eqn:E2; set_solver.
Qed.

(** The vector stays sorted, which is what the code's binary search needs. *)
Lemma uid_add_sorted x l : StronglySorted lt l → StronglySorted lt (uid_add x l).
Proof.
  induction 1 as [|z l Hs IH Hf]; simpl; [repeat constructor|].
  destruct (Nat.eqb_spec x z) as [->|Hne]; [by constructor|].
  destruct (Nat.ltb_spec x z) as [Hlt|Hge].
  - constructor; [by constructor|]. constructor; [done|].
    eapply Forall_impl; [exact Hf|]. simpl. intros; lia.
  - constructor; [done|]. apply Forall_forall. intros y Hy.
    apply uid_add_elem in Hy as [->|Hy]; [lia|].
    rewrite Forall_forall in Hf. by apply Hf.
Qed.

Lemma overlap_true l1 l2 : overlap l1 l2 = true ↔ ∃ x, x ∈ l1 ∧ x ∈ l2.
Proof.
  unfold overlap. rewrite existsb_exists. split.
  - intros (x & Hx & Hy). apply existsb_exists in Hy as (y & Hy & Heq).
    apply bool_decide_eq_true in Heq as ->. exists y. by rewrite !elem_of_list_In.
  - intros (x & Hx & Hy). exists x. rewrite <-elem_of_list_In. split; [done|].
    apply existsb_exists. exists x. rewrite <-elem_of_list_In. by rewrite bool_decide_true.
Qed.

Lemma tinfo_conflict_true a b : tinfo_conflict a b = true ↔ borrow_clash a b.
Proof.
  unfold tinfo_conflict, borrow_clash.
  rewrite !orb_true_iff, !andb_true_iff, !negb_true_iff, orb_true_iff,
    !bool_decide_eq_true. tauto.
Qed.
Lemma check_conflict_true s bs : check_conflict s bs = true ↔ clash (p_borrows s) bs.
Proof.
  unfold check_conflict, clash. rewrite existsb_exists. split.
  - intros (a & Ha & Hb). apply existsb_exists in Hb as (b & Hb & Hc).
    exists a, b. rewrite !elem_of_list_In. by rewrite <-tinfo_conflict_true.
  - intros (a & b & Ha & Hb & Hc). exists a. rewrite <-elem_of_list_In. split; [done|].
    apply existsb_exists. exists b. rewrite <-elem_of_list_In.
    by rewrite tinfo_conflict_true.
Qed.
Lemma borrow_clash_sym a b : borrow_clash a b → borrow_clash b a.
Proof. unfold borrow_clash. intros [[H1 H2]|[[H1 H2]|[H|H]]]; [left; split; [done|]|..]; tauto. Qed.
Lemma clash_sym la lb : clash la lb → clash lb la.
Proof. intros (a & b & Ha & Hb & Hc). exists b, a. eauto using borrow_clash_sym. Qed.

Lemma find_down_Some f i j :
  find_down f i = Some j → j < i ∧ f j = true ∧ ∀ k, j < k → k < i → f k = false.
Proof.
  induction i as [|i IH]; simpl; [done|].
  destruct (f i) eqn:E.
  - intros [= ->]. split; [lia|]. split; [done|]. intros; lia.
  - intros H. apply IH in H as (H1 & H2 & H3). split; [lia|]. split; [done|].
    intros k Hk Hki. destruct (decide (k = i)) as [->|]; [done|]. apply H3; lia.
Qed.
Lemma find_down_None f i : find_down f i = None → ∀ k, k < i → f k = false.
Proof.
  induction i as [|i IH]; simpl; [intros; lia|].
  destruct (f i) eqn:E; [done|]. intros H k Hk.
  destruct (decide (k = i)) as [->|]; [done|]. apply IH; [done|lia].
Qed.

(** * Fields that the passes leave alone *)

(** Equal except for the constraints and the lists the passes consume. *)
Definition core_eq (s t : psys) : Prop :=
  p_index s = p_index t ∧ p_borrows s = p_borrows t ∧ p_tags s = p_tags t ∧
  p_req_in s = p_req_in t ∧ p_req_before s = p_req_before t ∧
  p_req_after s = p_req_after t ∧ p_run_if s = p_run_if t.

Lemma core_eq_refl s : core_eq s s.
Proof. by repeat split. Qed.
Lemma core_eq_trans s t u : core_eq s t → core_eq t u → core_eq s u.
Proof. unfold core_eq. intuition congruence. Qed.
Lemma core_eq_sym s t : core_eq s t → core_eq t s.
Proof. unfold core_eq. intuition congruence. Qed.
Global Instance core_eq_equiv : Equivalence core_eq.
Proof.
  split; [exact core_eq_refl|exact core_eq_sym|exact core_eq_trans].
Qed.
Lemma core_eq_pos s t : core_eq s t → pos s = pos t.
Proof. intros (_ & _ & H & _). unfold pos. by rewrite H. Qed.

(** ** Barriers *)

Lemma fold_add_hard_fields l s :
  let s' := fold_left (fun s i => p_add_hard i s) l s in
  core_eq s' s ∧ p_before_all s' = p_before_all s ∧ p_after_all s' = p_after_all s ∧
  p_hard_before s' = p_hard_before s ∧ p_soft s' = p_soft s ∧
  ∀ j, j ∈ p_hard s' ↔ j ∈ p_hard s ∨ j ∈ l.
Proof.
  revert s. induction l as [|i l IH]; intros s; cbn [fold_left].
  - split_and!; try reflexivity. set_solver.
  - destruct (IH (p_add_hard i s)) as (H1 & H2 & H3 & H4 & H5 & H6).
    split_and!; [|done..|].
    + etrans; [exact H1|]. by repeat split.
    + intros j. rewrite H6. cbn [p_hard p_add_hard]. rewrite uid_add_elem. set_solver.
Qed.

Lemma propagate_barriers_lookup bars ps i s :
  ps !! i = Some s →
  ∃ s', propagate_barriers ps bars !! i = Some s' ∧ core_eq s' s ∧
    p_before_all s' = p_before_all s ∧ p_after_all s' = p_after_all s ∧
    p_hard_before s' = p_hard_before s ∧ p_soft s' = p_soft s ∧
    ∀ j, j ∈ p_hard s' ↔ j ∈ p_hard s ∨ ∃ k, k ∈ bars ∧ j < k ∧ k ≤ i.
Proof.
  unfold propagate_barriers. revert ps s. induction bars as [|k bars IH]; intros ps s Hs.
  - exists s. cbn [fold_left]. split_and!; try reflexivity; [done|]. set_solver.
  - cbn [fold_left].
    set (ps1 := imap _ ps).
    set (s1 := if k <=? i then fold_left (fun s i => p_add_hard i s) (seq 0 k) s else s).
    assert (Hs1 : ps1 !! i = Some s1) by (unfold ps1; by rewrite list_lookup_imap, Hs).
    destruct (IH ps1 s1 Hs1) as (s' & Hl & H1 & H2 & H3 & H4 & H5 & H6).
    exists s'. split; [done|].
    assert (core_eq s1 s ∧ p_before_all s1 = p_before_all s ∧ p_after_all s1 = p_after_all s ∧
      p_hard_before s1 = p_hard_before s ∧ p_soft s1 = p_soft s ∧
      ∀ j, j ∈ p_hard s1 ↔ j ∈ p_hard s ∨ (j < k ∧ k ≤ i)) as (G1 & G2 & G3 & G4 & G5 & G6).
    { unfold s1. destruct (Nat.leb_spec k i) as [Hle|Hgt].
      - destruct (fold_add_hard_fields (seq 0 k) s) as (G1 & G2 & G3 & G4 & G5 & G6).
        split_and!; try done. intros j. rewrite G6, elem_of_seq. intuition lia.
      - split_and!; try reflexivity. intros j. intuition lia. }
    split_and!; try congruence.
    + by etrans.
    + intros j. rewrite H6, G6. setoid_rewrite elem_of_cons. split.
      * intros [[?|?]|(k' & ? & ?)]; [by left|right; by exists k; auto|right; exists k'; auto].
      * intros [?|(k' & [->|?] & ?)]; [by left; left|left; by right|right; by exists k'].
Qed.
Lemma propagate_barriers_length bars ps : length (propagate_barriers ps bars) = length ps.
Proof.
  unfold propagate_barriers. revert ps. induction bars as [|k bars IH]; intros ps; [done|].
  cbn [fold_left]. by rewrite IH, imap_length.
Qed.

(** ** Implicit ordering *)

Definition p_same_cons (s t : psys) : Prop :=
  core_eq s t ∧ p_before_all s = p_before_all t ∧ p_after_all s = p_after_all t ∧
  p_hard_before s = p_hard_before t.

Definition hard_test (ps : list psys) (s : psys) : nat → bool :=
  fun j => match ps !! j with
           | Some o => negb (p_opted o) && check_conflict s (p_borrows o)
           | None => false
           end.
Definition soft_test (ps : list psys) : nat → bool :=
  fun j => match ps !! j with Some o => negb (p_opted o) | None => false end.

Lemma implicit_hard_lookup ps i s :
  ps !! i = Some s →
  ∃ s', implicit_hard ps !! i = Some s' ∧ p_same_cons s' s ∧ p_soft s' = p_soft s ∧
    ∀ j, j ∈ p_hard s' ↔
      j ∈ p_hard s ∨ (p_opted s = false ∧ find_down (hard_test ps s) i = Some j).
Proof.
  intros Hs. unfold implicit_hard. rewrite list_lookup_imap, Hs. cbn [fmap option_fmap option_map].
  eexists. split; [reflexivity|]. fold (hard_test ps s).
  destruct (p_opted s) eqn:Eo.
  { split_and!; [by repeat split|done|]. intuition done. }
  destruct (find_down _ i) as [k|] eqn:Ek.
  - split_and!; [by repeat split|done|]. intros j. cbn [p_add_hard p_hard].
    rewrite uid_add_elem. split; [intros [->|?]; auto|intros [?|[_ [=]]]; auto].
  - split_and!; [by repeat split|done|]. intros j. intuition done.
Qed.
Lemma implicit_soft_lookup ps i s :
  ps !! i = Some s →
  ∃ s', implicit_soft ps !! i = Some s' ∧ p_same_cons s' s ∧ p_hard s' = p_hard s ∧
    ∀ j, j ∈ p_soft s' ↔
      j ∈ p_soft s ∨ (p_opted s = false ∧ find_down (soft_test ps) i = Some j).
Proof.
  intros Hs. unfold implicit_soft. rewrite list_lookup_imap, Hs. cbn [fmap option_fmap option_map].
  eexists. split; [reflexivity|]. fold (soft_test ps).
  destruct (p_opted s) eqn:Eo.
  { split_and!; [by repeat split|done|]. intuition done. }
  destruct (find_down _ i) as [k|] eqn:Ek.
  - split_and!; [by repeat split|done|]. intros j. cbn [p_add_soft p_soft].
    rewrite uid_add_elem. split; [intros [->|?]; auto|intros [?|[_ [=]]]; auto].
  - split_and!; [by repeat split|done|]. intros j. intuition done.
Qed.
Lemma implicit_hard_length ps : length (implicit_hard ps) = length ps.
Proof. apply imap_length. Qed.
Lemma implicit_soft_length ps : length (implicit_soft ps) = length ps.
Proof. apply imap_length. Qed.

(** ** [before_all] *)

Lemma before_all_prefix ps m :
  m ≤ length ps →
  let ps' := fold_left before_all_step (seq 0 m) ps in
  length ps' = length ps ∧
  ∀ j s, ps !! j = Some s →
    ∃ s', ps' !! j = Some s' ∧ core_eq s' s ∧ p_after_all s' = p_after_all s ∧
      p_hard_before s' = p_hard_before s ∧ p_soft s' = p_soft s ∧
      p_before_all s' = (if j <? m then [] else p_before_all s) ∧
      ∀ i, i ∈ p_hard s' ↔ i ∈ p_hard s ∨
        (i < m ∧ i ≠ j ∧ ∃ si, ps !! i = Some si ∧ overlap (p_tags s) (p_before_all si) = true).
Proof.
  induction m as [|m IH]; intros Hm.
  - split; [done|]. intros j s Hs. exists s. cbn [seq fold_left].
    split_and!; try reflexivity; [done|]. intros i. intuition lia.
  - rewrite seq_S, Nat.add_0_l, fold_left_app. cbn [fold_left].
    destruct IH as [Hlen IH]; [lia|]. revert Hlen IH.
    generalize (fold_left before_all_step (seq 0 m) ps) as q. intros q Hlen IH.
    assert (∃ sm, ps !! m = Some sm) as [sm Hsm] by (apply lookup_lt_is_Some; lia).
    destruct (IH m sm Hsm) as (sm' & Hsm' & C1 & _ & _ & _ & C5 & _).
    rewrite Nat.ltb_irrefl in C5.
    unfold before_all_step. rewrite Hsm'.
    split; [by rewrite imap_length|].
    intros j s Hs. destruct (IH j s Hs) as (s' & Hs' & G1 & G2 & G3 & G4 & G5 & G6).
    rewrite list_lookup_imap, Hs'. cbn [fmap option_fmap option_map].
    eexists. split; [reflexivity|]. destruct (Nat.eqb_spec m j) as [->|Hne].
    + split_and!; cbn [p_clear_before_all p_after_all p_hard_before p_soft p_before_all p_hard];
        try done.
      * destruct (Nat.ltb_spec j (S j)); [done|lia].
      * intros i. rewrite G6. split; (intros [?|(?&?&?)]; [by left|right; split; [lia|done]]).
    + assert (Hb : (j <? S m) = (j <? m)).
      { destruct (Nat.ltb_spec j m), (Nat.ltb_spec j (S m)); (done || lia). }
      assert (Ht : p_tags s' = p_tags s) by (by destruct G1 as (_ & _ & ? & _)).
      rewrite Ht, C5.
      destruct (overlap (p_tags s) (p_before_all sm)) eqn:Eo.
      * split_and!; try (cbn [p_add_hard p_after_all p_hard_before p_soft p_before_all]; done).
        -- cbn [p_add_hard p_before_all]. by rewrite Hb.
        -- intros i. cbn [p_add_hard p_hard]. rewrite uid_add_elem, G6. split.
           ++ intros [->|[?|(?&?&?)]]; [|by left|right; split; [lia|done]].
              right. split_and!; [lia|done|]. eauto.
           ++ intros [?|(Hi&?&?)]; [by right; left|].
              destruct (decide (i = m)) as [->|]; [by left|].
              right. right. split; [lia|done].
      * split_and!; try done; [by rewrite Hb|].
        intros i. rewrite G6. split.
        ++ intros [?|(?&?&?)]; [by left|right; split; [lia|done]].
        ++ intros [?|(Hi&Hne'&si&Hsi&Ho)]; [by left|].
           destruct (decide (i = m)) as [->|].
           { rewrite Hsm in Hsi. injection Hsi as <-. congruence. }
           right. split_and!; [lia|done|eauto].
Qed.

Lemma map_before_all_lookup ps j s :
  ps !! j = Some s →
  ∃ s', map_before_all ps !! j = Some s' ∧ core_eq s' s ∧ p_after_all s' = p_after_all s ∧
    p_hard_before s' = p_hard_before s ∧ p_soft s' = p_soft s ∧
    ∀ i, i ∈ p_hard s' ↔ i ∈ p_hard s ∨
      (i ≠ j ∧ ∃ si, ps !! i = Some si ∧ overlap (p_tags s) (p_before_all si) = true).
Proof.
  intros Hs. destruct (before_all_prefix ps (length ps)) as [Hlen H]; [done|].
  destruct (H j s Hs) as (s' & Hs' & G1 & G2 & G3 & G4 & G5 & G6).
  exists s'. split_and!; try done. intros i. rewrite G6. split.
  - intros [?|(?&?&?)]; auto.
  - intros [?|(?&si&Hsi&?)]; [by left|]. right. split_and!; [|done|eauto].
    by apply lookup_lt_Some in Hsi.
Qed.
Lemma map_before_all_length ps : length (map_before_all ps) = length ps.
Proof. by destruct (before_all_prefix ps (length ps)) as [? _]. Qed.

(** ** [after_all] *)

Lemma after_inner (ps : list psys) (i : nat) (al : list label) (m : nat) (s : psys) :
  let s' := fold_left (fun s j =>
          if i =? j then s else
          match ps !! j with
          | Some sj => if overlap al (p_tags sj) then p_add_hard j s else s
          | None => s
          end) (seq 0 m) s in
  core_eq s' s ∧ p_before_all s' = p_before_all s ∧ p_after_all s' = p_after_all s ∧
  p_hard_before s' = p_hard_before s ∧ p_soft s' = p_soft s ∧
  ∀ j, j ∈ p_hard s' ↔ j ∈ p_hard s ∨
    (j < m ∧ i ≠ j ∧ ∃ sj, ps !! j = Some sj ∧ overlap al (p_tags sj) = true).
Proof.
  induction m as [|m IH].
  - split_and!; try reflexivity. intros j. cbn. intuition lia.
  - rewrite seq_S, Nat.add_0_l, fold_left_app. cbn [fold_left]. revert IH.
    generalize (fold_left (fun s j =>
          if i =? j then s else
          match ps !! j with
          | Some sj => if overlap al (p_tags sj) then p_add_hard j s else s
          | None => s
          end) (seq 0 m) s) as t.
    intros t (G1 & G2 & G3 & G4 & G5 & G6).
    destruct (Nat.eqb_spec i m) as [->|Hne].
    { split_and!; try done. intros j. rewrite G6.
      split; (intros [?|(?&?&?)]; [by left|right; split; [lia|done]]). }
    destruct (ps !! m) as [sm|] eqn:Em;
      [destruct (overlap al (p_tags sm)) eqn:Eo|].
    + split_and!; try done. intros j. cbn [p_add_hard p_hard]. rewrite uid_add_elem, G6. split.
      * intros [->|[?|(?&?&?)]]; [|by left|right; split; [lia|done]].
        right. split_and!; [lia|done|eauto].
      * intros [?|(?&?&?)]; [by right; left|].
        destruct (decide (j = m)) as [->|]; [by left|]. right. right. split; [lia|done].
    + split_and!; try done. intros j. rewrite G6. split.
      * intros [?|(?&?&?)]; [by left|right; split; [lia|done]].
      * intros [?|(?&?&sj&Hsj&?)]; [by left|].
        destruct (decide (j = m)) as [->|]; [congruence|]. right. split_and!; [lia|done|eauto].
    + split_and!; try done. intros j. rewrite G6. split.
      * intros [?|(?&?&?)]; [by left|right; split; [lia|done]].
      * intros [?|(?&?&sj&Hsj&?)]; [by left|].
        destruct (decide (j = m)) as [->|]; [congruence|]. right. split_and!; [lia|done|eauto].
Qed.

Lemma after_all_prefix ps m :
  m ≤ length ps →
  let ps' := fold_left after_all_step (seq 0 m) ps in
  length ps' = length ps ∧
  ∀ j s, ps !! j = Some s →
    ∃ s', ps' !! j = Some s' ∧ core_eq s' s ∧
      p_hard_before s' = p_hard_before s ∧ p_soft s' = p_soft s ∧
      (m ≤ j → s' = s) ∧
      (j < m → ∀ i, i ∈ p_hard s' ↔ i ∈ p_hard s ∨
        (i ≠ j ∧ ∃ si, ps !! i = Some si ∧ overlap (p_after_all s) (p_tags si) = true)).
Proof.
  induction m as [|m IH]; intros Hm.
  - split; [done|]. intros j s Hs. exists s. cbn [seq fold_left].
    split_and!; try reflexivity; [done|]. intros; lia.
  - rewrite seq_S, Nat.add_0_l, fold_left_app. cbn [fold_left].
    destruct IH as [Hlen IH]; [lia|]. revert Hlen IH.
    generalize (fold_left after_all_step (seq 0 m) ps) as q. intros q Hlen IH.
    assert (∃ sm, ps !! m = Some sm) as [sm Hsm] by (apply lookup_lt_is_Some; lia).
    destruct (IH m sm Hsm) as (sm' & Hsm' & _ & _ & _ & C5 & _).
    specialize (C5 (le_n _)) as ->.
    unfold after_all_step. rewrite Hsm'. cbn zeta.
    pose proof (after_inner q m (p_after_all sm) (length q) (p_clear_after_all sm)) as Hin.
    cbn zeta in Hin. revert Hin.
    generalize (fold_left (fun s j =>
          if m =? j then s else
          match q !! j with
          | Some sj => if overlap (p_after_all sm) (p_tags sj) then p_add_hard j s else s
          | None => s
          end) (seq 0 (length q)) (p_clear_after_all sm)) as t.
    intros t (T1 & T2 & T3 & T4 & T5 & T6).
    split; [by rewrite insert_length|].
    intros j s Hs. destruct (IH j s Hs) as (s' & Hs' & G1 & G2 & G3 & G4 & G5).
    destruct (decide (j = m)) as [->|Hne].
    + rewrite Hsm in Hs. injection Hs as <-. exists t.
      rewrite list_lookup_insert by (by apply lookup_lt_Some in Hsm').
      split; [done|]. split; [etrans; [exact T1|by repeat split]|].
      split; [by rewrite T4|]. split; [by rewrite T5|]. split; [lia|].
      intros _ i. rewrite T6. cbn [p_clear_after_all p_hard].
      split.
      * intros [?|(Hi&?&sj&Hsj&Ho)]; [by left|]. right. split; [done|].
        assert (∃ si, ps !! i = Some si) as [si Hsi].
        { apply lookup_lt_is_Some. apply lookup_lt_Some in Hsj. lia. }
        exists si. split; [done|]. destruct (IH i si Hsi) as (si' & Hsi' & K & _).
        rewrite Hsj in Hsi'. injection Hsi' as <-.
        destruct K as (_ & _ & K & _). by rewrite <-K.
      * intros [?|(?&si&Hsi&Ho)]; [by left|]. right.
        destruct (IH i si Hsi) as (si' & Hsi' & K & _).
        split_and!; [by apply lookup_lt_Some in Hsi'|done|].
        exists si'. split; [done|]. destruct K as (_ & _ & K & _). by rewrite K.
    + exists s'. rewrite list_lookup_insert_ne by done.
      split_and!; try done.
      * intros ?. apply G4. lia.
      * intros ?. apply G5. lia.
Qed.

Lemma map_after_all_lookup ps j s :
  ps !! j = Some s →
  ∃ s', map_after_all ps !! j = Some s' ∧ core_eq s' s ∧
    p_hard_before s' = p_hard_before s ∧ p_soft s' = p_soft s ∧
    ∀ i, i ∈ p_hard s' ↔ i ∈ p_hard s ∨
      (i ≠ j ∧ ∃ si, ps !! i = Some si ∧ overlap (p_after_all s) (p_tags si) = true).
Proof.
  intros Hs. destruct (after_all_prefix ps (length ps)) as [Hlen H]; [done|].
  destruct (H j s Hs) as (s' & Hs' & G1 & G2 & G3 & G4 & G5).
  exists s'. split_and!; try done. apply G5. by apply lookup_lt_Some in Hs.
Qed.
Lemma map_after_all_length ps : length (map_after_all ps) = length ps.
Proof. by destruct (after_all_prefix ps (length ps)) as [? _]. Qed.

(** ** [before] (never used by the library itself) *)

Lemma before_first_nil i j ps : before_first i j [] ps = ps.
Proof.
  revert j. induction ps as [|s ps IH]; intros j; [done|]. cbn [before_first].
  destruct (i =? j); [by rewrite IH|].
  assert (overlap (p_tags s) [] = false) as ->.
  { destruct (overlap (p_tags s) []) eqn:E; [|done].
    apply overlap_true in E as (x & _ & H). by apply elem_of_nil in H. }
  by rewrite IH.
Qed.
Lemma p_clear_hard_before_id s : p_hard_before s = [] → p_clear_hard_before s = s.
Proof. destruct s; cbn. by intros ->. Qed.
Lemma map_before_id ps : Forall (λ s, p_hard_before s = []) ps → map_before ps = ps.
Proof.
  intros H. unfold map_before. generalize (seq 0 (length ps)) as l. intros l.
  induction l as [|i l IH]; [done|]. cbn [fold_left].
  assert (before_step ps i = ps) as ->; [|done].
  unfold before_step. destruct (ps !! i) as [s|] eqn:E; [|done].
  rewrite Forall_lookup in H. pose proof (H i s E) as Hs.
  rewrite Hs, p_clear_hard_before_id by done. rewrite list_insert_id by done.
  apply before_first_nil.
Qed.

(** * All the constraints *)

Lemma insert_systems_lookup ss f f' ps :
  insert_systems ss f = (f', ps) →
  length ps = length ss ∧
  ∀ i s, ss !! i = Some s → ∃ p, ps !! i = Some p ∧
    p_borrows p = w_borrows s ∧ p_tags p = w_tags s ++ [LUid (w_uid s)] ∧
    p_before_all p = w_before_all s ∧ p_after_all p = w_after_all s ∧
    p_hard p = [] ∧ p_soft p = [] ∧ p_hard_before p = dl_extend [] (map LUid (w_before s)) ∧
    p_req_in p = w_req_in s ∧ p_req_before p = w_req_before s ∧
    p_req_after p = w_req_after s ∧ p_run_if p = w_run_if s.
Proof.
  revert f f' ps. induction ss as [|s ss IH]; intros f f' ps; cbn [insert_systems].
  - intros [= <- <-]. split; [done|]. intros i s. by rewrite lookup_nil.
  - unfold place_sys. destruct (fn_index (w_type s) (w_fn s) f) as [f1 k].
    destruct (insert_systems ss f1) as [f2 ps'] eqn:E. intros [= <- <-].
    destruct (IH _ _ _ E) as [Hlen H].
    split; [simpl; by rewrite Hlen|]. intros [|i] s' Hs'; cbn in Hs'.
    + injection Hs' as <-. eexists. split; [reflexivity|]. cbn. by split_and!.
    + destruct (H i s' Hs') as (p & Hp & ?). by exists p.
Qed.

(** A workload's systems with all their constraints, [None] when a requirement on the
    presence of a tag fails or not, alike. *)
Definition placed (ss : list wsys) (bars : list nat) (f : fns) : list psys :=
  constrain (insert_systems ss f).2 bars.

Lemma p_opted_false s : p_opted s = false ↔ p_before_all s = [] ∧ p_after_all s = [].
Proof.
  unfold p_opted. destruct (p_before_all s), (p_after_all s); naive_solver.
Qed.

(** [j] is the last system before [i] which takes part in the implicit ordering (and
    conflicts with [i]). *)
Definition nearest (P : nat → Prop) (j i : nat) : Prop :=
  j < i ∧ P j ∧ ∀ k, j < k → k < i → ¬ P k.

Section placed.
  Context (ss : list wsys) (bars : list nat) (f : fns).
  Hypothesis Hwf : Forall wf_wsys ss.
  Let ps0 := (insert_systems ss f).2.

  Lemma placed_length : length (placed ss bars f) = length ss.
  Proof.
    unfold placed, constrain. destruct (insert_systems ss f) as [f' ps] eqn:E. cbn [snd].
    destruct (insert_systems_lookup _ _ _ _ E) as [Hlen H].
    rewrite map_before_id.
    - by rewrite map_after_all_length, map_before_all_length, implicit_soft_length,
        implicit_hard_length, propagate_barriers_length.
    - apply Forall_lookup. intros i s Hs.
      assert (∃ w, ss !! i = Some w) as [w Hw].
      { apply lookup_lt_is_Some. apply lookup_lt_Some in Hs.
        rewrite map_after_all_length, map_before_all_length, implicit_soft_length,
          implicit_hard_length, propagate_barriers_length in Hs. lia. }
      destruct (H i w Hw) as (p & Hp & F1 & F2 & F3 & F4 & F5 & F6 & F7 & _).
      destruct (propagate_barriers_lookup bars ps i p Hp) as (p1 & Hp1 & _ & _ & _ & E1 & _).
      destruct (implicit_hard_lookup _ i p1 Hp1) as (p2 & Hp2 & (_ & _ & _ & E2) & _).
      destruct (implicit_soft_lookup _ i p2 Hp2) as (p3 & Hp3 & (_ & _ & _ & E3) & _).
      destruct (map_before_all_lookup _ i p3 Hp3) as (p4 & Hp4 & _ & _ & E4 & _).
      destruct (map_after_all_lookup _ i p4 Hp4) as (p5 & Hp5 & _ & E5 & _).
      rewrite Hs in Hp5. injection Hp5 as <-.
      rewrite E5, E4, E3, E2, E1, F7.
      rewrite Forall_lookup in Hwf. destruct (Hwf i w Hw) as (_ & _ & _ & -> & _). done.
  Qed.

  Lemma placed_lookup i w :
    ss !! i = Some w →
    ∃ s, placed ss bars f !! i = Some s ∧
      p_borrows s = w_borrows w ∧ p_tags s = w_tags w ++ [LUid (w_uid w)] ∧
      p_req_in s = w_req_in w ∧ p_req_before s = w_req_before w ∧
      p_req_after s = w_req_after w ∧ p_run_if s = w_run_if w ∧
      p_index s = default 0 (p_index <$> (insert_systems ss f).2 !! i) ∧
      (∀ j, j ∈ p_hard s ↔
        (∃ k, k ∈ bars ∧ j < k ∧ k ≤ i) ∨
        (¬ opted_out w ∧
          nearest (λ k, ∃ o, ss !! k = Some o ∧ ¬ opted_out o ∧
                             clash (w_borrows w) (w_borrows o)) j i) ∨
        explicit ss j i) ∧
      (∀ j, j ∈ p_soft s ↔
        ¬ opted_out w ∧ nearest (λ k, ∃ o, ss !! k = Some o ∧ ¬ opted_out o) j i).
  Proof.
    intros Hw. unfold placed, constrain.
    destruct (insert_systems ss f) as [f' ps] eqn:E. cbn [snd].
    destruct (insert_systems_lookup _ _ _ _ E) as [Hlen H].
    assert (Hid : map_before (map_after_all (map_before_all (implicit_soft (implicit_hard
        (propagate_barriers ps bars))))) = map_after_all (map_before_all (implicit_soft
        (implicit_hard (propagate_barriers ps bars))))).
    { apply map_before_id. apply Forall_lookup. intros k s Hs.
      assert (∃ w, ss !! k = Some w) as [w' Hw'].
      { apply lookup_lt_is_Some. apply lookup_lt_Some in Hs.
        rewrite map_after_all_length, map_before_all_length, implicit_soft_length,
          implicit_hard_length, propagate_barriers_length in Hs. lia. }
      destruct (H k w' Hw') as (p & Hp & F1 & F2 & F3 & F4 & F5 & F6 & F7 & _).
      destruct (propagate_barriers_lookup bars ps k p Hp) as (p1 & Hp1 & _ & _ & _ & E1 & _).
      destruct (implicit_hard_lookup _ k p1 Hp1) as (p2 & Hp2 & (_ & _ & _ & E2) & _).
      destruct (implicit_soft_lookup _ k p2 Hp2) as (p3 & Hp3 & (_ & _ & _ & E3) & _).
      destruct (map_before_all_lookup _ k p3 Hp3) as (p4 & Hp4 & _ & _ & E4 & _).
      destruct (map_after_all_lookup _ k p4 Hp4) as (p5 & Hp5 & _ & E5 & _).
      rewrite Hs in Hp5. injection Hp5 as <-.
      rewrite E5, E4, E3, E2, E1, F7.
      rewrite Forall_lookup in Hwf. destruct (Hwf k w' Hw') as (_ & _ & _ & -> & _). done. }
    rewrite Hid. clear Hid.
    (* the facts about every position, up to the implicit passes *)
    assert (Hall : ∀ k o, ss !! k = Some o →
      ∃ p p1 p2 p3, ps !! k = Some p ∧ propagate_barriers ps bars !! k = Some p1 ∧
        implicit_hard (propagate_barriers ps bars) !! k = Some p2 ∧
        implicit_soft (implicit_hard (propagate_barriers ps bars)) !! k = Some p3 ∧
        p_same_cons p1 p ∧ p_same_cons p2 p ∧ p_same_cons p3 p ∧
        p_borrows p = w_borrows o ∧ p_tags p = w_tags o ++ [LUid (w_uid o)] ∧
        p_before_all p = w_before_all o ∧ p_after_all p = w_after_all o).
    { intros k o Ho. destruct (H k o Ho) as (p & Hp & F1 & F2 & F3 & F4 & _).
      destruct (propagate_barriers_lookup bars ps k p Hp) as (p1 & Hp1 & E1a & E1b & E1c & E1d & _).
      destruct (implicit_hard_lookup _ k p1 Hp1) as (p2 & Hp2 & (E2a & E2b & E2c & E2d) & _).
      destruct (implicit_soft_lookup _ k p2 Hp2) as (p3 & Hp3 & (E3a & E3b & E3c & E3d) & _).
      exists p, p1, p2, p3. split_and!; try done.
      - split_and!; [by etrans|congruence..].
      - split_and!; [by etrans; [|etrans]|congruence..]. }
    assert (Hopt : ∀ k o p, ss !! k = Some o → p_before_all p = w_before_all o →
      p_after_all p = w_after_all o → (p_opted p = false ↔ ¬ opted_out o)).
    { intros k o p _ H1 H2. rewrite p_opted_false, H1, H2. unfold opted_out.
      destruct (w_before_all o), (w_after_all o); naive_solver. }
    destruct (Hall i w Hw) as (p & p1 & p2 & p3 & Hp & Hp1 & Hp2 & Hp3 & S1 & S2 & S3 &
      Fb & Ft & Fba & Faa).
    destruct (H i w Hw) as (p' & Hp' & _ & _ & _ & _ & F5 & F6 & F7 & F8 & F9 & F10 & F11).
    rewrite Hp in Hp'. injection Hp' as <-.
    destruct (propagate_barriers_lookup bars ps i p Hp)
      as (? & X & _ & _ & _ & _ & B1 & B2). rewrite Hp1 in X. injection X as <-.
    destruct (implicit_hard_lookup _ i p1 Hp1) as (? & X & _ & C1 & C2).
    rewrite Hp2 in X. injection X as <-.
    destruct (implicit_soft_lookup _ i p2 Hp2) as (? & X & _ & D1 & D2).
    rewrite Hp3 in X. injection X as <-.
    destruct (map_before_all_lookup _ i p3 Hp3) as (p4 & Hp4 & G1 & G2 & G3 & G4 & G5).
    destruct (map_after_all_lookup _ i p4 Hp4) as (p5 & Hp5 & K1 & K2 & K3 & K4).
    exists p5. split; [done|].
    assert (core_eq p5 p) as (Q1 & Q2 & Q3 & Q4 & Q5 & Q6 & Q7).
    { etrans; [exact K1|]. etrans; [exact G1|]. exact (proj1 S3). }
    rewrite Hp.
    split_and!; [congruence..|exact Q1| |].
    - intros j. rewrite K4, G5, D1, C2, B2, F5.
      assert (HO1 : p_opted p1 = false ↔ ¬ opted_out w).
      { destruct S1 as (_ & S1a & S1b & _). eapply Hopt; [exact Hw|congruence..]. }
      assert (Hh : find_down (hard_test (propagate_barriers ps bars) p1) i = Some j ↔
        nearest (λ k, ∃ o, ss !! k = Some o ∧ ¬ opted_out o ∧
                           clash (w_borrows w) (w_borrows o)) j i).
      { assert (Ht : ∀ k, hard_test (propagate_barriers ps bars) p1 k = true ↔
          ∃ o, ss !! k = Some o ∧ ¬ opted_out o ∧ clash (w_borrows w) (w_borrows o)).
        { intros k. unfold hard_test.
          assert (Hb1 : p_borrows p1 = w_borrows w).
          { destruct S1 as ((_ & Z & _) & _). congruence. }
          destruct (ss !! k) as [o|] eqn:Eo.
          - destruct (Hall k o Eo) as (q & q1 & q2 & q3 & Hq & Hq1 & _ & _ & Sq & _ & _ &
              Fq1 & _ & Fq3 & Fq4).
            rewrite Hq1. destruct Sq as ((_ & Zb & _) & Sqa & Sqb & _).
            rewrite andb_true_iff, negb_true_iff, check_conflict_true.
            rewrite (Hopt k o q1 Eo) by congruence. rewrite Hb1, Zb, Fq1.
            naive_solver.
          - assert (propagate_barriers ps bars !! k = None) as ->.
            { apply lookup_ge_None. rewrite propagate_barriers_length.
              apply lookup_ge_None in Eo. lia. }
            naive_solver. }
        split.
        - intros Hf. apply find_down_Some in Hf as (L1 & L2 & L3). split; [done|].
          split; [by apply Ht|]. intros k Hk1 Hk2 Hk3. apply Ht in Hk3.
          rewrite L3 in Hk3 by done. done.
        - intros (L1 & L2 & L3). destruct (find_down _ i) as [j'|] eqn:Ef.
          + apply find_down_Some in Ef as (M1 & M2 & M3). f_equal.
            destruct (lt_eq_lt_dec j j') as [[Hlt| -> ]|Hlt]; [|done|].
            * exfalso. apply (L3 j'); [done..|]. by apply Ht.
            * exfalso. apply Ht in L2. rewrite M3 in L2 by done. done.
          + exfalso. apply Ht in L2. rewrite (find_down_None _ _ Ef j) in L2 by done. done. }
      assert (He : ((j ≠ i ∧ ∃ si, implicit_soft (implicit_hard (propagate_barriers ps bars)) !! j
            = Some si ∧ overlap (p_tags p3) (p_before_all si) = true) ∨
          (j ≠ i ∧ ∃ si, map_before_all (implicit_soft (implicit_hard
            (propagate_barriers ps bars))) !! j = Some si ∧
            overlap (p_after_all p4) (p_tags si) = true)) ↔ explicit ss j i).
      { rewrite Forall_lookup in Hwf.
        destruct (Hwf i w Hw) as (WT & WB & WA & _).
        assert (Ht3 : p_tags p3 = w_tags w ++ [LUid (w_uid w)]).
        { destruct S3 as ((_ & _ & Z & _) & _). congruence. }
        assert (Ha4 : p_after_all p4 = w_after_all w).
        { destruct S3 as (_ & _ & Z & _). congruence. }
        unfold explicit. split.
        - intros [[Hne (q & Hq & Ho)]|[Hne (q & Hq & Ho)]]; (split; [done|]).
          + assert (∃ o, ss !! j = Some o) as [o Eo].
            { apply lookup_lt_is_Some. apply lookup_lt_Some in Hq.
              rewrite implicit_soft_length, implicit_hard_length, propagate_barriers_length in Hq.
              lia. }
            destruct (Hall j o Eo) as (q0 & q1 & q2 & q3 & _ & _ & _ & Hq3 & _ & _ & Sq &
              _ & _ & Fq3 & _).
            rewrite Hq in Hq3. injection Hq3 as <-.
            exists o, w. split_and!; try done. left.
            apply overlap_true in Ho as (l & Hl1 & Hl2). exists l.
            destruct Sq as (_ & Sqb & _). rewrite Sqb, Fq3 in Hl2. split; [done|].
            rewrite Ht3 in Hl1. apply elem_of_app in Hl1 as [Hl1|Hl1]; [done|].
            apply elem_of_list_singleton in Hl1 as ->.
            destruct (Hwf j o Eo) as (_ & WB' & _). rewrite Forall_forall in WB'.
            by destruct (WB' _ Hl2 (w_uid w)).
          + assert (∃ o, ss !! j = Some o) as [o Eo].
            { apply lookup_lt_is_Some. apply lookup_lt_Some in Hq.
              rewrite map_before_all_length, implicit_soft_length, implicit_hard_length,
                propagate_barriers_length in Hq. lia. }
            destruct (Hall j o Eo) as (q0 & q1 & q2 & q3 & _ & _ & _ & Hq3 & _ & _ & Sq &
              _ & Fq2 & _ & _).
            destruct (map_before_all_lookup _ j q3 Hq3) as (q4 & Hq4 & (_ & _ & Zt & _) & _).
            rewrite Hq in Hq4. injection Hq4 as <-.
            exists o, w. split_and!; try done. right.
            apply overlap_true in Ho as (l & Hl1 & Hl2). exists l.
            rewrite Ha4 in Hl1. split; [done|].
            destruct Sq as ((_ & _ & Zs & _) & _). rewrite Zt, Zs, Fq2 in Hl2.
            apply elem_of_app in Hl2 as [Hl2|Hl2]; [done|].
            apply elem_of_list_singleton in Hl2 as ->.
            rewrite Forall_forall in WA. by destruct (WA _ Hl1 (w_uid o)).
        - intros (Hne & o & w' & Eo & Ew & Hl). rewrite Hw in Ew. injection Ew as <-.
          destruct (Hall j o Eo) as (q0 & q1 & q2 & q3 & _ & _ & _ & Hq3 & _ & _ & Sq &
            _ & Fq2 & Fq3 & _).
          destruct Hl as [(l & Hl1 & Hl2)|(l & Hl1 & Hl2)].
          + left. split; [done|]. exists q3. split; [done|]. apply overlap_true.
            exists l. rewrite Ht3. destruct Sq as (_ & Sqb & _). rewrite Sqb, Fq3.
            rewrite elem_of_app. auto.
          + right. split; [done|].
            destruct (map_before_all_lookup _ j q3 Hq3) as (q4 & Hq4 & (_ & _ & Zt & _) & _).
            exists q4. split; [done|]. apply overlap_true. exists l. rewrite Ha4.
            destruct Sq as ((_ & _ & Zs & _) & _). rewrite Zt, Zs, Fq2.
            rewrite elem_of_app. auto. }
      rewrite <-He. rewrite HO1, Hh. rewrite elem_of_nil. clear. tauto.
    - intros j. rewrite K3, G4, D2, C1, B1, F6.
      assert (HO2 : p_opted p2 = false ↔ ¬ opted_out w).
      { destruct S2 as (_ & S1a & S1b & _). eapply Hopt; [exact Hw|congruence..]. }
      assert (Ht : ∀ k, soft_test (implicit_hard (propagate_barriers ps bars)) k = true ↔
          ∃ o, ss !! k = Some o ∧ ¬ opted_out o).
      { intros k. unfold soft_test. destruct (ss !! k) as [o|] eqn:Eo.
        - destruct (Hall k o Eo) as (q & q1 & q2 & q3 & Hq & _ & Hq2 & _ & _ & Sq & _ &
            Fq1 & _ & Fq3 & Fq4).
          rewrite Hq2. destruct Sq as ((_ & Zb & _) & Sqa & Sqb & _).
          rewrite negb_true_iff. rewrite (Hopt k o q2 Eo) by congruence. naive_solver.
        - assert (implicit_hard (propagate_barriers ps bars) !! k = None) as ->.
          { apply lookup_ge_None. rewrite implicit_hard_length, propagate_barriers_length.
            apply lookup_ge_None in Eo. lia. }
          naive_solver. }
      rewrite elem_of_nil, HO2.
      assert (find_down (soft_test (implicit_hard (propagate_barriers ps bars))) i = Some j ↔
        nearest (λ k, ∃ o, ss !! k = Some o ∧ ¬ opted_out o) j i) as ->; [|tauto].
      split.
      + intros Hf. apply find_down_Some in Hf as (L1 & L2 & L3). split; [done|].
        split; [by apply Ht|]. intros k Hk1 Hk2 Hk3. apply Ht in Hk3.
        rewrite L3 in Hk3 by done. done.
      + intros (L1 & L2 & L3). destruct (find_down (soft_test (implicit_hard (propagate_barriers ps bars))) i)
          as [j'|] eqn:Ef.
        * apply find_down_Some in Ef as (M1 & M2 & M3). f_equal.
          destruct (lt_eq_lt_dec j j') as [[Hlt| -> ]|Hlt]; [|done|].
          -- exfalso. apply (L3 j'); [done..|]. by apply Ht.
          -- exfalso. apply Ht in L2. rewrite M3 in L2 by done. done.
        * exfalso. apply Ht in L2. rewrite (find_down_None _ _ Ef j) in L2 by done. done.
  Qed.
End placed.
