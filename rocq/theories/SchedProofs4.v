(** Requirements, sequential workloads, barriers of grown workloads. *)
From stdpp Require Import prelude list gmap relations sorting.
From Verif Require Import Sched SchedSpec SchedProofs SchedProofs2 SchedProofs3.
Local Open Scope nat_scope.

(** * The searches of the requirement checks *)

Lemma uid_add_perm v l : v ∉ l → uid_add v l ≡ₚ v :: l.
Proof.
  induction l as [|y l IH]; intros Hv; cbn [uid_add]; [done|].
  apply not_elem_of_cons in Hv as [Hne Hv].
  destruct (v =? y) eqn:E1; [by apply Nat.eqb_eq in E1|].
  destruct (v <? y); [done|]. rewrite IH by done. apply Permutation_swap.
Qed.

Section dfs.
  Context (succ : nat → list nat) (n : nat).
  Hypothesis Hsucc : ∀ v y, y ∈ succ v → y < n.
  Let R (a b : nat) := b ∈ succ a.

  Definition Good (acc : list nat) := NoDup acc ∧ ∀ x, x ∈ acc → x < n.

  Lemma good_length acc : Good acc → length acc ≤ n.
  Proof.
    intros [Hn Hl]. rewrite <-(seq_length n 0). apply submseteq_length.
    apply NoDup_submseteq; [done|]. intros x Hx. apply elem_of_seq. apply Hl in Hx. lia.
  Qed.

  Lemma add_rec_fold fuel :
    (∀ acc v, Good acc → v < n → n - length acc < fuel →
      let acc' := add_rec succ fuel acc v in
      Good acc' ∧ acc ⊆ acc' ∧ v ∈ acc' ∧
      (∀ x, x ∈ acc' → x ∈ acc ∨ rtc R v x) ∧
      (∀ x y, x ∈ acc' → x ∉ acc → y ∈ succ x → y ∈ acc')) →
    ∀ vs acc, Good acc → (∀ v, v ∈ vs → v < n) → n - length acc < fuel →
      let acc' := fold_left (add_rec succ fuel) vs acc in
      Good acc' ∧ acc ⊆ acc' ∧ (∀ v, v ∈ vs → v ∈ acc') ∧
      (∀ x, x ∈ acc' → x ∈ acc ∨ ∃ v, v ∈ vs ∧ rtc R v x) ∧
      (∀ x y, x ∈ acc' → x ∉ acc → y ∈ succ x → y ∈ acc').
  Proof.
    intros IH vs. induction vs as [|v vs IHv]; intros acc Hg Hvs Hf; cbn [fold_left].
    - split_and!; try done.
      + intros v Hv. by apply elem_of_nil in Hv.
      + auto.
    - destruct (IH acc v Hg) as (G1 & S1 & V1 & X1 & C1); [apply Hvs; by left|done|].
      destruct (IHv (add_rec succ fuel acc v)) as (G2 & S2 & V2 & X2 & C2).
      + done.
      + intros u Hu. apply Hvs. by right.
      + assert (length acc ≤ length (add_rec succ fuel acc v)); [|lia].
        apply submseteq_length, NoDup_submseteq; [by destruct Hg|done].
      + split_and!.
        * done.
        * etrans; done.
        * intros u Hu. apply elem_of_cons in Hu as [->|Hu]; [by apply S2|by apply V2].
        * intros x Hx. destruct (X2 x Hx) as [Hx1|(u & Hu & Hr)].
          -- destruct (X1 x Hx1) as [|Hr]; [by left|]. right. exists v. split; [by left|done].
          -- right. exists u. split; [by right|done].
        * intros x y Hx Hxa Hy. destruct (decide (x ∈ add_rec succ fuel acc v)) as [Hi|Hi].
          -- apply S2. by eapply C1.
          -- by eapply C2.
  Qed.

  Lemma add_rec_spec fuel acc v :
    Good acc → v < n → n - length acc < fuel →
    let acc' := add_rec succ fuel acc v in
    Good acc' ∧ acc ⊆ acc' ∧ v ∈ acc' ∧
    (∀ x, x ∈ acc' → x ∈ acc ∨ rtc R v x) ∧
    (∀ x y, x ∈ acc' → x ∉ acc → y ∈ succ x → y ∈ acc').
  Proof.
    revert acc v. induction fuel as [|fuel IH]; intros acc v Hg Hv Hf; [lia|].
    cbn [add_rec]. unfold uid_contains. case_bool_decide as Hin.
    { split_and!; try done. by left. }
    pose proof (uid_add_perm v acc Hin) as Hp.
    assert (Hg' : Good (uid_add v acc)).
    { destruct Hg as [Hn Hl]. split.
      - rewrite Hp. by constructor.
      - intros x Hx. rewrite Hp in Hx. apply elem_of_cons in Hx as [->|Hx]; auto. }
    destruct (add_rec_fold fuel IH (succ v) (uid_add v acc) Hg') as (G & S & V & X & C).
    - intros u Hu. by eapply Hsucc.
    - pose proof (good_length _ Hg') as Hlen. rewrite Hp in *. cbn [length] in *. lia.
    - split_and!.
      + done.
      + intros x Hx. apply S. rewrite Hp. by right.
      + apply S. rewrite Hp. by left.
      + intros x Hx. destruct (X x Hx) as [Hx1|(u & Hu & Hr)].
        * rewrite Hp in Hx1. apply elem_of_cons in Hx1 as [->|Hx1]; [|by left]. by right.
        * right. eapply rtc_l; [exact Hu|done].
      + intros x y Hx Hxa Hy. destruct (decide (x = v)) as [->|Hne]; [by apply V|].
        eapply C; [done| |done]. rewrite Hp. apply not_elem_of_cons. done.
  Qed.

  Lemma reach_fold vs :
    (∀ v, v ∈ vs → v < n) →
    ∀ x, x ∈ fold_left (add_rec succ (S n)) vs [] ↔ ∃ v, v ∈ vs ∧ rtc R v x.
  Proof.
    intros Hvs x.
    destruct (add_rec_fold (S n) (add_rec_spec (S n)) vs []) as (G & S & V & X & C).
    - split; [constructor|]. intros y Hy. by apply elem_of_nil in Hy.
    - done.
    - simpl. lia.
    - split.
      + intros Hx. destruct (X x Hx) as [Hn|?]; [by apply elem_of_nil in Hn|done].
      + intros (v & Hv & Hr). apply V in Hv. clear -Hr Hv C.
        induction Hr as [y|y z w Hyz _ IH]; [done|]. apply IH.
        eapply C; [exact Hv| |exact Hyz]. by apply not_elem_of_nil.
  Qed.
  Lemma reach_one v x : v < n → x ∈ add_rec succ (S n) [] v ↔ rtc R v x.
  Proof.
    intros Hv. pose proof (reach_fold [v]) as H. cbn [fold_left] in H. rewrite H.
    - split; [|intros; exists v; split; [by left|done]].
      intros (u & Hu & Hr). apply elem_of_list_singleton in Hu as ->. done.
    - intros u Hu. by apply elem_of_list_singleton in Hu as ->.
  Qed.
End dfs.

Section reqs.
  Context (ps : list psys).
  Hypothesis Hin : ∀ i s j, ps !! i = Some s → j ∈ p_hard s → j < length ps.
  Let n := length ps.

  (** [a] is one of the systems [b] has to come after. *)
  Definition hard_link (a b : nat) : Prop := a ∈ hard_of ps b.

  Lemma hard_of_lt v y : y ∈ hard_of ps v → y < n.
  Proof.
    unfold hard_of. destruct (ps !! v) as [s|] eqn:E; [by apply Hin with v|].
    intros H. by apply elem_of_nil in H.
  Qed.
  Lemma hard_of_dom v y : y ∈ hard_of ps v → v < n.
  Proof.
    unfold hard_of. destruct (ps !! v) as [s|] eqn:E; [intros; by apply lookup_lt_Some in E|].
    intros H. by apply elem_of_nil in H.
  Qed.
  Lemma hard_succ_elem v y : y ∈ hard_succ ps v ↔ v ≠ y ∧ hard_link v y.
  Proof.
    unfold hard_succ, hard_link, uid_contains. rewrite elem_of_filter_bool, elem_of_seq.
    rewrite andb_true_iff, negb_true_iff, Nat.eqb_neq, bool_decide_eq_true.
    split; [tauto|]. intros [H1 H2]. apply hard_of_dom in H2 as H3. fold n. split; [lia|done].
  Qed.

  Lemma systems_before_elem i x : x ∈ systems_before ps i ↔ tc hard_link x i.
  Proof.
    unfold systems_before. rewrite (reach_fold (hard_of ps) (length ps)).
    - split.
      + intros (v & Hv & Hr). clear -Hv Hr. 
        revert i Hv. induction Hr as [y|y z w Hyz _ IH]; intros i Hv; [by apply tc_once|].
        eapply tc_r; [apply IH; exact Hyz|exact Hv].
      + intros Ht. clear -Ht. induction Ht as [x y H|x y z Hxy _ IH].
        * exists x. split; [done|]. constructor.
        * destruct IH as (v & Hv & Hr). exists v. split; [done|].
          eapply rtc_r; [exact Hr|]. exact Hxy.
    - intros v y. apply hard_of_lt.
    - intros v. apply hard_of_lt.
  Qed.

  Lemma systems_after_elem i x :
    x ∈ systems_after ps i ↔
    (∃ j, i ≠ j ∧ hard_link i j) ∧ rtc (λ a b, a ≠ b ∧ hard_link a b) i x.
  Proof.
    unfold systems_after.
    set (step := λ acc j, if i =? j then acc
      else if uid_contains i (hard_of ps j) then add_rec (hard_succ ps) (S (length ps)) acc i
      else acc).
    assert (Hreach : i < n → ∀ y, y ∈ add_rec (hard_succ ps) (S (length ps)) [] i ↔
      rtc (λ a b, a ≠ b ∧ hard_link a b) i y).
    { intros Hi y. rewrite (reach_one (hard_succ ps) (length ps)).
      - split.
        + clear Hi step. intros H. induction H as [|a b c Hab _ IH]; [constructor|].
          eapply rtc_l; [by apply hard_succ_elem|done].
        + clear Hi step. intros H. induction H as [|a b c Hab _ IH]; [constructor|].
          eapply rtc_l; [by apply hard_succ_elem|done].
      - intros v z Hz. apply hard_succ_elem in Hz as [_ Hz]. by apply hard_of_dom in Hz.
      - done. }
    assert (Hstay : ∀ js acc, i ∈ acc → fold_left step js acc = acc).
    { intros js. induction js as [|j js IH]; intros acc Hacc; [done|]. cbn [fold_left].
      assert (step acc j = acc) as ->; [|by apply IH]. unfold step.
      destruct (i =? j); [done|]. destruct (uid_contains i _); [|done].
      cbn [add_rec]. unfold uid_contains. by rewrite bool_decide_true. }
    assert (Hfold : ∀ js, (∀ j, j ∈ js → j < n) →
      (fold_left step js [] = [] ∧ ∀ j, j ∈ js → i ≠ j → ¬ hard_link i j) ∨
      (fold_left step js [] = add_rec (hard_succ ps) (S (length ps)) [] i ∧
       ∃ j, j ∈ js ∧ i ≠ j ∧ hard_link i j)).
    { intros js. induction js as [|j js IH]; intros Hjs.
      - left. split; [done|]. intros j Hj. by apply elem_of_nil in Hj.
      - cbn [fold_left].
        assert (Hd : (i ≠ j ∧ hard_link i j) ∨ ¬ (i ≠ j ∧ hard_link i j)).
        { unfold hard_link. destruct (decide (i = j)), (decide (i ∈ hard_of ps j)); tauto. }
        destruct Hd as [[Hne Hl]|Hno].
        + right. split; [|exists j; split; [by left|done]].
          assert (step [] j = add_rec (hard_succ ps) (S (length ps)) [] i) as E.
          { unfold step. rewrite (proj2 (Nat.eqb_neq i j)) by done.
            unfold uid_contains at 1. by rewrite bool_decide_true. }
          rewrite E. apply Hstay. apply Hreach; [|constructor]. by apply hard_of_lt in Hl.
        + assert (step [] j = []) as ->.
          { unfold step. destruct (i =? j) eqn:Eij; [done|]. apply Nat.eqb_neq in Eij.
            unfold uid_contains. rewrite bool_decide_false; [done|]. intros H. by apply Hno. }
          destruct IH as [[E H]|(E & k & Hk & H)].
          * intros k Hk. apply Hjs. by right.
          * left. split; [done|]. intros k Hk Hne. apply elem_of_cons in Hk as [->|Hk]; [tauto|].
            by apply H.
          * right. split; [done|]. exists k. split; [by right|done]. }
    destruct (Hfold (seq 0 (length ps))) as [[E H]|(E & k & Hk & Hne & Hl)].
    - intros j Hj. apply elem_of_seq in Hj. fold n in Hj. lia.
    - rewrite E, elem_of_nil. split; [done|]. intros [(j & Hne & Hl) _].
      apply (H j); [|done|done]. apply elem_of_seq. apply hard_of_dom in Hl. fold n. lia.
    - rewrite E, Hreach by (by apply hard_of_lt in Hl). split; [|tauto]. eauto.
  Qed.

  Lemma unmet_elem req l t : t ∈ unmet req l ↔ t ∈ req ∧ ∀ s, s ∈ l → t ∉ p_tags s.
  Proof.
    unfold unmet. revert req. induction l as [|s l IH]; intros req; cbn [fold_left].
    - split; [|tauto]. intros H. split; [done|]. intros s Hs. by apply elem_of_nil in Hs.
    - rewrite IH, elem_of_filter_bool, negb_true_iff, bool_decide_eq_false. split.
      + intros [[H1 H2] H3]. split; [done|]. intros u Hu. apply elem_of_cons in Hu as [->|]; auto.
      + intros [H1 H2]. split_and!; [done|apply H2; by left|]. intros u Hu. apply H2. by right.
  Qed.
End reqs.

Lemma first_unmet_none f i n : first_unmet f i n = None ↔ ∀ k, i ≤ k → k < i + n → f k = [].
Proof.
  revert i. induction n as [|n IH]; intros i; cbn [first_unmet].
  - split; [|done]. intros _ k. lia.
  - destruct (f i) eqn:E.
    + rewrite IH. split; intros H k H1 H2.
      * destruct (decide (k = i)) as [->|]; [done|]. apply H; lia.
      * apply H; lia.
    + split; [done|]. intros H. rewrite H in E by lia. done.
Qed.
Lemma first_unmet_some f i n j l :
  first_unmet f i n = Some (j, l) → f j = l ∧ l ≠ [] ∧ i ≤ j ∧ j < i + n.
Proof.
  revert i. induction n as [|n IH]; intros i; cbn [first_unmet]; [done|].
  destruct (f i) eqn:E.
  - intros H. apply IH in H as (? & ? & ? & ?). split_and!; [done|done|lia|lia].
  - intros [= <- <-]. split_and!; [done|done|lia|lia].
Qed.

Lemma lookups_elem (ps : list psys) l s : s ∈ lookups ps l ↔ ∃ j, j ∈ l ∧ ps !! j = Some s.
Proof. unfold lookups. apply elem_of_list_omap. Qed.

(** * Grown workloads *)

Lemma grows_prefix w w' :
  grows w w' → length (wl_systems w) ≤ length (wl_systems w') ∧
  (∀ k, k ∈ wl_barriers w → k ∈ wl_barriers w').
Proof.
  induction 1 as [w|s w w' _ [IH1 IH2]|w w' _ [IH1 IH2]|w w' o _ [IH1 IH2]|w w' o _ [IH1 IH2]
    |n w w' _ IH|n w w' _ IH|n w w' _ IH|n w w' _ IH|c w w' _ IH]; try exact IH; [done|..].
  - cbn [wl_with_system wl_set_systems wl_systems wl_barriers]. rewrite app_length. split; [lia|done].
  - cbn [wl_with_barrier wl_systems wl_barriers]. split; [done|]. intros k Hk.
    apply elem_of_app. left. by apply IH2.
  - unfold wl_merge, wl_append. cbn [wl_set_systems wl_systems wl_barriers wl_propagate].
    rewrite app_length, map_length. split; [lia|]. intros k Hk. apply elem_of_app. left. by apply IH2.
  - cbn [wl_append wl_set_systems wl_systems wl_barriers]. rewrite app_length. split; [lia|done].
Qed.

(** * Sequential tuples *)

(** What is known about the system at position [p]: it has some tags and some "before"
    labels; both only grow. *)
Definition has (w : workload) (p : nat) (T B : label → Prop) : Prop :=
  ∃ s, wl_systems w !! p = Some s ∧ (∀ t, T t → t ∈ w_tags s) ∧
       (∀ t, B t → t ∈ w_before_all s).

Lemma has_propagate w p T B :
  has w p T B →
  has (wl_propagate w) p (λ t, T t ∨ t ∈ wl_tags w) (λ t, B t ∨ t ∈ wl_before_all w).
Proof.
  intros (s & Hs & HT & HB). exists (propagate_sys w s). split_and!.
  - cbn [wl_propagate wl_systems]. by rewrite list_lookup_fmap, Hs.
  - intros t Ht. cbn [propagate_sys w_tags]. apply elem_of_app. destruct Ht; auto.
  - intros t Ht. cbn [propagate_sys w_before_all]. apply dl_extend_elem. destruct Ht; auto.
Qed.
Lemma has_weaken w p (T T' B B' : label → Prop) :
  has w p T B → (∀ t, T' t → T t) → (∀ t, B' t → B t) → has w p T' B'.
Proof. intros (s & Hs & HT & HB) H1 H2. exists s. split_and!; eauto. Qed.

Lemma merge_length w o :
  length (wl_systems (wl_merge w o)) = length (wl_systems w) + length (wl_systems o).
Proof.
  unfold wl_merge, wl_append. cbn [wl_set_systems wl_systems wl_propagate].
  by rewrite app_length, !map_length.
Qed.
Lemma has_merge_l w o p T B : has w p T B → has (wl_merge w o) p T B.
Proof.
  intros H. apply has_propagate in H. destruct H as (s & Hs & HT & HB).
  exists s. split_and!; [|eauto..].
  unfold wl_merge, wl_append. cbn [wl_set_systems wl_systems].
  by apply lookup_app_l_Some.
Qed.
Lemma has_merge_r w o p T B :
  has o p T B →
  has (wl_merge w o) (length (wl_systems w) + p)
    (λ t, T t ∨ t ∈ wl_tags o) (λ t, B t ∨ t ∈ wl_before_all o).
Proof.
  intros H. apply has_propagate in H. destruct H as (s & Hs & HT & HB).
  exists (s_shift (length (wl_systems w)) s). split_and!; [|exact HT|exact HB].
  unfold wl_merge, wl_append. cbn [wl_set_systems wl_systems].
  rewrite lookup_app_r by (cbn [wl_propagate wl_systems]; rewrite map_length; lia).
  rewrite list_lookup_fmap. cbn [wl_propagate wl_systems] in *. rewrite map_length.
  replace (length (wl_systems w) + p - length (wl_systems w)) with p by lia.
  by rewrite Hs.
Qed.

Lemma start_cons w ws i : start (w :: ws) (S i) = length (wl_systems w) + start ws i.
Proof. unfold start. cbn [take map concat]. by rewrite app_length. Qed.
Lemma start_0 ws : start ws 0 = 0.
Proof. done. Qed.

Lemma seq_merge_l acc ws tags p T B : has acc p T B → has (seq_merge acc ws tags) p T B.
Proof.
  revert acc tags. induction ws as [|w ws IH]; intros acc tags H; [done|].
  cbn [seq_merge]. apply IH. by apply has_merge_l.
Qed.

Lemma seq_merge_has acc ws tags i w p :
  ws !! i = Some w → p < length (wl_systems w) →
  has (seq_merge acc ws tags) (length (wl_systems acc) + start ws i + p)
    (λ t, t ∈ wl_tags w) (λ t, tags !! i = Some t).
Proof.
  revert acc tags i. induction ws as [|w0 ws IH]; intros acc tags i Hi Hp; [done|].
  cbn [seq_merge]. destruct i as [|i]; cbn in Hi.
  - injection Hi as ->. rewrite start_0, Nat.add_0_r. apply seq_merge_l.
    destruct (lookup_lt_is_Some_2 _ _ Hp) as [s Hs].
    destruct tags as [|t tags].
    + eapply has_weaken; [apply (has_merge_r acc w p (λ _, False) (λ _, False))| |].
      * exists s. by split_and!.
      * intros t Ht. by right.
      * intros t Ht. done.
    + eapply has_weaken; [apply (has_merge_r acc (wl_before t w) p (λ _, False) (λ _, False))| |].
      * exists s. by split_and!.
      * intros u Hu. by right.
      * intros u [= ->]. right. cbn [wl_before wl_before_all]. apply dl_add_elem. by left.
  - assert (Hl : length (wl_systems (wl_merge acc (match tags with t :: _ => wl_before t w0 | [] => w0 end)))
      = length (wl_systems acc) + length (wl_systems w0)).
    { rewrite merge_length. by destruct tags. }
    pose proof (IH (wl_merge acc (match tags with t :: _ => wl_before t w0 | [] => w0 end))
      (tail tags) i Hi Hp) as H.
    rewrite Hl in H. rewrite start_cons, Nat.add_assoc.
    eapply has_weaken; [exact H|done|]. intros t Ht. destruct tags; [done|]. exact Ht.
Qed.

(** In a sequential tuple the systems of an element have an explicit constraint to come
    before those of the next element. *)
Lemma sequential_explicit lbl ws w i wa wb a b :
  tuple_into_sequential lbl ws = Some w →
  ws !! i = Some wa → ws !! S i = Some wb →
  a < length (wl_systems wa) → b < length (wl_systems wb) →
  explicit (wl_systems w) (start ws i + a) (start ws (S i) + b).
Proof.
  unfold tuple_into_sequential. destruct (has_dup _); [done|]. intros [= <-] Ha Hb Hla Hlb.
  set (ws' := map (λ w, wl_tag (LSeq (wl_name w)) w) ws).
  set (tags := map (λ w, LSeq (wl_name w)) ws).
  assert (Hst : ∀ k, start ws' k = start ws k).
  { intros k. unfold start, ws'. rewrite <-fmap_take, map_map. done. }
  assert (Ha' : ws' !! i = Some (wl_tag (LSeq (wl_name wa)) wa)).
  { unfold ws'. by rewrite list_lookup_fmap, Ha. }
  assert (Hb' : ws' !! S i = Some (wl_tag (LSeq (wl_name wb)) wb)).
  { unfold ws'. by rewrite list_lookup_fmap, Hb. }
  destruct (seq_merge_has (tuple_start lbl) ws' (tail tags) i _ a Ha' Hla) as (sa & Hsa & _ & HBa).
  destruct (seq_merge_has (tuple_start lbl) ws' (tail tags) (S i) _ b Hb' Hlb) as (sb & Hsb & HTb & _).
  cbn [tuple_start wl_systems length Nat.add] in Hsa, Hsb. rewrite Hst in Hsa, Hsb.
  split.
  - assert (start ws i + length (wl_systems wa) ≤ start ws (S i)); [|lia].
    clear -Ha. revert i Ha. induction ws as [|x ws IH]; intros i Ha; [done|].
    destruct i as [|i]; cbn in Ha.
    + injection Ha as ->. rewrite start_cons. unfold start. simpl. lia.
    + rewrite !start_cons. apply IH in Ha. lia.
  - exists sa, sb. split_and!; [done..|]. left. exists (LSeq (wl_name wb)). split.
    + apply HBa. rewrite lookup_tail. unfold tags. by rewrite list_lookup_fmap, Hb.
    + apply HTb. cbn [wl_tag wl_tags]. apply elem_of_app. right. by left.
Qed.
