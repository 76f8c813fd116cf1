(** Proofs about WorkloadInfo.v: without the reported fields it is Sched.v, and what the reported fields are. *)
From Coq Require Import Sorted.
From stdpp Require Import prelude countable list gmap.
From Verif Require Import Sched SchedSpec SchedProofs WorkloadInfo WorkloadInfoSpec.
Local Open Scope nat_scope.

(** ** Conflicts *)

Lemma pair_info_some id a b : is_Some (pair_info id a b) ↔ tinfo_conflict a b = true.
Proof.
  unfold pair_info, tinfo_conflict.
  destruct (negb (t_safe a) && negb (t_safe b)); cbn [orb]; [naive_solver|].
  destruct (_ || _ || _); [naive_solver|]. split; [by intros []|done].
Qed.
Lemma first_some_is {A B} (f : A → option B) l :
  is_Some (first_some f l) ↔ ∃ x, x ∈ l ∧ is_Some (f x).
Proof.
  induction l as [|x l IH]; cbn [first_some].
  - split; [by intros []|]. intros (x & Hx & _). by apply elem_of_nil in Hx.
  - destruct (f x) as [y|] eqn:E.
    + split; [|naive_solver]. intros _. exists x. rewrite E. split; [by left|naive_solver].
    + rewrite IH. split.
      * intros (z & Hz & H). exists z. split; [by right|done].
      * intros (z & Hz & H). apply elem_of_cons in Hz as [->|Hz]; [|by exists z].
        rewrite E in H. by destruct H.
Qed.
Lemma first_some_elem {A B} (f : A → option B) l y :
  first_some f l = Some y → ∃ x, x ∈ l ∧ f x = Some y.
Proof.
  induction l as [|x l IH]; cbn [first_some]; [done|].
  destruct (f x) as [z|] eqn:E.
  - intros [= ->]. exists x. split; [by left|done].
  - intros H. destruct (IH H) as (z & ? & ?). exists z. split; [by right|done].
Qed.
Lemma existsb_bool {A} (f : A → bool) l : existsb f l = true ↔ ∃ x, x ∈ l ∧ f x = true.
Proof.
  rewrite existsb_exists. split; intros (x & Hx & H); exists x; (split; [by apply elem_of_list_In|done]).
Qed.
Lemma conflict_info_some s id bs : is_Some (conflict_info s id bs) ↔ check_conflict s bs = true.
Proof.
  unfold conflict_info, check_conflict. rewrite first_some_is, existsb_bool.
  split; intros (a & Ha & H); exists a; (split; [done|]).
  - apply first_some_is in H as (b & Hb & H). apply existsb_bool. exists b. split; [done|].
    by apply (pair_info_some id).
  - apply existsb_bool in H as (b & Hb & H). apply first_some_is. exists b. split; [done|].
    by apply pair_info_some.
Qed.
Lemma conflict_info_names s id bs c :
  conflict_info s id bs = Some c → names_clash c (p_borrows s) id bs.
Proof.
  intros H. apply first_some_elem in H as (a & Ha & H). apply first_some_elem in H as (b & Hb & H).
  unfold pair_info in H.
  destruct (negb (t_safe a) && negb (t_safe b)) eqn:E1.
  - injection H as <-. apply andb_prop in E1 as [E1 E2]. apply negb_true_iff in E1, E2.
    cbn [names_clash]. naive_solver.
  - destruct (_ || _ || _) eqn:E2; [|done]. injection H as <-. cbn [names_clash].
    split_and!; [done..|]. unfold borrow_clash.
    apply orb_true_iff in E2 as [E2|E2]; [apply orb_true_iff in E2 as [E2|E2]|].
    + apply andb_prop in E2 as [E2 E3]. apply bool_decide_eq_true in E2.
      apply orb_true_iff in E3. naive_solver.
    + apply bool_decide_eq_true in E2. auto.
    + apply bool_decide_eq_true in E2. auto.
Qed.
Lemma conflict_info_none s id bs : conflict_info s id bs = None ↔ check_conflict s bs = false.
Proof.
  by rewrite eq_None_not_Some, conflict_info_some, not_true_iff_false.
Qed.

(** ** Without the reported fields: the constraints *)

Lemma plain_sys f l : length (f (map i_sys l)) = length l → map i_sys (plain f l) = f (map i_sys l).
Proof.
  unfold plain. generalize (f (map i_sys l)) as q. revert l.
  induction l as [|s l IH]; intros [|p q]; cbn [zip_with map length]; try done.
  intros [= H]. by rewrite IH.
Qed.
Lemma plain_lookup f l i s :
  l !! i = Some s → length (f (map i_sys l)) = length l →
  ∃ p, f (map i_sys l) !! i = Some p ∧ plain f l !! i = Some (with_sys s p).
Proof.
  intros Hs Hlen. destruct (lookup_lt_is_Some_2 (f (map i_sys l)) i) as [p Hp].
  { rewrite Hlen. by apply lookup_lt_Some in Hs. }
  exists p. split; [done|]. unfold plain. by rewrite lookup_zip_with, Hs, Hp.
Qed.
Lemma plain_length f l : length (f (map i_sys l)) = length l → length (plain f l) = length l.
Proof. intros H. unfold plain. rewrite zip_with_length_l; lia. Qed.

Lemma lookup_sys l i : map i_sys l !! i = i_sys <$> l !! i.
Proof. apply list_lookup_fmap. Qed.

Lemma find_down_ext f g i : (∀ j, f j = g j) → find_down f i = find_down g i.
Proof. intros H. induction i as [|i IH]; cbn [find_down]; [done|]. rewrite H. by rewrite IH. Qed.
Lemma find_down_some f i j : find_down f i = Some j → f j = true ∧ j < i.
Proof.
  induction i as [|i IH]; cbn [find_down]; [done|]. destruct (f i) eqn:E.
  - intros [= <-]. split; [done|lia].
  - intros H. destruct (IH H). split; [done|lia].
Qed.
Lemma find_down_exists f i j : f j = true → j < i → is_Some (find_down f i).
Proof.
  induction i as [|i IH]; cbn [find_down]; [lia|]. intros Hj Hl. destruct (f i) eqn:E; [done|].
  apply IH; [done|]. destruct (decide (j = i)) as [->|]; [congruence|lia].
Qed.

Lemma imap_sys (f : nat → isys → isys) (g : nat → psys → psys) l :
  (∀ i s, l !! i = Some s → i_sys (f i s) = g i (i_sys s)) → map i_sys (imap f l) = imap g (map i_sys l).
Proof.
  intros H. apply list_eq. intros i. change (map i_sys (imap f l)) with (i_sys <$> imap f l).
  rewrite list_lookup_fmap, !list_lookup_imap, lookup_sys.
  destruct (l !! i) as [s|] eqn:E; cbn [fmap option_fmap option_map]; [|done]. by rewrite (H i s E).
Qed.

Definition hard_at (l : list isys) (s : isys) (i : nat) : option nat :=
  find_down (λ j, match l !! j with
                  | Some o => negb (p_opted (i_sys o)) && check_conflict (i_sys s) (p_borrows (i_sys o))
                  | None => false
                  end) i.
Lemma hard_at_sys l s i : hard_at l s i =
  find_down (λ j, match map i_sys l !! j with
                  | Some o => negb (p_opted o) && check_conflict (i_sys s) (p_borrows o)
                  | None => false
                  end) i.
Proof. apply find_down_ext. intros j. rewrite lookup_sys. by destruct (l !! j). Qed.
Lemma hard_at_some l s i j : hard_at l s i = Some j →
  j < i ∧ ∃ o, l !! j = Some o ∧ p_opted (i_sys o) = false ∧ check_conflict (i_sys s) (p_borrows (i_sys o)) = true.
Proof.
  intros H. apply find_down_some in H as [H Hj]. split; [done|].
  destruct (l !! j) as [o|]; [|done]. apply andb_prop in H as [H1 H2]. apply negb_true_iff in H1. eauto.
Qed.

Lemma i_implicit_hard_sys l : map i_sys (i_implicit_hard l) = implicit_hard (map i_sys l).
Proof.
  unfold i_implicit_hard, implicit_hard. apply imap_sys. intros i s Hs.
  fold (hard_at l s i). rewrite <-hard_at_sys. destruct (p_opted (i_sys s)); [done|].
  destruct (hard_at l s i) as [j|] eqn:E; [|done].
  destruct (hard_at_some _ _ _ _ E) as (_ & o & -> & _). done.
Qed.
(** The conflict noted for a system is with an earlier one of the systems that have no explicit order. *)
Lemma i_implicit_hard_lookup l i s :
  l !! i = Some s →
  ∃ s', i_implicit_hard l !! i = Some s' ∧
    i_after s' = i_after s ∧ i_after_all s' = i_after_all s ∧ i_before_all s' = i_before_all s ∧
    ((i_conflict s' = i_conflict s ∧
        (p_opted (i_sys s) = true ∨
         ∀ j o, j < i → l !! j = Some o → p_opted (i_sys o) = false →
           check_conflict (i_sys s) (p_borrows (i_sys o)) = false)) ∨
     (p_opted (i_sys s) = false ∧ ∃ j o c, j < i ∧ l !! j = Some o ∧ p_opted (i_sys o) = false ∧ j ∈ p_hard (i_sys s') ∧
        i_conflict s' = Some c ∧ conflict_info (i_sys s) (p_index (i_sys o)) (p_borrows (i_sys o)) = Some c)).
Proof.
  intros Hs. unfold i_implicit_hard. rewrite list_lookup_imap, Hs. cbn [fmap option_fmap option_map].
  eexists. split; [reflexivity|]. fold (hard_at l s i).
  destruct (p_opted (i_sys s)) eqn:Eo; [split_and!; auto|].
  destruct (hard_at l s i) as [j|] eqn:E.
  - destruct (hard_at_some _ _ _ _ E) as (Hj & o & Ho & Ho1 & Ho2). rewrite Ho.
    cbn [with_conflict with_sys i_after i_after_all i_before_all i_conflict i_sys].
    split_and!; [done..|]. right. split; [done|].
    destruct (proj2 (conflict_info_some _ (p_index (i_sys o)) _) Ho2) as [c Hc].
    exists j, o, c. split_and!; try done. cbn [p_add_hard p_hard]. apply uid_add_elem. by left.
  - split_and!; [done..|]. left. split; [done|]. right. intros j o Hj Ho Ho1.
    apply not_true_is_false. intros Ho2.
    destruct (find_down_exists (λ j, match l !! j with
                  | Some o => negb (p_opted (i_sys o)) && check_conflict (i_sys s) (p_borrows (i_sys o))
                  | None => false
                  end) i j) as [k Hk]; [|done|unfold hard_at in E; congruence].
    by rewrite Ho, Ho1, Ho2.
Qed.

Lemma i_before_all_step_sys l i : map i_sys (i_before_all_step l i) = before_all_step (map i_sys l) i.
Proof.
  unfold i_before_all_step, before_all_step. rewrite lookup_sys.
  destruct (l !! i) as [si|]; cbn [fmap option_fmap option_map]; [|done].
  apply imap_sys. intros j s Hs. destruct (i =? j); [done|]. by destruct (overlap _ _).
Qed.
Lemma i_before_all_fold_sys n l :
  map i_sys (fold_left i_before_all_step n l) = fold_left before_all_step n (map i_sys l).
Proof.
  revert l. induction n as [|i n IH]; intros l; cbn [fold_left]; [done|].
  by rewrite IH, i_before_all_step_sys.
Qed.
Lemma i_map_before_all_sys l : map i_sys (i_map_before_all l) = map_before_all (map i_sys l).
Proof. unfold i_map_before_all, map_before_all. by rewrite i_before_all_fold_sys, map_length. Qed.

Lemma list_fmap_insert' l i s : map i_sys (<[i := s]> l) = <[i := i_sys s]> (map i_sys l).
Proof. apply (list_fmap_insert i_sys). Qed.
Lemma fold_left_ext {A B} (f g : A → B → A) n a : (∀ a b, f a b = g a b) → fold_left f n a = fold_left g n a.
Proof. intros H. revert a. induction n as [|b n IH]; intros a; cbn [fold_left]; [done|]. rewrite H. apply IH. Qed.
Lemma i_after_all_step_sys l i : map i_sys (i_after_all_step l i) = after_all_step (map i_sys l) i.
Proof.
  unfold i_after_all_step, after_all_step. rewrite lookup_sys.
  destruct (l !! i) as [si|]; cbn [fmap option_fmap option_map]; [|done].
  rewrite list_fmap_insert', map_length. cbn [with_after_all with_sys i_sys].
  f_equal. apply fold_left_ext. intros s j. destruct (i =? j); [done|]. rewrite lookup_sys.
  by destruct (l !! j).
Qed.
Lemma i_after_all_fold_sys n l :
  map i_sys (fold_left i_after_all_step n l) = fold_left after_all_step n (map i_sys l).
Proof.
  revert l. induction n as [|i n IH]; intros l; cbn [fold_left]; [done|].
  by rewrite IH, i_after_all_step_sys.
Qed.
Lemma i_map_after_all_sys l : map i_sys (i_map_after_all l) = map_after_all (map i_sys l).
Proof. unfold i_map_after_all, map_after_all. by rewrite i_after_all_fold_sys, map_length. Qed.

Lemma before_first_length i j b ps : length (before_first i j b ps) = length ps.
Proof.
  revert j. induction ps as [|s ps IH]; intros j; cbn [before_first]; [done|].
  destruct (i =? j); [cbn [length]; by rewrite IH|]. destruct (overlap _ _); cbn [length]; [done|by rewrite IH].
Qed.
Lemma map_before_length ps : length (map_before ps) = length ps.
Proof.
  unfold map_before. generalize (seq 0 (length ps)) as n. intros n. revert ps.
  induction n as [|i n IH]; intros ps; cbn [fold_left]; [done|]. rewrite IH. unfold before_step.
  destruct (ps !! i); [|done]. by rewrite before_first_length, insert_length.
Qed.
Lemma barriers_length ps bars : length (propagate_barriers ps bars) = length ps.
Proof.
  unfold propagate_barriers. revert ps. induction bars as [|k bars IH]; intros ps; cbn [fold_left]; [done|].
  by rewrite IH, imap_length.
Qed.

Lemma i_constrain_sys l bars : map i_sys (i_constrain l bars) = constrain (map i_sys l) bars.
Proof.
  unfold i_constrain, constrain.
  rewrite plain_sys by (by rewrite map_before_length, map_length).
  rewrite i_map_after_all_sys, i_map_before_all_sys.
  rewrite plain_sys by (by rewrite implicit_soft_length, map_length).
  rewrite i_implicit_hard_sys.
  by rewrite plain_sys by (by rewrite barriers_length, map_length).
Qed.

(** ** The notes on [before_all] and [after_all] *)

Lemma find_first_in l m t : List.find (λ t, bool_decide (t ∈ m)) l = Some t → first_in l m t.
Proof.
  induction l as [|x l IH]; cbn [List.find]; [done|]. destruct (bool_decide (x ∈ m)) eqn:E.
  - intros [= ->]. apply bool_decide_eq_true in E. exists 0. split_and!; [done..|]. intros; lia.
  - apply bool_decide_eq_false in E. intros H. destruct (IH H) as (n & H1 & H2 & H3).
    exists (S n). split_and!; [done..|]. intros [|n'] t' Hn Ht; [by injection Ht as <-|].
    apply (H3 n' t'); [lia|done].
Qed.
Lemma first_in_find l m t : first_in l m t → List.find (λ t, bool_decide (t ∈ m)) l = Some t.
Proof.
  induction l as [|x l IH]; intros (n & H1 & H2 & H3); cbn [List.find]; [done|].
  destruct n as [|n].
  - injection H1 as ->. by rewrite bool_decide_eq_true_2.
  - rewrite bool_decide_eq_false_2; [|apply (H3 0 x); [lia|done]].
    apply IH. exists n. split_and!; [done..|]. intros n' t' Hn Ht. apply (H3 (S n') t'); [lia|done].
Qed.

Lemma noted_imap {A} (g : nat → A → option (nat * label)) (num : nat → nat) (P : nat → label → Prop) (l : list A) :
  (∀ j s n t, l !! j = Some s → g j s = Some (n, t) → n = num j ∧ P j t) →
  (∀ j t, P j t → ∃ s n, l !! j = Some s ∧ g j s = Some (n, t)) →
  noted (omap id (imap g l)) num P.
Proof.
  intros H1 H2.
  assert (∀ k, ∃ js, StronglySorted lt js ∧ Forall (λ j, k ≤ j) js ∧
    Forall2 (λ j n, ∃ s, k ≤ j ∧ l !! (j - k) = Some s ∧ g j s = Some n) js (omap id (imap (λ i, g (k + i)) l)) ∧
    ∀ j s n, k ≤ j → l !! (j - k) = Some s → g j s = Some n → j ∈ js) as H.
  { clear H1 H2. induction l as [|x l IH]; intros k.
    - exists []. cbn. split_and!; [constructor..|]. intros j s n _ Hs. by rewrite lookup_nil in Hs.
    - cbn [imap]. destruct (IH (S k)) as (js & J1 & J2 & J3 & J4).
      assert (E : imap ((λ i, g (k + i)) ∘ S) l = imap (λ i, g (S k + i)) l).
      { apply imap_ext. intros i y _. cbn. f_equal. lia. }
      rewrite E. clear E. rewrite Nat.add_0_r. cbn [omap list_omap].
      assert (J3' : Forall2 (λ j n, ∃ s, k ≤ j ∧ (x :: l) !! (j - k) = Some s ∧ g j s = Some n) js
                (omap id (imap (λ i, g (S k + i)) l))).
      { eapply Forall2_impl; [exact J3|]. intros j n (s & Hj & Hs & Hg). exists s.
        split_and!; [lia| |done]. replace (j - k) with (S (j - S k)) by lia. done. }
      assert (J4' : ∀ j s n, k ≤ j → (x :: l) !! (j - k) = Some s → g j s = Some n → j = k ∧ s = x ∨ j ∈ js).
      { intros j s n Hj Hs Hg. destruct (decide (j = k)) as [->|Hne].
        - left. rewrite Nat.sub_diag in Hs. by injection Hs as ->.
        - right. eapply (J4 j s n); [lia| |done]. by replace (j - k) with (S (j - S k)) in Hs by lia. }
      destruct (g k x) as [n|] eqn:E; cbn [id].
      + exists (k :: js). split_and!.
        * constructor; [done|]. eapply Forall_impl; [exact J2|]. intros j; cbn; lia.
        * constructor; [done|]. eapply Forall_impl; [exact J2|]. intros j; cbn; lia.
        * constructor; [|exact J3']. exists x. rewrite Nat.sub_diag. done.
        * intros j s n' Hj Hs Hg. apply elem_of_cons.
          destruct (J4' j s n' Hj Hs Hg) as [[-> _]|]; auto.
      + exists js. split_and!; [done| |exact J3'|].
        * eapply Forall_impl; [exact J2|]. intros j; cbn; lia.
        * intros j s n' Hj Hs Hg. destruct (J4' j s n' Hj Hs Hg) as [[-> ->]|]; [congruence|done]. }
  destruct (H 0) as (js & J1 & _ & J3 & J4). exists js. split; [done|]. split.
  - eapply Forall2_impl; [exact J3|]. intros j [n t] (s & _ & Hs & Hg).
    rewrite Nat.sub_0_r in Hs. cbn. by apply (H1 j s).
  - intros j t Hp. destruct (H2 j t Hp) as (s & n & Hs & Hg). eapply J4; [lia| |exact Hg].
    by rewrite Nat.sub_0_r.
Qed.

(** The lists [l] and [q] have systems with the same numbers and tags. *)
Definition same_core (l q : list isys) : Prop :=
  length q = length l ∧
  ∀ j s, l !! j = Some s → ∃ s', q !! j = Some s' ∧ core_eq (i_sys s') (i_sys s).
Lemma same_core_imap {A} (g : nat → isys → A) l q :
  same_core l q → (∀ j s s', core_eq (i_sys s') (i_sys s) → g j s' = g j s) → imap g q = imap g l.
Proof.
  intros [Hlen H] Hg. apply list_eq. intros j. rewrite !list_lookup_imap.
  destruct (l !! j) as [s|] eqn:E.
  - destruct (H j s E) as (s' & -> & Hc). cbn. by rewrite (Hg j s s' Hc).
  - apply lookup_ge_None in E. rewrite (lookup_ge_None_2 q); [done|lia].
Qed.
Lemma before_all_notes_core l q i ls : same_core l q → before_all_notes q i ls = before_all_notes l i ls.
Proof.
  intros H. unfold before_all_notes. f_equal. apply same_core_imap; [done|].
  intros j s s' (-> & _ & -> & _). done.
Qed.
Lemma after_all_notes_core l q i ls : same_core l q → after_all_notes q i ls = after_all_notes l i ls.
Proof.
  intros H. unfold after_all_notes. f_equal. apply same_core_imap; [done|].
  intros j s s' (_ & _ & -> & _). done.
Qed.
Lemma core_of_sys l q : length q = length l →
  (∀ j p, map i_sys l !! j = Some p → ∃ p', map i_sys q !! j = Some p' ∧ core_eq p' p) → same_core l q.
Proof.
  intros Hlen H. split; [done|]. intros j s Hs.
  destruct (H j (i_sys s)) as (p' & Hp & Hc); [by rewrite lookup_sys, Hs|].
  rewrite lookup_sys in Hp. apply fmap_Some in Hp as (s' & Hs' & ->). eauto.
Qed.

Lemma i_before_all_prefix l m : m ≤ length l →
  let q := fold_left i_before_all_step (seq 0 m) l in
  same_core l q ∧
  ∀ j s, l !! j = Some s → ∃ s', q !! j = Some s' ∧ i_conflict s' = i_conflict s ∧ i_after s' = i_after s ∧
    i_after_all s' = i_after_all s ∧
    i_before_all s' = (if j <? m then before_all_notes l j (p_before_all (i_sys s)) else i_before_all s).
Proof.
  induction m as [|m IH]; intros Hm.
  - cbn. split.
    + split; [done|]. intros j s Hs. exists s. split; [done|]. apply core_eq_refl.
    + intros j s Hs. exists s. split_and!; done.
  - rewrite seq_S, Nat.add_0_l, fold_left_app. cbn [fold_left]. destruct IH as [Hc IH]; [lia|].
    pose proof (before_all_prefix (map i_sys l) m) as Hp. rewrite map_length in Hp.
    destruct Hp as [_ Hp]; [lia|].
    pose proof (before_all_prefix (map i_sys l) (S m)) as Hp'. rewrite map_length in Hp'.
    destruct Hp' as [Hl' Hp']; [lia|].
    rewrite seq_S, Nat.add_0_l, fold_left_app in Hp', Hl'. cbn [fold_left] in Hp', Hl'.
    rewrite <-i_before_all_fold_sys, <-i_before_all_step_sys in Hp', Hl'.
    rewrite <-i_before_all_fold_sys in Hp.
    revert Hc IH Hp Hp' Hl'. generalize (fold_left i_before_all_step (seq 0 m) l) as q.
    intros q Hc IH Hp Hp' Hl'. split.
    + apply core_of_sys; [by rewrite !map_length in Hl'|]. intros j p Hj.
      destruct (Hp' j p Hj) as (p' & ? & ? & _). eauto.
    + intros j s Hs. destruct (IH j s Hs) as (s' & Hs' & G1 & G2 & G3 & G4).
      destruct (lookup_lt_is_Some_2 l m) as [sm Hsm]; [lia|].
      destruct (IH m sm Hsm) as (sm' & Hsm' & _).
      unfold i_before_all_step. rewrite Hsm'. rewrite list_lookup_imap, Hs'. cbn [fmap option_fmap option_map].
      eexists. split; [reflexivity|]. destruct (Nat.eqb_spec m j) as [->|Hne].
      * rewrite Hs in Hsm. injection Hsm as <-. rewrite Hs' in Hsm'. injection Hsm' as <-.
        cbn [with_before_all with_sys i_conflict i_after i_after_all i_before_all].
        split_and!; [done..|]. destruct (Nat.ltb_spec j (S j)); [|lia].
        rewrite (before_all_notes_core l q) by done. f_equal.
        destruct (Hp j (i_sys s)) as (p & Hp1 & _ & _ & _ & _ & Hp2 & _); [by rewrite lookup_sys, Hs|].
        rewrite lookup_sys, Hs' in Hp1. injection Hp1 as <-. by rewrite Nat.ltb_irrefl in Hp2.
      * assert (Hb : (j <? S m) = (j <? m)).
        { destruct (Nat.ltb_spec j m), (Nat.ltb_spec j (S m)); (done || lia). }
        rewrite Hb. destruct (overlap _ _); split_and!; done.
Qed.
Lemma i_map_before_all_lookup l j s :
  l !! j = Some s → ∃ s', i_map_before_all l !! j = Some s' ∧ i_conflict s' = i_conflict s ∧
    i_after s' = i_after s ∧ i_after_all s' = i_after_all s ∧
    i_before_all s' = before_all_notes l j (p_before_all (i_sys s)).
Proof.
  intros Hs. destruct (i_before_all_prefix l (length l)) as [_ H]; [done|].
  destruct (H j s Hs) as (s' & ? & ? & ? & ? & Hn). exists s'. split_and!; try done.
  destruct (Nat.ltb_spec j (length l)) as [|Hge]; [done|]. apply lookup_lt_Some in Hs. lia.
Qed.
Lemma i_map_before_all_core l : same_core l (i_map_before_all l).
Proof. by destruct (i_before_all_prefix l (length l)). Qed.

Lemma i_after_all_prefix l m : m ≤ length l →
  let q := fold_left i_after_all_step (seq 0 m) l in
  same_core l q ∧
  ∀ j s, l !! j = Some s → ∃ s', q !! j = Some s' ∧ i_conflict s' = i_conflict s ∧ i_after s' = i_after s ∧
    i_before_all s' = i_before_all s ∧
    i_after_all s' = (if j <? m then after_all_notes l j (p_after_all (i_sys s)) else i_after_all s).
Proof.
  induction m as [|m IH]; intros Hm.
  - cbn. split.
    + split; [done|]. intros j s Hs. exists s. split; [done|]. apply core_eq_refl.
    + intros j s Hs. exists s. split_and!; done.
  - rewrite seq_S, Nat.add_0_l, fold_left_app. cbn [fold_left]. destruct IH as [Hc IH]; [lia|].
    pose proof (after_all_prefix (map i_sys l) m) as Hp. rewrite map_length in Hp.
    destruct Hp as [_ Hp]; [lia|].
    pose proof (after_all_prefix (map i_sys l) (S m)) as Hp'. rewrite map_length in Hp'.
    destruct Hp' as [Hl' Hp']; [lia|].
    rewrite seq_S, Nat.add_0_l, fold_left_app in Hp', Hl'. cbn [fold_left] in Hp', Hl'.
    rewrite <-i_after_all_fold_sys, <-i_after_all_step_sys in Hp', Hl'.
    rewrite <-i_after_all_fold_sys in Hp.
    revert Hc IH Hp Hp' Hl'. generalize (fold_left i_after_all_step (seq 0 m) l) as q.
    intros q Hc IH Hp Hp' Hl'. split.
    + apply core_of_sys; [by rewrite !map_length in Hl'|]. intros j p Hj.
      destruct (Hp' j p Hj) as (p' & ? & ? & _). eauto.
    + intros j s Hs. destruct (IH j s Hs) as (s' & Hs' & G1 & G2 & G3 & G4).
      destruct (lookup_lt_is_Some_2 l m) as [sm Hsm]; [lia|].
      destruct (IH m sm Hsm) as (sm' & Hsm' & _).
      unfold i_after_all_step. rewrite Hsm'. destruct (decide (m = j)) as [->|Hne].
      * rewrite Hs in Hsm. injection Hsm as <-. rewrite Hs' in Hsm'. injection Hsm' as <-.
        rewrite list_lookup_insert by (by eapply lookup_lt_Some).
        eexists. split; [reflexivity|].
        cbn [with_after_all with_sys i_conflict i_after i_after_all i_before_all].
        split_and!; [done..|]. destruct (Nat.ltb_spec j (S j)); [|lia].
        rewrite (after_all_notes_core l q) by done. do 2 f_equal.
        destruct (Hp j (i_sys s)) as (p & Hp1 & _ & _ & _ & Hp2 & _); [by rewrite lookup_sys, Hs|].
        rewrite lookup_sys, Hs' in Hp1. injection Hp1 as <-. by apply Hp2.
      * rewrite list_lookup_insert_ne by done. exists s'.
        assert (Hb : (j <? S m) = (j <? m)).
        { destruct (Nat.ltb_spec j m), (Nat.ltb_spec j (S m)); (done || lia). }
        rewrite Hb. split_and!; done.
Qed.
Lemma i_map_after_all_lookup l j s :
  l !! j = Some s → ∃ s', i_map_after_all l !! j = Some s' ∧ i_conflict s' = i_conflict s ∧
    i_after s' = i_after s ∧ i_before_all s' = i_before_all s ∧
    i_after_all s' = after_all_notes l j (p_after_all (i_sys s)).
Proof.
  intros Hs. destruct (i_after_all_prefix l (length l)) as [_ H]; [done|].
  destruct (H j s Hs) as (s' & ? & ? & ? & ? & Hn). exists s'. split_and!; try done.
  destruct (Nat.ltb_spec j (length l)) as [|Hge]; [done|]. apply lookup_lt_Some in Hs. lia.
Qed.

(** ** What is noted before the systems are ordered *)

Lemma p_opted_out p w : p_before_all p = w_before_all w → p_after_all p = w_after_all w →
  p_opted p = false ↔ ¬ opted_out w.
Proof.
  intros H1 H2. rewrite p_opted_false, H1, H2. unfold opted_out.
  destruct (w_before_all w), (w_after_all w); naive_solver.
Qed.
Lemma tinfo_conflict_clash a b : tinfo_conflict a b = true ↔ borrow_clash a b.
Proof.
  unfold tinfo_conflict, borrow_clash. rewrite !orb_true_iff, !andb_true_iff, !negb_true_iff, !bool_decide_eq_true,
    orb_true_iff. tauto.
Qed.
Lemma check_conflict_clash s bs : check_conflict s bs = true ↔ clash (p_borrows s) bs.
Proof.
  unfold check_conflict, clash. rewrite existsb_bool. split.
  - intros (a & Ha & H). apply existsb_bool in H as (b & Hb & H). apply tinfo_conflict_clash in H. eauto.
  - intros (a & b & Ha & Hb & H). exists a. split; [done|]. apply existsb_bool. exists b.
    split; [done|]. by apply tinfo_conflict_clash.
Qed.

Lemma first_in_app_l l u m t : u ∉ m → first_in (l ++ [u]) m t ↔ first_in l m t.
Proof.
  intros Hu. split.
  - intros (n & H1 & H2 & H3). exists n. apply lookup_app_Some in H1 as [H1|[_ H1]].
    + split_and!; [done..|]. intros n' t' Hn Ht. apply (H3 n' t' Hn). by apply lookup_app_l_Some.
    + apply list_lookup_singleton_Some in H1 as [_ <-]. done.
  - intros (n & H1 & H2 & H3). exists n. split_and!; [by apply lookup_app_l_Some|done|].
    intros n' t' Hn Ht. apply (H3 n' t' Hn). rewrite lookup_app_l in Ht; [done|].
    apply lookup_lt_Some in H1. lia.
Qed.
Lemma first_in_ext l m m' t : (∀ x, x ∈ l → x ∈ m ↔ x ∈ m') → first_in l m t → first_in l m' t.
Proof.
  intros H (n & H1 & H2 & H3). exists n. split_and!; [done| |].
  - apply H; [by eapply elem_of_list_lookup_2|done].
  - intros n' t' Hn Ht. rewrite <-H; [by apply (H3 n')|by eapply elem_of_list_lookup_2].
Qed.

Section notes.
  Context (ss : list wsys) (bars : list nat) (f : fns).
  Hypothesis Hwf : Forall wf_wsys ss.
  Let ps := (insert_systems ss f).2.
  Let l0 := map i_new ps.
  Let l1 := plain (λ ps, propagate_barriers ps bars) l0.
  Let l2 := i_implicit_hard l1.
  Let l3 := plain implicit_soft l2.

  Definition num (j : nat) : nat := default 0 (p_index <$> ps !! j).

  (** [s] belongs to the system declared at [j]. *)
  Definition of_decl (j : nat) (w : wsys) (s : psys) : Prop :=
    p_borrows s = w_borrows w ∧ p_tags s = w_tags w ++ [LUid (w_uid w)] ∧ p_index s = num j ∧
    p_before_all s = w_before_all w ∧ p_after_all s = w_after_all w.

  Lemma core_of_decl j w s t : of_decl j w t → core_eq s t → p_before_all s = p_before_all t →
    p_after_all s = p_after_all t → of_decl j w s.
  Proof.
    intros (H1 & H2 & H3 & H4 & H5) (C1 & C2 & C3 & _) Hb Ha. unfold of_decl.
    rewrite C1, C2, C3, Hb, Ha. done.
  Qed.

  Lemma ps_of_decl j w : ss !! j = Some w → ∃ p, ps !! j = Some p ∧ of_decl j w p.
  Proof.
    intros Hw. destruct (insert_systems_lookup _ _ _ _ (surjective_pairing (insert_systems ss f))) as [_ H].
    destruct (H j w Hw) as (p & Hp & A & B & C & D & _).
    exists p. split; [done|]. unfold of_decl, num. unfold ps at 1. rewrite Hp. done.
  Qed.
  Lemma ps_length : length ps = length ss.
  Proof.
    by destruct (insert_systems_lookup _ _ _ _ (surjective_pairing (insert_systems ss f))) as [H _].
  Qed.
  Lemma l0_sys : map i_sys l0 = ps.
  Proof. unfold l0. rewrite map_map. apply map_id. Qed.
  Lemma l0_length : length l0 = length ss.
  Proof. unfold l0. by rewrite map_length, ps_length. Qed.
  Lemma l1_length : length l1 = length ss.
  Proof. unfold l1. rewrite plain_length; [apply l0_length|by rewrite barriers_length, map_length]. Qed.
  Lemma l2_length : length l2 = length ss.
  Proof. unfold l2, i_implicit_hard. rewrite imap_length. apply l1_length. Qed.
  Lemma l3_length : length l3 = length ss.
  Proof. unfold l3. rewrite plain_length; [apply l2_length|by rewrite implicit_soft_length, map_length]. Qed.

  Lemma l1_lookup j w : ss !! j = Some w →
    ∃ s, l1 !! j = Some s ∧ of_decl j w (i_sys s) ∧ i_conflict s = None.
  Proof.
    intros Hw. destruct (ps_of_decl j w Hw) as (p & Hp & Hd).
    destruct (plain_lookup (λ ps, propagate_barriers ps bars) l0 j (i_new p)) as (p1 & Hp1 & H1).
    { unfold l0. change (map i_new ps) with (i_new <$> ps). by rewrite list_lookup_fmap, Hp. }
    { by rewrite barriers_length, map_length. }
    rewrite l0_sys in Hp1. destruct (propagate_barriers_lookup bars ps j p Hp) as (p' & Hp' & C & B & A & _).
    rewrite Hp' in Hp1. injection Hp1 as <-. exists (with_sys (i_new p) p'). split_and!; [done| |done].
    cbn [with_sys i_sys]. by eapply core_of_decl.
  Qed.
  Lemma l2_lookup j w : ss !! j = Some w →
    ∃ s, l2 !! j = Some s ∧ of_decl j w (i_sys s) ∧
      ((i_conflict s = None ∧
          (opted_out w ∨ ∀ k y, k < j → ss !! k = Some y → ¬ opted_out y → ¬ clash (w_borrows w) (w_borrows y))) ∨
       (¬ opted_out w ∧ ∃ k y c, k < j ∧ ss !! k = Some y ∧ ¬ opted_out y ∧ i_conflict s = Some c ∧
          names_clash c (w_borrows w) (num k) (w_borrows y) ∧ clash (w_borrows w) (w_borrows y))).
  Proof.
    intros Hw. destruct (l1_lookup j w Hw) as (s1 & H1 & Hd & Hc).
    destruct (i_implicit_hard_lookup l1 j s1 H1) as (s2 & H2 & _ & _ & _ & HC).
    exists s2. split; [done|]. split.
    { pose proof (i_implicit_hard_sys l1) as E.
      destruct (implicit_hard_lookup (map i_sys l1) j (i_sys s1)) as (p & Hp & (C & B & A & _) & _);
        [by rewrite lookup_sys, H1|].
      rewrite <-E, lookup_sys in Hp. fold l2 in Hp. change (i_implicit_hard l1) with l2 in H2.
      rewrite H2 in Hp. injection Hp as <-. by eapply core_of_decl. }
    destruct Hd as (D1 & D2 & D3 & D4 & D5).
    destruct HC as [[HC Hno]|(Ho & k & o & c & Hk & Hlk & Hoo & _ & Hcf & Hci)].
    - left. split; [by rewrite HC|]. destruct Hno as [Hno|Hno].
      + left. destruct (decide (opted_out w)) as [|Hn]; [done|].
        apply (p_opted_out (i_sys s1) w) in Hn; congruence.
      + right. intros k y Hk Hy Hyo Hcl. destruct (l1_lookup k y Hy) as (o & Hlo & (E1 & _ & _ & E4 & E5) & _).
        assert (check_conflict (i_sys s1) (p_borrows (i_sys o)) = true); [|].
        { apply check_conflict_clash. by rewrite D1, E1. }
        rewrite (Hno k o Hk Hlo) in H; [done|]. by apply (p_opted_out _ y).
    - right. split; [by apply (p_opted_out (i_sys s1) w)|].
      assert (∃ y, ss !! k = Some y) as [y Hy].
      { apply lookup_lt_is_Some. apply lookup_lt_Some in Hlk. rewrite l1_length in Hlk. done. }
      destruct (l1_lookup k y Hy) as (o' & Hlo & (E1 & _ & E3 & E4 & E5) & _).
      rewrite Hlk in Hlo. injection Hlo as <-.
      exists k, y, c. split_and!; [done..| |done| |].
      + by apply (p_opted_out (i_sys o) y).
      + rewrite <-D1, <-E1, <-E3. by apply conflict_info_names.
      + rewrite <-D1, <-E1. apply check_conflict_clash. apply (conflict_info_some _ (p_index (i_sys o))). eauto.
  Qed.
  (** The conflict noted for the system [w] declared at [j]. *)
  Definition noted_conflict (j : nat) (w : wsys) (c : option conflict) : Prop :=
    (c = None ∧
       (opted_out w ∨ ∀ k y, k < j → ss !! k = Some y → ¬ opted_out y → ¬ clash (w_borrows w) (w_borrows y))) ∨
    (¬ opted_out w ∧ ∃ k y c', k < j ∧ ss !! k = Some y ∧ ¬ opted_out y ∧ c = Some c' ∧
       names_clash c' (w_borrows w) (num k) (w_borrows y) ∧ clash (w_borrows w) (w_borrows y)).

  Lemma l3_lookup j w : ss !! j = Some w →
    ∃ s, l3 !! j = Some s ∧ of_decl j w (i_sys s) ∧ noted_conflict j w (i_conflict s).
  Proof.
    intros Hw. destruct (l2_lookup j w Hw) as (s2 & H2 & Hd & Hc).
    destruct (plain_lookup implicit_soft l2 j s2 H2) as (p & Hp & H3).
    { by rewrite implicit_soft_length, map_length. }
    destruct (implicit_soft_lookup (map i_sys l2) j (i_sys s2)) as (p' & Hp' & (C & B & A & _) & _).
    { by rewrite lookup_sys, H2. }
    rewrite Hp in Hp'. injection Hp' as <-. exists (with_sys s2 p). split_and!; [done| |done].
    cbn [with_sys i_sys]. by eapply core_of_decl.
  Qed.

  Lemma user_not_uid n l : Forall user_label l → LUid n ∉ l.
  Proof. intros H Hin. rewrite Forall_forall in H. by apply (H _ Hin n). Qed.

  Lemma final_notes j w : ss !! j = Some w →
    ∃ s, i_constrain l0 bars !! j = Some s ∧ noted_conflict j w (i_conflict s) ∧
      noted (i_before_all s) num
        (λ k t, k ≠ j ∧ ∃ y, ss !! k = Some y ∧ first_in (w_tags y) (w_before_all w) t) ∧
      noted (i_after_all s) (λ k, k)
        (λ k t, k ≠ j ∧ ∃ y, ss !! k = Some y ∧ first_in (w_after_all w) (w_tags y) t).
  Proof.
    intros Hw. destruct (l3_lookup j w Hw) as (s3 & H3 & (D1 & D2 & D3 & D4 & D5) & Hc).
    destruct (i_map_before_all_lookup l3 j s3 H3) as (s4 & H4 & F1 & F2 & F3 & F4).
    destruct (i_map_after_all_lookup (i_map_before_all l3) j s4 H4) as (s5 & H5 & G1 & G2 & G3 & G4).
    destruct (plain_lookup map_before _ j s5 H5) as (p & _ & H6).
    { by rewrite map_before_length, map_length. }
    exists (with_sys s5 p). split; [exact H6|]. cbn [with_sys i_conflict i_before_all i_after_all].
    rewrite Forall_forall in Hwf. destruct (Hwf w) as (_ & Wb & Wa & _); [by eapply elem_of_list_lookup_2|].
    split; [by rewrite G1, F1|]. split.
    - rewrite G3, F4, D4. unfold before_all_notes. apply noted_imap.
      + intros k s n t Hk. destruct (Nat.eqb_spec j k) as [->|Hne]; [done|]. intros E.
        apply fmap_Some in E as (t' & E & [= -> ->]).
        assert (∃ y, ss !! k = Some y) as [y Hy].
        { apply lookup_lt_is_Some. apply lookup_lt_Some in Hk. by rewrite l3_length in Hk. }
        destruct (l3_lookup k y Hy) as (s' & Hs' & (E1 & E2 & E3 & _) & _).
        rewrite Hk in Hs'. injection Hs' as <-. split; [done|]. split; [done|]. exists y. split; [done|].
        apply find_first_in in E. rewrite E2 in E. apply first_in_app_l in E; [done|].
        by apply user_not_uid.
      + intros k t (Hne & y & Hy & Hf). destruct (l3_lookup k y Hy) as (s' & Hs' & (E1 & E2 & E3 & _) & _).
        exists s', (p_index (i_sys s')). split; [done|].
        destruct (Nat.eqb_spec j k) as [->|_]; [done|]. rewrite E2.
        rewrite (first_in_find _ _ t); [done|]. apply first_in_app_l; [by apply user_not_uid|done].
    - rewrite G4. unfold after_all_notes.
      assert (Ha : p_after_all (i_sys s4) = w_after_all w).
      { pose proof (i_map_before_all_sys l3) as E.
        destruct (map_before_all_lookup (map i_sys l3) j (i_sys s3)) as (p' & Hp' & _ & A & _);
          [by rewrite lookup_sys, H3|].
        rewrite <-E, lookup_sys, H4 in Hp'. injection Hp' as <-. by rewrite A. }
      rewrite Ha.
      assert (Hl4 : ∀ k s, i_map_before_all l3 !! k = Some s → ∃ y, ss !! k = Some y ∧
                p_tags (i_sys s) = w_tags y ++ [LUid (w_uid y)]).
      { intros k s Hk. assert (∃ y, ss !! k = Some y) as [y Hy].
        { apply lookup_lt_is_Some. apply lookup_lt_Some in Hk.
          destruct (i_map_before_all_core l3) as [El _]. rewrite El, l3_length in Hk. done. }
        exists y. split; [done|]. destruct (l3_lookup k y Hy) as (s' & Hs' & (E1 & E2 & E3 & _) & _).
        destruct (i_map_before_all_core l3) as [_ Hcore].
        destruct (Hcore k s' Hs') as (s'' & Hs'' & (_ & _ & E & _)). rewrite Hk in Hs''. injection Hs'' as <-.
        by rewrite E, E2. }
      assert (Hx : ∀ y t, t ∈ w_after_all w → t ∈ w_tags y ++ [LUid (w_uid y)] ↔ t ∈ w_tags y).
      { intros y t Ht. rewrite elem_of_app, elem_of_list_singleton. split; [|by left].
        intros [|E]; [done|]. rewrite Forall_forall in Wa. by destruct (Wa t Ht (w_uid y)). }
      apply noted_imap.
      + intros k s n t Hk. destruct (Nat.eqb_spec j k) as [->|Hne]; [done|]. intros E.
        apply fmap_Some in E as (t' & E & [= -> ->]). split; [done|]. split; [done|].
        destruct (Hl4 k s Hk) as (y & Hy & Et). exists y. split; [done|].
        apply find_first_in in E. rewrite Et in E. eapply first_in_ext; [|exact E]. apply Hx.
      + intros k t (Hne & y & Hy & Hf).
        destruct (lookup_lt_is_Some_2 (i_map_before_all l3) k) as [s Hs].
        { destruct (i_map_before_all_core l3) as [El _]. rewrite El, l3_length. by eapply lookup_lt_Some. }
        exists s, k. split; [done|]. destruct (Nat.eqb_spec j k) as [->|_]; [done|].
        destruct (Hl4 k s Hs) as (y' & Hy' & Et). rewrite Hy in Hy'. injection Hy' as <-. rewrite Et.
        rewrite (first_in_find _ _ t); [done|]. eapply first_in_ext; [|exact Hf].
        intros x Hxin. symmetry. by apply Hx.
  Qed.
End notes.
