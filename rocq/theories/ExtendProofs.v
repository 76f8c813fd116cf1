(** The ordering loop for systems numbered in any way. *)
From stdpp Require Import prelude list.
From Verif Require Import Sched SchedSpec SchedProofs SchedProofs2 Extend ExtendSpec.
Local Open Scope nat_scope.

Definition ckey (s : psys) := (p_index s, p_borrows s, p_tags s, p_run_if s).

Lemma filter_snd (f : psys → bool) (l : list (nat * psys)) :
  (List.filter (λ x, f x.2) l).*2 = List.filter f (l.*2).
Proof.
  induction l as [|[i x] l IH]; [done|]. cbn [List.filter fmap list_fmap snd].
  destruct (f x); cbn [fmap list_fmap snd]; by rewrite IH.
Qed.
Lemma filter_split_pairs (f : psys → bool) (l : list (nat * psys)) :
  (List.filter (λ x, f x.2) l).*1 ++ (List.filter (λ x, negb (f x.2)) l).*1 ≡ₚ l.*1.
Proof.
  rewrite <-fmap_app. apply fmap_Permutation. apply (filter_split (λ x, f x.2)).
Qed.
Lemma omap_Some_fmap {A} (l : list A) : omap id (Some <$> l) = l.
Proof. induction l as [|x l IH]; [done|]. cbn. f_equal. exact IH. Qed.
Lemma is_free_true s : is_free s = true ↔ p_hard s = [] ∧ p_soft s = [].
Proof. unfold is_free. destruct (p_hard s), (p_soft s); naive_solver. Qed.

Section turns.
  Context (ps : list psys).

  (** Systems the loop can place, numbers such systems have. *)
  Inductive placeable : nat → Prop :=
  | Placeable i s : ps !! i = Some s →
      (∀ j, j ∈ p_hard s ∨ j ∈ p_soft s → owned j) → placeable i
  with owned : nat → Prop :=
  | Owned j i s : ps !! i = Some s → LUid j ∈ p_tags s → placeable i → owned j.

  Scheme placeable_ind2 := Minimality for placeable Sort Prop
    with owned_ind2 := Minimality for owned Sort Prop.

  Definition from (i : nat) (o : psys) : Prop :=
    ∃ s, ps !! i = Some s ∧ core_eq o s ∧
      (∀ j, j ∈ p_hard o → j ∈ p_hard s) ∧ (∀ j, j ∈ p_soft o → j ∈ p_soft s) ∧
      (∀ j, j ∈ p_hard s → j ∈ p_hard o ∨ owned j) ∧
      (∀ j, j ∈ p_soft s → j ∈ p_soft o ∨ owned j).

  Lemma from_free i o : from i o → p_hard o = [] → p_soft o = [] → placeable i.
  Proof.
    intros (s & Hs & _ & _ & _ & H1 & H2) E1 E2. rewrite E1 in H1. rewrite E2 in H2.
    econstructor; [exact Hs|]. intros j [Hj|Hj].
    - destruct (H1 j Hj) as [H|H]; [by apply elem_of_nil in H|done].
    - destruct (H2 j Hj) as [H|H]; [by apply elem_of_nil in H|done].
  Qed.
  Lemma from_owned i o j : from i o → p_hard o = [] → p_soft o = [] → LUid j ∈ p_tags o → owned j.
  Proof.
    intros Hf E1 E2 Hj. pose proof (from_free _ _ Hf E1 E2) as Hp.
    destruct Hf as (s & Hs & Hc & _). econstructor; [exact Hs| |exact Hp].
    destruct Hc as (_ & _ & Ht & _). by rewrite <-Ht.
  Qed.
  (** Removing numbers of systems already placed. *)
  Lemma from_with i o h so :
    from i o →
    (∀ j, j ∈ h → j ∈ p_hard o) → (∀ j, j ∈ so → j ∈ p_soft o) →
    (∀ j, j ∈ p_hard o → j ∈ h ∨ owned j) → (∀ j, j ∈ p_soft o → j ∈ so ∨ owned j) →
    from i (p_with h so o).
  Proof.
    intros (s & Hs & Hc & A1 & A2 & A3 & A4) B1 B2 B3 B4. exists s.
    split; [done|]. split; [done|]. cbn [p_with p_hard p_soft]. split_and!; [eauto..| |].
    - intros j Hj. destruct (A3 j Hj) as [H|H]; eauto.
    - intros j Hj. destruct (A4 j Hj) as [H|H]; eauto.
  Qed.

  Record TInv (st : ostate) (segs : list (list psys)) (lo lq lr : list (nat * psys)) : Prop := {
    t_segs : segs ≠ [];
    t_info : o_info st = map to_binfo segs;
    t_order : o_order st = concat segs;
    t_lo : lo.*2 = concat segs;
    t_lq : lq.*2 = o_queue st;
    t_lr : lr.*2 = o_rem st;
    t_perm : lo.*1 ++ lq.*1 ++ lr.*1 ≡ₚ seq 0 (length ps);
    t_from : ∀ i o, (i, o) ∈ lo ++ lq ++ lr → from i o;
    t_free : ∀ i o, (i, o) ∈ lo ++ lq → p_hard o = [] ∧ p_soft o = [];
    t_done : ∀ i x j, (i, x) ∈ lo → LUid j ∈ p_tags x →
      ∀ i' o, (i', o) ∈ lr → j ∉ p_soft o ∧ (j ∈ p_hard o → LUid j ∈ o_del st);
    t_del : ∀ j, LUid j ∈ o_del st → ∃ i x, (i, x) ∈ lo ∧ LUid j ∈ p_tags x;
    t_cf : ∀ seg, seg ∈ segs → conflict_free seg
  }.

  Lemma place_cf segs ba s :
    segs ≠ [] → (∀ seg, seg ∈ segs → conflict_free seg) →
    ∃ segs' ba', place (map to_binfo segs) ba s = (map to_binfo segs', ba') ∧ segs' ≠ [] ∧
      concat segs' = concat segs ++ [s] ∧ ∀ seg, seg ∈ segs' → conflict_free seg.
  Proof.
    intros Hne Hcf. destruct (place_segs segs ba s Hne) as (segs' & ba' & Hp & Hc & H).
    exists segs', ba'. split; [exact Hp|].
    destruct H as [[-> _]|(init & l & -> & -> & Hb)].
    - split; [by destruct segs|]. split; [done|]. intros seg Hs.
      apply elem_of_app in Hs as [Hs|Hs]; [by apply Hcf|].
      apply elem_of_list_singleton in Hs as ->. intros [|a] [|b] x y Ha Hb Hn; done.
    - split; [by destruct init|]. split; [done|]. intros seg Hs.
      apply elem_of_app in Hs as [Hs|Hs]; [apply Hcf, elem_of_app; by left|].
      apply elem_of_list_singleton in Hs as ->.
      assert (Hl : conflict_free l).
      { apply Hcf, elem_of_app. right. by apply elem_of_list_singleton. }
      pose proof (batch_conflict_false l s Hl Hb) as Hns.
      intros a b x y Ha Hy Hn.
      apply lookup_app_Some in Ha as [Ha|[La Ha]], Hy as [Hy|[Ly Hy]].
      + by apply (Hl a b).
      + apply list_lookup_singleton_Some in Hy as [_ <-]. intros Hcl.
        apply (Hns x); [by eapply elem_of_list_lookup_2|by apply clash_sym].
      + apply list_lookup_singleton_Some in Ha as [_ <-].
        apply (Hns y). by eapply elem_of_list_lookup_2.
      + apply list_lookup_singleton_Some in Ha as [Ha _], Hy as [Hy _]. lia.
  Qed.

  Lemma pop_tinv st segs lo lq lr s q :
    TInv st segs lo lq lr → o_queue st = s :: q →
    ∃ segs' lo' lq' lr', TInv (pop_step st s q) segs' lo' lq' lr'.
  Proof.
    intros [I0 I1 I2 I3 I4 I5 I6 I7 I8 I9 I10 I11] Hq.
    rewrite Hq in I4. destruct lq as [|[k s0] lq]; [done|]. cbn [fmap list_fmap snd] in I4.
    injection I4 as -> I4.
    destruct (place_cf segs (o_ba st) s I0 I11) as (segs' & ba' & Hp & Hne & Hcc & Hcf).
    set (g := λ o, p_with (p_hard o) (retain_not (p_tags s) (p_soft o)) o).
    set (lr1 := (λ x : nat * psys, (x.1, g x.2)) <$> lr).
    assert (Hlr1 : lr1.*2 = map g (o_rem st)).
    { unfold lr1. rewrite <-list_fmap_compose, <-I5. change (map g lr.*2) with (g <$> lr.*2).
      by rewrite <-list_fmap_compose. }
    assert (Hlr1' : lr1.*1 = lr.*1).
    { unfold lr1. by rewrite <-list_fmap_compose. }
    destruct (I8 k s) as [Fh Fs]; [rewrite elem_of_app, elem_of_cons; by right; left|].
    assert (Hfs : from k s).
    { apply I7. rewrite !elem_of_app, elem_of_cons. by right; left; left. }
    assert (Hown : ∀ j, LUid j ∈ p_tags s → owned j).
    { intros j. by eapply from_owned. }
    assert (Hf1 : ∀ i o, (i, o) ∈ lr1 → from i o ∧ (∀ j, LUid j ∈ p_tags s → j ∉ p_soft o) ∧
      ∃ o0, (i, o0) ∈ lr ∧ p_hard o = p_hard o0 ∧ ∀ j, j ∈ p_soft o → j ∈ p_soft o0).
    { intros i o Ho. unfold lr1 in Ho. apply elem_of_list_fmap in Ho as ([i0 o0] & [= -> ->] & Ho).
      split; [|split].
      - apply from_with; [apply I7; rewrite !elem_of_app; by right; right|done| |by left|].
        + intros j Hj. by apply retain_not_elem in Hj as [? _].
        + intros j Hj. destruct (decide (LUid j ∈ p_tags s)) as [Ht|Ht]; [right; auto|].
          left. by apply retain_not_elem.
      - intros j Hj Hs. cbn [g p_with p_soft] in Hs. by apply retain_not_elem in Hs as [_ ?].
      - exists o0. split_and!; [done|done|]. intros j Hj. cbn [g p_with p_soft] in Hj.
        by apply retain_not_elem in Hj as [? _]. }
    exists segs', (lo ++ [(k, s)]), (lq ++ List.filter (λ x, is_free x.2) lr1),
      (List.filter (λ x, negb (is_free x.2)) lr1).
    unfold pop_step. rewrite I1, Hp. unfold extract.
    fold g. constructor; cbn [o_info o_order o_queue o_rem o_del].
    - exact Hne.
    - done.
    - by rewrite I2, Hcc.
    - rewrite fmap_app, I3, Hcc. done.
    - by rewrite fmap_app, I4, filter_snd, Hlr1.
    - by rewrite (filter_snd (λ s, negb (is_free s))), Hlr1.
    - rewrite <-I6, !fmap_app, <-!app_assoc. cbn [fmap list_fmap app fst].
      rewrite filter_split_pairs, Hlr1'. done.
    - intros i o Ho. rewrite !elem_of_app in Ho.
      destruct Ho as [[Ho|Ho]|[[Ho|Ho]|Ho]].
      + apply I7. rewrite !elem_of_app. by left.
      + apply elem_of_list_singleton in Ho as [= -> ->]. done.
      + apply I7. rewrite !elem_of_app, elem_of_cons. by right; left; right.
      + apply elem_of_filter_bool in Ho as [Ho _]. by apply Hf1.
      + apply elem_of_filter_bool in Ho as [Ho _]. by apply Hf1.
    - intros i o Ho. rewrite !elem_of_app in Ho.
      destruct Ho as [[Ho|Ho]|[Ho|Ho]].
      + apply (I8 i). rewrite elem_of_app. by left.
      + apply elem_of_list_singleton in Ho as [= -> ->]. done.
      + apply (I8 i). rewrite elem_of_app, elem_of_cons. by right; right.
      + apply elem_of_filter_bool in Ho as [_ Ho]. by apply is_free_true.
    - intros i x j Hx Hj i' o Ho. apply elem_of_filter_bool in Ho as [Ho _].
      destruct (Hf1 _ _ Ho) as (_ & Hns & o0 & Ho0 & Eh & Es).
      apply elem_of_app in Hx as [Hx|Hx].
      + destruct (I9 i x j Hx Hj i' o0 Ho0) as [D1 D2]. split; [auto|].
        rewrite Eh. intros H. apply elem_of_app. left. auto.
      + apply elem_of_list_singleton in Hx as [= -> ->]. split; [auto|].
        intros _. apply elem_of_app. by right.
    - intros j Hj. apply elem_of_app in Hj as [Hj|Hj].
      + destruct (I10 j Hj) as (i & x & Hx & Ht). exists i, x. rewrite elem_of_app. auto.
      + exists k, s. rewrite elem_of_app, elem_of_list_singleton. auto.
    - exact Hcf.
  Qed.

  Lemma pop_loop_tinv fuel st segs lo lq lr st' :
    TInv st segs lo lq lr → pop_loop fuel st = Some st' →
    o_queue st' = [] ∧ ∃ segs' lo' lr', TInv st' segs' lo' [] lr'.
  Proof.
    revert st segs lo lq lr. induction fuel as [|fuel IH]; intros st segs lo lq lr HI Hl;
      cbn [pop_loop] in Hl; destruct (o_queue st) as [|s q] eqn:Hq.
    - injection Hl as <-. split; [done|]. pose proof (t_lq _ _ _ _ _ HI) as E.
      rewrite Hq in E. apply fmap_nil_inv in E as ->. eauto.
    - done.
    - injection Hl as <-. split; [done|]. pose proof (t_lq _ _ _ _ _ HI) as E.
      rewrite Hq in E. apply fmap_nil_inv in E as ->. eauto.
    - destruct (pop_tinv _ _ _ _ _ _ _ HI Hq) as (? & ? & ? & ? & HI'). eapply IH; eauto.
  Qed.

  Lemma pairs_lookup (i : nat) (l : list (nat * psys)) : i ∈ l.*1 ↔ ∃ o, (i, o) ∈ l.
  Proof.
    rewrite elem_of_list_fmap. split.
    - intros ([i' o] & -> & H). eauto.
    - intros [o H]. exists (i, o). auto.
  Qed.

  Lemma release_tinv st segs lo lr :
    TInv st segs lo [] lr →
    match release st with
    | inl st' => o_info st' = o_info st ∧ o_order st' = o_order st ∧
        length (o_rem st') = length (o_rem st) ∧
        ∀ i, placeable i → i ∉ lr.*1
    | inr st' => o_queue st' ≠ [] ∧
        length (o_queue st') + length (o_rem st') = length (o_rem st) ∧
        ∃ segs' lo' lq' lr', TInv st' segs' lo' lq' lr'
    end.
  Proof.
    intros [I0 I1 I2 I3 I4 I5 I6 I7 I8 I9 I10 I11].
    set (g := λ o, p_with (retain_not (o_del st) (p_hard o)) (p_soft o) o).
    set (lr1 := (λ x : nat * psys, (x.1, g x.2)) <$> lr).
    assert (Hlr1 : lr1.*2 = map g (o_rem st)).
    { unfold lr1. rewrite <-list_fmap_compose, <-I5. change (map g lr.*2) with (g <$> lr.*2).
      by rewrite <-list_fmap_compose. }
    assert (Hlr1' : lr1.*1 = lr.*1).
    { unfold lr1. by rewrite <-list_fmap_compose. }
    assert (Hown : ∀ j, LUid j ∈ o_del st → owned j).
    { intros j Hj. destruct (I10 j Hj) as (i & x & Hx & Ht).
      destruct (I8 i x) as [E1 E2]; [rewrite elem_of_app; by left|].
      eapply from_owned; [|exact E1|exact E2|exact Ht]. apply I7. rewrite elem_of_app. by left. }
    assert (Hf1 : ∀ i o, (i, o) ∈ lr1 → from i o ∧
      ∃ o0, (i, o0) ∈ lr ∧ o = g o0).
    { intros i o Ho. unfold lr1 in Ho. apply elem_of_list_fmap in Ho as ([i0 o0] & [= -> ->] & Ho).
      split.
      - apply from_with; [apply I7; rewrite !elem_of_app; by right; right| |done| |by left].
        + intros j Hj. by apply retain_not_elem in Hj as [? _].
        + intros j Hj. destruct (decide (LUid j ∈ o_del st)) as [Ht|Ht]; [right; auto|].
          left. by apply retain_not_elem.
      - eauto. }
    unfold release. unfold extract. fold g. rewrite <-Hlr1.
    pose proof (filter_snd is_free lr1) as Ef.
    pose proof (filter_snd (λ x, negb (is_free x)) lr1) as Er. cbn beta in Er.
    pose proof (filter_split_pairs is_free lr1) as Es.
    pose proof (filter_split is_free lr1.*2) as Esp.
    assert (Hlen : length (o_rem st) = length lr1.*2).
    { rewrite Hlr1. by rewrite map_length. }
    destruct (List.filter is_free lr1.*2) as [|fr frs] eqn:Efree.
    - cbn [o_info o_order o_rem]. split; [done|]. split; [done|]. split.
      { rewrite Hlen. by apply Permutation_length in Esp. }
      apply (placeable_ind2 (λ i, i ∉ lr.*1)
        (λ j, ∃ i s, ps !! i = Some s ∧ LUid j ∈ p_tags s ∧ i ∉ lr.*1)).
      + intros i s Hs _ IH Hi.
        apply pairs_lookup in Hi as [o Ho].
        assert (Hg : (i, g o) ∈ lr1).
        { unfold lr1. apply elem_of_list_fmap. exists (i, o). done. }
        assert (Hnf : is_free (g o) = false).
        { destruct (is_free (g o)) eqn:E; [|done]. exfalso.
          assert (g o ∈ List.filter is_free lr1.*2) as H.
          { apply elem_of_filter_bool. split; [|done]. apply elem_of_list_fmap. by exists (i, g o). }
          rewrite Efree in H. by apply elem_of_nil in H. }
        assert (Hj : ∃ j, j ∈ p_soft o ∨ (j ∈ p_hard o ∧ LUid j ∉ o_del st)).
        { unfold is_free in Hnf. cbn [g p_with p_hard p_soft] in Hnf.
          destruct (retain_not (o_del st) (p_hard o)) as [|j l] eqn:E.
          - destruct (p_soft o) as [|j l]; [done|]. exists j. left. by left.
          - exists j. right. apply retain_not_elem. rewrite E. by left. }
        destruct Hj as [j Hj].
        destruct (I7 i o) as (s' & Hs' & _ & A1 & A2 & _); [by rewrite !elem_of_app; right; right|].
        rewrite Hs in Hs'. injection Hs' as <-.
        destruct (IH j) as (i' & s' & Hi' & Ht & Hn).
        { destruct Hj as [Hj|[Hj _]]; [right|left]; auto. }
        assert (Hlo : i' ∈ lo.*1).
        { assert (i' ∈ lo.*1 ++ [] ++ lr.*1) as H; [|by rewrite elem_of_app in H; naive_solver].
          rewrite I6. apply elem_of_seq. apply lookup_lt_Some in Hi'. lia. }
        apply pairs_lookup in Hlo as [x Hx].
        destruct (I7 i' x) as (s2 & Hs2 & Hc & _); [by rewrite !elem_of_app; left|].
        rewrite Hi' in Hs2. injection Hs2 as <-. destruct Hc as (_ & _ & Hc & _).
        destruct (I9 i' x j Hx) with (i' := i) (o := o) as [D1 D2]; [by rewrite Hc|done|].
        destruct Hj as [Hj|[Hj Hd]]; auto.
      + intros j i s Hs Ht _ IH. by exists i, s.
    - unfold push_batch. cbn [o_info o_order o_rem o_queue]. split; [done|]. split.
      { rewrite Hlen. apply Permutation_length in Esp. by rewrite app_length in Esp. }
      exists (segs ++ [[]]), lo, (List.filter (λ x, is_free x.2) lr1),
        (List.filter (λ x, negb (is_free x.2)) lr1).
      constructor; cbn [o_info o_order o_queue o_rem o_del].
      + by destruct segs.
      + rewrite I1, map_app. done.
      + rewrite I2, concat_app. simpl. by rewrite app_nil_r.
      + rewrite I3, concat_app. simpl. by rewrite app_nil_r.
      + done.
      + done.
      + rewrite Es, Hlr1'. done.
      + intros i o Ho. rewrite !elem_of_app in Ho. destruct Ho as [Ho|[Ho|Ho]].
        * apply I7. rewrite elem_of_app. by left.
        * apply elem_of_filter_bool in Ho as [Ho _]. by apply Hf1.
        * apply elem_of_filter_bool in Ho as [Ho _]. by apply Hf1.
      + intros i o Ho. rewrite !elem_of_app in Ho. destruct Ho as [Ho|Ho].
        * apply (I8 i). rewrite elem_of_app. by left.
        * apply elem_of_filter_bool in Ho as [_ Ho]. by apply is_free_true.
      + intros i x j Hx Hj i' o Ho. apply elem_of_filter_bool in Ho as [Ho _].
        destruct (Hf1 _ _ Ho) as (_ & o0 & Ho0 & ->). cbn [g p_with p_hard p_soft].
        destruct (I9 i x j Hx Hj i' o0 Ho0) as [D1 D2]. split; [done|].
        intros H. apply retain_not_elem in H as [H Hd]. naive_solver.
      + intros j Hj. by apply elem_of_nil in Hj.
      + intros seg Hs. apply elem_of_app in Hs as [Hs|Hs]; [by apply I11|].
        apply elem_of_list_singleton in Hs as ->. intros a b x y Ha. done.
  Qed.

  Lemma order_loop_tinv fuel st segs lo lq lr :
    TInv st segs lo lq lr →
    length (o_queue st) + length (o_rem st) + (if decide (o_queue st = []) then 2 else 1) ≤ fuel →
    ∃ st' stf segs' lo' lr', order_loop fuel st = Some st' ∧ TInv stf segs' lo' [] lr' ∧
      o_info st' = o_info stf ∧ o_order st' = o_order stf ∧
      length (o_rem st') = length (o_rem stf) ∧ ∀ i, placeable i → i ∉ lr'.*1.
  Proof.
    revert st segs lo lq lr. induction fuel as [|fuel IH]; intros st segs lo lq lr HI Hf;
      [destruct (decide _); lia|]. cbn [order_loop].
    destruct (pop_loop_total (length (o_queue st) + length (o_rem st)) st) as (st1 & H1 & Hl1);
      [done|]. rewrite H1.
    destruct (pop_loop_tinv _ _ _ _ _ _ _ HI H1) as (Hq1 & segs1 & lo1 & lr1 & HI1).
    pose proof (release_tinv st1 segs1 lo1 lr1 HI1) as Hr.
    destruct (release st1) as [st'|st2].
    - destruct Hr as (R1 & R2 & R3 & R4).
      exists st', st1, segs1, lo1, lr1. by split_and!.
    - destruct Hr as (Hq2 & Hl2 & segs2 & lo2 & lq2 & lr2 & HI2). eapply IH; [exact HI2|].
      rewrite decide_False by done. destruct (decide (o_queue st = [])); lia.
  Qed.

  Lemma from_ckey (l : list (nat * psys)) :
    (∀ i o, (i, o) ∈ l → from i o) →
    map (λ i, ckey <$> ps !! i) l.*1 = map (λ o, Some (ckey o)) l.*2.
  Proof.
    induction l as [|[i o] l IH]; intros H; [done|]. cbn [fmap list_fmap map fst snd].
    rewrite IH; [|intros; apply H; by right].
    destruct (H i o) as (s & Hs & Hc & _); [by left|].
    rewrite Hs. cbn [fmap option_fmap option_map].
    destruct Hc as (E1 & E2 & E3 & _ & _ & _ & E7). unfold ckey. by rewrite E1, E2, E3, E7.
  Qed.

  Lemma order_systems_any ba :
    (∃ info ba' order segs, order_systems ps ba = Some (inr (info, ba', order)) ∧
      info = map to_binfo segs ∧ order = concat segs ∧
      (∀ seg, seg ∈ segs → conflict_free seg) ∧ map ckey order ≡ₚ map ckey ps ∧
      ∀ i, i < length ps → placeable i) ∨
    (∃ l, order_systems ps ba = Some (inl (ECycle l)) ∧ ∃ i, i < length ps ∧ ¬ placeable i).
  Proof.
    unfold order_systems. destruct (decide (ps = [])) as [E|Hne].
    { left. exists [], ba, [], []. rewrite E. split_and!; try done; simpl; [set_solver|lia]. }
    assert (Hm : ∀ A (x y : A), match ps with [] => x | _ => y end = y) by (by destruct ps).
    rewrite Hm. unfold extract, push_batch. cbn [app].
    match goal with |- context [order_loop ?f ?s] => set (fuel := f); set (st := s) end.
    set (l0 := imap (λ i s, (i, s)) ps).
    assert (E1 : l0.*1 = seq 0 (length ps)).
    { unfold l0. rewrite fmap_imap. apply list_eq. intros i. rewrite list_lookup_imap.
      destruct (ps !! i) as [x|] eqn:E.
      - simpl. symmetry. apply lookup_seq. apply lookup_lt_Some in E. split; [done|lia].
      - simpl. symmetry. apply lookup_seq_ge. by apply lookup_ge_None in E. }
    assert (E2 : l0.*2 = ps).
    { unfold l0. rewrite fmap_imap. apply list_eq. intros i. rewrite list_lookup_imap.
      by destruct (ps !! i). }
    assert (HI : TInv st [[]] [] (List.filter (λ x, is_free x.2) l0)
      (List.filter (λ x, negb (is_free x.2)) l0)).
    { constructor; cbn [st o_info o_order o_queue o_rem o_del concat app map].
      - done.
      - done.
      - done.
      - done.
      - by rewrite filter_snd, E2.
      - by rewrite (filter_snd (λ s, negb (is_free s))), E2.
      - rewrite fmap_nil. cbn [app]. by rewrite filter_split_pairs, E1.
      - intros i o Ho.
        assert ((i, o) ∈ l0) as H.
        { apply elem_of_app in Ho as [Ho|Ho]; by apply elem_of_filter_bool in Ho as [? _]. }
        unfold l0 in H. apply elem_of_list_lookup in H as [k Hk].
        rewrite list_lookup_imap in Hk. apply fmap_Some in Hk as (s & Hs & [= -> ->]).
        exists s. split_and!; try done; auto.
      - intros i o Ho. apply elem_of_filter_bool in Ho as [_ Ho]. by apply is_free_true.
      - intros i x j Hx. by apply elem_of_nil in Hx.
      - intros j Hj. by apply elem_of_nil in Hj.
      - intros seg Hs. apply elem_of_list_singleton in Hs as ->. by intros a b x y Ha. }
    destruct (order_loop_tinv fuel st _ _ _ _ HI) as
      (st' & stf & segs' & lo' & lr' & Ho & HF & F1 & F2 & F3 & F4).
    { unfold fuel, st. cbn [o_queue o_rem]. rewrite <-app_length, (filter_split is_free).
      destruct (decide _); lia. }
    rewrite Ho. destruct HF as [I0 I1 I2 I3 I4 I5 I6 I7 I8 I9 I10 I11].
    destruct (o_rem st') as [|r rs] eqn:Er.
    - left. exists (o_info st'), (o_ba st'), (o_order st'), segs'.
      split; [done|]. split; [by rewrite F1|]. split; [by rewrite F2|]. split; [done|].
      assert (lr' = []) as ->.
      { simpl in F3. rewrite <-I5, fmap_length in F3. by destruct lr'. }
      cbn [fmap list_fmap app] in I6. rewrite app_nil_r in I6.
      split.
      + rewrite F2, I2, <-I3.
        assert (Hi : Some <$> (ckey <$> lo'.*2) ≡ₚ Some <$> (ckey <$> ps)).
        { assert (H1 : Some <$> (ckey <$> lo'.*2) = (λ i, ckey <$> ps !! i) <$> lo'.*1).
          { rewrite <-(list_fmap_compose ckey Some). symmetry. apply from_ckey.
            intros i o Hio. apply I7. rewrite elem_of_app. by left. }
          rewrite H1, I6.
          assert (H2 : (λ i, ckey <$> ps !! i) <$> seq 0 (length ps) = Some <$> (ckey <$> ps)).
          { apply list_eq. intros i. rewrite !list_lookup_fmap.
            destruct (ps !! i) as [x|] eqn:E.
            - rewrite lookup_seq_lt by (by apply lookup_lt_Some in E). simpl. by rewrite E.
            - rewrite lookup_seq_ge by (by apply lookup_ge_None in E). done. }
          by rewrite H2. }
        apply (omap_Permutation id) in Hi. by rewrite !omap_Some_fmap in Hi.
      + intros i Hi. assert (i ∈ lo'.*1) as Hlo.
        { rewrite I6. apply elem_of_seq. lia. }
        apply pairs_lookup in Hlo as [x Hx].
        destruct (I8 i x) as [K1 K2]; [rewrite elem_of_app; by left|].
        eapply from_free; [|exact K1|exact K2]. apply I7. rewrite elem_of_app. by left.
    - right. exists (r :: rs). split; [done|].
      destruct lr' as [|[i o] lr'].
      { rewrite <-I5 in F3. done. }
      exists i. split.
      + assert (i ∈ seq 0 (length ps)) as H; [|apply elem_of_seq in H; lia].
        rewrite <-I6. rewrite elem_of_app. right. by left.
      + intros Hp. apply (F4 i Hp). by left.
  Qed.
End turns.
