(** The ordering loop: batches, sequence, termination and cycles. *)
From stdpp Require Import prelude list gmap relations sorting.
From Verif Require Import Sched SchedSpec SchedProofs.
Local Open Scope nat_scope.

(** * Small facts *)

Lemma upd_last_app {A} (f : A → A) l x : upd_last f (l ++ [x]) = l ++ [f x].
Proof.
  induction l as [|y l IH]; [done|]. cbn [app upd_last].
  destruct (l ++ [x]) as [|z l'] eqn:E; [by destruct l|]. by rewrite IH.
Qed.
Lemma elem_of_filter_bool {A} (f : A → bool) (l : list A) x :
  x ∈ List.filter f l ↔ x ∈ l ∧ f x = true.
Proof. by rewrite !elem_of_list_In, filter_In. Qed.
Lemma filter_split {A} (f : A → bool) (l : list A) :
  List.filter f l ++ List.filter (fun x => negb (f x)) l ≡ₚ l.
Proof.
  induction l as [|x l IH]; [done|]. simpl. destruct (f x); simpl; [by rewrite IH|].
  rewrite <-Permutation_middle. by rewrite IH.
Qed.
Lemma filter_app_bool {A} (f : A → bool) (l k : list A) :
  List.filter f (l ++ k) = List.filter f l ++ List.filter f k.
Proof. induction l as [|x l IH]; [done|]. simpl. destruct (f x); simpl; by rewrite IH. Qed.

Lemma retain_not_elem tags l j : j ∈ retain_not tags l ↔ j ∈ l ∧ LUid j ∉ tags.
Proof.
  unfold retain_not, uid_retain. rewrite elem_of_filter_bool, negb_true_iff.
  by rewrite bool_decide_eq_false.
Qed.

(** In a non-empty finite set where everything has a predecessor there is a cycle. *)
Lemma cycle_exists {A} `{EqDecision A} (R : A → A → Prop) (l : list A) :
  l ≠ [] → (∀ x, x ∈ l → ∃ y, y ∈ l ∧ tc R y x) → ∃ x, x ∈ l ∧ tc R x x.
Proof.
  induction l as [|x l IH]; [done|]. intros _ H.
  destruct (H x) as (z & Hz & Hzx); [set_solver|].
  apply elem_of_cons in Hz as [->|Hz]; [exists x; set_solver|].
  destruct IH as (y & Hy & Hc).
  - by intros ->; apply elem_of_nil in Hz.
  - intros y Hy. destruct (H y) as (u & Hu & Huy); [set_solver|].
    apply elem_of_cons in Hu as [->|Hu]; [|eauto].
    exists z. split; [done|]. by eapply tc_transitive.
  - exists y. split; [set_solver|done].
Qed.

(** * Batches as lists *)

Definition to_binfo (seg : list psys) : binfo :=
  {| bi_single := last (List.filter is_single seg);
     bi_par := List.filter (fun s => negb (is_single s)) seg |}.

Lemma place_segs segs ba s :
  segs ≠ [] →
  ∃ segs' ba', place (map to_binfo segs) ba s = (map to_binfo segs', ba') ∧
    concat segs' = concat segs ++ [s] ∧
    ((segs' = segs ++ [[s]] ∧ batch_conflict (to_binfo (default [] (last segs))) s = true) ∨
     ∃ init l, segs = init ++ [l] ∧ segs' = init ++ [l ++ [s]] ∧
       batch_conflict (to_binfo l) s = false).
Proof.
  intros Hne. destruct (exists_last Hne) as (init & l & ->).
  unfold place.
  assert (default bi_empty (last (map to_binfo (init ++ [l]))) = to_binfo l) as ->.
  { rewrite map_app. simpl. by rewrite last_snoc. }
  rewrite last_snoc. cbn [default from_option id].
  destruct (batch_conflict (to_binfo l) s) eqn:Ec.
  - unfold push_batch. eexists ((init ++ [l]) ++ [[s]]), _. split_and!.
    + f_equal. rewrite upd_last_app, (map_app to_binfo _ [[s]]). f_equal. cbn [map]. f_equal.
      unfold to_binfo, bi_empty. simpl. by destruct (is_single s).
    + rewrite !concat_app. simpl. by rewrite !app_nil_r.
    + left. split; [done|]. done.
  - eexists (init ++ [l ++ [s]]), _. split_and!.
    + f_equal. rewrite !map_app. cbn [map]. rewrite upd_last_app. f_equal. f_equal.
      unfold to_binfo. rewrite !filter_app_bool. simpl.
      destruct (is_single s); simpl; f_equal; by rewrite ?last_snoc, ?app_nil_r.
    + rewrite !concat_app. simpl. by rewrite !app_nil_r, app_assoc.
    + right. eauto.
Qed.

Lemma is_single_clash s t : is_single s = true → is_single t = true →
  clash (p_borrows s) (p_borrows t).
Proof.
  unfold is_single. rewrite !existsb_exists.
  intros (a & Ha & Ea) (b & Hb & Eb). exists a, b.
  rewrite !elem_of_list_In. split_and!; [done..|].
  apply orb_true_iff in Ea, Eb. rewrite negb_true_iff, bool_decide_eq_true in Ea, Eb.
  unfold borrow_clash. tauto.
Qed.

Definition conflict_free (seg : list psys) : Prop :=
  ∀ a b x y, seg !! a = Some x → seg !! b = Some y → a ≠ b →
    ¬ clash (p_borrows x) (p_borrows y).

Lemma conflict_free_singles seg :
  conflict_free seg → length (List.filter is_single seg) ≤ 1.
Proof.
  intros Hf. destruct (List.filter is_single seg) as [|x [|y l]] eqn:E; simpl; [lia..|].
  exfalso.
  assert (∃ a b, a ≠ b ∧ seg !! a = Some x ∧ seg !! b = Some y) as (a & b & Hne & Ha & Hb).
  { clear Hf. revert x y l E. induction seg as [|s seg IH]; intros x y l E; [done|].
    simpl in E. destruct (is_single s) eqn:Es.
    - injection E as -> E.
      assert (y ∈ List.filter is_single seg) as Hy by (rewrite E; set_solver).
      apply elem_of_filter_bool in Hy as [Hy _]. apply elem_of_list_lookup in Hy as [b Hb].
      exists 0, (S b). by split_and!.
    - destruct (IH _ _ _ E) as (a & b & Hne & Ha & Hb). exists (S a), (S b). split_and!; [|done..].
      by intros [=]. }
  assert (is_single x = true ∧ is_single y = true) as [Hx Hy].
  { split; (eapply (proj2 (A := _ ∈ seg)); apply elem_of_filter_bool; rewrite E; set_solver). }
  exact (Hf a b x y Ha Hb Hne (is_single_clash x y Hx Hy)).
Qed.

Lemma members_perm seg : conflict_free seg → members (to_binfo seg) ≡ₚ seg.
Proof.
  intros Hf. apply conflict_free_singles in Hf. unfold members, to_binfo. cbn [bi_single bi_par].
  rewrite <-(filter_split is_single seg) at 3. f_equiv.
  destruct (List.filter is_single seg) as [|x [|y l]]; simpl in *; [done..|lia].
Qed.

Lemma batch_conflict_false seg s :
  conflict_free seg → batch_conflict (to_binfo seg) s = false →
  ∀ x, x ∈ seg → ¬ clash (p_borrows s) (p_borrows x).
Proof.
  intros Hf Hc x Hx Hcl. rewrite <-(members_perm seg Hf) in Hx.
  unfold members in Hx. unfold batch_conflict in Hc. apply orb_false_iff in Hc as [H1 H2].
  apply elem_of_app in Hx as [Hx|Hx].
  - destruct (bi_single (to_binfo seg)) as [o|]; [|by apply elem_of_nil in Hx].
    apply elem_of_list_singleton in Hx as ->.
    apply check_conflict_true in Hcl. congruence.
  - assert (existsb (fun o => check_conflict s (p_borrows o)) (bi_par (to_binfo seg)) = true);
      [|congruence].
    apply existsb_exists. exists x. rewrite <-elem_of_list_In. split; [done|].
    by apply check_conflict_true.
Qed.

(** * The loop's invariant *)

Local Ltac el :=
  rewrite ?elem_of_app, ?elem_of_cons, ?elem_of_list_singleton; eauto.

Section loop.
  Context (ps : list psys).
  Hypothesis Htag : ∀ i s, ps !! i = Some s → pos s = i ∧ ∀ j, LUid j ∈ p_tags s ↔ j = i.
  Hypothesis Hin : ∀ i s j, ps !! i = Some s → j ∈ p_hard s ∨ j ∈ p_soft s → j < length ps.

  Record Inv (st : ostate) (segs : list (list psys)) (rel : list nat) (base : nat) : Prop := {
    i_info : o_info st = map to_binfo segs;
    i_order : o_order st = concat segs;
    i_core : ∀ s, s ∈ concat segs ++ o_queue st ++ o_rem st →
      ∃ s0, ps !! pos s = Some s0 ∧ core_eq s s0;
    i_perm : map pos (concat segs ++ o_queue st ++ o_rem st) ≡ₚ seq 0 (length ps);
    i_del : ∀ j, (LUid j ∈ o_del st ∨ j ∈ rel) ↔ j ∈ map pos (concat segs);
    i_rem : ∀ s s0, s ∈ o_rem st → ps !! pos s = Some s0 →
      (∀ j, j ∈ p_hard s ↔ j ∈ p_hard s0 ∧ j ∉ rel) ∧
      (∀ j, j ∈ p_soft s ↔ j ∈ p_soft s0 ∧ j ∉ map pos (concat segs));
    i_queue : ∀ s s0, s ∈ o_queue st → ps !! pos s = Some s0 →
      (∀ j, j ∈ p_hard s0 → j ∈ rel) ∧ (∀ j, j ∈ p_soft s0 → j ∈ map pos (concat segs));
    i_base : base < length segs ∧
      ∀ j, j ∈ rel → ∃ k seg s, k < base ∧ segs !! k = Some seg ∧ s ∈ seg ∧ pos s = j;
    i_hard : ∀ k seg s s0 j, segs !! k = Some seg → s ∈ seg → ps !! pos s = Some s0 →
      j ∈ p_hard s0 → ∃ k' seg' s', k' < k ∧ segs !! k' = Some seg' ∧ s' ∈ seg' ∧ pos s' = j;
    i_seq : ∀ k s s0 j, concat segs !! k = Some s → ps !! pos s = Some s0 →
      j ∈ p_hard s0 ∨ j ∈ p_soft s0 →
      ∃ k' s', k' < k ∧ concat segs !! k' = Some s' ∧ pos s' = j;
    i_free : ∀ seg, seg ∈ segs → conflict_free seg
  }.

  Lemma core_tags s s0 : ps !! pos s = Some s0 → core_eq s s0 →
    ∀ j, LUid j ∈ p_tags s ↔ j = pos s.
  Proof.
    intros H (_ & _ & Ht & _) j. rewrite Ht. by apply (Htag _ _ H).
  Qed.

  Lemma elem_pos_lookup (l : list psys) j :
    j ∈ map pos l ↔ ∃ k s, l !! k = Some s ∧ pos s = j.
  Proof.
    rewrite elem_of_list_fmap. split.
    - intros (s & -> & Hs). apply elem_of_list_lookup in Hs as [k Hk]. eauto.
    - intros (k & s & Hk & <-). exists s. split; [done|]. by eapply elem_of_list_lookup_2.
  Qed.

  Lemma pop_inv st segs rel base s q :
    Inv st segs rel base → o_queue st = s :: q →
    ∃ segs', Inv (pop_step st s q) segs' rel base.
  Proof.
    intros [Ii Io Ic Ip Id Ir Iq [Ib1 Ib2] Ih Is If] Hq.
    assert (Hne : segs ≠ []) by (intros ->; simpl in Ib1; lia).
    unfold pop_step. rewrite Ii.
    destruct (place_segs segs (o_ba st) s Hne) as (segs' & ba' & -> & Hcat & Hseg).
    assert (Hs : s ∈ concat segs ++ o_queue st ++ o_rem st) by (rewrite Hq; el).
    destruct (Ic s Hs) as (s0 & Hs0 & Hcore).
    destruct (Iq s s0) as [Iq1 Iq2]; [rewrite Hq; el|done|].
    set (rem1 := map (λ o, p_with (p_hard o) (retain_not (p_tags s) (p_soft o)) o) (o_rem st)).
    assert (Hposcat : map pos (concat segs') = map pos (concat segs) ++ [pos s]).
    { rewrite Hcat. by rewrite map_app. }
    assert (Hrem1 : ∀ o, o ∈ rem1 → ∃ o1, o1 ∈ o_rem st ∧
      o = p_with (p_hard o1) (retain_not (p_tags s) (p_soft o1)) o1).
    { intros o Ho. apply elem_of_list_fmap in Ho as (o1 & -> & Ho1). eauto. }
    assert (Hrem : ∀ o o0, o ∈ rem1 → ps !! pos o = Some o0 →
      (∀ j, j ∈ p_hard o ↔ j ∈ p_hard o0 ∧ j ∉ rel) ∧
      (∀ j, j ∈ p_soft o ↔ j ∈ p_soft o0 ∧ j ∉ map pos (concat segs'))).
    { intros o o0 Ho Ho0. apply Hrem1 in Ho as (o1 & Ho1 & ->).
      destruct (Ir o1 o0 Ho1 Ho0) as [R1 R2]. split; [exact R1|].
      intros j. cbn [p_with p_soft]. rewrite retain_not_elem, R2, Hposcat.
      rewrite (core_tags s s0 Hs0 Hcore), elem_of_app, elem_of_list_singleton. clear. tauto. }
    (* where the new system is *)
    assert (Hold : ∀ k seg x, segs !! k = Some seg → x ∈ seg →
      ∃ seg', segs' !! k = Some seg' ∧ x ∈ seg').
    { intros k seg x Hk Hx. destruct Hseg as [[-> _]|(init & l & -> & -> & _)].
      - exists seg. split; [|done]. apply lookup_app_l_Some. done.
      - destruct (decide (k < length init)).
        + rewrite lookup_app_l in Hk by done. exists seg. split; [|done].
          by rewrite lookup_app_l by done.
        + rewrite lookup_app_r in Hk by lia. apply list_lookup_singleton_Some in Hk as [Hk <-].
          exists (l ++ [s]). rewrite lookup_app_r by lia. rewrite Hk. split; [done|]. el. }
    assert (Hnew : ∀ k seg x, segs' !! k = Some seg → x ∈ seg →
      (∃ seg1, segs !! k = Some seg1 ∧ x ∈ seg1) ∨ (x = s ∧ base ≤ k)).
    { intros k seg x Hk Hx. destruct Hseg as [[-> _]|(init & l & -> & -> & _)].
      - destruct (decide (k < length segs)).
        + rewrite lookup_app_l in Hk by done. left; eauto.
        + rewrite lookup_app_r in Hk by lia. apply list_lookup_singleton_Some in Hk as [Hk <-].
          right. apply elem_of_list_singleton in Hx. split; [done|lia].
      - destruct (decide (k < length init)).
        + rewrite lookup_app_l in Hk by done. left. exists seg. split; [|done].
          by rewrite lookup_app_l by done.
        + rewrite lookup_app_r in Hk by lia. apply list_lookup_singleton_Some in Hk as [Hk <-].
          apply elem_of_app in Hx as [Hx|Hx].
          * left. exists l. rewrite lookup_app_r by lia. by rewrite Hk.
          * right. apply elem_of_list_singleton in Hx. split; [done|].
            rewrite app_length in Ib1. simpl in Ib1. lia. }
    exists segs'. unfold extract. constructor; cbn [o_info o_order o_queue o_rem o_del].
    - done.
    - by rewrite Io, Hcat.
    - intros o Ho.
      assert (o ∈ concat segs ++ o_queue st ++ o_rem st ∨ o ∈ rem1) as [Ho'|Ho'].
      { rewrite Hcat in Ho. rewrite !elem_of_app in Ho. rewrite !elem_of_filter_bool in Ho.
        rewrite Hq. rewrite !elem_of_app, elem_of_cons. rewrite elem_of_list_singleton in Ho.
        clear -Ho. intuition. }
      { by apply Ic. }
      apply Hrem1 in Ho' as (o1 & Ho1 & ->).
      destruct (Ic o1) as (o0 & Ho0 & Hco); [el|]. exists o0. split; [done|].
      etrans; [|exact Hco]. by repeat split.
    - rewrite <-Ip. rewrite Hcat, Hq.
      assert (Hmap : map pos (List.filter is_free rem1) ++
        map pos (List.filter (λ x, negb (is_free x)) rem1) ≡ₚ map pos (o_rem st)).
      { rewrite <-map_app, (filter_split is_free rem1). unfold rem1. rewrite map_map. done. }
      rewrite !map_app. cbn [map]. rewrite <-Hmap. rewrite <-!app_assoc. by cbn [app].
    - intros j. rewrite Hposcat, elem_of_app, elem_of_app, elem_of_list_singleton, <-Id.
      rewrite (core_tags s s0 Hs0 Hcore). clear. tauto.
    - intros o o0 Ho. apply elem_of_filter_bool in Ho as [Ho _]. by apply Hrem.
    - intros o o0 Ho Ho0. apply elem_of_app in Ho as [Ho|Ho].
      + destruct (Iq o o0) as [Q1 Q2]; [rewrite Hq; el|done|]. split; [done|].
        intros j Hj. rewrite Hposcat. el.
      + apply elem_of_filter_bool in Ho as [Ho Hfree].
        destruct (Hrem o o0 Ho Ho0) as [R1 R2]. unfold is_free in Hfree.
        destruct (p_hard o) eqn:Eh, (p_soft o) eqn:Es; try done. split; intros j Hj.
        * destruct (decide (j ∈ rel)) as [|Hn]; [done|].
          assert (j ∈ @nil nat) as Hx by (apply R1; done). by apply elem_of_nil in Hx.
        * destruct (decide (j ∈ map pos (concat segs'))) as [|Hn]; [done|].
          assert (j ∈ @nil nat) as Hx by (apply R2; done). by apply elem_of_nil in Hx.
    - split.
      + destruct Hseg as [[-> _]|(init & l & -> & -> & _)]; rewrite !app_length in *; simpl in *;
          lia.
      + intros j Hj. destruct (Ib2 j Hj) as (k & seg & x & Hk & Hkseg & Hx & Hp).
        destruct (Hold k seg x Hkseg Hx) as (seg' & ? & ?). eauto 10.
    - intros k seg x x0 j Hk Hx Hx0 Hj.
      destruct (Hnew k seg x Hk Hx) as [(seg1 & Hk1 & Hx1)|[-> Hb]].
      + destruct (Ih k seg1 x x0 j Hk1 Hx1 Hx0 Hj) as (k' & seg' & x' & ? & Hl & Hm & Hp).
        destruct (Hold k' seg' x' Hl Hm) as (seg'' & ? & ?). eauto 10.
      + rewrite Hs0 in Hx0. injection Hx0 as <-.
        destruct (Ib2 j (Iq1 j Hj)) as (k' & seg' & x' & Hk' & Hl & Hm & Hp).
        destruct (Hold k' seg' x' Hl Hm) as (seg'' & ? & ?).
        exists k', seg'', x'. split_and!; [lia|done..].
    - rewrite Hcat. intros k x x0 j Hk Hx0 Hj.
      destruct (decide (k < length (concat segs))) as [Hlt|Hge].
      + rewrite lookup_app_l in Hk by done.
        destruct (Is k x x0 j Hk Hx0 Hj) as (k' & x' & ? & Hl & Hp).
        exists k', x'. split_and!; [done| |done]. by apply lookup_app_l_Some.
      + rewrite lookup_app_r in Hk by lia. apply list_lookup_singleton_Some in Hk as [Hk <-].
        rewrite Hs0 in Hx0. injection Hx0 as <-.
        assert (j ∈ map pos (concat segs)) as Hjc.
        { destruct Hj as [Hj|Hj]; [|by apply Iq2]. apply Id. right. by apply Iq1. }
        apply elem_pos_lookup in Hjc as (k' & x' & Hl & Hp).
        exists k', x'. pose proof (lookup_lt_Some _ _ _ Hl).
        split_and!; [lia| |done]. by apply lookup_app_l_Some.
    - intros seg Hsg. destruct Hseg as [[-> _]|(init & l & -> & -> & Hbc)].
      + apply elem_of_app in Hsg as [Hsg|Hsg]; [by apply If|].
        apply elem_of_list_singleton in Hsg as ->.
        intros a b x y Ha Hb Hab. apply list_lookup_singleton_Some in Ha as [-> _].
        apply list_lookup_singleton_Some in Hb as [-> _]. done.
      + apply elem_of_app in Hsg as [Hsg|Hsg]; [apply If; el|].
        apply elem_of_list_singleton in Hsg as ->.
        assert (Hl : conflict_free l) by (apply If; el).
        pose proof (batch_conflict_false l s Hl Hbc) as Hno.
        intros a b x y Ha Hb Hab.
        destruct (decide (a < length l)) as [La|La], (decide (b < length l)) as [Lb|Lb].
        * rewrite lookup_app_l in Ha, Hb by done. by eapply Hl.
        * rewrite lookup_app_l in Ha by done. rewrite lookup_app_r in Hb by lia.
          apply list_lookup_singleton_Some in Hb as [Hb <-].
          intros Hc. apply clash_sym in Hc. eapply Hno; [|exact Hc].
          by eapply elem_of_list_lookup_2.
        * rewrite lookup_app_l in Hb by done. rewrite lookup_app_r in Ha by lia.
          apply list_lookup_singleton_Some in Ha as [Ha <-].
          intros Hc. eapply Hno; [|exact Hc]. by eapply elem_of_list_lookup_2.
        * rewrite lookup_app_r in Ha, Hb by lia.
          apply list_lookup_singleton_Some in Ha as [Ha <-].
          apply list_lookup_singleton_Some in Hb as [Hb <-]. lia.
  Qed.

  Lemma pop_loop_inv fuel st segs rel base st' :
    Inv st segs rel base → pop_loop fuel st = Some st' →
    o_queue st' = [] ∧ ∃ segs', Inv st' segs' rel base.
  Proof.
    revert st segs. induction fuel as [|fuel IH]; intros st segs HI; cbn [pop_loop];
      destruct (o_queue st) as [|s q] eqn:Hq; [|done| |].
    - intros [= <-]. eauto.
    - intros [= <-]. eauto.
    - intros Hl. destruct (pop_inv st segs rel base s q HI Hq) as [segs' HI'].
      by eapply IH.
  Qed.

  (** When the queue is empty everything that is left waits for something left. *)
  Lemma release_inv st segs rel base :
    Inv st segs rel base → o_queue st = [] →
    match release st with
    | inl st' => o_info st' = o_info st ∧ o_order st' = o_order st ∧ o_ba st' = o_ba st ∧
        (o_rem st' = [] ↔ o_rem st = []) ∧
        ∀ s s0, s ∈ o_rem st → ps !! pos s = Some s0 →
          ∃ j, (j ∈ p_hard s0 ∨ j ∈ p_soft s0) ∧ j ∈ map pos (o_rem st)
    | inr st' => Inv st' (segs ++ [[]]) (map pos (concat segs)) (length segs) ∧
        o_queue st' ≠ [] ∧
        length (o_queue st') + length (o_rem st') = length (o_rem st)
    end.
  Proof.
    intros [Ii Io Ic Ip Id Ir Iq [Ib1 Ib2] Ih Is If] Hq.
    unfold release.
    set (rem1 := map (λ o, p_with (retain_not (o_del st) (p_hard o)) (p_soft o) o) (o_rem st)).
    assert (Hrem1 : ∀ o, o ∈ rem1 → ∃ o1, o1 ∈ o_rem st ∧
      o = p_with (retain_not (o_del st) (p_hard o1)) (p_soft o1) o1).
    { intros o Ho. apply elem_of_list_fmap in Ho as (o1 & -> & Ho1). eauto. }
    assert (Hrem : ∀ o o0, o ∈ rem1 → ps !! pos o = Some o0 →
      (∀ j, j ∈ p_hard o ↔ j ∈ p_hard o0 ∧ j ∉ map pos (concat segs)) ∧
      (∀ j, j ∈ p_soft o ↔ j ∈ p_soft o0 ∧ j ∉ map pos (concat segs))).
    { intros o o0 Ho Ho0. apply Hrem1 in Ho as (o1 & Ho1 & ->).
      destruct (Ir o1 o0 Ho1 Ho0) as [R1 R2]. split; [|exact R2].
      intros j. cbn [p_with p_hard]. rewrite retain_not_elem, R1, <-Id. clear. tauto. }
    unfold extract. cbn zeta.
    pose proof (filter_split is_free rem1) as Hsplit.
    destruct (List.filter is_free rem1) as [|fr frs] eqn:Efree.
    - cbn [o_info o_order o_ba o_rem]. simpl in Hsplit.
      assert (Hiff : List.filter (λ s, negb (is_free s)) rem1 = [] ↔ o_rem st = []).
      { split; intros E.
        - rewrite E in Hsplit. apply Permutation_nil in Hsplit. unfold rem1 in Hsplit.
          by apply fmap_nil_inv in Hsplit.
        - unfold rem1. by rewrite E. }
      split_and!; [done..|].
      intros s s0 Hs Hs0.
      set (s1 := p_with (retain_not (o_del st) (p_hard s)) (p_soft s) s).
      assert (Hs1 : s1 ∈ rem1) by (apply elem_of_list_fmap; exists s; done).
      destruct (Hrem s1 s0 Hs1 Hs0) as [R1 R2].
      assert (is_free s1 = false) as Hnf.
      { destruct (is_free s1) eqn:E; [|done].
        assert (s1 ∈ List.filter is_free rem1) as Hx by (by apply elem_of_filter_bool).
        rewrite Efree in Hx. by apply elem_of_nil in Hx. }
      assert (∃ j, (j ∈ p_hard s1 ∨ j ∈ p_soft s1)) as (j & Hj).
      { unfold is_free in Hnf. destruct (p_hard s1) as [|j ?], (p_soft s1) as [|j' ?]; try done.
        - exists j'. right. el.
        - exists j. left. el.
        - exists j. left. el. }
      assert ((j ∈ p_hard s0 ∨ j ∈ p_soft s0) ∧ j ∉ map pos (concat segs)) as [Hj0 Hnj].
      { destruct Hj as [Hj|Hj]; [apply R1 in Hj|apply R2 in Hj]; clear -Hj; tauto. }
      exists j. split; [done|].
      assert (j ∈ map pos (concat segs ++ o_queue st ++ o_rem st)) as Hjall.
      { rewrite Ip. apply elem_of_seq. split; [lia|]. by eapply Hin. }
      rewrite Hq in Hjall. rewrite !map_app in Hjall. clear -Hjall Hnj.
      rewrite !elem_of_app in Hjall. set_solver.
    - unfold push_batch. cbn [o_queue o_rem].
      assert (Hnz : List.filter is_free rem1 ≠ []) by (by rewrite Efree).
      rewrite <-Efree in *. clear Efree fr frs.
      assert (Hcat : concat (segs ++ [[]]) = concat segs).
      { rewrite concat_app. simpl. by rewrite app_nil_r. }
      split_and!.
      + constructor; cbn [o_info o_order o_queue o_rem o_del]; rewrite ?Hcat.
        * rewrite Ii, map_app. done.
        * done.
        * intros o Ho.
          assert (o ∈ concat segs ++ o_queue st ++ o_rem st ∨ o ∈ rem1) as [Ho'|Ho'].
          { rewrite !elem_of_app in Ho. rewrite !elem_of_filter_bool in Ho.
            rewrite !elem_of_app. clear -Ho. intuition. }
          { by apply Ic. }
          apply Hrem1 in Ho' as (o1 & Ho1 & ->).
          destruct (Ic o1) as (o0 & Ho0 & Hco); [el|]. exists o0. split; [done|].
          etrans; [|exact Hco]. by repeat split.
        * rewrite <-Ip, Hq. rewrite !map_app. cbn [map app]. f_equiv.
          rewrite <-map_app, Hsplit. unfold rem1. rewrite map_map. done.
        * intros j. rewrite elem_of_nil. clear. tauto.
        * intros o o0 Ho. apply elem_of_filter_bool in Ho as [Ho _]. by apply Hrem.
        * intros o o0 Ho Ho0. apply elem_of_filter_bool in Ho as [Ho Hfree].
          destruct (Hrem o o0 Ho Ho0) as [R1 R2]. unfold is_free in Hfree.
          destruct (p_hard o) eqn:Eh, (p_soft o) eqn:Es; try done. split; intros j Hj.
          -- destruct (decide (j ∈ map pos (concat segs))) as [|Hn]; [done|].
             assert (j ∈ @nil nat) as Hx by (apply R1; done). by apply elem_of_nil in Hx.
          -- destruct (decide (j ∈ map pos (concat segs))) as [|Hn]; [done|].
             assert (j ∈ @nil nat) as Hx by (apply R2; done). by apply elem_of_nil in Hx.
        * split; [rewrite app_length; simpl; lia|].
          intros j Hj. apply elem_of_list_fmap in Hj as (x & -> & Hx).
          apply elem_of_list_In, in_concat in Hx as (seg & Hseg & Hx).
          apply elem_of_list_In, elem_of_list_lookup in Hseg as [k Hk].
          exists k, seg, x. pose proof (lookup_lt_Some _ _ _ Hk).
          rewrite elem_of_list_In. split_and!; [done| |done|done].
          by apply lookup_app_l_Some.
        * intros k seg x x0 j Hk Hx Hx0 Hj.
          destruct (decide (k < length segs)).
          -- rewrite lookup_app_l in Hk by done.
             destruct (Ih k seg x x0 j Hk Hx Hx0 Hj) as (k' & seg' & x' & ? & Hl & Hm & Hp).
             exists k', seg', x'. split_and!; [done| |done..]. by apply lookup_app_l_Some.
          -- rewrite lookup_app_r in Hk by lia.
             apply list_lookup_singleton_Some in Hk as [_ <-]. by apply elem_of_nil in Hx.
        * done.
        * intros seg Hsg. apply elem_of_app in Hsg as [Hsg|Hsg]; [by apply If|].
          apply elem_of_list_singleton in Hsg as ->. intros a b x y Ha.
          by rewrite lookup_nil in Ha.
      + exact Hnz.
      + rewrite <-app_length, Hsplit. unfold rem1. by rewrite map_length.
  Qed.

  Lemma pop_loop_total fuel st :
    length (o_queue st) + length (o_rem st) ≤ fuel →
    ∃ st', pop_loop fuel st = Some st' ∧
      length (o_rem st') + (if decide (o_queue st = []) then 0 else 1) ≤
        length (o_queue st) + length (o_rem st).
  Proof.
    revert st. induction fuel as [|fuel IH]; intros st Hle; cbn [pop_loop];
      destruct (o_queue st) as [|s q] eqn:Hq; simpl in Hle |- *.
    - exists st. split; [done|]. lia.
    - lia.
    - exists st. split; [done|]. lia.
    - assert (Hlen : length (o_queue (pop_step st s q)) + length (o_rem (pop_step st s q)) =
        length q + length (o_rem st)).
      { unfold pop_step. destruct (place (o_info st) (o_ba st) s) as [info ba].
        unfold extract. cbn [o_queue o_rem]. rewrite app_length, <-Nat.add_assoc, <-app_length.
        rewrite (filter_split is_free). by rewrite map_length. }
      destruct (IH (pop_step st s q)) as (st' & Hst' & Hl); [lia|].
      exists st'. split; [done|]. destruct (decide (o_queue (pop_step st s q) = [])); lia.
  Qed.

  Lemma order_loop_spec fuel st segs rel base :
    Inv st segs rel base →
    length (o_queue st) + length (o_rem st) + (if decide (o_queue st = []) then 2 else 1) ≤ fuel →
    ∃ st' stf segs' rel' base', order_loop fuel st = Some st' ∧ Inv stf segs' rel' base' ∧
      o_queue stf = [] ∧ o_info st' = o_info stf ∧ o_order st' = o_order stf ∧
      o_ba st' = o_ba stf ∧ (o_rem st' = [] ↔ o_rem stf = []) ∧
      ∀ s s0, s ∈ o_rem stf → ps !! pos s = Some s0 →
        ∃ j, (j ∈ p_hard s0 ∨ j ∈ p_soft s0) ∧ j ∈ map pos (o_rem stf).
  Proof.
    revert st segs rel base. induction fuel as [|fuel IH]; intros st segs rel base HI Hf;
      [destruct (decide _); lia|]. cbn [order_loop].
    destruct (pop_loop_total (length (o_queue st) + length (o_rem st)) st) as (st1 & H1 & Hl1);
      [done|]. rewrite H1.
    destruct (pop_loop_inv _ _ _ _ _ _ HI H1) as (Hq1 & segs1 & HI1).
    pose proof (release_inv st1 segs1 rel base HI1 Hq1) as Hr.
    destruct (release st1) as [st'|st2].
    - destruct Hr as (R1 & R2 & R3 & R4 & R5).
      exists st', st1, segs1, rel, base. by split_and!.
    - destruct Hr as (HI2 & Hq2 & Hl2). eapply IH; [exact HI2|].
      rewrite decide_False by done. destruct (decide (o_queue st = [])); lia.
  Qed.

  Definition dep (j i : nat) : Prop :=
    ∃ s, ps !! i = Some s ∧ (j ∈ p_hard s ∨ j ∈ p_soft s).

  (** What the batches satisfy once every system is placed. *)
  Record Placed (info : list binfo) (order : list psys) (segs : list (list psys)) : Prop := {
    pl_info : info = map to_binfo segs;
    pl_order : order = concat segs;
    pl_core : ∀ s, s ∈ concat segs → ∃ s0, ps !! pos s = Some s0 ∧ core_eq s s0;
    pl_perm : map pos (concat segs) ≡ₚ seq 0 (length ps);
    pl_hard : ∀ k seg s s0 j, segs !! k = Some seg → s ∈ seg → ps !! pos s = Some s0 →
      j ∈ p_hard s0 → ∃ k' seg' s', k' < k ∧ segs !! k' = Some seg' ∧ s' ∈ seg' ∧ pos s' = j;
    pl_seq : ∀ k s s0 j, concat segs !! k = Some s → ps !! pos s = Some s0 →
      j ∈ p_hard s0 ∨ j ∈ p_soft s0 →
      ∃ k' s', k' < k ∧ concat segs !! k' = Some s' ∧ pos s' = j;
    pl_free : ∀ seg, seg ∈ segs → conflict_free seg
  }.

  Lemma order_systems_spec ba :
    (∃ info ba' order segs, order_systems ps ba = Some (inr (info, ba', order)) ∧
      Placed info order segs) ∨
    (∃ l, order_systems ps ba = Some (inl (ECycle l)) ∧ ∃ x, tc dep x x).
  Proof.
    unfold order_systems. destruct (decide (ps = [])) as [E|Hne].
    { left. exists [], ba, [], []. rewrite E. split; [done|].
      constructor; try done; intros; (done || set_solver). }
    assert (Hm : ∀ A (x y : A), match ps with [] => x | _ => y end = y) by (by destruct ps).
    rewrite Hm. unfold extract, push_batch. cbn [app].
    match goal with |- context [order_loop ?f ?s] => set (fuel := f); set (st := s) end.
    assert (HI : Inv st [[]] [] 0).
    { constructor; cbn [st o_info o_order o_queue o_rem o_del concat app map].
      - done.
      - done.
      - intros s Hs. rewrite (filter_split is_free) in Hs.
        apply elem_of_list_lookup in Hs as [i Hi].
        destruct (Htag i s Hi) as [-> _]. exists s. split; [done|]. reflexivity.
      - rewrite (filter_split is_free).
        assert (map pos ps = seq 0 (length ps)) as ->; [|done].
        apply list_eq. intros i. rewrite list_lookup_fmap.
        destruct (ps !! i) as [s|] eqn:Ei.
        + destruct (Htag i s Ei) as [Hp _]. simpl. rewrite Hp. symmetry.
          apply lookup_seq. split; [lia|]. by apply lookup_lt_Some in Ei.
        + simpl. symmetry. apply lookup_ge_None. rewrite seq_length.
          by apply lookup_ge_None in Ei.
      - intros j. rewrite !elem_of_nil. tauto.
      - intros s s0 Hs Hs0. apply elem_of_filter_bool in Hs as [Hs _].
        apply elem_of_list_lookup in Hs as [i Hi]. destruct (Htag i s Hi) as [Hp _].
        rewrite Hp, Hi in Hs0. injection Hs0 as <-.
        split; intros j; rewrite elem_of_nil; tauto.
      - intros s s0 Hs Hs0. apply elem_of_filter_bool in Hs as [Hs Hfree].
        apply elem_of_list_lookup in Hs as [i Hi]. destruct (Htag i s Hi) as [Hp _].
        rewrite Hp, Hi in Hs0. injection Hs0 as <-. unfold is_free in Hfree.
        by destruct (p_hard s), (p_soft s).
      - split; [simpl; lia|]. intros j Hj. by apply elem_of_nil in Hj.
      - intros k seg s s0 j Hk Hs. apply list_lookup_singleton_Some in Hk as [_ <-].
        by apply elem_of_nil in Hs.
      - intros k s s0 j Hk. by rewrite lookup_nil in Hk.
      - intros seg Hseg. apply elem_of_list_singleton in Hseg as ->.
        intros a b x y Ha. by rewrite lookup_nil in Ha. }
    assert (Hlen : length (o_queue st) + length (o_rem st) = length ps).
    { cbn [st o_queue o_rem]. by rewrite <-app_length, (filter_split is_free). }
    destruct (order_loop_spec fuel st [[]] [] 0 HI) as
      (st' & stf & segs & rel & base & Ho & HIf & Hqf & E1 & E2 & E3 & E4 & Hstuck).
    { rewrite Hlen. unfold fuel. destruct (decide _); lia. }
    rewrite Ho. destruct HIf as [Ii Io Ic Ip Id Ir Iq _ Ih Is If].
    destruct (o_rem st') as [|r rs] eqn:Er.
    - left. exists (o_info st'), (o_ba st'), (o_order st'), segs. split; [done|].
      assert (Hrf : o_rem stf = []) by (by apply E4).
      rewrite Hqf, Hrf in Ic, Ip. rewrite !app_nil_r in Ic, Ip.
      constructor; try done; congruence.
    - right. exists (r :: rs). split; [done|].
      assert (Hrf : o_rem stf ≠ []) by (intros Hx; apply E4 in Hx; done).
      destruct (cycle_exists dep (map pos (o_rem stf))) as (x & _ & Hx); [| |by exists x].
      + intros Hx. by apply fmap_nil_inv in Hx.
      + intros x Hx. apply elem_of_list_fmap in Hx as (s & -> & Hs).
        destruct (Ic s) as (s0 & Hs0 & _); [el|].
        destruct (Hstuck s s0 Hs Hs0) as (j & Hj & Hjr).
        exists j. split; [done|]. apply tc_once. by exists s0.
  Qed.

  (** Placed systems respect the dependencies, so there is no cycle. *)
  Lemma placed_acyclic info order segs : Placed info order segs → acyclic dep.
  Proof.
    intros [_ _ Pc Pp _ Ps _].
    assert (Hnd : NoDup (map pos (concat segs))) by (rewrite Pp; apply NoDup_seq).
    assert (Huniq : ∀ k k' s s', concat segs !! k = Some s → concat segs !! k' = Some s' →
      pos s = pos s' → k = k').
    { intros k k' s s' Hk Hk' Hp. eapply NoDup_lookup; [exact Hnd| |].
      - rewrite list_lookup_fmap, Hk. done.
      - rewrite list_lookup_fmap, Hk'. simpl. by rewrite Hp. }
    assert (Hex : ∀ i, i < length ps → ∃ k s, concat segs !! k = Some s ∧ pos s = i).
    { intros i Hi. apply elem_pos_lookup. rewrite Pp. apply elem_of_seq. lia. }
    assert (Htc : ∀ j i, tc dep j i → ∃ kj ki sj si, concat segs !! kj = Some sj ∧
      concat segs !! ki = Some si ∧ pos sj = j ∧ pos si = i ∧ kj < ki).
    { assert (Hone : ∀ j i, dep j i → ∃ kj ki sj si, concat segs !! kj = Some sj ∧
        concat segs !! ki = Some si ∧ pos sj = j ∧ pos si = i ∧ kj < ki).
      { intros j i (s0 & Hs0 & Hj). destruct (Hex i) as (ki & si & Hki & Hpi).
        { by apply lookup_lt_Some in Hs0. }
        rewrite <-Hpi in Hs0. destruct (Ps ki si s0 j Hki Hs0 Hj) as (kj & sj & ? & ? & ?).
        exists kj, ki, sj, si. by split_and!. }
      induction 1 as [j i H|j k i H _ IH]; [by apply Hone|].
      destruct (Hone _ _ H) as (k1 & k2 & s1 & s2 & A1 & A2 & A3 & A4 & A5).
      destruct IH as (k3 & k4 & s3 & s4 & B1 & B2 & B3 & B4 & B5).
      assert (k2 = k3) as -> by (eapply Huniq; [done..|congruence]).
      exists k1, k4, s1, s4. split_and!; try done. lia. }
    intros x Hx. destruct (Htc x x Hx) as (k1 & k2 & s1 & s2 & A1 & A2 & A3 & A4 & A5).
    assert (k1 = k2) by (eapply Huniq; [done..|congruence]). lia.
  Qed.
End loop.

(** * The stored indices *)

Definition resolves (conds : list cond) (r : option nat) (c : option cond) : Prop :=
  match r, c with
  | None, None => True
  | Some i, Some c => conds !! i = Some c
  | _, _ => False
  end.
(** The run conditions stored for a batch are those of its systems. *)
Definition aligned (conds : list cond) (b : binfo) (r : option nat * list (option nat)) : Prop :=
  resolves conds r.1 (bi_single b ≫= p_run_if) ∧
  Forall2 (resolves conds) r.2 (p_run_if <$> bi_par b).

Record Stored (info : list binfo) (ba : batches) (order : list psys) : Prop := {
  st_par : ba_par ba = map batch_indices info;
  st_par_rif : Forall2 (aligned (ba_sys_rif ba)) info (ba_par_rif ba);
  st_seq : ba_seq ba = map p_index order;
  st_seq_rif : Forall2 (resolves (ba_sys_rif ba)) (ba_seq_rif ba) (map p_run_if order)
}.

Lemma resolves_mono conds conds' r c :
  resolves conds r c → resolves (conds ++ conds') r c.
Proof.
  unfold resolves. destruct r, c; try done. intros H. by apply lookup_app_l_Some.
Qed.
Lemma aligned_mono conds conds' b r : aligned conds b r → aligned (conds ++ conds') b r.
Proof.
  intros [H1 H2]. split; [by apply resolves_mono|].
  eapply Forall2_impl; [exact H2|]. intros. by apply resolves_mono.
Qed.

Lemma push_stored info ba order info' ba' :
  Stored info ba order → push_batch info ba = (info', ba') →
  Stored info' ba' order ∧ ba_rif ba' = ba_rif ba ∧ info' ≠ [].
Proof.
  intros [S1 S2 S3 S4] [= <- <-]. split_and!; [|done|by destruct info].
  constructor; cbn [ba_par ba_par_rif ba_seq ba_seq_rif ba_sys_rif]; [|..|done|done].
  - by rewrite map_app, S1.
  - apply Forall2_app; [done|]. repeat constructor.
Qed.

Lemma place_stored info ba order s info' ba' :
  info ≠ [] → Stored info ba order → place info ba s = (info', ba') →
  Stored info' ba' (order ++ [s]) ∧ ba_rif ba' = ba_rif ba ∧ info' ≠ [].
Proof.
  intros Hne HS. unfold place.
  destruct (if batch_conflict _ s then push_batch info ba else (info, ba))
    as [info1 ba1] eqn:E1.
  assert (Stored info1 ba1 order ∧ ba_rif ba1 = ba_rif ba ∧ info1 ≠ []) as (HS1 & Hr1 & Hne1).
  { destruct (batch_conflict _ s); [by eapply push_stored|].
    injection E1 as <- <-. done. }
  clear E1 HS Hne. intros [= <- <-]. destruct HS1 as [S1 S2 S3 S4].
  cbn [ba_rif]. split_and!; [|done|].
  2: { destruct (exists_last Hne1) as (init & b & ->). rewrite upd_last_app. by destruct init. }
  destruct (exists_last Hne1) as (init & b & ->).
  apply Forall2_app_inv_l in S2 as (ri & rl & F1 & F2 & Hrif).
  apply Forall2_cons_inv_l in F2 as (rb & rnil & F2 & F3 & ->).
  apply Forall2_nil_inv_l in F3 as ->.
  set (rif := match p_run_if s with Some _ => Some (length (ba_sys_rif ba1)) | None => None end).
  set (conds := ba_sys_rif ba1 ++ match p_run_if s with Some c => [c] | None => [] end).
  assert (Hnew : resolves conds rif (p_run_if s)).
  { unfold rif, conds, resolves. destruct (p_run_if s) as [c|]; [|done].
    rewrite lookup_app_r by lia. by rewrite Nat.sub_diag. }
  constructor; cbn [ba_par ba_par_rif ba_seq ba_seq_rif ba_sys_rif]; fold rif conds.
  - rewrite S1, !map_app, upd_last_app. cbn [map]. rewrite upd_last_app. f_equal.
    rewrite map_app. cbn [map]. f_equal. f_equal. unfold batch_indices.
    destruct (is_single s); cbn [bi_single bi_par fst snd]; [done|].
    by rewrite fmap_app.
  - rewrite Hrif, !upd_last_app. apply Forall2_app.
    { eapply Forall2_impl; [exact F1|]. intros. by apply aligned_mono. }
    constructor; [|constructor].
    destruct F2 as [F2 F3]. unfold aligned. destruct (is_single s); cbn [bi_single bi_par fst snd].
    + split; [done|]. eapply Forall2_impl; [exact F3|]. intros. by apply resolves_mono.
    + split; [by apply resolves_mono|]. rewrite fmap_app. apply Forall2_app.
      * eapply Forall2_impl; [exact F3|]. intros. by apply resolves_mono.
      * constructor; [done|constructor].
  - by rewrite S3, map_app.
  - rewrite map_app. apply Forall2_app.
    + eapply Forall2_impl; [exact S4|]. intros. by apply resolves_mono.
    + constructor; [done|constructor].
Qed.

Lemma pop_loop_stored fuel st st' :
  o_info st ≠ [] → Stored (o_info st) (o_ba st) (o_order st) → pop_loop fuel st = Some st' →
  Stored (o_info st') (o_ba st') (o_order st') ∧ ba_rif (o_ba st') = ba_rif (o_ba st) ∧
  o_info st' ≠ [].
Proof.
  revert st. induction fuel as [|fuel IH]; intros st Hne HS; cbn [pop_loop];
    destruct (o_queue st) as [|s q]; [by intros [= <-]|done|by intros [= <-]|].
  intros Hl.
  assert (Stored (o_info (pop_step st s q)) (o_ba (pop_step st s q)) (o_order (pop_step st s q)) ∧
    ba_rif (o_ba (pop_step st s q)) = ba_rif (o_ba st) ∧ o_info (pop_step st s q) ≠ [])
    as (H1 & H2 & H3).
  { unfold pop_step. destruct (place (o_info st) (o_ba st) s) as [info ba] eqn:E.
    unfold extract. cbn [o_info o_ba o_order]. by eapply place_stored. }
  destruct (IH _ H3 H1 Hl) as (G1 & G2 & G3). split_and!; [done|congruence|done].
Qed.
Lemma order_loop_stored fuel st st' :
  o_info st ≠ [] → Stored (o_info st) (o_ba st) (o_order st) → order_loop fuel st = Some st' →
  Stored (o_info st') (o_ba st') (o_order st') ∧ ba_rif (o_ba st') = ba_rif (o_ba st).
Proof.
  revert st. induction fuel as [|fuel IH]; intros st Hne HS; cbn [order_loop]; [done|].
  destruct (pop_loop _ st) as [st1|] eqn:E1; [|done].
  destruct (pop_loop_stored _ _ _ Hne HS E1) as (H1 & H2 & H3).
  unfold release. destruct (extract _) as [free rem].
  destruct free as [|fr frs].
  - intros [= <-]. done.
  - destruct (push_batch (o_info st1) (o_ba st1)) as [info ba] eqn:Ep.
    destruct (push_stored _ _ _ _ _ H1 Ep) as (G1 & G2 & G3). intros Hl.
    apply IH in Hl as [K1 K2]; [|done..]. cbn [o_ba] in K2. split; [done|congruence].
Qed.
Lemma order_systems_stored ps c info ba order :
  order_systems ps (ba_new c) = Some (inr (info, ba, order)) →
  Stored info ba order ∧ ba_rif ba = c.
Proof.
  unfold order_systems. destruct ps as [|p ps].
  - intros [= <- <- <-]. split; [|done]. constructor; done || constructor.
  - destruct (extract _) as [free rem]. unfold push_batch. cbn [app].
    destruct (order_loop _ _) as [st|] eqn:E; [|done].
    destruct (o_rem st); [|done]. intros [= <- <- <-].
    eapply order_loop_stored in E; [exact E|done|].
    cbn [o_info o_ba o_order]. constructor; cbn; [done| |done|constructor].
    repeat constructor.
Qed.
