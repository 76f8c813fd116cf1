(** Properties C46-C50: iteration over the views of a world. *)
From stdpp Require Import prelude list gmap.
From Coq Require Import NArith Lia.
From Verif Require Import EntityId EntityIdProofs Base Entities EntitiesSpec EntitiesProofs.
From Verif Require Import SparseSet Track SparseSetSpec SparseSetProofs.
From Verif Require Import World WorldSpec WorldProofs WorldProofs2 PropsWorld.
From Verif Require Import Iter IterSpec IterFloat IterProofs IterProofs2 IterAlias IterOwned.
Open Scope N_scope.

(** ** Vocabulary *)
(** The components in an item, from left to right. *)
Fixpoint values {V} (x : item V) : list V :=
  match x with
  | IVal v => [v]
  | ITup l => l ≫= values
  | IOne x | ITwo x => values x
  | IOpt (Some v) => [v]
  | _ => []
  end.

Section props.
Context {V : Type} (kind : N -> tracking).
Implicit Types (w : world V) (t : table V) (it : iter V) (q : query).

(** The storage of a component type as a view sees it, and its window. *)
Notation store w i := (store_or_new kind (w_stores w) i).
Definition views w (times : N -> N * N * N) (i : N) : window V := window_of i (store w i) (times i).
(** What the expression should yield for each entity. *)
Definition meant t (times : N -> N * N * N) : query -> eid -> option (item V) :=
  denote (t_cell t) (λ i, (times i).1.1) (λ i, (times i).1.2) (λ i, (times i).2).
Definition allowed q : Prop :=
  usable (λ i, k_track_insertion (kind i)) (λ i, k_track_modification (kind i)) q ∧
  can_captain q = true ∧ size q <= 2 ^ 11.
Definition nonempty t (i : N) : Prop := ∃ e, is_Some (t_cell t e i).

(** [L] lists each entity that should be yielded, once, with its item. *)
Definition exactly (f : eid -> option (item V)) (L : list (eid * out V)) : Prop :=
  NoDup L.*1 ∧ (∀ e, e ∈ L.*1 <-> is_Some (f e)) ∧ ∀ e o, (e, o) ∈ L -> f e = Some (erase o).
(** A loop with [next], one with [with_id], and [for_each] (fold) all visit [L]. *)
Definition visits it (L : list (eid * out V)) : Prop :=
  collects wi_next it L ∧ collects it_next it L.*2 ∧ it_fold it = Ok L.*2.
(** No component is reachable through two of the items, nor twice through one of them unless the
    expression mentions its storage several times (which Rust allows for shared views only). *)
Definition apart q (L : list (eid * out V)) : Prop :=
  (∀ j k x y r, L !! j = Some x -> L !! k = Some y -> j ≠ k -> r ∈ refs x.2 -> r ∉ refs y.2) ∧
  (∀ i e o, (e, o) ∈ L -> (length (filter (λ r, r.1 = i) (refs o)) <= length (filter (λ j, j = i) (storages q)))%nat).

Lemma usable_ext (a b a' b' : N -> bool) q :
  (∀ i, a i = a' i) -> (∀ i, b i = b' i) -> usable a b q -> usable a' b' q.
Proof.
  intros Ha Hb. induction q as [i|i|l|i|x i|neg k i|qs IH|q1 q2 IH1 IH2] using query_ind'; cbn; try done.
  - destruct k; rewrite ?Ha, ?Hb; done.
  - intros (H1 & H2). split; [|done]. clear H2. induction IH as [|q qs Hq HF IH']; [done|].
    destruct H1 as [H1 H2]. split; [by apply Hq|by apply IH'].
  - intros (H1 & H2 & H3 & H4 & H5). split; [exact H1|]. split; [by apply IH1|]. split; [by apply IH2|]. by split.
Qed.

Lemma views_ok ops w evs t times i :
  reach kind ops w evs t -> wn_id (views w times i) = i ∧ win_ok (views w times i) (λ e, t_cell t e i).
Proof.
  intros [H _]%reach_WR. split; [done|]. destruct (wr_stores _ _ _ _ _ H i) as (a & HS & _ & Hc).
  eapply win_ok_SR; [done|apply HS|apply HS|done].
Qed.
Lemma views_flags ops w evs t i :
  reach kind ops w evs t ->
  ss_ti (store w i) = k_track_insertion (kind i) ∧ ss_tm (store w i) = k_track_modification (kind i).
Proof.
  intros [H _]%reach_WR. destruct (wr_stores _ _ _ _ _ H i) as (a & HS & Hk & Hc).
  rewrite (sr_ti _ _ HS), (sr_tm _ _ HS). unfold sflags, kflags in Hk. split; congruence.
Qed.
(** Everything is derived from this. *)
Lemma world_tour ops w evs t times q :
  reach kind ops w evs t -> allowed q ->
  ∃ it l ls, shiperator (views w times) q = Ok it ∧ tour it (l :: ls) ∧
    exactly (meant t times q) (items (mjoin (l :: ls))) ∧ apart q (items (mjoin (l :: ls))) ∧
    (or_free q = true -> ls = []) ∧ (stocked (nonempty t) q -> Forall (λ l, l ≠ []) ls) ∧
    (it_exact it = true -> ls = [] ∧ Forall (λ x, is_Some x.2) l).
Proof.
  intros HR (Hu & Hc & Hsz).
  destruct (q_iter_ok f32_id f32_half f32_not f32_track (views w times) (t_cell t)
    (λ i, views_ok ops w evs t times i HR) f32_id_le f32_half_le f32_not_le f32_track_le q) as (it & l & ls & E & HT & (Y1 & Y2 & Y3) & H1 & H2 & H3).
  - eapply usable_ext; [..|exact Hu]; intros i; symmetry; apply (views_flags ops w evs t i HR).
  - done.
  - done.
  - exists it, l, ls. split_and!; [done|done|split_and!; [done|done|]|split|done|done|done].
    + intros e o Hin. by apply (Y3 e o Hin).
    + intros j k [e1 o1] [e2 o2] [i p] Hj Hk Hne R1 R2. cbn [snd] in *.
      destruct (Y3 e1 o1) as [_ G1]; [by eapply elem_of_list_lookup_2|].
      destruct (Y3 e2 o2) as [_ G2]; [by eapply elem_of_list_lookup_2|].
      specialize (G1 _ _ R1). specialize (G2 _ _ R2). rewrite G1 in G2. injection G2 as ->.
      apply Hne. apply (NoDup_lookup _ _ _ e2 Y1); rewrite list_lookup_fmap; by rewrite ?Hj, ?Hk.
    + intros i e o Hin.
      pose proof (q_iter_refs f32_id f32_half f32_not f32_track (views w times) (λ i, eq_refl) q it _ E HT e o Hin) as HS.
      assert (filter (λ j, j = i) (refs o).*1 = (filter (λ r, r.1 = i) (refs o)).*1) as HF.
      { clear. induction (refs o) as [|[a b] l0 IH]; [done|]. rewrite fmap_cons, !filter_cons. cbn [fst].
        destruct (decide (a = i)); cbn; by rewrite IH. }
      rewrite <- (fmap_length fst), <- HF. apply sublist_length. clear -HS.
      induction HS as [|x l1 l2 _ IH|x l1 l2 _ IH]; [done|..]; rewrite ?filter_cons.
      * destruct (decide (x = i)); [by constructor|done].
      * destruct (decide (x = i)); [by apply sublist_cons|done].
Qed.
Lemma world_visits ops w evs t times q :
  reach kind ops w evs t -> allowed q -> stocked (nonempty t) q ->
  ∃ it L, shiperator (views w times) q = Ok it ∧ visits it L ∧ exactly (meant t times q) L ∧ apart q L.
Proof.
  intros HR HA Hst. destruct (world_tour ops w evs t times q HR HA) as (it & l & ls & E & HT & HE & HP & _ & H2 & _).
  exists it, (items (mjoin (l :: ls))). split_and!; [done|split_and!|done|done].
  - apply wi_collects; [done|by apply H2].
  - apply it_collects; [done|by apply H2].
  - by apply it_fold_tour.
Qed.
Lemma or_free_stocked P q : or_free q = true -> stocked P q.
Proof.
  induction q as [i|i|l|i|x i|neg k i|qs IH|q1 q2 IH1 IH2] using query_ind'; cbn; try done.
  intros H. induction IH as [|q qs Hq HF IH']; [done|]. cbn in H. apply andb_true_iff in H as [H1 H2].
  split; [by apply Hq|by apply IH'].
Qed.

(** ** C46 *)
Lemma plain_usable a b q : plain q ->
  usable a b q ∧ can_captain q = true ∧ can_sailor q = true ∧ sailable q = true ∧ light q = true ∧ or_free q = true.
Proof.
  induction q as [i|i|l|i|x i|neg k i|qs IH|q1 q2 IH1 IH2] using query_ind'; try done.
  rewrite plain_tuple. intros [Hne HP].
  assert (Forall (λ q, usable a b q ∧ can_captain q = true ∧ can_sailor q = true ∧ sailable q = true ∧ light q = true ∧ or_free q = true) qs) as HF.
  { rewrite Forall_forall in *. intros q Hq. by apply IH, HP. }
  clear IH HP. split_and!.
  - cbn [usable]. split_and!.
    + clear Hne. induction HF as [|q qs (H1 & _) HF IH]; [done|]. by split.
    + eapply Forall_impl; [exact HF|]. intros q (? & ? & ? & ? & ? & ?). split_and!; auto.
    + destruct HF as [|q qs (_ & H & _) _]; [done|]. by left.
    + assert (filter (λ q, can_sailor q = false) qs = []) as ->; [|cbn; lia]. clear Hne.
      induction HF as [|q qs (_ & _ & H & _) HF IH]; [done|]. rewrite filter_cons_False; [done|]. by rewrite H.
  - cbn [can_captain]. destruct HF as [|q qs (_ & H & _) _]; [done|]. cbn. by rewrite H.
  - cbn [can_sailor]. apply forallb_forall. intros q Hq%elem_of_list_In. rewrite Forall_forall in HF.
    by destruct (HF q Hq) as (_ & _ & ? & _).
  - cbn [sailable]. apply forallb_forall. intros q Hq%elem_of_list_In. rewrite Forall_forall in HF.
    by destruct (HF q Hq) as (_ & _ & _ & ? & _).
  - cbn [light]. apply forallb_forall. intros q Hq%elem_of_list_In. rewrite Forall_forall in HF.
    by destruct (HF q Hq) as (_ & _ & _ & _ & ? & _).
  - cbn [or_free]. apply forallb_forall. intros q Hq%elem_of_list_In. rewrite Forall_forall in HF.
    by destruct (HF q Hq) as (_ & _ & _ & _ & _ & ?).
Qed.
(** What a tuple of views means. *)
Lemma plain_meant t times q e : plain q ->
  match meant t times q e with
  | Some x => (λ i, r_val <$> t_cell t e i) <$> storages q = Some <$> values x
  | None => Exists (λ i, t_cell t e i = None) (storages q)
  end.
Proof.
  unfold meant. induction q as [i|i|l|i|x i|neg k i|qs IH|q1 q2 IH1 IH2] using query_ind'; try done.
  1,2: intros _; cbn; destruct (t_cell t e i) eqn:E; cbn; [done|by constructor].
  rewrite plain_tuple. intros [_ HP]. cbn [denote storages].
  induction IH as [|q qs Hq HF IH]; [done|]. apply Forall_cons in HP as [HP HPs].
  specialize (Hq HP). specialize (IH HPs). rewrite fmap_cons. cbn [all_some]; change ((q :: qs) ≫= storages) with (storages q ++ (qs ≫= storages)).
  destruct (denote _ _ _ _ q e) as [x|]; cbn [fmap option_fmap option_map] in *.
  - destruct (all_some _) as [xs|]; cbn [fmap option_fmap option_map] in *.
    + cbn [values] in *. change ((x :: xs) ≫= values) with (values x ++ (xs ≫= values)). rewrite !fmap_app. by f_equal.
    + apply Exists_app. by right.
  - apply Exists_app. by left.
Qed.

(** Iterating a view, or a tuple of views to any depth and width, visits exactly the entities that
    own all the components, once each, with their own components; no two items share a component. *)
Theorem C46_tuple ops w evs t times q :
  reach kind ops w evs t -> plain q -> size q <= 2 ^ 11 ->
  ∃ it L, shiperator (views w times) q = Ok it ∧ visits it L ∧ NoDup L.*1 ∧ apart q L ∧
    (∀ e, e ∈ L.*1 <-> ∀ i, i ∈ storages q -> is_Some (t_cell t e i)) ∧
    (∀ e o, (e, o) ∈ L -> Some <$> values (erase o) = (λ i, r_val <$> t_cell t e i) <$> storages q).
Proof.
  intros HR HP Hsz.
  destruct (plain_usable (λ i, k_track_insertion (kind i)) (λ i, k_track_modification (kind i)) q HP)
    as (Hu & Hc & _ & _ & _ & Hof).
  destruct (world_visits ops w evs t times q) as (it & L & E & HV & (X1 & X2 & X3) & HA);
    [done|done|by apply or_free_stocked|].
  exists it, L. split_and!; try done.
  - intros e. rewrite X2. pose proof (plain_meant t times q e HP) as HM.
    destruct (meant t times q e) as [x|].
    + split; [|by eexists]. intros _ i Hi.
      assert (r_val <$> t_cell t e i ∈ Some <$> values x) as Hin.
      { rewrite <- HM. apply (elem_of_list_fmap_1 (λ i, r_val <$> t_cell t e i)). done. }
      apply elem_of_list_fmap in Hin as (v & Hv & _). by destruct (t_cell t e i).
    + split; [by intros [? ?]|]. intros HI. apply Exists_exists in HM as (i & Hi & Hn).
      destruct (HI i Hi) as [? ?]. congruence.
  - intros e o Hin. pose proof (plain_meant t times q e HP) as HM. by rewrite (X3 e o Hin) in HM.
Qed.

(** ** C47 *)

(** The filters [!], [as_optional], [inserted], [modified], [inserted_or_modified] and their
    negations, and id slices, in tuples to any depth. *)
Theorem C47_filters_partial ops w evs t times q :
  reach kind ops w evs t -> allowed q -> or_free q = true ->
  ∃ it L, shiperator (views w times) q = Ok it ∧ visits it L ∧ exactly (meant t times q) L ∧ apart q L.
Proof. intros HR HA Hof. by apply (world_visits ops w evs t times q), or_free_stocked. Qed.

(** ** C48 *)
Theorem C48_or_partial ops w evs t times q :
  reach kind ops w evs t -> allowed q ->
  ∃ it L, shiperator (views w times) q = Ok it ∧ it_fold it = Ok L.*2 ∧ exactly (meant t times q) L ∧ apart q L ∧
    (stocked (nonempty t) q -> visits it L).
Proof.
  intros HR HA. destruct (world_tour ops w evs t times q HR HA) as (it & l & ls & E & HT & HE & HP & _ & H2 & _).
  exists it, (items (mjoin (l :: ls))). split_and!; [done|by apply it_fold_tour|done|done|].
  intros Hst. split_and!; [apply wi_collects|apply it_collects|apply it_fold_tour]; try done; by apply H2.
Qed.

(** ** C49 *)
Theorem C49_styles_partial ops w evs t times q :
  reach kind ops w evs t -> allowed q -> or_free q = true ->
  ∃ it L, shiperator (views w times) q = Ok it ∧ exactly (meant t times q) L ∧
    visits it L ∧
    wi_fold it = Ok L ∧ it_rfold it = Ok (reverse L.*2) ∧ wi_rfold it = Ok (reverse L) ∧
    ∀ calls, ∃ it' os rest, play calls it = Ok (it', os) ∧ length os = length calls ∧
      L.*2 = came false calls os ++ rest ++ reverse (came true calls os) ∧
      collects it_next it' rest ∧ it_fold it' = Ok rest ∧ it_rfold it' = Ok (reverse rest) ∧
      (None ∈ os -> rest = []).
Proof.
  intros HR HA Hof.
  destruct (world_tour ops w evs t times q HR HA) as (it & l & ls & E & HT & HE & HP & H1 & H2 & _).
  specialize (H1 Hof). subst ls. rewrite mjoin_one in *. exists it, (items l).
  split_and!; [done|done| | | | |].
  - split_and!.
    + rewrite <- (mjoin_one l). by apply wi_collects.
    + rewrite <- (mjoin_one l). by apply it_collects.
    + rewrite (it_fold_tour _ _ HT). by rewrite mjoin_one.
  - by apply wi_fold_tour.
  - rewrite (it_rfold_tour _ _ HT). cbn [fmap list_fmap]. by rewrite mjoin_one.
  - rewrite (wi_rfold_tour _ _ HT). cbn [fmap list_fmap]. by rewrite mjoin_one.
  - intros calls. destruct (play_tour calls it l HT) as (it' & os & l' & P1 & P2 & P3 & P4 & P5).
    exists it', os, (items l').*2. split_and!; try done.
    + rewrite <- (mjoin_one l'). by apply it_collects.
    + rewrite (it_fold_tour _ _ P2). by rewrite mjoin_one.
    + rewrite (it_rfold_tour _ _ P2). cbn [fmap list_fmap]. by rewrite mjoin_one.
    + intros HN. by rewrite (P5 HN).
Qed.
(** The size hint of an iterator that was not advanced, also with [|]. *)
Theorem C49_size_hint ops w evs t times q :
  reach kind ops w evs t -> allowed q ->
  ∃ it L, shiperator (views w times) q = Ok it ∧ it_fold it = Ok L ∧
    (it_size_hint it).1 <= lenN L <= (it_size_hint it).2 ∧
    (it_exact it = true -> (it_size_hint it).1 = lenN L ∧ (it_size_hint it).2 = lenN L).
Proof.
  intros HR HA.
  destruct (world_tour ops w evs t times q HR HA) as (it & l & ls & E & HT & HE & HP & _ & _ & H3).
  exists it, (items (mjoin (l :: ls))).*2. split_and!; try done; [by apply it_fold_tour|..].
  all: pose proof (tour_left _ _ HT) as HL; unfold it_left in HL; unfold it_size_hint, lenN; cbn [fst snd].
  - destruct (it_exact it); [|lia]. destruct (H3 eq_refl) as [-> HF].
    assert (length (items (mjoin [l])).*2 = length (mjoin [l])) as ->; [|lia].
    rewrite mjoin_one, fmap_length. clear -HF. induction HF as [|[e o] l [x Hx] HF IH]; [done|].
    cbn in Hx. subst o. rewrite items_cons. cbn. by rewrite IH.
  - rewrite fmap_length. pose proof (sublist_length _ _ (items_sub (mjoin (l :: ls)))) as HS.
    rewrite !fmap_length in HS. lia.
  - intros Hex. rewrite Hex. destruct (H3 Hex) as [-> HF].
    assert (length (items (mjoin [l])).*2 = length (mjoin [l])) as ->; [|lia].
    rewrite mjoin_one, fmap_length. clear -HF. induction HF as [|[e o] l [x Hx] HF IH]; [done|].
    cbn in Hx. subst o. rewrite items_cons. cbn. by rewrite IH.
Qed.

(** ** C50 *)
(** However a pool splits the iterator, the pieces one after the other yield what the iterator
    yields, and two pieces never reach the same component. *)
Theorem C50_split ops w evs t times q :
  reach kind ops w evs t -> allowed q -> or_free q = true ->
  ∃ it L, shiperator (views w times) q = Ok it ∧ visits it L ∧ exactly (meant t times q) L ∧ apart q L ∧
    ∀ ps, pieces it ps -> ∃ Ls, mjoin Ls = L ∧ Forall2 visits ps Ls.
Proof.
  intros HR HA Hof.
  destruct (world_tour ops w evs t times q HR HA) as (it & l & ls & E & HT & HE & HP & H1 & H2 & _).
  specialize (H1 Hof). subst ls. rewrite mjoin_one in *. exists it, (items l).
  assert (∀ it l, tour it [l] -> visits it (items l)) as HV.
  { clear. intros it l HT. split_and!.
    - rewrite <- (mjoin_one l). by apply wi_collects.
    - rewrite <- (mjoin_one l). by apply it_collects.
    - rewrite (it_fold_tour _ _ HT). by rewrite mjoin_one. }
  split_and!; [done|by apply HV|done|done|]. intros ps HPS.
  destruct (pieces_tour it ps HPS l HT) as (lp & <- & HF). exists (items <$> lp). split; [apply mjoin_items|].
  apply Forall2_fmap_r. eapply Forall2_impl; [exact HF|]. intros p l' HT'. by apply HV.
Qed.
End props.

(** * A world to iterate *)
(** Five entities; nobody has a component of type 3.  Only type 0 is tracked. *)
Definition it_kind (i : N) : tracking := if i =? 0 then TAll else Nothing.
Definition it_ops : list (wop N) :=
  [WAddEntity [(0, 10); (1, 11)]; WAddEntity [(1, 21)]; WAddEntity [(0, 30); (1, 31); (2, 32)];
   WAddEntity [(2, 43)]; WAddEntity [(0, 50)]].
Definition it_world : world N := world_of it_kind it_ops.
(** Views borrowed at time 9 by a system that ran last at time 3. *)
Definition it_views : N -> window N := views it_kind it_world (λ _, (3, 3, 9)).

Lemma it_reach : ∃ t, reach it_kind it_ops it_world (answers_of it_kind it_ops) t.
Proof. destruct (reach_concrete it_kind it_ops) as (t & H & _); [vm_compute; reflexivity|]. by exists t. Qed.

(** The hypotheses of C46 hold of a nested tuple, and what comes out. *)
Example C46_case :
  let q := QTuple [QView 0; QTuple [QMut 1; QView 2]] in
  (∃ t, reach it_kind it_ops it_world (answers_of it_kind it_ops) t) ∧ plain q ∧ size q <= 2 ^ 11 ∧
  (rlet it := shiperator it_views q in it_fold it) = Ok [OTup [ORef 0 1 30; OTup [ORef 1 2 31; ORef 2 0 32]]] ∧
  (rlet it := shiperator it_views (QTuple [QView 0; QMut 1]) in it_fold it)
    = Ok [OTup [ORef 0 0 10; ORef 1 0 11]; OTup [ORef 0 1 30; ORef 1 2 31]].
Proof. cbn zeta. split; [exact it_reach|]. split; [cbn; by split_and!|]. split_and!; by vm_compute. Qed.
(** Filters: the entities with 1 but not 2; those with 1 whose 0 was not inserted since; those of a list
    of ids with 1, and their 0 if any. *)
Example C47_case :
  allowed it_kind (QTuple [QView 1; QNot false 2]) ∧
  (rlet it := shiperator it_views (QTuple [QView 1; QNot false 2]) in it_fold it)
    = Ok [OTup [ORef 1 0 11; OUnit]; OTup [ORef 1 1 21; OUnit]] ∧
  allowed it_kind (QTuple [QTrack true MIns 0; QView 1]) ∧
  (rlet it := shiperator it_views (QTuple [QTrack true MIns 0; QView 1]) in it_fold it)
    = Ok [OTup [ORef 0 0 10; ORef 1 0 11]; OTup [ORef 0 1 30; ORef 1 2 31]] ∧
  allowed it_kind (QTuple [QIds [(1, 0); (0, 0); (4, 0)]; QOpt 0; QView 1]) ∧
  (rlet it := shiperator it_views (QTuple [QIds [(1, 0); (0, 0); (4, 0)]; QOpt 0; QView 1]) in it_fold it)
    = Ok [OTup [OId (1, 0); OOpt None; ORef 1 1 21]; OTup [OId (0, 0); OOpt (Some (0, 0, 10)); ORef 1 0 11]].
Proof.
  assert (∀ qs, forallb (λ q, light q && (negb (can_sailor q) || sailable q) && (can_captain q || can_sailor q)) qs = true ->
    Forall (λ q, (light q = true ∨ (∃ i, q = QNot true i)) ∧ (can_sailor q = true -> sailable q = true) ∧
    (can_captain q = true ∨ can_sailor q = true)) qs) as HF.
  { intros qs H. apply Forall_forall. intros q Hq%elem_of_list_In. rewrite forallb_forall in H. specialize (H q Hq).
    apply andb_true_iff in H as [[H1 H2]%andb_true_iff H3%orb_true_iff]. split_and!; [by left| |done].
    intros H4. by rewrite H4 in H2. }
  split_and!; try by vm_compute.
  - split; [|by vm_compute]. cbn [usable]. split_and!; [done|done|done|by apply HF|by left|by apply Nat.leb_le].
  - split; [|by vm_compute]. cbn [usable]. split_and!; [done|done|done|by apply HF|by left|by apply Nat.leb_le].
  - split; [|by vm_compute]. cbn [usable]. split_and!; [|by repeat constructor|done|done|done|done|by apply HF|by left|by apply Nat.leb_le].
    apply (bool_decide_unpack _). by vm_compute.
Qed.
(** Or. *)
Example C48_case :
  allowed it_kind (QOr (QView 0) (QMut 1)) ∧ (∃ t, reach it_kind it_ops it_world (answers_of it_kind it_ops) t) ∧
  (rlet it := shiperator it_views (QOr (QView 0) (QMut 1)) in it_fold it)
    = Ok [OOne (ORef 0 0 10); OOne (ORef 0 1 30); OOne (ORef 0 2 50); OTwo (ORef 1 1 21)].
Proof. split; [|split]; [by vm_compute|exact it_reach|by vm_compute]. Qed.
(** From both ends in turn, and the size hints: exact for a single view, an upper bound for a tuple. *)
Example C49_case :
  let q := QTuple [QView 0; QMut 1] in
  allowed it_kind q ∧ or_free q = true ∧
  (rlet it := shiperator it_views q in rlet (_, os) := play [true; false; false] it in Ok os)
    = Ok [Some (OTup [ORef 0 1 30; ORef 1 2 31]); Some (OTup [ORef 0 0 10; ORef 1 0 11]); None] ∧
  (rlet it := shiperator it_views (QView 1) in rlet (_, os) := play [true; false; true; true] it in Ok os)
    = Ok [Some (ORef 1 2 31); Some (ORef 1 0 11); Some (ORef 1 1 21); None] ∧
  (rlet it := shiperator it_views (QView 1) in Ok (it_size_hint it, it_exact it)) = Ok ((3, 3), true) ∧
  (rlet it := shiperator it_views q in Ok (it_size_hint it, it_exact it)) = Ok ((0, 3), false) ∧
  (rlet it := shiperator it_views (QOr (QView 0) (QMut 1)) in Ok (it_size_hint it, it_exact it)) = Ok ((0, 6), false).
Proof. cbn zeta. split_and!; try by vm_compute. split; [|by vm_compute]. cbn [usable]. split_and!; try done; [|by left|by apply Nat.leb_le]. repeat constructor; by left. Qed.
(** Split once, and one half again. *)
Example C50_case :
  allowed it_kind (QView 1) ∧ or_free (QView 1) = true ∧
  ∃ it a b c, shiperator it_views (QView 1) = Ok it ∧ pieces it [a; b; c] ∧
    (it_fold <$> [a; b; c]) = [Ok [ORef 1 0 11]; Ok [ORef 1 1 21]; Ok [ORef 1 2 31]].
Proof.
  split; [by vm_compute|]. split; [done|].
  eexists _, _, _, _. split; [vm_compute; reflexivity|]. split.
  - eapply (pieces_split _ _ _ [_] [_; _]); [vm_compute; reflexivity|apply pieces_leaf|].
    eapply (pieces_split _ _ _ [_] [_]); [vm_compute; reflexivity|apply pieces_leaf|apply pieces_leaf].
  - vm_compute. reflexivity.
Qed.

(** * Where the properties fail *)

(** An id that occurs twice in a slice is visited twice, with two exclusive references to the same
    component (finding 2). *)
Theorem C46_ids_refuted :
  (∃ t, reach it_kind it_ops it_world (answers_of it_kind it_ops) t) ∧
  ∃ it a b, shiperator it_views (QTuple [QIds [(0, 0); (0, 0)]; QMut 0]) = Ok it ∧
    it_fold it = Ok [a; b] ∧ (0, 0) ∈ refs a ∧ (0, 0) ∈ refs b.
Proof.
  split; [exact it_reach|]. eexists _, _, _. split; [vm_compute; reflexivity|].
  split; [vm_compute; reflexivity|]. split; by left.
Qed.
(** Two [!&mut view] in an inner tuple: the sum of their sail times overflows (finding 36). *)
Theorem C47_nested_refuted :
  (∃ t, reach it_kind it_ops it_world (answers_of it_kind it_ops) t ∧
        is_Some (meant t (λ _, (3, 3, 9)) (QTuple [QView 2; QTuple [QView 0; QNot true 4; QNot true 3]]) (2, 0))) ∧
  shiperator it_views (QTuple [QView 2; QTuple [QView 0; QNot true 4; QNot true 3]]) = Panic.
Proof.
  split; [|by vm_compute]. destruct it_reach as [t H]. exists t. split; [done|].
  pose proof (reach_WR _ _ _ _ _ H) as [HW _].
  assert (∀ i v, ss_get (store_or_new it_kind (w_stores it_world) i) (2, 0) = Ok v -> r_val <$> t_cell t (2, 0) i = v) as HC.
  { intros i v E. destruct (WR_shows _ _ _ (2, 0) HW ltac:(done) i) as (E' & _). rewrite E in E'. by injection E'. }
  unfold meant. cbn [denote fmap list_fmap all_some].
  assert (r_val <$> t_cell t (2, 0) 2 = Some 32) as H2 by (apply HC; vm_compute; reflexivity).
  assert (r_val <$> t_cell t (2, 0) 0 = Some 30) as H0 by (apply HC; vm_compute; reflexivity).
  assert (r_val <$> t_cell t (2, 0) 4 = None) as H4 by (apply HC; vm_compute; reflexivity).
  assert (r_val <$> t_cell t (2, 0) 3 = None) as H3 by (apply HC; vm_compute; reflexivity).
  apply fmap_Some in H2 as (r2 & -> & _). apply fmap_Some in H0 as (r0 & -> & _).
  apply fmap_None in H4 as ->. apply fmap_None in H3 as ->. by eexists.
Qed.
(** [(&a | &b).iter()] when nobody has a [b]: [for_each] is right, but a [for] loop reads the first
    element of the empty storage (finding 3). *)
Theorem C48_empty_refuted :
  allowed it_kind (QOr (QView 0) (QView 3)) ∧ (∃ t, reach it_kind it_ops it_world (answers_of it_kind it_ops) t) ∧
  ∃ it, shiperator it_views (QOr (QView 0) (QView 3)) = Ok it ∧
    it_fold it = Ok [OOne (ORef 0 0 10); OOne (ORef 0 1 30); OOne (ORef 0 2 50)] ∧
    play [false; false; false; false] it = Ub.
Proof.
  split; [by vm_compute|]. split; [exact it_reach|]. eexists. split; [vm_compute; reflexivity|].
  split; vm_compute; reflexivity.
Qed.
(** [&a | (&b | &c)] does not yield those who have only [c] (finding 34). *)
Theorem C48_nested_refuted :
  (∃ t, reach it_kind it_ops it_world (answers_of it_kind it_ops) t) ∧
  ss_get (store_or_new it_kind (w_stores it_world) 2) (3, 0) = Ok (Some 43) ∧
  (rlet it := shiperator it_views (QOr (QView 0) (QOr (QView 1) (QView 2))) in it_fold it)
    = Ok [OOne (ORef 0 0 10); OOne (ORef 0 1 30); OOne (ORef 0 2 50); OTwo (OOne (ORef 1 1 21))].
Proof. split; [exact it_reach|]. split; vm_compute; reflexivity. Qed.
(** [&a | !&b] yields nobody as Two: the second slice is the storage of [b] (finding 34). *)
Theorem C48_not_refuted :
  (∃ t, reach it_kind it_ops it_world (answers_of it_kind it_ops) t) ∧
  ss_get (store_or_new it_kind (w_stores it_world) 0) (1, 0) = Ok None ∧
  ss_get (store_or_new it_kind (w_stores it_world) 2) (1, 0) = Ok None ∧
  is_alive (w_ents it_world) (1, 0) = true ∧
  (rlet it := shiperator it_views (QOr (QView 0) (QNot false 2)) in it_fold it)
    = Ok [OOne (ORef 0 0 10); OOne (ORef 0 1 30); OOne (ORef 0 2 50)].
Proof. split; [exact it_reach|]. split_and!; vm_compute; reflexivity. Qed.
(** [(&a | ids, &c)] yields as Two who is not in [ids]: an or-expression claims that it can be looked
    up by id (finding 34). *)
Theorem C48_ids_refuted :
  (∃ t, reach it_kind it_ops it_world (answers_of it_kind it_ops) t) ∧
  (rlet it := shiperator it_views (QTuple [QOr (QView 0) (QIds [(1, 0)]); QView 2]) in it_fold it)
    = Ok [OTup [OOne (ORef 0 1 30); ORef 2 0 32]; OTup [OTwo (OId (3, 0)); ORef 2 1 43]].
Proof. split; [exact it_reach|]. vm_compute; reflexivity. Qed.
(** [(&mut a | &b).iter().with_id().for_each()]: the second slice is looked up in [a]; some are visited
    twice (with the same exclusive reference) and those with only [b] not at all (finding 34). *)
Theorem C48_with_id_refuted :
  (∃ t, reach it_kind it_ops it_world (answers_of it_kind it_ops) t) ∧
  allowed it_kind (QOr (QMut 0) (QView 1)) ∧
  ∃ it, shiperator it_views (QOr (QMut 0) (QView 1)) = Ok it ∧
    it_fold it = Ok [OOne (ORef 0 0 10); OOne (ORef 0 1 30); OOne (ORef 0 2 50); OTwo (ORef 1 1 21)] ∧
    wi_fold it = Ok [((0, 0), OOne (ORef 0 0 10)); ((2, 0), OOne (ORef 0 1 30)); ((4, 0), OOne (ORef 0 2 50));
                     ((0, 0), OOne (ORef 0 0 10)); ((2, 0), OOne (ORef 0 1 30))].
Proof.
  split; [exact it_reach|]. split; [by vm_compute|]. eexists. split; [vm_compute; reflexivity|].
  split; vm_compute; reflexivity.
Qed.
(** [with_id] from the back: the first answer reads past the end of the storage (finding 35)... *)
Theorem C49_with_id_back_refuted :
  (∃ t, reach it_kind it_ops it_world (answers_of it_kind it_ops) t) ∧
  ∃ it, shiperator it_views (QView 0) = Ok it ∧ wi_next_back it = Ub.
Proof.
  split; [exact it_reach|]. eexists. split; [vm_compute; reflexivity|]. vm_compute. reflexivity.
Qed.
(** ... and when it does not, the id is that of another entity: here the last entity of the storage
    does not have the second component. *)
Theorem C49_with_id_back_id_refuted :
  (∃ t, reach it_kind it_ops it_world (answers_of it_kind it_ops) t) ∧
  ss_get (store_or_new it_kind (w_stores it_world) 0) (4, 0) = Ok (Some 50) ∧
  ss_get (store_or_new it_kind (w_stores it_world) 1) (4, 0) = Ok None ∧
  ∃ it it', shiperator it_views (QTuple [QView 0; QView 1]) = Ok it ∧
    wi_next_back it = Ok (it', Some ((4, 0), OTup [ORef 0 1 30; ORef 1 2 31])).
Proof.
  split; [exact it_reach|]. split; [vm_compute; reflexivity|]. split; [vm_compute; reflexivity|].
  eexists _, _. split; [vm_compute; reflexivity|]. vm_compute. reflexivity.
Qed.
(** From the back, an or-expression still visits its first slice first: rfold is not the reverse of
    fold (finding 35). *)
Theorem C49_or_back_refuted :
  (∃ t, reach it_kind it_ops it_world (answers_of it_kind it_ops) t) ∧ allowed it_kind (QOr (QView 0) (QView 1)) ∧
  ∃ it L, shiperator it_views (QOr (QView 0) (QView 1)) = Ok it ∧ it_fold it = Ok L ∧ it_rfold it ≠ Ok (reverse L).
Proof.
  split; [exact it_reach|]. split; [by vm_compute|]. eexists _, _. split; [vm_compute; reflexivity|].
  split; [vm_compute; reflexivity|]. vm_compute. intros E. discriminate E.
Qed.
(** Splitting an or-expression visits an entity twice (finding 5).  Latent: Or is not Clone, so that
    par_iter is not available for it. *)
Theorem C50_or_refuted :
  (∃ t, reach it_kind it_ops it_world (answers_of it_kind it_ops) t) ∧ allowed it_kind (QOr (QView 2) (QView 1)) ∧
  ∃ it a b, shiperator it_views (QOr (QView 2) (QView 1)) = Ok it ∧ it_split it = Ok (a, Some b) ∧
    it_fold it = Ok [OOne (ORef 2 0 32); OOne (ORef 2 1 43); OTwo (ORef 1 0 11); OTwo (ORef 1 1 21)] ∧
    it_fold a = Ok [OOne (ORef 2 0 32); OTwo (ORef 1 0 11)] ∧
    it_fold b = Ok [OOne (ORef 2 1 43); OTwo (ORef 1 0 11); OTwo (ORef 1 1 21)].
Proof.
  split; [exact it_reach|]. split; [by vm_compute|]. eexists _, _, _. split; [vm_compute; reflexivity|].
  split; [vm_compute; reflexivity|]. split_and!; vm_compute; reflexivity.
Qed.

Print Assumptions C46_tuple.
Print Assumptions C46_ids_refuted.
Print Assumptions C47_filters_partial.
Print Assumptions C47_nested_refuted.
Print Assumptions C48_or_partial.
Print Assumptions C48_empty_refuted.
Print Assumptions C48_nested_refuted.
Print Assumptions C48_not_refuted.
Print Assumptions C48_ids_refuted.
Print Assumptions C48_with_id_refuted.
Print Assumptions C49_styles_partial.
Print Assumptions C49_size_hint.
Print Assumptions C49_with_id_back_refuted.
Print Assumptions C49_with_id_back_id_refuted.
Print Assumptions C49_or_back_refuted.
Print Assumptions C50_split.
Print Assumptions C50_or_refuted.
