(** Property C18: bulk insertion. *)
From stdpp Require Import prelude list gmap.
From Coq Require Import NArith Lia.
From Verif Require Import EntityId EntityIdProofs Base Entities EntitiesSpec EntitiesProofs EntitiesHistory.
From Verif Require Import SparseSet Track SparseSetSpec SparseSetProofs SparseSetProofs2 SparseSetHistory.
From Verif Require Import World WorldSpec WorldProofs WorldProofs2 PropsWorld Views ViewsProofs PropsViews Bulk BulkProofs.
Open Scope N_scope.

Section props.
Context {V : Type} (kind : N -> tracking).
Implicit Types (w : world V) (t : table V).
Notation store w i := (store_or_new kind (w_stores w) i).
Notation len w := (lenN (e_data (w_ents w))).

(** Worlds reached by any history of the world operations and of bulk insertions. *)
Inductive b_reach : world V -> table V -> Prop :=
| BNew : b_reach w_new t_init
| BOps w t ops w' evs t' : b_reach w t -> w_history kind w ops -> w_run kind w ops = Ok (w', evs) ->
    t_run t ops evs t' -> b_reach w' t'
| BOne w t i vs w' ids : b_reach w t -> vs ≠ [] -> len w + lenN vs < max_idx ->
    w_bulk_one kind w i vs = Ok (w', ids) ->
    b_reach w' (t_bulk t (len w) ((λ v, {[i := Row v (t_now t) 0]}) <$> vs) (t_now t + 1))
| BTuple w t is rows w' ids : b_reach w t -> is ≠ [] -> NoDup is -> rows ≠ [] ->
    Forall (λ r, length r = length is) rows -> len w + lenN rows < max_idx ->
    w_bulk_tuple kind w is rows = Ok (w', ids) ->
    b_reach w' (t_bulk t (len w) (tuple_row is <$> rows) (t_now t))
| BUnit w t n w' ids : b_reach w t -> len w + N.of_nat n < max_idx -> w_bulk_unit w n n = Ok (w', ids) ->
    b_reach w' (t_bulk t (len w) (replicate n ∅) (t_now t))
| BView w t is rows w' ids : b_reach w t -> len w + lenN rows < max_idx ->
    w_bulk_view kind w is (length rows) rows = Ok (w', ids) ->
    b_reach w' (t_bulk t (len w) (view_row (t_now t) is <$> rows) (t_now t + 1)).

(** Every live entity was issued. *)
Definition live_issued t : Prop := ∀ e, is_Some (t_rows t !! e) -> e ∈ t_issued t.
Lemma live_issued_step t o ev t' : t_step t o ev t' -> live_issued t -> live_issued t'.
Proof.
  intros St H. unfold live_issued in *. inversion St; subst; cbn [t_rows t_issued set_rows]; try exact H; intros x Hx;
    try (apply H; revert Hx; rewrite lookup_alter_is_Some; exact id);
    try (apply H; revert Hx; rewrite map_lookup_imap; destruct (t_rows t !! x); [by eexists|intros [? ?]; done]).
  - apply elem_of_app. destruct (decide (x = h)) as [->|Hne]; [right; left|]. left. apply H.
    by rewrite lookup_insert_ne in Hx.
  - apply H. destruct (decide (x = e)) as [->|Hne]; [by eexists|]. by rewrite lookup_insert_ne in Hx.
  - apply H. destruct Hx as [y Hy]. apply lookup_delete_Some in Hy as [_ Hy]. by eexists.
  - rewrite lookup_empty in Hx. by destruct Hx.
  - apply elem_of_app. destruct (decide (x = e)) as [->|Hne]; [right; left|]. left. apply H.
    by rewrite lookup_insert_ne in Hx.
  - apply H. destruct Hx as [y Hy]. apply map_filter_lookup_Some in Hy as [Hy _]. by eexists.
Qed.
Lemma live_issued_run ops : ∀ t evs t', t_run t ops evs t' -> live_issued t -> live_issued t'.
Proof.
  induction ops as [|o ops IH]; intros t evs t' R H; inversion R; subst; [done|].
  eapply IH; [done|]. by eapply live_issued_step.
Qed.
Lemma live_issued_bulk t start rows now : live_issued t -> live_issued (t_bulk t start rows now).
Proof.
  intros H e. rewrite t_bulk_row. cbn [t_issued t_bulk]. rewrite elem_of_app.
  destruct (new_cell start rows e) eqn:E; cbn.
  - intros _. right. apply (new_cell_elem start rows e). by rewrite E.
  - intros He. left. by apply H.
Qed.

Notation WR0 := (WR kind (λ _, 0) (λ _, 0)).
Lemma ids_ok start n : start + N.of_nat n < max_idx -> Forall handle_ok (new_ids start n).
Proof.
  intros H. apply Forall_forall. intros e. rewrite new_ids_fresh, a_fresh_elem. intros [He Hg].
  split; [unfold max_idx in H; lia|]. by rewrite Hg.
Qed.
Lemma b_WR w t : b_reach w t -> WR0 w t ∧ Forall handle_ok (t_issued t) ∧ live_issued t.
Proof.
  induction 1 as [|w t ops w' evs t' R (IH & Hok & Hiss) Hh E Rt|w t i vs w' ids R (IH & Hok & Hiss) Hvs Hcap E
    |w t is rows w' ids R (IH & Hok & Hiss) H1 H2 H3 H4 Hcap E|w t n w' ids R (IH & Hok & Hiss) Hcap E
    |w t is rows w' ids R (IH & Hok & Hiss) Hcap E].
  - split; [apply WR_init|]. split; [by apply Forall_nil|]. intros e [x Hx]. cbn in Hx. by rewrite lookup_empty in Hx.
  - destruct (run_WR _ _ _ ops w t IH Hh Hok) as (w1 & evs1 & t1 & E1 & R1 & A & B).
    rewrite E in E1. injection E1 as <- <-. rewrite (t_run_det _ _ _ _ _ Rt R1). split_and!; [done|done|]. by eapply live_issued_run.
  - destruct (bulk_one_WR kind _ _ w t i vs IH Hvs Hcap) as (w1 & E1 & _ & _ & _ & A).
    rewrite E in E1. injection E1 as -> ->. split; [done|]. split; [|by apply live_issued_bulk]. cbn [t_issued t_bulk]. apply Forall_app. split; [done|].
    rewrite fmap_length. by apply ids_ok.
  - destruct (bulk_tuple_WR kind _ _ w t is rows IH H1 H2 H3 H4 Hcap) as (w1 & E1 & _ & _ & A).
    rewrite E in E1. injection E1 as -> ->. split; [done|]. split; [|by apply live_issued_bulk]. cbn [t_issued t_bulk]. apply Forall_app. split; [done|].
    rewrite fmap_length. by apply ids_ok.
  - destruct (bulk_unit_WR kind _ _ w t n IH Hcap) as (w1 & E1 & _ & A).
    rewrite E in E1. injection E1 as -> ->. split; [done|]. split; [|by apply live_issued_bulk]. cbn [t_issued t_bulk]. apply Forall_app. split; [done|].
    rewrite replicate_length. by apply ids_ok.
  - destruct (bulk_view_WR kind _ _ w t is rows IH Hcap) as (w1 & E1 & _ & A).
    rewrite E in E1. injection E1 as -> ->. split; [done|]. split; [|by apply live_issued_bulk]. cbn [t_issued t_bulk]. apply Forall_app. split; [done|].
    rewrite fmap_length. by apply ids_ok.
Qed.

(** What [w'] shows of the handles [ids] is [cells k], and nothing changed for the entities that
    existed before. *)
Definition added w t w' (ids : list eid) (cells : nat -> N -> option (row V)) : Prop :=
  (∀ k h, ids !! k = Some h ->
     h ∉ t_issued t ∧ is_alive (w_ents w) h = false ∧ is_alive (w_ents w') h = true ∧ shows kind w' h (cells k)) ∧
  NoDup ids ∧
  (∀ e, e ∉ ids -> gen e < U16_MAX -> same_for kind w w' e).

Lemma bulk_added w t w' rows now :
  WR0 w t -> WR0 w' (t_bulk t (len w) rows now) ->
  (∀ h, h ∈ new_ids (len w) (length rows) -> h ∉ t_issued t) ->
  added w t w' (new_ids (len w) (length rows)) (λ k j, rows !! k ≫= (.!! j)).
Proof.
  intros H H' Hnew. split; [|split].
  - intros k h Hk. assert (k < length rows)%nat as Hlt.
    { apply lookup_lt_Some in Hk. by rewrite new_ids_fresh, a_fresh_length in Hk. }
    assert (h = (len w + N.of_nat k, 0)) as ->.
    { rewrite new_ids_lookup in Hk by done. by injection Hk. }
    destruct (lookup_lt_is_Some_2 _ _ Hlt) as [r Hr].
    assert (t_rows (t_bulk t (len w) rows now) !! (len w + N.of_nat k, 0) = Some r) as Hrow.
    { rewrite t_bulk_row. by rewrite (new_cell_new _ _ _ _ Hr). }
    split; [apply Hnew; by eapply elem_of_list_lookup_2|]. split; [|split].
    + apply not_true_iff_false. unfold is_alive. rewrite getN_ge by (cbn; lia). done.
    + apply (WR_live kind w' _ _ H'). by rewrite Hrow.
    + intros j. rewrite Hr. cbn.
      pose proof (WR_shows kind w' _ (len w + N.of_nat k, 0) H' ltac:(done) j) as Hs. unfold t_cell in Hs.
      rewrite Hrow in Hs. exact Hs.
  - rewrite new_ids_fresh. apply NoDup_alt. intros i j x. rewrite !a_fresh_lookup.
    destruct (decide (i < length rows)%nat), (decide (j < length rows)%nat); try done. intros [= <-] [= E]. lia.
  - intros e He Hg. apply (WR_same kind _ _ _ _ e H H' Hg). rewrite t_bulk_row.
    destruct (new_cell (len w) rows e) as [r|] eqn:Er; [|done]. exfalso. apply He. apply (new_cell_elem _ rows).
    by rewrite Er.
Qed.

(** Components of one type: every item becomes a new entity, in the order of the iterator (also in
    the dense vector), owning exactly its component, reported as inserted at the time of the call
    and not as modified.  The returned handles are those of the items.
    Missing: an iterator without items (C18_empty_refuted). *)
Theorem C18_one_partial w t i vs :
  b_reach w t -> vs ≠ [] -> len w + lenN vs < max_idx ->
  ∃ w' ids, w_bulk_one kind w i vs = Ok (w', ids) ∧ length ids = length vs ∧
    ss_dense (store w' i) = ss_dense (store w i) ++ ids ∧ ss_data (store w' i) = ss_data (store w i) ++ vs ∧
    added w t w' ids (λ k j, if decide (j = i) then (λ v, Row v (w_counter w) 0) <$> vs !! k else None).
Proof.
  intros R Hvs Hcap. destruct (b_WR w t R) as (H & _).
  destruct (bulk_one_WR kind _ _ w t i vs H Hvs Hcap) as (w' & E & Hd & Hdt & Hnew & H').
  exists w', (new_ids (len w) (length vs)). split; [done|]. split; [by rewrite new_ids_fresh, a_fresh_length|].
  split; [done|]. split; [done|].
  pose proof (bulk_added w t w' _ _ H H') as Ha. rewrite fmap_length in Ha.
  destruct (Ha Hnew) as (A & B & C). split; [|by split].
  intros k h Hk. destruct (A k h Hk) as (A1 & A2 & A3 & A4). split_and!; try done.
  intros j. specialize (A4 j). rewrite list_lookup_fmap in A4. rewrite (wr_now _ _ _ _ _ H).
  destruct (vs !! k) as [v|]; cbn in *.
  - destruct (decide (j = i)) as [->|Hj]; [by rewrite lookup_singleton in A4|].
    by rewrite lookup_singleton_ne in A4.
  - destruct (decide (j = i)); exact A4.
Qed.

(** Tuples of components: the same, but the stamps are 0 (C18_tuple_refuted). *)
Theorem C18_tuple_partial w t is rows :
  b_reach w t -> is ≠ [] -> NoDup is -> rows ≠ [] -> Forall (λ r, length r = length is) rows ->
  len w + lenN rows < max_idx ->
  ∃ w' ids, w_bulk_tuple kind w is rows = Ok (w', ids) ∧ length ids = length rows ∧
    (∀ i, i ∈ is -> ss_dense (store w' i) = ss_dense (store w i) ++ ids) ∧
    added w t w' ids (λ k j, rows !! k ≫= λ r, (list_to_map (zip is ((λ v, Row v 0 0) <$> r)) : gmap N _) !! j).
Proof.
  intros R H1 H2 H3 H4 Hcap. destruct (b_WR w t R) as (H & _).
  destruct (bulk_tuple_WR kind _ _ w t is rows H H1 H2 H3 H4 Hcap) as (w' & E & Hd & Hnew & H').
  exists w', (new_ids (len w) (length rows)). split; [done|]. split; [by rewrite new_ids_fresh, a_fresh_length|].
  split; [done|].
  pose proof (bulk_added w t w' _ _ H H') as Ha. rewrite fmap_length in Ha.
  destruct (Ha Hnew) as (A & B & C). split; [|by split].
  intros k h Hk. destruct (A k h Hk) as (A1 & A2 & A3 & A4). split_and!; try done.
  intros j. specialize (A4 j). rewrite list_lookup_fmap in A4. by destruct (rows !! k).
Qed.

(** Entities without components, when the size hint is exact. *)
Theorem C18_unit_partial w t n :
  b_reach w t -> len w + N.of_nat n < max_idx ->
  ∃ w' ids, w_bulk_unit w n n = Ok (w', ids) ∧ length ids = n ∧ added w t w' ids (λ _ _, None).
Proof.
  intros R Hcap. destruct (b_WR w t R) as (H & _).
  destruct (bulk_unit_WR kind _ _ w t n H Hcap) as (w' & E & Hnew & H').
  exists w', (new_ids (len w) n). split; [done|]. split; [by rewrite new_ids_fresh, a_fresh_length|].
  pose proof (bulk_added w t w' _ _ H H') as Ha. rewrite replicate_length in Ha.
  destruct (Ha Hnew) as (A & B & C). split; [|by split].
  intros k h Hk. destruct (A k h Hk) as (A1 & A2 & A3 & A4). split_and!; try done.
  intros j. specialize (A4 j). destruct (replicate n (∅ : gmap N (row V)) !! k) as [r|] eqn:Er; cbn in A4; [|exact A4].
  apply lookup_replicate in Er as [-> _]. by rewrite lookup_empty in A4.
Qed.

(** Through views, when the size hint is exact: each item becomes a new entity with the components of
    the item, reported as inserted at the time of the views. *)
Theorem C18_view_partial w t is rows :
  b_reach w t -> Forall (λ r, length r = length is) rows -> NoDup is -> len w + lenN rows < max_idx ->
  ∃ w' ids, w_bulk_view kind w is (length rows) rows = Ok (w', ids) ∧ length ids = length rows ∧
    added w t w' ids (λ k j, rows !! k ≫= λ r,
      (λ v, Row v (w_counter w) 0) <$> (list_to_map (zip is r) : gmap N V) !! j).
Proof.
  intros R H1 H2 Hcap. destruct (b_WR w t R) as (H & _).
  destruct (bulk_view_WR kind _ _ w t is rows H Hcap) as (w' & E & Hnew & H').
  exists w', (new_ids (len w) (length rows)). split; [done|]. split; [by rewrite new_ids_fresh, a_fresh_length|].
  pose proof (bulk_added w t w' _ _ H H') as Ha. rewrite fmap_length in Ha.
  destruct (Ha Hnew) as (A & B & C). split; [|by split].
  intros k h Hk. destruct (A k h Hk) as (A1 & A2 & A3 & A4). split_and!; try done.
  intros j. specialize (A4 j). rewrite list_lookup_fmap in A4. destruct (rows !! k) as [r|] eqn:Er; [|done].
  cbn in A4 |- *. rewrite view_row_lookup in A4; [|done]. by rewrite (wr_now _ _ _ _ _ H).
Qed.

(** An iterator without items panics, whatever the world. *)
Theorem C18_empty_refuted w t i is :
  b_reach w t -> w_bulk_one kind w i [] = Panic ∧ w_bulk_tuple kind w is [] = Panic.
Proof.
  intros R. destruct (b_WR w t R) as (H & _).
  assert (∀ (s : sset V), ss_bulk s [] [] (w_counter w) origin = Panic ∧ ss_bulk s [] [] 0 0 = Panic) as Hb.
  { intros s. unfold ss_bulk. rewrite app_nil_r, getN_ge by lia. done. }
  assert (∀ j, length (ss_data (store w j) ++ []) - length (ss_dense (store w j)) = 0)%nat as Hl.
  { intros j. rewrite app_nil_r. destruct (wr_stores _ _ _ _ _ H j) as (a & HR & _).
    pose proof (si_data _ (sr_inv _ _ HR)) as Hd. unfold lenN in Hd. lia. }
  split.
  - unfold w_bulk_one. rewrite Hl. unfold bulk_generate. case_match; [|done].
    cbn [rbind]. change (new_ids _ 0) with (@nil eid). by rewrite (proj1 (Hb _)).
  - unfold w_bulk_tuple. destruct is as [|j is]; [done|]. destruct (decide (NoDup (j :: is))); [|done].
    change (omap _ []) with (@nil V). rewrite Hl. unfold bulk_generate. case_match; [|done].
    cbn [rbind bulk_columns]. change (new_ids _ 0) with (@nil eid). change (omap _ []) with (@nil V).
    by rewrite (proj2 (Hb _)).
Qed.

(** ** One at a time *)
Definition one_by_one (i : N) (vs : list V) : list (wop V) := (λ v, WAddEntity [(i, v)]) <$> vs.

Lemma t_one_by_one i vs : ∀ t evs t', t_run t (one_by_one i vs) evs t' -> live_issued t ->
  t_now t' = t_now t + lenN vs ∧
  (∀ e r, t_rows t !! e = Some r -> t_rows t' !! e = Some r) ∧
  ∀ k v, vs !! k = Some v -> ∃ h, evs !! k = Some (WId h) ∧ t_rows t !! h = None ∧
    t_rows t' !! h = Some {[i := Row v (t_now t + N.of_nat k) 0]}.
Proof.
  induction vs as [|v vs IH]; intros t evs t' R Hiss; cbn in R.
  { inversion R; subst. split_and!; try done. unfold lenN. cbn. lia. }
  inversion R as [|? ? ev t1 ? evs1 ? St R1]; subst.
  destruct (IH _ _ _ R1 (live_issued_step _ _ _ _ St Hiss)) as (N1 & K1 & A1).
  inversion St as [cs h Hh| | | | | | | | | | | | | | | |]; subst. cbn in K1, N1, A1.
  assert (t_rows t !! h = None) as Hn.
  { destruct (t_rows t !! h) eqn:E; [|done]. exfalso. apply Hh, Hiss. by rewrite E. }
  split_and!.
  - rewrite N1, lenN_cons. lia.
  - intros e r He. apply K1. rewrite lookup_insert_ne; [done|]. intros ->. congruence.
  - intros [|k] v' Hk; cbn in Hk.
    + injection Hk as <-. exists h. split; [done|]. split; [done|]. cbn. rewrite N.add_0_r.
      apply K1. rewrite lookup_insert. done.
    + destruct (A1 k v' Hk) as (h' & E & Hn' & Hr). exists h'. split; [done|]. split.
      * destruct (decide (h' = h)) as [->|Hne]; [done|]. by rewrite lookup_insert_ne in Hn'.
      * rewrite Hr. do 3 f_equal. lia.
Qed.

(** The world after a bulk insertion and the world after adding the same items one at a time: the
    new entities have the same component, and any view whose window starts before the first call and
    reaches past the last one reports the same marks (inserted, not modified). *)
Theorem C18_same_as_one_by_one w t i vs w1 ids w2 evs :
  b_reach w t -> vs ≠ [] -> len w + lenN vs < max_idx ->
  w_bulk_one kind w i vs = Ok (w1, ids) ->
  w_history kind w (one_by_one i vs) -> w_run kind w (one_by_one i vs) = Ok (w2, evs) ->
  ∀ k v, vs !! k = Some v -> ∃ b h, ids !! k = Some b ∧ evs !! k = Some (WId h) ∧
    is_alive (w_ents w) b = false ∧ is_alive (w_ents w) h = false ∧
    is_alive (w_ents w1) b = true ∧ is_alive (w_ents w2) h = true ∧
    ∀ j, ss_get (store w1 j) b = Ok (if decide (j = i) then Some v else None) ∧
         ss_get (store w2 j) h = ss_get (store w1 j) b ∧
         (k_track_insertion (kind j) = true -> ∀ l u, l < w_counter w -> w_counter w2 <= u ->
            is_inserted (store w1 j) b l u = Ok (bool_decide (j = i)) ∧
            is_inserted (store w2 j) h l u = Ok (bool_decide (j = i))) ∧
         (k_track_modification (kind j) = true -> ∀ l u,
            is_modified (store w1 j) b l u = Ok false ∧ is_modified (store w2 j) h l u = Ok false).
Proof.
  intros R Hvs Hcap E1 Hh E2 k v Hk. destruct (b_WR w t R) as (H & Hok & Hiss).
  destruct (C18_one_partial w t i vs R Hvs Hcap) as (w1' & ids' & E1' & Hl & _ & _ & A & _ & _).
  rewrite E1 in E1'. injection E1' as <- <-.
  destruct (run_WR _ _ _ _ w t H Hh Hok) as (w2' & evs' & t2 & E2' & R2 & H2 & _).
  rewrite E2 in E2'. injection E2' as <- <-.
  destruct (t_one_by_one i vs t evs t2 R2 Hiss) as (N2 & _ & B).
  destruct (B k v Hk) as (h & Eh & Hnone & Hrow).
  destruct (lookup_lt_is_Some_2 ids k) as [b Eb]; [rewrite Hl; by eapply lookup_lt_Some|].
  destruct (A k b Eb) as (_ & A2 & A3 & A4).
  assert (is_Some (t_rows t2 !! h)) as Hlive by (by rewrite Hrow).
  pose proof (WR_row_gen kind w2 t2 h H2 Hlive) as Hgh.
  exists b, h. split; [done|]. split; [done|]. split; [done|]. split.
  { apply not_true_iff_false. intros Hc%(WR_live kind w t h H). rewrite Hnone in Hc. by destruct Hc. }
  split; [done|]. split; [by apply (WR_live kind w2 t2 h H2)|].
  intros j. destruct (A4 j) as (G1 & I1 & M1). destruct (WR_shows kind w2 t2 h H2 Hgh j) as (G2 & I2 & M2).
  assert (t_cell t2 h j = if decide (j = i) then Some (Row v (t_now t + N.of_nat k) 0) else None) as Ec.
  { unfold t_cell. rewrite Hrow. cbn. destruct (decide (j = i)) as [->|]; [by rewrite lookup_singleton|].
    by rewrite lookup_singleton_ne. }
  rewrite Ec in G2, I2, M2. rewrite Hk in G1, I1, M1. cbn [fmap option_fmap option_map] in *.
  assert (N.of_nat k < lenN vs) as Hlt.
  { apply lookup_lt_Some in Hk. unfold lenN. lia. }
  pose proof (wr_now _ _ _ _ _ H) as Hw. pose proof (wr_now _ _ _ _ _ H2) as Hw2.
  clear - G1 G2 I1 I2 M1 M2 Hlt Hw Hw2 N2.
  destruct (decide (j = i)) as [->|Hj]; cbn [fmap option_fmap option_map r_val r_ins r_mod] in *.
  - rewrite bool_decide_true by done. split; [done|]. split; [congruence|]. split.
    + intros Ht l u Hlw Hu. rewrite (I1 Ht), (I2 Ht). unfold is_within.
      assert (l <? w_counter w = true) as -> by (apply N.ltb_lt; lia).
      assert (w_counter w <=? u = true) as -> by (apply N.leb_le; lia).
      assert (l <? t_now t + N.of_nat k = true) as -> by (apply N.ltb_lt; lia).
      assert (t_now t + N.of_nat k <=? u = true) as -> by (apply N.leb_le; lia). done.
    + intros Ht l u. rewrite (M1 Ht), (M2 Ht). unfold is_within.
      assert (l <? 0 = false) as -> by (apply N.ltb_ge; lia). done.
  - rewrite bool_decide_false by done. split; [done|]. split; [congruence|]. split.
    + intros Ht l u Hlw Hu. rewrite (I1 Ht), (I2 Ht). done.
    + intros Ht l u. rewrite (M1 Ht), (M2 Ht). done.
Qed.
End props.

(** ** Where it fails *)

(** A bulk insertion of tuples stamps the components with 0: a view borrowed just after does not
    report them as inserted; adding the same tuple with add_entity does. *)
Theorem C18_tuple_refuted :
  ∃ (kind : N -> tracking) w1 w2 ids evs,
    w_bulk_tuple kind w_new [0; 1] [[10; 11]] = Ok (w1, ids) ∧ ids = [(0, 0)] ∧
    w_run kind w_new [WAddEntity [(0, 10); (1, 11)]] = Ok (w2, evs) ∧ evs = [WId (0, 0)] ∧
    view_inserted kind w1 (0, 0) 0 None = Ok false ∧ view_inserted kind w2 (0, 0) 0 None = Ok true.
Proof.
  exists (λ _, TAll). do 4 eexists. split; [vm_compute; reflexivity|]. split; [done|].
  split; [vm_compute; reflexivity|]. split; [done|]. by split.
Qed.

(** Size hint 1, three items: the second one is dropped. *)
Theorem C18_hint_refuted :
  ∃ (kind : N -> tracking) (w' : world N) ids,
    w_bulk_view kind w_new [0] 1 [[10]; [11]; [12]] = Ok (w', ids) ∧
    ids = [(0, 0); (1, 0)] ∧
    ss_get (store_or_new kind (w_stores w') 0) (0, 0) = Ok (Some 10) ∧
    ss_get (store_or_new kind (w_stores w') 0) (1, 0) = Ok (Some 12) ∧
    ss_data (store_or_new kind (w_stores w') 0) = [10; 12].
Proof. exists (λ _, TAll). do 2 eexists. split; [vm_compute; reflexivity|]. by split_and!. Qed.

(** Size hint 0 after a deletion: the recycled entity gets a component but is not returned. *)
Theorem C18_recycled_refuted :
  ∃ (kind : N -> tracking) (w' w2 : world N) ids ids2,
    let w := world_of kind [WAddEntity [(0, 1)]; WDeleteEntity (0, 0) [0]] in
    w_bulk_view kind w [0] 0 [[10]; [11]; [12]] = Ok (w', ids) ∧ ids = [(1, 0)] ∧
    ss_dense (store_or_new kind (w_stores w') 0) = [(0, 1); (1, 0)] ∧
    w_bulk_unit w 0 2 = Ok (w2, ids2) ∧ ids2 = [(1, 0)] ∧
    is_alive (w_ents w2) (0, 1) = true ∧ is_alive (w_ents w) (0, 1) = false.
Proof. exists (λ _, TAll). do 4 eexists. cbn zeta. split; [vm_compute; reflexivity|]. vm_compute. by split_and!. Qed.

(** The iterator panics after it gave one item, the panic is caught: the storage goes on with the
    component but without its entity, and the next entity to get a component shows the wrong one. *)
Theorem C18_interrupted_refuted :
  ∃ (s s' : sset N), s = ss_bulk_interrupted (ss_new false false false false) [10] ∧
    (∃ o, ss_insert s (0, 0) 20 1 = Ok (s', o)) ∧ ss_get s' (0, 0) = Ok (Some 10).
Proof. do 2 eexists. split; [reflexivity|]. split; [eexists; vm_compute; reflexivity|]. by vm_compute. Qed.

(** The same, then a bulk insertion of a tuple with that storage first: it makes one entity for every
    component without one, the second storage gets more entities than components, and a get through a
    view reads past its end (finding 51). *)
Theorem C18_interrupted_ub_refuted :
  ∃ (kind : N -> tracking) (w' : world N) ids s1,
    let w := World e_new {[ 0 := ss_bulk_interrupted (ss_new false false false false) [10] ]} 1 in
    w_bulk_tuple kind w [0; 1] [[20; 21]] = Ok (w', ids) ∧ ids = [(0, 0); (1, 0)] ∧
    w_stores w' !! 1 = Some s1 ∧ ss_get s1 (0, 0) = Ok (Some 21) ∧ ss_get s1 (1, 0) = Ub.
Proof.
  exists (λ _, Nothing). do 3 eexists. cbn zeta. split; [vm_compute; reflexivity|]. split; [done|].
  split; [vm_compute; reflexivity|]. split; vm_compute; reflexivity.
Qed.

(** ** Cases meeting the hypotheses *)
Lemma b_concrete (k : N -> tracking) (ops : list (wop N)) :
  history_b k w_new ops = true -> ∃ t, b_reach k (world_of k ops) t.
Proof.
  intros (t & (Hh & R & E) & _)%reach_concrete. exists t. eapply (BOps k w_new t_init); [apply BNew| | |]; done.
Qed.

Example ex_C18 :
  let k := λ _ : N, TAll in
  let w := world_of k [WAddEntity [(0, 1)]; WAddEntity []; WDeleteEntity (0, 0) [0]] in
  (∃ t, b_reach k w t) ∧
  lenN (e_data (w_ents w)) + lenN [10; 11; 12] < max_idx ∧
  (∃ w' ids, w_bulk_one k w 0 [10; 11; 12] = Ok (w', ids) ∧ ids = [(2, 0); (3, 0); (4, 0)]) ∧
  NoDup [0; 1] ∧ Forall (λ r : list N, length r = length [0; 1]) [[10; 11]; [12; 13]] ∧
  (∃ w' ids, w_bulk_tuple k w [0; 1] [[10; 11]; [12; 13]] = Ok (w', ids) ∧ ids = [(2, 0); (3, 0)]) ∧
  (∃ w' ids, w_bulk_view k w [0; 1] 2 [[10; 11]; [12; 13]] = Ok (w', ids) ∧ ids = [(2, 0); (3, 0)]) ∧
  (∃ w' ids, w_bulk_unit w 2 2 = Ok (w', ids) ∧ ids = [(2, 0); (3, 0)]).
Proof.
  cbn zeta. split; [apply b_concrete; vm_compute; reflexivity|]. split; [vm_compute; reflexivity|].
  split; [do 2 eexists; split; vm_compute; reflexivity|].
  split; [repeat constructor; set_solver|]. split; [by repeat constructor|].
  split_and!; do 2 eexists; split; vm_compute; reflexivity.
Qed.
Example ex_C18_one_by_one :
  let k := λ _ : N, TAll in
  let w := world_of k [WAddEntity [(0, 1)]; WAddEntity []; WDeleteEntity (0, 0) [0]] in
  w_history k w (one_by_one 0 [10; 11; 12]) ∧
  ∃ w2 evs, w_run k w (one_by_one 0 [10; 11; 12]) = Ok (w2, evs) ∧ evs = [WId (0, 1); WId (2, 0); WId (3, 0)].
Proof.
  cbn zeta. split; [apply history_b_ok; vm_compute; reflexivity|]. do 2 eexists. split; vm_compute; reflexivity.
Qed.

Print Assumptions C18_one_partial.
Print Assumptions C18_tuple_partial.
Print Assumptions C18_unit_partial.
Print Assumptions C18_view_partial.
Print Assumptions C18_same_as_one_by_one.
Print Assumptions C18_empty_refuted.
Print Assumptions C18_tuple_refuted.
Print Assumptions C18_hint_refuted.
Print Assumptions C18_recycled_refuted.
Print Assumptions C18_interrupted_refuted.
Print Assumptions C18_interrupted_ub_refuted.
