(** The world model refines the table of WorldSpec.v: every operation. *)
From stdpp Require Import prelude list gmap.
From Coq Require Import NArith Lia.
From Verif Require Import EntityId EntityIdProofs Base Entities EntitiesSpec EntitiesProofs EntitiesHistory.
From Verif Require Import SparseSet Track SparseSetSpec SparseSetProofs SparseSetProofs2 SparseSetHistory.
From Verif Require Import World WorldSpec WorldProofs.
Open Scope N_scope.

Section world.
Context {V : Type} (kind : N -> tracking) (li lm : N -> N).
Implicit Types (w : world V) (m : gmap N (sset V)) (t : table V).
Implicit Types (c : eid -> N -> option (row V)) (r : gmap N (row V)).

Notation store_or_new := (store_or_new kind).

(** ** All storages *)
Definition stores_rel m c : Prop := ∀ i, store_rel (kind i) (li i) (lm i) (store_or_new m i) (λ e, c e i).

Lemma stores_ext m c c' : stores_rel m c -> (∀ e i, c e i = c' e i) -> stores_rel m c'.
Proof. intros H E i. eapply store_rel_ext; [apply H|]. intros e. apply E. Qed.
Lemma stores_missing m c i e : stores_rel m c -> m !! i = None -> c e i = None.
Proof.
  intros H E. specialize (H i). unfold World.store_or_new in H. rewrite E in H.
  by apply (store_rel_new_inv _ H).
Qed.
Lemma stores_some m c i s : stores_rel m c -> m !! i = Some s -> store_rel (kind i) (li i) (lm i) s (λ e, c e i).
Proof. intros H E. specialize (H i). unfold World.store_or_new in H. by rewrite E in H. Qed.
Lemma stores_set m c c' i s :
  stores_rel m c -> store_rel (kind i) (li i) (lm i) s (λ e, c' e i) -> (∀ e j, j ≠ i -> c' e j = c e j) ->
  stores_rel (<[i := s]> m) c'.
Proof.
  intros H Hs Ho j. unfold World.store_or_new. destruct (decide (j = i)) as [->|Hj].
  - by rewrite lookup_insert.
  - rewrite lookup_insert_ne by done. eapply store_rel_ext; [apply H|]. intros e. by rewrite Ho.
Qed.
Lemma stores_touch m c i : stores_rel m c -> stores_rel (<[i := store_or_new m i]> m) c.
Proof. intros H. by eapply stores_set; [exact H|apply H|]. Qed.

Definition at_row c (e : eid) r : eid -> N -> option (row V) :=
  λ x i, if decide (x = e) then r !! i else c x i.
Lemma at_row_at c e r i x : at_row c e r x i = at_ (λ e, c e i) e (r !! i) x.
Proof. unfold at_row, at_. by case_decide. Qed.
Lemma at_row_same c e r i : at_row c e r e i = r !! i.
Proof. unfold at_row. by rewrite decide_True. Qed.
Lemma at_row_other c e r x i : x ≠ e -> at_row c e r x i = c x i.
Proof. intros. unfold at_row. by rewrite decide_False. Qed.

Definition others_free c (e : eid) : Prop := ∀ x i, idx x = idx e -> x ≠ e -> c x i = None.
Definition older_free c (e : eid) : Prop := ∀ x i, idx x = idx e -> gen x < gen e -> c x i = None.

Lemma others_free_row c e r : others_free c e -> others_free (at_row c e r) e.
Proof. intros H x i Hi Hx. rewrite at_row_other by done. by apply H. Qed.
Lemma older_free_row c e r : older_free c e -> older_free (at_row c e r) e.
Proof. intros H x i Hi Hx. rewrite at_row_other by (intros ->; lia). by apply H. Qed.
Lemma older_none c e i : older_free c e -> none_older (λ e, c e i) e.
Proof. intros H x. apply H. Qed.

(** One storage changed at one entity. *)
Lemma stores_row m c e r r' i s :
  stores_rel m (at_row c e r) ->
  store_rel (kind i) (li i) (lm i) s (at_ (λ x, at_row c e r x i) e (r' !! i)) ->
  (∀ j, j ≠ i -> r' !! j = r !! j) ->
  stores_rel (<[i := s]> m) (at_row c e r').
Proof.
  intros H Hs Ho. eapply stores_set; [exact H| |].
  - eapply store_rel_ext; [exact Hs|]. intros x. rewrite at_row_at. unfold at_. case_decide; [done|].
    by rewrite at_row_other.
  - intros x j Hj. unfold at_row. case_decide; [by apply Ho|done].
Qed.

Lemma add_tuple_ok e cs now : ∀ m c r,
  stores_rel m (at_row c e r) -> handle_ok e -> others_free c e ->
  ∃ m', add_tuple kind m e cs now = Ok m' ∧ stores_rel m' (at_row c e (put_cells now r cs)).
Proof.
  induction cs as [|[i v] cs IH]; intros m c r H Hok Hfree; cbn [add_tuple].
  { by exists m. }
  destruct (store_insert _ _ e v now (H i) Hok) as (s' & x & -> & Hx & Hs).
  { intros e' Hi Hne. rewrite at_row_other by done. by apply Hfree. }
  cbn [rbind]. rewrite Hx.
  destruct (IH (<[i := s']> m) c (put_cell now r (i, v))) as (m' & E & H'); [|done|done|].
  - eapply stores_row; [exact H| |].
    + unfold put_cell. cbn. rewrite lookup_insert. rewrite at_row_same in Hs. exact Hs.
    + intros j Hj. unfold put_cell. cbn. by rewrite lookup_insert_ne.
  - exists m'. split; [exact E|]. exact H'.
Qed.

Lemma remove_tuple_ok e is now : ∀ m c r,
  stores_rel m (at_row c e r) -> gen e < U16_MAX -> older_free c e ->
  ∃ m', remove_tuple kind m e is now = Ok (m', (take_cells r is).2) ∧
        stores_rel m' (at_row c e (take_cells r is).1).
Proof.
  induction is as [|i is IH]; intros m c r H Hg Hfree; cbn [remove_tuple take_cells].
  { by exists m. }
  destruct (store_remove _ _ e now (H i) Hg) as (s' & -> & Hs).
  { apply older_none, older_free_row, Hfree. }
  cbn [rbind]. rewrite at_row_same.
  destruct (IH (<[i := s']> m) c (delete i r)) as (m' & -> & H'); [|done|done|].
  - eapply stores_row; [exact H| |].
    + by rewrite lookup_delete.
    + intros j Hj. by rewrite lookup_delete_ne.
  - cbn [rbind fst snd]. by exists m'.
Qed.

Lemma delete_tuple_ok e is now : ∀ m c r,
  stores_rel m (at_row c e r) -> gen e < U16_MAX -> older_free c e ->
  ∃ m', delete_tuple kind m e is now = Ok (m', bool_decide (Exists (λ i, is_Some (r !! i)) is)) ∧
        stores_rel m' (at_row c e (delete_first r is)).
Proof.
  induction is as [|i is IH]; intros m c r H Hg Hfree; cbn [delete_tuple delete_first].
  { exists m. rewrite bool_decide_eq_false_2; [done|]. by intros ?%Exists_nil. }
  destruct (store_dyn_delete _ _ e now (H i) Hg) as (s' & -> & Hs).
  { apply older_none, older_free_row, Hfree. }
  cbn [rbind]. rewrite at_row_same.
  assert (stores_rel (<[i := s']> m) (at_row c e (delete i r))) as H'.
  { eapply stores_row; [exact H| |].
    - by rewrite lookup_delete.
    - intros j Hj. by rewrite lookup_delete_ne. }
  destruct (r !! i) as [x|] eqn:Er.
  - rewrite (bool_decide_eq_true_2 (is_Some (Some x))) by (by eexists). eexists. split; [|exact H'].
    rewrite bool_decide_eq_true_2; [done|]. left. rewrite Er. by eexists.
  - rewrite (bool_decide_eq_false_2 (is_Some None)) by (by intros []).
    destruct (IH (<[i := s']> m) c r) as (m' & -> & H''); [|done|done|].
    { eapply stores_ext; [exact H'|]. intros x j. unfold at_row. case_decide; [|done].
      by rewrite delete_notin. }
    exists m'. split; [|done]. do 2 f_equal. apply bool_decide_ext. rewrite Exists_cons, Er.
    split; [by right|]. intros [[]|]; done.
Qed.

(** ** Loops over the storages *)
Lemma for_stores_ok (f : N -> sset V -> res (sset V)) order : ∀ m,
  NoDup order ->
  (∀ i s, i ∈ order -> m !! i = Some s -> ∃ s', f i s = Ok s') ->
  ∃ m', for_stores order f m = Ok m' ∧
    (∀ i, i ∉ order -> m' !! i = m !! i) ∧
    (∀ i, m !! i = None -> m' !! i = None) ∧
    (∀ i s, i ∈ order -> m !! i = Some s -> ∃ s', f i s = Ok s' ∧ m' !! i = Some s').
Proof.
  induction order as [|i order IH]; intros m Hnd Hf; cbn [for_stores].
  { exists m. split_and!; try done. intros i s Hi. by apply elem_of_nil in Hi. }
  apply NoDup_cons in Hnd as [Hi Hnd].
  destruct (m !! i) as [s|] eqn:Em.
  - destruct (Hf i s) as [s' Es]; [left|done|]. rewrite Es. cbn [rbind].
    destruct (IH (<[i := s']> m)) as (m' & -> & H1 & H2 & H3); [done| |].
    { intros j sj Hj. rewrite lookup_insert_ne by (intros ->; done). apply Hf. by right. }
    exists m'. split; [done|]. split_and!.
    + intros j [Hj Hj']%not_elem_of_cons. rewrite H1 by done. by rewrite lookup_insert_ne.
    + intros j Hj. apply H2. rewrite lookup_insert_ne by congruence. done.
    + intros j sj [->|Hj]%elem_of_cons Hm.
      * rewrite Em in Hm. injection Hm as <-. exists s'. split; [done|].
        rewrite H1 by done. apply lookup_insert.
      * assert (i ≠ j) by (intros ->; done). apply H3; [done|]. by rewrite lookup_insert_ne.
  - destruct (IH m) as (m' & -> & H1 & H2 & H3); [done| |].
    { intros j sj Hj. apply Hf. by right. }
    exists m'. split; [done|]. split_and!; [|done|].
    + intros j [Hj Hj']%not_elem_of_cons. by apply H1.
    + intros j sj [->|Hj]%elem_of_cons Hm; [congruence|]. by apply H3.
Qed.

Lemma for_stores_rel (f : N -> sset V -> res (sset V)) order m c c' :
  stores_rel m c -> order ≡ₚ (map_to_list m).*1 ->
  (∀ i s, m !! i = Some s -> store_rel (kind i) (li i) (lm i) s (λ e, c e i) ->
     ∃ s', f i s = Ok s' ∧ store_rel (kind i) (li i) (lm i) s' (λ e, c' e i)) ->
  (∀ e i, c e i = None -> c' e i = None) ->
  ∃ m', for_stores order f m = Ok m' ∧ stores_rel m' c' ∧
        (∀ i, is_Some (m' !! i) <-> is_Some (m !! i)).
Proof.
  intros H Ho Hf Hn.
  assert (∀ i, i ∈ order <-> is_Some (m !! i)) as Hin.
  { intros i. rewrite Ho. rewrite elem_of_list_fmap. split.
    - intros ([j s] & -> & Hx%elem_of_map_to_list). by eexists.
    - intros [s Hs]. exists (i, s). split; [done|]. by apply elem_of_map_to_list. }
  destruct (for_stores_ok f order m) as (m' & E & H1 & H2 & H3).
  { rewrite Ho. apply NoDup_fst_map_to_list. }
  { intros i s _ Hs. destruct (Hf i s Hs) as (s' & ? & _); [by eapply stores_some|]. by exists s'. }
  exists m'. split; [done|]. split.
  - intros i. unfold World.store_or_new. destruct (m !! i) as [s|] eqn:Em.
    + destruct (H3 i s) as (s' & Es & ->); [apply Hin; by eexists|done|].
      destruct (Hf i s Em) as (s'' & Es' & Hs); [by eapply stores_some|].
      rewrite Es in Es'. injection Es' as <-. exact Hs.
    + rewrite H2 by done. cbn. pose proof (H i) as Hi. unfold World.store_or_new in Hi.
      rewrite Em in Hi. eapply store_rel_ext; [exact Hi|]. cbn.
      intros e. rewrite (stores_missing _ _ _ e H Em). symmetry. apply Hn. by eapply stores_missing.
  - intros i. destruct (m !! i) as [s|] eqn:Em.
    + destruct (H3 i s) as (s' & Es & ->); [apply Hin; by eexists|done|]. split; by eexists.
    + rewrite H2 by done. done.
Qed.

Definition erase c (e : eid) : eid -> N -> option (row V) := λ x i, if decide (x = e) then None else c x i.
Lemma erase_row c e : ∀ x i, erase c e x i = at_row c e ∅ x i.
Proof. intros x i. unfold erase, at_row. case_decide; [|done]. by rewrite lookup_empty. Qed.

Lemma store_delete_rel c e now i s :
  gen e < U16_MAX -> older_free c e -> store_rel (kind i) (li i) (lm i) s (λ x, c x i) ->
  ∃ s', store_delete e now s = Ok s' ∧ store_rel (kind i) (li i) (lm i) s' (λ x, erase c e x i).
Proof.
  intros Hg Hf Hs. destruct (store_dyn_delete s _ e now Hs Hg) as (s' & E & Hs').
  { by apply older_none. }
  exists s'. unfold store_delete. rewrite E. split; [done|]. exact Hs'.
Qed.

(** ** The world *)
Record WR w t : Prop := {
  wr_ents : ER (w_ents w) (λ e, is_Some (t_rows t !! e)) (t_issued t);
  wr_stores : stores_rel (w_stores w) (t_cell t);
  wr_now : w_counter w = t_now t;
}.

Lemma cell_live t e i : is_Some (t_cell t e i) -> is_Some (t_rows t !! e).
Proof. unfold t_cell. destruct (t_rows t !! e); [by eexists|]. by intros []. Qed.
Lemma cell_dead t e i : t_rows t !! e = None -> t_cell t e i = None.
Proof. unfold t_cell. by intros ->. Qed.
Lemma cell_row t e i r : t_rows t !! e = Some r -> t_cell t e i = r !! i.
Proof. unfold t_cell. by intros ->. Qed.

Lemma WR_others w t e : WR w t -> is_Some (t_rows t !! e) -> others_free (t_cell t) e.
Proof.
  intros H He x i Hi Hx. destruct (t_cell t x i) eqn:E; [|done]. exfalso. apply Hx.
  eapply (ER_uniq _ _ _ _ _ (wr_ents _ _ H)); [|done|done]. cbn. eapply cell_live. by rewrite E.
Qed.
Lemma WR_slot_free w t e :
  WR w t -> (∀ h, is_Some (t_rows t !! h) -> idx h ≠ idx e) -> ∀ x i, idx x = idx e -> t_cell t x i = None.
Proof.
  intros H He x i Hi. destruct (t_cell t x i) eqn:E; [|done]. exfalso.
  eapply (He x); [|done]. eapply cell_live. by rewrite E.
Qed.
Lemma WR_past w t e : WR w t -> past w e -> older_free (t_cell t) e.
Proof.
  intros H [_ He] x i Hi Hx. destruct (t_cell t x i) eqn:E; [|done]. exfalso.
  assert (gen e <= gen x); [|lia]. apply He; [|done]. eapply ER_alive; [apply H|]. cbn.
  eapply cell_live. by rewrite E.
Qed.
(** Handles given out in the past are never newer than the live ones. *)
Lemma WR_issued_past w t e : WR w t -> e ∈ t_issued t -> gen e < U16_MAX -> past w e.
Proof.
  intros H He Hg. split; [done|]. intros h Hh Hi.
  apply (ER_alive _ _ _ _ (wr_ents _ _ H)) in Hh.
  by eapply (ER_issued _ _ _ e h (wr_ents _ _ H)).
Qed.

Lemma rows_at_row t rows' e r' :
  (∀ x, x ≠ e -> rows' !! x = t_rows t !! x) -> (rows' !! e = Some r' ∨ rows' !! e = None ∧ r' = ∅) ->
  ∀ iss now x i, at_row (t_cell t) e r' x i = t_cell (Table rows' iss now) x i.
Proof.
  intros Ho He iss now x i. unfold at_row, t_cell. cbn. case_decide as D.
  - subst. destruct He as [-> | [-> ->]]; cbn; [done|]. by rewrite lookup_empty.
  - by rewrite Ho.
Qed.
Lemma row_id t e r :
  (t_rows t !! e = Some r ∨ t_rows t !! e = None ∧ r = ∅) ->
  ∀ x i, t_cell t x i = at_row (t_cell t) e r x i.
Proof.
  intros He x i. unfold at_row, t_cell. case_decide as D; [|done]. subst.
  destruct He as [-> | [-> ->]]; cbn; [done|]. by rewrite lookup_empty.
Qed.
Lemma default_row t e :
  t_rows t !! e = Some (default ∅ (t_rows t !! e)) ∨ t_rows t !! e = None ∧ default ∅ (t_rows t !! e) = ∅.
Proof. destruct (t_rows t !! e); [by left|by right]. Qed.

(** Alter the row of one entity. *)
Lemma alter_live {A B} `{Countable K} (f : A -> A) (mm : gmap K A) (e x : K) (g : A -> B) :
  is_Some (alter f e mm !! x) <-> is_Some (mm !! x).
Proof.
  destruct (decide (e = x)) as [->|].
  - rewrite lookup_alter. by rewrite fmap_is_Some.
  - by rewrite lookup_alter_ne.
Qed.

Lemma WR_alter w t (f : gmap N (row V) -> gmap N (row V)) e m' :
  WR w t ->
  stores_rel m' (at_row (t_cell t) e (default ∅ (f <$> t_rows t !! e))) ->
  WR (with_stores (w_tick w) m') (set_rows t (alter f e (t_rows t))).
Proof.
  intros H Hm. split; cbn.
  - eapply ER_ext; [apply H|]. intros x. cbn. symmetry. by apply (alter_live (B:=unit)).
  - eapply stores_ext; [exact Hm|]. intros x i. apply rows_at_row.
    + intros y Hy. by rewrite lookup_alter_ne.
    + rewrite lookup_alter. destruct (t_rows t !! e); [by left|by right].
  - by rewrite (wr_now _ _ H).
Qed.

Lemma add_entity_WR w t cs :
  WR w t -> lenN (e_data (w_ents w)) + 1 < max_idx ->
  ∃ w' h t', w_add_entity kind w cs = Ok (w', h) ∧ t_step t (WAddEntity cs) (WId h) t' ∧ WR w' t'.
Proof.
  intros H Hcap. unfold w_add_entity.
  destruct (ER_generate _ _ _ (wr_ents _ _ H) Hcap) as (es' & h & E & Hnew & Hfree & HE).
  cbn [w_tick w_ents w_stores w_counter]. rewrite E. cbn [rbind].
  assert (t_rows t !! h = None) as Hnone.
  { destruct (t_rows t !! h) eqn:Eh; [|done]. exfalso. eapply (Hfree h); [|done]. by rewrite Eh. }
  pose proof (WR_slot_free _ _ h H Hfree) as Hsf.
  destruct (add_tuple_ok h cs (w_counter w) (w_stores w) (t_cell t) ∅) as (m' & -> & Hm).
  { eapply stores_ext; [apply H|]. apply row_id. right. done. }
  { eapply (ER_ok _ _ _ _ HE). by right. }
  { intros x i Hi _. by apply Hsf. }
  cbn [rbind]. eexists _, _, _. split; [done|]. split; [by apply TAddEntity|].
  split; cbn.
  - eapply ER_ext; [exact HE|]. intros e. cbn. destruct (decide (e = h)) as [->|].
    + rewrite lookup_insert. split; [by eexists|by right].
    + rewrite lookup_insert_ne by done. split; [intros [?|?]; done|by left].
  - rewrite <- (wr_now _ _ H). eapply stores_ext; [exact Hm|]. apply rows_at_row.
    + intros x Hx. by rewrite lookup_insert_ne.
    + left. by rewrite lookup_insert.
  - by rewrite (wr_now _ _ H).
Qed.

Lemma add_component_WR w t e cs :
  WR w t -> is_alive (w_ents w) e = true ->
  ∃ w' t', w_add_component kind w e cs = Ok w' ∧ t_step t (WAddComponent e cs) WUnit t' ∧ WR w' t'.
Proof.
  intros H He. unfold w_add_component. cbn [w_tick w_ents w_stores w_counter]. rewrite He.
  apply (ER_alive _ _ _ _ (wr_ents _ _ H)) in He as [r Hr].
  destruct (add_tuple_ok e cs (w_counter w) (w_stores w) (t_cell t) r) as (m' & -> & Hm).
  { eapply stores_ext; [apply H|]. apply row_id. by left. }
  { eapply (ER_ok _ _ _ _ (wr_ents _ _ H)). by eexists. }
  { eapply WR_others; [done|]. by eexists. }
  cbn [rbind]. eexists _, _. split; [done|]. split; [by apply TAddComponent|].
  split; cbn.
  - eapply ER_ext; [apply H|]. intros x. cbn. destruct (decide (x = e)) as [->|].
    + rewrite lookup_insert, Hr. split; by eexists.
    + by rewrite lookup_insert_ne.
  - rewrite <- (wr_now _ _ H). eapply stores_ext; [exact Hm|]. apply rows_at_row.
    + intros x Hx. by rewrite lookup_insert_ne.
    + left. by rewrite lookup_insert.
  - by rewrite (wr_now _ _ H).
Qed.

Lemma remove_WR w t e is :
  WR w t -> past w e ->
  ∃ w' l t', w_remove kind w e is = Ok (w', l) ∧ t_step t (WRemove e is) (WVals l) t' ∧ WR w' t'.
Proof.
  intros H He. unfold w_remove.
  destruct (remove_tuple_ok e is (w_counter w) (w_stores w) (t_cell t) (default ∅ (t_rows t !! e)))
    as (m' & -> & Hm).
  { eapply stores_ext; [apply H|]. apply row_id, default_row. }
  { apply He. }
  { by eapply WR_past. }
  cbn [rbind]. eexists _, _, _. split; [done|]. split; [by apply TRemove|].
  apply WR_alter; [done|]. eapply stores_ext; [exact Hm|]. intros x i. unfold at_row.
  case_decide; [|done]. destruct (t_rows t !! e); cbn; [done|].
  assert (∀ l, (take_cells ∅ l).1 = (∅ : gmap N (row V))) as ->; [|done].
  clear. induction l as [|j l IH]; cbn; [done|]. by rewrite delete_empty.
Qed.

Lemma delete_component_WR w t e is :
  WR w t -> past w e ->
  ∃ w' t', w_delete_component kind w e is = Ok w' ∧ t_step t (WDeleteComponent e is) WUnit t' ∧ WR w' t'.
Proof.
  intros H He. unfold w_delete_component.
  destruct (delete_tuple_ok e is (w_counter w) (w_stores w) (t_cell t) (default ∅ (t_rows t !! e)))
    as (m' & -> & Hm).
  { eapply stores_ext; [apply H|]. apply row_id, default_row. }
  { apply He. }
  { by eapply WR_past. }
  cbn [rbind]. eexists _, _. split; [done|]. split; [by apply TDeleteComponent|].
  apply (WR_alter w t (λ r, delete_first r is)); [done|]. eapply stores_ext; [exact Hm|]. intros x i. unfold at_row.
  case_decide; [|done]. destruct (t_rows t !! e); cbn; [done|].
  assert (∀ l, delete_first ∅ l = (∅ : gmap N (row V))) as ->; [|done].
  clear. induction l as [|j l IH]; cbn; [done|]. by rewrite lookup_empty.
Qed.

Lemma view_delete_ok e is now : ∀ m c r,
  stores_rel m (at_row c e r) -> gen e < U16_MAX -> older_free c e ->
  ∃ m', view_delete kind m e is now = Ok (m', bool_decide (∃ i, i ∈ is ∧ is_Some (r !! i))) ∧
        stores_rel m' (at_row c e (filter (λ x, x.1 ∉ is) r)).
Proof.
  induction is as [|i is IH]; intros m c r H Hg Hfree; cbn [view_delete].
  { exists m. rewrite bool_decide_eq_false_2 by (intros (i & Hi & _); by apply elem_of_nil in Hi).
    split; [done|]. eapply stores_ext; [exact H|]. intros x j. unfold at_row. case_decide; [|done].
    rewrite map_filter_id; [done|]. intros. apply not_elem_of_nil. }
  destruct (store_dyn_delete _ _ e now (H i) Hg) as (s' & -> & Hs).
  { apply older_none, older_free_row, Hfree. }
  cbn [rbind]. rewrite at_row_same.
  destruct (IH (<[i := s']> m) c (delete i r)) as (m' & -> & H'); [|done|done|].
  - eapply stores_row; [exact H| |].
    + by rewrite lookup_delete.
    + intros j Hj. by rewrite lookup_delete_ne.
  - cbn [rbind]. exists m'. split.
    + do 2 f_equal. destruct (r !! i) as [x|] eqn:Er.
      * rewrite (bool_decide_eq_true_2 (is_Some (Some x))) by (by eexists). symmetry.
        apply bool_decide_eq_true_2. exists i. split; [left|]. rewrite Er. by eexists.
      * rewrite (bool_decide_eq_false_2 (is_Some None)) by (by intros []). cbn. apply bool_decide_ext.
        rewrite delete_notin by done. split.
        -- intros (j & Hj & ?). exists j. split; [by right|done].
        -- intros (j & Hj & Hx). exists j. split; [|done]. apply elem_of_cons in Hj as [->|]; [|done].
           rewrite Er in Hx. by destruct Hx.
    + eapply stores_ext; [exact H'|]. intros x j. unfold at_row. case_decide; [|done].
      apply option_eq. intros y. rewrite !map_filter_lookup_Some, lookup_delete_Some. cbn.
      rewrite not_elem_of_cons. split; [intros [[? ?] ?]|intros [? [? ?]]]; done.
Qed.

Lemma view_delete_WR w t e is :
  WR w t -> past w e ->
  ∃ w' b t', w_view_delete kind w e is = Ok (w', b) ∧ t_step t (WViewDelete e is) (WBool b) t' ∧ WR w' t'.
Proof.
  intros H He. unfold w_view_delete.
  destruct (view_delete_ok e is (w_counter w) (w_stores w) (t_cell t) (default ∅ (t_rows t !! e)))
    as (m' & -> & Hm).
  { eapply stores_ext; [apply H|]. apply row_id, default_row. }
  { apply He. }
  { by eapply WR_past. }
  cbn [rbind]. eexists _, _, _. split; [done|]. split.
  { match goal with |- t_step _ _ (WBool ?b) _ =>
      replace b with (bool_decide (∃ i, i ∈ is ∧ is_Some (t_cell t e i))) end; [apply TViewDelete|].
    apply bool_decide_ext. unfold t_cell. destruct (t_rows t !! e); cbn; [done|].
    by setoid_rewrite lookup_empty. }
  apply (WR_alter w t (filter (λ c : N * row V, c.1 ∉ is))); [done|].
  eapply stores_ext; [exact Hm|]. intros x i. unfold at_row.
  case_decide; [|done]. destruct (t_rows t !! e); cbn; [done|]. by rewrite map_filter_empty.
Qed.

(** strip, for any live set *)
Lemma strip_stores w c e order :
  stores_rel (w_stores w) c -> older_free c e -> gen e < U16_MAX -> any_order w order ->
  ∃ m', for_stores order (λ _, store_delete e (w_counter w)) (w_stores w) = Ok m' ∧
        stores_rel m' (erase c e) ∧ (∀ i, is_Some (m' !! i) <-> is_Some (w_stores w !! i)).
Proof.
  intros H Hf Hg Ho. apply (for_stores_rel _ _ _ c); [done|done| |].
  - intros i s _ Hs. by apply (store_delete_rel c e _ i s).
  - intros x i Hx. unfold erase. by case_decide.
Qed.

Lemma strip_WR w t e order :
  WR w t -> past w e -> any_order w order ->
  ∃ w' t', w_strip w e order = Ok w' ∧ t_step t (WStrip e order) WUnit t' ∧ WR w' t'.
Proof.
  intros H He Ho. unfold w_strip. cbn [w_tick w_ents w_stores w_counter].
  destruct (strip_stores w (t_cell t) e order) as (m' & -> & Hm & _);
    [apply H|by eapply WR_past|apply He|done|].
  cbn [rbind]. eexists _, _. split; [done|]. split; [by apply TStrip|].
  apply (WR_alter w t (λ _, ∅)); [done|]. eapply stores_ext; [exact Hm|]. intros x i.
  rewrite erase_row. unfold at_row. case_decide; [|done]. by destruct (t_rows t !! e).
Qed.

Lemma delete_entity_gen w t e order :
  WR w t -> past w e -> any_order w order -> (is_Some (t_rows t !! e) -> gen e < last_gen) ->
  ∃ w' b t', w_delete_entity w e order = Ok (w', b) ∧
    t_step t (WDeleteEntity e order) (WBool b) t' ∧ WR w' t' ∧
    (∀ i, is_Some (w_stores w' !! i) <-> is_Some (w_stores w !! i)).
Proof.
  intros H He Ho Hg. unfold w_delete_entity.
  destruct (t_rows t !! e) as [r|] eqn:Er.
  - destruct (ER_delete _ _ _ e (wr_ents _ _ H)) as (es' & -> & HE); [by eexists|by apply Hg|].
    cbn [rbind]. unfold w_strip. cbn [w_tick with_ents w_ents w_stores w_counter].
    destruct (strip_stores w (t_cell t) e order) as (m' & -> & Hm & Hk);
      [apply H|by eapply WR_past|apply He|done|].
    cbn [rbind]. eexists _, _, _. split; [done|]. split; [by eapply TDeleteEntity|]. split; [|done].
    split; cbn.
    + eapply ER_ext; [exact HE|]. intros x. cbn. destruct (decide (x = e)) as [->|].
      * rewrite lookup_delete. split; [by intros []|]. by intros [].
      * rewrite lookup_delete_ne by done. split; [by intros []|done].
    + eapply stores_ext; [exact Hm|]. intros x i. rewrite erase_row. apply rows_at_row.
      * intros y Hy. by rewrite lookup_delete_ne.
      * right. by rewrite lookup_delete.
    + by rewrite (wr_now _ _ H).
  - rewrite (ER_delete_dead _ _ _ e (wr_ents _ _ H)) by (rewrite Er; by intros []).
    cbn [rbind]. eexists _, _, _. split; [done|]. split; [by apply TDeleteEntityDead|].
    split; [|done]. destruct H. by split.
Qed.

Lemma bulk_rel l now : ∀ i s c,
  store_rel (kind i) (li i) (lm i) s (λ e, c e i) -> Forall (λ e, gen e < U16_MAX ∧ older_free c e) l ->
  ∃ s', store_delete_all l now s = Ok s' ∧
        store_rel (kind i) (li i) (lm i) s' (λ x, if decide (x ∈ l) then None else c x i).
Proof.
  induction l as [|e l IH]; intros i s c Hs Hl; cbn [store_delete_all].
  { exists s. split; [done|]. eapply store_rel_ext; [exact Hs|]. intros x. cbn.
    rewrite decide_False; [done|]. by apply not_elem_of_nil. }
  apply Forall_cons in Hl as [[Hg Hf] Hl].
  destruct (store_delete_rel c e now i s Hg Hf Hs) as (s1 & -> & Hs1). cbn [rbind].
  destruct (IH i s1 (erase c e)) as (s2 & -> & Hs2); [done| |].
  { eapply Forall_impl; [exact Hl|]. intros x [Hgx Hfx]. split; [done|].
    intros y j Hi Hy. unfold erase. case_decide; [done|]. by apply Hfx. }
  exists s2. split; [done|]. eapply store_rel_ext; [exact Hs2|]. intros x. cbn. unfold erase.
  destruct (decide (x = e)) as [->|Hne].
  - rewrite (decide_True (P := e ∈ e :: l)) by left. by case_decide.
  - apply decide_ext. rewrite elem_of_cons. split; [by right|]. intros [?|?]; done.
Qed.

Lemma map_imap_live (f : eid -> gmap N (row V) -> gmap N (row V)) (rows : gmap eid (gmap N (row V))) x :
  map_imap (λ e r, Some (f e r)) rows !! x = f x <$> rows !! x.
Proof. rewrite map_lookup_imap. by destruct (rows !! x). Qed.

Lemma WR_imap w t (f : eid -> gmap N (row V) -> gmap N (row V)) m' :
  WR w t -> stores_rel m' (λ e i, t_rows t !! e ≫= λ r, f e r !! i) ->
  WR (with_stores (w_tick w) m') (set_rows t (map_imap (λ e r, Some (f e r)) (t_rows t))).
Proof.
  intros H Hm. split; cbn.
  - eapply ER_ext; [apply H|]. intros x. cbn. rewrite map_imap_live. by rewrite fmap_is_Some.
  - eapply stores_ext; [exact Hm|]. intros x i. unfold t_cell. cbn. rewrite map_imap_live.
    by destruct (t_rows t !! x).
  - by rewrite (wr_now _ _ H).
Qed.

Lemma bulk_strip_WR w t l order :
  WR w t -> Forall (past w) l -> any_order w order ->
  ∃ w' t', w_bulk_strip w l order = Ok w' ∧ t_step t (WBulkStrip l order) WUnit t' ∧ WR w' t'.
Proof.
  intros H Hl Ho. unfold w_bulk_strip. cbn [w_tick w_ents w_stores w_counter].
  destruct (for_stores_rel (λ _, store_delete_all l (w_counter w)) order (w_stores w) (t_cell t)
              (λ x i, if decide (x ∈ l) then None else t_cell t x i)) as (m' & -> & Hm & _).
  { apply H. }
  { done. }
  { intros i s _ Hs. apply (bulk_rel l _ i s (t_cell t)); [done|].
    eapply Forall_impl; [exact Hl|]. intros e He. split; [apply He|]. by eapply WR_past. }
  { intros x i Hx. by case_decide. }
  cbn [rbind]. eexists _, _. split; [done|]. split; [by apply TBulkStrip|].
  apply WR_imap; [done|]. eapply stores_ext; [exact Hm|]. intros x i. cbn.
  unfold t_cell. destruct (t_rows t !! x); cbn; by case_decide.
Qed.

Lemma retain_storage_WR w t e keep order :
  WR w t -> past w e -> any_order w order ->
  ∃ w' t', w_retain_storage w e keep order = Ok w' ∧ t_step t (WRetainStorage e keep order) WUnit t' ∧ WR w' t'.
Proof.
  intros H He Ho. unfold w_retain_storage. cbn [w_tick w_ents w_stores w_counter].
  destruct (for_stores_rel (λ i s, if decide (i ∈ keep) then Ok s else store_delete e (w_counter w) s)
              order (w_stores w) (t_cell t)
              (λ x i, if decide (i ∈ keep) then t_cell t x i else erase (t_cell t) e x i))
    as (m' & -> & Hm & _).
  { apply H. }
  { done. }
  { intros i s _ Hs. case_decide; [by exists s|].
    apply (store_delete_rel (t_cell t) e _ i s); [apply He|by eapply WR_past|done]. }
  { intros x i Hx. unfold erase. by repeat case_decide. }
  cbn [rbind]. eexists _, _. split; [done|]. split; [by apply TRetainStorage|].
  apply (WR_alter w t (filter (λ c : N * row V, c.1 ∈ keep))); [done|]. eapply stores_ext; [exact Hm|].
  intros x i. cbn. unfold erase, at_row, t_cell. destruct (decide (x = e)) as [->|]; [|by case_decide].
  destruct (t_rows t !! e) as [r|]; cbn.
  - destruct (decide (i ∈ keep)) as [Hk|Hk].
    + destruct (r !! i) as [x|] eqn:Ex; symmetry.
      * by apply map_filter_lookup_Some.
      * apply map_filter_lookup_None. by left.
    + symmetry. apply map_filter_lookup_None. right. intros x _. done.
  - rewrite lookup_empty. by case_decide.
Qed.

Lemma clear_WR w t order :
  WR w t -> any_order w order -> (∀ i e, getN (e_data (w_ents w)) i = Some e -> gen e < last_gen) ->
  ∃ w' t', w_clear w order = Ok w' ∧ t_step t (WClear order) WUnit t' ∧ WR w' t'.
Proof.
  intros H Ho Hb. unfold w_clear. cbn [w_tick w_ents w_stores w_counter].
  destruct (for_stores_rel (λ _ s, ss_clear s (w_counter w)) order (w_stores w) (t_cell t)
              (λ _ _, None)) as (m' & -> & Hm & _).
  { apply H. }
  { done. }
  { intros i s _ Hs. by apply (store_clear s _ _ Hs). }
  { done. }
  cbn [rbind]. destruct (ER_clear _ _ _ (wr_ents _ _ H) Hb) as (es' & -> & HE). cbn [rbind].
  eexists _, _. split; [done|]. split; [by apply TClear|]. split; cbn.
  - eapply ER_ext; [exact HE|]. intros x. cbn. rewrite lookup_empty. split; [done|by intros []].
  - exact Hm.
  - by rewrite (wr_now _ _ H).
Qed.

Lemma get_WR w t e i :
  WR w t -> past w e ->
  ∃ w' v t', w_get kind w e i = Ok (w', v) ∧ t_step t (WGet e i) (WVal v) t' ∧ WR w' t'.
Proof.
  intros H He. unfold w_get. rewrite (store_get _ _ e (wr_stores _ _ H i)) by apply He.
  cbn [rbind]. eexists _, _, _. split; [done|]. split; [by apply TGet|].
  split; cbn; [apply H| |by rewrite (wr_now _ _ H)].
  apply stores_touch. apply H.
Qed.

Lemma write_WR w t e i f :
  WR w t -> past w e ->
  ∃ w' b t', w_write kind w e i f = Ok (w', b) ∧ t_step t (WWrite e i f) (WBool b) t' ∧ WR w' t'.
Proof.
  intros H He. unfold w_write.
  destruct (store_write _ _ e f (w_counter w) (wr_stores _ _ H i)) as (s' & -> & Hs); [apply He|].
  cbn [rbind]. eexists _, _, _. split; [done|]. split; [by apply TWrite|].
  rewrite <- (wr_now _ _ H).
  apply (WR_alter w t (alter (write_cell (w_counter w) f) i)); [done|].
  eapply stores_set; [apply H| |].
  - eapply store_rel_ext; [exact Hs|]. intros x. cbn. unfold at_row, at_. case_decide; [|done].
    unfold t_cell. destruct (t_rows t !! e); cbn; [by rewrite lookup_alter|by rewrite lookup_empty].
  - intros x j Hj. unfold at_row. case_decide as D; [|done]. subst.
    unfold t_cell. destruct (t_rows t !! e); cbn; [by rewrite lookup_alter_ne|by rewrite lookup_empty].
Qed.

Lemma retain_WR w t i f :
  WR w t -> is_Some (w_stores w !! i) ->
  ∃ w' t', w_retain w i f = Ok w' ∧ t_step t (WRetain i f) WUnit t' ∧ WR w' t'.
Proof.
  intros H [s Es]. unfold w_retain. rewrite Es.
  destruct (store_retain (k := kind i) (li := li i) (lm := lm i) s (λ e, t_cell t e i) f (w_counter w)) as (s' & -> & Hs).
  { eapply stores_some; [apply H|done]. }
  cbn [rbind]. eexists _, _. split; [done|]. split; [by apply TRetain|].
  apply WR_imap; [done|]. eapply stores_set; [apply H| |].
  - eapply store_rel_ext; [exact Hs|]. intros x. cbn. unfold t_cell.
    destruct (t_rows t !! x) as [r|]; cbn; [|done].
    destruct (r !! i) as [o|] eqn:Eo.
    + destruct (f x (r_val o)) eqn:Ef; symmetry.
      * by apply map_filter_lookup_Some.
      * apply map_filter_lookup_None. right. intros o' Ho' Hc. rewrite Eo in Ho'. injection Ho' as <-.
        cbn in Hc. specialize (Hc eq_refl). congruence.
    + symmetry. apply map_filter_lookup_None. by left.
  - intros x j Hj. cbn. unfold t_cell. destruct (t_rows t !! x) as [r|]; cbn; [|done].
    destruct (r !! j) as [o|] eqn:Eo.
    + apply map_filter_lookup_Some. split; [done|]. cbn. intros Hc. by rewrite Hc in Hj.
    + apply map_filter_lookup_None. by left.
Qed.

Lemma spawn_WR w t e :
  WR w t -> gen e < U16_MAX -> idx e + 1 < max_idx ->
  (∀ h, is_alive (w_ents w) h = true -> idx h = idx e -> gen e < gen h) ->
  ∃ w' b t', w_spawn w e = Ok (w', b) ∧ t_step t (WSpawn e) (WBool b) t' ∧ WR w' t'.
Proof.
  intros H Hg Hi Hocc. unfold w_spawn.
  destruct (ER_spawn _ _ _ e (wr_ents _ _ H) Hg Hi) as (es' & b & -> & Hb).
  { intros h Hh. apply Hocc. by eapply ER_alive; [apply H|]. }
  cbn [rbind]. destruct b.
  - destruct Hb as [Hfree HE]. pose proof (WR_slot_free _ _ e H Hfree) as Hsf.
    assert (t_rows t !! e = None) as Hnone.
    { destruct (t_rows t !! e) eqn:Ee; [|done]. exfalso. eapply (Hfree e); [|done]. by rewrite Ee. }
    eexists _, _, _. split; [done|]. split.
    { apply TSpawn. intros (h & Hh & Hih). by apply (Hfree h). }
    split; cbn.
    + eapply ER_ext; [exact HE|]. intros x. cbn. destruct (decide (x = e)) as [->|].
      * rewrite lookup_insert. split; [by eexists|by right].
      * rewrite lookup_insert_ne by done. split; [intros [?|?]; done|by left].
    + eapply stores_ext; [apply H|]. intros x i. etrans; [apply (row_id t e ∅); by right|].
      apply rows_at_row.
      * intros y Hy. by rewrite lookup_insert_ne.
      * left. by rewrite lookup_insert.
    + apply H.
  - eexists _, _, _. split; [done|]. split; [by apply TSpawnRefused|]. destruct H. by split.
Qed.

(** ** delete_any *)
Lemma keys_perm {A B} (m : gmap N A) (m' : gmap N B) :
  (∀ i, is_Some (m' !! i) <-> is_Some (m !! i)) -> (map_to_list m).*1 ≡ₚ (map_to_list m').*1.
Proof.
  intros H. apply NoDup_Permutation; [apply NoDup_fst_map_to_list..|]. intros i.
  rewrite !elem_of_list_fmap. split.
  - intros ([j x] & -> & Hx%elem_of_map_to_list). destruct (proj2 (H j)) as [y Hy]; [by eexists|].
    exists (j, y). split; [done|]. by apply elem_of_map_to_list.
  - intros ([j x] & -> & Hx%elem_of_map_to_list). destruct (proj1 (H j)) as [y Hy]; [by eexists|].
    exists (j, y). split; [done|]. by apply elem_of_map_to_list.
Qed.

Definition hide (is : list N) c : eid -> N -> option (row V) :=
  λ e i, if decide (i ∈ is) then None else c e i.

Lemma collect_any_ok is now : ∀ m c ids,
  stores_rel m c -> NoDup ids ->
  ∃ m' ids', collect_any m is ids now = Ok (m', ids') ∧ stores_rel m' (hide is c) ∧ NoDup ids' ∧
    (∀ i, is_Some (m' !! i) <-> is_Some (m !! i)) ∧
    (∀ e, e ∈ ids' <-> e ∈ ids ∨ ∃ i, i ∈ is ∧ is_Some (c e i)).
Proof.
  induction is as [|i is IH]; intros m c ids H Hnd; cbn [collect_any].
  { exists m, ids. split_and!; try done.
    intros e. split; [by left|]. intros [|(i & Hi & _)]; [done|]. by apply elem_of_nil in Hi. }
  destruct (m !! i) as [s|] eqn:Em.
  - pose proof (stores_some _ _ _ _ H Em) as Hs.
    destruct (store_clear s _ now Hs) as (s' & -> & Hs'). cbn [rbind].
    destruct (IH (<[i := s']> m) (hide [i] c) (remove_dups (ids ++ ss_dense s)))
      as (m' & ids' & E & Hm & Hnd' & Hk & Hin).
    { eapply stores_set; [exact H| |].
      - eapply store_rel_ext; [exact Hs'|]. intros e. cbn. unfold hide. rewrite decide_True; [done|left].
      - intros e j Hj. unfold hide. rewrite decide_False; [done|]. by intros ?%elem_of_list_singleton. }
    { apply NoDup_remove_dups. }
    exists m', ids'. split; [done|]. split; [|split; [done|split]].
    + eapply stores_ext; [exact Hm|]. intros e j. unfold hide.
      destruct (decide (j = i)) as [->|Hne].
      * rewrite (decide_True (P := i ∈ i :: is)) by left. rewrite (decide_True (P := i ∈ [i])) by left.
        by case_decide.
      * rewrite (decide_False (P := j ∈ [i])) by (by intros ?%elem_of_list_singleton).
        apply decide_ext. rewrite elem_of_cons. split; [by right|]. by intros [|].
    + intros j. rewrite Hk. destruct (decide (j = i)) as [->|Hne].
      * rewrite lookup_insert, Em. split; by eexists.
      * by rewrite lookup_insert_ne.
    + intros e. rewrite Hin, elem_of_remove_dups, elem_of_app, (store_dense _ _ e Hs). cbn.
      split.
      * intros [[He|He]|(j & Hj & He)]; [by left| |].
        -- right. exists i. split; [left|done].
        -- right. exists j. split; [by right|]. unfold hide in He. case_decide; [by destruct He|done].
      * intros [He|(j & Hj & He)]; [by left; left|].
        destruct (decide (j = i)) as [->|Hne]; [by left; right|].
        apply elem_of_cons in Hj as [->|Hj]; [done|]. right. exists j. split; [done|].
        unfold hide. rewrite decide_False; [done|]. by intros ?%elem_of_list_singleton.
  - destruct (IH m c ids H Hnd) as (m' & ids' & E & Hm & Hnd' & Hk & Hin).
    exists m', ids'. split; [done|]. split; [|split; [done|split; [done|]]].
    + eapply stores_ext; [exact Hm|]. intros e j. unfold hide.
      destruct (decide (j = i)) as [->|Hne].
      * rewrite (stores_missing _ _ _ e H Em). by repeat case_decide.
      * apply decide_ext. rewrite elem_of_cons. split; [by right|]. by intros [|].
    + intros e. rewrite Hin. split.
      * intros [|(j & Hj & He)]; [by left|]. right. exists j. split; [by right|done].
      * intros [|(j & Hj & He)]; [by left|]. right. exists j. split; [|done].
        apply elem_of_cons in Hj as [->|Hj]; [|done]. rewrite (stores_missing _ _ _ e H Em) in He.
        by destruct He.
Qed.

Lemma live_past w t e : WR w t -> is_Some (t_rows t !! e) -> gen e < U16_MAX -> past w e.
Proof.
  intros H He Hg. split; [done|]. intros h Hh Hi.
  apply (ER_alive _ _ _ _ (wr_ents _ _ H)) in Hh.
  rewrite (ER_uniq _ _ _ h e (wr_ents _ _ H)); [lia|done|done|done].
Qed.

Lemma delete_each_ok : ∀ (dl : list (eid * list N)) w t,
  WR w t -> NoDup dl.*1 ->
  (∀ x, x ∈ dl -> is_Some (t_rows t !! x.1) ∧ gen x.1 < last_gen ∧ any_order w x.2) ->
  ∃ w', delete_each w dl = Ok w' ∧
    WR w' (Table (filter (λ x, x.1 ∉ dl.*1) (t_rows t)) (t_issued t) (t_now t + lenN dl)).
Proof.
  induction dl as [|[e order] dl IH]; intros w t H Hnd Hdl; cbn [delete_each].
  { exists w. split; [done|].
    replace (filter _ _) with (t_rows t).
    - destruct t as [rows iss now]. destruct H as [H1 H2 H3]. split; cbn; [done|done|].
      rewrite H3. cbn. unfold lenN. cbn. lia.
    - symmetry. apply map_filter_id. intros k x _. apply not_elem_of_nil. }
  cbn in Hnd. apply NoDup_cons in Hnd as [Hne Hnd].
  destruct (Hdl (e, order)) as (He & Hg & Ho); [left|]. cbn in He, Hg, Ho.
  assert (gen e < U16_MAX) as Hg' by (eapply N.lt_trans; [exact Hg|done]).
  destruct (delete_entity_gen w t e order H) as (w1 & b & t1 & -> & St & H1 & Hk);
    [by eapply live_past|done|done|].
  cbn [rbind]. inversion St as [| | | | |? ? r Hr| ? ? Hn| | | | | | | | | |]; subst;
    [|rewrite Hn in He; by destruct He].
  destruct (IH w1 _ H1 Hnd) as (w' & -> & H').
  { intros x Hx. cbn. destruct (Hdl x) as (Hx1 & Hx2 & Hx3); [by right|]. split_and!; [|done|].
    - rewrite lookup_delete_ne; [done|]. intros ->. apply Hne. by apply elem_of_list_fmap_1.
    - unfold any_order. rewrite Hx3. by apply keys_perm. }
  exists w'. split; [done|]. cbn [t_rows t_issued t_now set_rows] in H'.
  replace (filter (λ x, x.1 ∉ ((e, order) :: dl).*1) (t_rows t))
    with (filter (λ x : eid * gmap N (row V), x.1 ∉ dl.*1) (delete e (t_rows t))).
  - replace (t_now t + lenN ((e, order) :: dl)) with (t_now t + 1 + lenN dl); [done|].
    unfold lenN. cbn [length]. lia.
  - apply map_eq. intros x. apply option_eq. intros y.
    rewrite !map_filter_lookup_Some, lookup_delete_Some. cbn.
    rewrite not_elem_of_cons. split.
    + intros [[? ?] ?]. done.
    + intros [? [? ?]]. done.
Qed.

Lemma delete_any_WR w t is dl :
  WR w t -> w_allowed w (WDeleteAny is dl) ->
  ∃ w' t', w_delete_any w is dl = Ok w' ∧ t_step t (WDeleteAny is dl) WUnit t' ∧ WR w' t'.
Proof.
  intros H (Hlast & Hord & Hperm). unfold w_delete_any. cbn [w_tick w_ents w_stores w_counter].
  destruct (collect_any_ok is (w_counter w) (w_stores w) (t_cell t) []) as (m' & ids & -> & Hm & Hnd & Hk & Hin);
    [apply H|constructor|].
  cbn [rbind].
  assert (dl.*1 ≡ₚ ids) as Hids.
  { rewrite Hperm. apply NoDup_Permutation; [apply NoDup_remove_dups|done|]. intros e.
    rewrite Hin, elem_of_remove_dups, elem_of_list_bind. split.
    - intros (i & Hi & Hx). right. exists i. split; [done|].
      destruct (w_stores w !! i) as [s|] eqn:Es; [|by apply elem_of_nil in Hi].
      by apply (store_dense s _ e (stores_some _ _ _ _ (wr_stores _ _ H) Es)).
    - intros [?%elem_of_nil|(i & Hi & He)]; [done|]. exists i. split; [|done].
      destruct (w_stores w !! i) as [s|] eqn:Es.
      + by apply (store_dense s _ e (stores_some _ _ _ _ (wr_stores _ _ H) Es)).
      + rewrite (stores_missing _ _ _ e (wr_stores _ _ H) Es) in He. by destruct He. }
  rewrite decide_True by done.
  set (g := λ (_ : eid) (r : gmap N (row V)), filter (λ c : N * row V, c.1 ∉ is) r).
  assert (∀ e i r, t_rows t !! e = Some r -> g e r !! i = if decide (i ∈ is) then None else r !! i) as Hg.
  { intros e i r _. unfold g. case_decide.
    - apply map_filter_lookup_None. right. intros x _. cbn. auto.
    - destruct (r !! i) as [x|] eqn:Ex.
      + by apply map_filter_lookup_Some.
      + apply map_filter_lookup_None. by left. }
  assert (WR (with_stores (w_tick w) m') (set_rows t (map_imap (λ e r, Some (g e r)) (t_rows t)))) as H1.
  { apply WR_imap; [done|]. eapply stores_ext; [exact Hm|]. intros e i. unfold hide, t_cell.
    destruct (t_rows t !! e) as [r|] eqn:Er; cbn; [|by case_decide]. by rewrite (Hg e). }
  assert (∀ e, e ∈ ids <-> ∃ r, t_rows t !! e = Some r ∧ has_any is (e, r)) as Hids'.
  { intros e. rewrite Hin. split.
    - intros [?%elem_of_nil|(i & Hi & He)]; [done|]. destruct (cell_live _ _ _ He) as [r Hr].
      exists r. split; [done|]. exists i. split; [done|]. cbn. by rewrite <- (cell_row _ _ _ _ Hr).
    - intros (r & Hr & i & Hi & Hx). right. exists i. split; [done|]. by rewrite (cell_row _ _ _ _ Hr). }
  destruct (delete_each_ok dl _ _ H1) as (w' & E & H').
  { by rewrite Hids. }
  { intros x Hx. assert (x.1 ∈ ids) as Hx1.
    { rewrite <- Hids. by apply elem_of_list_fmap_1. }
    apply Hids' in Hx1 as (r & Hr & _). split_and!.
    - cbn. rewrite map_imap_live, Hr. by eexists.
    - apply Hlast. eapply ER_alive; [apply H|]. cbn. by rewrite Hr.
    - unfold any_order. cbn. rewrite Forall_forall in Hord. rewrite (Hord _ Hx).
      apply keys_perm. intros i. apply Hk. }
  exists w'. eexists. split; [exact E|]. split; [apply TDeleteAny|].
  cbn [t_rows t_issued t_now set_rows] in H'.
  replace (filter (λ x, ¬ has_any is x) (t_rows t))
    with (filter (λ x : eid * gmap N (row V), x.1 ∉ dl.*1) (map_imap (λ e r, Some (g e r)) (t_rows t))).
  - replace (N.of_nat (size (filter (has_any is) (t_rows t)))) with (lenN dl); [done|].
    unfold lenN. f_equal. rewrite <- (fmap_length fst dl), Hids.
    unfold size, map_size. rewrite <- (fmap_length fst (map_to_list _)).
    apply Permutation_length, NoDup_Permutation; [done|apply NoDup_fst_map_to_list|].
    intros e. rewrite Hids', elem_of_list_fmap. split.
    + intros (r & Hr & Hx). exists (e, r). split; [done|].
      apply elem_of_map_to_list, map_filter_lookup_Some. done.
    + intros ([e' r] & -> & Hx). apply elem_of_map_to_list, map_filter_lookup_Some in Hx. by exists r.
  - apply map_eq. intros e. destruct (t_rows t !! e) as [r|] eqn:Er.
    + destruct (decide (has_any is (e, r))) as [Hx|Hx].
      * trans (@None (gmap N (row V))); [|symmetry]; apply map_filter_lookup_None; right.
        -- intros r' _. cbn. rewrite Hids, Hids'. intros Hn. apply Hn. by exists r.
        -- intros r' Hr'. rewrite Er in Hr'. injection Hr' as <-. by intros [].
      * trans (Some r); [|symmetry]; apply map_filter_lookup_Some; cbn.
        -- rewrite map_imap_live, Er. split.
           ++ cbn. f_equal. apply map_eq. intros i. rewrite (Hg e) by done. case_decide as D; [|done].
              destruct (r !! i) eqn:Ei; [|done]. exfalso. apply Hx. exists i. split; [done|]. cbn. by rewrite Ei.
           ++ rewrite Hids, Hids'. intros (r' & Hr' & Hx'). rewrite Er in Hr'. injection Hr' as <-. done.
        -- done.
    + trans (@None (gmap N (row V))); [|symmetry]; apply map_filter_lookup_None; left; [|done].
      by rewrite map_imap_live, Er.
Qed.

(** ** One step, and histories *)
Lemma step_WR w t o :
  WR w t -> w_allowed w o ->
  ∃ w' ev t', w_step kind w o = Ok (w', ev) ∧ t_step t o ev t' ∧ WR w' t'.
Proof.
  intros H A. destruct o as [cs|e cs|e is|e is|e is|e order|e order|l order|e keep order|order|e i|e i f|i f|e|is dl];
    cbn [w_step w_allowed] in *.
  - destruct (add_entity_WR w t cs H A) as (w' & h & t' & -> & St & H'). by eexists _, _, _.
  - destruct (add_component_WR w t e cs H A) as (w' & t' & -> & St & H'). by eexists _, _, _.
  - destruct (remove_WR w t e is H A) as (w' & l & t' & -> & St & H'). by eexists _, _, _.
  - destruct (delete_component_WR w t e is H A) as (w' & t' & -> & St & H'). by eexists _, _, _.
  - destruct (view_delete_WR w t e is H A) as (w' & b & t' & -> & St & H'). by eexists _, _, _.
  - destruct A as (A1 & A2 & A3).
    destruct (delete_entity_gen w t e order H A1 A2 (λ _, A3)) as (w' & b & t' & -> & St & H' & _).
    by eexists _, _, _.
  - destruct A as (A1 & A2).
    destruct (strip_WR w t e order H A1 A2) as (w' & t' & -> & St & H'). by eexists _, _, _.
  - destruct A as (A1 & A2).
    destruct (bulk_strip_WR w t l order H A1 A2) as (w' & t' & -> & St & H'). by eexists _, _, _.
  - destruct A as (A1 & A2).
    destruct (retain_storage_WR w t e keep order H A1 A2) as (w' & t' & -> & St & H'). by eexists _, _, _.
  - destruct A as (A1 & A2).
    destruct (clear_WR w t order H A1 A2) as (w' & t' & -> & St & H'). by eexists _, _, _.
  - destruct (get_WR w t e i H A) as (w' & v & t' & -> & St & H'). by eexists _, _, _.
  - destruct (write_WR w t e i f H A) as (w' & b & t' & -> & St & H'). by eexists _, _, _.
  - destruct (retain_WR w t i f H A) as (w' & t' & -> & St & H'). by eexists _, _, _.
  - destruct A as (A1 & A2 & A3).
    destruct (spawn_WR w t e H A1 A2 A3) as (w' & b & t' & -> & St & H'). by eexists _, _, _.
  - destruct (delete_any_WR w t is dl H A) as (w' & t' & -> & St & H'). by eexists _, _, _.
Qed.

Lemma step_issued w' t o ev t' :
  t_step t o ev t' -> WR w' t' -> Forall handle_ok (t_issued t) -> Forall handle_ok (t_issued t').
Proof.
  intros St H Hi. inversion St; subst; try exact Hi.
  - apply Forall_app. split; [done|]. apply Forall_cons. split; [|done].
    eapply (ER_ok _ _ _ _ (wr_ents _ _ H)). cbn. rewrite lookup_insert. by eexists.
  - apply Forall_app. split; [done|]. apply Forall_cons. split; [|done].
    eapply (ER_ok _ _ _ _ (wr_ents _ _ H)). cbn. rewrite lookup_insert. by eexists.
Qed.

Lemma run_WR ops : ∀ w t,
  WR w t -> w_history kind w ops ->
  Forall handle_ok (t_issued t) ->
  ∃ w' evs t', w_run kind w ops = Ok (w', evs) ∧ t_run t ops evs t' ∧ WR w' t' ∧
               Forall handle_ok (t_issued t').
Proof.
  induction ops as [|o ops IH]; intros w t H Hh Hi; cbn [w_run w_history] in *.
  { eexists _, _, _. split; [done|]. split; [constructor|done]. }
  destruct Hh as [A Hh]. destruct (step_WR w t o H A) as (w1 & ev & t1 & E & St & H1).
  rewrite E. cbn [rbind]. destruct (IH w1 t1 H1 (Hh _ _ E)) as (w' & evs & t' & -> & R & H').
  { by eapply step_issued. }
  cbn [rbind]. eexists _, _, _. split; [done|]. split; [by econstructor|done].
Qed.
End world.

Lemma WR_init {V} kind : WR kind (λ _, 0) (λ _, 0) (w_new (V := V)) t_init.
Proof.
  split.
  - eapply ER_ext; [apply ER_init|].
    intros e. cbn. rewrite lookup_empty. split; [done|]. by intros [].
  - intros i. unfold World.store_or_new. cbn. rewrite lookup_empty. apply store_rel_new.
  - done.
Qed.
