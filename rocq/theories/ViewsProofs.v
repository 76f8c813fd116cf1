(** Lemmas for PropsViews.v *)
From stdpp Require Import prelude list gmap.
From Coq Require Import NArith Lia.
From Verif Require Import EntityId EntityIdProofs Base Entities EntitiesSpec EntitiesProofs EntitiesHistory.
From Verif Require Import SparseSet Track SparseSetSpec SparseSetProofs SparseSetProofs2 SparseSetHistory.
From Verif Require Import World WorldSpec WorldProofs WorldProofs2 PropsWorld Views.
Open Scope N_scope.

(** ** Stamps of the table only move forward *)
Section stamps.
Context {V : Type}.
Implicit Types (t : table V).

(** The stamp [y] was there before, or belongs to the interval. *)
Definition stamp_step (n n' : N) (x : option N) (y : N) : Prop := x = Some y ∨ (n <= y ∧ y < n').
Definition cell_step (n n' : N) (c : option (row V)) (r' : row V) : Prop :=
  stamp_step n n' (r_ins <$> c) (r_ins r') ∧
  (r_mod r' = 0 ∨ stamp_step n n' (r_mod <$> c) (r_mod r')).

Lemma cell_step_same n n' (r : row V) : cell_step n n' (Some r) r.
Proof. split; [by left|]. right. by left. Qed.
Lemma cell_step_trans n1 n2 n3 c1 (r2 r3 : row V) :
  n1 <= n2 -> n2 <= n3 -> cell_step n1 n2 c1 r2 -> cell_step n2 n3 (Some r2) r3 -> cell_step n1 n3 c1 r3.
Proof.
  unfold cell_step, stamp_step. cbn. intros L1 L2 [A1 A2] [B1 B2]. split.
  - destruct B1 as [[= E]|B1]; [rewrite <- E; destruct A1 as [A1|A1]; [by left|right; lia]|right; lia].
  - destruct B2 as [B2|[[= E]|B2]]; [by left| |right; right; lia].
    rewrite <- E. destruct A2 as [A2|[A2|A2]]; [by left|right; by left|right; right; lia].
Qed.

Lemma put_cell_step now (r : gmap N (row V)) c i x :
  put_cell now r c !! i = Some x -> cell_step now (now + 1) (r !! i) x.
Proof.
  unfold put_cell. destruct (decide (c.1 = i)) as [<-|Hi].
  - rewrite lookup_insert. intros [= <-]. destruct (r !! c.1) as [o|]; cbn.
    + split; [by left|]. right. right. cbn. lia.
    + split; [|by left]. right. cbn. lia.
  - rewrite lookup_insert_ne by done. intros ->. apply cell_step_same.
Qed.
Lemma put_cells_step now cs : ∀ r i x,
  put_cells now r cs !! i = Some x -> cell_step now (now + 1) (r !! i) x.
Proof.
  unfold put_cells. induction cs as [|c cs IH]; intros r i x; cbn [foldl].
  { intros ->. apply cell_step_same. }
  intros Hx. pose proof (IH _ _ _ Hx) as H1. destruct (put_cell now r c !! i) as [y|] eqn:Ey.
  - pose proof (put_cell_step _ _ _ _ _ Ey) as H2.
    revert H1 H2. unfold cell_step, stamp_step. cbn. intros [A1 A2] [B1 B2]. split.
    + destruct A1 as [[= E]|A1]; [by rewrite <- E|by right].
    + destruct A2 as [A2|[[= E]|A2]]; [by left|by rewrite <- E|right; by right].
  - unfold put_cell in Ey. destruct (decide (c.1 = i)) as [<-|Hi]; [by rewrite lookup_insert in Ey|].
    rewrite lookup_insert_ne in Ey by done. by rewrite Ey.
Qed.

Lemma take_cells_sub is : ∀ r i x, (take_cells (r : gmap N (row V)) is).1 !! i = Some x -> r !! i = Some x.
Proof.
  induction is as [|j is IH]; intros r i x; cbn [take_cells]; [done|]. cbn.
  intros H%IH. by apply lookup_delete_Some in H as [_ ?].
Qed.
Lemma delete_first_sub is : ∀ r i x, delete_first (r : gmap N (row V)) is !! i = Some x -> r !! i = Some x.
Proof.
  induction is as [|j is IH]; intros r i x; cbn [delete_first]; [done|].
  destruct (r !! j) eqn:E; [|by apply IH]. by intros [_ ?]%lookup_delete_Some.
Qed.

(** Altering a row by a function that only takes cells away or stamps them now *)
Lemma alter_step t (f : gmap N (row V) -> gmap N (row V)) e0 e i (r' : row V) n' :
  (∀ r x, f r !! i = Some x -> cell_step (t_now t) n' (r !! i) x) ->
  alter f e0 (t_rows t) !! e ≫= (.!! i) = Some r' -> cell_step (t_now t) n' (t_cell t e i) r'.
Proof.
  unfold t_cell. intros Hf. destruct (decide (e0 = e)) as [<-|He].
  - rewrite lookup_alter. destruct (t_rows t !! e0) as [r|]; cbn; [apply Hf|done].
  - rewrite lookup_alter_ne by done. intros ->. apply cell_step_same.
Qed.
Lemma imap_step t (f : eid -> gmap N (row V) -> gmap N (row V)) e i (r' : row V) n' :
  (∀ e r x, f e r !! i = Some x -> r !! i = Some x) ->
  map_imap (λ e r, Some (f e r)) (t_rows t) !! e ≫= (.!! i) = Some r' -> cell_step (t_now t) n' (t_cell t e i) r'.
Proof.
  unfold t_cell. intros Hf. rewrite map_lookup_imap. destruct (t_rows t !! e) as [r|]; cbn; [|done].
  intros ->%Hf. apply cell_step_same.
Qed.
Lemma sub_step n n' (r : gmap N (row V)) i x (y : gmap N (row V)) : (y !! i = Some x -> r !! i = Some x) -> y !! i = Some x -> cell_step n n' (r !! i) x.
Proof. intros H E. rewrite (H E). apply cell_step_same. Qed.

Lemma t_step_now t o ev t' : t_step t o ev t' -> t_now t <= t_now t'.
Proof. intros St. inversion St; subst; cbn; lia. Qed.

Lemma t_step_stamps t o ev t' e i r' :
  t_step t o ev t' -> t_cell t' e i = Some r' -> cell_step (t_now t) (t_now t') (t_cell t e i) r'.
Proof.
  intros St. inversion St; subst; unfold t_cell at 1; cbn [t_rows t_now set_rows].
  - destruct (decide (h = e)) as [->|He].
    + rewrite lookup_insert. cbn. intros Hx%put_cells_step. rewrite lookup_empty in Hx.
      destruct Hx as [Hx1 Hx2]. split.
      * destruct Hx1 as [|Hx1]; [done|]. by right.
      * destruct Hx2 as [Hx2|[|Hx2]]; [by left|done|]. right. by right.
    + rewrite lookup_insert_ne by done. unfold t_cell. intros ->. apply cell_step_same.
  - destruct (decide (e0 = e)) as [->|He].
    + rewrite lookup_insert. cbn. unfold t_cell. rewrite H. cbn. apply put_cells_step.
    + rewrite lookup_insert_ne by done. unfold t_cell. intros ->. apply cell_step_same.
  - unfold t_cell. destruct (decide (e0 = e)) as [<-|He].
    + rewrite lookup_alter. subst p. destruct (t_rows t !! e0) as [r|]; cbn; [|done].
      apply sub_step. apply take_cells_sub.
    + rewrite lookup_alter_ne by done. intros ->. apply cell_step_same.
  - apply alter_step. intros r x. apply sub_step. apply delete_first_sub.
  - apply alter_step. intros r x. apply sub_step. intros Hx. by apply map_filter_lookup_Some in Hx as [? _].
  - unfold t_cell. destruct (decide (e0 = e)) as [<-|He]; [by rewrite lookup_delete|].
    rewrite lookup_delete_ne by done. intros ->. apply cell_step_same.
  - unfold t_cell. intros ->. apply cell_step_same.
  - apply alter_step. intros r x. by rewrite lookup_empty.
  - apply imap_step. intros x r y. case_decide; [by rewrite lookup_empty|done].
  - apply alter_step. intros r x. apply sub_step. intros Hx. by apply map_filter_lookup_Some in Hx as [? _].
  - by rewrite lookup_empty.
  - unfold t_cell. intros ->. apply cell_step_same.
  - apply alter_step. intros r x. destruct (decide (i0 = i)) as [<-|Hi].
    + rewrite lookup_alter. destruct (r !! i0) as [o|]; cbn; [|done]. intros [= <-].
      split; [by left|]. right. right. cbn. lia.
    + rewrite lookup_alter_ne by done. intros ->. apply cell_step_same.
  - apply imap_step. intros x r y Hx. by apply map_filter_lookup_Some in Hx as [? _].
  - destruct (decide (e0 = e)) as [->|He].
    + rewrite lookup_insert. cbn. by rewrite lookup_empty.
    + rewrite lookup_insert_ne by done. unfold t_cell. intros ->. apply cell_step_same.
  - unfold t_cell. intros ->. apply cell_step_same.
  - unfold t_cell. destruct (filter _ (t_rows t) !! e) as [r|] eqn:E; cbn; [|done].
    apply map_filter_lookup_Some in E as [-> _]. cbn. intros ->. apply cell_step_same.
Qed.

(** Cells that are gone do not come back with an old stamp. *)
Lemma t_run_stamps ops : ∀ t evs t' e i r',
  t_run t ops evs t' -> t_cell t' e i = Some r' ->
  t_now t <= t_now t' ∧ cell_step (t_now t) (t_now t') (t_cell t e i) r'.
Proof.
  induction ops as [|o ops IH]; intros t evs t' e i r' R Hc; inversion R; subst.
  { split; [done|]. rewrite Hc. apply cell_step_same. }
  match goal with H : t_step _ _ _ _, H' : t_run _ _ _ _ |- _ => rename H into St; rename H' into R' end.
  destruct (IH _ _ _ _ _ _ R' Hc) as [L S2].
  pose proof (t_step_now _ _ _ _ St) as L1. split; [lia|].
  destruct (t_cell t1 e i) as [r1|] eqn:E1.
  - eapply cell_step_trans; [exact L1|exact L| |exact S2]. by apply t_step_stamps with (1 := St).
  - revert S2. unfold cell_step, stamp_step. cbn. intros [[|A1] A2]; [done|]. split; [right; lia|].
    destruct A2 as [A2|[|A2]]; [by left|done|right; right; lia].
Qed.
Lemma t_run_now ops : ∀ t evs t', t_run t ops evs t' -> t_now t <= t_now t'.
Proof.
  induction ops as [|o ops IH]; intros t evs t' R; inversion R; subst; [done|].
  etrans; [by eapply t_step_now|by eapply IH].
Qed.

(** Every stamp of the table is in the past. *)
Definition stamps_ok t : Prop :=
  1 <= t_now t ∧ ∀ e i r, t_cell t e i = Some r -> 1 <= r_ins r ∧ r_ins r < t_now t ∧ r_mod r < t_now t.
Lemma stamps_init : stamps_ok t_init.
Proof. split; [done|]. intros e i r. unfold t_cell. cbn. by rewrite lookup_empty. Qed.
Lemma stamps_step t o ev t' : t_step t o ev t' -> stamps_ok t -> stamps_ok t'.
Proof.
  intros St [H1 H]. pose proof (t_step_now _ _ _ _ St) as L. split; [lia|]. intros e i r Hc.
  destruct (t_step_stamps _ _ _ _ _ _ _ St Hc) as [A1 A2]. unfold stamp_step in *.
  destruct (t_cell t e i) as [r0|] eqn:E0.
  - specialize (H _ _ _ E0). cbn in *. destruct A1 as [[= A1]|A1], A2 as [A2|[[= A2]|A2]]; lia.
  - cbn in *. destruct A1 as [|A1]; [done|]. destruct A2 as [A2|[|A2]]; [lia|done|lia].
Qed.
Lemma stamps_run ops : ∀ t evs t', t_run t ops evs t' -> stamps_ok t -> stamps_ok t'.
Proof.
  induction ops as [|o ops IH]; intros t evs t' R H; inversion R; subst; [done|].
  eapply IH; [done|]. by eapply stamps_step.
Qed.
End stamps.

(** ** The storages under the clearing functions *)
Section clears.
Context {V : Type} (kind : N -> tracking).
Implicit Types (w : world V) (t : table V) (s : sset V).

Lemma track_ins k : k_track_insertion k = true -> (overrides k).1.1.1 = true.
Proof. by destruct k. Qed.
Lemma track_mod k : k_track_modification k = true -> (overrides k).1.1.2 = true.
Proof. by destruct k. Qed.

Lemma store_rel_last k li lm s c li' lm' :
  store_rel k li lm s c -> store_rel k li' lm' (with_last s li' lm') c.
Proof.
  intros (a & H & Hk & Hc). exists (upd_last a li' lm'). split_and!.
  - by apply SR_with_last.
  - unfold sflags, kflags in *. cbn. congruence.
  - done.
Qed.
Lemma store_clear_last k li lm s c n (ins md : bool) :
  store_rel k li lm s c ->
  store_rel k (if ins then n else li) (if md then n else lm)
    (let s := if ins then private_clear_all_inserted s n else s in
     if md then private_clear_all_modified s n else s) c.
Proof.
  intros H. destruct (store_last _ _ H) as [El Em]. destruct ins, md; cbn; [..|done].
  - unfold private_clear_all_inserted, private_clear_all_modified. cbn.
    change (with_last (with_last s n (ss_last_mod s)) n n) with (with_last s n n). by eapply store_rel_last.
  - unfold private_clear_all_inserted. rewrite Em. by eapply store_rel_last.
  - unfold private_clear_all_modified. rewrite El. by eapply store_rel_last.
Qed.

(** The table after a borrow *)
Definition t_tick t : table V := set_rows t (t_rows t).

Lemma borrow_WR li lm w t i : WR kind li lm w t -> WR kind li lm (w_borrow kind w i) (t_tick t).
Proof.
  intros [H1 H2 H3]. split; cbn.
  - exact H1.
  - intros j. apply (stores_touch kind li lm _ _ i H2 j).
  - by rewrite H3.
Qed.

Lemma view_clear_WR li lm w t i (ins md : bool) :
  WR kind li lm w t ->
  WR kind (λ j, if decide (j = i) then if ins then w_counter w else li j else li j)
          (λ j, if decide (j = i) then if md then w_counter w else lm j else lm j)
     (w_view_clear kind w i ins md) (t_tick t).
Proof.
  intros [H1 H2 H3]. split; cbn; [exact H1| |by rewrite H3].
  intros j. unfold World.store_or_new. destruct (decide (j = i)) as [->|Hj].
  - rewrite lookup_insert. cbn. apply store_clear_last. exact (H2 i).
  - rewrite lookup_insert_ne by done. exact (H2 j).
Qed.

Lemma clear_all_WR li lm w t (ins md : bool) order :
  WR kind li lm w t -> any_order w order ->
  ∃ w', w_clear_all w ins md order = Ok w' ∧
    WR kind (λ i, if decide (is_Some (w_stores w !! i)) then if ins then w_counter w else li i else li i)
            (λ i, if decide (is_Some (w_stores w !! i)) then if md then w_counter w else lm i else lm i) w' t ∧
    w_counter w' = w_counter w.
Proof.
  intros [H1 H2 H3] Ho. unfold w_clear_all.
  set (f := λ (_ : N) s, _).
  destruct (for_stores_ok f order (w_stores w)) as (m' & E & I1 & I2 & I3).
  { unfold any_order in Ho. rewrite Ho. apply NoDup_fst_map_to_list. }
  { intros i s _ _. by eexists. }
  rewrite E. cbn [rbind]. eexists. split; [done|]. split; [|done].
  split; cbn; [exact H1| |done].
  intros i. unfold World.store_or_new. pose proof (H2 i) as Hi. unfold World.store_or_new in Hi.
  destruct (w_stores w !! i) as [s|] eqn:Es.
  - destruct (I3 i s) as (s' & E' & ->); [|done|].
    { unfold any_order in Ho. rewrite Ho. apply elem_of_list_fmap. exists (i, s). split; [done|].
      by apply elem_of_map_to_list. }
    rewrite decide_True by by eexists. rewrite decide_True by by eexists.
    injection E' as <-. cbn. apply store_clear_last. exact Hi.
  - rewrite (I2 i Es). rewrite decide_False by by intros []. rewrite decide_False by by intros [].
    exact Hi.
Qed.

(** What views answer *)
Lemma view_inserted_WR li lm w t e i last :
  WR kind li lm w t -> stamps_ok t -> gen e < U16_MAX -> k_track_insertion (kind i) = true ->
  view_inserted kind w e i last =
    Ok (match t_cell t e i with Some r => default (li i) last <? r_ins r | None => false end).
Proof.
  intros H Hs Hg Hk. unfold view_inserted, k_is_inserted. rewrite (track_ins _ Hk).
  pose proof (wr_stores _ _ _ _ _ H i) as Hi. destruct (store_last _ _ Hi) as [-> _].
  rewrite (store_inserted (k := kind i) (li := li i) (lm := lm i) _ (λ x, t_cell t x i) e _ _ Hi Hg Hk).
  destruct (t_cell t e i) as [r|] eqn:E; [|done].
  destruct (proj2 Hs e i r E) as (_ & L & _). rewrite (wr_now _ _ _ _ _ H). unfold is_within.
  replace (r_ins r <=? t_now t) with true by (symmetry; apply N.leb_le; lia). by rewrite andb_true_r.
Qed.
Lemma view_modified_WR li lm w t e i last :
  WR kind li lm w t -> stamps_ok t -> gen e < U16_MAX -> k_track_modification (kind i) = true ->
  view_modified kind w e i last =
    Ok (match t_cell t e i with Some r => default (lm i) last <? r_mod r | None => false end).
Proof.
  intros H Hs Hg Hk. unfold view_modified, k_is_modified. rewrite (track_mod _ Hk).
  pose proof (wr_stores _ _ _ _ _ H i) as Hi. destruct (store_last _ _ Hi) as [_ ->].
  rewrite (store_modified (k := kind i) (li := li i) (lm := lm i) _ (λ x, t_cell t x i) e _ _ Hi Hg Hk).
  destruct (t_cell t e i) as [r|] eqn:E; [|done].
  destruct (proj2 Hs e i r E) as (_ & _ & L). rewrite (wr_now _ _ _ _ _ H). unfold is_within.
  replace (r_mod r <=? t_now t) with true by (symmetry; apply N.leb_le; lia). by rewrite andb_true_r.
Qed.
End clears.
