(** Properties C40-C43: entities with their components. *)
From stdpp Require Import prelude list gmap.
From Coq Require Import NArith Lia.
From Verif Require Import EntityId EntityIdProofs Base Entities EntitiesSpec EntitiesProofs EntitiesHistory.
From Verif Require Import SparseSet Track SparseSetSpec SparseSetProofs SparseSetProofs2 SparseSetHistory.
From Verif Require Import World WorldSpec WorldProofs WorldProofs2.
Open Scope N_scope.

Section props.
Context {V : Type} (kind : N -> tracking).
Implicit Types (w : world V) (t : table V).

(** [ops] is a history the theorems speak about, it led to [w] and the table to [t]. *)
Definition reach (ops : list (wop V)) w (evs : list (wevent V)) t : Prop :=
  w_history kind w_new ops ∧ w_run kind w_new ops = Ok (w, evs) ∧ t_run t_init ops evs t.

(** The storage of a component type as a view sees it. *)
Notation store w i := (store_or_new kind (w_stores w) i).

(** What every view shows of [e]: the components in [c] and their tracking marks. *)
Definition shows w (e : eid) (c : N -> option (row V)) : Prop := ∀ i,
  ss_get (store w i) e = Ok (r_val <$> c i) ∧
  (k_track_insertion (kind i) = true -> ∀ l u,
     is_inserted (store w i) e l u = Ok (match c i with Some r => is_within (r_ins r) l u | None => false end)) ∧
  (k_track_modification (kind i) = true -> ∀ l u,
     is_modified (store w i) e l u = Ok (match c i with Some r => is_within (r_mod r) l u | None => false end)).

(** Two worlds that no view can tell apart as far as [e] is concerned. *)
Definition same_for w w' (e : eid) : Prop :=
  is_alive (w_ents w') e = is_alive (w_ents w) e ∧ ∀ i,
  ss_get (store w' i) e = ss_get (store w i) e ∧
  (k_track_insertion (kind i) = true -> ∀ l u, is_inserted (store w' i) e l u = is_inserted (store w i) e l u) ∧
  (k_track_modification (kind i) = true -> ∀ l u, is_modified (store w' i) e l u = is_modified (store w i) e l u).

(** ** From the invariant *)
Lemma t_step_det t o ev t1 t2 : t_step t o ev t1 -> t_step t o ev t2 -> t1 = t2.
Proof. intros H1 H2. destruct H1; inversion H2; subst; try done; congruence. Qed.
Lemma t_run_det ops : ∀ t evs t1 t2, t_run t ops evs t1 -> t_run t ops evs t2 -> t1 = t2.
Proof.
  induction ops as [|o ops IH]; intros t evs t1 t2 H1 H2; inversion H1; inversion H2; subst; [done|].
  match goal with H : _ :: _ = _ :: _ |- _ => injection H as -> -> end.
  match goal with Ha : t_step t o ?e ?a, Hb : t_step t o ?e ?b |- _ =>
    pose proof (t_step_det _ _ _ _ _ Ha Hb); subst end. by eapply IH.
Qed.

(** Every handle answered by [add_entity] is in [t_issued]. *)
Lemma t_step_issued t o ev t' : t_step t o ev t' -> ∀ h, h ∈ t_issued t ∨ ev = WId h -> h ∈ t_issued t'.
Proof.
  intros St h. inversion St; subst; cbn [t_issued set_rows]; try (intros [Hh|Hh]; done).
  - rewrite elem_of_app. intros [Hh|[= ->]]; [by left|]. right. left.
  - rewrite elem_of_app. intros [Hh|Hh]; [by left|done].
Qed.
Lemma t_run_issued t ops evs t' : t_run t ops evs t' -> ∀ h, h ∈ t_issued t ∨ WId h ∈ evs -> h ∈ t_issued t'.
Proof.
  induction 1 as [t|t o ev t1 ops evs t2 St _ IH]; intros h Hh.
  - destruct Hh as [|Hh]; [done|]. by apply elem_of_nil in Hh.
  - apply IH. rewrite elem_of_cons in Hh. destruct Hh as [Hh|[Hh|Hh]]; [left|left|by right].
    + eapply t_step_issued; [done|by left].
    + eapply t_step_issued; [done|by right].
Qed.

Lemma reach_WR ops w evs t : reach ops w evs t -> WR kind (λ _, 0) (λ _, 0) w t ∧ Forall handle_ok (t_issued t).
Proof.
  intros (Hh & E & R). destruct (run_WR kind _ _ ops w_new t_init (WR_init kind) Hh) as (w' & evs' & t' & E' & R' & H & Hi).
  { constructor. }
  rewrite E in E'. injection E' as <- <-. by rewrite (t_run_det _ _ _ _ _ R R').
Qed.

Lemma WR_shows {li lm} w t e : WR kind li lm w t -> gen e < U16_MAX -> shows w e (t_cell t e).
Proof.
  intros H Hg i. pose proof (wr_stores _ _ _ _ _ H i) as Hs. split; [|split].
  - by apply (store_get (k := kind i) (li := li i) (lm := lm i) _ (λ x, t_cell t x i) e).
  - intros Hk l u. by apply (store_inserted (k := kind i) (li := li i) (lm := lm i) _ (λ x, t_cell t x i) e).
  - intros Hk l u. by apply (store_modified (k := kind i) (li := li i) (lm := lm i) _ (λ x, t_cell t x i) e).
Qed.
Lemma WR_live {li lm} w t e : WR kind li lm w t -> is_alive (w_ents w) e = true <-> is_Some (t_rows t !! e).
Proof. intros H. apply (ER_alive _ _ _ _ (wr_ents _ _ _ _ _ H)). Qed.
Lemma WR_same {li lm li' lm'} w t w' t' e :
  WR kind li lm w t -> WR kind li' lm' w' t' -> gen e < U16_MAX -> t_rows t' !! e = t_rows t !! e -> same_for w w' e.
Proof.
  intros H H' Hg E. split.
  - apply eq_bool_prop_intro. unfold Is_true.
    pose proof (WR_live _ _ e H) as L. pose proof (WR_live _ _ e H') as L'. rewrite E in L'.
    destruct (is_alive (w_ents w) e), (is_alive (w_ents w') e); naive_solver.
  - intros i. assert (t_cell t' e i = t_cell t e i) as Ec by (unfold t_cell; by rewrite E).
    destruct (WR_shows w t e H Hg i) as (A1 & A2 & A3).
    destruct (WR_shows w' t' e H' Hg i) as (B1 & B2 & B3).
    rewrite Ec in B1, B2, B3. split; [congruence|]. split; intros Hk l u.
    + by rewrite A2, B2.
    + by rewrite A3, B3.
Qed.
Lemma WR_row_gen {li lm} w t e : WR kind li lm w t -> is_Some (t_rows t !! e) -> gen e < U16_MAX.
Proof. intros H He. by destruct (ER_ok _ _ _ e (wr_ents _ _ _ _ _ H) He). Qed.

(** ** C41 *)

(** Along every history the world answers as the table does, and shows what the table holds. *)
Theorem C41_refines_partial ops :
  w_history kind w_new ops ->
  ∃ w evs t, w_run kind w_new ops = Ok (w, evs) ∧ t_run t_init ops evs t ∧
    (∀ e, is_alive (w_ents w) e = true <-> is_Some (t_rows t !! e)) ∧
    (∀ e, gen e < U16_MAX -> shows w e (t_cell t e)) ∧
    (∀ e, e ∈ t_issued t -> past w e).
Proof.
  intros Hh. destruct (run_WR kind _ _ ops w_new t_init (WR_init kind) Hh) as (w & evs & t & E & R & H & Hi);
    [constructor|].
  exists w, evs, t. split_and!; [done|done| | |].
  - intros e. by apply (WR_live _ _ e H).
  - intros e. by apply (WR_shows _ _ e H).
  - intros e He. eapply WR_issued_past; [done|done|]. rewrite Forall_forall in Hi. by apply Hi.
Qed.

(** A component is only ever seen under a live handle. *)
Theorem C41_only_live ops w evs t e i v :
  reach ops w evs t -> gen e < U16_MAX -> ss_get (store w i) e = Ok (Some v) ->
  is_alive (w_ents w) e = true.
Proof.
  intros [H _]%reach_WR Hg. destruct (WR_shows _ _ e H Hg i) as (-> & _). intros E.
  apply (WR_live _ _ e H). eapply (cell_live _ _ i). by destruct (t_cell t e i).
Qed.

(** The component of type [i] among those given, the last one when there are several. *)
Definition given (cs : list (N * V)) (i : N) : option V := snd <$> last (filter (λ c, c.1 = i) cs).

Lemma put_cells_given now cs i : r_val <$> put_cells now ∅ cs !! i = given cs i.
Proof.
  induction cs as [|[j v] cs IH] using rev_ind.
  { unfold put_cells, given. cbn. by rewrite lookup_empty. }
  unfold put_cells, given in *. rewrite foldl_app, filter_app, last_app. cbn [foldl].
  unfold put_cell at 1. cbn [fst snd].
  destruct (decide (i = j)) as [->|Hne].
  - rewrite lookup_insert, filter_cons_True by done. cbn. by destruct (_ !! j).
  - rewrite lookup_insert_ne, filter_cons_False by done. cbn. exact IH.
Qed.

(** A new entity gets a handle never seen before and exactly the components given to it: nothing
    is left of an earlier owner of the slot. *)
Theorem C41_fresh_row ops w evs t cs :
  reach ops w evs t -> lenN (e_data (w_ents w)) + 1 < max_idx ->
  ∃ w' h, w_step kind w (WAddEntity cs) = Ok (w', WId h) ∧ h ∉ t_issued t ∧
    is_alive (w_ents w') h = true ∧
    (∀ i, ss_get (store w' i) h = Ok (given cs i)) ∧
    (∀ e, e ≠ h -> gen e < U16_MAX -> same_for w w' e).
Proof.
  intros [H _]%reach_WR Hcap.
  destruct (add_entity_WR kind _ _ w t cs H Hcap) as (w' & h & t' & E & St & H').
  exists w', h. cbn [w_step]. rewrite E. inversion St; subst. split; [done|]. split; [done|].
  assert (is_Some (t_rows (Table (<[h := put_cells (t_now t) ∅ cs]> (t_rows t)) (t_issued t ++ [h]) (t_now t + 1)) !! h)) as Hl.
  { cbn. rewrite lookup_insert. by eexists. }
  split_and!.
  - by apply (WR_live _ _ h H').
  - intros i. destruct (WR_shows _ _ h H') with (i := i) as (-> & _).
    { by eapply WR_row_gen. }
    unfold t_cell. cbn. rewrite lookup_insert. cbn. by rewrite put_cells_given.
  - intros e He Hg. eapply WR_same; [done|done|done|]. cbn. by rewrite lookup_insert_ne.
Qed.

(** Components cannot be added to a dead handle. *)
Theorem C41_add_to_dead w e cs : is_alive (w_ents w) e = false -> w_step kind w (WAddComponent e cs) = Panic.
Proof. intros He. cbn. unfold w_add_component. cbn [w_tick w_ents]. by rewrite He. Qed.

(** A handle of the past that is dead reads as nothing, and nothing can be changed through it. *)
Theorem C41_dead_handle ops w evs t e :
  reach ops w evs t -> e ∈ t_issued t -> is_alive (w_ents w) e = false ->
  (∀ i, ss_get (store w i) e = Ok None) ∧
  (∀ o, (∃ is, o = WRemove e is) ∨ (∃ is, o = WDeleteComponent e is) ∨ (∃ is, o = WViewDelete e is) ∨
        (∃ order, o = WStrip e order ∧ any_order w order) ∨
        (∃ order, o = WDeleteEntity e order) ∨
        (∃ i f, o = WWrite e i f) ∨ (∃ i, o = WGet e i) ->
     ∃ w' ev, w_step kind w o = Ok (w', ev) ∧ ∀ x, gen x < U16_MAX -> same_for w w' x).
Proof.
  intros [H Hi]%reach_WR He Hd.
  assert (gen e < U16_MAX) as Hg by (rewrite Forall_forall in Hi; by apply Hi).
  assert (past w e) as Hp by (by eapply WR_issued_past).
  assert (t_rows t !! e = None) as Hn.
  { destruct (t_rows t !! e) eqn:E; [|done]. assert (is_alive (w_ents w) e = true); [|congruence].
    apply (WR_live _ _ e H). by rewrite E. }
  split.
  { intros i. destruct (WR_shows _ _ e H Hg i) as (-> & _). by rewrite cell_dead. }
  assert (∀ (f : gmap N (row V) -> gmap N (row V)) x, alter f e (t_rows t) !! x = t_rows t !! x) as Halt.
  { intros f x. destruct (decide (x = e)) as [->|].
    - rewrite lookup_alter, Hn. done.
    - by rewrite lookup_alter_ne. }
  intros o [(is & ->)|[(is & ->)|[(is & ->)|[(order & -> & Ho)|[(order & ->)|[(i & f & ->)|(i & ->)]]]]]].
  5: { exists w, (WBool false). split; [|done]. cbn [w_step]. unfold w_delete_entity.
       rewrite (ER_delete_dead _ _ _ e (wr_ents _ _ _ _ _ H)) by (cbn; rewrite Hn; by intros []).
       cbn. by destruct w. }
  all: edestruct (step_WR kind (λ _, 0) (λ _, 0) w t) as (w' & ev & t' & E & St & H'); [exact H| |exists w', ev; split; [exact E|]].
  all: try (cbn; done).
  all: intros x Hx; eapply WR_same; [done|done|done|].
  all: inversion St; subst; cbn [set_rows t_rows]; rewrite ?Halt; done.
Qed.

(** ** C40 *)

(** [delete_entity] answers whether the handle was alive; then the handle is dead and has no
    component anywhere, and nothing else changed. *)
Theorem C40_delete_entity_partial ops w evs t e order :
  reach ops w evs t -> any_order w order ->
  (is_alive (w_ents w) e = true -> gen e < last_gen) ->
  ∃ w', w_delete_entity w e order = Ok (w', is_alive (w_ents w) e) ∧
    if is_alive (w_ents w) e then
      is_alive (w_ents w') e = false ∧
      (∀ i, ss_get (store w' i) e = Ok None ∧ ss_contains (store w' i) e = false) ∧
      (∀ x, x ≠ e -> gen x < U16_MAX -> same_for w w' x)
    else w' = w.
Proof.
  intros [H _]%reach_WR Ho Hg. destruct (is_alive (w_ents w) e) eqn:Ea.
  - specialize (Hg eq_refl). assert (is_Some (t_rows t !! e)) as Hr by (by apply (WR_live _ _ e H)).
    pose proof (WR_row_gen _ _ _ H Hr) as Hm.
    destruct (delete_entity_gen kind _ _ w t e order H) as (w' & b & t' & E & St & H' & _);
      [by eapply live_past|done|done|].
    exists w'. inversion St as [| | | | |? ? r Hx|? ? Hx| | | | | | | | | |]; subst;
      [|rewrite Hx in Hr; by destruct Hr].
    split; [done|]. split_and!.
    + destruct (is_alive (w_ents w') e) eqn:Ea'; [|done]. apply (WR_live _ _ e H') in Ea'.
      cbn in Ea'. rewrite lookup_delete in Ea'. by destruct Ea'.
    + intros i. destruct (WR_shows _ _ e H' Hm i) as (E1 & _).
      rewrite E1. unfold t_cell at 1. cbn. rewrite lookup_delete. split; [done|].
      apply (store_contains (k := kind i) (li := 0) (lm := 0) _ (λ x, t_cell (set_rows t (delete e (t_rows t))) x i) e);
        [apply H'|done|]. unfold t_cell. cbn. by rewrite lookup_delete.
    + intros x Hx' Hgx. eapply WR_same; [done|done|done|]. cbn. by rewrite lookup_delete_ne.
  - exists w. split; [|done]. unfold w_delete_entity.
    rewrite (ER_delete_dead _ _ _ e (wr_ents _ _ _ _ _ H)).
    + cbn. by destruct w.
    + cbn. intros Hr. apply (WR_live _ _ e H) in Hr. congruence.
Qed.

(** [strip] takes all the components away but leaves the entity alive. *)
Theorem C40_strip ops w evs t e order :
  reach ops w evs t -> any_order w order -> past w e ->
  ∃ w', w_strip w e order = Ok w' ∧ is_alive (w_ents w') e = is_alive (w_ents w) e ∧
    (∀ i, ss_get (store w' i) e = Ok None) ∧ (∀ x, x ≠ e -> gen x < U16_MAX -> same_for w w' x).
Proof.
  intros [H _]%reach_WR Ho Hp.
  destruct (strip_WR kind _ _ w t e order H Hp Ho) as (w' & t' & E & St & H').
  exists w'. split; [done|]. inversion St; subst. split; [|split].
  - unfold w_strip in E. destruct (for_stores _ _ _) as [m| |]; cbn in E; [|done..]. by injection E as <-.
  - intros i. destruct (WR_shows _ _ e H') with (i := i) as (-> & _); [apply Hp|].
    unfold t_cell. cbn. rewrite lookup_alter. destruct (t_rows t !! e); cbn; [|done]. by rewrite lookup_empty.
  - intros x Hx Hg. eapply WR_same; [done|done|done|]. cbn. by rewrite lookup_alter_ne.
Qed.

(** [bulk_strip] (and [par_strip]) strips exactly the listed entities. *)
Theorem C40_bulk_strip ops w evs t l order :
  reach ops w evs t -> any_order w order -> Forall (past w) l ->
  ∃ w', w_bulk_strip w l order = Ok w' ∧
    (∀ e i, e ∈ l -> ss_get (store w' i) e = Ok None) ∧
    (∀ x, x ∉ l -> gen x < U16_MAX -> same_for w w' x).
Proof.
  intros [H _]%reach_WR Ho Hp.
  destruct (bulk_strip_WR kind _ _ w t l order H Hp Ho) as (w' & t' & E & St & H').
  exists w'. split; [done|]. inversion St; subst. split.
  - intros e i He. rewrite Forall_forall in Hp. destruct (Hp e He) as [Hg _].
    destruct (WR_shows _ _ e H' Hg i) as (-> & _). unfold t_cell. cbn. rewrite map_lookup_imap.
    destruct (t_rows t !! e); cbn; [|done]. rewrite decide_True by done. cbn. by rewrite lookup_empty.
  - intros x Hx Hg. eapply WR_same; [done|done|done|]. cbn. rewrite map_lookup_imap.
    destruct (t_rows t !! x); cbn; [|done]. by rewrite decide_False.
Qed.

(** ** C42 *)

(** [e] has one of the components. *)
Definition owns w (is : list N) (e : eid) : Prop := ∃ i v, i ∈ is ∧ ss_get (store w i) e = Ok (Some v).

(** [delete_any] deletes exactly the live entities with one of the components. *)
Theorem C42_delete_any_partial ops w evs t is dl :
  reach ops w evs t -> w_allowed w (WDeleteAny is dl) ->
  ∃ w', w_delete_any w is dl = Ok w' ∧
    ∀ e, gen e < U16_MAX ->
      (owns w is e ->
         is_alive (w_ents w) e = true ∧ is_alive (w_ents w') e = false ∧
         (∀ i, ss_get (store w' i) e = Ok None)) ∧
      (¬ owns w is e -> same_for w w' e).
Proof.
  intros HR A. pose proof HR as [H _]%reach_WR.
  destruct (delete_any_WR kind _ _ w t is dl H A) as (w' & t' & E & St & H').
  exists w'. split; [done|]. inversion St; subst. intros e Hg.
  assert (owns w is e <-> ∃ r, t_rows t !! e = Some r ∧ has_any is (e, r)) as Ho.
  { split.
    - intros (i & v & Hi & Hv). destruct (WR_shows _ _ e H Hg i) as (E1 & _). rewrite E1 in Hv.
      unfold t_cell in Hv. destruct (t_rows t !! e) as [r|]; cbn in Hv; [|done].
      exists r. split; [done|]. exists i. split; [done|]. cbn. destruct (r !! i); [by eexists|done].
    - intros (r & Hr & i & Hi & [x Hx]). exists i, (r_val x). split; [done|].
      destruct (WR_shows _ _ e H Hg i) as (-> & _). rewrite (cell_row _ _ _ _ Hr). cbn in Hx. by rewrite Hx. }
  split.
  - intros (r & Hr & Hx)%Ho.
    assert (t_rows (Table (filter (λ x, ¬ has_any is x) (t_rows t)) (t_issued t)
             (t_now t + 1 + N.of_nat (size (filter (has_any is) (t_rows t))))) !! e = None) as Hn.
    { cbn. apply map_filter_lookup_None. right. intros r' Hr'. rewrite Hr in Hr'. injection Hr' as <-.
      intros Hc. by apply Hc. }
    split_and!.
    + apply (WR_live _ _ e H). by rewrite Hr.
    + destruct (is_alive (w_ents w') e) eqn:Ea; [|done]. apply (WR_live _ _ e H') in Ea.
      rewrite Hn in Ea. by destruct Ea.
    + intros i. destruct (WR_shows _ _ e H' Hg i) as (-> & _). by rewrite cell_dead.
  - intros Hno. eapply WR_same; [done|done|done|]. cbn.
    destruct (t_rows t !! e) as [r|] eqn:Er.
    + apply map_filter_lookup_Some. split; [done|]. intros Hx. apply Hno, Ho. by exists r.
    + apply map_filter_lookup_None. by left.
Qed.

(** The order argument of the previous theorem always exists. *)
Theorem C42_order_exists w is :
  (∀ e, is_alive (w_ents w) e = true -> gen e < last_gen) -> ∃ dl, w_allowed w (WDeleteAny is dl).
Proof.
  intros Hl. set (l := remove_dups (is ≫= λ i, match w_stores w !! i with Some s => ss_dense s | None => [] end)).
  exists ((λ e, (e, (map_to_list (w_stores w)).*1)) <$> l). unfold w_allowed.
  split; [exact Hl|split].
  - apply Forall_fmap, Forall_true. intros e. exact (Permutation_refl _).
  - rewrite <- list_fmap_compose. unfold compose. cbn [fst]. by rewrite list_fmap_id.
Qed.

(** ** C43 *)

(** [remove] takes every listed component away and gives it back; nothing else changes. *)
Theorem C43_remove ops w evs t e is :
  reach ops w evs t -> past w e -> NoDup is ->
  ∃ w' l, w_remove kind w e is = Ok (w', l) ∧
    Forall2 (λ i o, ss_get (store w i) e = Ok o) is l ∧
    (∀ i, i ∈ is -> ss_get (store w' i) e = Ok None) ∧
    (∀ i, i ∉ is -> ss_get (store w' i) e = ss_get (store w i) e) ∧
    (∀ x, x ≠ e -> gen x < U16_MAX -> same_for w w' x).
Proof.
  intros HR Hp Hnd. pose proof HR as [H _]%reach_WR. pose proof (proj1 Hp) as Hg.
  destruct (remove_WR kind _ _ w t e is H Hp) as (w' & l & t' & E & St & H').
  exists w', l. split; [done|]. inversion St; subst.
  set (r := default ∅ (t_rows t !! e)) in *.
  assert (∀ i, t_cell t e i = r !! i) as Hr.
  { intros i. unfold t_cell, r. by destruct (t_rows t !! e). }
  assert (∀ (is : list N) (r : gmap N (row V)), NoDup is ->
            (take_cells r is).2 = (λ i, r_val <$> r !! i) <$> is ∧
            (take_cells r is).1 = filter (λ x, x.1 ∉ is) r) as Htake.
  { clear. induction is as [|i is IH]; intros r Hnd; cbn.
    - split; [done|]. symmetry. apply map_filter_id. intros. apply not_elem_of_nil.
    - apply NoDup_cons in Hnd as [Hi Hnd]. destruct (IH (delete i r) Hnd) as [-> ->]. split.
      + f_equal. apply list_fmap_ext. intros n j Hj. rewrite lookup_delete_ne; [done|].
        intros ->. apply Hi. by eapply elem_of_list_lookup_2.
      + apply map_eq. intros j. apply option_eq. intros y.
        rewrite !map_filter_lookup_Some, lookup_delete_Some. cbn. rewrite not_elem_of_cons.
        split; [intros [[? ?] ?]|intros [? [? ?]]]; done. }
  destruct (Htake is r Hnd) as [Hl Hm].
  assert (∀ i, t_cell (set_rows t (alter (λ _, (take_cells r is).1) e (t_rows t))) e i =
               if decide (i ∈ is) then None else r !! i) as Hc.
  { intros i. unfold t_cell. cbn. rewrite lookup_alter. unfold r in *.
    destruct (t_rows t !! e) as [r0|]; cbn in *.
    - rewrite Hm. case_decide.
      + apply map_filter_lookup_None. right. intros. cbn. auto.
      + destruct (r0 !! i) eqn:Ei; [by apply map_filter_lookup_Some|]. apply map_filter_lookup_None. by left.
    - rewrite lookup_empty. by case_decide. }
  split_and!.
  - change p.2 with (take_cells r is).2. rewrite Hl. clear -H Hg Hr. induction is as [|i is IH]; cbn; [constructor|]. constructor; [|done].
    destruct (WR_shows _ _ e H Hg i) as (-> & _). by rewrite Hr.
  - intros i Hi. destruct (WR_shows _ _ e H' Hg i) as (-> & _). rewrite Hc. by rewrite decide_True.
  - intros i Hi. destruct (WR_shows _ _ e H' Hg i) as (-> & _).
    destruct (WR_shows _ _ e H Hg i) as (-> & _). rewrite Hc, Hr. by rewrite decide_False.
  - intros x Hx Hgx. eapply WR_same; [done|done|done|]. cbn. by rewrite lookup_alter_ne.
Qed.

(** Deleting through views acts on every listed component. *)
Theorem C43_view_delete ops w evs t e is :
  reach ops w evs t -> past w e ->
  ∃ w' b, w_view_delete kind w e is = Ok (w', b) ∧ (b = true <-> owns w is e) ∧
    (∀ i, i ∈ is -> ss_get (store w' i) e = Ok None) ∧
    (∀ i, i ∉ is -> ss_get (store w' i) e = ss_get (store w i) e) ∧
    (∀ x, x ≠ e -> gen x < U16_MAX -> same_for w w' x).
Proof.
  intros HR Hp. pose proof HR as [H _]%reach_WR. pose proof (proj1 Hp) as Hg.
  destruct (view_delete_WR kind _ _ w t e is H Hp) as (w' & b & t' & E & St & H').
  exists w', b. split; [done|]. inversion St; subst.
  assert (∀ i, t_cell (set_rows t (alter (filter (λ c, c.1 ∉ is)) e (t_rows t))) e i =
               if decide (i ∈ is) then None else t_cell t e i) as Hc.
  { intros i. unfold t_cell. cbn. rewrite lookup_alter.
    destruct (t_rows t !! e) as [r0|]; cbn in *; [|by case_decide]. case_decide.
    - apply map_filter_lookup_None. right. intros. cbn. auto.
    - destruct (r0 !! i) eqn:Ei; [by apply map_filter_lookup_Some|]. apply map_filter_lookup_None. by left. }
  split_and!.
  - rewrite bool_decide_eq_true. split.
    + intros (i & Hi & [x Hx]). exists i, (r_val x). split; [done|].
      destruct (WR_shows _ _ e H Hg i) as (-> & _). by rewrite Hx.
    + intros (i & v & Hi & Hv). exists i. split; [done|].
      destruct (WR_shows _ _ e H Hg i) as (E1 & _). rewrite E1 in Hv.
      destruct (t_cell t e i); [by eexists|done].
  - intros i Hi. destruct (WR_shows _ _ e H' Hg i) as (-> & _). rewrite Hc. by rewrite decide_True.
  - intros i Hi. destruct (WR_shows _ _ e H' Hg i) as (-> & _).
    destruct (WR_shows _ _ e H Hg i) as (-> & _). rewrite Hc. by rewrite decide_False.
  - intros x Hx Hgx. eapply WR_same; [done|done|done|]. cbn. by rewrite lookup_alter_ne.
Qed.

(** [delete_component] of several types deletes the first one the entity has, and that one only. *)
Theorem C43_delete_component_partial ops w evs t e is :
  reach ops w evs t -> past w e ->
  ∃ w', w_delete_component kind w e is = Ok w' ∧
    (∀ pre j post, is = pre ++ j :: post -> owns w [j] e -> ¬ owns w pre e ->
       ∀ i, ss_get (store w' i) e = if decide (i = j) then Ok None else ss_get (store w i) e) ∧
    (¬ owns w is e -> ∀ i, ss_get (store w' i) e = ss_get (store w i) e) ∧
    (∀ x, x ≠ e -> gen x < U16_MAX -> same_for w w' x).
Proof.
  intros HR Hp. pose proof HR as [H _]%reach_WR. pose proof (proj1 Hp) as Hg.
  destruct (delete_component_WR kind _ _ w t e is H Hp) as (w' & t' & E & St & H').
  exists w'. split; [done|]. inversion St; subst.
  assert (∀ l, owns w l e <-> ∃ i, i ∈ l ∧ is_Some (t_cell t e i)) as Ho.
  { intros l. split.
    - intros (i & v & Hi & Hv). exists i. split; [done|].
      destruct (WR_shows _ _ e H Hg i) as (E1 & _). rewrite E1 in Hv. destruct (t_cell t e i); [by eexists|done].
    - intros (i & Hi & [x Hx]). exists i, (r_val x). split; [done|].
      destruct (WR_shows _ _ e H Hg i) as (-> & _). by rewrite Hx. }
  split_and!.
  - intros pre j post -> Hj Hpre i.
    destruct (WR_shows _ _ e H' Hg i) as (-> & _). destruct (WR_shows _ _ e H Hg i) as (-> & _).
    apply Ho in Hj as (j' & ->%elem_of_list_singleton & Hj).
    destruct (cell_live _ _ _ Hj) as [r Hr]. rewrite (cell_row _ _ _ _ Hr) in Hj.
    unfold t_cell. cbn. rewrite lookup_alter, Hr. cbn.
    assert (delete_first r (pre ++ j :: post) = delete j r) as ->.
    { assert (∀ i, i ∈ pre -> r !! i = None) as Hn.
      { intros k Hk. destruct (r !! k) eqn:Ek; [|done]. exfalso. apply Hpre, Ho. exists k. split; [done|].
        rewrite (cell_row _ _ _ _ Hr), Ek. by eexists. }
      clear -Hn Hj. induction pre as [|k pre IH]; cbn.
      - by destruct Hj as [x ->].
      - rewrite Hn by left. apply IH. intros i Hi. apply Hn. by right. }
    case_decide; [subst; by rewrite lookup_delete|]. by rewrite lookup_delete_ne.
  - intros Hno i. destruct (WR_shows _ _ e H' Hg i) as (-> & _). destruct (WR_shows _ _ e H Hg i) as (-> & _).
    do 2 f_equal. unfold t_cell. cbn. rewrite lookup_alter. destruct (t_rows t !! e) as [r|] eqn:Hr; cbn; [|done].
    f_equal. assert (∀ i, i ∈ is -> r !! i = None) as Hn.
    { intros k Hk. destruct (r !! k) eqn:Ek; [|done]. exfalso. apply Hno, Ho. exists k. split; [done|].
      rewrite (cell_row _ _ _ _ Hr), Ek. by eexists. }
    clear -Hn. induction is as [|k is IH]; cbn; [done|]. rewrite Hn by left. apply IH. intros i Hi.
    apply Hn. by right.
  - intros x Hx Hgx. eapply WR_same; [done|done|done|]. cbn. by rewrite lookup_alter_ne.
Qed.

(** In particular a single type is deleted. *)
Corollary C43_delete_one_partial ops w evs t e i :
  reach ops w evs t -> past w e ->
  ∃ w', w_delete_component kind w e [i] = Ok w' ∧ ss_get (store w' i) e = Ok None ∧
    (∀ j, j ≠ i -> ss_get (store w' j) e = ss_get (store w j) e) ∧
    (∀ x, x ≠ e -> gen x < U16_MAX -> same_for w w' x).
Proof.
  intros HR Hp. destruct (C43_delete_component_partial ops w evs t e [i] HR Hp) as (w' & E & H1 & H2 & H3).
  exists w'. split; [done|].
  pose proof (reach_WR _ _ _ _ HR) as [H _]. destruct Hp as [Hg _].
  destruct (WR_shows _ _ e H Hg i) as (Ei & _).
  destruct (t_cell t e i) as [x|] eqn:Ec.
  - assert (owns w [i] e) as Ho.
    { exists i, (r_val x). split; [by left|]. by rewrite Ei. }
    assert (¬ owns w [] e) as Hno by (intros (j & v & Hj & _); by apply elem_of_nil in Hj).
    pose proof (H1 [] i [] eq_refl Ho Hno) as H4. split_and!; [| |done].
    + rewrite H4. by rewrite decide_True.
    + intros j Hj. rewrite H4. by rewrite decide_False.
  - assert (¬ owns w [i] e) as Hno.
    { intros (j & v & ->%elem_of_list_singleton & Hv). rewrite Ei in Hv. done. }
    pose proof (H2 Hno) as H4. split_and!; [|by intros j _|done]. by rewrite H4, Ei.
Qed.
End props.

(** * Checking concrete histories *)
Section check.
Context {V : Type} (kind : N -> tracking).
Implicit Types (w : world V).

Definition past_b w (e : eid) : bool :=
  (gen e <? U16_MAX) && match getN (e_data (w_ents w)) (idx e) with Some d => gen e <=? gen d | None => true end.
Definition order_b w (order : list N) : bool := bool_decide (order ≡ₚ (map_to_list (w_stores w)).*1).
Definition small_b w : bool := forallb (λ e : eid, gen e <? last_gen) (e_data (w_ents w)).
Definition allowed_b w (o : wop V) : bool :=
  match o with
  | WAddEntity _ => lenN (e_data (w_ents w)) + 1 <? max_idx
  | WAddComponent e _ => is_alive (w_ents w) e
  | WRemove e _ | WDeleteComponent e _ | WViewDelete e _ | WWrite e _ _ | WGet e _ => past_b w e
  | WDeleteEntity e order => past_b w e && order_b w order && (gen e <? last_gen)
  | WStrip e order => past_b w e && order_b w order
  | WBulkStrip l order => forallb (past_b w) l && order_b w order
  | WRetainStorage e _ order => past_b w e && order_b w order
  | WClear order => order_b w order && small_b w
  | WRetain i _ => bool_decide (is_Some (w_stores w !! i))
  | WSpawn e => (gen e <? U16_MAX) && (idx e + 1 <? max_idx) &&
      match getN (e_data (w_ents w)) (idx e) with Some d => gen e <? gen d | None => true end
  | WDeleteAny is dl => small_b w && forallb (λ x, order_b w x.2) dl &&
      bool_decide (dl.*1 ≡ₚ remove_dups (is ≫= λ i, match w_stores w !! i with Some s => ss_dense s | None => [] end))
  end.
Fixpoint history_b w (ops : list (wop V)) : bool :=
  match ops with
  | [] => true
  | o :: ops => allowed_b w o && match w_step kind w o with Ok (w', _) => history_b w' ops | _ => true end
  end.

Lemma alive_slot (es : entities) h : is_alive es h = true -> getN (e_data es) (idx h) = Some h.
Proof.
  unfold is_alive. destruct (getN _ _); [|done]. by intros ->%bool_decide_eq_true.
Qed.
Lemma past_b_ok w e : past_b w e = true -> past w e.
Proof.
  intros [H1%N.ltb_lt H2]%andb_true_iff. split; [done|]. intros h Hh%alive_slot Hi.
  rewrite <- Hi, Hh in H2. by apply N.leb_le in H2.
Qed.
Lemma order_b_ok w order : order_b w order = true -> any_order w order.
Proof. by intros ?%bool_decide_eq_true. Qed.
Lemma small_b_ok w : small_b w = true -> ∀ i e, getN (e_data (w_ents w)) i = Some e -> gen e < last_gen.
Proof.
  intros H i e He. unfold small_b in H. rewrite forallb_forall in H. apply N.ltb_lt, H.
  rewrite getN_lookup in He. by eapply elem_of_list_In, elem_of_list_lookup_2.
Qed.
Lemma forallb_ok {A} (f : A -> bool) (P : A -> Prop) l :
  (∀ x, f x = true -> P x) -> forallb f l = true -> Forall P l.
Proof.
  intros H Hl. rewrite forallb_forall in Hl. apply Forall_forall. intros x Hx.
  by apply H, Hl, elem_of_list_In.
Qed.
Lemma allowed_b_ok w o : allowed_b w o = true -> w_allowed w o.
Proof.
  destruct o as [cs|e cs|e is|e is|e is|e order|e order|l order|e keep order|order|e i|e i f|i f|e|is dl];
    cbn [allowed_b w_allowed].
  - apply N.ltb_lt.
  - done.
  - apply past_b_ok.
  - apply past_b_ok.
  - apply past_b_ok.
  - intros [[H1 H2]%andb_true_iff H3]%andb_true_iff.
    split_and!; [by apply past_b_ok|by apply order_b_ok|by apply N.ltb_lt].
  - intros [H1 H2]%andb_true_iff. split; [by apply past_b_ok|by apply order_b_ok].
  - intros [H1 H2]%andb_true_iff. split; [|by apply order_b_ok]. eapply forallb_ok; [|done]. apply past_b_ok.
  - intros [H1 H2]%andb_true_iff. split; [by apply past_b_ok|by apply order_b_ok].
  - intros [H1 H2]%andb_true_iff. split; [by apply order_b_ok|by apply small_b_ok].
  - apply past_b_ok.
  - apply past_b_ok.
  - apply bool_decide_eq_true.
  - intros [[H1%N.ltb_lt H2%N.ltb_lt]%andb_true_iff H3]%andb_true_iff. split_and!; [done|done|].
    intros h Hh%alive_slot Hi. rewrite <- Hi, Hh in H3. by apply N.ltb_lt in H3.
  - intros [[H1 H2]%andb_true_iff H3%bool_decide_eq_true]%andb_true_iff. split_and!; [| |done].
    + intros e He%alive_slot. by eapply small_b_ok.
    + eapply forallb_ok; [|done]. intros x. apply order_b_ok.
Qed.
Lemma history_b_ok ops : ∀ w, history_b w ops = true -> w_history kind w ops.
Proof.
  induction ops as [|o ops IH]; intros w; cbn [history_b w_history]; [done|].
  intros [H1 H2]%andb_true_iff. split; [by apply allowed_b_ok|]. intros w' ev E. rewrite E in H2. by apply IH.
Qed.

Definition world_of (ops : list (wop V)) : world V :=
  match w_run kind w_new ops with Ok (w, _) => w | _ => w_new end.
Definition answers_of (ops : list (wop V)) : list (wevent V) :=
  match w_run kind w_new ops with Ok (_, evs) => evs | _ => [] end.
Lemma reach_concrete ops :
  history_b w_new ops = true ->
  ∃ t, reach kind ops (world_of ops) (answers_of ops) t ∧
       ∀ h, WId h ∈ answers_of ops -> h ∈ t_issued t ∧ past (world_of ops) h.
Proof.
  intros Hh%history_b_ok. destruct (C41_refines_partial kind ops Hh) as (w & evs & t & E & R & _ & _ & P).
  exists t. unfold world_of, answers_of, reach. rewrite E. split; [done|]. intros h Hw.
  assert (h ∈ t_issued t); [|by split; [|apply P]]. eapply t_run_issued; [done|]. by right.
Qed.
End check.

(** * Where the properties fail *)

(** The table does not cover [World::spawn] of a handle newer than the live one at its index
    (finding 11): the storages keep the components of the replaced entity, and show them under a
    handle that is dead. *)
Theorem C41_spawn_refuted :
  let ops := [WAddEntity [(0, 42)]; WSpawn (0, 1)] in
  let w := world_of (λ _, Nothing) ops in
  answers_of (λ _, Nothing) ops = [WId (0, 0); WBool true] ∧
  is_alive (w_ents w) (0, 0) = false ∧ is_alive (w_ents w) (0, 1) = true ∧
  ss_get (store_or_new (λ _, Nothing) (w_stores w) 0) (0, 0) = Ok (Some 42).
Proof. cbn zeta. split_and!; vm_compute; reflexivity. Qed.

(** Deleting an entity of the last generation answers true and leaves the handle alive (finding 8).
    65533 deletions in the same slot lead there, [spawn] goes there directly. *)
Definition last_ops : list (wop N) := [WSpawn (0, 65533); WAddComponent (0, 65533) [(0, 43)]].
Theorem C40_exhausted_refuted :
  let w := world_of (λ _, Nothing) last_ops in
  (∃ evs t, reach (λ _, Nothing) last_ops w evs t) ∧ is_alive (w_ents w) (0, 65533) = true ∧
  match w_delete_entity w (0, 65533) [0] with
  | Ok (w', b) => b = true ∧ is_alive (w_ents w') (0, 65533) = true
  | _ => False
  end.
Proof.
  cbn zeta. split.
  { destruct (reach_concrete (λ _, Nothing) last_ops) as (t & H & _); [vm_compute; reflexivity|].
    by eexists _, t. }
  split; [vm_compute; reflexivity|]. vm_compute. split; reflexivity.
Qed.
(** The same for [delete_any], and then a further component can be given to the deleted handle. *)
Theorem C42_exhausted_refuted :
  let w := world_of (λ _, Nothing) last_ops in
  (∃ evs t, reach (λ _, Nothing) last_ops w evs t) ∧
  match w_delete_any w [0] [((0, 65533), [0])] with
  | Ok w' => is_alive (w_ents w') (0, 65533) = true ∧
             match w_add_component (λ _, Nothing) w' (0, 65533) [(0, 44)] with Ok _ => True | _ => False end
  | _ => False
  end.
Proof.
  cbn zeta. split.
  { destruct (reach_concrete (λ _, Nothing) last_ops) as (t & H & _); [vm_compute; reflexivity|].
    by eexists _, t. }
  vm_compute. split; [reflexivity|exact I].
Qed.

(** [delete_component::<(A, B)>] of an entity that has both leaves the second one (finding 20). *)
Theorem C43_delete_component_refuted :
  let ops := [WAddEntity [(0, 10); (1, 11)]] in
  let w := world_of (λ _, Nothing) ops in
  (∃ t, reach (λ _, Nothing) ops w [WId (0, 0)] t ∧ past w (0, 0)) ∧
  match w_delete_component (λ _, Nothing) w (0, 0) [0; 1] with
  | Ok w' => ss_get (store_or_new (λ _, Nothing) (w_stores w') 0) (0, 0) = Ok None ∧
             ss_get (store_or_new (λ _, Nothing) (w_stores w') 1) (0, 0) = Ok (Some 11)
  | _ => False
  end.
Proof.
  cbn zeta. split.
  { destruct (reach_concrete (λ _, Nothing) [WAddEntity [(0, 10); (1, 11)]]) as (t & H & Hp);
      [vm_compute; reflexivity|].
    assert (answers_of (λ _, Nothing) [WAddEntity [(0, 10); (1, 11)]] = [WId (0, 0)]) as Ea
      by (vm_compute; reflexivity).
    rewrite Ea in H, Hp. exists t. split; [exact H|]. apply Hp. left. }
  vm_compute. split; reflexivity.
Qed.

(** * A history that meets the hypotheses *)
Definition ex_kind (i : N) : tracking := if i =? 0 then TAll else Nothing.
(** Three entities, a deleted one whose slot is used again, and some traffic on the components. *)
Definition ex_ops : list (wop N) :=
  [WAddEntity [(0, 10); (1, 11)]; WAddEntity [(1, 21)]; WAddEntity [];
   WAddComponent (2, 0) [(2, 32); (0, 30)]; WWrite (0, 0) 0 (λ v, v + 5);
   WDeleteEntity (1, 0) [2; 0; 1]; WAddEntity [(2, 52)];
   WRemove (0, 0) [1; 2]; WGet (2, 0) 0; WViewDelete (2, 0) [0; 1]; WStrip (1, 0) [0; 1; 2];
   WAddComponent (2, 0) [(0, 31)]; WRetain 0 (λ _ v, v =? 15); WSpawn (7, 3); WBulkStrip [(7, 3); (2, 0)] [1; 0; 2];
   WRetainStorage (0, 0) [0] [0; 1; 2]; WAddComponent (2, 0) [(1, 9)]].
Definition ex_w : world N := world_of ex_kind ex_ops.

Example ex_reach :
  ∃ t, reach ex_kind ex_ops ex_w
    [WId (0, 0); WId (1, 0); WId (2, 0); WUnit; WBool true; WBool true; WId (1, 1);
     WVals [Some 11; None]; WVal (Some 30); WBool true; WUnit; WUnit; WUnit; WBool true; WUnit;
     WUnit; WUnit] t ∧
    (* the hypotheses of the theorems on delete_entity, strip, delete_any, remove and delete *)
    any_order ex_w [2; 0; 1] ∧ is_alive (w_ents ex_w) (0, 0) = true ∧ gen (0, 0) < last_gen ∧
    past ex_w (0, 0) ∧ past ex_w (1, 0) ∧ is_alive (w_ents ex_w) (1, 0) = false ∧ (1, 0) ∈ t_issued t ∧
    lenN (e_data (w_ents ex_w)) + 1 < max_idx ∧
    w_allowed ex_w (WDeleteAny [0; 1] [((2, 0), [1; 2; 0]); ((0, 0), [0; 1; 2])]) ∧
    owns ex_kind ex_w [0; 1] (0, 0) ∧ ¬ owns ex_kind ex_w [1] (0, 0) ∧
    is_inserted (store_or_new ex_kind (w_stores ex_w) 0) (0, 0) 0 2 = Ok true ∧
    is_modified (store_or_new ex_kind (w_stores ex_w) 0) (0, 0) 4 5 = Ok true.
Proof.
  destruct (reach_concrete ex_kind ex_ops) as (t & H & Hp); [vm_compute; reflexivity|].
  assert (answers_of ex_kind ex_ops =
     [WId (0, 0); WId (1, 0); WId (2, 0); WUnit; WBool true; WBool true; WId (1, 1);
      WVals [Some 11; None]; WVal (Some 30); WBool true; WUnit; WUnit; WUnit; WBool true; WUnit;
      WUnit; WUnit]) as Ea by (vm_compute; reflexivity).
  rewrite Ea in H, Hp. exists t. split; [exact H|].
  destruct (Hp (0, 0)) as [_ P0]; [left|].
  destruct (Hp (1, 0)) as [I1 P1]; [right; left|].
  split; [apply order_b_ok; vm_compute; reflexivity|].
  split; [vm_compute; reflexivity|]. split; [vm_compute; reflexivity|].
  split; [exact P0|]. split; [exact P1|].
  split; [vm_compute; reflexivity|]. split; [exact I1|]. split; [vm_compute; reflexivity|].
  split; [apply allowed_b_ok; vm_compute; reflexivity|].
  split; [exists 0, 15; split; [left|vm_compute; reflexivity]|].
  split; [intros (i & v & ->%elem_of_list_singleton & Hv); vm_compute in Hv; discriminate|].
  split; vm_compute; reflexivity.
Qed.

Print Assumptions C40_delete_entity_partial.
Print Assumptions C40_strip.
Print Assumptions C40_bulk_strip.
Print Assumptions C40_exhausted_refuted.
Print Assumptions C41_refines_partial.
Print Assumptions C41_only_live.
Print Assumptions C41_fresh_row.
Print Assumptions C41_add_to_dead.
Print Assumptions C41_dead_handle.
Print Assumptions C41_spawn_refuted.
Print Assumptions C42_delete_any_partial.
Print Assumptions C42_order_exists.
Print Assumptions C42_exhausted_refuted.
Print Assumptions C43_remove.
Print Assumptions C43_view_delete.
Print Assumptions C43_delete_component_partial.
Print Assumptions C43_delete_one_partial.
Print Assumptions C43_delete_component_refuted.
