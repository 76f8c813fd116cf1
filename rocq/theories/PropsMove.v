(** Property C44: moving and cloning entities between worlds. *)
From stdpp Require Import prelude list gmap.
From Coq Require Import NArith Lia.
From Verif Require Import EntityId EntityIdProofs Base Entities EntitiesSpec EntitiesProofs EntitiesHistory.
From Verif Require Import SparseSet Track SparseSetSpec SparseSetProofs SparseSetProofs2 SparseSetHistory.
From Verif Require Import World WorldSpec WorldProofs WorldProofs2 PropsWorld Views ViewsProofs PropsViews Move.
Open Scope N_scope.

Section props.
Context {V : Type} (kind : N -> tracking).
Implicit Types (w o : world V) (t u : table V) (m om : gmap N (sset V)).

(** A cell the target gets from the source: stamped as inserted if it is new, as modified otherwise. *)
Definition given_cell (now : N) (src : option V) (dst : option (row V)) : option (row V) :=
  match src, dst with
  | Some v, Some d => Some (Row v (r_ins d) now)
  | Some v, None => Some (Row v now 0)
  | None, d => d
  end.

(** The loops *)
Lemma move_all_ok li lm li' lm' from to cur ocur order : ∀ m om c c' (r r' : gmap N (row V)),
  NoDup order -> stores_rel kind li lm m (at_row c from r) -> stores_rel kind li' lm' om (at_row c' to r') ->
  gen from < U16_MAX -> older_free c from -> handle_ok to -> others_free c' to ->
  ∃ m2 om2 r2 r2', move_all kind order m om from to cur ocur = Ok (m2, om2) ∧
    stores_rel kind li lm m2 (at_row c from r2) ∧ stores_rel kind li' lm' om2 (at_row c' to r2') ∧
    (∀ j, r2 !! j = if decide (j ∈ order) then None else r !! j) ∧
    (∀ j, r2' !! j = if decide (j ∈ order) then given_cell ocur (r_val <$> r !! j) (r' !! j) else r' !! j).
Proof.
  induction order as [|i order IH]; intros m om c c' r r' Hnd H H' Hg Hof Hok Hot; cbn [move_all].
  { exists m, om, r, r'. split_and!; try done; intros j; by rewrite decide_False by (by apply not_elem_of_nil). }
  apply NoDup_cons in Hnd as [Hi Hnd].
  destruct (m !! i) as [s|] eqn:Em.
  - pose proof (stores_some _ _ _ _ _ _ _ H Em) as Hs.
    destruct (store_remove s (λ x, at_row c from r x i) from cur Hs Hg) as (s1 & Es & Hs1).
    { apply older_none. by apply older_free_row. }
    rewrite at_row_same in Es. unfold move_one. rewrite Es. cbn [rbind].
    assert (stores_rel kind li lm (<[i := s1]> m) (at_row c from (delete i r))) as H1.
    { eapply stores_row; [exact H| |].
      - rewrite lookup_delete. exact Hs1.
      - intros j Hj. by rewrite lookup_delete_ne. }
    destruct (r !! i) as [x|] eqn:Er; cbn [fmap option_fmap option_map].
    + destruct (store_insert _ _ to (r_val x) ocur (H' i) Hok) as (os & y & Eo & Hy & Hos).
      { intros e' He' Hne. rewrite at_row_other by done. by apply Hot. }
      rewrite Eo. cbn [rbind].
      assert (stores_rel kind li' lm' (<[i := os]> om) (at_row c' to (put_cell ocur r' (i, r_val x)))) as H1'.
      { eapply stores_row; [exact H'| |].
        - unfold put_cell. cbn. rewrite lookup_insert. rewrite at_row_same in Hos. exact Hos.
        - intros j Hj. unfold put_cell. cbn. by rewrite lookup_insert_ne. }
      destruct (IH _ _ _ _ _ _ Hnd H1 H1' Hg Hof Hok Hot) as (m2 & om2 & r2 & r2' & E & A & B & C & D).
      exists m2, om2, r2, r2'. split; [done|]. split; [done|]. split; [done|]. split.
      * intros j. rewrite C. destruct (decide (j = i)) as [->|Hj].
        -- rewrite decide_False by done. rewrite (decide_True (P := i ∈ i :: order)) by left. by rewrite lookup_delete.
        -- rewrite lookup_delete_ne by done. apply decide_ext. rewrite elem_of_cons. naive_solver.
      * intros j. rewrite D. destruct (decide (j = i)) as [->|Hj].
        -- rewrite decide_False by done. rewrite (decide_True (P := i ∈ i :: order)) by left.
           rewrite Er. unfold put_cell. cbn. rewrite lookup_insert. by destruct (r' !! i).
        -- unfold put_cell. cbn. rewrite lookup_insert_ne by done. rewrite lookup_delete_ne by done.
           apply decide_ext. rewrite elem_of_cons. naive_solver.
    + cbn [rbind].
      destruct (IH _ _ _ _ _ _ Hnd H1 H' Hg Hof Hok Hot) as (m2 & om2 & r2 & r2' & E & A & B & C & D).
      exists m2, om2, r2, r2'. split; [done|]. split; [done|]. split; [done|]. split.
      * intros j. rewrite C. destruct (decide (j = i)) as [->|Hj].
        -- rewrite decide_False by done. rewrite (decide_True (P := i ∈ i :: order)) by left. by rewrite lookup_delete.
        -- rewrite lookup_delete_ne by done. apply decide_ext. rewrite elem_of_cons. naive_solver.
      * intros j. rewrite D. destruct (decide (j = i)) as [->|Hj].
        -- rewrite decide_False by done. rewrite (decide_True (P := i ∈ i :: order)) by left.
           by rewrite Er.
        -- rewrite lookup_delete_ne by done. apply decide_ext. rewrite elem_of_cons. naive_solver.
  - assert (r !! i = None) as Er.
    { pose proof (stores_missing _ _ _ _ _ _ from H Em) as Hm. by rewrite at_row_same in Hm. }
    destruct (IH _ _ _ _ _ _ Hnd H H' Hg Hof Hok Hot) as (m2 & om2 & r2 & r2' & E & A & B & C & D).
    exists m2, om2, r2, r2'. split; [done|]. split; [done|]. split; [done|]. split.
    * intros j. rewrite C. destruct (decide (j = i)) as [->|Hj].
      -- rewrite decide_False by done. rewrite (decide_True (P := i ∈ i :: order)) by left. done.
      -- apply decide_ext. rewrite elem_of_cons. naive_solver.
    * intros j. rewrite D. destruct (decide (j = i)) as [->|Hj].
      -- rewrite decide_False by done. rewrite (decide_True (P := i ∈ i :: order)) by left. by rewrite Er.
      -- apply decide_ext. rewrite elem_of_cons. naive_solver.
Qed.

Lemma clone_all_ok (clone : N -> option (V -> V)) li lm li' lm' from to ocur m c order : ∀ om c' (r' : gmap N (row V)),
  NoDup order -> stores_rel kind li lm m c -> stores_rel kind li' lm' om (at_row c' to r') ->
  gen from < U16_MAX -> handle_ok to -> others_free c' to ->
  ∃ om2 r2', clone_all kind clone order m om from to ocur = Ok om2 ∧
    stores_rel kind li' lm' om2 (at_row c' to r2') ∧
    (∀ j, r2' !! j = if decide (j ∈ order)
                     then given_cell ocur (clone j ≫= λ f, f <$> (r_val <$> c from j)) (r' !! j) else r' !! j).
Proof.
  induction order as [|i order IH]; intros om c' r' Hnd H H' Hg Hok Hot; cbn [clone_all].
  { exists om, r'. by split_and!. }
  apply NoDup_cons in Hnd as [Hi Hnd].
  assert (∀ om2 r1, (∀ j, j ≠ i -> r1 !! j = r' !! j) ->
    r1 !! i = given_cell ocur (clone i ≫= λ f, f <$> (r_val <$> c from i)) (r' !! i) ->
    stores_rel kind li' lm' om2 (at_row c' to r1) ->
    ∃ om3 r2', clone_all kind clone order m om2 from to ocur = Ok om3 ∧
      stores_rel kind li' lm' om3 (at_row c' to r2') ∧
      (∀ j, r2' !! j = if decide (j ∈ i :: order)
                     then given_cell ocur (clone j ≫= λ f, f <$> (r_val <$> c from j)) (r' !! j) else r' !! j)) as Hgo.
  { intros om2 r1 Ho Hr1 H1.
    destruct (IH om2 c' r1 Hnd H H1 Hg Hok Hot) as (om3 & r2' & E & A & B).
    exists om3, r2'. split; [done|]. split; [done|]. intros j. rewrite B. destruct (decide (j = i)) as [->|Hj].
    - rewrite decide_False by done. by rewrite (decide_True (P := i ∈ i :: order)) by left.
    - rewrite Ho by done. apply decide_ext. rewrite elem_of_cons. naive_solver. }
  destruct (m !! i) as [s|] eqn:Em.
  - pose proof (stores_some _ _ _ _ _ _ _ H Em) as Hs.
    pose proof (store_get s _ from Hs Hg) as Es. cbn beta in Es.
    unfold clone_one. destruct (clone i) as [f|] eqn:Ef; cbn [mbind option_bind] in Hgo.
    + rewrite Es. cbn [rbind]. destruct (c from i) as [x|] eqn:Ex; cbn [fmap option_fmap option_map] in *.
      * destruct (store_insert _ _ to (f (r_val x)) ocur (H' i) Hok) as (os & y & Eo & Hy & Hos).
        { intros e' He' Hne. rewrite at_row_other by done. by apply Hot. }
        rewrite Eo. cbn [rbind].
        apply (Hgo _ (put_cell ocur r' (i, f (r_val x)))).
        -- intros j Hj. unfold put_cell. cbn. by rewrite lookup_insert_ne.
        -- unfold put_cell. cbn. rewrite lookup_insert. by destruct (r' !! i).
        -- eapply stores_row; [exact H'| |].
           ++ unfold put_cell. cbn. rewrite lookup_insert. rewrite at_row_same in Hos. exact Hos.
           ++ intros j Hj. unfold put_cell. cbn. by rewrite lookup_insert_ne.
      * cbn [rbind]. by apply (Hgo _ r').
    + cbn [rbind]. by apply (Hgo _ r').
  - assert (c from i = None) as Ex by (by eapply stores_missing).
    rewrite Ex in Hgo. apply (Hgo _ r'); [done| |done]. by destruct (clone i).
Qed.

Lemma order_facts w order : any_order w order ->
  NoDup order ∧ ∀ j, j ∉ order -> w_stores w !! j = None.
Proof.
  unfold any_order. intros Ho. split.
  - rewrite Ho. apply NoDup_fst_map_to_list.
  - intros j. rewrite Ho. intros Hj. destruct (w_stores w !! j) as [s|] eqn:E; [|done]. exfalso. apply Hj.
    apply elem_of_list_fmap. exists (j, s). split; [done|]. by apply elem_of_map_to_list.
Qed.


(** ** The specification: two tables *)
Definition vals (r : gmap N (row V)) : gmap N V := r_val <$> r.
Definition given (now : N) (src : gmap N V) (dst : gmap N (row V)) : gmap N (row V) :=
  merge (given_cell now) src dst.
Lemma lookup_given now src dst i : given now src dst !! i = given_cell now (src !! i) (dst !! i).
Proof. unfold given. rewrite lookup_merge. by destruct (src !! i), (dst !! i). Qed.
Definition cloned (clone : N -> option (V -> V)) (r : gmap N (row V)) : gmap N V :=
  map_imap (λ i v, (λ f, f v) <$> clone i) (vals r).
Lemma lookup_cloned clone r i : cloned clone r !! i = clone i ≫= λ f, f <$> (r_val <$> r !! i).
Proof.
  unfold cloned, vals. rewrite map_lookup_imap, lookup_fmap. by destruct (r !! i), (clone i).
Qed.

Definition row_of t (e : eid) : gmap N (row V) := default ∅ (t_rows t !! e).
Lemma row_of_cell t e i : row_of t e !! i = t_cell t e i.
Proof. unfold row_of, t_cell. by destruct (t_rows t !! e). Qed.

Definition t_gone t (e : eid) : table V := set_rows t (delete e (t_rows t)).
Definition t_stripped t (e : eid) : table V := set_rows t (<[e := ∅]> (t_rows t)).
Definition t_arrived u (e : eid) (src : gmap N V) : table V :=
  Table (<[e := given (t_now u) src ∅]> (t_rows u)) (t_issued u ++ [e]) (t_now u + 1).
Definition t_gets u (e : eid) (src : gmap N V) : table V :=
  set_rows u (<[e := given (t_now u) src (row_of u e)]> (t_rows u)).

Lemma stamps_gone t e : stamps_ok t -> stamps_ok (t_gone t e).
Proof.
  intros [A B]. split; cbn; [lia|]. intros x i r. unfold t_cell. cbn.
  destruct (decide (x = e)) as [->|Hx]; [by rewrite lookup_delete|]. rewrite lookup_delete_ne by done.
  intros Hr. specialize (B x i r Hr). lia.
Qed.
Lemma stamps_stripped t e : stamps_ok t -> stamps_ok (t_stripped t e).
Proof.
  intros [A B]. split; cbn; [lia|]. intros x i r. unfold t_cell. cbn.
  destruct (decide (x = e)) as [->|Hx]; [rewrite lookup_insert; cbn; by rewrite lookup_empty|].
  rewrite lookup_insert_ne by done. intros Hr. specialize (B x i r Hr). lia.
Qed.
Lemma stamps_given u e src dst iss :
  stamps_ok u -> (∀ i, dst !! i = None ∨ dst !! i = t_cell u e i) ->
  stamps_ok (Table (<[e := given (t_now u) src dst]> (t_rows u)) iss (t_now u + 1)).
Proof.
  intros [A B] Hd. split; cbn; [lia|]. intros x i r. unfold t_cell. cbn.
  destruct (decide (x = e)) as [->|Hx].
  - rewrite lookup_insert. cbn. rewrite lookup_given. specialize (B e i).
    destruct (Hd i) as [->| ->]; destruct (src !! i) as [v|]; cbn.
    + intros [= <-]. cbn. lia.
    + done.
    + destruct (t_cell u e i) as [d|]; intros [= <-]; cbn; [|lia]. specialize (B d eq_refl). lia.
    + intros Hr. specialize (B r Hr). lia.
  - rewrite lookup_insert_ne by done. intros Hr. specialize (B x i r Hr). lia.
Qed.

(** ** The invariant of worlds is kept *)
Lemma full_order w t li lm order from j :
  WR kind li lm w t -> any_order w order -> j ∉ order -> t_cell t from j = None.
Proof.
  intros H Ho Hj. destruct (order_facts w order Ho) as [_ Hm].
  eapply stores_missing; [apply H|]. by apply Hm.
Qed.

Lemma move_entity_WR li lm li' lm' w t o u e order oes :
  WR kind li lm w t -> WR kind li' lm' o u ->
  is_alive (w_ents w) e = true -> gen e < last_gen -> any_order w order ->
  w_allowed o (WSpawn e) -> spawn (w_ents o) e = Ok (oes, true) ->
  ∃ w' o', w_move_entity kind w o e order = Ok (w', o') ∧
    WR kind li lm w' (t_gone t e) ∧ WR kind li' lm' o' (t_arrived u e (vals (row_of t e))) ∧
    (∀ h, is_alive (w_ents o) h = true -> idx h ≠ idx e).
Proof.
  intros H H' Hal Hg Hord (Hg16 & Hidx & Hocc) Hsp.
  assert (is_Some (t_rows t !! e)) as Hl by (by apply (WR_live kind w t e H)).
  destruct (ER_delete _ _ _ e (wr_ents _ _ _ _ _ H) Hl Hg) as (es' & Ed & HE).
  destruct (ER_spawn _ _ _ e (wr_ents _ _ _ _ _ H') Hg16 Hidx) as (oes' & b & Es & Hb).
  { intros h Hh. apply Hocc. by apply (WR_live kind o u h H'). }
  rewrite Hsp in Es. injection Es as <- <-. destruct Hb as [Hfree HE'].
  pose proof (WR_slot_free _ _ _ _ _ e H' Hfree) as Hsf.
  assert (stores_rel kind li lm (w_stores w) (at_row (t_cell t) e (row_of t e))) as Hm.
  { eapply stores_ext; [apply H|]. apply row_id. apply default_row. }
  assert (t_rows u !! e = None) as Hnone.
  { destruct (t_rows u !! e) eqn:Ee; [|done]. exfalso. eapply (Hfree e); [|done]. by rewrite Ee. }
  assert (stores_rel kind li' lm' (w_stores o) (at_row (t_cell u) e ∅)) as Hom.
  { eapply stores_ext; [apply H'|]. apply row_id. by right. }
  destruct (order_facts w order Hord) as [Hnd _].
  destruct (move_all_ok li lm li' lm' e e (w_counter w) (w_counter o) order _ _ _ _ _ _ Hnd Hm Hom Hg16)
    as (m2 & om2 & r2 & r2' & E & A & B & C & D).
  { intros x i Hix Hgx. eapply (WR_others _ _ _ w t e); [done|done|done|]. intros ->. lia. }
  { by eapply (ER_ok _ _ _ e (wr_ents _ _ _ _ _ H)). }
  { intros x i Hix _. by apply Hsf. }
  assert (r2 = ∅) as ->.
  { apply map_eq. intros j. rewrite C, lookup_empty. case_decide as Hj; [done|].
    rewrite row_of_cell. by eapply full_order. }
  assert (r2' = given (t_now u) (vals (row_of t e)) ∅) as ->.
  { apply map_eq. intros j. rewrite D, lookup_given. unfold vals. rewrite lookup_fmap, lookup_empty.
    rewrite (wr_now _ _ _ _ _ H'). case_decide as Hj; [done|].
    rewrite row_of_cell. by erewrite full_order. }
  exists (World es' m2 (w_counter w + 1)), (World oes om2 (w_counter o + 1)).
  split; [|split; [|split]].
  - unfold w_move_entity. rewrite Ed. cbn [rbind]. rewrite Hsp. cbn [rbind]. by rewrite E.
  - split; cbn.
    + eapply ER_ext; [exact HE|]. intros x. cbn. destruct (decide (x = e)) as [->|Hx].
      * rewrite lookup_delete. split; [by intros [_ ?]|by intros [? ?]].
      * rewrite lookup_delete_ne by done. split; [by intros [? _]|done].
    + eapply stores_ext; [exact A|]. apply rows_at_row.
      * intros x Hx. by rewrite lookup_delete_ne.
      * right. by rewrite lookup_delete.
    + by rewrite (wr_now _ _ _ _ _ H).
  - split; cbn.
    + eapply ER_ext; [exact HE'|]. intros x. cbn. destruct (decide (x = e)) as [->|Hx].
      * rewrite lookup_insert. split; [by eexists|by right].
      * rewrite lookup_insert_ne by done. split; [intros [?|?]; done|by left].
    + eapply stores_ext; [exact B|]. apply rows_at_row.
      * intros x Hx. by rewrite lookup_insert_ne.
      * left. by rewrite lookup_insert.
    + by rewrite (wr_now _ _ _ _ _ H').
  - intros h Hh. apply Hfree. by apply (WR_live kind o u h H').
Qed.

Lemma move_components_WR li lm li' lm' w t o u from to order :
  WR kind li lm w t -> WR kind li' lm' o u ->
  is_alive (w_ents w) from = true -> is_alive (w_ents o) to = true -> any_order w order ->
  ∃ w' o', w_move_components kind w o from to order = Ok (w', o') ∧
    WR kind li lm w' (t_stripped t from) ∧ WR kind li' lm' o' (t_gets u to (vals (row_of t from))).
Proof.
  intros H H' Hal Hal' Hord.
  assert (is_Some (t_rows t !! from)) as Hl by (by apply (WR_live kind w t from H)).
  assert (is_Some (t_rows u !! to)) as Hl' by (by apply (WR_live kind o u to H')).
  assert (stores_rel kind li lm (w_stores w) (at_row (t_cell t) from (row_of t from))) as Hm.
  { eapply stores_ext; [apply H|]. apply row_id. apply default_row. }
  assert (stores_rel kind li' lm' (w_stores o) (at_row (t_cell u) to (row_of u to))) as Hom.
  { eapply stores_ext; [apply H'|]. apply row_id. apply default_row. }
  destruct (order_facts w order Hord) as [Hnd _].
  destruct (move_all_ok li lm li' lm' from to (w_counter w) (w_counter o) order _ _ _ _ _ _ Hnd Hm Hom)
    as (m2 & om2 & r2 & r2' & E & A & B & C & D).
  { exact (WR_row_gen kind w t from H Hl). }
  { intros x i Hix Hgx. eapply (WR_others _ _ _ w t from); [done|done|done|]. intros ->. lia. }
  { by eapply (ER_ok _ _ _ to (wr_ents _ _ _ _ _ H')). }
  { by eapply (WR_others _ _ _ o u to). }
  assert (r2 = ∅) as ->.
  { apply map_eq. intros j. rewrite C, lookup_empty. case_decide as Hj; [done|].
    rewrite row_of_cell. by eapply full_order. }
  assert (r2' = given (t_now u) (vals (row_of t from)) (row_of u to)) as ->.
  { apply map_eq. intros j. rewrite D, lookup_given. unfold vals. rewrite lookup_fmap.
    rewrite (wr_now _ _ _ _ _ H'). case_decide as Hj; [done|].
    rewrite (row_of_cell t). by erewrite (full_order w t). }
  exists (World (w_ents w) m2 (w_counter w + 1)), (World (w_ents o) om2 (w_counter o + 1)).
  split; [|split].
  - unfold w_move_components. rewrite Hal, Hal'. by rewrite E.
  - split; cbn.
    + eapply ER_ext; [apply H|]. intros x. cbn. destruct (decide (x = from)) as [->|Hx].
      * rewrite lookup_insert. split; [by eexists|done].
      * by rewrite lookup_insert_ne.
    + eapply stores_ext; [exact A|]. apply rows_at_row.
      * intros x Hx. by rewrite lookup_insert_ne.
      * left. by rewrite lookup_insert.
    + by rewrite (wr_now _ _ _ _ _ H).
  - split; cbn.
    + eapply ER_ext; [apply H'|]. intros x. cbn. destruct (decide (x = to)) as [->|Hx].
      * rewrite lookup_insert. split; [by eexists|done].
      * by rewrite lookup_insert_ne.
    + eapply stores_ext; [exact B|]. apply rows_at_row.
      * intros x Hx. by rewrite lookup_insert_ne.
      * left. by rewrite lookup_insert.
    + by rewrite (wr_now _ _ _ _ _ H').
Qed.

Lemma clone_entity_WR clone li lm li' lm' w t o u e order oes :
  WR kind li lm w t -> WR kind li' lm' o u ->
  is_alive (w_ents w) e = true -> any_order w order ->
  w_allowed o (WSpawn e) -> spawn (w_ents o) e = Ok (oes, true) ->
  ∃ o', w_clone_entity_to kind clone w o e order = Ok o' ∧
    WR kind li' lm' o' (t_arrived u e (cloned clone (row_of t e))) ∧
    (∀ h, is_alive (w_ents o) h = true -> idx h ≠ idx e).
Proof.
  intros H H' Hal Hord (Hg16 & Hidx & Hocc) Hsp.
  assert (is_Some (t_rows t !! e)) as Hl by (by apply (WR_live kind w t e H)).
  destruct (ER_spawn _ _ _ e (wr_ents _ _ _ _ _ H') Hg16 Hidx) as (oes' & b & Es & Hb).
  { intros h Hh. apply Hocc. by apply (WR_live kind o u h H'). }
  rewrite Hsp in Es. injection Es as <- <-. destruct Hb as [Hfree HE'].
  pose proof (WR_slot_free _ _ _ _ _ e H' Hfree) as Hsf.
  assert (t_rows u !! e = None) as Hnone.
  { destruct (t_rows u !! e) eqn:Ee; [|done]. exfalso. eapply (Hfree e); [|done]. by rewrite Ee. }
  assert (stores_rel kind li' lm' (w_stores o) (at_row (t_cell u) e ∅)) as Hom.
  { eapply stores_ext; [apply H'|]. apply row_id. by right. }
  destruct (order_facts w order Hord) as [Hnd _].
  destruct (clone_all_ok clone li lm li' lm' e e (w_counter o) (w_stores w) (t_cell t) order _ _ _ Hnd
    (wr_stores _ _ _ _ _ H) Hom Hg16) as (om2 & r2' & E & B & D).
  { by eapply (ER_ok _ _ _ e (wr_ents _ _ _ _ _ H)). }
  { intros x i Hix _. by apply Hsf. }
  assert (r2' = given (t_now u) (cloned clone (row_of t e)) ∅) as ->.
  { apply map_eq. intros j. rewrite D, lookup_given, lookup_cloned, row_of_cell, lookup_empty.
    rewrite (wr_now _ _ _ _ _ H'). case_decide as Hj; [done|].
    erewrite (full_order w t) by done. by destruct (clone j). }
  exists (World oes om2 (w_counter o + 1)). split; [|split].
  - unfold w_clone_entity_to. rewrite Hal, Hsp. cbn [rbind]. by rewrite E.
  - split; cbn.
    + eapply ER_ext; [exact HE'|]. intros x. cbn. destruct (decide (x = e)) as [->|Hx].
      * rewrite lookup_insert. split; [by eexists|by right].
      * rewrite lookup_insert_ne by done. split; [intros [?|?]; done|by left].
    + eapply stores_ext; [exact B|]. apply rows_at_row.
      * intros x Hx. by rewrite lookup_insert_ne.
      * left. by rewrite lookup_insert.
    + by rewrite (wr_now _ _ _ _ _ H').
  - intros h Hh. apply Hfree. by apply (WR_live kind o u h H').
Qed.

Lemma clone_components_WR clone li lm li' lm' w t o u from to order :
  WR kind li lm w t -> WR kind li' lm' o u ->
  is_alive (w_ents w) from = true -> is_alive (w_ents o) to = true -> any_order w order ->
  ∃ o', w_clone_components_to kind clone w o from to order = Ok o' ∧
    WR kind li' lm' o' (t_gets u to (cloned clone (row_of t from))).
Proof.
  intros H H' Hal Hal' Hord.
  assert (is_Some (t_rows t !! from)) as Hl by (by apply (WR_live kind w t from H)).
  assert (is_Some (t_rows u !! to)) as Hl' by (by apply (WR_live kind o u to H')).
  assert (stores_rel kind li' lm' (w_stores o) (at_row (t_cell u) to (row_of u to))) as Hom.
  { eapply stores_ext; [apply H'|]. apply row_id. apply default_row. }
  destruct (order_facts w order Hord) as [Hnd _].
  destruct (clone_all_ok clone li lm li' lm' from to (w_counter o) (w_stores w) (t_cell t) order _ _ _ Hnd
    (wr_stores _ _ _ _ _ H) Hom) as (om2 & r2' & E & B & D).
  { exact (WR_row_gen kind w t from H Hl). }
  { by eapply (ER_ok _ _ _ to (wr_ents _ _ _ _ _ H')). }
  { by eapply (WR_others _ _ _ o u to). }
  assert (r2' = given (t_now u) (cloned clone (row_of t from)) (row_of u to)) as ->.
  { apply map_eq. intros j. rewrite D, lookup_given, lookup_cloned, (row_of_cell t).
    rewrite (wr_now _ _ _ _ _ H'). case_decide as Hj; [done|].
    erewrite (full_order w t) by done. by destruct (clone j). }
  exists (World (w_ents o) om2 (w_counter o + 1)). split.
  - unfold w_clone_components_to. rewrite Hal, Hal'. by rewrite E.
  - split; cbn.
    + eapply ER_ext; [apply H'|]. intros x. cbn. destruct (decide (x = to)) as [->|Hx].
      * rewrite lookup_insert. split; [by eexists|done].
      * by rewrite lookup_insert_ne.
    + eapply stores_ext; [exact B|]. apply rows_at_row.
      * intros x Hx. by rewrite lookup_insert_ne.
      * left. by rewrite lookup_insert.
    + by rewrite (wr_now _ _ _ _ _ H').
Qed.

(** ** Histories of two worlds *)

(** Everything either world can do on its own, and moves and clones between them, in any order. *)
Inductive two : world V -> table V -> world V -> table V -> Prop :=
| TwoNew : two w_new t_init w_new t_init
| TwoSwap w t o u : two w t o u -> two o u w t
| TwoAlone w t o u xs w' t' : two w t o u -> x_run kind w t xs w' t' -> two w' t' o u
| TwoMove w t o u e order oes w' o' : two w t o u ->
    is_alive (w_ents w) e = true -> gen e < last_gen -> any_order w order ->
    w_allowed o (WSpawn e) -> spawn (w_ents o) e = Ok (oes, true) ->
    w_move_entity kind w o e order = Ok (w', o') ->
    two w' (t_gone t e) o' (t_arrived u e (vals (row_of t e)))
| TwoMoveComponents w t o u from to order w' o' : two w t o u ->
    any_order w order -> w_move_components kind w o from to order = Ok (w', o') ->
    two w' (t_stripped t from) o' (t_gets u to (vals (row_of t from)))
| TwoClone clone w t o u e order oes o' : two w t o u ->
    any_order w order -> w_allowed o (WSpawn e) -> spawn (w_ents o) e = Ok (oes, true) ->
    w_clone_entity_to kind clone w o e order = Ok o' ->
    two w t o' (t_arrived u e (cloned clone (row_of t e)))
| TwoCloneComponents clone w t o u from to order o' : two w t o u ->
    any_order w order -> w_clone_components_to kind clone w o from to order = Ok o' ->
    two w t o' (t_gets u to (cloned clone (row_of t from))).

Lemma stamps_arrived u e src : stamps_ok u -> stamps_ok (t_arrived u e src).
Proof. intros H. apply stamps_given; [done|]. intros i. left. by rewrite lookup_empty. Qed.
Lemma stamps_gets u e src : stamps_ok u -> stamps_ok (t_gets u e src).
Proof. intros H. apply stamps_given; [done|]. intros i. right. by rewrite row_of_cell. Qed.

Lemma two_WR w t o u : two w t o u ->
  (∃ li lm, WR kind li lm w t ∧ stamps_ok t) ∧ (∃ li lm, WR kind li lm o u ∧ stamps_ok u).
Proof.
  induction 1 as [|w t o u R IH|w t o u xs w' t' R IH X|w t o u e order oes w' o' R IH Hal Hg Ho Ha Hsp E
    |w t o u from to order w' o' R IH Ho E|clone w t o u e order oes o' R IH Ho Ha Hsp E
    |clone w t o u from to order o' R IH Ho E].
  - split; exists (λ _, 0), (λ _, 0); (split; [apply WR_init|apply stamps_init]).
  - by split; apply IH.
  - destruct IH as [(li & lm & H & Hs) H2]. split; [|done].
    destruct (x_run_WR kind xs _ _ _ _ _ _ H Hs X) as (li' & lm' & A & B & _). by exists li', lm'.
  - destruct IH as [(li & lm & H & Hs) (li' & lm' & H' & Hs')].
    destruct (move_entity_WR _ _ _ _ w t o u e order oes H H' Hal Hg Ho Ha Hsp) as (w1 & o1 & E1 & A & B & _).
    rewrite E in E1. injection E1 as <- <-. split.
    + exists li, lm. split; [done|]. by apply stamps_gone.
    + exists li', lm'. split; [done|]. by apply stamps_arrived.
  - destruct IH as [(li & lm & H & Hs) (li' & lm' & H' & Hs')].
    assert (is_alive (w_ents w) from = true ∧ is_alive (w_ents o) to = true) as [Hal Hal'].
    { revert E. unfold w_move_components.
      by destruct (is_alive (w_ents w) from), (is_alive (w_ents o) to). }
    destruct (move_components_WR _ _ _ _ w t o u from to order H H' Hal Hal' Ho) as (w1 & o1 & E1 & A & B).
    rewrite E in E1. injection E1 as <- <-. split.
    + exists li, lm. split; [done|]. by apply stamps_stripped.
    + exists li', lm'. split; [done|]. by apply stamps_gets.
  - destruct IH as [(li & lm & H & Hs) (li' & lm' & H' & Hs')].
    assert (is_alive (w_ents w) e = true) as Hal.
    { revert E. unfold w_clone_entity_to. by destruct (is_alive (w_ents w) e). }
    destruct (clone_entity_WR clone _ _ _ _ w t o u e order oes H H' Hal Ho Ha Hsp) as (o1 & E1 & B & _).
    rewrite E in E1. injection E1 as <-. split; [by exists li, lm|].
    exists li', lm'. split; [done|]. by apply stamps_arrived.
  - destruct IH as [(li & lm & H & Hs) (li' & lm' & H' & Hs')].
    assert (is_alive (w_ents w) from = true ∧ is_alive (w_ents o) to = true) as [Hal Hal'].
    { revert E. unfold w_clone_components_to.
      by destruct (is_alive (w_ents w) from), (is_alive (w_ents o) to). }
    destruct (clone_components_WR clone _ _ _ _ w t o u from to order H H' Hal Hal' Ho) as (o1 & E1 & B).
    rewrite E in E1. injection E1 as <-. split; [by exists li, lm|].
    exists li', lm'. split; [done|]. by apply stamps_gets.
Qed.

(** ** C44 *)

(** Nothing changes for the other entities. *)
Definition rest_same w w' (e : eid) : Prop :=
  ∀ x, x ≠ e -> gen x < U16_MAX -> same_for kind w w' x.

Lemma shows_val w e c i : shows kind w e c -> ss_get (store_or_new kind (w_stores w) i) e = Ok (r_val <$> c i).
Proof. intros H. apply H. Qed.
Lemma shows_vals w e c c' : shows kind w e c -> shows kind w e c' -> ∀ i, r_val <$> c i = r_val <$> c' i.
Proof. intros H H' i. pose proof (shows_val _ _ _ i H) as A. rewrite (shows_val _ _ _ i H') in A. by injection A. Qed.
Lemma shows_ext w e c c' : shows kind w e c -> (∀ i, c i = c' i) -> shows kind w e c'.
Proof. intros H E i. rewrite <- E. apply H. Qed.

(** move_entity: afterwards the source world does not know the entity and the target has it with the
    same components, all reported as inserted at the time of the call and none as modified; no other
    entity of either world is affected.  Missing: generation 65533 or more (C44_exhausted_refuted) and
    targets where the same or an older handle lives at the index (C44_existing_refuted,
    C44_older_refuted). *)
Theorem C44_move_entity_partial w t o u e order oes c :
  two w t o u ->
  is_alive (w_ents w) e = true -> gen e < last_gen -> any_order w order ->
  w_allowed o (WSpawn e) -> spawn (w_ents o) e = Ok (oes, true) ->
  shows kind w e c ->
  ∃ w' o', w_move_entity kind w o e order = Ok (w', o') ∧
    is_alive (w_ents w') e = false ∧ shows kind w' e (λ _, None) ∧ rest_same w w' e ∧
    is_alive (w_ents o') e = true ∧
    shows kind o' e (λ i, (λ r, Row (r_val r) (w_counter o) 0) <$> c i) ∧ rest_same o o' e.
Proof.
  intros R Hal Hg Ho Ha Hsp Hc.
  destruct (two_WR w t o u R) as [(li & lm & H & Hs) (li' & lm' & H' & Hs')].
  destruct (move_entity_WR _ _ _ _ w t o u e order oes H H' Hal Hg Ho Ha Hsp) as (w1 & o1 & E & A & B & _).
  assert (gen e < U16_MAX) as Hg16 by apply Ha.
  exists w1, o1. split; [done|]. split_and!.
  - apply not_true_iff_false. rewrite (WR_live kind w1 _ e A). cbn. rewrite lookup_delete. by intros [? ?].
  - eapply shows_ext; [by apply (WR_shows kind w1 _ e A)|]. intros i. unfold t_cell. cbn. by rewrite lookup_delete.
  - intros x Hx Hgx. apply (WR_same kind _ _ _ _ x H A Hgx). cbn. by rewrite lookup_delete_ne.
  - apply (WR_live kind o1 _ e B). cbn. rewrite lookup_insert. by eexists.
  - eapply shows_ext; [by apply (WR_shows kind o1 _ e B)|]. intros i. unfold t_cell. cbn. rewrite lookup_insert. cbn.
    rewrite lookup_given, lookup_empty. unfold vals. rewrite lookup_fmap, row_of_cell, (wr_now _ _ _ _ _ H').
    pose proof (shows_vals _ _ _ _ Hc (WR_shows kind w t e H Hg16) i) as Hv.
    destruct (c i), (t_cell t e i); cbn in *; [|done|done|done]. by injection Hv as ->.
  - intros x Hx Hgx. apply (WR_same kind _ _ _ _ x H' B Hgx). cbn. by rewrite lookup_insert_ne.
Qed.

(** A dead entity cannot be moved, nor one whose index is taken by a newer entity in the target. *)
Theorem C44_move_entity_panics w t o u e order :
  two w t o u ->
  is_alive (w_ents w) e = false ∨
  (is_alive (w_ents w) e = true ∧ gen e < last_gen ∧ ∃ oes, spawn (w_ents o) e = Ok (oes, false)) ->
  w_move_entity kind w o e order = Panic.
Proof.
  intros R Hd. destruct (two_WR w t o u R) as [(li & lm & H & _) _]. unfold w_move_entity.
  destruct Hd as [Hd|(Hal & Hg & oes & Hsp)].
  - erewrite ER_delete_dead; [done|apply H|]. cbn. intros Hl%(WR_live kind w t e H). congruence.
  - destruct (ER_delete _ _ _ e (wr_ents _ _ _ _ _ H)) as (es' & -> & _); [|done|].
    + by apply (WR_live kind w t e H).
    + cbn [rbind]. by rewrite Hsp.
Qed.

(** move_components: every component of [from] leaves it and arrives at [to], overwriting (and
    reporting as modified) what was there; other components of [to] and all other entities are
    untouched. *)
Theorem C44_move_components w t o u from to order :
  two w t o u ->
  is_alive (w_ents w) from = true -> is_alive (w_ents o) to = true -> any_order w order ->
  ∃ w' o' c c', w_move_components kind w o from to order = Ok (w', o') ∧
    shows kind w from c ∧ shows kind o to c' ∧
    is_alive (w_ents w') from = true ∧ shows kind w' from (λ _, None) ∧ rest_same w w' from ∧
    is_alive (w_ents o') to = true ∧
    shows kind o' to (λ i, match c i, c' i with
                           | Some r, Some r' => Some (Row (r_val r) (r_ins r') (w_counter o))
                           | Some r, None => Some (Row (r_val r) (w_counter o) 0)
                           | None, r' => r'
                           end) ∧ rest_same o o' to.
Proof.
  intros R Hal Hal' Ho.
  destruct (two_WR w t o u R) as [(li & lm & H & Hs) (li' & lm' & H' & Hs')].
  destruct (move_components_WR _ _ _ _ w t o u from to order H H' Hal Hal' Ho) as (w1 & o1 & E & A & B).
  assert (gen from < U16_MAX) as Hg by (by eapply WR_row_gen; [exact H|]; apply (WR_live kind w t from H)).
  assert (gen to < U16_MAX) as Hg' by (by eapply WR_row_gen; [exact H'|]; apply (WR_live kind o u to H')).
  exists w1, o1, (t_cell t from), (t_cell u to). split; [done|]. split_and!.
  - by apply (WR_shows kind w t from H).
  - by apply (WR_shows kind o u to H').
  - apply (WR_live kind w1 _ from A). cbn. rewrite lookup_insert. by eexists.
  - eapply shows_ext; [by apply (WR_shows kind w1 _ from A)|]. intros i. unfold t_cell. cbn. rewrite lookup_insert.
    cbn. by rewrite lookup_empty.
  - intros x Hx Hgx. apply (WR_same kind _ _ _ _ x H A Hgx). cbn. by rewrite lookup_insert_ne.
  - apply (WR_live kind o1 _ to B). cbn. rewrite lookup_insert. by eexists.
  - eapply shows_ext; [by apply (WR_shows kind o1 _ to B)|]. intros i. unfold t_cell at 1. cbn.
    rewrite lookup_insert. cbn. rewrite lookup_given. unfold vals. rewrite lookup_fmap, !row_of_cell, (wr_now _ _ _ _ _ H').
    by destruct (t_cell t from i), (t_cell u to i).
  - intros x Hx Hgx. apply (WR_same kind _ _ _ _ x H' B Hgx). cbn. by rewrite lookup_insert_ne.
Qed.

(** clone_entity_to: the target gets the entity with clones of the components whose storage has a
    clone function; the source is not touched (it has no new state) and all other entities of the
    target stay the same. *)
Theorem C44_clone_entity_partial clone w t o u e order oes c :
  two w t o u ->
  is_alive (w_ents w) e = true -> any_order w order ->
  w_allowed o (WSpawn e) -> spawn (w_ents o) e = Ok (oes, true) ->
  shows kind w e c ->
  ∃ o', w_clone_entity_to kind clone w o e order = Ok o' ∧
    is_alive (w_ents o') e = true ∧
    shows kind o' e (λ i, match clone i, c i with
                          | Some f, Some r => Some (Row (f (r_val r)) (w_counter o) 0)
                          | _, _ => None
                          end) ∧ rest_same o o' e.
Proof.
  intros R Hal Ho Ha Hsp Hc.
  destruct (two_WR w t o u R) as [(li & lm & H & Hs) (li' & lm' & H' & Hs')].
  destruct (clone_entity_WR clone _ _ _ _ w t o u e order oes H H' Hal Ho Ha Hsp) as (o1 & E & B & _).
  assert (gen e < U16_MAX) as Hg16 by apply Ha.
  exists o1. split; [done|]. split_and!.
  - apply (WR_live kind o1 _ e B). cbn. rewrite lookup_insert. by eexists.
  - eapply shows_ext; [by apply (WR_shows kind o1 _ e B)|]. intros i. unfold t_cell. cbn. rewrite lookup_insert. cbn.
    rewrite lookup_given, lookup_cloned, lookup_empty, row_of_cell, (wr_now _ _ _ _ _ H').
    pose proof (shows_vals _ _ _ _ Hc (WR_shows kind w t e H Hg16) i) as Hv.
    destruct (clone i); [|done]. destruct (c i), (t_cell t e i); cbn in *; [|done|done|done]. by injection Hv as ->.
  - intros x Hx Hgx. apply (WR_same kind _ _ _ _ x H' B Hgx). cbn. by rewrite lookup_insert_ne.
Qed.

Theorem C44_clone_components clone w t o u from to order :
  two w t o u ->
  is_alive (w_ents w) from = true -> is_alive (w_ents o) to = true -> any_order w order ->
  ∃ o' c c', w_clone_components_to kind clone w o from to order = Ok o' ∧
    shows kind w from c ∧ shows kind o to c' ∧
    is_alive (w_ents o') to = true ∧
    shows kind o' to (λ i, match clone i, c i, c' i with
                           | Some f, Some r, Some r' => Some (Row (f (r_val r)) (r_ins r') (w_counter o))
                           | Some f, Some r, None => Some (Row (f (r_val r)) (w_counter o) 0)
                           | _, _, r' => r'
                           end) ∧ rest_same o o' to.
Proof.
  intros R Hal Hal' Ho.
  destruct (two_WR w t o u R) as [(li & lm & H & Hs) (li' & lm' & H' & Hs')].
  destruct (clone_components_WR clone _ _ _ _ w t o u from to order H H' Hal Hal' Ho) as (o1 & E & B).
  assert (gen from < U16_MAX) as Hg by (by eapply WR_row_gen; [exact H|]; apply (WR_live kind w t from H)).
  assert (gen to < U16_MAX) as Hg' by (by eapply WR_row_gen; [exact H'|]; apply (WR_live kind o u to H')).
  exists o1, (t_cell t from), (t_cell u to). split; [done|]. split_and!.
  - by apply (WR_shows kind w t from H).
  - by apply (WR_shows kind o u to H').
  - apply (WR_live kind o1 _ to B). cbn. rewrite lookup_insert. by eexists.
  - eapply shows_ext; [by apply (WR_shows kind o1 _ to B)|]. intros i. unfold t_cell at 1. cbn.
    rewrite lookup_insert. cbn. rewrite lookup_given, lookup_cloned, !row_of_cell, (wr_now _ _ _ _ _ H').
    by destruct (clone i), (t_cell t from i), (t_cell u to i).
  - intros x Hx Hgx. apply (WR_same kind _ _ _ _ x H' B Hgx). cbn. by rewrite lookup_insert_ne.
Qed.

(** The other functions refuse dead entities too. *)
Theorem C44_dead_panics clone w o from to order :
  is_alive (w_ents w) from = false ∨ is_alive (w_ents o) to = false ->
  w_move_components kind w o from to order = Panic ∧
  w_clone_components_to kind clone w o from to order = Panic ∧
  (is_alive (w_ents w) from = false -> w_clone_entity_to kind clone w o from order = Panic).
Proof.
  unfold w_move_components, w_clone_components_to, w_clone_entity_to.
  destruct (is_alive (w_ents w) from), (is_alive (w_ents o) to); intros [|]; done.
Qed.

(** ** When the caller catches the panic *)

Lemma spawn_refused es e es' : spawn es e = Ok (es', false) -> es' = es.
Proof.
  unfold spawn. destruct (getN (e_data es) (idx e)) as [old|].
  - destruct (is_alive es old).
    + destruct (gen old <=? gen e); by intros [= <-].
    + destruct (e_list es) as [[new o]|]; [|by intros [= <-]].
      destruct (gen e =? U16_MAX); [done|]. destruct (gen old <=? gen e + 1); [|by intros [= <-]].
      by destruct (unlink (e_data es) new o (idx e)) as [[d lst]| |].
  - destruct (idx e =? lenN (e_data es)); [done|]. destruct (e_list es) as [[new o]|]; [|done].
    by destruct (set_index_checked (e_data es) new (lenN (e_data es))).
Qed.
Lemma same_stores w w' x :
  w_stores w' = w_stores w -> is_alive (w_ents w') x = is_alive (w_ents w) x -> same_for kind w w' x.
Proof. intros Hm Ha. split; [done|]. intros i. by rewrite Hm. Qed.

(** The functions with the state left behind by a panic return when those without do, with the same
    worlds. *)
Theorem C44_returns clone w o e to order w' o' :
  (p_move_entity kind w o e order = Ok (w', o', true) ↔ w_move_entity kind w o e order = Ok (w', o')) ∧
  (p_move_components kind w o e to order = Ok (w', o', true) ↔ w_move_components kind w o e to order = Ok (w', o')) ∧
  (p_clone_entity_to kind clone w o e order = Ok (o', true) ↔ w_clone_entity_to kind clone w o e order = Ok o') ∧
  (p_clone_components_to kind clone w o e to order = Ok (o', true) ↔ w_clone_components_to kind clone w o e to order = Ok o').
Proof.
  split_and!.
  - unfold p_move_entity, w_move_entity. destruct (delete_unchecked (w_ents w) e) as [[es [|]]| |]; [|done..].
    cbn [rbind]. destruct (spawn (w_ents o) e) as [[oes [|]]| |]; [|done..]. cbn [rbind].
    destruct (move_all kind order _ _ e e _ _) as [[m om]| |]; [|done..]. cbn [rbind].
    split; by intros [= <- <-].
  - unfold p_move_components, w_move_components.
    destruct (is_alive (w_ents w) e), (is_alive (w_ents o) to); [|done..]. cbn [andb].
    destruct (move_all kind order _ _ e to _ _) as [[m om]| |]; [|done..]. cbn [rbind].
    split; by intros [= <- <-].
  - unfold p_clone_entity_to, w_clone_entity_to. destruct (is_alive (w_ents w) e); [|done].
    destruct (spawn (w_ents o) e) as [[oes [|]]| |]; [|done..]. cbn [rbind].
    destruct (clone_all kind clone order _ _ e e _) as [om| |]; [|done..]. cbn [rbind]. split; by intros [= <-].
  - unfold p_clone_components_to, w_clone_components_to.
    destruct (is_alive (w_ents w) e), (is_alive (w_ents o) to); [|done..]. cbn [andb].
    destruct (clone_all kind clone order _ _ e to _) as [om| |]; [|done..]. cbn [rbind]. split; by intros [= <-].
Qed.

(** Nothing is changed by a refused move_components, clone_entity_to or clone_components_to, nor by
    a move_entity that is refused because the entity is dead. *)
Theorem C44_refused_unchanged clone w o e to order w' o' :
  (is_alive (w_ents w) e = false ∧ p_move_entity kind w o e order = Ok (w', o', false)) ∨
  p_move_components kind w o e to order = Ok (w', o', false) ∨
  (w' = w ∧ p_clone_entity_to kind clone w o e order = Ok (o', false)) ∨
  (w' = w ∧ p_clone_components_to kind clone w o e to order = Ok (o', false)) ->
  ∀ x, same_for kind w w' x ∧ same_for kind o o' x.
Proof.
  intros [[Hd H]|[H|[[-> H]|[-> H]]]] x.
  - revert H. unfold p_move_entity, delete_unchecked. rewrite Hd. cbn [rbind]. intros [= <- <-].
    split; by apply same_stores.
  - revert H. unfold p_move_components. destruct (is_alive (w_ents w) e && is_alive (w_ents o) to).
    + by destruct (w_move_components kind w o e to order) as [[? ?]| |].
    + intros [= <- <-]. split; by apply same_stores.
  - split; [by apply same_stores|]. revert H. unfold p_clone_entity_to. destruct (is_alive (w_ents w) e).
    + destruct (spawn (w_ents o) e) as [[oes [|]]| |] eqn:E; [| |done..]; cbn [rbind].
      * by destruct (clone_all kind clone order _ _ e e _).
      * apply spawn_refused in E as ->. intros [= <-]. by apply same_stores.
    + intros [= <-]. by apply same_stores.
  - split; [by apply same_stores|]. revert H. unfold p_clone_components_to.
    destruct (is_alive (w_ents w) e && is_alive (w_ents o) to).
    + by destruct (w_clone_components_to kind clone w o e to order).
    + intros [= <-]. by apply same_stores.
Qed.

(** Each of these calls, returning or refused, advances the clock of every world it writes to by one, so
    what is done afterwards is newer than what it did. *)
Theorem C44_clock clone w o e to order b w' o' :
  (p_move_entity kind w o e order = Ok (w', o', b) ∨ p_move_components kind w o e to order = Ok (w', o', b) ->
   w_counter w' = w_counter w + 1 ∧ w_counter o' = w_counter o + 1) ∧
  (p_clone_entity_to kind clone w o e order = Ok (o', b) ∨ p_clone_components_to kind clone w o e to order = Ok (o', b) ->
   w_counter o' = w_counter o + 1).
Proof.
  split; intros [H|H]; revert H.
  - unfold p_move_entity. destruct (delete_unchecked (w_ents w) e) as [[es [|]]| |]; [|by intros [= <- <- _]|done..].
    cbn [rbind]. destruct (spawn (w_ents o) e) as [[oes [|]]| |]; [|by intros [= <- <- _]|done..]. cbn [rbind].
    destruct (move_all kind order _ _ e e _ _) as [[m om]| |]; [|done..]. by intros [= <- <- _].
  - unfold p_move_components, w_move_components.
    destruct (is_alive (w_ents w) e), (is_alive (w_ents o) to); cbn [andb]; try (by intros [= <- <- _]).
    destruct (move_all kind order _ _ e to _ _) as [[m om]| |]; [|done..]. by intros [= <- <- _].
  - unfold p_clone_entity_to. destruct (is_alive (w_ents w) e); [|by intros [= <- _]].
    destruct (spawn (w_ents o) e) as [[oes [|]]| |]; [|by intros [= <- _]|done..]. cbn [rbind].
    destruct (clone_all kind clone order _ _ e e _) as [om| |]; [|done..]. by intros [= <- _].
  - unfold p_clone_components_to, w_clone_components_to.
    destruct (is_alive (w_ents w) e), (is_alive (w_ents o) to); cbn [andb]; try (by intros [= <- _]).
    destruct (clone_all kind clone order _ _ e to _) as [om| |]; [|done..]. by intros [= <- _].
Qed.

(** A move_entity that is refused because of the other world kills the entity and leaves its components
    in the storages; nothing else is changed. *)
Theorem C44_refused_move w t o u e order oes :
  two w t o u ->
  is_alive (w_ents w) e = true -> gen e < last_gen -> spawn (w_ents o) e = Ok (oes, false) ->
  ∃ w' o', p_move_entity kind w o e order = Ok (w', o', false) ∧
    is_alive (w_ents w') e = false ∧ (∀ c, shows kind w e c -> shows kind w' e c) ∧
    (∀ x, x ≠ e -> same_for kind w w' x) ∧ ∀ x, same_for kind o o' x.
Proof.
  intros R Hal Hg Hsp. destruct (two_WR w t o u R) as [(li & lm & H & _) _].
  assert (is_Some (t_rows t !! e)) as Hl by (by apply (WR_live kind w t e H)).
  destruct (ER_delete _ _ _ e (wr_ents _ _ _ _ _ H) Hl Hg) as (es' & E & HE).
  pose proof (spawn_refused _ _ _ Hsp) as ->.
  exists (World es' (w_stores w) (w_counter w + 1)), (World (w_ents o) (w_stores o) (w_counter o + 1)).
  unfold p_move_entity. rewrite E. cbn [rbind]. rewrite Hsp. cbn [rbind]. split; [done|]. split_and!.
  - apply not_true_iff_false. cbn [w_ents]. rewrite (ER_alive _ _ _ _ HE). by intros [_ ?].
  - intros c Hc. exact Hc.
  - intros x Hx. apply same_stores; [done|]. cbn [w_ents].
    apply eq_bool_prop_intro. rewrite !Is_true_true, (ER_alive _ _ _ _ HE), (ER_alive _ _ _ _ (wr_ents _ _ _ _ _ H)). naive_solver.
  - intros x. by apply same_stores.
Qed.
End props.

(** ** Where the claim fails *)

(** move_entity into a world where an unrelated entity has the same handle is not refused: the two are
    merged. *)
Theorem C44_existing_refuted :
  let k := λ _ : N, Nothing in
  let w := world_of k [WAddEntity [(0, 10)]] in
  let o := world_of k [WAddEntity [(1, 99)]] in
  is_alive (w_ents w) (0, 0) = true ∧ any_order w [0] ∧ is_alive (w_ents o) (0, 0) = true ∧
  match w_move_entity k w o (0, 0) [0] with
  | Ok (w', o') => is_alive (w_ents o') (0, 0) = true ∧
      ss_get (store_or_new k (w_stores o') 0) (0, 0) = Ok (Some 10) ∧
      ss_get (store_or_new k (w_stores o') 1) (0, 0) = Ok (Some 99)
  | _ => False
  end.
Proof. cbn zeta. split; [vm_compute; reflexivity|]. split; [by apply order_b_ok; vm_compute|]. vm_compute. by split_and!. Qed.

(** An older entity of the target at the index is silently killed; its component stays behind. *)
Theorem C44_older_refuted :
  let k := λ _ : N, Nothing in
  let w := world_of k [WAddEntity []; WDeleteEntity (0, 0) []; WAddEntity [(1, 7)]] in
  let o := world_of k [WAddEntity [(0, 42)]] in
  is_alive (w_ents w) (0, 1) = true ∧ any_order w [1] ∧ is_alive (w_ents o) (0, 0) = true ∧
  match w_move_entity k w o (0, 1) [1] with
  | Ok (w', o') => is_alive (w_ents o') (0, 1) = true ∧ is_alive (w_ents o') (0, 0) = false ∧
      ss_get (store_or_new k (w_stores o') 0) (0, 0) = Ok (Some 42)
  | _ => False
  end.
Proof. cbn zeta. split; [vm_compute; reflexivity|]. split; [by apply order_b_ok; vm_compute|]. vm_compute. by split_and!. Qed.

(** An entity of generation 65533 stays alive in the world it was moved out of. *)
Theorem C44_exhausted_refuted :
  let k := λ _ : N, Nothing in
  let w := world_of k [WSpawn (0, 65533); WAddComponent (0, 65533) [(0, 5)]] in
  is_alive (w_ents w) (0, 65533) = true ∧ any_order w [0] ∧
  match w_move_entity k w w_new (0, 65533) [0] with
  | Ok (w', o') => is_alive (w_ents w') (0, 65533) = true ∧ is_alive (w_ents o') (0, 65533) = true ∧
      ss_get (store_or_new k (w_stores o') 0) (0, 65533) = Ok (Some 5)
  | _ => False
  end.
Proof. cbn zeta. split; [vm_compute; reflexivity|]. split; [by apply order_b_ok; vm_compute|]. vm_compute. by split_and!. Qed.

(** So a refused move_entity does change the source: the entity of generation 0 is gone, its component
    is still in the storage and belongs to no live entity. *)
Theorem C44_refused_refuted :
  let k := λ _ : N, TAll in
  let w := world_of k [WAddEntity [(0, 10); (1, 11)]; WAddEntity [(1, 12)]] in
  let o := world_of k [WAddEntity []; WDeleteEntity (0, 0) []; WAddEntity [(1, 20)]] in
  is_alive (w_ents w) (0, 0) = true ∧
  match p_move_entity k w o (0, 0) [1; 0] with
  | Ok (w', o', ok) => ok = false ∧ is_alive (w_ents w') (0, 0) = false ∧ is_alive (w_ents o') (0, 0) = false ∧
      ss_get (store_or_new k (w_stores w') 0) (0, 0) = Ok (Some 10) ∧
      ss_get (store_or_new k (w_stores w') 1) (0, 0) = Ok (Some 11)
  | _ => False
  end.
Proof. cbn zeta. split; [vm_compute; reflexivity|]. vm_compute. by split_and!. Qed.

(** The hypotheses are met: two worlds, an entity moved there, its components moved back to another
    entity, and clones. *)
Lemma two_concrete (k : N -> tracking) ops1 ops2 :
  history_b (V := N) k w_new ops1 = true -> history_b k w_new ops2 = true ->
  ∃ t u, two k (world_of k ops1) t (world_of k ops2) u.
Proof.
  intros (t & H1 & _)%reach_concrete (u & H2 & _)%reach_concrete. exists t, u.
  apply TwoSwap. eapply TwoAlone; [|by eapply reach_x]. apply TwoSwap. eapply TwoAlone; [|by eapply reach_x].
  apply TwoNew.
Qed.
Example ex_C44_move :
  let k := λ _ : N, TAll in
  let w := world_of k [WAddEntity [(0, 10); (1, 11)]; WAddEntity [(1, 12)]] in
  let o := world_of k [WAddEntity []; WDeleteEntity (0, 0) []; WAddEntity [(1, 20)]] in
  (∃ t u, two k w t o u) ∧ is_alive (w_ents w) (0, 0) = true ∧ gen (0, 0) < last_gen ∧ any_order w [1; 0] ∧
  w_move_entity k w o (0, 0) [1; 0] = Panic ∧ (* a newer entity has the index in the target *)
  (∃ oes, spawn (w_ents o) (0, 0) = Ok (oes, false)).
Proof.
  cbn zeta. split.
  { apply two_concrete; vm_compute; reflexivity. }
  split; [vm_compute; reflexivity|]. split; [done|]. split; [by apply order_b_ok; vm_compute|].
  split; [vm_compute; reflexivity|]. eexists. vm_compute. reflexivity.
Qed.
Example ex_C44_moved :
  let k := λ _ : N, TAll in
  let w := world_of k [WAddEntity [(1, 12)]; WAddEntity [(0, 10); (1, 11)]] in
  let o := world_of k [WAddEntity [(1, 20); (2, 21)]] in
  (∃ t u, two k w t o u) ∧ is_alive (w_ents w) (1, 0) = true ∧ gen (1, 0) < last_gen ∧ any_order w [1; 0] ∧
  w_allowed o (WSpawn (1, 0)) ∧ (∃ oes, spawn (w_ents o) (1, 0) = Ok (oes, true)) ∧
  match w_move_entity k w o (1, 0) [1; 0] with
  | Ok (w', o') => is_alive (w_ents w') (1, 0) = false ∧
      ss_get (store_or_new k (w_stores o') 0) (1, 0) = Ok (Some 10) ∧
      ss_get (store_or_new k (w_stores o') 1) (1, 0) = Ok (Some 11) ∧
      ss_get (store_or_new k (w_stores o') 1) (0, 0) = Ok (Some 20)
  | _ => False
  end.
Proof.
  cbn zeta. split.
  { apply two_concrete; vm_compute; reflexivity. }
  split; [vm_compute; reflexivity|]. split; [done|]. split; [by apply order_b_ok; vm_compute|].
  split; [by apply allowed_b_ok; vm_compute|]. split; [eexists; vm_compute; reflexivity|].
  vm_compute. by split_and!.
Qed.
Example ex_C44_components :
  let k := λ _ : N, TAll in
  let w := world_of k [WAddEntity [(1, 12)]; WAddEntity [(0, 10); (1, 11)]] in
  let o := world_of k [WAddEntity [(1, 20); (2, 21)]] in
  let clone := λ i : N, if i =? 0 then Some (λ v : N, v) else None in
  (∃ t u, two k w t o u) ∧ is_alive (w_ents w) (1, 0) = true ∧ is_alive (w_ents o) (0, 0) = true ∧ any_order w [0; 1] ∧
  match w_move_components k w o (1, 0) (0, 0) [0; 1] with
  | Ok (w', o') => is_alive (w_ents w') (1, 0) = true ∧
      ss_get (store_or_new k (w_stores w') 1) (1, 0) = Ok None ∧
      ss_get (store_or_new k (w_stores o') 0) (0, 0) = Ok (Some 10) ∧
      ss_get (store_or_new k (w_stores o') 1) (0, 0) = Ok (Some 11) ∧
      ss_get (store_or_new k (w_stores o') 2) (0, 0) = Ok (Some 21)
  | _ => False
  end ∧
  match w_clone_components_to k clone w o (1, 0) (0, 0) [0; 1], w_clone_entity_to k clone w o (1, 0) [1; 0] with
  | Ok o1, Ok o2 =>
      ss_get (store_or_new k (w_stores o1) 0) (0, 0) = Ok (Some 10) ∧
      ss_get (store_or_new k (w_stores o1) 1) (0, 0) = Ok (Some 20) ∧
      ss_get (store_or_new k (w_stores o2) 0) (1, 0) = Ok (Some 10) ∧
      ss_get (store_or_new k (w_stores o2) 1) (1, 0) = Ok None
  | _, _ => False
  end.
Proof.
  cbn zeta. split.
  { apply two_concrete; vm_compute; reflexivity. }
  split; [vm_compute; reflexivity|]. split; [vm_compute; reflexivity|]. split; [by apply order_b_ok; vm_compute|].
  split; vm_compute; by split_and!.
Qed.

(** Refused without a trace: the target of the components is dead. *)
Example ex_C44_refused :
  let k := λ _ : N, TAll in
  let w := world_of k [WAddEntity [(0, 10); (1, 11)]; WAddEntity [(1, 12)]] in
  let o := world_of k [WAddEntity []; WDeleteEntity (0, 0) []; WAddEntity [(1, 20)]] in
  p_move_components k w o (0, 0) (0, 0) [1; 0] = Ok (w_tick w, w_tick o, false) ∧
  p_clone_entity_to k (λ _, None) w o (0, 0) [1; 0] = Ok (w_tick o, false).
Proof. cbn zeta. vm_compute. by split. Qed.

Print Assumptions C44_move_entity_partial.
Print Assumptions C44_move_entity_panics.
Print Assumptions C44_move_components.
Print Assumptions C44_clone_entity_partial.
Print Assumptions C44_clone_components.
Print Assumptions C44_dead_panics.
Print Assumptions C44_existing_refuted.
Print Assumptions C44_older_refuted.
Print Assumptions C44_exhausted_refuted.
Print Assumptions C44_returns.
Print Assumptions C44_refused_unchanged.
Print Assumptions C44_clock.
Print Assumptions C44_refused_move.
Print Assumptions C44_refused_refuted.
