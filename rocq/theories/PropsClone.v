(** Property C62: cloning a world. *)
From stdpp Require Import prelude list gmap.
From Coq Require Import NArith Lia.
From Verif Require Import EntityId EntityIdProofs Base Entities EntitiesSpec EntitiesProofs EntitiesHistory.
From Verif Require Import SparseSet Track SparseSetSpec SparseSetProofs SparseSetProofs2 SparseSetHistory.
From Verif Require Import World WorldSpec WorldProofs WorldProofs2 PropsWorld Views ViewsProofs PropsViews PropsMove.
From Verif Require Import Unique CloneWorld.
Open Scope N_scope.

(** * One storage *)
Section store.
Context {V : Type}.
Implicit Types (s : sset V) (c : eid -> option (row V)).

(** The clone of a component: a new component, inserted at [now] and never written to. *)
Definition copy_row (f : V -> V) (now : N) (r : row V) : row V := Row (f (r_val r)) now 0.

Lemma lenN_replicate {A} n (x : A) : lenN (replicate n x) = N.of_nat n.
Proof. unfold lenN. by rewrite replicate_length. Qed.
Lemma getN_replicate_at {A B} (l : list A) (x : B) p y : getN l p = Some y -> getN (replicate (length l) x) p = Some x.
Proof. rewrite !getN_lookup. intros H%lookup_lt_Some. by apply lookup_replicate_2. Qed.

Lemma try_clone_rel k li lm k' s c f now :
  store_rel k li lm s c ->
  store_rel k' 0 0
    (ss_try_clone s f (k_track_insertion k') (k_track_modification k') (k_track_deletion k') (k_track_removal k') now)
    (λ e, copy_row f now <$> c e).
Proof.
  intros (a & [HI HS H1 H2 H3 H4 H5 H6 H7 H8] & Hk & Hc).
  exists (SSpec (copy_row f now <$> sp_map a) [] [] (k_track_insertion k') (k_track_modification k')
    (k_track_deletion k') (k_track_removal k') 0 0).
  split; [|split; [done|]].
  2:{ intros e. cbn [sp_map]. by rewrite lookup_fmap, Hc. }
  destruct HI as [W1 W2 W3 W4 W5 W6]. destruct HS as [R1 R2].
  split; try done.
  - split; cbn [ss_try_clone ss_sparse ss_dense ss_data ss_ins ss_mod ss_ti ss_tm]; try done.
    + unfold lenN in *. by rewrite map_length.
    + destruct (k_track_insertion k'); [|done]. apply lenN_replicate.
    + destruct (k_track_modification k'); [|done]. apply lenN_replicate.
  - split; cbn [ss_try_clone ss_sparse ss_dense ss_data ss_ins ss_mod ss_ti ss_tm sp_map].
    + intros p e Hp. destruct (R1 p e Hp) as (r & Hr & Hd & _). exists (copy_row f now r).
      split; [by rewrite lookup_fmap, Hr|]. split; [|split].
      * rewrite getN_lookup in *. change (map f (ss_data s)) with (f <$> ss_data s). by rewrite list_lookup_fmap, Hd.
      * intros ->. by apply getN_replicate_at with (y := e).
      * intros ->. by apply getN_replicate_at with (y := e).
    + intros e r Hr. rewrite lookup_fmap in Hr. destruct (sp_map a !! e) eqn:E; [|done]. by eapply R2.
Qed.
End store.

Section props.
Context {V : Type} (kind : N -> tracking).
Implicit Types (w : world V) (t u : table V) (c o : cworld V).

(** * Specification *)
(** The cloned table: every entity, with the clones of the components that can be cloned.  [now] is
    the clock of the world that receives them. *)
Definition copy_cells (fs : gmap N (V -> V)) (now : N) (r : gmap N (row V)) : gmap N (row V) :=
  map_imap (λ i x, match fs !! i with Some f => Some (copy_row f now x) | None => None end) r.
Definition t_cloned (fs : gmap N (V -> V)) (now : N) t : table V :=
  Table ((copy_cells fs now : gmap N (row V) -> gmap N (row V)) <$> t_rows t) (t_issued t) (now + 1).

Lemma cloned_cell fs now t e i :
  t_cell (t_cloned fs now t) e i = match t_cell t e i, fs !! i with Some r, Some f => Some (copy_row f now r) | _, _ => None end.
Proof.
  unfold t_cell, t_cloned. cbn. rewrite lookup_fmap. destruct (t_rows t !! e) as [r|]; [|done]. cbn.
  unfold copy_cells. rewrite map_lookup_imap. by destruct (r !! i).
Qed.

(** * The loop *)
Lemma clone_stores_lookup order (m : gmap N (sset V)) (fs : gmap N (V -> V)) now : ∀ om ofs,
  NoDup order ->
  ∀ i, (clone_stores kind order m fs om ofs now).1 !! i =
    match m !! i, fs !! i with
    | Some s, Some f => if decide (i ∈ order) then Some (store_clone kind i s f now) else om !! i
    | _, _ => om !! i
    end ∧
    (clone_stores kind order m fs om ofs now).2 !! i =
    match m !! i, fs !! i with
    | Some s, Some f => if decide (i ∈ order) then None else ofs !! i
    | _, _ => ofs !! i
    end.
Proof.
  induction order as [|j order IH]; intros om ofs Hnd i; cbn [clone_stores].
  { cbn. destruct (m !! i), (fs !! i); try done. }
  apply NoDup_cons in Hnd as [Hj Hnd].
  destruct (m !! j) as [s|] eqn:Em; [destruct (fs !! j) as [f|] eqn:Ef|].
  - destruct (IH (<[j := store_clone kind j s f now]> om) (delete j ofs) Hnd i) as [-> ->].
    destruct (decide (i = j)) as [->|Hij].
    + rewrite Em, Ef, lookup_insert, lookup_delete.
      split; (rewrite decide_False by done); by rewrite decide_True by left.
    + rewrite lookup_insert_ne, lookup_delete_ne by done.
      destruct (m !! i), (fs !! i); try done.
      split; destruct (decide (i ∈ order)), (decide (i ∈ j :: order)) as [[]%elem_of_cons|Hn%not_elem_of_cons]; tauto.
  - destruct (IH om ofs Hnd i) as [-> ->]. destruct (decide (i = j)) as [->|Hij].
    + by rewrite Em, Ef.
    + destruct (m !! i), (fs !! i); try done.
      split; destruct (decide (i ∈ order)), (decide (i ∈ j :: order)) as [[]%elem_of_cons|Hn%not_elem_of_cons]; tauto.
  - destruct (IH om ofs Hnd i) as [-> ->]. destruct (decide (i = j)) as [->|Hij].
    + by rewrite Em.
    + destruct (m !! i), (fs !! i); try done.
      split; destruct (decide (i ∈ order)), (decide (i ∈ j :: order)) as [[]%elem_of_cons|Hn%not_elem_of_cons]; tauto.
Qed.

Lemma e_try_clone_ER es P iss : ER es P iss -> ER (e_try_clone es) P iss.
Proof. intros (a & [] & H). by exists a. Qed.

Lemma order_all w order i : any_order w order -> NoDup order ∧ (i ∈ order <-> is_Some (w_stores w !! i)).
Proof.
  intros Ho. unfold any_order in Ho. rewrite Ho. split; [apply NoDup_fst_map_to_list|].
  rewrite elem_of_list_fmap. split.
  - intros ([j s] & -> & Hx%elem_of_map_to_list). by eexists.
  - intros [s Hs]. exists (i, s). split; [done|]. by apply elem_of_map_to_list.
Qed.

(** The other world holds nothing but what gets replaced. *)
Definition nothing_else c o u : Prop :=
  ∀ e i, is_Some (t_cell u e i) -> is_Some (w_stores (c_world c) !! i) ∧ is_Some (c_fn c !! i).

Lemma clone_to_WR li lm li' lm' c t o u order :
  WR kind li lm (c_world c) t -> WR kind li' lm' (c_world o) u -> any_order (c_world c) order ->
  nothing_else c o u ->
  ∃ li2 lm2, WR kind li2 lm2 (c_world (clone_storages_to kind c o order)) (t_cloned (c_fn c) (t_now u) t) ∧
    ∀ i, li2 i = (if decide (is_Some (w_stores (c_world c) !! i) ∧ is_Some (c_fn c !! i)) then 0 else li' i) ∧
         lm2 i = (if decide (is_Some (w_stores (c_world c) !! i) ∧ is_Some (c_fn c !! i)) then 0 else lm' i).
Proof.
  intros H H' Ho Hn.
  set (P i := is_Some (w_stores (c_world c) !! i) ∧ is_Some (c_fn c !! i)).
  exists (λ i, if decide (P i) then 0 else li' i), (λ i, if decide (P i) then 0 else lm' i).
  split; [|done]. split.
  - eapply ER_ext; [by apply e_try_clone_ER, H|]. intros e. cbn. rewrite lookup_fmap.
    by rewrite fmap_is_Some.
  - intros i. destruct (order_all _ order i Ho) as [Hnd Hin].
    unfold clone_storages_to. cbn [c_world w_stores]. unfold store_or_new.
    destruct (clone_stores_lookup order (w_stores (c_world c)) (c_fn c) (w_counter (c_world o))
      (w_stores (c_world o)) (c_fn o) Hnd i) as [-> _].
    rewrite (wr_now _ _ _ _ _ H').
    destruct (decide (P i)) as [[[s Es] [f Ef]]|HP].
    + rewrite Es, Ef. rewrite decide_True by (apply Hin; by eexists). cbn [default].
      pose proof (stores_some _ _ _ _ _ _ _ (wr_stores _ _ _ _ _ H) Es) as Hs.
      eapply store_rel_ext; [by eapply try_clone_rel|]. intros e. cbn. rewrite cloned_cell, Ef.
      by destruct (t_cell t e i).
    + pose proof (wr_stores _ _ _ _ _ H' i) as Hs.
      match goal with |- store_rel _ _ _ (from_option _ _ ?x) _ => replace x with (w_stores (c_world o) !! i) end.
      * eapply store_rel_ext; [exact Hs|]. intros e. cbn beta. rewrite cloned_cell.
        destruct (t_cell u e i) as [r|] eqn:Eu.
        { exfalso. apply HP. apply (Hn e i). by eexists. }
        destruct (t_cell t e i) as [r|] eqn:Et; [|done]. cbn.
        destruct (c_fn c !! i) as [f|] eqn:Ef; [|done]. exfalso. apply HP. split; [|by eexists].
        destruct (w_stores (c_world c) !! i) as [s|] eqn:Em; [by eexists|].
        by rewrite (stores_missing _ _ _ _ _ _ e (wr_stores _ _ _ _ _ H) Em) in Et.
      * destruct (w_stores (c_world c) !! i) as [s|] eqn:Es, (c_fn c !! i) as [f|] eqn:Ef; try done.
        exfalso. apply HP. split; by eexists.
  - cbn. by rewrite (wr_now _ _ _ _ _ H').
Qed.

Lemma cloned_stamps fs now t : 1 <= now -> stamps_ok (t_cloned fs now t).
Proof.
  intros Hn. split; [cbn; lia|]. intros e i r. rewrite cloned_cell.
  destruct (t_cell t e i); [|done]. cbn. destruct (fs !! i); [|done]. cbn. intros [= <-]. cbn. lia.
Qed.

(** * Histories *)
(** Worlds in which clone functions are registered at any time, and which are clones of clones. *)
Inductive c_reach : cworld V -> table V -> Prop :=
| CNew : c_reach c_new t_init
| CRun c t xs w' t' :
    c_reach c t -> x_run kind (c_world c) t xs w' t' -> c_reach (CWorld w' (c_fn c)) t'
| CRegister c t i f : c_reach c t -> c_reach (register_clone kind c i f) t
| CClone c t order :
    c_reach c t -> any_order (c_world c) order ->
    c_reach (world_clone kind c order) (t_cloned (c_fn c) 1 t).

Lemma init_nothing c o : nothing_else c o t_init.
Proof. intros e i. unfold t_cell. cbn. rewrite lookup_empty. by intros []. Qed.

Lemma c_reach_WR c t : c_reach c t -> ∃ li lm, WR kind li lm (c_world c) t ∧ stamps_ok t.
Proof.
  induction 1 as [|c t xs w' t' _ (li & lm & H & Hs) X|c t i f _ (li & lm & H & Hs)|c t order _ (li & lm & H & Hs) Ho].
  - exists (λ _, 0), (λ _, 0). split; [apply WR_init|apply stamps_init].
  - destruct (x_run_WR kind xs _ _ _ _ _ _ H Hs X) as (li' & lm' & A & B & _). by exists li', lm'.
  - exists li, lm. split; [|done]. destruct H as [H1 H2 H3]. split; [done| |done]. by apply stores_touch.
  - destruct (clone_to_WR _ _ _ _ c t c_new t_init order H (WR_init kind) Ho (init_nothing _ _)) as (li2 & lm2 & A & _).
    exists li2, lm2. split; [done|]. by apply cloned_stamps.
Qed.

Lemma run_from_WR li lm ops : ∀ w t,
  WR kind li lm w t -> w_history kind w ops ->
  ∃ w' evs t', w_run kind w ops = Ok (w', evs) ∧ t_run t ops evs t' ∧ WR kind li lm w' t'.
Proof.
  induction ops as [|x ops IH]; intros w t H Hh; cbn [w_run w_history] in *.
  { exists w, [], t. split; [done|]. split; [constructor|done]. }
  destruct Hh as [A Hh]. destruct (step_WR kind li lm w t x H A) as (w1 & ev & t1 & E & St & H1).
  destruct (IH w1 t1 H1 (Hh _ _ E)) as (w2 & evs & t2 & E2 & R2 & H2).
  exists w2, (ev :: evs), t2. rewrite E. cbn [rbind]. rewrite E2. cbn [rbind].
  split; [done|]. split; [by econstructor|done].
Qed.

(** * C62 *)
(** The clone of a world has the same live handles; for each of them it shows the clones of the
    components that have a clone function and nothing else; all of them count as inserted and none as
    modified for the first view of the new world, whatever was tracked or cleared in the original;
    nothing counts as removed or deleted.  From there on the clone is a world like any other: every
    history of operations runs without panic, answers as the table does, and never gives out a handle
    that the original had given out before. *)
Theorem C62_clone c t order :
  c_reach c t -> any_order (c_world c) order ->
  let c' := world_clone kind c order in
  (∀ e, is_alive (w_ents (c_world c')) e = is_alive (w_ents (c_world c)) e) ∧
  (∀ e i, gen e < U16_MAX ->
     ∃ v, ss_get (store_or_new kind (w_stores (c_world c)) i) e = Ok v ∧
       ss_get (store_or_new kind (w_stores (c_world c')) i) e = Ok (c_fn c !! i ≫= λ f, f <$> v) ∧
       (k_track_insertion (kind i) = true ->
          view_inserted kind (c_world c') e i None = Ok (bool_decide (is_Some (c_fn c !! i) ∧ is_Some v))) ∧
       (k_track_modification (kind i) = true -> view_modified kind (c_world c') e i None = Ok false)) ∧
  (∀ i, ss_del (store_or_new kind (w_stores (c_world c')) i) = [] ∧
        ss_rem (store_or_new kind (w_stores (c_world c')) i) = []) ∧
  (∀ ops, w_history kind (c_world c') ops ->
     ∃ w2 evs t2, w_run kind (c_world c') ops = Ok (w2, evs) ∧ t_run (t_cloned (c_fn c) 1 t) ops evs t2 ∧
       (∀ e, is_alive (w_ents w2) e = true <-> is_Some (t_rows t2 !! e)) ∧
       (∀ e, gen e < U16_MAX -> shows kind w2 e (t_cell t2 e))) ∧
  (∀ cs w2 h, lenN (e_data (w_ents (c_world c'))) + 1 < max_idx ->
     w_add_entity kind (c_world c') cs = Ok (w2, h) -> h ∉ t_issued t).
Proof.
  intros Hc Ho c'. destruct (c_reach_WR _ _ Hc) as (li & lm & H & Hs).
  destruct (clone_to_WR _ _ _ _ c t c_new t_init order H (WR_init kind) Ho (init_nothing _ _)) as (li2 & lm2 & A & Hl).
  assert (∀ i, li2 i = 0 ∧ lm2 i = 0) as Hz.
  { intros i. destruct (Hl i) as [-> ->]. by destruct (decide _). }
  change (clone_storages_to kind c c_new order) with c' in A. change (t_now t_init) with 1 in A.
  pose proof (cloned_stamps (c_fn c) 1 t ltac:(done)) as Hst.
  split_and!.
  - intros e. done.
  - intros e i Hg. exists (r_val <$> t_cell t e i).
    destruct (WR_shows kind _ _ e H Hg i) as [E1 _]. destruct (WR_shows kind _ _ e A Hg i) as [E2 _].
    split; [exact E1|]. split; [|split].
    + rewrite E2, cloned_cell. destruct (t_cell t e i) as [r|], (c_fn c !! i) as [f|]; done.
    + intros Hk. rewrite (view_inserted_WR kind _ _ _ _ _ _ _ A Hst Hg Hk). cbn [default].
      destruct (Hz i) as [-> _]. rewrite cloned_cell.
      destruct (t_cell t e i) as [r|], (c_fn c !! i) as [f|]; cbn; f_equal; symmetry;
        first [apply bool_decide_eq_true; split; by eexists
              |apply bool_decide_eq_false; by intros [[] _]
              |apply bool_decide_eq_false; by intros [_ []]].
    + intros Hk. rewrite (view_modified_WR kind _ _ _ _ _ _ _ A Hst Hg Hk). cbn [default].
      destruct (Hz i) as [_ ->]. rewrite cloned_cell.
      by destruct (t_cell t e i) as [r|], (c_fn c !! i) as [f|].
  - intros i. destruct (order_all _ order i Ho) as [Hnd Hin].
    unfold c', world_clone, clone_storages_to. cbn [c_world w_stores]. unfold store_or_new.
    destruct (clone_stores_lookup order (w_stores (c_world c)) (c_fn c) (w_counter (c_world (V:=V) c_new))
      (w_stores (c_world c_new)) (c_fn c_new) Hnd i) as [-> _]. cbn [c_new c_world w_new w_stores].
    rewrite lookup_empty. destruct (w_stores (c_world c) !! i), (c_fn c !! i); try done. by destruct (decide _).
  - intros ops Hh. destruct (run_from_WR _ _ ops _ _ A Hh) as (w2 & evs & t2 & E & R & H2).
    exists w2, evs, t2. split_and!; [done|done| |].
    + intros e. by eapply WR_live.
    + intros e Hg. by eapply WR_shows.
  - intros cs w2 h Hcap E. destruct (add_entity_WR kind _ _ _ _ cs A Hcap) as (w3 & h' & t3 & E' & St & _).
    rewrite E in E'. injection E' as <- <-. inversion St; subst. done.
Qed.

(** Registering a clone function shows nothing in the world itself; the clones made from then on have
    copies made with it, also when there was another one before; the other types are not concerned. *)
Theorem C62_registered c t i f order :
  c_reach c t -> any_order (c_world (register_clone kind c i f)) order ->
  let c1 := register_clone kind c i f in
  let c' := world_clone kind c1 order in
  (∀ e, is_alive (w_ents (c_world c1)) e = is_alive (w_ents (c_world c)) e) ∧
  (∀ j, store_or_new kind (w_stores (c_world c1)) j = store_or_new kind (w_stores (c_world c)) j) ∧
  (∀ e, gen e < U16_MAX ->
     ∃ v, ss_get (store_or_new kind (w_stores (c_world c)) i) e = Ok v ∧
          ss_get (store_or_new kind (w_stores (c_world c')) i) e = Ok (f <$> v)) ∧
  (∀ order0 e j, any_order (c_world c) order0 -> gen e < U16_MAX -> j ≠ i ->
     ss_get (store_or_new kind (w_stores (c_world c')) j) e =
     ss_get (store_or_new kind (w_stores (c_world (world_clone kind c order0))) j) e).
Proof.
  intros Hc Ho c1 c'.
  assert (∀ j, store_or_new kind (w_stores (c_world c1)) j = store_or_new kind (w_stores (c_world c)) j) as Hst.
  { intros j. unfold c1, register_clone. cbn [c_world with_stores w_stores]. unfold store_or_new at 1.
    destruct (decide (j = i)) as [->|Hj]; [by rewrite lookup_insert|by rewrite lookup_insert_ne]. }
  pose proof (C62_clone c1 t order (CRegister _ _ _ _ Hc) Ho) as (_ & H & _).
  split_and!; [done|done| |].
  - intros e Hg. destruct (H e i Hg) as (v & E1 & E2 & _). exists v. rewrite Hst in E1. split; [done|].
    etransitivity; [exact E2|]. unfold c1, register_clone. cbn [c_fn]. by rewrite lookup_insert.
  - intros order0 e j Ho0 Hg Hj. pose proof (C62_clone c t order0 Hc Ho0) as (_ & H0 & _).
    destruct (H e j Hg) as (v & E1 & E2 & _). destruct (H0 e j Hg) as (v0 & E3 & E4 & _).
    rewrite Hst, E3 in E1. injection E1 as ->. etransitivity; [exact E2|]. rewrite E4.
    unfold c1, register_clone. cbn [c_fn]. by rewrite lookup_insert_ne.
Qed.

(** [clone_storages_to] a world that is in use.  The entities of that world are replaced.  Missing
    (the hypothesis): components of the other world in storages that are not replaced, see
    [C62_ghost_refuted]. *)
Theorem C62_clone_to_partial c t o u order :
  c_reach c t -> c_reach o u -> any_order (c_world c) order -> nothing_else c o u ->
  let o' := clone_storages_to kind c o order in
  (∀ e, is_alive (w_ents (c_world o')) e = is_alive (w_ents (c_world c)) e) ∧
  (∀ e i, gen e < U16_MAX ->
     ∃ v, ss_get (store_or_new kind (w_stores (c_world c)) i) e = Ok v ∧
       ss_get (store_or_new kind (w_stores (c_world o')) i) e = Ok (c_fn c !! i ≫= λ f, f <$> v) ∧
       (* a system that ran in the other world before sees all of them as inserted *)
       (k_track_insertion (kind i) = true -> ∀ last, last < w_counter (c_world o) ->
          view_inserted kind (c_world o') e i (Some last) = Ok (bool_decide (is_Some (c_fn c !! i) ∧ is_Some v)))) ∧
  (∀ ops, w_history kind (c_world o') ops ->
     ∃ w2 evs t2, w_run kind (c_world o') ops = Ok (w2, evs) ∧ t_run (t_cloned (c_fn c) (t_now u) t) ops evs t2).
Proof.
  intros Hc Hou Ho Hn o'. destruct (c_reach_WR _ _ Hc) as (li & lm & H & Hs).
  destruct (c_reach_WR _ _ Hou) as (li' & lm' & H' & Hs').
  destruct (clone_to_WR _ _ _ _ c t o u order H H' Ho Hn) as (li2 & lm2 & A & Hl).
  change (clone_storages_to kind c o order) with o' in A.
  pose proof (cloned_stamps (c_fn c) (t_now u) t (proj1 Hs')) as Hst.
  split_and!.
  - done.
  - intros e i Hg. exists (r_val <$> t_cell t e i).
    destruct (WR_shows kind _ _ e H Hg i) as [E1 _]. destruct (WR_shows kind _ _ e A Hg i) as [E2 _].
    split; [exact E1|]. split.
    + rewrite E2, cloned_cell. destruct (t_cell t e i) as [r|], (c_fn c !! i) as [f|]; done.
    + intros Hk last L. rewrite (view_inserted_WR kind _ _ _ _ _ _ _ A Hst Hg Hk). cbn [default].
      rewrite (wr_now _ _ _ _ _ H') in L. rewrite cloned_cell.
      destruct (t_cell t e i) as [r|], (c_fn c !! i) as [f|]; cbn; f_equal; symmetry;
        first [apply bool_decide_eq_false; by intros [[] _]
              |apply bool_decide_eq_false; by intros [_ []]|idtac].
      symmetry. by apply N.ltb_lt.
  - intros ops Hh. destruct (run_from_WR _ _ ops _ _ A Hh) as (w2 & evs & t2 & E & R & H2). eauto.
Qed.
End props.

(** Uniques: the clone has the clone function's value, counts as inserted and not as modified for the
    first view; uniques without a clone function stay as they were in the other world. *)
Theorem C62_unique {V : Type} (w : uworld V) fs i :
  let w' := uw_clone_to w uw_new fs in
  (u_step w' (UView i None)).2 =
    USeen (match uw_stores w !! i, fs !! i with Some s, Some f => Some (f (u_val s), true, false) | _, _ => None end).
Proof.
  cbn. rewrite lookup_union, map_lookup_imap, lookup_empty.
  destruct (uw_stores w !! i) as [s|], (fs !! i) as [f|]; done.
Qed.
Theorem C62_unique_into {V : Type} (w o : uworld V) fs i :
  uw_stores (uw_clone_to w o fs) !! i =
    match uw_stores w !! i, fs !! i with
    | Some s, Some f => Some (us_new (f (u_val s)) (uw_counter o))
    | _, _ => uw_stores o !! i
    end.
Proof.
  cbn. rewrite lookup_union, map_lookup_imap.
  destruct (uw_stores w !! i) as [s|], (fs !! i) as [f|]; cbn; destruct (uw_stores o !! i); done.
Qed.

(** * What goes wrong *)
(** A clone cannot be cloned: the clone functions are not cloned, the second clone has the entities
    and none of the components. *)
Theorem C62_clone_of_clone_refuted :
  let k := λ _ : N, TAll in
  ∃ (c : cworld N) t order order2,
    c_reach k c t ∧ any_order (c_world c) order ∧
    let c1 := world_clone k c order in
    let c2 := world_clone k c1 order2 in
    any_order (c_world c1) order2 ∧
    ss_get (store_or_new k (w_stores (c_world c)) 0) (0, 0) = Ok (Some 10) ∧
    ss_get (store_or_new k (w_stores (c_world c1)) 0) (0, 0) = Ok (Some 10) ∧
    is_alive (w_ents (c_world c2)) (0, 0) = true ∧
    ss_get (store_or_new k (w_stores (c_world c2)) 0) (0, 0) = Ok None.
Proof.
  cbn zeta. set (k := λ _ : N, TAll).
  destruct (reach_concrete k [WAddEntity [(0, 10)]]) as (t & R & _); [vm_compute; reflexivity|].
  exists (register_clone k (CWorld (world_of k [WAddEntity [(0, 10)]]) ∅) 0 id), t, [0], [0].
  split. { apply CRegister. eapply (CRun k c_new); [apply CNew|]. by eapply reach_x. }
  split; [by apply order_b_ok; vm_compute|]. split; [by apply order_b_ok; vm_compute|]. by vm_compute.
Qed.
(** [clone_storages_to] a world in use: the components of the storages that are not replaced stay
    and belong to other entities from then on.  Here [(0, 0)] of the first world has the component 0
    only; after it is cloned into the second world it also has the component 1, which was that of an unrelated
    entity; and the dead handle (1, 0) still has a component. *)
Theorem C62_ghost_refuted :
  let k := λ _ : N, TAll in
  ∃ (c o : cworld N) t u order,
    c_reach k c t ∧ c_reach k o u ∧ any_order (c_world c) order ∧
    let o' := clone_storages_to k c o order in
    ss_get (store_or_new k (w_stores (c_world c)) 1) (0, 0) = Ok None ∧
    is_alive (w_ents (c_world o')) (0, 0) = true ∧
    ss_get (store_or_new k (w_stores (c_world o')) 1) (0, 0) = Ok (Some 20) ∧
    is_alive (w_ents (c_world o')) (1, 0) = false ∧
    ss_get (store_or_new k (w_stores (c_world o')) 1) (1, 0) = Ok (Some 21).
Proof.
  cbn zeta. set (k := λ _ : N, TAll).
  destruct (reach_concrete k [WAddEntity [(0, 10)]]) as (t & R & _); [vm_compute; reflexivity|].
  destruct (reach_concrete k [WAddEntity [(1, 20)]; WAddEntity [(1, 21)]]) as (u & R' & _); [vm_compute; reflexivity|].
  exists (register_clone k (CWorld (world_of k [WAddEntity [(0, 10)]]) ∅) 0 id),
    (CWorld (world_of k [WAddEntity [(1, 20)]; WAddEntity [(1, 21)]]) ∅), t, u, [0].
  split. { apply CRegister. eapply (CRun k c_new); [apply CNew|]. by eapply reach_x. }
  split. { eapply (CRun k c_new); [apply CNew|]. by eapply reach_x. }
  split; [by apply order_b_ok; vm_compute|]. by vm_compute.
Qed.
(** The handles of the other world do not survive either: one of its live handles comes to mean an
    entity of the first world. *)
Theorem C62_handles_refuted :
  let k := λ _ : N, TAll in
  ∃ (c o : cworld N) t u order,
    c_reach k c t ∧ c_reach k o u ∧ any_order (c_world c) order ∧ nothing_else c o u ∧
    let o' := clone_storages_to k c o order in
    is_alive (w_ents (c_world o)) (0, 0) = true ∧
    ss_get (store_or_new k (w_stores (c_world o)) 0) (0, 0) = Ok (Some 20) ∧
    is_alive (w_ents (c_world o')) (0, 0) = true ∧
    ss_get (store_or_new k (w_stores (c_world o')) 0) (0, 0) = Ok (Some 10).
Proof.
  cbn zeta. set (k := λ _ : N, TAll).
  destruct (reach_concrete k [WAddEntity [(0, 10)]]) as (t & R & _); [vm_compute; reflexivity|].
  destruct (reach_concrete k [WAddEntity [(0, 20)]]) as (u & R' & Hu); [vm_compute; reflexivity|].
  exists (register_clone k (CWorld (world_of k [WAddEntity [(0, 10)]]) ∅) 0 id),
    (CWorld (world_of k [WAddEntity [(0, 20)]]) ∅), t, u, [0].
  assert (c_reach k (CWorld (world_of k [WAddEntity [(0, 20)]]) ∅) u) as Ho.
  { eapply (CRun k c_new); [apply CNew|]. by eapply reach_x. }
  split. { apply CRegister. eapply (CRun k c_new); [apply CNew|]. by eapply reach_x. }
  split; [exact Ho|]. split; [by apply order_b_ok; vm_compute|]. split; [|by vm_compute].
  intros e i Hi. destruct (decide (i = 0)) as [->|Hne].
  { split; [eexists; vm_compute; reflexivity|]. eexists. vm_compute. reflexivity. }
  exfalso. destruct (c_reach_WR _ _ _ Ho) as (li & lm & H & _).
  destruct Hi as [r Hr]. rewrite (stores_missing _ _ _ _ _ i e (wr_stores _ _ _ _ _ H)) in Hr; [done|].
  cbn [c_world]. replace (w_stores (world_of k [WAddEntity [(0, 20)]]))
    with ({[0 := store_or_new k (w_stores (world_of k [WAddEntity [(0, 20)]])) 0]} : gmap N (sset N)) by (vm_compute; reflexivity).
  by rewrite lookup_singleton_ne.
Qed.

(** * The hypotheses can be met *)
(** A world with two component types of which one can be cloned, a dead handle, tracking and clears;
    the clone is used, a component is registered again and the clone is cloned. *)
Definition clone_ops : list (wop N) :=
  [WAddEntity [(0, 10); (1, 11)]; WAddEntity [(0, 20)]; WAddEntity [(1, 31)]; WDeleteEntity (1, 0) [1; 0];
   WAddEntity [(0, 40)]; WWrite (0, 0) 0 (N.add 5)].
Example C62_case :
  let k := λ _ : N, TAll in
  let c := register_clone k (CWorld (world_of k clone_ops) ∅) 0 (N.add 1) in
  let c1 := world_clone k c [1; 0] in
  (∃ t, c_reach k c t) ∧ any_order (c_world c) [1; 0] ∧
  is_alive (w_ents (c_world c1)) (1, 0) = false ∧ is_alive (w_ents (c_world c1)) (1, 1) = true ∧
  ss_get (store_or_new k (w_stores (c_world c1)) 0) (0, 0) = Ok (Some 16) ∧
  ss_get (store_or_new k (w_stores (c_world c1)) 0) (1, 1) = Ok (Some 41) ∧
  ss_get (store_or_new k (w_stores (c_world c1)) 1) (2, 0) = Ok None ∧
  view_inserted k (c_world c1) (0, 0) 0 None = Ok true ∧ view_modified k (c_world c1) (0, 0) 0 None = Ok false ∧
  history_b k (c_world c1) [WAddEntity [(1, 7)]; WDeleteEntity (1, 1) [0; 1]; WAddEntity [(0, 8)]] = true.
Proof.
  cbn zeta. set (k := λ _ : N, TAll). split.
  { destruct (reach_concrete k clone_ops) as (t & R & _); [vm_compute; reflexivity|]. exists t.
    apply CRegister. eapply (CRun k c_new); [apply CNew|]. by eapply reach_x. }
  split; [by apply order_b_ok; vm_compute|]. by vm_compute.
Qed.
(** A second registration of the same type. *)
Example C62_registered_case :
  let k := λ _ : N, TAll in
  let c := register_clone k (CWorld (world_of k clone_ops) ∅) 0 (N.add 1) in
  let c1 := register_clone k c 0 (N.add 100) in
  (∃ t, c_reach k c t) ∧ any_order (c_world c1) [1; 0] ∧ any_order (c_world c) [0; 1] ∧
  ss_get (store_or_new k (w_stores (c_world (world_clone k c1 [1; 0]))) 0) (0, 0) = Ok (Some 115).
Proof.
  cbn zeta. set (k := λ _ : N, TAll). split.
  { destruct (reach_concrete k clone_ops) as (t & R & _); [vm_compute; reflexivity|]. exists t.
    apply CRegister. eapply (CRun k c_new); [apply CNew|]. by eapply reach_x. }
  split; [by apply order_b_ok; vm_compute|]. split; [by apply order_b_ok; vm_compute|]. by vm_compute.
Qed.
Example C62_unique_case :
  let w := (u_run uw_new [UAdd 3 10; UAdd 4 11; UWrite 3 (N.add 1)]).1 in
  (u_step (uw_clone_to w uw_new {[3 := N.add 100]}) (UView 3 None)).2 = USeen (Some (111, true, false)) ∧
  (u_step (uw_clone_to w uw_new {[3 := N.add 100]}) (UView 4 None)).2 = USeen None.
Proof. by vm_compute. Qed.

Print Assumptions C62_clone.
Print Assumptions C62_registered.
Print Assumptions C62_clone_to_partial.
Print Assumptions C62_unique.
Print Assumptions C62_unique_into.
Print Assumptions C62_clone_of_clone_refuted.
Print Assumptions C62_ghost_refuted.
Print Assumptions C62_handles_refuted.
