(** Properties C52, C59, C60: saving and loading. *)
From stdpp Require Import prelude list gmap sorting.
From Coq Require Import NArith Lia.
From Verif Require Import EntityId EntityIdProofs Base Entities EntitiesSpec EntitiesProofs EntitiesHistory.
From Verif Require Import SparseSet Track SparseSetSpec SparseSetProofs SparseSetProofs2 SparseSetHistory.
From Verif Require Import World WorldSpec WorldProofs WorldProofs2 PropsWorld Unique UniqueSpec.
From Verif Require Import Iter IterSpec IterProofs PropsIter Serde SerdeProofs.
Open Scope N_scope.

Section props.
Context {V : Type} (kind : N -> tracking) (ser_v : V -> doc) (de_v : doc -> option V).
Implicit Types (w u : world V) (t : table V) (f : format) (tn ov : bool) (name : list N) (names : N -> list N).
Notation store w i := (store_or_new kind (w_stores w) i).

(** The components can be read back. *)
Definition faithful : Prop := ∀ v, de_v (ser_v v) = Some v.
(** The format can hold type names (bincode and its like cannot, see C52_type_names_refuted). *)
Definition names_ok f tn : Prop := tn = true -> f_maps f = true.

(** ** C52 *)

(** A handle survives the trip in every format. *)
Theorem C52_handles f e : eid_wf e -> de_eid f (ser_eid f e) = Ok (Some e).
Proof. apply de_ser_eid. Qed.

(** The same handles are alive. *)
Theorem C52_entities f ops w evs t :
  reach kind ops w evs t ->
  ∃ s', de_entities f e_new (ser_entities f (w_ents w)) = Ok (s', true) ∧
    (∀ e, is_alive s' e = is_alive (w_ents w) e) ∧ e_iter s' = e_iter (w_ents w).
Proof.
  intros [H _]%reach_WR. pose proof (wr_ents _ _ _ _ _ H) as HE.
  destruct (load_entities_ER f _ _ _ HE) as (s' & E & H'). exists s'. split; [done|].
  assert (∀ e, is_alive s' e = is_alive (w_ents w) e) as Ha.
  { intros e. apply eq_true_iff_eq. by rewrite (ER_alive _ _ _ _ HE), (ER_alive _ _ _ _ H'). }
  split; [done|].
  assert (AntiSymm eq (λ a b : eid, idx a < idx b)) as HA by (intros x y H1 H2; lia).
  apply (StronglySorted_unique (λ a b : eid, idx a < idx b)).
  - apply iter_from_sorted.
  - apply iter_from_sorted.
  - apply NoDup_Permutation.
    + apply (NoDup_fmap_1 idx). apply sorted_nodup. apply iter_from_sorted.
    + apply (NoDup_fmap_1 idx). apply sorted_nodup. apply iter_from_sorted.
    + intros x. by rewrite !iter_alive, Ha.
Qed.

Lemma omap_imap_some {A B C} (g : nat -> A -> B) (h : nat -> A -> C) (l : list A) :
  omap (λ x : B * option C, pair x.1 <$> x.2) (imap (λ k x, (g k x, Some (h k x))) l) = imap (λ k x, (g k x, h k x)) l.
Proof.
  revert g h. induction l as [|x l IH]; intros g h; [done|]. cbn [imap omap list_omap fmap option_fmap option_map fst snd].
  f_equal. apply (IH (λ k, g (S k)) (λ k, h (S k))).
Qed.
(** What is written for a view is what iterating it with ids gives: [iter().with_id()]. *)
Theorem C52_written ops w evs t times i f name :
  reach kind ops w evs t ->
  ∃ it L, shiperator (views kind w times) (QView i) = Ok it ∧ collects wi_next it L ∧
    ∃ vs, L = imap (λ k x, (x.1, ORef i (N.of_nat k) x.2)) vs ∧
      ser_view ser_v f false name (store w i) = DSeq (ser_pair ser_v f <$> vs).
Proof.
  intros [H _]%reach_WR. destruct (wr_stores _ _ _ _ _ H i) as (a & HR & _).
  pose proof (si_data _ (sr_inv _ _ HR)) as HL.
  unfold shiperator, q_iter. cbn [into_ship rbind]. eexists _, (imap (λ k (x : eid * V), (x.1, ORef i (N.of_nat k) x.2)) (zip (ss_dense (store w i)) (ss_data (store w i)))).
  split; [reflexivity|]. set (s := store w i) in *.
  set (l := imap (λ k (x : eid * V), (x.1, Some (ORef i (N.of_nat k) x.2))) (zip (ss_dense s) (ss_data s))).
  assert (items (mjoin [l]) = imap (λ k x, (x.1, ORef i (N.of_nat k) x.2)) (zip (ss_dense s) (ss_data s))) as <-.
  { rewrite mjoin_one. unfold l, items. rewrite omap_imap_some. done. }
  split; [apply wi_collects; [|constructor]|].
  - cbn [tour]. split; [|done]. split; [cbn; lia|]. cbn [it_start it_end it_acc].
    assert (length l = length (ss_dense s)) as Hlen.
    { unfold l. rewrite imap_length, zip_with_length. unfold lenN in HL. lia. }
    split; [change (lenN (ss_dense s) - 0 = lenN l); unfold lenN; rewrite Hlen; lia|].
    intros m e oo Hm. unfold l in Hm. rewrite list_lookup_imap in Hm.
    destruct (zip (ss_dense s) (ss_data s) !! m) as [[e' v]|] eqn:Ez; [|done]. injection Hm as -> <-.
    apply lookup_zip_with_Some in Ez as (e1 & v1 & [= <- <-] & E1 & E2). rewrite N.add_0_l. split.
    + change (get_unchecked (ss_dense s) (N.of_nat m) = Ok e). unfold get_unchecked.
      rewrite getN_lookup, Nat2N.id. by rewrite E1.
    + change ((rlet o := (rlet v := get_unchecked (ss_data s) (N.of_nat m) in Ok (ORef i (N.of_nat m) v)) in Ok (Some o)) =
              Ok (Some (ORef i (N.of_nat m) v))).
      unfold get_unchecked. rewrite getN_lookup, Nat2N.id. by rewrite E2.
  - eexists. split; [|reflexivity]. rewrite mjoin_one. unfold l, items. by rewrite omap_imap_some.
Qed.

(** A view read into the storage of another world, whatever that holds, as long as it has no
    component for an older handle of the same slot. *)
Theorem C52_view_partial f tn ov name opsw w evsw t opsu u evsu tu i :
  faithful -> names_ok f tn -> reach kind opsw w evsw t -> reach kind opsu u evsu tu ->
  (∀ e e', is_Some (t_cell t e i) -> is_Some (t_cell tu e' i) -> idx e = idx e' -> gen e <= gen e') ->
  ∃ u' c, w_load_view kind de_v f tn ov u i (ser_view ser_v f tn name (store w i)) = Ok (u', true) ∧
    w_ents u' = w_ents u ∧
    (∀ e, gen e < U16_MAX -> shows kind u' e (λ j, if decide (j = i) then c e else t_cell tu e j)) ∧
    (* entities without a saved component are as before *)
    (∀ e, t_cell t e i = None -> c e = t_cell tu e i) ∧
    (* both have one: the choice *)
    (∀ e r d, t_cell t e i = Some r -> t_cell tu e i = Some d ->
       c e = Some (if ov then Row (r_val r) (r_ins d) (w_counter u) else d)) ∧
    (* only the saved one *)
    (∀ e r, t_cell t e i = Some r -> (∀ e', idx e' = idx e -> t_cell tu e' i = None) ->
       c e = Some (Row (r_val r) (w_counter u) 0)) ∧
    (* the slot belongs to a newer entity *)
    (∀ e r e', t_cell t e i = Some r -> idx e' = idx e -> gen e < gen e' -> is_Some (t_cell tu e' i) -> c e = None).
Proof.
  intros Hv Hn [H _]%reach_WR [HU _]%reach_WR Hold.
  pose proof (wr_stores _ _ _ _ _ H i) as HS. pose proof (wr_stores _ _ _ _ _ HU i) as HSU.
  destruct (store_pairs kind _ _ _ _ _ HS) as (P1 & P2 & P3 & P4 & P5).
  set (l := zip (ss_dense (store w i)) (ss_data (store w i))) in *.
  assert (∀ e, e ∈ l.*1 <-> is_Some (t_cell t e i)) as Hin.
  { intros e. rewrite P1. apply (store_dense _ _ e HS). }
  destruct (put_pairs_ok kind ser_v de_v Hv (kind i) 0 0 ov (w_counter u) l (store u i) (λ e, t_cell tu e i)) as (s' & c & E & HS' & O & M).
  - done.
  - done.
  - done.
  - intros e He%Hin e' Hi Hg. destruct (t_cell tu e' i) eqn:Et; [|done]. exfalso.
    assert (gen e <= gen e'); [|lia]. eapply Hold; [done|by rewrite Et|done].
  - unfold w_load_view. rewrite (de_ser_view ser_v de_v Hv) by done. fold l. rewrite E. cbn [rmap rbind].
    eexists _, c. split; [reflexivity|]. split; [done|].
    assert (∀ e e' d d', t_cell tu e i = Some d -> t_cell tu e' i = Some d' -> idx e = idx e' -> e = e') as Hu.
    { intros e e' d d' H1 H2 Hi. pose proof HSU as (a & HR & _ & Hc).
      apply (SR_uniq (store u i) a e e' HR); [rewrite Hc, H1|rewrite Hc, H2|]; done. }
    split_and!.
    + intros e He j. cbn [with_stores w_stores w_tick].
      destruct (decide (j = i)) as [->|Hj].
      * unfold store_or_new at 1 2 3. rewrite lookup_insert. cbn [default]. split; [|split].
        -- by apply (store_get (k := kind i) (li := 0) (lm := 0) _ c e).
        -- intros Hk lo up. by apply (store_inserted (k := kind i) (li := 0) (lm := 0) _ c e).
        -- intros Hk lo up. by apply (store_modified (k := kind i) (li := 0) (lm := 0) _ c e).
      * destruct (WR_shows kind u tu e HU He j) as (A1 & A2 & A3). unfold store_or_new in *.
        rewrite !lookup_insert_ne by done. done.
    + intros e He. apply O. rewrite Hin, He. by intros [].
    + intros e r d Hr Hd. destruct (M e (r_val r)) as [M1 _]; [apply P5; eauto|].
      rewrite M1.
      * rewrite Hd. cbn. by destruct ov.
      * intros e' Hi Hne. destruct (t_cell tu e' i) eqn:Et; [|done]. exfalso. apply Hne. by eapply Hu.
    + intros e r Hr Hf. destruct (M e (r_val r)) as [M1 _]; [apply P5; eauto|].
      rewrite M1; [by rewrite Hf|]. intros e' Hi _. by apply Hf.
    + intros e r e' Hr Hi Hg Hs. destruct (M e (r_val r)) as [_ M2]; [apply P5; eauto|].
      rewrite M2 by eauto. destruct (t_cell tu e i) eqn:Et; [|done]. destruct Hs as [d Hd].
      assert (e' = e) as -> by (by eapply Hu). lia.
Qed.

(** Into a storage without components: the same map. *)
Theorem C52_view_into_empty f tn ov name opsw w evsw t opsu u evsu tu i :
  faithful -> names_ok f tn -> reach kind opsw w evsw t -> reach kind opsu u evsu tu ->
  (∀ e, t_cell tu e i = None) ->
  ∃ u', w_load_view kind de_v f tn ov u i (ser_view ser_v f tn name (store w i)) = Ok (u', true) ∧
    (∀ e, gen e < U16_MAX -> ss_get (store u' i) e = ss_get (store w i) e) ∧
    ∀ e j, gen e < U16_MAX -> j ≠ i -> ss_get (store u' j) e = ss_get (store u j) e.
Proof.
  intros Hv Hn Hw Hu He.
  destruct (C52_view_partial f tn ov name opsw w evsw t opsu u evsu tu i Hv Hn Hw Hu) as (u' & c & E & _ & Hs & C1 & _ & C3 & _).
  { intros e e' _ [d Hd]. by rewrite He in Hd. }
  apply reach_WR in Hw as [Hw _]. apply reach_WR in Hu as [Hu _].
  exists u'. split_and!; [done|..].
  - intros e Hg. destruct (Hs e Hg i) as (-> & _). destruct (WR_shows kind w t e Hw Hg i) as (-> & _).
    rewrite decide_True by done. destruct (t_cell t e i) as [r|] eqn:Et.
    + by rewrite (C3 e r Et) by done.
    + by rewrite C1, He.
  - intros e j Hg Hj. destruct (Hs e Hg j) as (-> & _). destruct (WR_shows kind u tu e Hu Hg j) as (-> & _).
    by rewrite decide_False.
Qed.

(** *** A whole world *)
(** What a new world holds after loading: the rows of the saved one, the components of the saved
    types, each type inserted at the time it was read. *)
Definition t_load t (tu : table V) (i : N) : table V :=
  Table (map_imap (λ e r, Some (match t_cell t e i with Some c => <[i := Row (r_val c) (t_now tu) 0]> r | None => r end)) (t_rows tu))
        (t_issued tu) (t_now tu + 1).
Definition loaded (iss : list eid) t (is : list N) : table V :=
  foldl (t_load t) (Table ((λ _, ∅) <$> t_rows t) iss 2) is.

Lemma t_load_cell t tu i e j : is_Some (t_rows tu !! e) ->
  t_cell (t_load t tu i) e j = (if decide (j = i) then match t_cell t e i with Some c => Some (Row (r_val c) (t_now tu) 0) | None => t_cell tu e i end
                               else t_cell tu e j).
Proof.
  intros [r Hr]. unfold t_cell at 1 3 4. cbn [t_load t_rows]. rewrite map_lookup_imap, Hr. cbn.
  destruct (t_cell t e i) as [c|].
  - destruct (decide (j = i)) as [->|Hj]; [by rewrite lookup_insert|by rewrite lookup_insert_ne].
  - by destruct (decide (j = i)) as [->|Hj].
Qed.
Lemma t_load_rows t tu i e : is_Some (t_rows (t_load t tu i) !! e) <-> is_Some (t_rows tu !! e).
Proof. cbn [t_load t_rows]. rewrite map_lookup_imap. destruct (t_rows tu !! e); cbn; split; intros []; eauto; done. Qed.

Lemma load_view_WR f tn ov name w t u tu i :
  faithful -> names_ok f tn -> WR kind (λ _, 0) (λ _, 0) w t -> WR kind (λ _, 0) (λ _, 0) u tu ->
  (∀ e, is_Some (t_rows tu !! e) <-> is_Some (t_rows t !! e)) -> (∀ e, t_cell tu e i = None) ->
  ∃ u', w_load_view kind de_v f tn ov u i (ser_view ser_v f tn name (store w i)) = Ok (u', true) ∧
    WR kind (λ _, 0) (λ _, 0) u' (t_load t tu i).
Proof.
  intros Hv Hn H HU Hrows He.
  pose proof (wr_stores _ _ _ _ _ H i) as HS. pose proof (wr_stores _ _ _ _ _ HU i) as HSU.
  destruct (store_pairs kind _ _ _ _ _ HS) as (P1 & P2 & P3 & P4 & P5).
  set (l := zip (ss_dense (store w i)) (ss_data (store w i))) in *.
  destruct (put_pairs_ok kind ser_v de_v Hv (kind i) 0 0 ov (w_counter u) l (store u i) (λ e, t_cell tu e i)) as (s' & c & E & HS' & O & M).
  - done.
  - done.
  - done.
  - intros e _ e' _ _. apply He.
  - unfold w_load_view. rewrite (de_ser_view ser_v de_v Hv) by done. fold l. rewrite E. cbn [rmap rbind].
    eexists. split; [reflexivity|]. constructor.
    + eapply ER_ext; [apply (wr_ents _ _ _ _ _ HU)|]. intros e. by rewrite t_load_rows.
    + cbn [w_stores with_stores].
      assert (∀ e, t_rows tu !! e = None -> ∀ j, t_cell (t_load t tu i) e j = None) as Hdead.
      { intros e Hd j. unfold t_cell. cbn [t_load t_rows]. by rewrite map_lookup_imap, Hd. }
      eapply (stores_set _ _ _ _ (t_cell tu)); [apply (wr_stores _ _ _ _ _ HU)| |].
      * eapply store_rel_ext; [exact HS'|]. intros e. cbn.
        destruct (t_rows tu !! e) as [r|] eqn:Er.
        -- rewrite t_load_cell by eauto. rewrite decide_True by done.
           destruct (t_cell t e i) as [x|] eqn:Et.
           ++ destruct (M e (r_val x)) as [M1 _]; [apply P5; eauto|]. rewrite M1 by (intros; apply He).
              rewrite He. cbn. by rewrite (wr_now _ _ _ _ _ HU).
           ++ apply O. rewrite P1, (store_dense _ _ e HS), Et. by intros [].
        -- rewrite Hdead by done. rewrite O; [apply He|]. rewrite P1, (store_dense _ _ e HS). cbn.
           intros Hc%cell_live. apply Hrows in Hc. rewrite Er in Hc. by destruct Hc.
      * intros e j Hj. destruct (t_rows tu !! e) as [r|] eqn:Er.
        -- rewrite t_load_cell by eauto. by rewrite decide_False.
        -- rewrite Hdead by done. by rewrite cell_dead.
    + cbn. by rewrite (wr_now _ _ _ _ _ HU).
Qed.

Lemma load_views_WR f tn ov names w t is : ∀ u tu,
  faithful -> names_ok f tn -> WR kind (λ _, 0) (λ _, 0) w t -> WR kind (λ _, 0) (λ _, 0) u tu ->
  (∀ e, is_Some (t_rows tu !! e) <-> is_Some (t_rows t !! e)) -> (∀ e i, i ∈ is -> t_cell tu e i = None) -> NoDup is ->
  ∃ u', load_views kind de_v f tn ov u ((λ i, (i, ser_view ser_v f tn (names i) (store w i))) <$> is) = Ok (u', true) ∧
    WR kind (λ _, 0) (λ _, 0) u' (foldl (t_load t) tu is).
Proof.
  induction is as [|i is IH]; intros u tu Hv Hn H HU Hrows He Hnd; [by exists u|].
  apply NoDup_cons in Hnd as [Hi Hnd]. rewrite fmap_cons. cbn [load_views foldl].
  destruct (load_view_WR f tn ov (names i) w t u tu i) as (u1 & E & H1); try done.
  { intros e. apply He. left. }
  rewrite E. cbn [rbind]. apply IH; try done.
  - intros e. by rewrite t_load_rows.
  - intros e j Hj. destruct (t_rows tu !! e) as [r|] eqn:Er.
    + rewrite t_load_cell by eauto. rewrite decide_False by (by intros ->). apply He. by right.
    + unfold t_cell. cbn [t_load t_rows]. by rewrite map_lookup_imap, Er.
Qed.
Lemma load_WR f tn ov names w t is iss :
  faithful -> names_ok f tn -> WR kind (λ _, 0) (λ _, 0) w t -> NoDup is ->
  (∀ s, ER s (λ e, is_Some (t_rows t !! e)) (e_iter (w_ents w)) -> ER s (λ e, is_Some (t_rows t !! e)) iss) ->
  ∃ w', load kind de_v f tn ov w_new (save kind ser_v f tn names w is) = Ok (w', true) ∧
    WR kind (λ _, 0) (λ _, 0) w' (loaded iss t is).
Proof.
  intros Hv Hn H Hnd Hiss. unfold load, save. cbn [fst snd]. unfold w_load_entities.
  destruct (load_entities_ER f _ _ _ (wr_ents _ _ _ _ _ H)) as (es & E & HE).
  cbn [w_new w_ents]. rewrite E. cbn [rbind].
  assert (∀ e i, t_cell (Table ((λ _, ∅ : gmap N (row V)) <$> t_rows t) iss 2) e i = None) as Hno.
  { intros e i. unfold t_cell. cbn [t_rows]. rewrite lookup_fmap. by destruct (t_rows t !! e). }
  apply load_views_WR; try done.
  - constructor.
    + cbn [w_ents with_ents]. apply Hiss in HE. eapply ER_ext; [exact HE|]. intros e. cbn [t_rows].
      by rewrite lookup_fmap, fmap_is_Some.
    + cbn [w_stores with_ents w_tick w_new]. intros i. unfold store_or_new. rewrite lookup_empty. cbn [default].
      eapply store_rel_ext; [apply store_rel_new|]. intros e. by rewrite Hno.
    + done.
  - intros e. cbn [t_rows]. by rewrite lookup_fmap, fmap_is_Some.
Qed.

Lemma loaded_rows iss t is e : is_Some (t_rows (loaded iss t is) !! e) <-> is_Some (t_rows t !! e).
Proof.
  unfold loaded. assert (∀ tu, is_Some (t_rows (foldl (t_load t) tu is) !! e) <-> is_Some (t_rows tu !! e)) as ->.
  { induction is as [|i is IH]; intros tu; [done|]. cbn [foldl]. by rewrite IH, t_load_rows. }
  cbn [t_rows]. by rewrite lookup_fmap, fmap_is_Some.
Qed.
Lemma loaded_cell iss t is e i : NoDup is ->
  r_val <$> t_cell (loaded iss t is) e i = if decide (i ∈ is) then r_val <$> t_cell t e i else None.
Proof.
  intros Hnd. destruct (t_rows t !! e) as [r|] eqn:Er.
  2:{ rewrite (cell_dead t) by done. rewrite (cell_dead (loaded iss t is)); [by case_decide|].
      apply eq_None_not_Some. rewrite loaded_rows, Er. by intros []. }
  unfold loaded. set (tu := Table _ iss 2).
  assert (r_val <$> t_cell tu e i = None) as H0.
  { unfold tu, t_cell. cbn [t_rows]. by rewrite lookup_fmap, Er. }
  assert (is_Some (t_rows tu !! e)) as Hr.
  { unfold tu. cbn [t_rows]. rewrite lookup_fmap, Er. by eexists. }
  assert (∀ tu, is_Some (t_rows tu !! e) ->
    r_val <$> t_cell (foldl (t_load t) tu is) e i = if decide (i ∈ is) then r_val <$> (match t_cell t e i with Some c => Some c | None => t_cell tu e i end) else r_val <$> t_cell tu e i) as G.
  { clear tu H0 Hr. induction is as [|j is IH]; intros tu Hr.
    - rewrite decide_False by (by intros Hx%elem_of_nil). done.
    - apply NoDup_cons in Hnd as [Hj Hnd]. cbn [foldl]. rewrite IH by (by rewrite ?t_load_rows).
      rewrite !t_load_cell by done. destruct (decide (i = j)) as [->|Hij].
      + rewrite (decide_False (P := j ∈ is)) by done. rewrite (decide_True (P := j ∈ j :: is)) by left.
        by destruct (t_cell t e j).
      + destruct (decide (i ∈ is)) as [Hi|Hi].
        * rewrite (decide_True (P := i ∈ j :: is)) by (by right). done.
        * rewrite (decide_False (P := i ∈ j :: is)) by (rewrite elem_of_cons; naive_solver). done. }
  rewrite G by done. destruct (decide (i ∈ is)); [|done].
  destruct (t_cell t e i); [done|exact H0].
Qed.

(** The new world has the same live handles and the same components, and from then on it
    behaves like the table that was saved. *)
Theorem C52_world f tn ov names ops w evs t is :
  faithful -> names_ok f tn -> reach kind ops w evs t -> NoDup is ->
  ∃ w', load kind de_v f tn ov w_new (save kind ser_v f tn names w is) = Ok (w', true) ∧
    (∀ e, is_alive (w_ents w') e = is_alive (w_ents w) e) ∧
    (∀ e i, gen e < U16_MAX ->
       ss_get (store w' i) e = if decide (i ∈ is) then ss_get (store w i) e else Ok None) ∧
    ∀ ops', w_history kind w' ops' -> ∃ w2 evs2 t2,
      w_run kind w' ops' = Ok (w2, evs2) ∧ t_run (loaded (e_iter (w_ents w)) t is) ops' evs2 t2 ∧
      (∀ e, is_alive (w_ents w2) e = true <-> is_Some (t_rows t2 !! e)) ∧
      ∀ e, gen e < U16_MAX -> shows kind w2 e (t_cell t2 e).
Proof.
  intros Hv Hn [H _]%reach_WR Hnd.
  destruct (load_WR f tn ov names w t is (e_iter (w_ents w)) Hv Hn H Hnd) as (w' & E & H'); [done|].
  exists w'. split_and!; [done|..].
  - intros e. apply eq_true_iff_eq. by rewrite (WR_live kind w' _ e H'), (WR_live kind w t e H), loaded_rows.
  - intros e i Hg. destruct (WR_shows kind _ _ e H' Hg i) as (-> & _). destruct (WR_shows kind _ _ e H Hg i) as (-> & _).
    rewrite loaded_cell by done. by destruct (decide (i ∈ is)).
  - intros ops' Hh.
    destruct (run_WR kind _ _ ops' w' _ H' Hh) as (w2 & evs2 & t2 & E2 & R2 & H2 & _).
    { assert (∀ tu, t_issued (foldl (t_load t) tu is) = t_issued tu) as Hi.
      { clear. induction is as [|i is IH]; intros tu; [done|]. cbn [foldl]. by rewrite IH. }
      unfold loaded. rewrite Hi. cbn [t_issued]. apply Forall_forall. intros e He%iter_alive.
      eapply ER_ok; [apply (wr_ents _ _ _ _ _ H)|]. by apply (WR_live kind w t e H). }
    exists w2, evs2, t2. split_and!; [done|done|..].
    + intros e. by apply (WR_live kind w2 t2 e H2).
    + intros e. by apply (WR_shows kind w2 t2 e H2).
Qed.

(** ** C59 *)
Lemma t_run_no_reissue t ops evs t' h : t_run t ops evs t' -> h ∈ t_issued t -> WId h ∉ evs.
Proof.
  induction 1 as [t|t o ev t1 ops evs t2 St _ IH]; intros Hh; [apply not_elem_of_nil|].
  apply not_elem_of_cons. split.
  - intros <-. inversion St; subst. done.
  - apply IH. eapply t_step_issued; [done|by left].
Qed.

(** An old handle of a slot that was alive when the world was saved is never given out again. *)
Theorem C59_old_handles_partial f tn ov names ops w evs t is w' e h :
  faithful -> names_ok f tn -> reach kind ops w evs t -> NoDup is ->
  load kind de_v f tn ov w_new (save kind ser_v f tn names w is) = Ok (w', true) ->
  is_alive (w_ents w) e = true -> idx h = idx e -> gen h <= gen e ->
  ∀ ops' w2 evs2, w_history kind w' ops' -> w_run kind w' ops' = Ok (w2, evs2) -> WId h ∉ evs2.
Proof.
  intros Hv Hn [H _]%reach_WR Hnd E He Hi Hg ops' w2 evs2 Hh E2. apply (WR_live kind w t e H) in He.
  destruct (load_WR f tn ov names w t is (e_iter (w_ents w) ++ [h]) Hv Hn H Hnd) as (w1 & E1 & H').
  { intros s Hs. by eapply ER_older. }
  rewrite E in E1. injection E1 as <-.
  assert (t_issued (loaded (e_iter (w_ents w) ++ [h]) t is) = e_iter (w_ents w) ++ [h]) as Hiss.
  { assert (∀ tu, t_issued (foldl (t_load t) tu is) = t_issued tu) as Hx.
    { clear. induction is as [|i is IH]; intros tu; [done|]. cbn [foldl]. by rewrite IH. }
    unfold loaded. by rewrite Hx. }
  assert (handle_ok e) as Hok by (eapply ER_ok; [apply (wr_ents _ _ _ _ _ H)|done]).
  destruct (run_WR kind _ _ ops' w' _ H' Hh) as (w3 & evs3 & t3 & E3 & R3 & _).
  { rewrite Hiss. apply Forall_app. split.
    - apply Forall_forall. intros x Hx%iter_alive.
      eapply ER_ok; [apply (wr_ents _ _ _ _ _ H)|]. by apply (WR_live kind w t x H).
    - apply Forall_singleton. destruct Hok as [O1 O2]. split; [congruence|lia]. }
  rewrite E2 in E3. injection E3 as <- <-. eapply t_run_no_reissue; [exact R3|].
  rewrite Hiss. apply elem_of_app. right. left.
Qed.
End props.

(** ** C60 *)
Section unique.
Context {V : Type} (ser_v : V -> doc) (de_v : doc -> option V).
Implicit Types (w : uworld V).

(** Reading a unique back: the value is the one written, the other uniques are untouched.
    Missing: the modification is not reported (C60_unmarked_refuted). *)
Theorem C60_value_partial w i s s0 last :
  (∀ v, de_v (ser_v v) = Some v) -> uw_stores w !! i = Some s ->
  ∃ w', uw_load de_v w i (ser_unique ser_v s0) = (w', true) ∧
    uw_counter w' = uw_counter w + 1 ∧
    (∃ b c, (u_step w' (UView i last)).2 = USeen (Some (u_val s0, b, c))) ∧
    ∀ j, j ≠ i -> uw_stores w' !! j = uw_stores w !! j.
Proof.
  intros Hv Hs. unfold uw_load, ser_unique. rewrite Hs, Hv. eexists. split; [reflexivity|]. split_and!.
  - done.
  - cbn [u_step snd uw_tick uw_set uw_stores uw_counter]. rewrite lookup_insert. cbn. eauto.
  - intros j Hj. cbn. by rewrite lookup_insert_ne.
Qed.

(** Through a [UniqueOrInitViewMut] of a unique that exists: this is a write of the value (so
    everything C53 says about writes holds).
    Missing: a unique that is not there yet (C60_or_init_lost_refuted). *)
Theorem C60_or_init_partial w i s s0 :
  (∀ v, de_v (ser_v v) = Some v) -> uw_stores w !! i = Some s ->
  uw_load_or_init de_v w i (ser_unique_or_init ser_v (Some s0)) = ((u_step w (UWrite i (λ _, u_val s0))).1, true).
Proof. intros Hv Hs. unfold uw_load_or_init, ser_unique_or_init. rewrite Hv. cbn [u_step]. by rewrite Hs. Qed.

(** Nothing written, nothing read. *)
Theorem C60_or_init_none w i :
  uw_load_or_init de_v w i (ser_unique_or_init ser_v None) = (uw_tick w, true).
Proof. done. Qed.
End unique.

(** * A small world
    Components are numbers, written as numbers. *)
Definition de_n (d : doc) : option N := match d with DNum n => Some n | _ => None end.
Lemma faithful_n : faithful DNum de_n.
Proof. done. Qed.
Definition all_kind : N -> tracking := λ _, TAll.
Notation cell w i e := (ss_get (store_or_new all_kind (w_stores w) i) e).

(** Three entities, one deleted and its slot used again, one removed; slot 2 is free. *)
Definition sv_ops : list (wop N) :=
  [WAddEntity [(0, 10); (1, 20)]; WAddEntity [(0, 11)]; WAddEntity [(0, 12)]; WAddEntity [(1, 23)];
   WDeleteEntity (1, 0) [0; 1]; WAddEntity [(0, 14); (1, 24)]; WDeleteEntity (2, 0) [0; 1]].
Definition sv_w : world N := world_of all_kind sv_ops.
Example C52_reach : ∃ t, reach all_kind sv_ops sv_w (answers_of all_kind sv_ops) t.
Proof. destruct (reach_concrete all_kind sv_ops) as (t & H & _); [vm_compute; reflexivity|]. by exists t. Qed.

(** C52_entities, C52_world: the saved world loads; its handles and components are there. *)
Example C52_world_case :
  e_iter (w_ents sv_w) = [(0, 0); (1, 1); (3, 0)] ∧
  match load all_kind de_n json true false w_new (save all_kind DNum json true (λ i, [i]) sv_w [1; 0]) with
  | Ok (w', true) =>
      e_iter (w_ents w') = [(0, 0); (1, 1); (3, 0)] ∧ is_alive (w_ents w') (1, 0) = false ∧
      is_alive (w_ents w') (2, 0) = false ∧
      cell w' 0 (0, 0) = Ok (Some 10) ∧ cell w' 1 (0, 0) = Ok (Some 20) ∧ cell w' 0 (1, 1) = Ok (Some 14) ∧
      cell w' 0 (3, 0) = Ok None ∧ cell w' 1 (3, 0) = Ok (Some 23)
  | _ => False
  end.
Proof. split; [vm_compute; reflexivity|]. vm_compute. split_and!; reflexivity. Qed.
(** The same in the binary format, without type names. *)
Example C52_world_case_binary :
  match load all_kind de_n bincode false false w_new (save all_kind DNum bincode false (λ i, [i]) sv_w [1; 0]) with
  | Ok (w', true) =>
      e_iter (w_ents w') = [(0, 0); (1, 1); (3, 0)] ∧ cell w' 0 (1, 1) = Ok (Some 14) ∧ cell w' 1 (3, 0) = Ok (Some 23)
  | _ => False
  end.
Proof. vm_compute. split_and!; reflexivity. Qed.

(** C52_handles: a handle of a late generation. *)
Example C52_handle_case :
  eid_wf (5, 65534) ∧
  ser_eid json (5, 65534) = DMap [(KIndex, DNum 5); (KGen, DNum 65534)] ∧
  de_eid json (DMap [(KGen, DNum 65534); (KIndex, DNum 5)]) = Ok (Some (5, 65534)).
Proof. split; [split; vm_compute; reflexivity|]. split; vm_compute; reflexivity. Qed.

(** C52_written: the list of pairs in the order of iteration. *)
Example C52_written_case :
  ser_view DNum json false [] (store_or_new all_kind (w_stores sv_w) 1) =
  DSeq [DSeq [ser_eid json (0, 0); DNum 20]; DSeq [ser_eid json (3, 0); DNum 23]; DSeq [ser_eid json (1, 1); DNum 24]].
Proof. vm_compute. reflexivity. Qed.

(** C52_view: the target has a component for (0, 0) (both have), for (1, 2) (newer than the saved
    one) and for (4, 0) (not saved). *)
Definition tg_ops : list (wop N) :=
  [WAddEntity [(0, 30)]; WAddEntity [(0, 31)]; WAddEntity []; WAddEntity [(1, 32)]; WAddEntity [(0, 34)];
   WDeleteEntity (1, 0) [0; 1]; WAddEntity [(0, 35)]; WDeleteEntity (1, 1) [0; 1]; WAddEntity [(0, 36)]].
Definition tg_w : world N := world_of all_kind tg_ops.
Example C52_view_case ov :
  (∃ t, reach all_kind tg_ops tg_w (answers_of all_kind tg_ops) t) ∧
  match w_load_view all_kind de_n json false ov tg_w 0 (ser_view DNum json false [] (store_or_new all_kind (w_stores sv_w) 0)) with
  | Ok (u, true) =>
      cell u 0 (0, 0) = Ok (Some (if ov then 10 else 30)) ∧ cell u 0 (1, 1) = Ok None ∧ cell u 0 (1, 2) = Ok (Some 36) ∧
      cell u 0 (4, 0) = Ok (Some 34) ∧ cell u 1 (3, 0) = Ok (Some 32)
  | _ => False
  end.
Proof.
  split.
  - destruct (reach_concrete all_kind tg_ops) as (t & H & _); [vm_compute; reflexivity|]. by exists t.
  - destruct ov; vm_compute; split_and!; reflexivity.
Qed.
(** C52_view_into_empty: type 7 has never been used in the target. *)
Example C52_view_empty_case :
  match w_load_view all_kind de_n json false true tg_w 7 (ser_view DNum json false [] (store_or_new all_kind (w_stores sv_w) 0)) with
  | Ok (u, true) => cell u 7 (0, 0) = Ok (Some 10) ∧ cell u 7 (1, 1) = Ok (Some 14) ∧ cell u 0 (0, 0) = Ok (Some 30)
  | _ => False
  end.
Proof. vm_compute. split_and!; reflexivity. Qed.

(** * Where the properties fail *)

(** When the target holds a component of an older entity at the same slot, the view ends up with a
    component for a handle that nobody has: the bitwise or of the two (finding 13). *)
Definition old_ops (n : nat) : list (wop N) :=
  [WAddEntity [(0, 1)]] ++ mjoin ((λ g, [WDeleteEntity (0, N.of_nat g) [0]; WAddEntity [(0, N.of_nat g + 2)]]) <$> seq 0 n).
Theorem C52_older_refuted :
  let w := world_of all_kind (old_ops 2) in
  let u := world_of all_kind (old_ops 1) in
  (∃ t, reach all_kind (old_ops 2) w (answers_of all_kind (old_ops 2)) t) ∧
  (∃ t, reach all_kind (old_ops 1) u (answers_of all_kind (old_ops 1)) t) ∧
  cell w 0 (0, 2) = Ok (Some 3) ∧ cell u 0 (0, 1) = Ok (Some 2) ∧
  match w_load_view all_kind de_n json false true u 0 (ser_view DNum json false [] (store_or_new all_kind (w_stores w) 0)) with
  | Ok (u', true) =>
      ss_dense (store_or_new all_kind (w_stores u') 0) = [(0, 3)] ∧ is_alive (w_ents u') (0, 3) = false ∧
      is_alive (w_ents w) (0, 3) = false
  | _ => False
  end.
Proof.
  cbn zeta. split_and!.
  - destruct (reach_concrete all_kind (old_ops 2)) as (t & H & _); [vm_compute; reflexivity|]. by exists t.
  - destruct (reach_concrete all_kind (old_ops 1)) as (t & H & _); [vm_compute; reflexivity|]. by exists t.
  - vm_compute. reflexivity.
  - vm_compute. reflexivity.
  - vm_compute. split_and!; reflexivity.
Qed.

(** With type names, what is written in a format that presents structs as sequences (bincode) is
    always refused (finding 37). *)
Theorem C52_type_names_refuted {V} (ser_v : V -> doc) (de_v : doc -> option V) f ov name s0 s t :
  f_maps f = false -> de_view de_v f true ov s (ser_view ser_v f true name s0) t = Ok (s, false).
Proof. intros Hf. unfold ser_view, d_struct. by rewrite Hf. Qed.

(** ** C59: a handle that was dead when the world was saved is given out again after loading
    (finding 12).  Two entities, the first is deleted; in the original world the next entity in its
    slot is (0, 1), in the loaded one it is (0, 0). *)
Theorem C59_reissued_refuted :
  let ops := [WAddEntity [(0, 1)]; WAddEntity [(0, 2)]; WDeleteEntity (0, 0) [0]] in
  let w := world_of all_kind ops in
  (∃ t, reach all_kind ops w [WId (0, 0); WId (1, 0); WBool true] t) ∧ is_alive (w_ents w) (0, 0) = false ∧
  match load all_kind de_n json false true w_new (save all_kind DNum json false (λ _, []) w [0]) with
  | Ok (w', true) =>
      is_alive (w_ents w') (0, 0) = false ∧
      match w_step all_kind w' (WAddEntity [(0, 9)]) with
      | Ok (w2, ev) => ev = WId (0, 0) ∧ is_alive (w_ents w2) (0, 0) = true ∧ cell w2 0 (0, 0) = Ok (Some 9)
      | _ => False
      end
  | _ => False
  end.
Proof.
  cbn zeta. split_and!.
  - destruct (reach_concrete all_kind [WAddEntity [(0, 1)]; WAddEntity [(0, 2)]; WDeleteEntity (0, 0) [0]]) as (t & H & _);
      [vm_compute; reflexivity|]. exists t. exact H.
  - vm_compute. reflexivity.
  - vm_compute. split_and!; reflexivity.
Qed.
(** C59_old_handles_partial: in the world above (1, 0) is an old handle of the live (1, 1). *)
Example C59_case :
  is_alive (w_ents sv_w) (1, 1) = true ∧ is_alive (w_ents sv_w) (1, 0) = false ∧
  match load all_kind de_n json true false w_new (save all_kind DNum json true (λ i, [i]) sv_w [1; 0]) with
  | Ok (w', true) =>
      match w_run all_kind w' [WDeleteEntity (1, 1) [0; 1]; WAddEntity []; WAddEntity []] with
      | Ok (_, evs) => evs = [WBool true; WId (2, 0); WId (1, 2)]
      | _ => False
      end
  | _ => False
  end.
Proof. vm_compute. split_and!; reflexivity. Qed.

(** ** C60: deserializing through [UniqueViewMut] changes the value without a modification being
    reported (finding 25); through [DerefMut] it is. *)
Definition un_w : uworld N := (u_run uw_new [UAdd 0 1; UClear 0 true true]).1.
Theorem C60_unmarked_refuted :
  (u_step (uw_load de_n un_w 0 (DNum 7)).1 (UView 0 None)).2 = USeen (Some (7, false, false)) ∧
  (u_step (u_step un_w (UWrite 0 (λ _, 7))).1 (UView 0 None)).2 = USeen (Some (7, false, true)).
Proof. split; vm_compute; reflexivity. Qed.

(** Deserializing through [UniqueOrInitViewMut] when the unique does not exist yet: the call
    succeeds and the value is lost (finding 38). *)
Theorem C60_or_init_lost_refuted v :
  ser_unique_or_init DNum (Some (us_new v 1)) = DSome (DNum v) ∧
  (uw_load_or_init de_n uw_new 0 (DSome (DNum v))).2 = true ∧
  (u_step (uw_load_or_init de_n uw_new 0 (DSome (DNum v))).1 (UView 0 None)).2 = USeen None.
Proof. done. Qed.
Example C60_case :
  uw_stores un_w !! 0 = Some (UStore 1 1 0 1 1) ∧
  (u_step (uw_load_or_init de_n un_w 0 (DSome (DNum 7))).1 (UView 0 None)).2 = USeen (Some (7, false, true)).
Proof. split; vm_compute; reflexivity. Qed.

Print Assumptions C52_handles.
Print Assumptions C52_entities.
Print Assumptions C52_written.
Print Assumptions C52_view_partial.
Print Assumptions C52_view_into_empty.
Print Assumptions C52_world.
Print Assumptions C52_older_refuted.
Print Assumptions C52_type_names_refuted.
Print Assumptions C59_old_handles_partial.
Print Assumptions C59_reissued_refuted.
Print Assumptions C60_value_partial.
Print Assumptions C60_or_init_partial.
Print Assumptions C60_or_init_none.
Print Assumptions C60_unmarked_refuted.
Print Assumptions C60_or_init_lost_refuted.
