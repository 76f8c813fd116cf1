(** Property C51: World::iter. *)
From stdpp Require Import prelude list gmap.
From Coq Require Import NArith Lia.
From Verif Require Import EntityId EntityIdProofs Base Entities EntitiesSpec EntitiesProofs.
From Verif Require Import SparseSet Track SparseSetSpec SparseSetProofs.
From Verif Require Import World WorldSpec WorldProofs WorldProofs2 PropsWorld.
From Verif Require Import Iter IterSpec IterFloat IterProofs IterProofs2 IterAlias IterOwned WorldIter PropsIter.
Open Scope N_scope.

Section access.
Context {V : Type} (f10 f05 f12 f20 : N -> N) (env : N -> window V).
(** The list of ids an iterator over views walks is that of one of the storages. *)
Lemma plain_access q : plain q -> ∀ x, into_ship f10 f05 f12 f20 env q = Ok x ->
  x.2.1 = [] ∨ ∃ j, j ∈ storages q ∧ x.2.1 = ss_dense (wn_set (env j)).
Proof.
  induction q as [i|i|l|i|b i|b k i|qs IH|q1 q2 IH1 IH2] using query_ind'; try done.
  1,2: intros _ x E; injection E as <-; right; exists i; by split; [left|].
  rewrite plain_tuple. intros [_ HP] x E. cbn [into_ship] in E. apply rbind_Ok in E as (l & El & E).
  assert (Forall (λ y : ship V * N * access, y.2.1 = [] ∨
     ∃ j, j ∈ storages (QTuple qs) ∧ y.2.1 = ss_dense (wn_set (env j))) l) as HF.
  { clear E. revert l El. induction IH as [|q qs Hq HF IH]; intros l El; [injection El as <-; constructor|].
    apply Forall_cons in HP as [HP HPs].
    apply rbind_Ok in El as (y & Ey & El). apply rbind_Ok in El as (l0 & El' & [= <-]). constructor.
    - destruct (Hq HP _ Ey) as [?|(j & Hj & ?)]; [by left|right]. exists j. split; [|done].
      change (j ∈ storages q ++ (qs ≫= storages)). apply elem_of_app. by left.
    - eapply Forall_impl; [by apply IH|]. intros z [?|(j & Hj & ?)]; [by left|right]. exists j. split; [|done].
      change (j ∈ storages q ++ (qs ≫= storages)). apply elem_of_app. by right. }
  destruct (negb _); [done|]. destruct (existsb _ _); [done|]. destruct (1 <? _)%nat; [done|].
  apply rbind_Ok in E as (ts & _ & E).
  assert (∀ pick, (settle l pick).2.1 = [] ∨ ∃ j, j ∈ storages (QTuple qs) ∧ (settle l pick).2.1 = ss_dense (wn_set (env j))) as HS.
  { intros pick. unfold settle. destruct pick as [j|]; cbn [mbind option_bind]; [|by left].
    destruct (l !! j) as [[[s len] a]|] eqn:Hx; cbn [mbind option_bind]; [|by left].
    rewrite Forall_forall in HF. apply (HF (s, len, a)). by eapply elem_of_list_lookup_2. }
  destruct (_ =? 1)%nat; injection E as <-; apply HS.
Qed.
End access.

Section props.
Context {V : Type} (kind : N -> tracking).
Implicit Types (w : world V) (t : table V) (q : query).
Notation store w i := (store_or_new kind (w_stores w) i).

(** [n] entities have a component of type [i]. *)
Definition counts t (i n : N) : Prop :=
  ∃ l : list eid, NoDup l ∧ lenN l = n ∧ ∀ e, e ∈ l <-> is_Some (t_cell t e i).
(** The number of components a storage has says for the entities concerned whether their bucket of 32
    indices can be in the storage: who is in the storage is in one of the first [n] buckets, and
    the storage reaches up to who is in one of the first [n] buckets. *)
Definition dense_enough t q : Prop :=
  ∀ i j n e, i ∈ storages q -> j ∈ storages q -> counts t i n -> is_Some (t_cell t e j) ->
    (is_Some (t_cell t e i) -> idx e / 32 < n) ∧
    (idx e / 32 < n -> ∃ f, is_Some (t_cell t f i) ∧ idx e / 32 <= idx f / 32).

Lemma owned_index ops w evs t times i n e :
  reach kind ops w evs t -> gen e < U16_MAX -> lenN (ss_dense (store w i)) = n ->
  (is_Some (t_cell t e i) -> idx e / 32 < n) ->
  (idx e / 32 < n -> ∃ f, is_Some (t_cell t f i) ∧ idx e / 32 <= idx f / 32) ->
  win_index_of (owned_views kind w i) e = win_index_of (views kind w times i) e.
Proof.
  intros HR Hg Hn H1 H2. destruct (views_ok kind ops w evs t times i HR) as [_ HW].
  pose proof (reach_WR _ _ _ _ _ HR) as [H _]. destruct (wr_stores _ _ _ _ _ H i) as (a & HS & _ & Hc).
  assert (bucket e < n -> bucket e < lenN (ss_sparse (store w i))) as HB.
  { intros Hb. destruct (H2 Hb) as (f & [r Hf] & Hle). rewrite <- Hc in Hf.
    destruct (sr_dom _ _ (sr_rows _ _ HS) _ _ Hf) as (p & Hp).
    destruct (si_dense _ (sr_inv _ _ HS) _ _ Hp) as [Hsa _]. unfold sa_get in Hsa.
    destruct (getN (ss_sparse (store w i)) (bucket f)) eqn:Eb; [|done]. apply getN_Some_lt in Eb.
    unfold bucket, BUCKET_SIZE in *. lia. }
  destruct (t_cell t e i) as [r|] eqn:Ec.
  - specialize (H1 ltac:(by eexists)). specialize (HB H1). unfold win_index_of, owned_views, views.
    cbn [window_owned window_of wn_sparse_len wn_set].
    rewrite Hn. assert (bucket e <? n = true) as -> by by apply N.ltb_lt.
    assert (bucket e <? lenN (ss_sparse (store w i)) = true) as -> by by apply N.ltb_lt. done.
  - rewrite (wo_none _ _ HW e Hg Ec). destruct (N.ltb_spec (bucket e) n) as [Hb|Hb].
    + rewrite <- (wo_none _ _ HW e Hg Ec). unfold win_index_of, owned_views, views.
      cbn [window_owned window_of wn_sparse_len wn_set].
      rewrite Hn. assert (bucket e <? n = true) as -> by by apply N.ltb_lt.
      specialize (HB Hb). assert (bucket e <? lenN (ss_sparse (store w i)) = true) as -> by by apply N.ltb_lt. done.
    + unfold win_index_of, owned_views. cbn [window_owned wn_sparse_len wn_set].
      rewrite Hn. assert (bucket e <? n = false) as -> by by apply N.ltb_ge. done.
Qed.
Lemma store_counts ops w evs t i :
  reach kind ops w evs t -> counts t i (lenN (ss_dense (store w i))).
Proof.
  intros HR. destruct (views_ok kind ops w evs t (λ _, (0, 0, 0)) i HR) as [_ HW].
  exists (ss_dense (store w i)). split; [exact (wo_nodup _ _ HW)|]. split; [done|]. intros e.
  rewrite elem_of_list_lookup. split.
  - intros [p Hp]. destruct (wo_row _ _ HW (N.of_nat p) e) as (_ & r & Hr & _); [|by eexists].
    rewrite getN_lookup, Nat2N.id. done.
  - intros [r Hr]. destruct (wo_some _ _ HW e r Hr) as (p & _ & Hp). rewrite getN_lookup in Hp. by eexists.
Qed.
Lemma tour_visits it (l : list (eid * option (out V))) : tour it [l] -> visits it (items l).
Proof.
  intros HT. split_and!.
  - rewrite <- (mjoin_one l). by apply wi_collects.
  - rewrite <- (mjoin_one l). by apply it_collects.
  - rewrite (it_fold_tour _ _ HT). by rewrite mjoin_one.
Qed.
Lemma world_iter_tour ops w evs t times q :
  reach kind ops w evs t -> plain q -> size q <= 2 ^ 11 ->
  ((∃ i, q = QView i ∨ q = QMut i) ∨ dense_enough t q) ->
  ∃ it it' L, shiperator (views kind w times) q = Ok it ∧ w_iter kind w q = Ok it' ∧
    visits it L ∧ visits it' L ∧ exactly (meant t times q) L ∧ apart q L.
Proof.
  intros HR HP Hsz HD.
  destruct (plain_usable (λ i, k_track_insertion (kind i)) (λ i, k_track_modification (kind i)) q HP)
    as (Hu & Hc & _ & _ & _ & Hof).
  destruct (world_tour kind ops w evs t times q HR) as (it & l & ls & E & HT & HE & HA & H1 & _); [done|].
  specialize (H1 Hof). subst ls. rewrite mjoin_one in *.
  destruct (c_iter_tour f32_id f32_half f32_not f32_track (views kind w times) (owned_views kind w)
    (λ i, eq_refl) (λ i, eq_refl) q it l HP (λ i, eq_refl) E HT) as (it' & E' & HT').
  { destruct HD as [[i [-> | ->]]|HD].
    - left. by injection E as <-.
    - left. by injection E as <-.
    - right. intros e i He Hi. unfold shiperator, q_iter in E. apply rbind_Ok in E as ([[s len] a] & E & [= <-]).
      destruct HT as [(_ & _ & HRd) _]. apply elem_of_list_fmap in He as ([e' oo] & -> & He). cbn [fst].
      apply elem_of_list_lookup in He as [m Hm]. destruct (HRd m e' oo Hm) as [Hg _].
      cbn [it_acc it_start] in Hg. unfold acc_get, get_unchecked in Hg.
      destruct (getN a.1 _) as [e0|] eqn:Ea; [|done]. injection Hg as ->.
      destruct (plain_access _ _ _ _ _ q HP _ E) as [Hn|(j & Hj & Hd)]; cbn [snd] in *; [by rewrite Hn, getN_lookup, lookup_nil in Ea|].
      rewrite Hd in Ea. destruct (views_ok kind ops w evs t times j HR) as [_ HW].
      destruct (wo_row _ _ HW _ _ Ea) as (Hg & r & Hr & _).
      destruct (HD i j _ e' Hi Hj (store_counts _ _ _ _ i HR)) as [D1 D2]; [by eexists|].
      by eapply owned_index. }
  exists it, it', (items l). split_and!; [done|done|by apply tour_visits|by apply tour_visits|done|done].
Qed.

(** [world.iter] over one component type visits what iterating the view visits. *)
Theorem C51_single ops w evs t times q :
  reach kind ops w evs t -> (∃ i, q = QView i ∨ q = QMut i) ->
  ∃ it it' L, shiperator (views kind w times) q = Ok it ∧ w_iter kind w q = Ok it' ∧
    visits it L ∧ visits it' L ∧ exactly (meant t times q) L ∧ apart q L.
Proof.
  intros HR HQ. apply (world_iter_tour ops w evs); [done| | |by left]; destruct HQ as [i [-> | ->]]; done.
Qed.
(** Over a tuple it does when the storages are dense enough. *)
Theorem C51_dense_partial ops w evs t times q :
  reach kind ops w evs t -> plain q -> size q <= 2 ^ 11 -> dense_enough t q ->
  ∃ it it' L, shiperator (views kind w times) q = Ok it ∧ w_iter kind w q = Ok it' ∧
    visits it L ∧ visits it' L ∧ exactly (meant t times q) L ∧ apart q L.
Proof. intros HR HP Hsz HD. apply (world_iter_tour ops w evs); [done..|by right]. Qed.
(** For instance, in a world where the entities with these components are among the first 32. *)
Theorem C51_small_partial ops w evs t times q :
  reach kind ops w evs t -> plain q -> size q <= 2 ^ 11 ->
  (∀ e i, i ∈ storages q -> is_Some (t_cell t e i) -> idx e < 32) ->
  ∃ it it' L, shiperator (views kind w times) q = Ok it ∧ w_iter kind w q = Ok it' ∧
    visits it L ∧ visits it' L ∧ exactly (meant t times q) L ∧ apart q L.
Proof.
  intros HR HP Hsz HI. apply (C51_dense_partial ops w evs t); [done..|].
  intros i j n e Hi Hj (l & _ & Hl & Hin) He. rewrite (N.div_small (idx e)) by by apply (HI e j). split.
  - intros Hx. apply Hin in Hx. destruct l; [by apply elem_of_nil in Hx|]. subst n. unfold lenN. cbn. lia.
  - intros Hn. destruct l as [|f l]; [subst n; unfold lenN in Hn; cbn in Hn; lia|].
    exists f. split; [apply Hin; by left|apply N.le_0_l].
Qed.
End props.

(** * A case *)
(** The world of PropsIter.v: five entities. *)
Example C51_case :
  let q := QTuple [QView 0; QTuple [QMut 1]] in
  (∃ t, reach it_kind it_ops it_world (answers_of it_kind it_ops) t ∧
        ∀ e i, i ∈ storages q -> is_Some (t_cell t e i) -> idx e < 32) ∧ plain q ∧ size q <= 2 ^ 11 ∧
  (rlet it := w_iter it_kind it_world q in it_fold it)
    = Ok [OTup [ORef 0 0 10; OTup [ORef 1 0 11]]; OTup [ORef 0 1 30; OTup [ORef 1 2 31]]].
Proof.
  cbn zeta. split.
  { destruct it_reach as [t HR]. exists t. split; [done|]. intros e i _ Hs.
    destruct (store_counts it_kind _ _ _ _ i HR) as (l & _ & _ & _).
    destruct (views_ok it_kind _ _ _ _ (λ _, (0, 0, 0)) i HR) as [_ HW]. destruct Hs as [r Hr].
    destruct (wo_some _ _ HW e r Hr) as (p & _ & Hp). clear -Hp.
    cbn [views window_of wn_set] in Hp. unfold store_or_new in Hp.
    assert (map_Forall (λ _ s, Forall (λ e, idx e < 32) (ss_dense s)) (w_stores it_world)) as HM.
    { apply (bool_decide_unpack _). by vm_compute. }
    destruct (w_stores it_world !! i) as [s|] eqn:Es.
    - specialize (HM i s Es). cbn in HM. rewrite Forall_forall in HM. apply HM.
      cbn in Hp. rewrite getN_lookup in Hp. by eapply elem_of_list_lookup_2.
    - cbn [default] in Hp. rewrite getN_lookup in Hp. by destruct (it_kind i). }
  split; [by cbn; split_and!|]. split; by vm_compute.
Qed.

(** * Where it fails (finding 4) *)
(** 33 entities, the last one has both components: nothing is found. *)
Definition far_ops : list (wop N) := replicate 32 (WAddEntity []) ++ [WAddEntity [(0, 10); (1, 11)]].
Definition far_world : world N := world_of (λ _, Nothing) far_ops.
Theorem C51_missed_refuted :
  (∃ evs t, reach (λ _, Nothing) far_ops far_world evs t) ∧
  (rlet it := shiperator (views (λ _, Nothing) far_world (λ _, (0, 0, 0))) (QTuple [QView 0; QView 1]) in it_fold it)
    = Ok [OTup [ORef 0 0 10; ORef 1 0 11]] ∧
  (rlet it := w_iter (λ _, Nothing) far_world (QTuple [QView 0; QView 1]) in it_fold it) = Ok [].
Proof.
  split; [|split; by vm_compute].
  destruct (reach_concrete (λ _, Nothing) far_ops) as (t & H & _); [vm_compute; reflexivity|]. by eexists _, t.
Qed.
(** The last of 33 entities has one component, the first two have the other: [world.iter] reads past
    the end of the sparse array. *)
Definition out_ops : list (wop N) :=
  [WAddEntity [(1, 11)]; WAddEntity [(1, 21)]] ++ replicate 30 (WAddEntity []) ++ [WAddEntity [(0, 30)]].
Definition out_world : world N := world_of (λ _, Nothing) out_ops.
Theorem C51_out_of_bounds_refuted :
  (∃ evs t, reach (λ _, Nothing) out_ops out_world evs t) ∧
  (rlet it := shiperator (views (λ _, Nothing) out_world (λ _, (0, 0, 0))) (QTuple [QView 0; QView 1]) in it_fold it)
    = Ok [] ∧
  (rlet it := w_iter (λ _, Nothing) out_world (QTuple [QView 0; QView 1]) in it_fold it) = Ub.
Proof.
  split; [|split; by vm_compute].
  destruct (reach_concrete (λ _, Nothing) out_ops) as (t & H & _); [vm_compute; reflexivity|]. by eexists _, t.
Qed.

Print Assumptions C51_single.
Print Assumptions C51_dense_partial.
Print Assumptions C51_small_partial.
Print Assumptions C51_missed_refuted.
Print Assumptions C51_out_of_bounds_refuted.
