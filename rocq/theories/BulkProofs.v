(** Proofs about bulk insertion. *)
From stdpp Require Import prelude list gmap.
From Coq Require Import NArith Lia.
From Verif Require Import EntityId EntityIdProofs Base Entities EntitiesSpec EntitiesProofs EntitiesHistory.
From Verif Require Import SparseSet Track SparseSetSpec SparseSetProofs SparseSetProofs2 SparseSetHistory.
From Verif Require Import World WorldSpec WorldProofs WorldProofs2 Bulk.
Open Scope N_scope.

(** ** The sparse array *)
Lemma sa_fill_range_ok n : ∀ sp b,
  sa_wf sp -> (∀ c, b <= c < b + N.of_nat n -> is_Some (getN sp c)) ->
  ∃ sp', sa_fill_range sp b n = Ok sp' ∧ sa_wf sp' ∧ sa_ext sp sp' ∧
    (∀ e, b <= bucket e < b + N.of_nat n -> is_Some (sa_get sp' e)).
Proof.
  induction n as [|n IH]; intros sp b Hwf Hl; cbn [sa_fill_range].
  { exists sp. split_and!; try done; [apply sa_ext_refl|]. intros e He. lia. }
  destruct (sa_fill_ok sp b Hwf) as (sp1 & -> & W1 & X1 & S1 & L1); [apply Hl; lia|].
  cbn [rbind]. destruct (IH sp1 (b + 1) W1) as (sp2 & -> & W2 & X2 & S2).
  { intros c Hc. apply L1, Hl. lia. }
  exists sp2. split_and!; [done|done|by eapply sa_ext_trans|].
  intros e He. destruct (decide (bucket e = b)) as [Hb|Hb].
  - destruct (S1 e Hb) as [x Hx]. exists x. by eapply sa_ext_keep.
  - apply S2. lia.
Qed.

Lemma bucket_mono e e' : idx e <= idx e' -> bucket e <= bucket e'.
Proof. intros H. unfold bucket. by apply N.div_le_mono. Qed.

Lemma sa_bulk_allocate_ok sp s e :
  sa_wf sp -> idx s <= idx e ->
  ∃ sp', sa_bulk_allocate sp s e = Ok sp' ∧ sa_wf sp' ∧ sa_ext sp sp' ∧
    (∀ x, idx s <= idx x <= idx e -> is_Some (sa_get sp' x)).
Proof.
  intros Hwf Hse. unfold sa_bulk_allocate. pose proof (bucket_mono _ _ Hse) as Hb.
  destruct (sa_resize_ok sp (bucket e + 1) Hwf) as (W1 & X1 & L1).
  destruct (sa_fill_range_ok (N.to_nat (bucket e + 1 - bucket s)) _ (bucket s) W1) as (sp2 & -> & W2 & X2 & S2).
  { intros c Hc. apply L1. lia. }
  exists sp2. split_and!; [done|done|by eapply sa_ext_trans|].
  intros x [H1%bucket_mono H2%bucket_mono]. apply S2. lia.
Qed.

Lemma sa_write_all_ok n : ∀ sp start pos,
  sa_wf sp -> (∀ e, start <= idx e < start + N.of_nat n -> is_Some (sa_get sp e)) ->
  ∃ sp', sa_write_all sp (new_ids start n) pos = Ok sp' ∧ sa_wf sp' ∧
    ∀ e, sa_get sp' e = if decide (start <= idx e < start + N.of_nat n)
                        then Some (pos + (idx e - start), 0) else sa_get sp e.
Proof.
  induction n as [|n IH]; intros sp start pos Hwf Hs.
  { exists sp. split; [done|]. split; [done|]. intros e. rewrite decide_False by lia. done. }
  rewrite new_ids_fresh. cbn [a_fresh sa_write_all]. rewrite <- new_ids_fresh.
  destruct (Hs (start, 0)) as [y Hy]; [cbn; lia|].
  destruct (sa_write_ok sp (start, 0) y (eid_new pos) Hwf Hy) as (sp1 & -> & W1 & G1).
  cbn [rbind]. destruct (IH sp1 (start + 1) (pos + 1) W1) as (sp2 & -> & W2 & G2).
  { intros e He. rewrite G1. cbn. destruct (N.eqb_spec (idx e) start); [by eexists|]. apply Hs. lia. }
  exists sp2. split; [done|]. split; [done|]. intros e. rewrite G2, G1. change (idx (start, 0)) with start.
  destruct (decide (start <= idx e < start + N.of_nat (S n))) as [D|D].
  - destruct (N.eqb_spec (idx e) start) as [E|E].
    + rewrite decide_False by lia. rewrite E, N.sub_diag, N.add_0_r. done.
    + rewrite decide_True by lia. do 2 f_equal. lia.
  - rewrite decide_False by lia. destruct (N.eqb_spec (idx e) start); [lia|done].
Qed.

Lemma getN_new_ids start n k :
  getN (new_ids start n) k = if decide (k < N.of_nat n) then Some (start + k, 0) else None.
Proof. rewrite new_ids_fresh. apply getN_fresh. Qed.
Lemma lenN_new_ids start n : lenN (new_ids start n) = N.of_nat n.
Proof. rewrite new_ids_fresh. unfold lenN. by rewrite a_fresh_length. Qed.
Lemma getN_fmap {A B} (f : A -> B) (l : list A) i : getN (f <$> l) i = f <$> getN l i.
Proof. rewrite !getN_lookup. apply list_lookup_fmap. Qed.
Lemma lenN_fmap {A B} (f : A -> B) (l : list A) : lenN (f <$> l) = lenN l.
Proof. unfold lenN. by rewrite fmap_length. Qed.

(** ** One storage *)
Section store.
Context {V : Type} {k : tracking} {li lm : N}.
Implicit Types (s : sset V) (c : eid -> option (row V)).
Notation store_rel := (store_rel k li lm).

(** The cell of a new entity *)
Definition new_cell {A} (start : N) (rs : list A) (e : eid) : option A :=
  if decide (start <= idx e ∧ gen e = 0) then getN rs (idx e - start) else None.
Definition over {A} (x y : option A) : option A := match x with Some a => Some a | None => y end.

Definition new_map {A} (start : N) (rs : list A) : gmap eid A :=
  list_to_map (zip (new_ids start (length rs)) rs).
Lemma lookup_new_map {A} start (rs : list A) e : new_map start rs !! e = new_cell start rs e.
Proof.
  unfold new_map.
  assert (NoDup (zip (new_ids start (length rs)) rs).*1) as Hnd.
  { rewrite fst_zip by (rewrite new_ids_fresh, a_fresh_length; done). rewrite new_ids_fresh.
    apply NoDup_alt. intros i j x. rewrite !a_fresh_lookup.
    destruct (decide (i < length rs)%nat), (decide (j < length rs)%nat); try done.
    intros [= <-] [= H]. lia. }
  apply option_eq. intros r. rewrite <- elem_of_list_to_map by done. rewrite elem_of_list_lookup. split.
  - intros [i Hi]. rewrite lookup_zip_with in Hi. apply bind_Some in Hi as (e' & He & Hi).
    apply bind_Some in Hi as (r' & Hr & [= -> ->]).
    rewrite new_ids_fresh, a_fresh_lookup in He. destruct (decide (i < length rs)%nat) as [Hl|]; [|done].
    injection He as <-. unfold new_cell. rewrite decide_True by (cbn; lia). cbn. rewrite getN_lookup, <- Hr. f_equal. lia.
  - unfold new_cell. case_decide as D; [|done]. intros Hr. exists (N.to_nat (idx e - start)).
    rewrite getN_lookup in Hr. rewrite lookup_zip_with, new_ids_fresh, a_fresh_lookup.
    rewrite decide_True by (by apply lookup_lt_Some in Hr). cbn. rewrite Hr. cbn.
    destruct e as [i g]. cbn in *. do 3 f_equal; lia.
Qed.

(** Appending rows for the fresh handles [start ..] *)
Lemma ss_bulk_ok s c start vs ins md :
  store_rel s c -> vs ≠ [] -> (∀ e, start <= idx e -> c e = None) -> start + lenN vs <= INDEX_MASK ->
  ∃ s', ss_bulk s (new_ids start (length vs)) vs ins md = Ok s' ∧
    ss_dense s' = ss_dense s ++ new_ids start (length vs) ∧ ss_data s' = ss_data s ++ vs ∧
    store_rel s' (λ e, over ((λ v, Row v ins md) <$> new_cell start vs e) (c e)).
Proof.
  intros (a & HR & HF & Hc) Hvs Hfree Hcap. pose proof (sr_inv _ _ HR) as HI.
  set (n := length vs). assert (0 < N.of_nat n) as Hn by (destruct vs; [done|cbn in *; lia]).
  assert (∀ p e, getN (ss_dense s) p = Some e -> idx e < start) as Hold.
  { intros p e Hp. destruct (sr_row _ _ (sr_rows _ _ HR) p e Hp) as (r & Hr & _).
    destruct (N.lt_ge_cases (idx e) start) as [|Hge]; [done|]. rewrite Hc, Hfree in Hr by done. done. }
  unfold ss_bulk. rewrite getN_app_r by lia. rewrite N.sub_diag, getN_new_ids, decide_True by done.
  rewrite lenN_app, lenN_new_ids. rewrite getN_app_r by lia. rewrite getN_new_ids, decide_True by lia.
  destruct (sa_bulk_allocate_ok (ss_sparse s) (start + 0, 0)
    (start + (lenN (ss_dense s) + N.of_nat n - 1 - lenN (ss_dense s)), 0) (si_wf _ HI))
    as (sp1 & -> & W1 & X1 & S1); [cbn; lia|].
  cbn [rbind]. destruct (sa_write_all_ok n sp1 start (lenN (ss_dense s)) W1) as (sp2 & -> & W2 & G2).
  { intros e He. apply S1. cbn. lia. }
  cbn [rbind]. eexists. split; [done|]. split; [done|]. split; [done|].
  set (m' := new_map start ((λ v, Row v ins md) <$> vs) ∪ sp_map a).
  assert (∀ e, m' !! e = over ((λ v, Row v ins md) <$> new_cell start vs e) (c e)) as Hm'.
  { intros e. unfold m'. rewrite lookup_union, lookup_new_map, Hc.
    assert (new_cell start ((λ v, Row v ins md) <$> vs) e = (λ v, Row v ins md) <$> new_cell start vs e) as ->.
    { unfold new_cell. case_decide; [|done]. apply getN_fmap. }
    destruct (new_cell start vs e), (c e); done. }
  exists (upd_map a m'). split; [|split].
  2: { exact HF. }
  2: { exact Hm'. }
  pose proof (lenN_new_ids start n) as Hlid. assert (lenN vs = N.of_nat n) as Hlv by done.
  assert (∀ p e, getN (ss_dense s ++ new_ids start n) p = Some e ->
    (p < lenN (ss_dense s) ∧ getN (ss_dense s) p = Some e) ∨
    (∃ j, j < N.of_nat n ∧ p = lenN (ss_dense s) + j ∧ e = (start + j, 0))) as Hcases.
  { intros p e Hp. destruct (N.lt_ge_cases p (lenN (ss_dense s))) as [Hlt|Hge].
    - left. rewrite getN_app_l in Hp by done. done.
    - right. rewrite getN_app_r, getN_new_ids in Hp by done. case_decide as D; [|done]. injection Hp as <-.
      eexists. split; [exact D|]. split; [lia|done]. }
  split; cbn [with_rows ss_sparse ss_dense ss_data ss_last_ins ss_last_mod ss_ins ss_mod ss_del ss_rem ss_ti ss_tm
    ss_td ss_tr ss_on_ins ss_on_rem upd_map upd sp_map sp_del sp_rem sp_ti sp_tm sp_td sp_tr sp_last_ins sp_last_mod];
    try apply HR.
  - (* SI *)
    split; cbn [with_rows ss_sparse ss_dense ss_data ss_last_ins ss_last_mod ss_ins ss_mod ss_ti ss_tm].
    + done.
    + rewrite !lenN_app, Hlid, Hlv. by rewrite (si_data _ HI).
    + pose proof (si_ins _ HI) as Hi. destruct (ss_ti s); [|done]. rewrite !lenN_app, lenN_fmap. by rewrite Hi.
    + pose proof (si_mod _ HI) as Hi. destruct (ss_tm s); [|done]. rewrite !lenN_app, lenN_fmap. by rewrite Hi.
    + intros p e [[Hlt Hp]|(j & Hj & -> & ->)]%Hcases.
      * destruct (si_dense _ HI p e Hp) as [Hg Hok]. split; [|done]. rewrite G2.
        rewrite decide_False by (apply Hold in Hp; lia). by eapply sa_ext_keep.
      * split.
        -- rewrite G2, decide_True by (cbn; lia). cbn. do 2 f_equal. lia.
        -- split; cbn; [lia|done].
    + intros e x. rewrite G2. case_decide as D.
      * intros [= <-]. right. cbn. rewrite getN_app_r by lia.
        rewrite getN_new_ids, decide_True by lia. do 2 f_equal. lia.
      * intros Hx. destruct (sa_ext_back _ _ _ _ X1 Hx) as [->|Hx']; [by left|].
        destruct (si_sparse _ HI e x Hx') as [->|Hd]; [by left|]. right.
        rewrite getN_app_l by (by eapply getN_Some_lt). done.
  - (* rows *)
    split; cbn [with_rows ss_sparse ss_dense ss_data ss_last_ins ss_last_mod ss_ins ss_mod ss_ti ss_tm].
    + intros p e Hpe. rewrite Hm'. apply Hcases in Hpe as [[Hlt Hp]|(j & Hj & -> & ->)].
      * assert (new_cell start vs e = None) as ->.
        { unfold new_cell. rewrite decide_False; [done|]. apply Hold in Hp. lia. }
        destruct (sr_row _ _ (sr_rows _ _ HR) p e Hp) as (r & Hr & Hv & Hri & Hrm).
        exists r. cbn. rewrite <- Hc. split; [done|]. split; [|split].
        -- rewrite getN_app_l by (by eapply si_data_some). done.
        -- intros Ht. specialize (Hri Ht). rewrite Ht. rewrite getN_app_l; [done|]. by eapply getN_Some_lt.
        -- intros Ht. specialize (Hrm Ht). rewrite Ht. rewrite getN_app_l; [done|]. by eapply getN_Some_lt.
      * unfold new_cell. rewrite decide_True by (cbn; lia). cbn.
        replace (start + j - start) with j by lia.
        destruct (getN_lt vs j) as [v Hv]; [lia|]. rewrite Hv. cbn. eexists. split; [done|]. cbn.
        split; [|split].
        -- rewrite getN_app_r by (rewrite (si_data _ HI); lia). rewrite (si_data _ HI). rewrite <- Hv. f_equal. lia.
        -- intros Ht. rewrite Ht. pose proof (si_ins _ HI) as Hi. rewrite Ht in Hi.
           rewrite getN_app_r by lia. rewrite getN_fmap, getN_new_ids, decide_True by lia. done.
        -- intros Ht. rewrite Ht. pose proof (si_mod _ HI) as Hi. rewrite Ht in Hi.
           rewrite getN_app_r by lia. rewrite getN_fmap, getN_new_ids, decide_True by lia. done.
    + intros e r. rewrite Hm'. unfold new_cell. case_decide as D.
      * destruct (getN vs (idx e - start)) as [v|] eqn:Ev; cbn.
        -- intros _. exists (lenN (ss_dense s) + (idx e - start)). rewrite getN_app_r by lia.
           rewrite getN_new_ids. apply getN_Some_lt in Ev. rewrite decide_True by lia.
           destruct D as [D1 D2]. destruct e as [x g]. cbn in *. subst g. do 2 f_equal. lia.
        -- rewrite Hfree by lia. done.
      * cbn. intros Hr. rewrite <- Hc in Hr. destruct (sr_dom _ _ (sr_rows _ _ HR) e r Hr) as [p Hp].
        exists p. rewrite getN_app_l; [done|]. by eapply getN_Some_lt.
Qed.
End store.

(** ** The allocator *)
Lemma ER_bulk es P iss n :
  ER es P iss -> lenN (e_data es) + N.of_nat n < max_idx ->
  ∃ es', bulk_generate es n = Ok (es', new_ids (lenN (e_data es)) n) ∧
    e_data es' = e_data es ++ new_ids (lenN (e_data es)) n ∧
    (∀ h, P h -> idx h < lenN (e_data es)) ∧
    (∀ h, h ∈ new_ids (lenN (e_data es)) n -> h ∉ iss) ∧
    ER es' (λ e, P e ∨ e ∈ new_ids (lenN (e_data es)) n) (iss ++ new_ids (lenN (e_data es)) n).
Proof.
  intros (a & HR & HF & HP & Hl & Hr) Hcap.
  destruct (bulk_generate_R es a n HR Hcap) as (es' & ids & a' & E & St & HR' & _).
  assert (e_data es' = e_data es ++ new_ids (lenN (e_data es)) n ∧ ids = new_ids (lenN (e_data es)) n) as [Ed ->].
  { revert E. unfold bulk_generate. cbv zeta. destruct (_ <=? _); [|done]. intros [= <- <-]. done. }
  exists es'. split; [done|]. split; [done|].
  destruct (fresh_R _ _ _ _ _ _ _ HR HF St HR') as [Hnew HF'].
  split.
  { intros h Hh%HP. apply (R_live _ _ HR) in Hh. by eapply getN_Some_lt. }
  split; [exact Hnew|].
  assert (a' = ASpec (a_next a + N.of_nat n) (a_ready a) (list_to_set (new_ids (lenN (e_data es)) n) ∪ a_live a)) as ->.
  { rewrite new_ids_fresh, (R_len _ _ HR). inversion St; subst. done. }
  exists (ASpec (a_next a + N.of_nat n) (a_ready a) (list_to_set (new_ids (lenN (e_data es)) n) ∪ a_live a)).
  split; [done|]. split; [exact HF'|]. cbn [a_live a_ready]. split_and!.
  - intros e. rewrite <- HP, elem_of_union, elem_of_list_to_set. tauto.
  - intros e [He|He]%elem_of_union; [|by apply Hl]. apply elem_of_list_to_set in He.
    rewrite new_ids_fresh in He. apply a_fresh_elem in He as [_ ->]. done.
  - done.
Qed.

Lemma new_cell_fmap {A B} (f : A -> B) start (l : list A) e : new_cell start (f <$> l) e = f <$> new_cell start l e.
Proof. unfold new_cell. case_decide; [|done]. apply getN_fmap. Qed.
Lemma new_cell_elem {A} start (rs : list A) e :
  is_Some (new_cell start rs e) <-> e ∈ new_ids start (length rs).
Proof.
  rewrite new_ids_fresh, a_fresh_elem. unfold new_cell. case_decide as D.
  - split.
    + intros [x Hx%getN_Some_lt]. unfold lenN in Hx. lia.
    + intros H. destruct (getN_lt rs (idx e - start)) as [x Hx]; [unfold lenN; lia|]. by eexists.
  - split; [by intros []|lia].
Qed.
Lemma new_cell_new {A} start (rs : list A) k x :
  rs !! k = Some x -> new_cell start rs (start + N.of_nat k, 0) = Some x.
Proof.
  intros Hk. unfold new_cell. rewrite decide_True by (cbn; lia). cbn. rewrite getN_lookup, <- Hk. f_equal. lia.
Qed.
Lemma new_ids_lookup start n k : (k < n)%nat -> new_ids start n !! k = Some (start + N.of_nat k, 0).
Proof. intros H. rewrite new_ids_fresh, a_fresh_lookup. by rewrite decide_True. Qed.

(** ** Worlds *)
Section world.
Context {V : Type} (kind : N -> tracking).
Implicit Types (w : world V) (t : table V).

(** New rows at the fresh indices *)
Definition t_bulk t (start : N) (rows : list (gmap N (row V))) (now : N) : table V :=
  Table (new_map start rows ∪ t_rows t) (t_issued t ++ new_ids start (length rows)) now.
Lemma t_bulk_row t start rows now e :
  t_rows (t_bulk t start rows now) !! e = over (new_cell start rows e) (t_rows t !! e).
Proof.
  cbn. rewrite lookup_union, lookup_new_map. by destruct (new_cell start rows e), (t_rows t !! e).
Qed.

Lemma bulk_WR li lm w t es m rows now :
  WR kind li lm w t ->
  (∀ h, is_Some (t_rows t !! h) -> idx h < lenN (e_data (w_ents w))) ->
  ER es (λ e, is_Some (t_rows t !! e) ∨ e ∈ new_ids (lenN (e_data (w_ents w))) (length rows))
     (t_issued t ++ new_ids (lenN (e_data (w_ents w))) (length rows)) ->
  stores_rel kind li lm m (λ e j, over (new_cell (lenN (e_data (w_ents w))) rows e ≫= (.!! j)) (t_cell t e j)) ->
  WR kind li lm (World es m now) (t_bulk t (lenN (e_data (w_ents w))) rows now).
Proof.
  intros H Hlt HE Hm. split; cbn [w_ents w_stores w_counter].
  - eapply ER_ext; [exact HE|]. intros e. cbn beta. rewrite t_bulk_row.
    pose proof (new_cell_elem (lenN (e_data (w_ents w))) rows e) as Hn.
    destruct (new_cell _ rows e) as [x|]; cbn.
    + split; [by eexists|]. intros _. right. apply Hn. by eexists.
    + split; [intros [?|[? ?]%Hn]; done|by left].
  - eapply stores_ext; [exact Hm|]. intros e j. unfold t_cell at 2. rewrite t_bulk_row.
    destruct (new_cell _ rows e) as [x|] eqn:Ex; [|done]. cbn. destruct (x !! j) eqn:Ej; [done|]. cbn.
    apply cell_dead. destruct (t_rows t !! e) eqn:Et; [|done].
    exfalso. assert (idx e < lenN (e_data (w_ents w))) by (apply Hlt; by rewrite Et).
    unfold new_cell in Ex. rewrite decide_False in Ex by lia. done.
  - done.
Qed.

Lemma drop_app_len {A} (l k : list A) : drop (length l) (l ++ k) = k.
Proof. apply drop_app. Qed.

Lemma store_data_dense k li lm s (c : eid -> option (row V)) :
  store_rel k li lm s c -> length (ss_data s) = length (ss_dense s).
Proof. intros (a & HR & _). pose proof (si_data _ (sr_inv _ _ HR)) as H. unfold lenN in H. lia. Qed.

Lemma bulk_one_WR li lm w t i vs :
  WR kind li lm w t -> vs ≠ [] -> lenN (e_data (w_ents w)) + lenN vs < max_idx ->
  let ids := new_ids (lenN (e_data (w_ents w))) (length vs) in
  ∃ w', w_bulk_one kind w i vs = Ok (w', ids) ∧
    ss_dense (store_or_new kind (w_stores w') i) = ss_dense (store_or_new kind (w_stores w) i) ++ ids ∧
    ss_data (store_or_new kind (w_stores w') i) = ss_data (store_or_new kind (w_stores w) i) ++ vs ∧
    (∀ h, h ∈ ids -> h ∉ t_issued t) ∧
    WR kind li lm w' (t_bulk t (lenN (e_data (w_ents w))) ((λ v, {[i := Row v (t_now t) 0]}) <$> vs) (t_now t + 1)).
Proof.
  intros H Hvs Hcap. cbn zeta. set (start := lenN (e_data (w_ents w))) in *. unfold w_bulk_one.
  assert (length (ss_data (store_or_new kind (w_stores w) i) ++ vs) - length (ss_dense (store_or_new kind (w_stores w) i))
    = length vs)%nat as ->.
  { rewrite app_length, (store_data_dense _ _ _ _ _ (wr_stores _ _ _ _ _ H i)). lia. }
  destruct (ER_bulk _ _ _ (length vs) (wr_ents _ _ _ _ _ H)) as (es' & -> & Ed & Hlt & Hnew & HE); [exact Hcap|].
  fold start in Ed, Hlt, HE, Hnew. fold start. cbn [rbind].
  assert (∀ e j, start <= idx e -> t_cell t e j = None) as Hfree.
  { intros e j He. apply cell_dead. destruct (t_rows t !! e) eqn:Ee; [|done].
    assert (idx e < start) by (apply Hlt; by rewrite Ee). lia. }
  destruct (ss_bulk_ok (store_or_new kind (w_stores w) i) _ start vs (w_counter w) origin (wr_stores _ _ _ _ _ H i) Hvs)
    as (s' & -> & Hd & Hdt & Hs').
  { intros e He. by apply Hfree. }
  { unfold max_idx in Hcap. lia. }
  cbn [rbind]. rewrite Ed, drop_app_len. eexists. split; [done|].
  unfold store_or_new at 1 3. cbn [w_stores]. rewrite lookup_insert. cbn [default from_option id].
  split; [exact Hd|]. split; [exact Hdt|]. split; [exact Hnew|].
  rewrite (wr_now _ _ _ _ _ H) in *.
  apply (bulk_WR li lm w t es' _ ((λ v, {[i := Row v (t_now t) 0]}) <$> vs) (t_now t + 1) H); fold start.
  - exact Hlt.
  - rewrite fmap_length. exact HE.
  - eapply (stores_set kind li lm (w_stores w) (t_cell t)); [apply H| |].
    + cbn beta. eapply store_rel_ext; [exact Hs'|]. intros e. cbn beta. rewrite new_cell_fmap.
      destruct (new_cell start vs e); cbn; [|done]. by rewrite lookup_singleton.
    + intros e j Hj. rewrite new_cell_fmap. destruct (new_cell start vs e); cbn; [|done].
      by rewrite lookup_singleton_ne.
Qed.

(** *** Tuples *)
Lemma omap_all {A B} (f : A -> option B) (l : list A) :
  Forall (λ x, is_Some (f x)) l -> ∀ k, omap f l !! k = l !! k ≫= f.
Proof.
  induction 1 as [|x l [y Hy] Hl IH]; intros k; [done|]. cbn. rewrite Hy. destruct k as [|k]; cbn; [done|]. apply IH.
Qed.
Lemma omap_all_length {A B} (f : A -> option B) (l : list A) :
  Forall (λ x, is_Some (f x)) l -> length (omap f l) = length l.
Proof. induction 1 as [|x l [y Hy] Hl IH]; [done|]. cbn. rewrite Hy. cbn. by rewrite IH. Qed.

(** The row of one tuple *)
Definition tuple_row (is : list N) (vs : list V) : gmap N (row V) :=
  list_to_map (zip is ((λ v, Row v 0 0) <$> vs)).
Lemma tuple_row_none is vs j : j ∉ is -> tuple_row is vs !! j = None.
Proof.
  intros Hj. apply not_elem_of_list_to_map_1. intros ([i r] & -> & Hx)%elem_of_list_fmap. apply Hj.
  apply elem_of_list_lookup in Hx as [p Hp]. rewrite lookup_zip_with in Hp.
  apply bind_Some in Hp as (x & Hx & Hp). apply bind_Some in Hp as (y & Hy & [= -> ->]).
  apply elem_of_list_lookup. by exists p.
Qed.

Lemma bulk_columns_ok li lm start rows is : ∀ m c k,
  stores_rel kind li lm m c -> NoDup is -> rows ≠ [] ->
  Forall (λ r, length r = (k + length is)%nat) rows -> start + lenN rows <= INDEX_MASK ->
  (∀ e j, start <= idx e -> j ∈ is -> c e j = None) ->
  ∃ m', bulk_columns kind m (new_ids start (length rows)) is k rows = Ok m' ∧
    (∀ j, j ∈ is -> ss_dense (store_or_new kind m' j) = ss_dense (store_or_new kind m j) ++ new_ids start (length rows)) ∧
    (∀ j, j ∉ is -> m' !! j = m !! j) ∧
    stores_rel kind li lm m' (λ e j, over (new_cell start rows e ≫= λ r, tuple_row is (drop k r) !! j) (c e j)).
Proof.
  induction is as [|i is IH]; intros m c k H Hnd Hne Hlen Hcap Hfree; cbn [bulk_columns].
  { exists m. split; [done|]. split; [intros j Hj; by apply elem_of_nil in Hj|]. split; [done|].
    eapply stores_ext; [exact H|]. intros e j. destruct (new_cell start rows e); done. }
  apply NoDup_cons in Hnd as [Hi Hnd].
  assert (Forall (λ r : list V, is_Some (r !! k)) rows) as Hk.
  { eapply Forall_impl; [exact Hlen|]. intros r Hr. cbn in Hr. apply lookup_lt_is_Some. lia. }
  pose proof (omap_all_length (.!! k) rows Hk) as Hol.
  destruct (ss_bulk_ok (store_or_new kind m i) _ start (omap (.!! k) rows) 0 0 (H i)) as (s' & E & Hd & Hdt & Hs').
  { intros E. rewrite E in Hol. by destruct rows. }
  { intros e He. apply Hfree; [done|left]. }
  { unfold lenN in *. by rewrite Hol. }
  rewrite Hol in E, Hd. rewrite E. cbn [rbind].
  assert (∀ e, new_cell start (omap (.!! k) rows) e = new_cell start rows e ≫= (.!! k)) as Hcol.
  { intros e. unfold new_cell. case_decide; [|done]. rewrite !getN_lookup. apply omap_all, Hk. }
  set (c1 := λ e j, if decide (j = i) then over ((λ v, Row v 0 0) <$> new_cell start (omap (.!! k) rows) e) (c e i)
                    else c e j).
  destruct (IH (<[i := s']> m) c1 (S k)) as (m' & E' & Hd' & Hno & H').
  - eapply stores_set; [exact H| |].
    + eapply store_rel_ext; [exact Hs'|]. intros e. unfold c1. by rewrite decide_True.
    + intros e j Hj. unfold c1. by rewrite decide_False.
  - done.
  - done.
  - eapply Forall_impl; [exact Hlen|]. cbn. intros r Hr. lia.
  - done.
  - intros e j He Hj. unfold c1. rewrite decide_False by (intros ->; done). apply Hfree; [done|by right].
  - exists m'. split; [done|]. split; [|split].
    + intros j [->|Hj]%elem_of_cons.
      * unfold store_or_new at 1. rewrite Hno by done. rewrite lookup_insert. cbn. exact Hd.
      * rewrite Hd' by done. unfold store_or_new. rewrite lookup_insert_ne by (intros ->; done). done.
    + intros j [Hj1 Hj2]%not_elem_of_cons. rewrite Hno by done. by rewrite lookup_insert_ne.
    + eapply stores_ext; [exact H'|]. intros e j. cbn beta. unfold c1.
      rewrite Hcol. destruct (new_cell start rows e) as [r|] eqn:Er; cbn [mbind option_bind].
      2: { destruct (decide (j = i)) as [->|]; done. }
      assert (∃ v, r !! k = Some v) as [v Hv].
      { rewrite Forall_forall in Hk. apply Hk. unfold new_cell in Er. case_decide; [|done].
        apply getN_elem. by eexists. }
      rewrite Hv. cbn [fmap option_fmap option_map over]. rewrite (drop_S r v k Hv).
      assert (tuple_row (i :: is) (v :: drop (S k) r) = <[i := Row v 0 0]> (tuple_row is (drop (S k) r))) as -> by done.
      destruct (decide (j = i)) as [->|Hj].
      * rewrite lookup_insert. by rewrite (tuple_row_none is _ i) by done.
      * by rewrite lookup_insert_ne.
Qed.

Lemma bulk_tuple_WR li lm w t is rows :
  WR kind li lm w t -> is ≠ [] -> NoDup is -> rows ≠ [] -> Forall (λ r, length r = length is) rows ->
  lenN (e_data (w_ents w)) + lenN rows < max_idx ->
  let ids := new_ids (lenN (e_data (w_ents w))) (length rows) in
  ∃ w', w_bulk_tuple kind w is rows = Ok (w', ids) ∧
    (∀ i, i ∈ is ->
      ss_dense (store_or_new kind (w_stores w') i) = ss_dense (store_or_new kind (w_stores w) i) ++ ids) ∧
    (∀ h, h ∈ ids -> h ∉ t_issued t) ∧
    WR kind li lm w' (t_bulk t (lenN (e_data (w_ents w))) (tuple_row is <$> rows) (t_now t)).
Proof.
  intros H Hi0 Hnd Hrows Hlen Hcap. cbn zeta. set (start := lenN (e_data (w_ents w))) in *. unfold w_bulk_tuple.
  destruct is as [|i1 is]; [done|]. rewrite decide_True by done. cbv zeta.
  assert (Forall (λ r : list V, is_Some (r !! 0%nat)) rows) as Hk.
  { eapply Forall_impl; [exact Hlen|]. intros r Hr. cbn in Hr. apply lookup_lt_is_Some. lia. }
  assert (length (ss_data (store_or_new kind (w_stores w) i1) ++ omap (.!! 0%nat) rows)
          - length (ss_dense (store_or_new kind (w_stores w) i1)) = length rows)%nat as ->.
  { rewrite app_length, (store_data_dense _ _ _ _ _ (wr_stores _ _ _ _ _ H i1)).
    rewrite (omap_all_length (.!! 0%nat) rows Hk). lia. }
  destruct (ER_bulk _ _ _ (length rows) (wr_ents _ _ _ _ _ H)) as (es' & -> & Ed & Hlt & Hnew & HE); [exact Hcap|].
  fold start in Ed, Hlt, HE, Hnew. fold start. cbn [rbind].
  assert (∀ e j, start <= idx e -> t_cell t e j = None) as Hfree.
  { intros e j He. apply cell_dead. destruct (t_rows t !! e) eqn:Ee; [|done].
    assert (idx e < start) by (apply Hlt; by rewrite Ee). lia. }
  destruct (bulk_columns_ok li lm start rows (i1 :: is) (w_stores w) (t_cell t) 0 (wr_stores _ _ _ _ _ H) Hnd Hrows Hlen)
    as (m' & -> & Hd & _ & Hm').
  { unfold max_idx in Hcap. lia. }
  { intros e j He _. by apply Hfree. }
  cbn [rbind]. rewrite Ed, drop_app_len. eexists. split; [done|]. split; [exact Hd|]. split; [exact Hnew|].
  rewrite (wr_now _ _ _ _ _ H).
  apply (bulk_WR li lm w t es' _ (tuple_row (i1 :: is) <$> rows) (t_now t) H); fold start.
  - exact Hlt.
  - rewrite fmap_length. exact HE.
  - eapply stores_ext; [exact Hm'|]. intros e j. cbn beta. rewrite new_cell_fmap.
    by destruct (new_cell start rows e).
Qed.

(** *** Entities without components, exact size hint *)
Lemma bulk_unit_WR li lm w t n :
  WR kind li lm w t -> lenN (e_data (w_ents w)) + N.of_nat n < max_idx ->
  let ids := new_ids (lenN (e_data (w_ents w))) n in
  ∃ w', w_bulk_unit w n n = Ok (w', ids) ∧ (∀ h, h ∈ ids -> h ∉ t_issued t) ∧
    WR kind li lm w' (t_bulk t (lenN (e_data (w_ents w))) (replicate n ∅) (t_now t)).
Proof.
  intros H Hcap. cbn zeta. set (start := lenN (e_data (w_ents w))) in *. unfold w_bulk_unit.
  destruct (ER_bulk _ _ _ n (wr_ents _ _ _ _ _ H)) as (es' & -> & Ed & Hlt & Hnew & HE); [exact Hcap|].
  fold start in Ed, Hlt, HE, Hnew. fold start. cbn [rbind]. rewrite Nat.sub_diag. cbn [generate_n rbind].
  rewrite Ed, drop_app_len. eexists. split; [done|]. split; [exact Hnew|]. rewrite (wr_now _ _ _ _ _ H).
  apply (bulk_WR li lm w t es' _ (replicate n ∅) (t_now t) H); fold start.
  - exact Hlt.
  - rewrite replicate_length. exact HE.
  - eapply stores_ext; [apply H|]. intros e j. unfold new_cell. case_decide; [|done].
    rewrite getN_replicate. destruct (_ <? _); [|done]. cbn. by rewrite lookup_empty.
Qed.

(** *** Through views *)
Lemma store_reserve k li lm s (c : eid -> option (row V)) start n :
  store_rel k li lm s c -> ∃ s', ss_reserve s (new_ids start n) = Ok s' ∧ store_rel k li lm s' c.
Proof.
  intros (a & HR & HF & Hc). destruct n as [|n].
  { exists s. split; [done|]. by exists a. }
  assert (last (new_ids start (S n)) = Some (start + N.of_nat n, 0)) as El.
  { rewrite last_lookup, new_ids_fresh, a_fresh_length. cbn [Nat.pred]. rewrite a_fresh_lookup. by rewrite decide_True by lia. }
  unfold ss_reserve. rewrite new_ids_fresh in El |- *. cbn [a_fresh] in El |- *. rewrite El.
  destruct (sa_bulk_allocate_ok (ss_sparse s) (start, 0) (start + N.of_nat n, 0) (si_wf _ (sr_inv _ _ HR)))
    as (sp & -> & W & X & _); [cbn; lia|].
  cbn [rbind]. eexists. split; [done|]. exists a. split; [|by split].
  destruct HR. split; try done.
  - by eapply SI_ext.
  - by eapply SRows_same.
Qed.
Lemma reserve_all_ok li lm start n is : ∀ m (c : eid -> N -> option (row V)),
  stores_rel kind li lm m c -> ∃ m', reserve_all kind m is (new_ids start n) = Ok m' ∧ stores_rel kind li lm m' c.
Proof.
  induction is as [|i is IH]; intros m c H; cbn [reserve_all]; [by exists m|].
  destruct (store_reserve _ _ _ _ _ start n (H i)) as (s' & -> & Hs). cbn [rbind].
  apply IH. eapply stores_set; [exact H|exact Hs|done].
Qed.

Lemma view_add_ok li lm e cs now : ∀ m c (r : gmap N (row V)),
  stores_rel kind li lm m (at_row c e r) -> handle_ok e -> others_free c e ->
  ∃ m', view_add kind m e cs now = Ok m' ∧ stores_rel kind li lm m' (at_row c e (put_cells now r cs)).
Proof.
  induction cs as [|[i v] cs IH]; intros m c r H Hok Hfree; cbn [view_add].
  { by exists m. }
  destruct (store_insert _ _ e v now (H i) Hok) as (s' & x & -> & _ & Hs).
  { intros e' Hi He'. rewrite at_row_other by done. by apply Hfree. }
  cbn [rbind]. apply (IH (<[i := s']> m) c (put_cell now r (i, v))); [|done|done].
  eapply stores_row; [exact H| |].
  - unfold put_cell. cbn. rewrite lookup_insert. rewrite at_row_same in Hs. exact Hs.
  - intros j Hj. unfold put_cell. cbn. by rewrite lookup_insert_ne.
Qed.

Definition view_row now (is : list N) (vs : list V) : gmap N (row V) := put_cells now ∅ (zip is vs).

Lemma put_cells_distinct now is : ∀ (vs : list V) (r : gmap N (row V)) j, NoDup is -> (∀ i, i ∈ is -> r !! i = None) ->
  put_cells now r (zip is vs) !! j =
    match (list_to_map (zip is vs) : gmap N V) !! j with Some v => Some (Row v now 0) | None => r !! j end.
Proof.
  induction is as [|i is IH]; intros vs r j Hnd Hr; [by cbn [zip zip_with list_to_map foldr]; rewrite lookup_empty|].
  destruct vs as [|v vs]; [by cbn [zip zip_with list_to_map foldr]; rewrite lookup_empty|]. cbn [zip zip_with list_to_map foldr curry uncurry fst snd].
  inversion Hnd as [|? ? Hni Hnd']; subst.
  change (put_cells now r ((i, v) :: zip is vs)) with (put_cells now (put_cell now r (i, v)) (zip is vs)).
  rewrite IH; [|done|].
  2: { intros k Hk. unfold put_cell. cbn. rewrite lookup_insert_ne by (intros ->; done). apply Hr. by right. }
  change (foldr _ ∅ (zip is vs)) with (list_to_map (zip is vs) : gmap N V).
  destruct (decide (j = i)) as [->|Hj].
  - rewrite lookup_insert. rewrite not_elem_of_list_to_map_1.
    + unfold put_cell. cbn. rewrite lookup_insert, (Hr i) by left. done.
    + intros ([a b] & Ha & Hin)%elem_of_list_fmap. cbn in Ha. subst a. apply Hni. by eapply elem_of_zip_l.
  - rewrite lookup_insert_ne by done. destruct (_ !! j); [done|]. unfold put_cell. cbn. by rewrite lookup_insert_ne.
Qed.
Lemma view_row_lookup now is (vs : list V) j : NoDup is ->
  view_row now is vs !! j = (λ v, Row v now 0) <$> (list_to_map (zip is vs) : gmap N V) !! j.
Proof.
  intros H. unfold view_row. rewrite put_cells_distinct; [|done|by intros; rewrite lookup_empty]. destruct (_ !! j); [done|]. by rewrite lookup_empty.
Qed.

Lemma view_add_all_ok li lm now is rows : ∀ start m (c : eid -> N -> option (row V)),
  stores_rel kind li lm m c -> start + lenN rows <= INDEX_MASK ->
  (∀ e j, start <= idx e -> c e j = None) ->
  ∃ m', view_add_all kind m is (zip (new_ids start (length rows)) rows) now = Ok m' ∧
    stores_rel kind li lm m' (λ e j, over (new_cell start (view_row now is <$> rows) e ≫= (.!! j)) (c e j)).
Proof.
  induction rows as [|r rows IH]; intros start m c H Hcap Hfree.
  { exists m. split; [done|]. eapply stores_ext; [exact H|]. intros e j. unfold new_cell. rewrite fmap_nil.
    case_decide; [|done]. by rewrite getN_ge by (unfold lenN; cbn; lia). }
  rewrite new_ids_fresh. cbn [length a_fresh zip zip_with view_add_all]. rewrite <- new_ids_fresh.
  rewrite lenN_cons in Hcap.
  destruct (view_add_ok li lm (start, 0) (zip is r) now m c ∅) as (m1 & -> & H1).
  { eapply stores_ext; [exact H|]. intros e j. unfold at_row. case_decide as D; [|done]. subst e.
    rewrite lookup_empty. apply Hfree. cbn. lia. }
  { split; cbn; [lia|done]. }
  { intros x j Hx _. apply Hfree. rewrite Hx. cbn. lia. }
  cbn [rbind]. destruct (IH (start + 1) m1 _ H1) as (m' & -> & H').
  { lia. }
  { intros e j He. rewrite at_row_other by (intros ->; cbn in He; lia). apply Hfree. lia. }
  exists m'. split; [done|]. eapply stores_ext; [exact H'|]. intros e j. cbn beta.
  change (put_cells now ∅ (zip is r)) with (view_row now is r). rewrite fmap_cons. unfold new_cell, at_row.
  destruct (decide (start + 1 <= idx e ∧ gen e = 0)) as [D|D].
  - rewrite (decide_True (P := start <= idx e ∧ gen e = 0)) by (destruct D; split; [lia|done]).
    rewrite (decide_False (P := e = (start, 0))) by (intros ->; cbn in D; lia).
    assert (getN (view_row now is r :: (view_row now is <$> rows)) (idx e - start)
            = getN (view_row now is <$> rows) (idx e - (start + 1))) as ->; [|done].
    rewrite !getN_lookup. replace (N.to_nat (idx e - start)) with (S (N.to_nat (idx e - (start + 1)))) by lia. done.
  - destruct (decide (e = (start, 0))) as [->|Hne].
    + rewrite decide_True by (cbn; lia). cbn [idx fst]. rewrite N.sub_diag, getN_lookup. cbn.
      destruct (view_row now is r !! j) eqn:Ej; [done|]. cbn. symmetry. apply Hfree. cbn. lia.
    + rewrite decide_False; [done|]. intros [D1 D2]. apply Hne. destruct e as [x g]. cbn in *. f_equal; lia.
Qed.

Lemma bulk_view_WR li lm w t is rows :
  WR kind li lm w t -> lenN (e_data (w_ents w)) + lenN rows < max_idx ->
  let ids := new_ids (lenN (e_data (w_ents w))) (length rows) in
  ∃ w', w_bulk_view kind w is (length rows) rows = Ok (w', ids) ∧ (∀ h, h ∈ ids -> h ∉ t_issued t) ∧
    WR kind li lm w' (t_bulk t (lenN (e_data (w_ents w))) (view_row (t_now t) is <$> rows) (t_now t + 1)).
Proof.
  intros H Hcap. cbn zeta. set (start := lenN (e_data (w_ents w))) in *. unfold w_bulk_view, bulk_add_entity_ids.
  destruct (ER_bulk _ _ _ (length rows) (wr_ents _ _ _ _ _ H)) as (es' & -> & Ed & Hlt & Hnew & HE); [exact Hcap|].
  fold start in Ed, Hlt, HE, Hnew. fold start. cbn [rbind].
  rewrite (drop_ge rows) by lia. cbn [generate_for rbind fst snd]. rewrite app_nil_r.
  destruct (reserve_all_ok li lm start (length rows) is _ _ (wr_stores _ _ _ _ _ H)) as (m1 & -> & H1). cbn [rbind].
  destruct (view_add_all_ok li lm (w_counter w) is rows start m1 _ H1) as (m' & -> & Hm').
  { unfold max_idx in Hcap. lia. }
  { intros e j He. apply cell_dead. destruct (t_rows t !! e) eqn:Ee; [|done].
    assert (idx e < start) by (apply Hlt; by rewrite Ee). lia. }
  cbn [rbind]. rewrite Ed, drop_app_len. eexists. split; [done|]. split; [exact Hnew|].
  rewrite (wr_now _ _ _ _ _ H) in *.
  apply (bulk_WR li lm w t es' _ (view_row (t_now t) is <$> rows) (t_now t + 1) H); fold start.
  - exact Hlt.
  - rewrite fmap_length. exact HE.
  - exact Hm'.
Qed.
End world.
