(** Proofs about the model of the serialization code. *)
From stdpp Require Import prelude list gmap sorting.
From Coq Require Import NArith Lia.
From Verif Require Import EntityId EntityIdProofs Base Entities EntitiesSpec EntitiesProofs EntitiesHistory.
From Verif Require Import SparseSet Track SparseSetSpec SparseSetProofs SparseSetProofs2 SparseSetHistory.
From Verif Require Import World WorldSpec WorldProofs WorldProofs2 Unique Serde.
Open Scope N_scope.

(** ** Handles *)
Lemma handle_wf e : handle_ok e -> eid_wf e.
Proof. intros [H1 H2]. split; [done|]. eapply N.lt_trans; [exact H2|reflexivity]. Qed.

Lemma pair_of_enc e : eid_wf e -> pair_of (enc e) = Ok e.
Proof.
  intros He. unfold pair_of. rewrite land_enc_index by done.
  destruct (N.eqb_spec (idx e + 1) 0); [lia|]. rewrite enc_index, enc_gen by done. by destruct e.
Qed.
Lemma de_parts_enc e : eid_wf e -> de_parts (idx e) (gen e) = Ok (Some e).
Proof.
  intros He. unfold de_parts, Raw.de_human. cbn [fst snd]. rewrite enc_new_from_parts by done.
  unfold rmap. by rewrite pair_of_enc.
Qed.
Lemma de_ser_eid f e : eid_wf e -> de_eid f (ser_eid f e) = Ok (Some e).
Proof.
  intros He. unfold de_eid, ser_eid. pose proof He as [Hi Hg].
  assert (idx e <? 2 ^ 64 = true) as Bi.
  { apply N.ltb_lt. eapply N.lt_trans; [exact Hi|reflexivity]. }
  assert (gen e <? 2 ^ 16 = true) as Bg by (by apply N.ltb_lt).
  destruct (f_human f).
  - rewrite enc_ser_human by done. cbv zeta. change (e.1) with (idx e). change (e.2) with (gen e).
    unfold d_struct. destruct (f_maps f).
    + cbn [de_fields de_num]. rewrite Bi. cbn [de_fields de_num]. rewrite Bg. by apply de_parts_enc.
    + cbn [fmap list_fmap snd de_num]. rewrite Bi, Bg. by apply de_parts_enc.
  - pose proof (enc_range e He) as [R1 R2]. cbn [de_num].
    assert (Raw.ser_binary (enc e) <? 2 ^ 64 = true) as -> by (apply N.ltb_lt; unfold Raw.ser_binary; lia).
    rewrite enc_binary by done. unfold rmap. by rewrite pair_of_enc.
Qed.

(** ** Entities *)
(** Handles in increasing order of their index. *)
Notation sorted := (StronglySorted (λ a b : eid, idx a < idx b)).

Lemma spawn_next s a e s' : R s a -> gen e < U16_MAX -> idx e + 1 < max_idx -> lenN (e_data s) <= idx e ->
  spawn s e = Ok (s', true) -> lenN (e_data s') = idx e + 1.
Proof.
  intros HR Hg Hi Hl E. destruct (spawn_R s a e HR Hg Hi) as (s1 & b & a' & E1 & St & HR' & _).
  rewrite E in E1. injection E1 as <- <-. rewrite (R_len _ _ HR'). rewrite (R_len _ _ HR) in Hl.
  destruct (R_fresh_structure _ _ HR) as (F1 & F2 & _).
  inversion St as [ | | | | | |? He|? h Hh Hih Hgh|? h Hh Hih Hgh|? h Hh Hih Hgh|? h Hh Hih Hgh|]; subst; [done|..].
  - specialize (F1 _ Hh). lia.
  - specialize (F2 _ Hh). lia.
Qed.

Lemma spawn_sorted f l : ∀ s P iss,
  ER s P iss -> sorted l -> Forall handle_ok l -> Forall (λ e, idx e + 1 < max_idx) l ->
  (∀ e, e ∈ l -> lenN (e_data s) <= idx e) ->
  ∃ s', spawn_docs f s (ser_eid f <$> l) = Ok (s', true) ∧ ER s' (λ x, P x ∨ x ∈ l) (iss ++ l).
Proof.
  induction l as [|e l IH]; intros s P iss H Hs Hok Hcap Hlen.
  { exists s. split; [done|]. rewrite app_nil_r. eapply ER_ext; [done|]. intros x. set_solver. }
  apply StronglySorted_inv in Hs as [Hs Hlt]. apply Forall_cons in Hok as [He Hok]. apply Forall_cons in Hcap as [Hc Hcap].
  rewrite fmap_cons. cbn [spawn_docs]. rewrite de_ser_eid by (by apply handle_wf). cbn [rbind].
  pose proof H as (a & HR & HF & HP & _).
  assert (lenN (e_data s) <= idx e) as Hle by (apply Hlen; left).
  assert (∀ h, P h -> idx h < idx e) as HPlt.
  { intros h Hh%HP. eapply N.lt_le_trans; [|exact Hle]. rewrite (R_len _ _ HR). by apply (f_live_lt _ _ HF). }
  destruct (ER_spawn s P iss e H (proj2 He) Hc) as (s1 & b & E & Hb).
  { intros h Hh Hi. specialize (HPlt h Hh). lia. }
  rewrite E. cbn [rbind].
  assert (b = true) as ->.
  { destruct b; [done|]. destruct (spawn_R s a e HR (proj2 He) Hc) as (s2 & b2 & a' & E2 & St & _).
    rewrite E in E2. injection E2 as <- <-. destruct (R_fresh_structure _ _ HR) as (F1 & F2 & _).
    rewrite (R_len _ _ HR) in Hle.
    inversion St as [ | | | | | |? ?|? h Hh Hih Hgh|? h Hh Hih Hgh|? h Hh Hih Hgh|? h Hh Hih Hgh|]; subst.
    - specialize (F1 _ Hh). lia.
    - specialize (F2 _ Hh). lia. }
  destruct Hb as [_ Hb].
  destruct (IH s1 _ _ Hb Hs Hok Hcap) as (s' & E' & H').
  { intros x Hx. rewrite (spawn_next s a e s1 HR (proj2 He) Hc Hle E).
    rewrite Forall_forall in Hlt. specialize (Hlt x Hx). lia. }
  exists s'. split; [exact E'|]. rewrite <- app_assoc in H'. cbn [app] in H'. eapply ER_ext; [exact H'|].
  intros x. cbn. set_solver.
Qed.

Lemma ER_cap es P iss e : ER es P iss -> P e -> idx e + 1 < max_idx.
Proof.
  intros (a & HR & HF & HP & _) H%HP. pose proof (f_live_lt _ _ HF _ H) as Hl. pose proof (R_cap _ _ HR).
  rewrite (R_len _ _ HR) in *. lia.
Qed.

(** Loading saved entities into an empty allocator. *)
Lemma load_entities_ER f es P iss :
  ER es P iss ->
  ∃ s', de_entities f e_new (ser_entities f es) = Ok (s', true) ∧ ER s' P (e_iter es).
Proof.
  intros H. unfold de_entities, ser_entities.
  destruct (spawn_sorted f (e_iter es) e_new _ _ ER_init) as (s' & E & H').
  - apply iter_from_sorted.
  - apply Forall_forall. intros e He%iter_alive. eapply (ER_ok _ _ _ _ H). by apply (ER_alive _ _ _ _ H).
  - apply Forall_forall. intros e He%iter_alive. eapply (ER_cap _ _ _ _ H). by apply (ER_alive _ _ _ _ H).
  - intros e _. cbn. lia.
  - exists s'. split; [exact E|]. eapply ER_ext; [exact H'|]. intros x. cbn.
    rewrite iter_alive, (ER_alive _ _ _ _ H). set_solver.
Qed.

(** More handles may count as issued: older ones of the slot of a live entity. *)
Lemma ER_older es P iss e h : ER es P iss -> P e -> idx h = idx e -> gen h <= gen e -> ER es P (iss ++ [h]).
Proof.
  intros (a & HR & HF & HP & HL & HG) He Hi Hg. exists a. split_and!; try done.
  apply HP in He. destruct HF. constructor; try done.
  - intros x [Hx| ->%elem_of_list_singleton]%elem_of_app; [by apply f_next|]. rewrite Hi. by apply f_live_lt.
  - intros x y [Hx| ->%elem_of_list_singleton]%elem_of_app Hy Hxy; [by apply f_live|].
    assert (y = e) as -> by (apply f_live_uniq; [done|done|congruence]). done.
  - intros x y [Hx| ->%elem_of_list_singleton]%elem_of_app Hy Hxy; [by apply f_ready|].
    exfalso. eapply (f_disj e y); [done|done|congruence].
Qed.

(** ** Components *)
Section stores.
Context {V : Type} (kind : N -> tracking) (ser_v : V -> doc) (de_v : doc -> option V).
Hypothesis ser_de : ∀ v, de_v (ser_v v) = Some v.
Implicit Types (s : sset V) (c : eid -> option (row V)).

Lemma de_ser_pair f x : handle_ok x.1 -> de_pair de_v f (ser_pair ser_v f x) = Ok (Some x).
Proof.
  intros H. unfold de_pair, ser_pair. rewrite de_ser_eid by (by apply handle_wf). cbn [rbind].
  rewrite ser_de. by destruct x.
Qed.
Lemma de_ser_pairs f l : Forall (λ x, handle_ok x.1) l -> de_pairs de_v f (ser_pair ser_v f <$> l) = Ok (Some l).
Proof.
  induction 1 as [|x l Hx Hl IH]; [done|]. rewrite fmap_cons. cbn [de_pairs].
  rewrite de_ser_pair by done. cbn [rbind]. rewrite IH. done.
Qed.
Lemma put_docs_pairs f ov l t : ∀ s, Forall (λ x, handle_ok x.1) l ->
  put_docs de_v f ov s (ser_pair ser_v f <$> l) t = rmap (λ s, (s, true)) (put_pairs ov s l t).
Proof.
  induction l as [|x l IH]; intros s Hl; [done|]. apply Forall_cons in Hl as [Hx Hl].
  rewrite fmap_cons. cbn [put_docs put_pairs]. rewrite de_ser_pair by done. cbn [rbind].
  destruct (put_pair ov s x t) as [s'| |]; [|done..]. cbn [rbind]. by apply IH.
Qed.
(** Reading what was written is adding the pairs. *)
Lemma de_ser_view f tn ov name (s0 s : sset V) t :
  Forall handle_ok (ss_dense s0) -> (tn = true -> f_maps f = true) ->
  de_view de_v f tn ov s (ser_view ser_v f tn name s0) t =
  rmap (λ s, (s, true)) (put_pairs ov s (zip (ss_dense s0) (ss_data s0)) t).
Proof.
  intros Hd Hf. assert (Forall (λ x : eid * V, handle_ok x.1) (zip (ss_dense s0) (ss_data s0))) as HF.
  { apply Forall_forall. intros [e v] Hin. rewrite Forall_forall in Hd. apply Hd. by apply elem_of_zip_l in Hin. }
  unfold de_view, ser_view. destruct tn.
  - unfold d_struct. rewrite Hf by done. cbn [de_data]. rewrite de_ser_pairs by done. cbn [rbind de_data default].
    by destruct (put_pairs ov s _ t).
  - by apply put_docs_pairs.
Qed.

(** What adding a list of pairs does. *)
Definition merged (ov : bool) (now : N) (v : V) (dst : option (row V)) : row V :=
  match dst with
  | Some d => if ov then Row v (r_ins d) now else d
  | None => Row v now 0
  end.
Lemma SR_uniq s a e e' : SR s a -> is_Some (sp_map a !! e) -> is_Some (sp_map a !! e') -> idx e = idx e' -> e = e'.
Proof.
  intros HR [r Hr] [r' Hr'] Hi. destruct (sr_dom _ _ (sr_rows _ _ HR) _ _ Hr) as [p Hp].
  destruct (sr_dom _ _ (sr_rows _ _ HR) _ _ Hr') as [p' Hp'].
  pose proof (si_inj s p p' e e' (sr_inv _ _ HR) Hp Hp' Hi) as ->. congruence.
Qed.
Lemma put_pairs_ok k li lm ov now l : ∀ s c,
  store_rel k li lm s c -> NoDup (idx <$> l.*1) -> Forall (λ x, handle_ok x.1) l ->
  (∀ e, e ∈ l.*1 -> none_older c e) ->
  ∃ s' c', put_pairs ov s l now = Ok s' ∧ store_rel k li lm s' c' ∧
    (∀ e, e ∉ l.*1 -> c' e = c e) ∧
    ∀ e v, (e, v) ∈ l ->
      ((∀ e', idx e' = idx e -> e' ≠ e -> c e' = None) -> c' e = Some (merged ov now v (c e))) ∧
      ((∃ e', idx e' = idx e ∧ gen e < gen e' ∧ is_Some (c e')) -> c' e = c e).
Proof.
  induction l as [|[e v] l IH]; intros s c HS Hnd Hok Hold.
  { exists s, c. split_and!; try done. intros e v Hin. by apply elem_of_nil in Hin. }
  apply Forall_cons in Hok as [He Hok]. rewrite !fmap_cons in Hnd. apply NoDup_cons in Hnd as [Hni Hnd].
  cbn [fst] in *. cbn [put_pairs].
  assert (∃ s1 c1, put_pair ov s (e, v) now = Ok s1 ∧ store_rel k li lm s1 c1 ∧ (∀ x, x ≠ e -> c1 x = c x) ∧
    ((∀ e', idx e' = idx e -> e' ≠ e -> c e' = None) -> c1 e = Some (merged ov now v (c e))) ∧
    ((∃ e', idx e' = idx e ∧ gen e < gen e' ∧ is_Some (c e')) -> c1 e = c e)) as (s1 & c1 & E1 & HS1 & Ho & Hf & Hn).
  { unfold put_pair. cbn [fst snd]. pose proof HS as (a & HR & Hk & Hc).
    assert (no_older (sp_map a) e) as Hno.
    { intros x Hx Hg. rewrite Hc. apply (Hold e); [rewrite fmap_cons; left|done|done]. }
    assert (ss_contains s e = bool_decide (is_Some (c e))) as Hcon.
    { rewrite (ss_contains_SR s a e HR (proj2 He)). by rewrite Hc. }
    destruct (negb ov && ss_contains s e) eqn:B.
    - apply andb_true_iff in B as [B1 B2]. rewrite Hcon in B2. apply bool_decide_eq_true in B2 as [r Hr].
      exists s, c. split_and!; try done. intros _. rewrite Hr. cbn. by destruct ov.
    - destruct (ss_insert_SR s a e v now HR He Hno) as (s' & r & a' & E & St & HR').
      rewrite E. exists s', (λ x, sp_map a' !! x). split; [done|].
      inversion St as [? ? ? Hif|? ? ? r0 Hr0|? e' ? ? Hi Hg Hs| | | | | | | | | | | | | | | | | | | ]; subst.
      + split; [by exists (upd_map a (<[e := Row v now 0]> (sp_map a)))|]. cbn [upd_map upd sp_map].
        split_and!.
        * intros x Hx. by rewrite lookup_insert_ne.
        * intros _. rewrite lookup_insert, <- Hc, (Hif e eq_refl). done.
        * intros (e' & Hi' & _ & Hs'). rewrite <- Hc, (Hif e' Hi') in Hs'. by destruct Hs'.
      + split; [by eexists|]. cbn [upd_map upd sp_map]. split_and!.
        * intros x Hx. by rewrite lookup_insert_ne.
        * intros _. rewrite lookup_insert, <- Hc, Hr0. cbn.
          destruct ov; [done|]. rewrite Hcon, <- Hc, Hr0 in B. rewrite bool_decide_true in B by eauto. done.
        * intros (e' & Hi' & Hg' & Hs'). exfalso. rewrite <- Hc in Hs'. destruct Hs' as [r' Hr'].
          assert (e' ≠ e) as Hne by (intros ->; lia).
          apply Hne. apply (SR_uniq s a); [done|by eexists..|done].
      + split; [by exists a'|]. split_and!; [done| |done].
        intros Hfree. exfalso. rewrite Hc, Hfree in Hs; [by destruct Hs|done|]. intros ->. lia. }
  rewrite E1. cbn [rbind].
  assert (∀ x, idx x ≠ idx e -> c1 x = c x) as Ho'. { intros x Hx. apply Ho. by intros ->. }
  assert (∀ x, x ∈ l.*1 -> idx x ≠ idx e) as Hl.
  { intros x Hx Hi. apply Hni. rewrite <- Hi. by apply elem_of_list_fmap_1. }
  destruct (IH s1 c1 HS1 Hnd Hok) as (s' & c' & E & HS' & O & M).
  { intros x Hx y Hy Hg. rewrite Ho' by (specialize (Hl x Hx); congruence). apply (Hold x); [|done|done].
    rewrite fmap_cons. by right. }
  exists s', c'. split_and!; [done|done| |].
  - intros x Hx. rewrite fmap_cons in Hx. apply not_elem_of_cons in Hx as [Hxe Hx]. rewrite O by done. by apply Ho.
  - intros x vx Hin. rewrite elem_of_cons in Hin. destruct Hin as [[= -> ->]|Hin].
    + rewrite O; [done|]. intros Hx. by apply (Hl e Hx).
    + assert (x ∈ l.*1) as Hx by (by apply (elem_of_list_fmap_1 fst) in Hin).
      specialize (Hl x Hx). destruct (M x vx Hin) as [M1 M2].
      assert (∀ y, idx y = idx x -> c1 y = c y) as Hy by (intros y Hy; apply Ho'; congruence).
      rewrite !Hy in M1, M2 by done. split.
      * intros Hfree. apply M1. intros y Hi Hne. rewrite Hy by done. by apply Hfree.
      * intros (y & Hi & Hg & Hs). apply M2. exists y. by rewrite Hy.
Qed.

(** The pairs of a storage. *)
Lemma store_pairs k li lm s c :
  store_rel k li lm s c ->
  let l := zip (ss_dense s) (ss_data s) in
  l.*1 = ss_dense s ∧ NoDup (idx <$> l.*1) ∧ Forall (λ x, handle_ok x.1) l ∧ Forall handle_ok (ss_dense s) ∧
  ∀ e v, (e, v) ∈ l <-> ∃ r, c e = Some r ∧ r_val r = v.
Proof.
  intros (a & HR & _ & Hc) l. pose proof (sr_inv _ _ HR) as HI. pose proof (si_data _ HI) as HL.
  assert (l.*1 = ss_dense s) as Hl. { apply fst_zip. unfold lenN in HL. lia. }
  assert (Forall handle_ok (ss_dense s)) as HF.
  { apply Forall_forall. intros e [p Hp]%getN_elem. by apply (si_dense s HI p e Hp). }
  split_and!; [done| | |done|].
  - rewrite Hl. apply NoDup_getN. intros p q i Hp Hq. rewrite getN_lookup, list_lookup_fmap in Hp. rewrite getN_lookup, list_lookup_fmap in Hq.
    apply fmap_Some in Hp as (e & E1 & ->). apply fmap_Some in Hq as (e' & E2 & Hi).
    apply (si_inj s p q e e' HI); rewrite ?getN_lookup; [done|done|congruence].
  - apply Forall_forall. intros [e v] Hin. rewrite Forall_forall in HF. apply HF. by apply elem_of_zip_l in Hin.
  - intros e v. split.
    + intros [p Hp]%elem_of_list_lookup. apply lookup_zip_with_Some in Hp as (e' & v' & [= -> ->] & H1 & H2).
      destruct (sr_row s _ (sr_rows _ _ HR) (N.of_nat p) e') as (r & Hr & Hv & _).
      { by rewrite getN_lookup, Nat2N.id. }
      exists r. rewrite <- Hc. split; [done|]. rewrite getN_lookup, Nat2N.id in Hv. congruence.
    + intros (r & Hr & <-). rewrite <- Hc in Hr.
      destruct (sr_dom s _ (sr_rows _ _ HR) _ _ Hr) as [p Hp].
      destruct (sr_row s _ (sr_rows _ _ HR) p e Hp) as (r' & Hr' & Hv & _).
      rewrite Hr in Hr'. injection Hr' as <-. apply elem_of_list_lookup. exists (N.to_nat p).
      apply lookup_zip_with_Some. exists e, (r_val r). rewrite getN_lookup in Hp. rewrite getN_lookup in Hv. done.
Qed.
End stores.
