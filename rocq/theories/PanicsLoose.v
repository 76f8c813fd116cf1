(** Storages that may hold components of dead entities.  After an interrupted deletion the next owner
    of the index can meet a component of an older generation; inserting over it leaves a wrong id in
    [dense] (C13).  The invariant of SparseSetProofs.v then only holds for a twin of the storage that
    has the right ids. *)
From stdpp Require Import prelude list gmap.
From Coq Require Import NArith Lia.
From Verif Require Import EntityId Base SparseSet SparseSetSpec SparseSetProofs SparseSetProofs2 SparseSetHistory.
From Verif Require Import Panics PanicsSpec PanicsProofs PanicsWorldSpec.
Open Scope N_scope.

Lemma lor_ge a b : a <= N.lor a b ∧ b <= N.lor a b.
Proof.
  assert (∀ x y, x <= N.lor x y) as H.
  { intros x y. apply N.ldiff_le, N.bits_inj_iff. intros n. 
    rewrite N.ldiff_spec, N.lor_spec, N.bits_0. by destruct (N.testbit x n), (N.testbit y n). }
  split; [apply H|]. rewrite N.lor_comm. apply H.
Qed.

Section loose.
Context {T : Type}.
Implicit Types (s : sset T) (a : sspec T) (m : gmap eid T).

(** The id kept for a component has the index of its owner; its generation can only be larger. *)
Record sim s s0 : Prop := {
  sim_sparse : ss_sparse s = ss_sparse s0;
  sim_dense : Forall2 id_of (ss_dense s) (ss_dense s0);
  sim_data : ss_data s = ss_data s0;
  sim_ins : ss_ins s = ss_ins s0;
  sim_mod : ss_mod s = ss_mod s0;
  sim_ti : ss_ti s = ss_ti s0;
  sim_tm : ss_tm s = ss_tm s0;
}.
(** [m]: what can be read, by the handle of the owner. *)
Definition LR s m : Prop := ∃ s0 a, sim s s0 ∧ SR s0 a ∧ m = r_val <$> sp_map a.

Lemma id_of_refl d : id_of d d.
Proof. by split. Qed.
Lemma sim_refl s : sim s s.
Proof. split; try done. apply Forall_Forall2_diag, Forall_forall. intros. apply id_of_refl. Qed.
Lemma SR_LR s a : SR s a -> LR s (r_val <$> sp_map a).
Proof. intros H. exists s, a. split; [apply sim_refl|done]. Qed.
Lemma ss_new_LR ti tm td tr : LR (ss_new ti tm td tr) ∅.
Proof.
  replace (∅ : gmap eid T) with (r_val <$> sp_map (sp_init (T:=T) ti tm td tr)).
  - apply SR_LR, ss_new_SR.
  - cbn. apply fmap_empty.
Qed.

Lemma F2_len {A B} (R : A -> B -> Prop) l k : Forall2 R l k -> lenN l = lenN k.
Proof. intros H. unfold lenN. by rewrite (Forall2_length _ _ _ H). Qed.
Lemma F2_get {A B} (R : A -> B -> Prop) l k i x :
  Forall2 R l k -> getN l i = Some x -> ∃ y, getN k i = Some y ∧ R x y.
Proof. intros H. rewrite !getN_lookup. intros Hi. by eapply Forall2_lookup_l. Qed.
Lemma F2_get_r {A B} (R : A -> B -> Prop) l k i y :
  Forall2 R l k -> getN k i = Some y -> ∃ x, getN l i = Some x ∧ R x y.
Proof. intros H. rewrite !getN_lookup. intros Hi. by eapply Forall2_lookup_r. Qed.
Lemma F2_intro {A B} (R : A -> B -> Prop) l k :
  lenN l = lenN k -> (∀ i x y, getN l i = Some x -> getN k i = Some y -> R x y) -> Forall2 R l k.
Proof.
  intros HL H. apply Forall2_same_length_lookup. split; [unfold lenN in *; lia|].
  intros i x y Hx Hy. apply (H (N.of_nat i)); by rewrite getN_lookup, Nat2N.id.
Qed.
Lemma F2_set {A B} (R : A -> B -> Prop) l k i x y :
  Forall2 R l k -> R x y -> Forall2 R (setN l i x) (setN k i y).
Proof.
  intros H Hxy. pose proof (F2_len _ _ _ H) as HL. apply F2_intro; [by rewrite !lenN_setN|].
  intros j u v. rewrite !getN_setN, HL. destruct ((j =? i) && (i <? lenN k)).
  - by intros [= <-] [= <-].
  - intros Hu Hv. destruct (F2_get _ _ _ _ _ H Hu) as (v' & Hv' & ?). congruence.
Qed.
Lemma F2_swap_remove {A B} (R : A -> B -> Prop) l k i y k' :
  Forall2 R l k -> swap_remove k i = Ok (y, k') ->
  ∃ x l', swap_remove l i = Ok (x, l') ∧ R x y ∧ Forall2 R l' k'.
Proof.
  intros H E. pose proof (F2_len _ _ _ H) as HL.
  assert (getN k i = Some y) as Hy.
  { unfold swap_remove in E. destruct (getN k i), (last k); by simplify_eq. }
  destruct (F2_get_r _ _ _ _ _ H Hy) as (x & Hx & Hxy).
  destruct (swap_remove_ok _ _ _ Hx) as (l' & El & L1 & _ & G1).
  destruct (swap_remove_ok _ _ _ Hy) as (k2 & Ek & L2 & _ & G2).
  rewrite E in Ek. injection Ek as <-.
  exists x, l'. split; [done|]. split; [done|]. apply F2_intro; [lia|].
  intros j u v. rewrite G1, G2, HL.
  destruct (j <? lenN k - 1); [|done]. destruct (j =? i); intros Hu Hv;
    destruct (F2_get _ _ _ _ _ H Hu) as (v' & Hv' & ?); congruence.
Qed.

(** Reading. *)
Lemma sim_index_of s s0 e : sim s s0 -> index_of s e = index_of s0 e.
Proof. intros H. unfold index_of. by rewrite (sim_sparse s s0 H). Qed.
Lemma ss_get_LR s m e : LR s m -> gen e < U16_MAX -> ss_get s e = Ok (m !! e).
Proof.
  intros (s0 & a & H & HS & ->) Hg. unfold ss_get. rewrite (sim_index_of s s0 e H), (sim_data s s0 H).
  rewrite lookup_fmap. by apply ss_get_SR.
Qed.
Lemma ss_contains_LR s m e : LR s m -> gen e < U16_MAX -> ss_contains s e = bool_decide (is_Some (m !! e)).
Proof.
  intros (s0 & a & H & HS & ->) Hg. unfold ss_contains. rewrite (sim_sparse s s0 H).
  change (ss_contains s0 e = bool_decide (is_Some ((r_val <$> sp_map a) !! e))).
  rewrite (ss_contains_SR s0 a) by done. apply bool_decide_ext. by rewrite lookup_fmap, fmap_is_Some.
Qed.
Lemma marks_LR s m e l c :
  LR s m -> gen e < U16_MAX ->
  (ss_ti s = true -> ∃ b, is_inserted s e l c = Ok b) ∧ (ss_tm s = true -> ∃ b, is_modified s e l c = Ok b).
Proof.
  intros (s0 & a & H & HS & ->) Hg. unfold is_inserted, is_modified.
  rewrite (sim_index_of s s0 e H), (sim_ins s s0 H), (sim_mod s s0 H), (sim_ti s s0 H), (sim_tm s s0 H).
  split; intros Ht.
  - eexists. apply (is_inserted_SR s0 a); [done..|]. by rewrite <- (sr_ti s0 a HS).
  - eexists. apply (is_modified_SR s0 a); [done..|]. by rewrite <- (sr_tm s0 a HS).
Qed.
(** Positions: one component per owner, every component has an owner. *)
Lemma LR_row s m p d :
  LR s m -> getN (ss_dense s) p = Some d ->
  ∃ k v, id_of d k ∧ handle_ok k ∧ sa_get (ss_sparse s) d = Some (p, gen k) ∧ m !! k = Some v ∧
         getN (ss_data s) p = Some v.
Proof.
  intros (s0 & a & H & HS & ->) Hp. destruct (F2_get _ _ _ _ _ (sim_dense s s0 H) Hp) as (k & Hk & Hid).
  destruct (si_dense s0 (sr_inv s0 a HS) _ _ Hk) as [G O].
  destruct (sr_row s0 _ (sr_rows s0 a HS) _ _ Hk) as (r & Hr & Hv & _).
  exists k, (r_val r). split; [done|]. split; [done|]. split.
  - rewrite (sim_sparse s s0 H), (sa_get_idx _ d k); [done|apply Hid].
  - split; [by rewrite lookup_fmap, Hr|by rewrite (sim_data s s0 H)].
Qed.
Lemma LR_dom s m k v :
  LR s m -> m !! k = Some v ->
  handle_ok k ∧ ∃ p d, getN (ss_dense s) p = Some d ∧ id_of d k ∧ sa_get (ss_sparse s) k = Some (p, gen k) ∧
                       getN (ss_data s) p = Some v.
Proof.
  intros (s0 & a & H & HS & ->) Hm. rewrite lookup_fmap in Hm.
  destruct (sp_map a !! k) as [r|] eqn:Hr; [|done]. injection Hm as <-.
  destruct (sr_dom s0 _ (sr_rows s0 a HS) _ _ Hr) as [p Hp].
  destruct (si_dense s0 (sr_inv s0 a HS) _ _ Hp) as [G O]. split; [done|].
  destruct (F2_get_r _ _ _ _ _ (sim_dense s s0 H) Hp) as (d & Hd & Hid).
  destruct (sr_row s0 _ (sr_rows s0 a HS) _ _ Hp) as (r' & Hr' & Hv & _).
  exists p, d. split; [done|]. split; [done|]. split; [by rewrite (sim_sparse s s0 H)|].
  rewrite (sim_data s s0 H). congruence.
Qed.
Lemma LR_one s m k k' : LR s m -> is_Some (m !! k) -> is_Some (m !! k') -> idx k = idx k' -> k = k'.
Proof.
  intros HL [v Hv] [v' Hv'] Hi.
  destruct (LR_dom s m k v HL Hv) as (_ & p & d & _ & _ & G & _).
  destruct (LR_dom s m k' v' HL Hv') as (_ & p' & d' & _ & _ & G' & _).
  rewrite (sa_get_idx _ _ _ Hi), G' in G. injection G as _ Hg. destruct k, k'; cbn in *; congruence.
Qed.
Lemma LR_len s m : LR s m -> lenN (ss_data s) = lenN (ss_dense s).
Proof.
  intros (s0 & a & H & HS & ->). rewrite (sim_data s s0 H), (F2_len _ _ _ (sim_dense s s0 H)).
  apply (si_data s0 (sr_inv s0 a HS)).
Qed.

(** The parts the relation does not look at. *)
Lemma LR_calls s m oi onr : LR s m -> LR (with_calls s oi onr) m.
Proof.
  intros (s0 & a & H & HS & ->). exists s0, a. split; [|done]. by destruct H; split.
Qed.
Lemma LR_logs s m dl rl : LR s m -> LR (with_logs s dl rl) m.
Proof.
  intros (s0 & a & H & HS & ->). exists s0, a. split; [|done]. by destruct H; split.
Qed.

(** ** Insertion *)

Lemma m_put_free k v m : (∀ x, idx x = idx k -> m !! x = None) -> m_put k v m = <[k := v]> m.
Proof.
  intros H. unfold m_put. f_equal. apply map_filter_id. intros x y Hx Hi. cbn in Hi. by rewrite H in Hx.
Qed.
Lemma m_put_one k k0 v m :
  idx k0 = idx k -> (∀ x, is_Some (m !! x) -> idx x = idx k0 -> x = k0) -> m_put k v m = <[k := v]> (delete k0 m).
Proof.
  intros Hi H. unfold m_put. f_equal. apply map_eq. intros x. apply option_eq. intros y.
  rewrite map_filter_lookup_Some, lookup_delete_Some. cbn. split.
  - intros [Hx Hn]. split; [congruence|done].
  - intros [Hne Hx]. split; [done|]. intros Hix. apply Hne. symmetry. apply H; [eauto|congruence].
Qed.

(** The twin of a storage after an insertion over the component [k0] of an older generation. *)
Lemma replace_older_SR s0 a e k0 r p sp' v t im :
  SR s0 a -> handle_ok e -> getN (ss_dense s0) p = Some k0 -> idx k0 = idx e -> gen k0 < gen e ->
  sp_map a !! k0 = Some r -> sa_wf sp' ->
  (∃ sp, sa_ext (ss_sparse s0) sp ∧ ∀ x, sa_get sp' x = if idx x =? idx e then Some (p, gen e) else sa_get sp x) ->
  im = (if ss_ti s0 then setN (ss_ins s0) p t else ss_ins s0) ->
  SR (with_rows s0 sp' (setN (ss_dense s0) p e) (setN (ss_data s0) p v) im (ss_mod s0))
     (upd_map a (<[e := Row v t (r_mod r)]> (delete k0 (sp_map a)))).
Proof.
  intros HS Hok Hp Hi Hlt Hr W (sp & X & G) Him.
  pose proof (sr_inv s0 a HS) as HI. pose proof (sr_rows s0 a HS) as HR.
  pose proof (getN_Some_lt _ _ _ Hp) as Hpl.
  destruct (sr_row s0 _ HR _ _ Hp) as (r' & Hr' & Hv & Hii & Hmm).
  assert (r' = r) as -> by congruence.
  assert (∀ q x, getN (setN (ss_dense s0) p e) q = Some x ->
            (q = p ∧ x = e) ∨ (q ≠ p ∧ getN (ss_dense s0) q = Some x ∧ idx x ≠ idx e)) as Hd.
  { intros q x. rewrite getN_setN. destruct (N.ltb_spec p (lenN (ss_dense s0))); [|lia].
    destruct (N.eqb_spec q p) as [->|Hq]; cbn; [intros [= <-]; by left|]. intros Hx. right.
    split; [done|]. split; [done|]. intros Hix. apply Hq.
    apply (si_inj s0 q p x k0 HI Hx Hp). congruence. }
  destruct HS as [_ _ Hdel Hrem Hti Htm Htd Htr Hli Hlm].
  split; cbn; try done.
  - split; cbn; try done.
    + rewrite !lenN_setN. apply (si_data s0 HI).
    + rewrite lenN_setN. pose proof (si_ins s0 HI) as E. subst im. destruct (ss_ti s0); rewrite ?lenN_setN; done.
    + rewrite lenN_setN. apply (si_mod s0 HI).
    + intros q x Hq. rewrite G. destruct (Hd q x Hq) as [[-> ->]|(Hqp & Hq' & Hne)].
      * by rewrite N.eqb_refl.
      * destruct (N.eqb_spec (idx x) (idx e)); [done|].
        destruct (si_dense s0 HI _ _ Hq') as [G0 O]. split; [|done]. by eapply sa_ext_keep.
    + intros x y. rewrite G. destruct (N.eqb_spec (idx x) (idx e)) as [Hx|Hx].
      * intros [= <-]. right. cbn [idx gen fst snd]. rewrite getN_setN_eq by done. by destruct e, x; cbn in *; subst.
      * intros Hy. destruct (sa_ext_back _ _ _ _ X Hy) as [->|Hy']; [by left|].
        destruct (si_sparse s0 HI _ _ Hy') as [->|Hd']; [by left|]. right.
        rewrite getN_setN_ne; [done|]. intros Heq. rewrite <- Heq, Hp in Hd'. injection Hd' as ->. done.
  - split; cbn.
    + intros q x Hq. destruct (Hd q x Hq) as [[-> ->]|(Hqp & Hq' & Hne)].
      * exists (Row v t (r_mod r)). rewrite lookup_insert. split; [done|]. cbn.
        split; [rewrite getN_setN_eq by (rewrite (si_data s0 HI); lia); done|].
        split; intros Ht; [|auto]. subst im. rewrite Ht. pose proof (si_ins s0 HI) as E. rewrite Ht in E.
        rewrite getN_setN_eq by lia. done.
      * destruct (sr_row s0 _ HR _ _ Hq') as (r1 & Hr1 & Hv1 & Hi1 & Hm1). exists r1.
        rewrite lookup_insert_ne by congruence. rewrite lookup_delete_ne by congruence.
        split; [done|]. rewrite getN_setN_ne by done. split; [done|].
        split; intros Ht; [|auto]. subst im. rewrite Ht. rewrite getN_setN_ne by done. auto.
    + intros x r1 Hx. destruct (decide (x = e)) as [->|Hne].
      * exists p. by rewrite getN_setN_eq.
      * rewrite lookup_insert_ne in Hx by done. apply lookup_delete_Some in Hx as [Hne0 Hx].
        destruct (sr_dom s0 _ HR _ _ Hx) as [q Hq]. exists q. rewrite getN_setN_ne; [done|].
        intros ->. congruence.
Qed.

Lemma ss_insert_LR s m e v t :
  LR s m -> handle_ok e -> ¬ newer m e ->
  ∃ s' r, ss_insert s e v t = Ok (s', r) ∧ was_inserted r = true ∧ LR s' (m_put e v m).
Proof.
  intros (s0 & a & H & HS & ->) Hok Hnew.
  destruct (sa_allocate_ok (ss_sparse s0) e (si_wf s0 (sr_inv s0 a HS)) (proj2 Hok)) as (sp & E & _).
  destruct (slot_cases s0 a e sp HS E Hok) as (slot & Hs & W & X & Hc).
  pose proof (F2_len _ _ _ (sim_dense s s0 H)) as HL.
  destruct (eid_is_dead slot) eqn:Hdead.
  - (* new *)
    destruct (ss_insert_SR s0 a e v t HS Hok) as (s0' & r & a' & E0 & St & HS').
    { intros x Hx _. by apply Hc. }
    unfold ss_insert in E0 |- *. rewrite (sim_sparse s s0 H), E in *. cbn [rbind] in *.
    unfold sa_get_unchecked in *. rewrite Hs in *. cbn [rbind] in *. rewrite Hdead in *. rewrite HL.
    destruct (lenN (ss_dense s0) <? INDEX_MASK); [|done].
    destruct (sa_write sp e (lenN (ss_dense s0), gen e)) as [sp'| |]; cbn [rbind] in *; try done.
    injection E0 as <- <-. eexists _, _. split; [done|]. split; [done|].
    eexists _, a'. split; [|split; [exact HS'|]].
    + destruct H as [H1 H2 H3 H4 H5 H6 H7]. split; cbn; try done.
      * apply Forall2_app; [done|]. apply Forall2_cons. split; [apply id_of_refl|done].
      * by rewrite H3.
      * by rewrite H6, H4.
      * by rewrite H7, H5.
    + rewrite m_put_free.
      * inversion St; subst; cbn. by rewrite fmap_insert.
      * intros x Hx. by rewrite lookup_fmap, (Hc x Hx).
  - destruct Hc as (Hp & r & Hr).
    assert (¬ gen e < gen slot) as Hge.
    { intros Hlt. apply Hnew. exists (idx e, gen slot). cbn. split; [done|]. split; [done|].
      rewrite lookup_fmap, Hr. eauto. }
    destruct (F2_get_r _ _ _ _ _ (sim_dense s s0 H) Hp) as (d & Hd & Hid).
    destruct (sr_row s0 _ (sr_rows s0 a HS) _ _ Hp) as (r' & Hr' & Hv & Hii & Hmm).
    assert (r' = r) as -> by congruence.
    assert (id_of (copy_idx_gen d e) e) as Hid'.
    { destruct Hid as [Hi _]. cbn in Hi. unfold copy_idx_gen. split; cbn.
      - rewrite Hi, N.lor_diag. lia.
      - apply lor_ge. }
    destruct (N.eqb_spec (gen e) (gen slot)) as [Hg|Hg].
    + (* same owner *)
      assert ((idx e, gen slot) = e) as He by (rewrite <- Hg; by destruct e). rewrite He in *.
      destruct (ss_insert_SR s0 a e v t HS Hok) as (s0' & rr & a' & E0 & St & HS').
      { intros x Hx Hlt. destruct (sp_map a !! x) as [rx|] eqn:Ex; [|done]. exfalso.
        assert (x = e) as -> by (eapply (SR_one s0 a); eauto). lia. }
      unfold ss_insert in E0 |- *. rewrite (sim_sparse s s0 H), E in *. cbn [rbind] in *.
      unfold sa_get_unchecked in *. rewrite Hs in *. cbn [rbind] in *. rewrite Hdead in *.
      rewrite <- Hg in E0 |- *. rewrite N.eqb_refl in E0 |- *.
      rewrite (sim_data s s0 H), (sim_mod s s0 H), (sim_tm s s0 H).
      unfold get_unchecked in *. rewrite Hv, Hp in E0. rewrite Hv, Hd. cbn [rbind] in *.
      destruct (sa_write sp e (copy_gn slot e)) as [sp'| |]; cbn [rbind] in *; try done.
      destruct (if ss_tm s0 then _ else _) as [mm| |]; cbn [rbind] in *; try done.
      injection E0 as <- <-. eexists _, _. split; [done|]. split; [done|].
      eexists _, a'. split; [|split; [exact HS'|]].
      * destruct H as [H1 H2 H3 H4 H5 H6 H7]. split; cbn; try done.
        apply F2_set; [done|]. by rewrite copy_idx_gen_same.
      * rewrite (m_put_one e e); [|done|].
        -- inversion St; subst; cbn.
           ++ by rewrite insert_delete_insert, fmap_insert.
           
        -- intros x [y Hx] Hix. rewrite lookup_fmap in Hx. destruct (sp_map a !! x) as [rx|] eqn:Ex; [|done].
           eapply (SR_one s0 a); eauto.
    + (* older owner *)
      unfold ss_insert. rewrite (sim_sparse s s0 H), E. cbn [rbind].
      unfold sa_get_unchecked. rewrite Hs. cbn [rbind]. rewrite Hdead.
      destruct (N.eqb_spec (gen e) (gen slot)); [lia|]. destruct (N.ltb_spec (gen slot) (gen e)); [|lia].
      rewrite (sim_data s s0 H), (sim_ins s s0 H), (sim_ti s s0 H).
      unfold get_unchecked. rewrite Hv, Hd. cbn [rbind].
      destruct (sa_write_ok sp e slot (copy_gn slot e) W Hs) as (sp' & -> & W' & G'). cbn [rbind].
      assert ((if ss_ti s0 then set_unchecked (ss_ins s0) (idx slot) t else Ok (ss_ins s0)) =
              Ok (if ss_ti s0 then setN (ss_ins s0) (idx slot) t else ss_ins s0)) as ->.
      { destruct (ss_ti s0) eqn:Ht; [|done]. unfold set_unchecked.
        pose proof (getN_Some_lt _ _ _ (Hii eq_refl)). destruct (N.ltb_spec (idx slot) (lenN (ss_ins s0))); [done|lia]. }
      cbn [rbind]. eexists _, _. split; [done|]. split; [done|].
      eexists _, _. split; [|split].
      2:{ eapply (replace_older_SR s0 a e (idx e, gen slot) r (idx slot) sp' v t _ HS Hok Hp);
            [done|done|done|exact W'| |reflexivity].
          exists sp. split; [exact X|]. exact G'. }
      * destruct H as [H1 H2 H3 H4 H5 H6 H7]. split; cbn; try done. by apply F2_set.
      * cbn. rewrite fmap_insert, fmap_delete. cbn. apply m_put_one; [done|].
        intros x [y Hx] Hix. rewrite lookup_fmap in Hx. destruct (sp_map a !! x) as [rx|] eqn:Ex; [|done].
        eapply (SR_one s0 a); eauto.
Qed.

Lemma p_insert_LR s m e v t cb :
  LR s m -> handle_ok e -> ¬ newer m e ->
  ∃ s' r, p_insert s e v t cb = Ok (s', r) ∧
    if cb e v then r = None ∧ LR s' m
    else ∃ r', r = Some r' ∧ was_inserted r' = true ∧ LR s' (m_put e v m).
Proof.
  intros HLR Hok Hnew. pose proof HLR as (s0 & a & H & HS & ->).
  destruct (sa_allocate_ok (ss_sparse s0) e (si_wf s0 (sr_inv s0 a HS)) (proj2 Hok)) as (sp & E & _).
  destruct (slot_cases s0 a e sp HS E Hok) as (slot & Hs & W & X & Hc).
  unfold p_insert. rewrite (sim_sparse s s0 H), E. cbn [rbind].
  unfold sa_get_unchecked at 1. rewrite Hs. cbn [rbind].
  assert (eid_is_dead slot || (gen slot <=? gen e) = true) as ->.
  { destruct (eid_is_dead slot); [done|]. destruct Hc as (Hp & r & Hr). apply N.leb_le.
    destruct (N.le_gt_cases (gen slot) (gen e)); [done|]. exfalso. apply Hnew.
    exists (idx e, gen slot). rewrite lookup_fmap, Hr. cbn. eauto. }
  cbn [andb]. destruct (cb e v) eqn:Hcb.
  - eexists _, _. split; [done|]. split; [done|]. apply LR_calls.
    exists (with_rows s0 sp (ss_dense s0) (ss_data s0) (ss_ins s0) (ss_mod s0)), a.
    split; [by destruct H; split|]. split; [|done].
    destruct HS as [X1 X2 X3 X4 X5 X6 X7 X8 X9 X10]. split; cbn; try done.
    + by eapply SI_ext.
    + by eapply SRows_same.
  - destruct (ss_insert_LR s _ e v t HLR Hok Hnew) as (s' & r & -> & Hr & HL'). cbn [rbind].
    eexists _, _. split; [done|]. eauto.
Qed.

(** ** Removal *)

Lemma sa_write_idx sp e e' v : idx e = idx e' -> sa_write sp e v = sa_write sp e' v.
Proof. unfold sa_write, bucket, bucket_index. by intros ->. Qed.
Lemma sa_get_unchecked_idx sp e e' : idx e = idx e' -> sa_get_unchecked sp e = sa_get_unchecked sp e'.
Proof. intros H. unfold sa_get_unchecked. by rewrite (sa_get_idx _ _ _ H). Qed.

Lemma actual_remove_sim s s0 e s0' c :
  sim s s0 -> actual_remove s0 e = Ok (s0', c) -> ∃ s', actual_remove s e = Ok (s', c) ∧ sim s' s0'.
Proof.
  intros H. unfold actual_remove. rewrite (sim_sparse s s0 H).
  destruct (sa_get (ss_sparse s0) e) as [slot|]; [|intros [= <- <-]; eauto].
  destruct (gen slot <=? gen e); [|intros [= <- <-]; eauto].
  destruct (sa_write (ss_sparse s0) e eid_dead) as [sp| |]; cbn [rbind]; try done.
  destruct (swap_remove (ss_dense s0) (idx slot)) as [[x0 dn0]| |] eqn:Ed; cbn [rbind]; try done.
  destruct (F2_swap_remove _ _ _ _ _ _ (sim_dense s s0 H) Ed) as (x & dn & -> & Hx & HF). cbn [rbind].
  rewrite (sim_ti s s0 H), (sim_ins s s0 H), (sim_tm s s0 H), (sim_mod s s0 H), (sim_data s s0 H).
  destruct (if ss_ti s0 then _ else _) as [im| |]; cbn [rbind]; try done.
  destruct (if ss_tm s0 then _ else _) as [mm| |]; cbn [rbind]; try done.
  destruct (swap_remove (ss_data s0) (idx slot)) as [[c0 dt]| |]; cbn [rbind]; try done.
  rewrite (F2_len _ _ _ HF).
  assert ((if idx slot <? lenN dn0 then
             rlet last := get_unchecked dn (idx slot) in
             rlet ls := sa_get_unchecked sp last in sa_write sp last (copy_idx ls slot)
           else Ok sp) =
          (if idx slot <? lenN dn0 then
             rlet last := get_unchecked dn0 (idx slot) in
             rlet ls := sa_get_unchecked sp last in sa_write sp last (copy_idx ls slot)
           else Ok sp)) as ->.
  { destruct (N.ltb_spec (idx slot) (lenN dn0)) as [Hlt|]; [|done].
    destruct (getN_lt dn0 (idx slot) Hlt) as [y0 Hy0].
    destruct (F2_get_r _ _ _ _ _ HF Hy0) as (y & Hy & Hid & _).
    unfold get_unchecked. rewrite Hy0, Hy. cbn [rbind].
    rewrite (sa_get_unchecked_idx sp y y0 Hid).
    destruct (sa_get_unchecked sp y0); cbn [rbind]; try done. by rewrite (sa_write_idx sp y y0). }
  destruct (if idx slot <? lenN dn0 then _ else _) as [sp2| |]; cbn [rbind]; try done.
  destruct (gen e =? gen slot); intros [= <- <-]; eexists; (split; [done|]); by destruct H; split.
Qed.

Lemma actual_remove_LR s m e :
  LR s m -> gen e < U16_MAX ∨ (∃ k, idx k = idx e ∧ is_Some (m !! k)) ->
  ∃ s', actual_remove s e = Ok (s', m !! e) ∧ LR s' (m_take e m).
Proof.
  intros HLR Hg. pose proof HLR as (s0 & a & H & HS & ->).
  assert (∀ k, is_Some ((r_val <$> sp_map a) !! k) <-> is_Some (sp_map a !! k)) as Hsome.
  { intros k. by rewrite lookup_fmap, fmap_is_Some. }
  assert (∃ s0' c a', actual_remove s0 e = Ok (s0', (r_val <$> sp_map a) !! e) ∧ SR s0' a' ∧
            (r_val <$> sp_map a') = m_take e (r_val <$> sp_map a) ∧ c = ()) as (s0' & _ & a' & E & HS' & Em & _).
  { assert (∀ k r, sp_map a !! k = Some r -> idx k = idx e -> gen k <= gen e ->
              (r_val <$> delete k (sp_map a)) = m_take e (r_val <$> sp_map a)) as Hdel.
    { intros k r Hk Hi Hge. apply map_eq. intros x. apply option_eq. intros y.
      unfold m_take. rewrite map_filter_lookup_Some, fmap_delete, lookup_delete_Some. cbn. split.
      - intros [Hne Hx]. split; [done|]. intros [Hix _]. apply Hne.
        eapply (LR_one s _ k x HLR); [apply Hsome; eauto|eauto|congruence].
      - intros [Hx Hn]. split; [|done]. intros ->. by apply Hn. }
    destruct (handle_cases (sp_map a) e) as [[r Hr]|[(Hn & e' & Hi & Hlt & [r Hr])|[Hn Hno]]].
    - destruct (sr_dom s0 _ (sr_rows s0 a HS) _ _ Hr) as [p Hp].
      destruct (actual_remove_at s0 a e p e r HS) as (s' & Ea & HS'); try done.
      rewrite N.eqb_refl in Ea. exists s', (), (upd_map a (delete e (sp_map a))).
      split; [by rewrite lookup_fmap, Hr|]. split; [done|]. split; [|done]. cbn. by eapply Hdel.
    - destruct (sr_dom s0 _ (sr_rows s0 a HS) _ _ Hr) as [p Hp].
      destruct (actual_remove_at s0 a e p e' r HS) as (s' & Ea & HS'); try done; [lia|].
      destruct (N.eqb_spec (gen e) (gen e')); [lia|].
      exists s', (), (upd_map a (delete e' (sp_map a))).
      split; [by rewrite lookup_fmap, Hn|]. split; [done|]. split; [|done]. cbn. eapply Hdel; [done|done|lia].
    - assert (gen e < U16_MAX) as Hg'.
      { destruct Hg as [|(k & Hi & [v Hv])]; [done|].
        destruct (LR_dom s _ k v HLR Hv) as [[_ Hgk] _].
        destruct (N.le_gt_cases (gen k) (gen e)) as [Hle|Hgt]; [|lia]. exfalso.
        assert (is_Some (sp_map a !! k)) as [r Hr] by (apply Hsome; eauto).
        destruct (decide (gen k = gen e)) as [Hge|Hge].
        - assert (k = e) as -> by (destruct k, e; cbn in *; congruence). congruence.
        - rewrite (Hno k) in Hr by (done || lia). done. }
      exists s0, (), a. rewrite (actual_remove_none s0 a e HS Hg' (none_below _ _ Hn Hno)).
      split; [by rewrite lookup_fmap, Hn|]. split; [done|]. split; [|done].
      symmetry. apply map_filter_id. intros x y Hx [Hi Hle]. cbn in *.
      rewrite lookup_fmap in Hx. rewrite (none_below _ _ Hn Hno x) in Hx; done. }
  destruct (actual_remove_sim s s0 e _ _ H E) as (s' & Es & Hsim).
  exists s'. split; [done|]. exists s0', a'. split; [done|]. split; [done|]. done.
Qed.

Lemma p_actual_remove_LR s m e cb :
  LR s m -> gen e < U16_MAX ∨ (∃ k, idx k = idx e ∧ is_Some (m !! k)) ->
  ∃ s', p_actual_remove s e cb =
          Ok (s', match m !! e with
                  | Some v => if cb e v then None else Some (Some v)
                  | None => Some None end) ∧ LR s' (m_take e m).
Proof.
  intros HLR Hg. destruct (actual_remove_LR s m e HLR Hg) as (s' & E & HL'). exists s'. split; [|done].
  unfold p_actual_remove. rewrite E. cbn [rbind]. by destruct (m !! e).
Qed.
Lemma p_dyn_delete_LR s m e t cb :
  LR s m -> gen e < U16_MAX ∨ (∃ k, idx k = idx e ∧ is_Some (m !! k)) ->
  ∃ s', p_dyn_delete s e t cb =
          Ok (s', match m !! e with
                  | Some v => if cb e v then None else Some true
                  | None => Some false end) ∧ LR s' (m_take e m).
Proof.
  intros HLR Hg. destruct (p_actual_remove_LR s m e cb HLR Hg) as (s' & E & HL').
  unfold p_dyn_delete. rewrite E. cbn [rbind]. destruct (m !! e) as [v|]; [|eauto].
  destruct (cb e v); [eauto|]. eexists. split; [done|]. destruct (ss_td s'); [by apply LR_logs|done].
Qed.
Lemma p_dyn_remove_LR s m e t cb :
  LR s m -> gen e < U16_MAX ->
  ∃ s', p_dyn_remove s e t cb =
          Ok (s', match m !! e with
                  | Some v => if cb e v then None else Some (Some v)
                  | None => Some None end) ∧ LR s' (m_take e m).
Proof.
  intros HLR Hg. destruct (p_actual_remove_LR s m e cb HLR) as (s' & E & HL'); [by left|].
  unfold p_dyn_remove. rewrite E. cbn [rbind]. destruct (m !! e) as [v|]; [|eauto].
  destruct (cb e v); [eauto|]. eexists. split; [done|]. destruct (ss_tr s'); [by apply LR_logs|done].
Qed.

(** ** The rest *)
Lemma ss_write_LR s m e f t :
  LR s m -> gen e < U16_MAX ->
  ∃ s', ss_write s e f t = Ok (s', bool_decide (is_Some (m !! e))) ∧ LR s' (alter f e m).
Proof.
  intros (s0 & a & H & HS & ->) Hg.
  destruct (ss_write_SR s0 a e f t HS Hg) as (s0' & b & a' & E & St & HS').
  unfold ss_write in E |- *. rewrite (sim_index_of s s0 e H), (sim_data s s0 H), (sim_tm s s0 H), (sim_mod s s0 H).
  destruct (index_of s0 e) as [p|].
  - destruct (get_unchecked (ss_data s0) p) as [v| |]; cbn [rbind] in *; try done.
    destruct (if ss_tm s0 then _ else _) as [mm| |]; cbn [rbind] in *; try done.
    injection E as <- <-. inversion St; subst.
    match goal with Hx : sp_map a !! e = Some ?x |- _ => rename Hx into Hr end.
    eexists. split; [rewrite lookup_fmap, Hr; done|]. eexists _, _. split; [|split; [exact HS'|]].
    + by destruct H; split.
    + cbn. apply map_eq. intros x. rewrite lookup_fmap. destruct (decide (x = e)) as [->|Hne].
      * rewrite lookup_insert, lookup_alter, lookup_fmap, Hr. done.
      * rewrite lookup_insert_ne, lookup_alter_ne, lookup_fmap by done. done.
  - injection E as <- <-. inversion St; subst.
    eexists. split; [rewrite lookup_fmap; by match goal with Hn : _ !! e = None |- _ => rewrite Hn end|].
    exists s0, a'. split; [done|]. split; [done|].
    apply map_eq. intros x. destruct (decide (x = e)) as [->|Hne].
    + rewrite lookup_alter, lookup_fmap. by match goal with Hn : _ !! e = None |- _ => rewrite Hn end.
    + by rewrite lookup_alter_ne by done.
Qed.

Lemma kill_slots_idx l l0 sp : Forall2 id_of l l0 -> kill_slots l sp = kill_slots l0 sp.
Proof.
  intros HF. revert sp. induction HF as [|d d0 l l0 [Hi _] HF IH]; intros sp; [done|].
  cbn [kill_slots]. rewrite (sa_write_idx sp d d0) by done.
  destruct (sa_write sp d0 eid_dead); cbn [rbind]; auto.
Qed.
Lemma ss_clear_LR s m t : LR s m -> ∃ s', ss_clear s t = Ok s' ∧ LR s' ∅.
Proof.
  intros (s0 & a & H & HS & ->). destruct (ss_clear_SR s0 a t HS) as (s0' & a' & E & St & HS').
  unfold ss_clear in E |- *. rewrite (sim_sparse s s0 H), (kill_slots_idx _ _ _ (sim_dense s s0 H)).
  destruct (kill_slots (ss_dense s0) (ss_sparse s0)) as [sp| |]; cbn [rbind] in *; try done.
  injection E as <-. eexists. split; [done|]. apply LR_logs. eexists _, a'. split; [|split; [exact HS'|]].
  - destruct H; split; try done. constructor.
  - inversion St; subst. cbn. by rewrite fmap_empty.
Qed.

(** ** Retain *)
Lemma LR_pos s m p q d d' :
  LR s m -> getN (ss_dense s) p = Some d -> getN (ss_dense s) q = Some d' -> idx d = idx d' -> p = q.
Proof.
  intros HL Hp Hq Hi. destruct (LR_row s m p d HL Hp) as (k & v & _ & _ & G & _).
  destruct (LR_row s m q d' HL Hq) as (k' & v' & _ & _ & G' & _).
  rewrite (sa_get_idx _ _ _ Hi), G' in G. congruence.
Qed.
Lemma actual_remove_dense s e slot s' c :
  sa_get (ss_sparse s) e = Some slot -> gen slot <= gen e -> actual_remove s e = Ok (s', c) ->
  ∃ x, swap_remove (ss_dense s) (idx slot) = Ok (x, ss_dense s').
Proof.
  intros Hs Hg. unfold actual_remove. rewrite Hs. destruct (N.leb_spec (gen slot) (gen e)); [|lia].
  destruct (sa_write _ e eid_dead) as [sp| |]; cbn [rbind]; try done.
  destruct (swap_remove (ss_dense s) (idx slot)) as [[x dn]| |]; cbn [rbind]; try done.
  destruct (if ss_ti s then _ else _) as [im| |]; cbn [rbind]; try done.
  destruct (if ss_tm s then _ else _) as [mm| |]; cbn [rbind]; try done.
  destruct (swap_remove (ss_data s) (idx slot)) as [[c0 dt]| |]; cbn [rbind]; try done.
  destruct (if idx slot <? lenN dn then _ else _) as [sp2| |]; cbn [rbind]; try done.
  destruct (gen e =? gen slot); intros [= <- <-]; cbn; eauto.
Qed.
Lemma p_dyn_delete_dense' s e t cb slot s' b :
  sa_get (ss_sparse s) e = Some slot -> gen slot <= gen e -> p_dyn_delete s e t cb = Ok (s', b) ->
  ∃ x, swap_remove (ss_dense s) (idx slot) = Ok (x, ss_dense s').
Proof.
  intros Hs Hg. unfold p_dyn_delete, p_actual_remove.
  destruct (actual_remove s e) as [[s1 c]| |] eqn:E; cbn [rbind]; try done.
  destruct (actual_remove_dense s e slot s1 c Hs Hg E) as [x Hx].
  destruct c as [c|]; [|intros [= <- <-]; eauto].
  destruct (cb e c); cbn [rbind]; [intros [= <- <-]; eauto|].
  intros [= <- <-]. exists x. by destruct (ss_td s1).
Qed.
(** A closure wrote to the component it was shown. *)
Definition poke s (p : N) (v : T) (t : N) : sset T :=
  with_rows s (ss_sparse s) (ss_dense s) (setN (ss_data s) p v) (ss_ins s) (setN (ss_mod s) p t).
Lemma poke_LR s m p d k v t :
  LR s m -> getN (ss_dense s) p = Some d -> id_of d k -> is_Some (m !! k) ->
  LR (poke s p v t) (<[k := v]> m).
Proof.
  intros HLR Hp Hid Hk. pose proof HLR as (s0 & a & H & HS & ->).
  destruct (F2_get _ _ _ _ _ (sim_dense s s0 H) Hp) as (k' & Hp0 & Hid').
  destruct (sr_row s0 _ (sr_rows s0 a HS) _ _ Hp0) as (r & Hr & Hv & Hii & Hmm).
  assert (k' = k) as ->.
  { eapply (LR_one s _ k' k HLR); [|done|].
    - rewrite lookup_fmap, Hr. eauto.
    - destruct Hid, Hid'. congruence. }
  exists (poke s0 p v t), (upd_map a (<[k := Row v (r_ins r) t]> (sp_map a))). split_and!.
  - destruct H as [H1 H2 H3 H4 H5 H6 H7]. split; cbn; try done; by f_equal.
  - pose proof HS as [X1 X2 X3 X4 X5 X6 X7 X8 X9 X10]. unfold poke. split; cbn; try done.
    + eapply SI_same; [exact X1|..]; cbn; try done; by rewrite lenN_setN.
    + eapply SRows_update; [exact X1|exact X2|exact Hp0|..]; cbn; try done.
      * intros Ht q. destruct (N.eqb_spec q p) as [->|]; [auto|done].
      * intros Ht q. rewrite getN_setN. pose proof (si_mod_some s0 p k X1 Ht Hp0).
        destruct (N.ltb_spec p (lenN (ss_mod s0))); [|lia]. by destruct (q =? p).
  - cbn. by rewrite fmap_insert.
Qed.
Lemma m_take_one s m d k :
  LR s m -> id_of d k -> is_Some (m !! k) -> m_take d m = delete k m.
Proof.
  intros HL [Hi Hg] Hk. apply map_eq. intros x. apply option_eq. intros y. unfold m_take.
  rewrite map_filter_lookup_Some, lookup_delete_Some. cbn. split.
  - intros [Hx Hn]. split; [|done]. intros ->. by apply Hn.
  - intros [Hne Hx]. split; [done|]. intros [Hix _]. apply Hne.
    eapply (LR_one s m k x HL); [done|eauto|congruence].
Qed.

(** What is left of a component the closure of a retain was shown. *)
Definition left_for (v : T) (ans : panswer) (w : option T) : option T :=
  match ans with ADrop => None | _ => Some (default v w) end.
Definition call_id (c : pcall T) : eid := c.1.1.1.

Lemma p_retain_loop_LR f cb t n :
  ∀ i removed seen s m,
  LR s m -> removed <= i -> i - removed + N.of_nat n = lenN (ss_dense s) ->
  ∃ s' calls boom m',
    p_retain_loop n i removed f cb seen t s = Ok (s', calls, boom) ∧ LR s' m' ∧
    NoDup (idx <$> (call_id <$> calls)) ∧
    (∀ d v ans w, (d, v, ans, w) ∈ calls ->
       (∃ seen', f seen' d v = (ans, w)) ∧
       (∃ j, i - removed <= j ∧ getN (ss_dense s) j = Some d) ∧
       ∃ k, id_of d k ∧ m !! k = Some v ∧ m' !! k = left_for v ans w) ∧
    (∀ k, idx k ∉ (idx <$> (call_id <$> calls)) -> m' !! k = m !! k) ∧
    (∀ k, m !! k = None -> m' !! k = None) ∧
    (boom = false -> ∀ j d, i - removed <= j -> getN (ss_dense s) j = Some d -> d ∈ (call_id <$> calls)) ∧
    (boom = true -> (∃ c, c ∈ calls ∧ c.1.2 = ABoom) ∨ (∃ e v, cb e v = true)).
Proof.
  induction n as [|n IH]; intros i removed seen s m HL Hri Hn.
  - exists s, [], false, m. split; [done|]. split; [done|]. split_and!; try done.
    + constructor.
    + set_solver.
    + intros _ j d Hj Hd. apply getN_Some_lt in Hd. lia.
  - cbn [p_retain_loop]. destruct (N.ltb_spec i removed) as [|_]; [lia|].
    set (p := i - removed) in *.
    destruct (getN_lt (ss_dense s) p) as [d Hd]; [lia|].
    destruct (LR_row s m p d HL Hd) as (k & v & Hid & Hok & Hsp & Hk & Hv).
    unfold get_unchecked at 1 2. rewrite Hd, Hv. cbn [rbind].
    destruct (f seen d v) as [ans w] eqn:Ef.
    set (s1 := match w with
               | Some v => with_rows s (ss_sparse s) (ss_dense s) (setN (ss_data s) p v)
                             (ss_ins s) (setN (ss_mod s) p t)
               | None => s end).
    set (m1 := match w with Some x => <[k := x]> m | None => m end).
    assert (LR s1 m1) as HL1.
    { subst s1 m1. destruct w as [x|]; [|done]. apply (poke_LR s m p d k x t HL Hd Hid). eauto. }
    assert (ss_dense s1 = ss_dense s ∧ ss_sparse s1 = ss_sparse s) as [Hd1 Hs1] by (subst s1; by destruct w).
    assert (m1 !! k = Some (default v w)) as Hk1.
    { subst m1. destruct w; [by rewrite lookup_insert|done]. }
    assert (∀ x, x ≠ k -> m1 !! x = m !! x) as Hm1.
    { intros x Hx. subst m1. destruct w; [by rewrite lookup_insert_ne|done]. }
    assert (∀ x, idx x = idx d -> x ≠ k -> m !! x = None) as Huniq.
    { intros x Hx Hne. destruct (m !! x) as [y|] eqn:Ey; [|done]. exfalso. apply Hne.
      eapply (LR_one s m x k HL); [eauto|eauto|]. destruct Hid. congruence. }
    destruct ans.
    + destruct (IH (i + 1) removed (seen ++ [(d, v)]) s1 m1)
        as (s' & calls & boom & m' & E1 & HL' & I1 & I2 & I3 & I4 & I5 & I6).
      * done.
      * lia.
      * rewrite Hd1. lia.
      * rewrite E1. cbn [rbind fst snd]. eexists _, _, _, m'. split; [done|]. split; [done|].
        rewrite Hd1 in I2, I5.
        assert (idx d ∉ (idx <$> (call_id <$> calls))) as Hnin.
        { intros (d2 & Hi2 & Hin)%elem_of_list_fmap. apply elem_of_list_fmap in Hin as ([[[d3 v3] a3] w3] & -> & Hin).
          destruct (I2 _ _ _ _ Hin) as (_ & (j & Hj & Hg) & _).
          pose proof (LR_pos s m p j d d3 HL Hd Hg Hi2). lia. }
        split_and!.
        -- cbn. by constructor.
        -- intros d2 v2 a2 w2 [Heq|Hin]%elem_of_cons.
           ++ injection Heq as -> -> -> ->. split; [eauto|]. split; [exists p; split; [lia|done]|].
              exists k. split; [done|]. split; [done|]. rewrite I3; [done|].
              destruct Hid as [Hi _]. by rewrite <- Hi.
           ++ destruct (I2 _ _ _ _ Hin) as (J1 & (j & Hj & Hg) & k2 & Hid2 & Hk2 & Hm2).
              split; [done|]. split; [exists j; split; [lia|done]|]. exists k2. split; [done|].
              split; [|done]. rewrite <- Hm1; [done|]. intros ->. apply Hnin.
              destruct Hid as [Hi _], Hid2 as [Hi2 _]. rewrite Hi, <- Hi2.
              apply elem_of_list_fmap. exists d2. split; [done|]. apply elem_of_list_fmap.
              by exists (d2, v2, a2, w2).
        -- cbn. intros x [Hx Hx2]%not_elem_of_cons. rewrite I3 by done. apply Hm1. intros ->.
           destruct Hid. unfold call_id in Hx. cbn in Hx. congruence.
        -- intros x Hx. apply I4. rewrite Hm1; [done|]. intros ->. congruence.
        -- intros Hb j d2 Hj Hg. cbn. apply elem_of_cons. destruct (decide (j = p)) as [->|Hjp].
           ++ left. unfold call_id. cbn. congruence.
           ++ right. eapply I5; [done| |done]. lia.
        -- intros Hb. destruct (I6 Hb) as [(c & Hc & Hc2)|H]; [left|by right].
           exists c. split; [by right|done].
    + assert (sa_get (ss_sparse s1) d = Some (p, gen k)) as Hsp1 by congruence.
      destruct (p_dyn_delete_LR s1 m1 d t cb HL1) as (s2 & E & HL2).
      { right. exists k. split; [by destruct Hid|eauto]. }
      rewrite (m_take_one s1 m1 d k HL1 Hid) in HL2 by eauto.
      destruct (p_dyn_delete_dense' s1 d t cb (p, gen k) s2 _ Hsp1 (proj2 Hid) E) as (x & Hsw).
      cbn [idx fst] in Hsw. rewrite Hd1 in Hsw.
      destruct (swap_remove_ok _ _ _ Hd) as (dn & Esw & Ldn & Lpos & Gdn).
      rewrite Hsw in Esw. injection Esw as -> Edn.
      rewrite E. cbn [rbind].
      set (out := match m1 !! d with
                  | Some v => if cb d v then None else Some true | None => Some false end).
      destruct out as [b|] eqn:Eout.
      * destruct (IH (i + 1) (removed + 1) (seen ++ [(d, v)]) s2 (delete k m1))
          as (s' & calls & boom & m' & E1 & HL' & I1 & I2 & I3 & I4 & I5 & I6).
        -- done.
        -- lia.
        -- rewrite Edn. rewrite Ldn. replace (i + 1 - (removed + 1)) with p by lia. lia.
        -- replace (i + 1 - (removed + 1)) with p in * by lia.
           rewrite E1. cbn [rbind fst snd]. eexists _, _, _, m'. split; [done|]. split; [done|].
           assert (∀ j d2, p <= j -> getN (ss_dense s2) j = Some d2 ->
                     ∃ j', p <= j' ∧ j' ≠ p ∧ getN (ss_dense s) j' = Some d2) as Hback.
           { intros j d2 Hj Hg. rewrite Edn, Gdn in Hg.
             destruct (N.ltb_spec j (lenN (ss_dense s) - 1)); [|done].
             destruct (N.eqb_spec j p) as [->|Hjp].
             - exists (lenN (ss_dense s) - 1). split; [lia|]. split; [lia|done].
             - exists j. done. }
           assert (∀ d2, d2 ∈ (call_id <$> calls) -> idx d2 ≠ idx d) as Hother.
           { intros d2 Hin Hi2. apply elem_of_list_fmap in Hin as ([[[d3 v3] a3] w3] & -> & Hin).
             destruct (I2 _ _ _ _ Hin) as (_ & (j & Hj & Hg) & _).
             destruct (Hback _ _ Hj Hg) as (j' & Hj' & Hne & Hg').
             apply Hne. exact (LR_pos s m j' p d3 d HL Hg' Hd Hi2). }
           assert (idx d ∉ (idx <$> (call_id <$> calls))) as Hnin.
           { intros (d2 & Hi2 & Hin)%elem_of_list_fmap. by apply (Hother d2). }
           split_and!.
           ++ cbn. by constructor.
           ++ intros d2 v2 a2 w2 [Heq|Hin]%elem_of_cons.
              ** injection Heq as -> -> -> ->. split; [eauto|]. split; [exists p; split; [lia|done]|].
                 exists k. split; [done|]. split; [done|]. rewrite I3; [by rewrite lookup_delete|].
                 destruct Hid as [Hi _]. by rewrite <- Hi.
              ** destruct (I2 _ _ _ _ Hin) as (J1 & (j & Hj & Hg) & k2 & Hid2 & Hk2 & Hm2).
                 destruct (Hback _ _ Hj Hg) as (j' & Hj' & Hne & Hg').
                 split; [done|]. split; [exists j'; split; [lia|done]|]. exists k2. split; [done|].
                 split; [|done]. apply lookup_delete_Some in Hk2 as [Hnk Hk2].
                 rewrite <- Hm1; [done|]. congruence.
           ++ cbn. intros y [Hy Hy2]%not_elem_of_cons. rewrite I3 by done.
              assert (y ≠ k) as Hyk.
              { intros ->. destruct Hid. unfold call_id in Hy. cbn in Hy. congruence. }
              rewrite lookup_delete_ne by congruence. by apply Hm1.
           ++ intros y Hy. apply I4. apply lookup_delete_None. right. rewrite Hm1; [done|].
              intros ->. congruence.
           ++ intros Hb j d2 Hj Hg. cbn. apply elem_of_cons. destruct (decide (j = p)) as [->|Hjp].
              ** left. unfold call_id. cbn. congruence.
              ** right. pose proof (getN_Some_lt _ _ _ Hg) as Hlt.
                 destruct (decide (j = lenN (ss_dense s) - 1)) as [->|Hjl].
                 --- eapply (I5 Hb p); [lia|]. rewrite Edn, Gdn, N.eqb_refl.
                     destruct (N.ltb_spec p (lenN (ss_dense s) - 1)); [done|lia].
                 --- eapply (I5 Hb j); [lia|]. rewrite Edn, Gdn.
                     destruct (N.ltb_spec j (lenN (ss_dense s) - 1)); [|lia].
                     destruct (N.eqb_spec j p); [lia|done].
           ++ intros Hb. destruct (I6 Hb) as [(c & Hc & Hc2)|H]; [left|by right].
              exists c. split; [by right|done].
      * eexists _, _, _, (delete k m1). split; [done|]. split; [done|]. split_and!.
        -- cbn. apply NoDup_singleton.
        -- intros d2 v2 a2 w2 Heq%elem_of_list_singleton. injection Heq as -> -> -> ->.
           split; [eauto|]. split; [exists p; split; [lia|done]|].
           exists k. split; [done|]. split; [done|]. by rewrite lookup_delete.
        -- cbn. intros y [Hy _]%not_elem_of_cons.
           assert (y ≠ k) as Hyk.
           { intros ->. destruct Hid. unfold call_id in Hy. cbn in Hy. congruence. }
           rewrite lookup_delete_ne by congruence. by apply Hm1.
        -- intros y Hy. apply lookup_delete_None. right. rewrite Hm1; [done|]. intros ->. congruence.
        -- done.
        -- intros _. right. subst out. destruct (m1 !! d) as [y|]; [|done].
           destruct (cb d y) eqn:Ecb; [|done]. eauto.
    + eexists _, _, _, m1. split; [done|]. split; [done|]. split_and!.
      * cbn. apply NoDup_singleton.
      * intros d2 v2 a2 w2 Heq%elem_of_list_singleton. injection Heq as -> -> -> ->.
        split; [eauto|]. split; [exists p; split; [lia|done]|].
        exists k. split; [done|]. split; [done|]. done.
      * cbn. intros y [Hy _]%not_elem_of_cons. apply Hm1. intros ->.
        destruct Hid. unfold call_id in Hy. cbn in Hy. congruence.
      * intros y Hy. rewrite Hm1; [done|]. intros ->. congruence.
      * done.
      * intros _. left. eexists. split; [by left|done].
Qed.
Lemma p_retain_LR s m f cb t :
  LR s m ->
  ∃ s' calls boom m',
    p_retain s f cb t = Ok (s', calls, boom) ∧ LR s' m' ∧
    NoDup (idx <$> (call_id <$> calls)) ∧
    (∀ d v ans w, (d, v, ans, w) ∈ calls ->
       (∃ seen', f seen' d v = (ans, w)) ∧ d ∈ ss_dense s ∧
       ∃ k, id_of d k ∧ m !! k = Some v ∧ m' !! k = left_for v ans w) ∧
    (∀ k, idx k ∉ (idx <$> (call_id <$> calls)) -> m' !! k = m !! k) ∧
    (∀ k, m !! k = None -> m' !! k = None) ∧
    (boom = false -> ∀ d, d ∈ ss_dense s -> d ∈ (call_id <$> calls)) ∧
    (boom = true -> (∃ c, c ∈ calls ∧ c.1.2 = ABoom) ∨ (∃ e v, cb e v = true)).
Proof.
  intros HL. destruct (p_retain_loop_LR f cb t (length (ss_dense s)) 0 0 [] s m HL)
    as (s' & calls & boom & m' & E & HL' & I1 & I2 & I3 & I4 & I5 & I6); [lia|unfold lenN; lia|].
  exists s', calls, boom, m'. split; [done|]. split; [done|]. split_and!; try done.
  - intros d v ans w Hin. destruct (I2 _ _ _ _ Hin) as (J1 & (j & _ & Hg) & J3).
    split; [done|]. split; [apply getN_elem; eauto|done].
  - intros Hb d [j Hj]%getN_elem. eapply I5; [done|lia|done].
Qed.
End loose.
