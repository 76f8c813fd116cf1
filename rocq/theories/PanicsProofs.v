(** Storages survive panics of user code: the model of Panics.v refines PanicsSpec.v. *)
From stdpp Require Import prelude list gmap.
From Coq Require Import NArith Lia.
From Verif Require Import EntityId Base SparseSet SparseSetSpec SparseSetProofs SparseSetProofs2 SparseSetHistory.
From Verif Require Import Panics PanicsSpec.
Open Scope N_scope.

Section proofs.
Context {T : Type}.
Implicit Types (s : sset T) (a : sspec T) (m : gmap eid (row T)).

Lemma SR_calls s a oi onr : SR s a -> SR (with_calls s oi onr) a.
Proof.
  intros [X1 X2 X3 X4 X5 X6 X7 X8 X9 X10]. split; cbn; try done.
  - by eapply SI_same.
  - by eapply SRows_same.
Qed.

(** The slot of a handle after the allocation. *)
Lemma slot_cases s a e sp :
  SR s a -> sa_allocate_at (ss_sparse s) e = Ok sp -> handle_ok e ->
  ∃ slot, sa_get sp e = Some slot ∧ sa_wf sp ∧ sa_ext (ss_sparse s) sp ∧
    (if eid_is_dead slot then index_free (sp_map a) e
     else getN (ss_dense s) (idx slot) = Some (idx e, gen slot) ∧
          ∃ r, sp_map a !! (idx e, gen slot) = Some r).
Proof.
  intros HSR E Hok.
  pose proof (sr_inv s a HSR) as HI. pose proof (sr_rows s a HSR) as HR.
  destruct (sa_allocate_ok (ss_sparse s) e (si_wf s HI) (proj2 Hok)) as (sp' & E' & W & X & [slot Hs]).
  assert (sp' = sp) as -> by congruence.
  exists slot. split_and!; try done. destruct (eid_is_dead slot) eqn:Hdead.
  - intros e' Hi. destruct (sp_map a !! e') as [r|] eqn:Hm; [|done]. exfalso.
    destruct (sr_dom s _ HR _ _ Hm) as [p Hp]. destruct (si_dense s HI _ _ Hp) as [G O].
    apply (sa_ext_keep _ sp) in G; [|done]. rewrite (sa_get_idx _ e' e Hi), Hs in G.
    injection G as ->. rewrite is_dead_false in Hdead; [done|apply O].
  - assert (sa_get (ss_sparse s) e = Some slot) as Hs'.
    { destruct (sa_ext_back _ _ _ _ X Hs) as [->|]; [done|done]. }
    destruct (si_sparse s HI _ _ Hs') as [->|Hd]; [done|]. split; [done|].
    destruct (sr_row s _ HR _ _ Hd) as (r & Hr & _). by exists r.
Qed.

Lemma p_insert_boom s a e v t :
  SR s a -> handle_ok e ->
  ∃ s' r a', p_insert s e v t (λ _ _, true) = Ok (s', r) ∧
    pp_step a (PInsert e v t) a' (returned EInsert r) ∧ SR s' a'.
Proof.
  intros HSR Hok. unfold p_insert.
  pose proof (sr_inv s a HSR) as HI. pose proof (sr_rows s a HSR) as HR.
  destruct (sa_allocate_ok (ss_sparse s) e (si_wf s HI) (proj2 Hok)) as (sp & E & _).
  destruct (slot_cases s a e sp HSR E Hok) as (slot & Hs & W & X & Hc).
  rewrite E. cbn [rbind]. unfold sa_get_unchecked at 1. rewrite Hs. cbn [rbind].
  rewrite andb_true_r.
  assert (SR (with_rows s sp (ss_dense s) (ss_data s) (ss_ins s) (ss_mod s)) a) as HSR'.
  { destruct HSR as [X1 X2 X3 X4 X5 X6 X7 X8 X9 X10]. split; cbn; try done.
    - by eapply SI_ext.
    - by eapply SRows_same. }
  destruct (eid_is_dead slot || (gen slot <=? gen e)) eqn:Hcond.
  - eexists _, _, a. split; [done|]. split; [|by apply SR_calls]. apply PpInsert.
    intros e' Hi Hg. destruct (eid_is_dead slot) eqn:Hd; [by apply Hc|].
    destruct Hc as (_ & r & Hr). apply N.leb_le in Hcond.
    destruct (sp_map a !! e') as [r'|] eqn:E'; [|done]. exfalso.
    assert (e' = (idx e, gen slot)) as ->; [|cbn in Hg; lia].
    eapply (SR_one s a); eauto.
  - apply orb_false_iff in Hcond as [Hd Hge]. rewrite Hd in Hc. destruct Hc as (_ & r & Hr).
    apply N.leb_gt in Hge.
    destruct (ss_insert_SR s a e v t HSR Hok) as (s' & rr & a' & E2 & St & HSR2).
    { intros e' Hi Hg. destruct (sp_map a !! e') as [r'|] eqn:E'; [|done]. exfalso.
      assert (e' = (idx e, gen slot)) as ->; [|cbn in Hg; lia].
      eapply (SR_one s a); eauto. }
    rewrite E2. cbn [rbind]. eexists _, _, a'. split; [done|]. split; [|done].
    inversion St as [? ? ? Hif|? ? ? r0 Hr0|? e' ? ? Hi Hg Hs0| | | | | | | | | | | | | | | | | | | ]; subst; cbn [returned].
    + exfalso. rewrite (Hif (idx e, gen slot)) in Hr by done. done.
    + exfalso. assert (e = (idx e, gen slot)) as Ee by (eapply (SR_one s a'0) || eapply (SR_one s a); eauto).
      apply (f_equal gen) in Ee. cbn in Ee. lia.
    + by eapply PpInsertRefused.
Qed.

Lemma p_insert_drop_boom s a e v t :
  SR s a -> handle_ok e ->
  ∃ s' r a', p_insert_drop s e v t = Ok (s', r) ∧
    pp_step a (PInsertDrop e v t) a' (returned EInsert r) ∧ SR s' a'.
Proof.
  intros HSR Hok. unfold p_insert_drop.
  pose proof (sr_inv s a HSR) as HI. pose proof (sr_rows s a HSR) as HR.
  destruct (sa_allocate_ok (ss_sparse s) e (si_wf s HI) (proj2 Hok)) as (sp & E & _).
  destruct (slot_cases s a e sp HSR E Hok) as (slot & Hs & W & X & Hc).
  rewrite E. cbn [rbind]. unfold sa_get_unchecked at 1. rewrite Hs. cbn [rbind].
  destruct (eid_is_dead slot) eqn:Hd; cbn [negb andb].
  2: destruct Hc as (Hp & r & Hr); destruct (N.ltb_spec (gen slot) (gen e)) as [Hlt|Hge].
  - destruct (ss_insert_SR s a e v t HSR Hok) as (s' & rr & a' & E2 & St & HSR2).
    { intros e' Hi _. by apply Hc. }
    rewrite E2. cbn [rbind]. eexists _, _, a'. split; [done|]. split; [|done].
    apply PpInsertNoDrop; [|done]. intros e' Hi _. by apply Hc.
  - destruct (sr_row s _ HR _ _ Hp) as (r' & Hr' & Hv & Hin & Hm).
    assert (r' = r) as -> by congruence.
    unfold get_unchecked. rewrite Hv. cbn [rbind].
    eexists _, _, _. split; [done|]. split; [by eapply (PpInsertDrop a e (idx e, gen slot))|].
    apply SR_calls. destruct HSR as [X1 X2 X3 X4 X5 X6 X7 X8 X9 X10]. split; cbn; try done.
    + eapply SI_ext; cbn; [exact X1|..]; try done. by rewrite lenN_setN.
    + eapply SRows_update; [exact X1|exact X2|exact Hp|..]; cbn; try done.
      * intros Ht q. destruct (N.eqb_spec q (idx slot)) as [->|]; [auto|done].
      * intros Ht q. destruct (N.eqb_spec q (idx slot)) as [->|]; [auto|done].
  - assert (no_older (sp_map a) e) as Hno.
    { intros e' Hi Hg. destruct (sp_map a !! e') as [r'|] eqn:E'; [|done]. exfalso.
      assert (e' = (idx e, gen slot)) as ->; [|cbn in Hg; lia].
      eapply (SR_one s a); eauto. }
    destruct (ss_insert_SR s a e v t HSR Hok Hno) as (s' & rr & a' & E2 & St & HSR2).
    rewrite E2. cbn [rbind]. eexists _, _, a'. split; [done|]. split; [|done].
    by apply PpInsertNoDrop.
Qed.

(** Removal: the three cases of [handle_cases]. *)
Lemma p_actual_remove_cases s a e cb :
  SR s a -> gen e < U16_MAX ->
  (∃ r s', sp_map a !! e = Some r ∧ SR s' (upd_map a (delete e (sp_map a))) ∧
     p_actual_remove s e cb = Ok (s', if cb e (r_val r) then None else Some (Some (r_val r)))) ∨
  (sp_map a !! e = None ∧ ∃ e' s', idx e' = idx e ∧ gen e' < gen e ∧ is_Some (sp_map a !! e') ∧
     SR s' (upd_map a (delete e' (sp_map a))) ∧ p_actual_remove s e cb = Ok (s', Some None)) ∨
  (sp_map a !! e = None ∧ no_older (sp_map a) e ∧ p_actual_remove s e cb = Ok (s, Some None)).
Proof.
  intros HSR Hg. unfold p_actual_remove.
  destruct (handle_cases (sp_map a) e) as [[r Hr]|[(Hn & e' & Hi & Hlt & [r Hr])|[Hn Hno]]].
  - left. destruct (sr_dom s _ (sr_rows s a HSR) _ _ Hr) as [p Hp].
    destruct (actual_remove_at s a e p e r HSR) as (s' & -> & HSR'); try done.
    rewrite N.eqb_refl. cbn [rbind]. eauto 6.
  - right. left. split; [done|]. destruct (sr_dom s _ (sr_rows s a HSR) _ _ Hr) as [p Hp].
    destruct (actual_remove_at s a e p e' r HSR) as (s' & -> & HSR'); try done; [lia|].
    destruct (N.eqb_spec (gen e) (gen e')); [lia|]. cbn [rbind]. exists e', s'. eauto 6.
  - right. right. rewrite (actual_remove_none s a e HSR Hg (none_below _ _ Hn Hno)). done.
Qed.

Lemma p_dyn_remove_boom s a e t :
  SR s a -> gen e < U16_MAX ->
  ∃ s' r a', p_dyn_remove s e t (λ _ _, true) = Ok (s', r) ∧
    pp_step a (PRemove e t) a' (returned ERemove r) ∧ SR s' a'.
Proof.
  intros HSR Hg. unfold p_dyn_remove.
  destruct (p_actual_remove_cases s a e (λ _ _, true) HSR Hg)
    as [(r & s' & Hr & HSR' & ->)|[(Hn & e' & s' & Hi & Hlt & Hs & HSR' & ->)|(Hn & Hno & ->)]]; cbn [rbind].
  - eexists _, _, _. split; [done|]. split; [by eapply PpRemove|done].
  - eexists _, _, _. split; [done|]. split; [|done]. apply PpRemoveNone; [done|]. by eapply SpRemoveStale.
  - eexists _, _, _. split; [done|]. split; [|done]. apply PpRemoveNone; [done|]. by eapply SpRemoveNone.
Qed.

(** Deletion with any callback. *)
Lemma p_dyn_delete_cb s a e t cb :
  SR s a -> gen e < U16_MAX ->
  ∃ s' o, p_dyn_delete s e t cb = Ok (s', o) ∧
    ((∃ r, sp_map a !! e = Some r ∧
       if cb e (r_val r) then o = None ∧ SR s' (upd_map a (delete e (sp_map a)))
       else o = Some true ∧ SR s' (deleted a e (r_val r) t)) ∨
     (sp_map a !! e = None ∧ o = Some false ∧ ∃ a', sp_step a (ODelete e t) a' (EDelete false) ∧ SR s' a')).
Proof.
  intros HSR Hg. unfold p_dyn_delete.
  destruct (p_actual_remove_cases s a e cb HSR Hg)
    as [(r & s' & Hr & HSR' & ->)|[(Hn & e' & s' & Hi & Hlt & Hs & HSR' & ->)|(Hn & Hno & ->)]]; cbn [rbind].
  - destruct (cb e (r_val r)) eqn:Hcb.
    + eexists _, _. split; [done|]. left. exists r. rewrite Hcb. done.
    + eexists _, _. split; [done|]. left. exists r. rewrite Hcb. split; [done|]. split; [done|].
      unfold deleted. pose proof (sr_td _ _ HSR') as E. cbn in E. rewrite E.
      pose proof (sr_rem _ _ HSR') as E2. pose proof (sr_del _ _ HSR') as E3. cbn in E2, E3.
      destruct (sp_td a).
      * rewrite E2, E3. by apply SR_logs.
      * destruct HSR'. by split.
  - eexists _, _. split; [done|]. right. split; [done|]. split; [done|]. eexists. split; [|done].
    by eapply SpDeleteStale.
  - eexists _, _. split; [done|]. right. split; [done|]. split; [done|]. eexists. split; [|done].
    by eapply SpDeleteNone.
Qed.
Lemma p_dyn_delete_boom s a e t :
  SR s a -> gen e < U16_MAX ->
  ∃ s' r a', p_dyn_delete s e t (λ _ _, true) = Ok (s', r) ∧
    pp_step a (PDelete e t) a' (returned EDelete r) ∧ SR s' a'.
Proof.
  intros HSR Hg.
  destruct (p_dyn_delete_cb s a e t (λ _ _, true) HSR Hg)
    as (s' & o & E & [(r & Hr & -> & HS)|(Hn & -> & a' & St & HS)]).
  - eexists _, _, _. split; [done|]. split; [by eapply PpDelete|done].
  - eexists _, _, _. split; [done|]. split; [by apply PpDeleteNone|done].
Qed.

Lemma p_dyn_delete_dense s e t cb k s' b :
  SI s -> getN (ss_dense s) k = Some e -> p_dyn_delete s e t cb = Ok (s', b) ->
  lenN (ss_dense s') = lenN (ss_dense s) - 1 ∧
  ∀ j, j < k -> getN (ss_dense s') j = getN (ss_dense s) j.
Proof.
  intros HI Hk. unfold p_dyn_delete, p_actual_remove.
  destruct (dyn_delete s e t) as [[s2 b2]| |] eqn:E.
  - destruct (dyn_delete_dense s e t k s2 b2 HI Hk E) as [L G].
    unfold dyn_delete in E. destruct (actual_remove s e) as [[s3 [c|]]| |]; cbn [rbind] in E |- *; try done.
    + assert (ss_dense s2 = ss_dense s3) as Ed by (injection E as <- <-; by destruct (ss_td s3)).
      rewrite Ed in L, G. destruct (cb e c); cbn [rbind]; intros [= <- <-]; [done|].
      by destruct (ss_td s3).
    + injection E as <- <-. intros [= <- <-]. done.
  - unfold dyn_delete in E. destruct (actual_remove s e) as [[s3 [c|]]| |]; done.
  - unfold dyn_delete in E. destruct (actual_remove s e) as [[s3 [c|]]| |]; done.
Qed.

Lemma p_retain_loop_SR f cb t n :
  ∀ i removed seen s a mu,
  SR s a -> removed <= i -> i - removed + N.of_nat n = lenN (ss_dense s) ->
  (∀ e r, mu !! e = Some r <->
          sp_map a !! e = Some r ∧ ∃ j, i - removed <= j ∧ getN (ss_dense s) j = Some e) ->
  ∃ s' calls boom a',
    p_retain_loop n i removed f cb seen t s = Ok (s', calls, boom) ∧
    pr_run f cb t seen mu a calls boom a' ∧ SR s' a'.
Proof.
  induction n as [|n IH]; intros i removed seen s a mu HSR Hri Hn Hmu.
  - exists s, [], false, a. split; [done|]. split; [|done].
    assert (mu = ∅) as ->; [|constructor].
    apply map_empty. intros e. destruct (mu !! e) as [r|] eqn:E; [|done].
    apply Hmu in E as [_ (j & Hj & Hg)]. apply getN_Some_lt in Hg. lia.
  - cbn [p_retain_loop]. destruct (N.ltb_spec i removed) as [|_]; [lia|].
    set (k := i - removed) in *.
    destruct (getN_lt (ss_dense s) k) as [e He]; [lia|].
    destruct (sr_row s _ (sr_rows s a HSR) _ _ He) as (r & Hr & Hv & Hi & Hm).
    unfold get_unchecked at 1 2. rewrite He, Hv. cbn [rbind].
    destruct (f seen e (r_val r)) as [ans w] eqn:Ef.
    set (s1 := match w with
               | Some v => with_rows s (ss_sparse s) (ss_dense s) (setN (ss_data s) k v)
                             (ss_ins s) (setN (ss_mod s) k t)
               | None => s end).
    set (a1 := set_row a e (left_in r w t)).
    assert (SR s1 a1) as HSR1.
    { pose proof HSR as [X1 X2 X3 X4 X5 X6 X7 X8 X9 X10]. subst s1 a1. unfold set_row, left_in. destruct w as [v|].
      - split; cbn; try done.
        + eapply SI_same; [exact X1|..]; cbn; try done; by rewrite lenN_setN.
        + eapply SRows_update; [exact X1|exact X2|exact He|..]; cbn; try done.
          * intros Ht q. destruct (N.eqb_spec q k) as [->|]; [auto|done].
          * intros Ht q. rewrite getN_setN. pose proof (si_mod_some s k e X1 Ht He).
            destruct (N.ltb_spec k (lenN (ss_mod s))); [|lia]. by destruct (q =? k).
      - rewrite insert_id by done. by split. }
    assert (ss_dense s1 = ss_dense s) as Hd1 by (subst s1; by destruct w).
    assert (mu !! e = Some r) as Hmue.
    { apply Hmu. split; [done|]. exists k. split; [lia|done]. }
    assert (handle_ok e) as Hok by apply (si_dense s (sr_inv s a HSR) _ _ He).
    assert (sp_map a1 !! e = Some (left_in r w t)) as Ha1e by (subst a1; cbn; apply lookup_insert).
    destruct ans.
    + destruct (IH (i + 1) removed (seen ++ [(e, r_val r)]) s1 a1 (delete e mu))
        as (s' & calls & boom & a' & E1 & E2 & E3).
      * done.
      * lia.
      * rewrite Hd1. lia.
      * intros e2 r2. rewrite Hd1. subst a1. cbn. rewrite lookup_delete_Some, Hmu. split.
        -- intros (Hne & Hm2 & j & Hj & Hg). rewrite lookup_insert_ne by done. split; [done|].
           exists j. split; [|done]. assert (j ≠ k) by (intros ->; congruence). lia.
        -- intros (Hm2 & j & Hj & Hg).
           assert (e ≠ e2) as Hne.
           { intros <-. assert (j = k); [|lia].
             exact (si_inj s _ _ _ _ (sr_inv s a HSR) Hg He eq_refl). }
           rewrite lookup_insert_ne in Hm2 by done. split; [done|]. split; [done|].
           exists j. split; [lia|done].
      * rewrite E1. cbn [rbind fst snd]. eexists _, _, _, _. split; [done|]. split; [|done].
        by eapply PrKeep.
    + assert (getN (ss_dense s1) k = Some e) as He1 by congruence.
      destruct (p_dyn_delete_cb s1 a1 e t cb HSR1 (proj2 Hok))
        as (s2 & o & E & [(r1 & Hr1 & HS)|(Hn1 & _)]); [|congruence].
      assert (r1 = left_in r w t) as -> by congruence.
      destruct (p_dyn_delete_dense s1 e t cb k s2 o (sr_inv _ _ HSR1) He1 E) as [L2 G2].
      rewrite E. cbn [rbind]. destruct (cb e (r_val (left_in r w t))) eqn:Hcb.
      { destruct HS as [-> HS]. eexists _, _, _, _. split; [done|]. split; [by eapply PrDropBoom|].
        subst a1. cbn in HS. rewrite delete_insert_delete in HS. done. }
      destruct HS as [-> HS].
      assert (SR s2 (deleted a e (r_val (left_in r w t)) t)) as HSR2.
      { subst a1. unfold deleted, set_row in HS |- *. cbn in HS |- *. by rewrite delete_insert_delete in HS. }
      destruct (IH (i + 1) (removed + 1) (seen ++ [(e, r_val r)]) s2 (deleted a e (r_val (left_in r w t)) t) (delete e mu))
        as (s' & calls & boom & a' & E1 & E2 & E3).
      * done.
      * lia.
      * rewrite L2, Hd1. replace (i + 1 - (removed + 1)) with k by lia. lia.
      * replace (i + 1 - (removed + 1)) with k by lia.
        intros e2 r2. cbn. rewrite !lookup_delete_Some, Hmu. split.
        -- intros (Hne & Hm2 & j & Hj & Hg). split; [done|].
           destruct (sr_dom s2 _ (sr_rows s2 _ HSR2) e2 r2) as [q Hq].
           { cbn. by rewrite lookup_delete_ne. }
           exists q. split; [|done]. destruct (N.lt_ge_cases q k) as [Hlt|]; [|done].
           rewrite G2, Hd1 in Hq by done.
           pose proof (si_inj s q j e2 e2 (sr_inv s a HSR) Hq Hg eq_refl). lia.
        -- intros ((Hne & Hm2) & j & Hj & Hg). split; [done|]. split; [done|].
           destruct (sr_dom s _ (sr_rows s a HSR) _ _ Hm2) as [q Hq].
           exists q. split; [|done]. destruct (N.lt_ge_cases q k) as [Hlt|]; [|done].
           assert (getN (ss_dense s2) q = Some e2) as Hq2 by (rewrite G2, Hd1 by done; done).
           pose proof (si_inj s2 q j e2 e2 (sr_inv _ _ HSR2) Hq2 Hg eq_refl). lia.
      * rewrite E1. cbn [rbind fst snd]. eexists _, _, _, _. split; [done|]. split; [|done].
        by eapply PrDrop.
    + eexists _, _, _, _. split; [done|]. split; [by eapply PrBoom|done].
Qed.
Lemma p_retain_SR s a f cb t :
  SR s a -> ∃ s' calls boom a', p_retain s f cb t = Ok (s', calls, boom) ∧
    pr_run f cb t [] (sp_map a) a calls boom a' ∧ SR s' a'.
Proof.
  intros HSR. unfold p_retain. apply p_retain_loop_SR; [done|lia|unfold lenN; lia|].
  intros e r. split; [|tauto]. intros Hm. split; [done|].
  destruct (sr_dom s _ (sr_rows s a HSR) _ _ Hm) as [p Hp]. exists p. split; [lia|done].
Qed.

(** One operation of the model of SparseSetHistory.v, in terms of the map. *)
Lemma s_step_SR s a o :
  SR s a -> op_allowed (lenN (ss_dense s)) (sp_map a) o ->
  ∃ s' ev a', s_step s o = Ok (s', ev) ∧ sp_step a o a' ev ∧ SR s' a'.
Proof.
  intros HS Hal. destruct o; cbn [s_step]; cbn in Hal.
  - destruct Hal as [Hok Hno].
    destruct (ss_insert_SR s a e v t HS Hok Hno) as (s' & r & a' & -> & ? & ?). eauto 8.
  - destruct (dyn_remove_SR s a e t HS Hal) as (s' & r & a' & -> & ? & ?). eauto 8.
  - destruct (dyn_delete_SR s a e t HS Hal) as (s' & r & a' & -> & ? & ?). eauto 8.
  - destruct (ss_write_SR s a e f t HS Hal) as (s' & r & a' & -> & ? & ?). eauto 8.
  - destruct (ss_clear_SR s a t HS) as (s' & a' & -> & ? & ?). eauto 8.
  - destruct (ss_drain_SR s a t HS) as (s' & d & -> & E & _ & a' & ? & ?). cbn [rbind].
    rewrite E. eauto 8.
  - destruct (ss_retain_pure_SR s a f t HS) as (s' & a' & -> & ? & ?). eauto 8.
  - destruct (ss_sort_SR s a order HS Hal) as (s' & -> & ?). eexists _, _, _. split; [done|].
    split; [constructor|done].
  - destruct Hal as (_ & _ & Hne & Hx & Hy).
    destruct (ss_apply_SR s a a0 b f t HS Hne Hx Hy) as (s' & a' & -> & ? & ?). eauto 8.
  - destruct Hal as (_ & _ & Hne & Hx & Hy).
    destruct (ss_apply_mut_SR s a a0 b f t HS Hne Hx Hy) as (s' & a' & -> & ? & ?). eauto 8.
  - destruct (enable_tracking_SR s a ti tm td tr HS) as (a' & ? & ?). eauto 8.
  - eexists _, _, _. split; [done|]. split; [constructor|].
    unfold private_clear_all_inserted. rewrite (sr_lm _ _ HS). by apply SR_with_last.
  - eexists _, _, _. split; [done|]. split; [constructor|].
    unfold private_clear_all_modified. rewrite (sr_li _ _ HS). by apply SR_with_last.
  - eexists _, _, _. split; [done|]. split; [constructor|].
    unfold clear_all_deleted. rewrite (sr_rem _ _ HS). by apply SR_with_logs.
  - eexists _, _, _. split; [done|]. split; [constructor|].
    unfold clear_all_removed. rewrite (sr_del _ _ HS). by apply SR_with_logs.
Qed.

Lemma p_step_SR s a o :
  SR s a -> pp_allowed (lenN (ss_dense s)) (sp_map a) o ->
  ∃ s' ev a', p_step s o = Ok (s', ev) ∧ pp_step a o a' ev ∧ SR s' a'.
Proof.
  intros HS Hal. destruct o; cbn [p_step]; cbn [pp_allowed] in Hal.
  - destruct (s_step_SR s a o HS Hal) as (s' & ev & a' & -> & ? & ?). cbn [rbind].
    eexists _, _, _. split; [done|]. split; [by apply PpDo|done].
  - destruct (p_insert_boom s a e v t HS Hal) as (s' & r & a' & -> & ? & ?). eauto 8.
  - destruct (p_insert_drop_boom s a e v t HS Hal) as (s' & r & a' & -> & ? & ?). eauto 8.
  - destruct (p_dyn_remove_boom s a e t HS Hal) as (s' & r & a' & -> & ? & ?). eauto 8.
  - destruct (p_dyn_delete_boom s a e t HS Hal) as (s' & r & a' & -> & ? & ?). eauto 8.
  - destruct (p_retain_SR s a f cb t HS) as (s' & calls & boom & a' & -> & ? & ?). cbn [rbind].
    eexists _, _, _. split; [done|]. split; [by apply PpRetain|done].
  - eexists _, _, _. split; [done|]. split; [apply PpSort|done].
  - destruct Hal as (_ & _ & Hne & Hx & Hy).
    destruct (ss_apply_SR s a x y f t HS Hne Hx Hy) as (s' & a' & -> & ? & ?). cbn [rbind].
    eexists _, _, _. split; [done|]. split; [by apply PpApply|done].
  - destruct Hal as (_ & _ & Hne & Hx & Hy).
    destruct (ss_apply_mut_SR s a x y f t HS Hne Hx Hy) as (s' & a' & -> & ? & ?). cbn [rbind].
    eexists _, _, _. split; [done|]. split; [by apply PpApplyMut|done].
  - destruct (ss_clear_SR s a t HS) as (s' & a' & -> & ? & ?). cbn [rbind].
    eexists _, _, _. split; [done|]. split; [|done].
    rewrite (sr_td _ _ HS), (si_data s (sr_inv s a HS)), (dense_size s _ (sr_inv s a HS) (sr_rows s a HS)).
    replace (msize (sp_map a) =? 0) with (bool_decide (sp_map a = ∅)); [by apply PpClear|].
    unfold msize. destruct (N.eqb_spec (N.of_nat (size (sp_map a))) 0) as [E|E].
    + apply bool_decide_eq_true_2, map_size_empty_iff. lia.
    + apply bool_decide_eq_false_2. intros Hm. rewrite Hm, map_size_empty in E. done.
Qed.
End proofs.
