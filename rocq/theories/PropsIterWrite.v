(** C86: what a loop over mutable views leaves in the world. *)
From stdpp Require Import prelude list gmap.
From Coq Require Import NArith Lia.
From Verif Require Import EntityId EntityIdProofs Base Entities EntitiesSpec EntitiesProofs.
From Verif Require Import SparseSet Track SparseSetSpec SparseSetProofs SparseSetHistory.
From Verif Require Import World WorldSpec WorldProofs WorldProofs2 PropsWorld.
From Verif Require Import Iter IterSpec IterFloat IterProofs IterProofs2 IterAlias IterOwned PropsIter.
From Verif Require Import IterWrite IterWriteSpec.
Open Scope N_scope.

(** ** What an item gives access to *)
Section offered.
Context {V : Type}.
Implicit Types (s : ship V) (it : iter V).
Fixpoint qof s : query :=
  match s with
  | SWin w => QView (wn_id w)
  | SIds l => QIds l
  | SOpt w => QOpt (wn_id w)
  | SNot b w => QNot b (wn_id w)
  | STrack n k w => QTrack n k (wn_id w)
  | SMixed _ ss => QTuple (qof <$> ss)
  | SOr a b _ _ => QOr (qof a) (qof b)
  end.
Fixpoint norm (q : query) : query :=
  match q with
  | QMut i => QView i
  | QTuple qs => QTuple (norm <$> qs)
  | QOr a b => QOr (norm a) (norm b)
  | q => q
  end.
Lemma qof_next s : qof (next_slice s) = qof s.
Proof.
  induction s as [w|l|w|b w|b k w|m ss IH|a b x y IHa IHb] using ship_ind'; try done.
  cbn [next_slice qof]. f_equal. induction IH as [|s ss Hs HF IH]; [done|].
  rewrite !fmap_cons. by rewrite Hs, IH.
Qed.
Lemma qof_unpick s : qof (unpick s) = qof s.
Proof.
  induction s as [w|l|w|b w|b k w|m ss IH|a b x y IHa IHb] using ship_ind'; try done.
  - cbn [unpick qof]. f_equal. induction IH as [|s ss Hs HF IH]; [done|].
    rewrite !fmap_cons. by rewrite Hs, IH.
  - cbn. by rewrite IHa, IHb.
Qed.
Lemma offered_norm q : ∀ x : item V, offered (norm q) x = offered q x.
Proof.
  induction q as [i|i|l|i|b i|b k i|qs IH|q1 q2 IH1 IH2] using query_ind'; intros x; try done.
  - cbn [norm]. destruct x; try done. cbn [offered]. revert l.
    induction IH as [|q qs Hq HF IH]; intros l; [done|]. destruct l as [|x l]; [done|].
    rewrite fmap_cons. cbn. f_equal; [apply Hq|apply IH].
  - cbn [norm]. destruct x; try done; cbn; [apply IH1|apply IH2].
Qed.
Lemma sailor_offered s : ∀ x o, get_sailor s x = Ok o -> (refs o).*1 = offered (qof s) (erase o).
Proof.
  induction s as [w|l|w|b w|b k w|m ss IH|a b c d IHa IHb] using ship_ind'; intros x o E; destruct x; try done; cbn in E.
  - unfold win_ref in E. by apply rbind_Ok in E as (v & _ & [= <-]).
  - by injection E as <-.
  - destruct p as [p|]; [|by injection E as <-]. by apply rbind_Ok in E as (v & _ & [= <-]).
  - by injection E as <-.
  - unfold win_ref in E. by apply rbind_Ok in E as (v & _ & [= <-]).
  - apply rbind_Ok in E as (r & E & [= <-]). cbn [refs qof erase offered]. revert l r E.
    induction IH as [|s ss Hs HF IH]; intros [|x l] r E.
    1-3: by injection E as <-.
    apply rbind_Ok in E as (o & Eo & E). apply rbind_Ok in E as (r' & Er & [= <-]).
    rewrite !fmap_cons. change ((refs o ++ (r' ≫= refs)).*1 = offered (qof s) (erase o) ++
      (fix go qs l := match qs, l with q :: qs, x :: l => offered q x ++ go qs l | _, _ => [] end) (qof <$> ss) (erase <$> r')).
    rewrite fmap_app. f_equal; [by eapply Hs|by eapply IH].
  - apply rbind_Ok in E as (r & E & [= <-]). cbn. by eapply IHa.
  - apply rbind_Ok in E as (r & E & [= <-]). cbn. by eapply IHb.
Qed.
Lemma captain_offered s : ∀ k o, get_captain s k = Ok o -> (refs o).*1 = offered (qof s) (erase o).
Proof.
  induction s as [w|l|w|b w|b m w|m ss IH|a b c d IHa IHb] using ship_ind'; intros k o E; try done; cbn in E.
  - unfold win_ref in E. by apply rbind_Ok in E as (v & _ & [= <-]).
  - by apply rbind_Ok in E as (e & _ & [= <-]).
  - apply rbind_Ok in E as (r & E & [= <-]). cbn [refs qof erase offered]. revert r E.
    induction IH as [|s ss Hs HF IH]; intros r E.
    { by injection E as <-. }
    apply rbind_Ok in E as (o & Eo & E). apply rbind_Ok in E as (r' & Er & [= <-]).
    rewrite !fmap_cons. change ((refs o ++ (r' ≫= refs)).*1 = offered (qof s) (erase o) ++
      (fix go qs l := match qs, l with q :: qs, x :: l => offered q x ++ go qs l | _, _ => [] end) (qof <$> ss) (erase <$> r')).
    rewrite fmap_app. f_equal; [by eapply Hs|by eapply IH].
Qed.
Lemma item_at_offered it k o : item_at it k = Ok (Some o) -> (refs o).*1 = offered (qof (it_ship it)) (erase o).
Proof.
  unfold item_at. destruct (it_exact it).
  - intros E. apply rbind_Ok in E as (o' & E & [= <-]). by eapply captain_offered.
  - intros E. apply rbind_Ok in E as (e & _ & E). apply rbind_Ok in E as ([x|] & _ & E); [|done].
    apply rbind_Ok in E as (o' & E & [= <-]). by eapply sailor_offered.
Qed.
Lemma tour_offered ls : ∀ it, tour it ls ->
  ∀ e o, (e, o) ∈ items (mjoin ls) -> (refs o).*1 = offered (qof (it_ship it)) (erase o).
Proof.
  induction ls as [|l ls IH]; intros it HT e o Hin; [done|]. destruct HT as [(_ & _ & HR) HT].
  rewrite mjoin_cons, items_app in Hin. apply elem_of_app in Hin as [Hin|Hin].
  - apply elem_items in Hin. apply elem_of_list_lookup in Hin as [m Hm].
    destruct (HR m e (Some o) Hm) as [_ E]. by eapply item_at_offered.
  - destruct (it_next_slice it) as [it'|] eqn:E; [|subst; by apply elem_of_nil in Hin].
    specialize (IH it' HT e o Hin). unfold it_next_slice in E. destruct (acc_next_slice _) as [[a len]|]; [|done].
    injection E as <-. cbn in IH. by rewrite qof_next in IH.
Qed.
Lemma settle_qof (l : list (ship V * N * access)) pick :
  qof (settle l pick).1.1 = QTuple ((λ x : ship V * N * access, qof x.1.1) <$> l).
Proof.
  assert (∀ P : nat -> bool, qof <$> imap (λ j (x : ship V * N * access), if P j then x.1.1 else unpick x.1.1) l
            = (λ x : ship V * N * access, qof x.1.1) <$> l) as HX.
  { induction l as [|x l IH]; intros P; [done|]. rewrite imap_cons, !fmap_cons. f_equal.
    - destruct (P 0%nat); [done|]. apply qof_unpick.
    - apply (IH (λ j, P (S j))). }
  assert (qof <$> imap (λ j (x : ship V * N * access), if decide (pick = Some j) then x.1.1 else unpick x.1.1) l
            = (λ x : ship V * N * access, qof x.1.1) <$> l) as HY.
  { rewrite <- (HX (λ j, bool_decide (pick = Some j))). f_equal. apply imap_ext. intros j x _.
    case_bool_decide; by rewrite ?decide_True, ?decide_False by done. }
  unfold settle. destruct (pick ≫= _) as [[j [[s len] a]]|]; cbn [fst qof]; by rewrite HY.
Qed.
Context (f10 f05 f12 f20 : N -> N) (env : N -> window V) (Henv : ∀ i, wn_id (env i) = i).
Lemma into_qof q : ∀ x, into_ship f10 f05 f12 f20 env q = Ok x -> qof x.1.1 = norm q.
Proof.
  induction q as [i|i|l|i|b i|b k i|qs IH|q1 q2 IH1 IH2] using query_ind'; intros x E; cbn [into_ship] in E.
  1-6: injection E as <-; cbn; by rewrite ?Henv.
  - apply rbind_Ok in E as (l & El & E).
    assert ((λ x : ship V * N * access, qof x.1.1) <$> l = norm <$> qs) as HL.
    { clear E. revert l El. induction IH as [|q qs Hq HF IH]; intros l El; [by injection El as <-|].
      apply rbind_Ok in El as (y & Ey & El). apply rbind_Ok in El as (l' & El' & [= <-]).
      rewrite !fmap_cons. by rewrite (Hq _ Ey), (IH _ El'). }
    cbn [norm]. rewrite <- HL. clear HL El.
    destruct (negb _); [done|]. destruct (existsb _ _); [done|]. destruct (1 <? _)%nat; [done|].
    apply rbind_Ok in E as (ts & _ & E). destruct (_ =? 1)%nat; injection E as <-; apply settle_qof.
  - apply rbind_Ok in E as (y & Ey & E). apply rbind_Ok in E as (z & Ez & E).
    specialize (IH1 _ Ey). specialize (IH2 _ Ez).
    destruct y as [[sa la] aa], z as [[sb lb] ab]. injection E as <-. cbn in *. by rewrite IH1, IH2.
Qed.
Lemma q_iter_offered q it ls :
  q_iter f10 f05 f12 f20 env q = Ok it -> tour it ls ->
  ∀ e o, (e, o) ∈ items (mjoin ls) -> (refs o).*1 = offered q (erase o).
Proof.
  intros E HT e o Hin. unfold q_iter in E. apply rbind_Ok in E as ([[s len] a] & E & Hit).
  injection Hit as <-. rewrite <- offered_norm, <- (into_qof q _ E). by apply (tour_offered _ _ HT e o).
Qed.
End offered.

(** ** What the loop does to the storages *)
Section effect.
Context {V : Type} (kind : N -> tracking).
Implicit Types (w : world V) (t : table V) (it : iter V) (q : query) (c : eid -> N -> option (row V)).
Local Notation store m i := (store_or_new kind m i).
Local Notation srel := (stores_rel kind (λ _, 0) (λ _, 0)).
Local Notation srel1 i := (store_rel (kind i) 0 0).

Lemma run_data (l : list (act V)) : ∀ h, h_data (mut_run h l) = foldl (λ v a, change a v) (h_data h) l.
Proof. induction l as [|a l IH]; intros h; [done|].
  change (mut_run h (a :: l)) with (mut_run (mut_act h a) l). rewrite IH. by destruct a.
Qed.
Lemma run_flag (l : list (act V)) : ∀ h,
  h_flag (mut_run h l) = if existsb asks_mut l then (λ _, h_current h) <$> h_flag h else h_flag h.
Proof.
  induction l as [|a l IH]; intros h; [done|]. change (mut_run h (a :: l)) with (mut_run (mut_act h a) l).
  rewrite IH. destruct a; cbn; destruct (existsb asks_mut l); try done; by destruct (h_flag h).
Qed.

Lemma store_handle (i : N) (s : sset V) (ce : eid -> option (row V)) p e now l :
  srel1 i s ce -> getN (ss_dense s) p = Some e ->
  ∃ h, mut_at s p now = Ok h ∧ srel1 i (mut_back s p (mut_run h l)) (at_ ce e (after now l <$> ce e)).
Proof.
  intros (a & H & Hk & Hc) Hp. pose proof H as [HI HR Hdel Hrem Hti Htm Htd Htr Hli Hlm].
  destruct (sr_row _ _ HR p e Hp) as (r & Hr & Hv & _ & Hm).
  unfold mut_at, get_unchecked. rewrite Hv. cbn [rbind].
  assert (∃ fl, (if ss_tm s then rlet z := match getN (ss_mod s) p with Some v => Ok v | None => Ub end in
                   Ok (Handle (Some z) now (r_val r)) else Ok (Handle None now (r_val r))) = Ok (Handle fl now (r_val r)) ∧
                fl = if ss_tm s then Some (r_mod r) else None) as (fl & -> & Hfl).
  { destruct (ss_tm s); [rewrite Hm by done|]; cbn; eauto. }
  eexists. split; [done|].
  exists (upd_map a (<[e := after now l r]> (sp_map a))). split_and!.
  - assert (h_flag (mut_run (Handle fl now (r_val r)) l) = if ss_tm s then Some (r_mod (after now l r)) else None) as Hf.
    { rewrite run_flag. cbn. rewrite Hfl. destruct (ss_tm s), (existsb asks_mut l); done. }
    assert (h_data (mut_run (Handle fl now (r_val r)) l) = r_val (after now l r)) as Hd by apply run_data.
    unfold mut_back. rewrite Hf, Hd. clear Hf Hd.
    split; cbn; try done.
    + eapply SI_same; [exact HI|..]; cbn; try done; [by rewrite lenN_setN|].
      destruct (ss_tm s); [by rewrite lenN_setN|done].
    + eapply SRows_update; [exact HI|exact HR|exact Hp|..]; cbn; try done.
      * intros Ht k. destruct (N.eqb_spec k p) as [->|]; [|done].
        destruct (sr_row _ _ HR p e Hp) as (r' & Hr' & _ & Hi & _). rewrite Hi by done. congruence.
      * intros Ht k. rewrite Ht. destruct (N.eqb_spec k p) as [->|Hne].
        -- rewrite getN_setN_eq; [done|]. by apply (si_mod_some s p e).
        -- by rewrite getN_setN_ne.
  - done.
  - cbn. rewrite <- (Hc e), Hr. by apply lookup_upd_at.
Qed.
Lemma back_dense (s : sset V) p h : ss_dense (mut_back s p h) = ss_dense s.
Proof. done. Qed.

Context (muts : list N) (now : N -> N) (body : eid -> item V -> N -> list (act V)).
Definition upd_at (e : eid) (x : item V) (ns : list N) (i : N) (r : option (row V)) : option (row V) :=
  if decide (i ∈ muts ∧ i ∈ ns) then after (now i) (body e x i) <$> r else r.
Definition same_dense (m m' : gmap N (sset V)) : Prop := ∀ i, ss_dense (store m i) = ss_dense (store m' i).

Lemma refs_effect e x l : ∀ m c,
  srel m c -> (∀ r, r ∈ l -> getN (ss_dense (store m r.1)) r.2 = Some e) ->
  NoDup (filter (.∈ muts) l.*1) ->
  ∃ m' c', visit_refs kind muts now body m e x l = Ok m' ∧ srel m' c' ∧ same_dense m m' ∧
    (∀ i, c' e i = upd_at e x l.*1 i (c e i)) ∧ ∀ e' i, e' ≠ e -> c' e' i = c e' i.
Proof.
  induction l as [|[i p] l IH]; intros m c H Hp Hnd; cbn [visit_refs].
  { exists m, c. split_and!; try done. intros i. unfold upd_at. rewrite decide_False; [done|]. by intros [_ ?%elem_of_nil]. }
  rewrite fmap_cons, filter_cons in Hnd. cbn [fst] in Hnd. unfold visit_ref. cbn [fst snd].
  destruct (decide (i ∈ muts)) as [Hi|Hi].
  - apply NoDup_cons in Hnd as [Hni Hnd].
    assert (i ∉ l.*1) as Hil. { intros Hin. apply Hni. by apply elem_of_list_filter. }
    destruct (store_handle i (store m i) (λ e, c e i) p e (now i) (body e x i) (H i)) as (h & -> & Hs).
    { apply (Hp (i, p)). by left. }
    cbn [rbind].
    set (m1 := <[i := _]> m).
    set (c1 := λ e' j, if decide (j = i) then at_ (λ e, c e i) e (after (now i) (body e x i) <$> c e i) e' else c e' j).
    assert (srel m1 c1) as H1.
    { eapply stores_set; [exact H| |].
      - eapply store_rel_ext; [exact Hs|]. intros e'. unfold c1. by rewrite decide_True.
      - intros e' j Hj. unfold c1. by rewrite decide_False. }
    assert (same_dense m m1) as Hd1.
    { intros j. unfold m1, World.store_or_new. destruct (decide (j = i)) as [->|Hj].
      - by rewrite lookup_insert.
      - by rewrite lookup_insert_ne. }
    destruct (IH m1 c1 H1) as (m' & c' & E & H' & Hd & He & Ho).
    { intros r Hr. rewrite <- Hd1. apply Hp. by right. }
    { done. }
    exists m', c'. split_and!; [exact E|done|..].
    + intros j. rewrite (Hd1 j). apply Hd.
    + intros j. rewrite He. unfold upd_at, c1. rewrite fmap_cons. cbn [fst]. destruct (decide (j = i)) as [->|Hj].
      * rewrite decide_False by tauto. rewrite at_same. rewrite decide_True; [done|]. split; [done|by left].
      * destruct (decide (j ∈ muts ∧ j ∈ l.*1)) as [D|D].
        -- rewrite decide_True; [done|]. split; [apply D|right; apply D].
        -- rewrite decide_False; [done|]. intros [D1 [D2|D2]%elem_of_cons]; [done|]. by apply D.
    + intros e' j Hne. rewrite Ho by done. unfold c1. case_decide; [|done]. subst. by rewrite at_other.
  - cbn [rbind]. destruct (IH m c H) as (m' & c' & E & H' & Hd & He & Ho).
    { intros r Hr. apply Hp. by right. }
    { done. }
    exists m', c'. split_and!; [exact E|done|done| |done].
    intros j. rewrite He. unfold upd_at. rewrite fmap_cons. cbn [fst].
    destruct (decide (j ∈ muts ∧ j ∈ l.*1)) as [D|D].
    + rewrite decide_True; [done|]. split; [apply D|right; apply D].
    + rewrite decide_False; [done|]. intros [D1 [D2|D2]%elem_of_cons]; [congruence|]. by apply D.
Qed.

Lemma loop_effect (L : list (eid * out V)) : ∀ m c,
  srel m c -> NoDup L.*1 ->
  (∀ e o r, (e, o) ∈ L -> r ∈ refs o -> getN (ss_dense (store m r.1)) r.2 = Some e) ->
  (∀ e o, (e, o) ∈ L -> NoDup (filter (.∈ muts) (refs o).*1)) ->
  ∃ m' c', loop_stores kind muts now body m L = Ok m' ∧ srel m' c' ∧
    (∀ e o i, (e, o) ∈ L -> c' e i = upd_at e (erase o) (refs o).*1 i (c e i)) ∧
    ∀ e i, e ∉ L.*1 -> c' e i = c e i.
Proof.
  induction L as [|[e o] L IH]; intros m c H Hnd Hp Hex; cbn [loop_stores].
  { exists m, c. split_and!; try done. intros e o i Hin. by apply elem_of_nil in Hin. }
  rewrite fmap_cons in Hnd. cbn [fst] in Hnd. apply NoDup_cons in Hnd as [Hni Hnd].
  destruct (refs_effect e (erase o) (refs o) m c H) as (m1 & c1 & -> & H1 & Hd & He & Ho).
  { intros r Hr. apply (Hp e o r); [by left|done]. }
  { apply (Hex e o). by left. }
  cbn [rbind]. destruct (IH m1 c1 H1 Hnd) as (m' & c' & E & H' & Hin' & Hout').
  { intros e' o' r Hin Hr. rewrite <- Hd. apply (Hp e' o' r); [by right|done]. }
  { intros e' o' Hin. apply (Hex e' o'). by right. }
  assert (∀ e' o', (e', o') ∈ L -> e' ≠ e) as Hne.
  { intros e' o' Hin ->. apply Hni. apply elem_of_list_fmap. by exists (e, o'). }
  exists m', c'. split_and!; [exact E|done|..].
  - intros e' o' i [[= -> ->]|Hin]%elem_of_cons.
    + by rewrite Hout', He.
    + rewrite (Hin' e' o' i Hin). by rewrite (Ho e' i (Hne _ _ Hin)).
  - intros e' i Hni'. rewrite fmap_cons in Hni'. apply not_elem_of_cons in Hni' as [Hne' Hni'].
    rewrite Hout' by done. by apply Ho.
Qed.
End effect.

Lemma filter_sublist {A} (P : A -> Prop) `{∀ x, Decision (P x)} (l k : list A) :
  sublist l k -> sublist (filter P l) (filter P k).
Proof.
  induction 1 as [|x l k _ IH|x l k _ IH]; [done|..]; rewrite ?filter_cons.
  - case_decide; [by constructor|done].
  - case_decide; [by apply sublist_cons|done].
Qed.
Lemma sublist_NoDup' {A} (l k : list A) : sublist l k -> NoDup k -> NoDup l.
Proof.
  induction 1 as [|x l k HS IH|x l k _ IH]; [done|..]; intros [Hn Hk]%NoDup_cons.
  - apply NoDup_cons. split; [|by apply IH]. intros Hin. apply Hn. eapply elem_of_submseteq; [done|by apply sublist_submseteq].
  - by apply IH.
Qed.

Section claim.
Context {V : Type} (kind : N -> tracking).
Implicit Types (w : world V) (t : table V) (it : iter V) (q : query).

Lemma t_loop_cell t q item muts now body n e i :
  t_cell (t_loop t q item muts now body n) e i =
  match item e with
  | Some x => upd_at muts now body e x (offered q x) i (t_cell t e i)
  | None => t_cell t e i
  end.
Proof.
  unfold t_cell, t_loop. cbn [t_rows]. rewrite map_lookup_imap.
  destruct (t_rows t !! e) as [r|]; cbn; [|destruct (item e); [|done]; unfold upd_at; by case_decide].
  destruct (item e) as [x|]; [|done]. rewrite map_lookup_imap. unfold upd_at.
  destruct (r !! i) as [o|]; cbn; [|by case_decide]. by case_decide.
Qed.
Lemma ticks n w : w_ents (Nat.iter n (w_tick (V:=V)) w) = w_ents w ∧ w_counter (Nat.iter n (w_tick (V:=V)) w) = w_counter w + N.of_nat n.
Proof.
  induction n as [|n [IH1 IH2]]; [cbn; split; [done|lia]|].
  cbn [Nat.iter nat_rect]. cbn [w_tick w_ents w_counter].
  change (nat_rect (λ _ : nat, world V) w (λ _ : nat, w_tick) n) with (Nat.iter n (w_tick (V:=V)) w).
  rewrite IH1, IH2. split; [done|]. lia.
Qed.

Lemma loop_WR ops w evs t times q muts body n :
  reach kind ops w evs t -> allowed kind q -> stocked (nonempty t) q ->
  NoDup (filter (.∈ muts) (storages q)) ->
  let now i := (times i).2 in
  let t1 := t_loop t q (meant t times q) muts now body (N.of_nat n) in
  ∃ it L w1, shiperator (views kind w times) q = Ok it ∧ visits it L ∧ exactly (meant t times q) L ∧
    w_loop kind muts now body w n L = Ok w1 ∧
    (∀ e, is_alive (w_ents w1) e = is_alive (w_ents w) e) ∧ Forall handle_ok (t_issued t1) ∧
    WR kind (λ _, 0) (λ _, 0) w1 t1.
Proof.
  intros HR (Hu & Hc & Hsz) Hst Hex now t1.
  destruct (q_iter_ok f32_id f32_half f32_not f32_track (views kind w times) (t_cell t)
    (λ i, views_ok kind ops w evs t times i HR) f32_id_le f32_half_le f32_not_le f32_track_le q)
    as (it & l & ls & E & HT & (Y1 & Y2 & Y3) & H1 & H2 & H3).
  { eapply usable_ext; [..|exact Hu]; intros i; symmetry; apply (views_flags kind ops w evs t i HR). }
  { done. }
  { done. }
  set (L := items (mjoin (l :: ls))) in *.
  pose proof (reach_WR kind _ _ _ _ HR) as [HW Hiss].
  destruct (loop_effect kind muts now body L (w_stores w) (t_cell t) (wr_stores _ _ _ _ _ HW) Y1)
    as (m' & c' & Em & Hm & Hin & Hout).
  { intros e o [i p] HinL Hr. destruct (Y3 e o HinL) as [_ G]. by apply (G i p). }
  { intros e o HinL. eapply sublist_NoDup'; [|exact Hex]. apply filter_sublist.
    by apply (q_iter_refs f32_id f32_half f32_not f32_track (views kind w times) (λ i, eq_refl) q it _ E HT e o). }
  assert (WR kind (λ _, 0) (λ _, 0) (with_stores (Nat.iter n (w_tick (V:=V)) w) m') t1) as HW1.
  { destruct (ticks n w) as [T1 T2]. split.
    - cbn. rewrite T1. eapply ER_ext; [apply HW|]. intros e. cbn. rewrite map_lookup_imap.
      destruct (t_rows t !! e); cbn; split; try done; by intros [].
    - cbn. eapply stores_ext; [exact Hm|]. intros e i. unfold t1. rewrite t_loop_cell.
      destruct (meant t times q e) as [x|] eqn:Ex.
      + assert (e ∈ L.*1) as HeL. { apply Y2. change (is_Some (meant t times q e)). rewrite Ex. by eexists. }
        apply elem_of_list_fmap in HeL as ([e' o] & -> & HeL). cbn [fst] in *.
        rewrite (Hin e' o i HeL). destruct (Y3 e' o HeL) as [G _]. change (meant t times q e' = Some (erase o)) in G. rewrite Ex in G. injection G as ->.
        by rewrite (q_iter_offered f32_id f32_half f32_not f32_track (views kind w times) (λ i, eq_refl) q it _ E HT e' o HeL).
      + apply Hout. intros HeL%Y2. change (is_Some (meant t times q e)) in HeL. rewrite Ex in HeL. by destruct HeL.
    - cbn. rewrite T2. by rewrite (wr_now _ _ _ _ _ HW). }
  exists it, L, (with_stores (Nat.iter n (w_tick (V:=V)) w) m'). split_and!.
  - exact E.
  - split_and!; [apply wi_collects; [done|by apply H2]|apply it_collects; [done|by apply H2]|by apply it_fold_tour].
  - split_and!; [done|done|]. intros e o HinL. by apply (Y3 e o HinL).
  - unfold w_loop. by rewrite Em.
  - intros e. cbn. by destruct (ticks n w) as [-> _].
  - exact Hiss.
  - exact HW1.
Qed.

(** The loop runs to its end, and the world is then the one where exactly the visited entities had
    exactly the components of theirs that were viewed mutably changed, each by what the body did with it,
    and marked as modified at the time of the view iff the body asked for a mutable reference; whatever
    happens to the world afterwards agrees. *)
Theorem C86_loop ops w evs t times q muts body n :
  reach kind ops w evs t -> allowed kind q -> stocked (nonempty t) q ->
  NoDup (filter (.∈ muts) (storages q)) ->
  let now i := (times i).2 in
  let t1 := t_loop t q (meant t times q) muts now body (N.of_nat n) in
  ∃ it L w1, shiperator (views kind w times) q = Ok it ∧ visits it L ∧ exactly (meant t times q) L ∧
    w_loop kind muts now body w n L = Ok w1 ∧
    (∀ e, is_alive (w_ents w1) e = is_alive (w_ents w) e) ∧
    (∀ e, gen e < U16_MAX -> shows kind w1 e (t_cell t1 e)) ∧
    ∀ ops2, w_history kind w1 ops2 ->
      ∃ w2 evs2 t2, w_run kind w1 ops2 = Ok (w2, evs2) ∧ t_run t1 ops2 evs2 t2 ∧
        ∀ e, gen e < U16_MAX -> shows kind w2 e (t_cell t2 e).
Proof.
  intros HR HA Hst Hex now t1.
  destruct (loop_WR ops w evs t times q muts body n HR HA Hst Hex) as (it & L & w1 & E & HV & HE & EL & Hal & Hiss & HW1).
  exists it, L, w1. split; [exact E|]. split; [exact HV|]. split; [exact HE|]. split; [exact EL|]. split; [exact Hal|]. split.
  - intros e. by apply (WR_shows kind _ _ e HW1).
  - intros ops2 Hh. destruct (run_WR kind _ _ ops2 _ _ HW1 Hh Hiss) as (w2 & evs2 & t2 & E2 & R2 & HW2 & _).
    exists w2, evs2, t2. split_and!; [done|done|]. intros e. by apply (WR_shows kind _ _ e HW2).
Qed.
End claim.

(** ** Examples *)
(** Entities 0 and 2 have the components 0 (tracking everything) and 1 (tracking nothing), see C46_case. *)
Definition lw_q : query := QTuple [QMut 0; QMut 1].
Definition lw_body (e : eid) (x : item N) (i : N) : list (act N) :=
  if idx e =? 0 then [ARead; ADerefMut (λ v, v + 1); ARead; AAsMut (λ v, 2 * v)]
  else match x with ITup [IVal a; IVal b] => [AMap (λ v, v + a * b); ARead] | _ => [] end.
Definition lw_times (i : N) : N * N * N := (3, 3, 9 + i).
Definition lw_run (q : query) (muts : list N) (body : eid -> item N -> N -> list (act N)) : res (world N) :=
  rlet it := shiperator (views it_kind it_world lw_times) q in
  rlet L := it_fold it in
  w_loop it_kind muts (λ i, (lw_times i).2) body it_world 2
    (zip [(0, 0); (2, 0)] L).
(** The components 0 and 1 of the first five entities, and whether 0 was modified in (8, 9]. *)
Definition lw_seen (r : res (world N)) : res (list (res (option N) * res (option N) * res bool)) :=
  rlet w := r in
  Ok ((λ k, let e := (k, 0) in
            (ss_get (store_or_new it_kind (w_stores w) 0) e, ss_get (store_or_new it_kind (w_stores w) 1) e,
             is_modified (store_or_new it_kind (w_stores w) 0) e 8 9)) <$> [0; 1; 2; 3; 4]).

Lemma lw_allowed : allowed it_kind lw_q.
Proof.
  split; [|by vm_compute]. apply plain_usable. cbn. by split_and!.
Qed.
Example C86_case :
  (∃ t, reach it_kind it_ops it_world (answers_of it_kind it_ops) t) ∧ allowed it_kind lw_q ∧
  (∀ t : table N, stocked (nonempty t) lw_q) ∧ NoDup (filter (.∈ [0; 1]) (storages lw_q)) ∧
  lw_seen (Ok it_world) =
    Ok [(Ok (Some 10), Ok (Some 11), Ok false); (Ok None, Ok (Some 21), Ok false);
        (Ok (Some 30), Ok (Some 31), Ok false); (Ok None, Ok None, Ok false); (Ok (Some 50), Ok None, Ok false)] ∧
  lw_seen (lw_run lw_q [0; 1] lw_body) =
    Ok [(Ok (Some 22), Ok (Some 24), Ok true); (Ok None, Ok (Some 21), Ok false);
        (Ok (Some 960), Ok (Some 961), Ok false); (Ok None, Ok None, Ok false); (Ok (Some 50), Ok None, Ok false)].
Proof.
  split; [exact it_reach|]. split; [exact lw_allowed|]. split; [intros t; by apply or_free_stocked|].
  split; [apply (bool_decide_unpack _); by vm_compute|]. split; by vm_compute.
Qed.

(** A component can change without being reported as modified, although its storage tracks
    modification: the closure given to [Mut::map] has [&mut T]. *)
Theorem C86_changed_reported_refuted :
  ∃ (ops : list (wop N)) w evs t q muts body L w1 e v v',
    reach it_kind ops w evs t ∧ allowed it_kind q ∧ stocked (nonempty t) q ∧
    NoDup (filter (.∈ muts) (storages q)) ∧ k_track_modification (it_kind 0) = true ∧
    (∃ it, shiperator (views it_kind w lw_times) q = Ok it ∧ it_fold it = Ok L.*2) ∧
    w_loop it_kind muts (λ i, (lw_times i).2) body w 2 L = Ok w1 ∧
    ss_get (store_or_new it_kind (w_stores w) 0) e = Ok (Some v) ∧
    ss_get (store_or_new it_kind (w_stores w1) 0) e = Ok (Some v') ∧ v ≠ v' ∧
    is_modified (store_or_new it_kind (w_stores w1) 0) e 8 (lw_times 0).2 = Ok false.
Proof.
  destruct it_reach as [t HR].
  pose (L := [((0, 0), OTup [ORef 0 0 10; ORef 1 0 11]); ((2, 0), OTup [ORef 0 1 30; ORef 1 2 31])] : list (eid * out N)).
  destruct (w_loop it_kind [0; 1] (λ i, (lw_times i).2) lw_body it_world 2 L) as [w1| |] eqn:E.
  2-3: vm_compute in E; discriminate E.
  exists it_ops, it_world, (answers_of it_kind it_ops), t, lw_q, [0; 1], lw_body, L, w1, (2, 0), 30, 960.
  assert (w1 = match w_loop it_kind [0; 1] (λ i, (lw_times i).2) lw_body it_world 2 L with Ok w1 => w1 | _ => it_world end)
    as -> by (by rewrite E).
  split; [exact HR|]. split; [exact lw_allowed|]. split; [by apply or_free_stocked|].
  split; [apply (bool_decide_unpack _); by vm_compute|]. split; [done|].
  split; [eexists; split; by vm_compute|]. split; [by vm_compute|]. split; [by vm_compute|]. split; [by vm_compute|].
  split; [done|]. by vm_compute.
Qed.
(** And it can be reported as modified without having changed. *)
Theorem C86_reported_changed_refuted :
  ∃ (ops : list (wop N)) w evs t q muts body L w1 e v,
    reach it_kind ops w evs t ∧ allowed it_kind q ∧ stocked (nonempty t) q ∧
    NoDup (filter (.∈ muts) (storages q)) ∧
    (∃ it, shiperator (views it_kind w lw_times) q = Ok it ∧ it_fold it = Ok L.*2) ∧
    w_loop it_kind muts (λ i, (lw_times i).2) body w 2 L = Ok w1 ∧
    ss_get (store_or_new it_kind (w_stores w) 0) e = Ok (Some v) ∧
    ss_get (store_or_new it_kind (w_stores w1) 0) e = Ok (Some v) ∧
    is_modified (store_or_new it_kind (w_stores w) 0) e 8 (lw_times 0).2 = Ok false ∧
    is_modified (store_or_new it_kind (w_stores w1) 0) e 8 (lw_times 0).2 = Ok true.
Proof.
  destruct it_reach as [t HR].
  pose (L := [((0, 0), OTup [ORef 0 0 10; ORef 1 0 11]); ((2, 0), OTup [ORef 0 1 30; ORef 1 2 31])] : list (eid * out N)).
  pose (body := λ (_ : eid) (_ : item N) (_ : N), [ADerefMut (λ v : N, v)]).
  exists it_ops, it_world, (answers_of it_kind it_ops), t, lw_q, [0; 1], body, L,
    (match w_loop it_kind [0; 1] (λ i, (lw_times i).2) body it_world 2 L with Ok w1 => w1 | _ => it_world end), (2, 0), 30.
  split; [exact HR|]. split; [exact lw_allowed|]. split; [by apply or_free_stocked|].
  split; [apply (bool_decide_unpack _); by vm_compute|].
  split; [eexists; split; by vm_compute|]. split; [by vm_compute|]. split; [by vm_compute|]. split; [by vm_compute|].
  split; by vm_compute.
Qed.

Print Assumptions C86_loop.
Print Assumptions C86_changed_reported_refuted.
Print Assumptions C86_reported_changed_refuted.
