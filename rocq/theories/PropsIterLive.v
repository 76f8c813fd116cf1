(** C86: writing while iterating does not disturb the iteration. *)
From stdpp Require Import prelude list gmap.
From Coq Require Import NArith Lia.
From Verif Require Import EntityId EntityIdProofs Base Entities EntitiesSpec EntitiesProofs.
From Verif Require Import SparseSet Track SparseSetSpec SparseSetProofs SparseSetHistory.
From Verif Require Import World WorldSpec WorldProofs WorldProofs2 PropsWorld.
From Verif Require Import Iter IterSpec IterFloat IterProofs IterProofs2 IterAlias IterOwned PropsIter.
From Verif Require Import IterWrite IterWriteSpec PropsIterWrite IterLive.
Open Scope N_scope.

(** ** Iterators without [|], position by position *)
Section one_slice.
Context {V : Type} (f10 f05 f12 f20 : N -> N).
Context (env : N -> window V) (c : eid -> N -> option (row V)).
Context (Henv : ∀ i, wn_id (env i) = i ∧ win_ok (env i) (λ e, c e i)).
Context (H10 : ∀ x m k, m <= 2 ^ 24 -> x <= m * 2 ^ k -> f10 x <= m * 2 ^ k) (H05 : ∀ x, f05 x <= x) (H12 : ∀ x, f12 x <= 4 * x) (H20 : ∀ x, f20 x <= 4 * x).
Local Notation den := (denote c (λ i, wn_last_ins (env i)) (λ i, wn_last_mod (env i)) (λ i, wn_current (env i))).
Local Notation use := (usable (λ i, ss_ti (wn_set (env i))) (λ i, ss_tm (wn_set (env i)))).
Lemma one_slice q :
  use q -> can_captain q = true -> size q <= 2 ^ 11 -> or_free q = true ->
  ∃ s len a, into_ship f10 f05 f12 f20 env q = Ok (s, len, a) ∧ a.2 = [] ∧ len = lenN a.1 ∧ NoDup a.1 ∧
    ∀ k e, a.1 !! k = Some e -> ∃ oo, item_at (Iter s a (is_exact s) 0 len) (N.of_nat k) = Ok oo ∧ says env e oo (den q e).
Proof.
  intros Hu Hc Hsz Hof. destruct (into_ok f10 f05 f12 f20 env c Henv H10 H05 H12 H20 q Hu Hsz) as ([[s len] a] & E & Hok).
  destruct (so_captain _ _ _ _ _ _ _ _ _ _ Hok Hc) as [fs Hfs]. cbn [fst snd] in *.
  pose proof (so_or_free _ _ _ _ _ _ _ _ _ _ Hok Hof) as Ha. cbn [fst snd] in Ha.
  destruct a as [ptr fu]. cbn in Ha. subst fu.
  pose proof (co_fs _ _ _ _ _ _ _ Hfs) as HL. unfold slices in HL. cbn in HL. destruct fs as [|f [|]]; try done.
  assert (∀ e, f e = den q e) as Hf.
  { intros e. destruct (den q e) as [x|] eqn:Ex.
    - destruct (co_cover _ _ _ _ _ _ _ Hfs e x Ex) as (n & sl & g & _ & Hg & _ & G).
      destruct n as [|n]; [|by destruct n]. injection Hg as <-. done.
    - destruct (f e) as [x|] eqn:Ef; [|done]. rewrite (co_sound _ _ _ _ _ _ _ Hfs 0%nat f e x eq_refl Ef) in Ex. done. }
  exists s, len, (ptr, []). split; [done|]. split; [done|]. split; [apply (co_len _ _ _ _ _ _ _ Hfs)|].
  destruct (co_phase _ _ _ _ _ _ _ Hfs 0%nat ptr f eq_refl eq_refl) as [Hnd HP]. split; [done|].
  intros k e Hk. cbn [fst] in Hk. rewrite <- (Hf e). unfold item_at. cbn [it_exact it_ship it_acc].
  destruct (is_exact s) eqn:Ex.
  - destruct (co_exact _ _ _ _ _ _ _ Hfs Ex) as [_ Hx].
    destruct (Hx f k e eq_refl Hk) as (o & x & E1 & _ & _ & Hs). exists (Some o). rewrite E1. done.
  - destruct (HP k e Hk) as (_ & oo & Hsail & Hs). exists oo. split; [|done].
    assert (acc_get (ptr, []) (N.of_nat k) = Ok e) as ->.
    { unfold acc_get, get_unchecked. cbn. by rewrite getN_lookup, Nat2N.id, Hk. }
    cbn [rbind]. cbn [Nat.iter nat_rect] in Hsail. destruct oo as [o|]; cbn [sail] in Hsail.
    + destruct Hsail as (x & -> & E2). cbn [rbind]. by rewrite E2.
    + by rewrite Hsail.
Qed.
End one_slice.

Lemma denote_ext {V} (c c' : eid -> N -> option (row V)) fi fm up q e :
  (∀ i, c e i = c' e i) -> denote c fi fm up q e = denote c' fi fm up q e.
Proof.
  intros H. induction q as [i|i|l|i|b i|b k i|qs IH|q1 q2 IH1 IH2] using query_ind'; cbn [denote]; rewrite ?H; try done.
  - do 2 f_equal. clear -IH. induction IH as [|q qs Hq _ IH]; [done|]. rewrite !fmap_cons. by rewrite Hq, IH.
  - by rewrite IH1, IH2.
Qed.

(** ** Looking again *)
Section see.
Context {V : Type} (kind : N -> tracking) (f10 f05 f12 f20 : N -> N).
Context (m : gmap N (sset V)) (env env' : N -> window V).
Context (Hid : ∀ i, wn_id (env i) = i) (Hsee : ∀ i, see kind m (env i) = env' i).
Local Notation same w := (ss_dense (store_or_new kind m (wn_id w)) = ss_dense (wn_set w)).
Context (Hsame : ∀ i, same (env i)).
Implicit Type s : ship V.

Fixpoint sames s : Prop :=
  match s with
  | SWin w | SOpt w | SNot _ w | STrack _ _ w => same w
  | SIds _ => True
  | SMixed _ ss => (fix go ss := match ss with [] => True | s :: ss => sames s ∧ go ss end) ss
  | SOr a b _ _ => sames a ∧ sames b
  end.
Lemma sames_mixed k ss : sames (SMixed k ss) <-> Forall sames ss.
Proof.
  cbn. induction ss as [|s ss IH]; [by split|]. rewrite Forall_cons, IH. done.
Qed.
Lemma sames_unpick s : sames s -> sames (unpick s).
Proof.
  induction s as [w|l|w|b w|b k w|k ss IH|a b x y IHa IHb] using ship_ind'; try done.
  - cbn [unpick]. rewrite !sames_mixed. intros H. rewrite Forall_fmap. rewrite Forall_forall in *.
    intros s Hs. by apply IH, H.
  - intros [Ha Hb]. split; [by apply IHa|by apply IHb].
Qed.
Lemma see_unpick s : see_ship kind m (unpick s) = unpick (see_ship kind m s).
Proof.
  induction s as [w|l|w|b w|b k w|k ss IH|a b x y IHa IHb] using ship_ind'; try done.
  - cbn [unpick see_ship]. f_equal. rewrite <- !list_fmap_compose.
    induction IH as [|s ss Hs _ IH]; [done|]. rewrite !fmap_cons. cbn. by rewrite Hs, IH.
  - cbn. by rewrite IHa, IHb.
Qed.
Lemma see_exact s : is_exact (see_ship kind m s) = is_exact s.
Proof. destruct s; try reflexivity. unfold is_exact. cbn [see_ship]. rewrite fmap_length. reflexivity. Qed.
Lemma see_time s : sames s -> sail_time f10 f05 f12 f20 (see_ship kind m s) = sail_time f10 f05 f12 f20 s.
Proof.
  induction s as [w|l|w|b w|b k w|mask ss IH|a b x y IHa IHb] using ship_ind'.
  1, 3, 4, 5: intros H; cbn [sames] in H; cbn [see_ship sail_time]; unfold see; cbn [wn_set]; by rewrite H.
  - done.
  - rewrite sames_mixed. intros H. cbn [see_ship]. rewrite !sail_time_mixed. clear -IH H.
    generalize 0 at 1 3 as j. generalize 0 as acc. revert H.
    induction IH as [|s ss Hs _ IH]; intros H acc j; [done|]. apply Forall_cons in H as [H1 H2].
    rewrite fmap_cons. cbn [mix_time]. rewrite (Hs H1). destruct (sail_time _ _ _ _ s) as [t| |]; [|done..]. cbn [rbind].
    destruct (usize_add _ _) as [t'| |]; [|done..]. cbn [rbind]. by apply IH.
  - intros [Ha Hb]. cbn [see_ship sail_time]. by rewrite (IHa Ha), (IHb Hb).
Qed.
Lemma see_times ss : Forall sames ss ->
  sail_times f10 f05 f12 f20 (see_ship kind m <$> ss) = sail_times f10 f05 f12 f20 ss.
Proof. induction 1 as [|s ss H _ IH]; [done|]. rewrite fmap_cons. cbn [sail_times]. by rewrite (see_time s H), IH. Qed.

Definition see_x (x : ship V * N * access) : ship V * N * access := (see_ship kind m x.1.1, x.1.2, x.2).
Lemma see_settle (l : list (ship V * N * access)) pick : settle (see_x <$> l) pick = see_x (settle l pick).
Proof.
  assert (imap (λ j (x : ship V * N * access), if decide (pick = Some j) then x.1.1 else unpick x.1.1) (see_x <$> l) =
          see_ship kind m <$> imap (λ j (x : ship V * N * access), if decide (pick = Some j) then x.1.1 else unpick x.1.1) l) as HX.
  { rewrite fmap_imap, imap_fmap. apply imap_ext. intros j x _. cbn. case_decide; [done|]. by rewrite see_unpick. }
  unfold settle. rewrite HX. destruct pick as [j|]; cbn; [|done]. rewrite list_lookup_fmap.
  destruct (l !! j) as [[[s len] a]|]; cbn; [|done]. rewrite see_exact. done.
Qed.
Lemma settle_sames (l : list (ship V * N * access)) pick :
  Forall (λ x : ship V * N * access, sames x.1.1) l -> sames (settle l pick).1.1.
Proof.
  intros H.
  assert (Forall sames (imap (λ j (x : ship V * N * access), if decide (pick = Some j) then x.1.1 else unpick x.1.1) l)) as HX.
  { apply Forall_lookup. intros j s Hs. rewrite list_lookup_imap in Hs. destruct (l !! j) as [x|] eqn:Ex; [|done].
    injection Hs as <-. rewrite Forall_lookup in H. specialize (H j x Ex). case_decide; [done|]. by apply sames_unpick. }
  unfold settle. destruct (pick ≫= _) as [[j [[s len] a]]|]; cbn [fst]; by apply sames_mixed.
Qed.
Lemma see_into q : ∀ x, into_ship f10 f05 f12 f20 env q = Ok x ->
  sames x.1.1 ∧ into_ship f10 f05 f12 f20 env' q = Ok (see_x x).
Proof.
  assert (∀ i, ss_dense (wn_set (env' i)) = ss_dense (wn_set (env i))) as Hd.
  { intros i. rewrite <- Hsee. cbn. apply Hsame. }
  induction q as [i|i|l|i|b i|b k i|qs IH|q1 q2 IH1 IH2] using query_ind'; intros x E; cbn [into_ship] in E |- *.
  1-2, 4-6: injection E as <-; unfold see_x; cbn; by rewrite Hd, Hsee.
  - by injection E as <-.
  - apply rbind_Ok in E as (l & El & E).
    assert (Forall (λ x : ship V * N * access, sames x.1.1) l ∧
      (fix go qs := match qs with
                    | [] => Ok []
                    | q :: qs => rlet x := into_ship f10 f05 f12 f20 env' q in rlet l := go qs in Ok (x :: l)
                    end) qs = Ok (see_x <$> l)) as [HS HL].
    { clear E. revert l El. induction IH as [|q qs Hq HF IH]; intros l El; [by injection El as <-|].
      apply rbind_Ok in El as (y & Ey & El). apply rbind_Ok in El as (l' & El' & [= <-]).
      destruct (Hq _ Ey) as [G1 G2]. destruct (IH _ El') as [G3 G4]. rewrite G2. cbn [rbind]. rewrite G4. cbn [rbind].
      split; [by constructor|done]. }
    rewrite HL. cbn [rbind]. destruct (negb _); [done|]. destruct (existsb _ _); [done|]. destruct (1 <? _)%nat; [done|].
    apply rbind_Ok in E as (ts & Ets & E).
    assert ((see_x <$> l).*1.*1 = see_ship kind m <$> l.*1.*1) as Hl.
    { clear. induction l as [|x l IH]; [done|]. rewrite !fmap_cons. by rewrite IH. }
    rewrite Hl, see_times, Ets by (by rewrite !Forall_fmap). cbn [rbind].
    destruct (_ =? 1)%nat; injection E as <-; rewrite see_settle; (split; [by apply settle_sames|done]).
  - apply rbind_Ok in E as (y & Ey & E). apply rbind_Ok in E as (z & Ez & E).
    destruct (IH1 _ Ey) as [A1 A2]. destruct (IH2 _ Ez) as [B1 B2]. rewrite A2, B2.
    destruct y as [[sa la] aa], z as [[sb lb] ab]. injection E as <-. by cbn in *.
Qed.
End see.

(** ** The loop *)
Section live.
Context {V : Type} (kind : N -> tracking).
Implicit Types (w : world V) (t : table V) (it : iter V) (q : query) (c : eid -> N -> option (row V)).
Implicit Types (m : gmap N (sset V)).
Local Notation store m i := (store_or_new kind m i).
Local Notation srel := (stores_rel kind (λ _, 0) (λ _, 0)).
Context (muts : list N) (now : N -> N) (body : eid -> item V -> N -> list (act V)).

Definition same_shape m m' : Prop :=
  ∀ i, ss_dense (store m' i) = ss_dense (store m i) ∧ ss_sparse (store m' i) = ss_sparse (store m i).
Lemma refs_sparse e x l : ∀ m m', visit_refs kind muts now body m e x l = Ok m' -> same_shape m m'.
Proof.
  induction l as [|r l IH]; intros m m' E; cbn [visit_refs] in E; [by injection E as <-|].
  apply rbind_Ok in E as (m1 & E1 & E). specialize (IH _ _ E).
  assert (same_shape m m1) as H1.
  { unfold visit_ref in E1. case_decide; [|by injection E1 as <-].
    apply rbind_Ok in E1 as (h & _ & [= <-]). intros j. unfold World.store_or_new.
    destruct (decide (j = r.1)) as [->|Hj]; [by rewrite lookup_insert|by rewrite lookup_insert_ne]. }
  intros j. destruct (IH j) as [-> ->]. apply H1.
Qed.

Lemma srel_views m c times i :
  srel m c -> wn_id (window_of i (store m i) (times i)) = i ∧ win_ok (window_of i (store m i) (times i)) (λ e, c e i).
Proof.
  intros H. split; [done|]. destruct (H i) as (a & HS & _ & Hc). eapply win_ok_SR; [done|apply HS|apply HS|done].
Qed.
Lemma srel_flags m c i : srel m c ->
  ss_ti (store m i) = k_track_insertion (kind i) ∧ ss_tm (store m i) = k_track_modification (kind i).
Proof.
  intros H. destruct (H i) as (a & HS & Hk & Hc).
  rewrite (sr_ti _ _ HS), (sr_tm _ _ HS). unfold sflags, kflags in Hk. split; congruence.
Qed.

Lemma same_refs (d : N -> list eid) (e : eid) (l l' : list (N * N)) :
  (∀ i, NoDup (d i)) -> l.*1 = l'.*1 ->
  (∀ i p, (i, p) ∈ l -> getN (d i) p = Some e) -> (∀ i p, (i, p) ∈ l' -> getN (d i) p = Some e) -> l = l'.
Proof.
  intros Hd. revert l'. induction l as [|[i p] l IH]; intros [|[i' p'] l'] E H1 H2; try done.
  rewrite !fmap_cons in E. cbn in E. injection E as -> E. f_equal.
  - f_equal. specialize (H1 i' p ltac:(by left)). specialize (H2 i' p' ltac:(by left)).
    rewrite getN_lookup in H1, H2. pose proof (NoDup_lookup _ _ _ _ (Hd i') H1 H2) as G. lia.
  - apply IH; [done|..]; intros j z Hj; [apply H1|apply H2]; by right.
Qed.

Context (times : N -> N * N * N) (q : query) (m0 : gmap N (sset V)) (c0 : eid -> N -> option (row V)).
Context (H0 : srel m0 c0) (HA : allowed kind q) (Hof : or_free q = true) (Hex : NoDup (filter (.∈ muts) (storages q))).
Local Notation env m := (λ i, window_of i (store m i) (times i)).

Lemma slice_of m c : srel m c ->
  ∃ s len a, into_ship f32_id f32_half f32_not f32_track (env m) q = Ok (s, len, a) ∧ a.2 = [] ∧ len = lenN a.1 ∧ NoDup a.1 ∧
    ∀ k e, a.1 !! k = Some e -> ∃ oo, item_at (Iter s a (is_exact s) 0 len) (N.of_nat k) = Ok oo ∧
      says (env m) e oo (denote c (λ i, (times i).1.1) (λ i, (times i).1.2) (λ i, (times i).2) q e) ∧
      ∀ o, oo = Some o -> (refs o).*1 = offered q (erase o) ∧ sublist (refs o).*1 (storages q).
Proof.
  intros H. destruct HA as (Hu & Hc & Hsz).
  destruct (one_slice f32_id f32_half f32_not f32_track (env m) c (λ i, srel_views m c times i H)
    f32_id_le f32_half_le f32_not_le f32_track_le q) as (s & len & a & E & Ha & Hlen & Hnd & Hit); [|done..|].
  { eapply usable_ext; [..|exact Hu]; intros i; symmetry; apply (srel_flags m c i H). }
  exists s, len, a. split; [exact E|]. split; [done|]. split; [done|]. split; [done|].
  intros k e Hk. destruct (Hit k e Hk) as (oo & G1 & G2). exists oo. split; [done|]. split; [done|].
  intros o ->. split.
  - rewrite (item_at_offered _ _ _ G1). cbn [it_ship].
    rewrite <- (offered_norm q). f_equal.
    apply (into_qof f32_id f32_half f32_not f32_track (env m) (λ i, eq_refl) q _ E).
  - pose proof (item_at_refs _ _ _ G1) as G. cbn [it_ship] in G.
    pose proof (into_wins f32_id f32_half f32_not f32_track (env m) (λ i, eq_refl) q _ E) as W. cbn [fst] in W. by rewrite <- W.
Qed.

Lemma lockstep s len a l :
  into_ship f32_id f32_half f32_not f32_track (env m0) q = Ok (s, len, a) ->
  slice (Iter s a (is_exact s) 0 len) l ->
  ∀ fuel k m c, srel m c -> same_shape m0 m -> (fuel + k = length l)%nat ->
    (∀ e i, e ∈ (drop k l).*1 -> c e i = c0 e i) ->
    live_from kind muts now body fuel m (Iter s a (is_exact s) 0 len) (N.of_nat k) =
    loop_stores kind muts now body m (items (drop k l)).
Proof.
  intros E (_ & Hll & Hrd). cbn [it_start it_end] in Hll.
  destruct (slice_of m0 c0 H0) as (s1 & len1 & a1 & E1 & Ha & Hlen & Hnd & Hit).
  rewrite E in E1. injection E1 as <- <- <-.
  induction fuel as [|fuel IH]; intros k m c H Hsh Hk Hc.
  { cbn [live_from]. rewrite drop_ge by lia. done. }
  assert (∃ eo, l !! k = Some eo) as [[e oo] Hlk]. { apply lookup_lt_is_Some. lia. }
  destruct (Hrd k e oo Hlk) as [Ge Gi]. cbn [it_start it_acc] in Ge, Gi. rewrite N.add_0_l in Ge, Gi.
  assert (a.1 !! k = Some e) as Hak.
  { unfold acc_get, get_unchecked in Ge. rewrite getN_lookup, Nat2N.id in Ge. destruct (a.1 !! k); [by injection Ge as ->|done]. }
  destruct (Hit k e Hak) as (oo0 & G1 & G2 & G3). rewrite Gi in G1. injection G1 as <-.
  pose proof (drop_S _ _ _ Hlk) as Hdr.
  (* the live iterator *)
  destruct (see_into kind f32_id f32_half f32_not f32_track m (env m0) (env m)) with (q := q) (x := (s, len, a)) as [_ Es].
  { intros i. unfold see, window_of. cbn. destruct (Hsh i) as [_ ->]. done. }
  { intros i. cbn. apply Hsh. }
  { exact E. }
  destruct (slice_of m c H) as (s2 & len2 & a2 & E2 & _ & _ & _ & Hit2).
  rewrite Es in E2. unfold see_x in E2. cbn [fst snd] in E2. injection E2 as <- <- <-.
  destruct (Hit2 k e Hak) as (oo2 & F1 & F2 & F3). rewrite see_exact in F1.
  assert (∀ i, c e i = c0 e i) as Hce. { intros i. apply Hc. rewrite Hdr. by left. }
  assert (((λ o, (erase o, refs o)) <$> oo2) = ((λ o, (erase o, refs o)) <$> oo)) as Hoo.
  { destruct G2 as [A1 A2], F2 as [B1 B2]. rewrite (denote_ext c c0) in B1 by done. rewrite <- A1 in B1.
    destruct oo2 as [o2|], oo as [o|]; try done. cbn in B1. injection B1 as B1. cbn. do 2 f_equal; [done|].
    apply (same_refs (λ i, ss_dense (store m0 i)) e).
    - intros i. apply (wo_nodup _ _ (proj2 (srel_views m0 c0 times i H0))).
    - destruct (F3 o2 eq_refl) as [-> _], (G3 o eq_refl) as [-> _]. by rewrite B1.
    - intros i p Hin. specialize (B2 o2 eq_refl i p Hin). cbn in B2. destruct (Hsh i) as [<- _]. done.
    - intros i p Hin. by apply (A2 o eq_refl i p Hin). }
  cbn [live_from it_acc]. rewrite Ge. cbn [rbind]. unfold see_iter. cbn [it_ship it_acc it_exact it_start it_end].
  rewrite F1. cbn [rbind]. rewrite Hdr, items_cons.
  replace (N.of_nat k + 1) with (N.of_nat (S k)) by lia.
  assert (NoDup l.*1) as Hndl.
  { assert (l.*1 = a.1) as ->; [|done]. apply list_eq. intros j. rewrite list_lookup_fmap.
    destruct (l !! j) as [[e' o']|] eqn:Ej; cbn.
    - destruct (Hrd j e' o' Ej) as [Gj _]. cbn [it_start it_acc] in Gj. rewrite N.add_0_l in Gj.
      unfold acc_get, get_unchecked in Gj. rewrite getN_lookup, Nat2N.id in Gj. destruct (a.1 !! j); [by injection Gj as ->|done].
    - symmetry. apply lookup_ge_None. apply lookup_ge_None in Ej. rewrite N.sub_0_r, Hlen in Hll. unfold lenN in Hll. lia. }
  assert (∀ e', e' ∈ (drop (S k) l).*1 -> e' ≠ e) as Hne.
  { intros e' Hin ->. rewrite <- (take_drop k l), fmap_app, Hdr, fmap_cons in Hndl. apply NoDup_app in Hndl as (_ & _ & Hndl).
    by apply NoDup_cons in Hndl as [? _]. }
  destruct oo as [o|], oo2 as [o2|]; try done.
  - cbn in Hoo. injection Hoo as Ho1 Ho2. rewrite Ho1, Ho2.
    change (option_list (pair e <$> Some o) ++ items (drop (S k) l)) with ((e, o) :: items (drop (S k) l)). cbn [loop_stores].
    destruct (refs_effect kind muts now body e (erase o) (refs o) m c H) as (m1 & c1 & Ev & Hm1 & _ & _ & Ho).
    { intros [i p] Hr. cbn [fst snd]. destruct (Hsh i) as [-> _]. destruct G2 as [_ A2]. by apply (A2 o eq_refl i p). }
    { eapply sublist_NoDup'; [|exact Hex]. apply filter_sublist. by apply (G3 o eq_refl). }
    rewrite !Ev. cbn [rbind]. apply (IH (S k) m1 c1); [done|..].
    + intros i. destruct (refs_sparse _ _ _ _ _ Ev i) as [-> ->]. apply Hsh.
    + lia.
    + intros e' i Hin. rewrite (Ho e' i (Hne e' Hin)). apply Hc. rewrite Hdr, fmap_cons. by right.
  - change (option_list (pair e <$> None) ++ items (drop (S k) l)) with (items (drop (S k) l)).
    cbn [rbind]. apply (IH (S k) m c); [done|done|lia|]. intros e' i Hin. apply Hc. rewrite Hdr, fmap_cons. by right.
Qed.
End live.

Lemma collects_det {V A} (next : iter V -> res (iter V * option A)) it L :
  collects next it L -> ∀ L', collects next it L' -> L = L'.
Proof.
  induction 1 as [? ? E|? ? ? ? E _ IH]; intros L' H'; inversion H' as [? ? E'|? ? ? ? E' H2]; subst; rewrite E in E'; try done.
  injection E' as <- <-. f_equal. by apply IH.
Qed.

(** Without [|] in the expression: looking up each position only when the loop gets there, in the storages
    as the body has left them so far, gives the same world as C86_loop. *)
Theorem C86_live {V} (kind : N -> tracking) ops (w : world V) evs t times q muts body n :
  reach kind ops w evs t -> allowed kind q -> or_free q = true ->
  NoDup (filter (.∈ muts) (storages q)) ->
  let now i := (times i).2 in
  ∃ it L w1, shiperator (views kind w times) q = Ok it ∧ visits it L ∧
    w_loop kind muts now body w n L = Ok w1 ∧ w_live kind muts now body w n it = Ok w1.
Proof.
  intros HR HA Hof Hex now.
  pose proof (or_free_stocked (nonempty t) q Hof) as Hst.
  destruct (C86_loop kind ops w evs t times q muts body n HR HA Hst Hex) as (it & L & w1 & E & HV & _ & EL & _).
  destruct (world_tour kind ops w evs t times q HR HA) as (it' & l & ls & E' & HT & _ & _ & Hls & _ & _).
  rewrite E in E'. injection E' as <-. specialize (Hls Hof). subst ls.
  assert (L = items l) as HLl.
  { destruct HV as (HV & _). pose proof (wi_collects it l [] HT (Forall_nil_2 _)) as HF.
    rewrite (collects_det _ _ _ HV _ HF). rewrite mjoin_cons. cbn [mjoin list_join]. by rewrite app_nil_r. }
  exists it, L, w1. split; [exact E|]. split; [done|]. split; [done|].
  pose proof (reach_WR kind _ _ _ _ HR) as [HW _].
  unfold shiperator, q_iter in E. apply rbind_Ok in E as ([[s len] a] & E & Hit). injection Hit as <-.
  destruct HT as [HS _].
  unfold w_live. cbn [it_start it_end].
  assert (N.to_nat (len - 0) = length l) as ->.
  { destruct HS as (_ & HS & _). cbn [it_start it_end] in HS. rewrite HS. unfold lenN. lia. }
  pose proof (lockstep kind muts now body times q (w_stores w) (t_cell t) (wr_stores _ _ _ _ _ HW) HA Hof Hex s len a l E HS
    (length l) 0 (w_stores w) (t_cell t) (wr_stores _ _ _ _ _ HW)) as HL.
  rewrite drop_0 in HL. change (N.of_nat 0) with 0 in HL. rewrite HL; [|done|lia|done].
  rewrite <- HLl. exact EL.
Qed.

(** The loop of C86_case, looked up as it goes: the same result. *)
Example C86_live_case :
  allowed it_kind lw_q ∧ or_free lw_q = true ∧
  (rlet it := shiperator (views it_kind it_world lw_times) lw_q in
   lw_seen (w_live it_kind [0; 1] (λ i, (lw_times i).2) lw_body it_world 2 it)) =
    Ok [(Ok (Some 22), Ok (Some 24), Ok true); (Ok None, Ok (Some 21), Ok false);
        (Ok (Some 960), Ok (Some 961), Ok false); (Ok None, Ok None, Ok false); (Ok (Some 50), Ok None, Ok false)].
Proof. split; [exact lw_allowed|]. split; by vm_compute. Qed.

Print Assumptions C86_live.
