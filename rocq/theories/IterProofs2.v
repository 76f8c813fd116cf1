(** What the iterator built for a query does: windows, ships, drivers. *)
From stdpp Require Import prelude list.
From Coq Require Import NArith Lia.
From Verif Require Import EntityId Base SparseSet SparseSetSpec SparseSetProofs Iter IterSpec IterProofs.
Open Scope N_scope.

Lemma query_ind' (P : query -> Prop) :
  (∀ i, P (QView i)) -> (∀ i, P (QMut i)) -> (∀ l, P (QIds l)) -> (∀ i, P (QOpt i)) ->
  (∀ b i, P (QNot b i)) -> (∀ b k i, P (QTrack b k i)) ->
  (∀ qs, Forall P qs -> P (QTuple qs)) -> (∀ a b, P a -> P b -> P (QOr a b)) -> ∀ q, P q.
Proof.
  intros H1 H2 H3 H4 H5 H6 H7 H8. fix IH 1. intros [i|i|l|i|b i|b k i|qs|a b].
  - apply H1.
  - apply H2.
  - apply H3.
  - apply H4.
  - apply H5.
  - apply H6.
  - apply H7. induction qs as [|q qs IHq]; constructor; [apply IH|exact IHq].
  - apply H8; apply IH.
Qed.

Lemma all_some_None {A} (l : list (option A)) : all_some l = None -> None ∈ l.
Proof.
  induction l as [|[x|] l IH]; cbn; [done| |intros; apply elem_of_list_here].
  destruct (all_some l); [done|]. intros _. apply elem_of_list_further. by apply IH.
Qed.
Lemma all_some_Some {A} (l : list (option A)) r : all_some l = Some r <-> l = Some <$> r.
Proof.
  revert r. induction l as [|[x|] l IH]; intros r; cbn.
  - destruct r; cbn; split; congruence.
  - destruct (all_some l) as [r'|]; cbn.
    + split.
      * intros [= <-]. cbn. f_equal. by apply IH.
      * destruct r as [|y r]; cbn; [done|]. intros [= -> E]. apply IH in E. injection E as ->. done.
    + split; [done|]. destruct r as [|y r]; cbn; [done|]. intros [= -> E]. by apply IH in E.
  - split; [done|]. destruct r; done.
Qed.

(** ** Windows *)
Section win.
Context {V : Type}.
Record win_ok (w : window V) (ce : eid -> option (row V)) : Prop := {
  wo_none : ∀ e, gen e < U16_MAX -> ce e = None -> win_index_of w e = Ok None;
  wo_some : ∀ e r, ce e = Some r ->
    ∃ p, win_index_of w e = Ok (Some p) ∧ getN (ss_dense (wn_set w)) p = Some e;
  wo_row : ∀ p e, getN (ss_dense (wn_set w)) p = Some e ->
    gen e < U16_MAX ∧ ∃ r, ce e = Some r ∧ getN (ss_data (wn_set w)) p = Some (r_val r) ∧
      (ss_ti (wn_set w) = true -> getN (ss_ins (wn_set w)) p = Some (r_ins r)) ∧
      (ss_tm (wn_set w) = true -> getN (ss_mod (wn_set w)) p = Some (r_mod r));
  wo_nodup : NoDup (ss_dense (wn_set w));
  wo_len : lenN (ss_dense (wn_set w)) <= 2 ^ 48;
}.

(** The index of the window is that of the storage. *)
Lemma win_index_of_ok (w : window V) e :
  wn_sparse_len w = lenN (ss_sparse (wn_set w)) -> sa_wf (ss_sparse (wn_set w)) ->
  win_index_of w e = Ok (index_of (wn_set w) e).
Proof.
  intros Hl Hw. unfold win_index_of, index_of, sa_get. rewrite Hl.
  destruct (N.ltb_spec (bucket e) (lenN (ss_sparse (wn_set w)))) as [Hb|Hb].
  - destruct (getN_lt _ _ Hb) as [[b|] Hg]; rewrite Hg; [|done].
    assert (bucket_index e < lenN b) as Hi.
    { rewrite (Hw _ _ Hg). unfold bucket_index. by apply N.mod_lt. }
    destruct (getN_lt _ _ Hi) as [x ->]. done.
  - by rewrite (getN_ge _ _ Hb).
Qed.
Lemma NoDup_bounded (l : list eid) (b : N) :
  NoDup (l.*1) -> Forall (λ e, e.1 < b) l -> lenN l <= b.
Proof.
  intros Hd Hb. unfold lenN.
  assert (length (N.to_nat <$> l.*1) <= N.to_nat b)%nat.
  { rewrite <- (seq_length (N.to_nat b) 0). apply submseteq_length. apply NoDup_submseteq.
    - by apply (NoDup_fmap_2 _).
    - intros x Hx. rewrite !elem_of_list_fmap in Hx. destruct Hx as (y & -> & (e & -> & He)%elem_of_list_fmap).
      rewrite Forall_forall in Hb. apply elem_of_seq. specialize (Hb _ He). lia. }
  rewrite !fmap_length in H. lia.
Qed.
Lemma SI_idx_nodup (s : sset V) : SI s -> NoDup ((ss_dense s).*1) ∧ NoDup (ss_dense s) ∧ lenN (ss_dense s) <= 2 ^ 48.
Proof.
  intros H.
  assert (NoDup ((ss_dense s).*1)) as Hd.
  { apply NoDup_alt. intros m n x Hm Hn. rewrite list_lookup_fmap in Hm, Hn.
    destruct (ss_dense s !! m) as [e|] eqn:E1; [|done]. destruct (ss_dense s !! n) as [e'|] eqn:E2; [|done].
    cbn in Hm, Hn. injection Hm as <-. injection Hn as Hi.
    apply Nat2N.inj. eapply (si_inj s); [done| | |].
    - rewrite getN_lookup, Nat2N.id. exact E1.
    - rewrite getN_lookup, Nat2N.id. exact E2.
    - unfold idx. by rewrite Hi. }
  split; [done|]. split; [by eapply NoDup_fmap_1|].
  apply NoDup_bounded; [done|]. apply Forall_lookup. intros n e He.
  destruct (si_dense s H (N.of_nat n) e) as [_ [Hi _]].
  { by rewrite getN_lookup, Nat2N.id. }
  etrans; [exact Hi|]. done.
Qed.
Lemma win_ok_SR (w : window V) m ce :
  wn_sparse_len w = lenN (ss_sparse (wn_set w)) -> SI (wn_set w) -> SRows (wn_set w) m ->
  (∀ e, m !! e = ce e) -> win_ok w ce.
Proof.
  intros Hl HS HR Hc. destruct (SI_idx_nodup _ HS) as (_ & Hd & Hn).
  constructor; try done.
  - intros e Hg Hn'. rewrite win_index_of_ok by (try done; apply HS). f_equal.
    eapply index_of_None; [done..|]. by rewrite Hc.
  - intros e r He. rewrite <- Hc in He. destruct (index_of_Some _ _ _ _ HS HR He) as (p & E1 & E2 & _).
    exists p. rewrite win_index_of_ok by (try done; apply HS). by rewrite E1.
  - intros p e He. destruct (si_dense _ HS _ _ He) as [_ [_ Hg]]. split; [done|].
    destruct (sr_row _ _ HR _ _ He) as (r & Hr & Hrow). exists r. by rewrite <- Hc.
Qed.
End win.

(** ** Ships *)
Section ship.
Context {V : Type} (f10 f05 f12 f20 : N -> N).
Context (env : N -> window V) (c : eid -> N -> option (row V)).
Context (Henv : ∀ i, wn_id (env i) = i ∧ win_ok (env i) (λ e, c e i)).
Context (H10 : ∀ x m k, m <= 2 ^ 24 -> x <= m * 2 ^ k -> f10 x <= m * 2 ^ k) (H05 : ∀ x, f05 x <= x) (H12 : ∀ x, f12 x <= 4 * x) (H20 : ∀ x, f20 x <= 4 * x).
Implicit Types (s : ship V) (q : query).

Local Notation dense i := (ss_dense (wn_set (env i))).
Local Notation den := (denote c (λ i, wn_last_ins (env i)) (λ i, wn_last_mod (env i)) (λ i, wn_current (env i))).
Local Notation use := (usable (λ i, ss_ti (wn_set (env i))) (λ i, ss_tm (wn_set (env i)))).
Local Notation into := (into_ship f10 f05 f12 f20 env).
Local Notation stime := (sail_time f10 f05 f12 f20).

Definition has (i : N) : Prop := ∃ e, is_Some (c e i).
Definition good (e : eid) (o : out V) : Prop :=
  ∀ i p, (i, p) ∈ refs o -> getN (dense i) p = Some e.
Definition sail s (e : eid) (k : N) (oo : option (out V)) : Prop :=
  match oo with
  | None => indices_of s e k = Ok None
  | Some o => ∃ x, indices_of s e k = Ok (Some x) ∧ get_sailor s x = Ok o
  end.
Definition says (e : eid) (oo : option (out V)) (x : option (item V)) : Prop :=
  erase <$> oo = x ∧ ∀ o, oo = Some o -> good e o.
Definition sailor_ok s q : Prop :=
  ∀ e k, gen e < U16_MAX -> ∃ oo, sail s e k oo ∧ says e oo (den q e).

Definition slices (a : access) : list (list eid) := a.1 :: reverse a.2.*1.
Definition phase s n (sl : list eid) (f : eid -> option (item V)) : Prop :=
  NoDup sl ∧ ∀ k e, sl !! k = Some e -> gen e < U16_MAX ∧
    ∃ oo, sail (Nat.iter n next_slice s) e (N.of_nat k) oo ∧ says e oo (f e).
Record captain_ok s (len : N) (a : access) q (fs : list (eid -> option (item V))) : Prop := {
  co_len : len = lenN a.1;
  co_lens : Forall (λ f : list eid * N, f.2 = lenN f.1) a.2;
  co_fs : length fs = length (slices a);
  co_phase : ∀ n sl f, slices a !! n = Some sl -> fs !! n = Some f -> phase s n sl f;
  co_sound : ∀ n f e x, fs !! n = Some f -> f e = Some x -> den q e = Some x;
  co_cover : ∀ e x, den q e = Some x ->
    ∃ n sl f, slices a !! n = Some sl ∧ fs !! n = Some f ∧ e ∈ sl ∧ f e = Some x;
  co_apart : ∀ n m f g e x, n ≠ m -> fs !! n = Some f -> fs !! m = Some g -> f e = Some x -> g e = None;
  co_exact : is_exact s = true -> a.2 = [] ∧
    ∀ f k e, fs !! 0%nat = Some f -> a.1 !! k = Some e ->
      ∃ o x, get_captain s (N.of_nat k) = Ok o ∧ index_from s (N.of_nat k) = Ok x ∧
             get_sailor s x = Ok o ∧ says e (Some o) (f e);
}.
Definition bounded (r : res N) (n : N) : Prop := ∃ t, r = Ok t ∧ t <= n * 2 ^ 52.
Record ship_ok s (len : N) (a : access) q : Prop := {
  so_sailor : sailable q = true -> ∀ n, sailor_ok (Nat.iter n next_slice (unpick s)) q;
  so_captain : can_captain q = true -> ∃ fs, captain_ok s len a q fs;
  so_or_free : or_free q = true -> a.2 = [];
  so_time : light q = true -> size q <= 2 ^ 11 -> bounded (stime s) (size q) ∧ bounded (stime (unpick s)) (size q);
  so_full : can_captain q = true -> full has q -> len ≠ 0;
  so_stocked : can_captain q = true -> stocked has q -> Forall (λ f : list eid * N, f.2 ≠ 0) a.2;
}.

(** *** Generic facts *)
Lemma ship_ind' (P : ship V -> Prop) :
  (∀ w, P (SWin w)) -> (∀ l, P (SIds l)) -> (∀ w, P (SOpt w)) -> (∀ b w, P (SNot b w)) ->
  (∀ b k w, P (STrack b k w)) -> (∀ m ss, Forall P ss -> P (SMixed m ss)) ->
  (∀ a b x y, P a -> P b -> P (SOr a b x y)) -> ∀ s, P s.
Proof.
  intros H1 H2 H3 H4 H5 H6 H7. fix IH 1. intros [w|l|w|b w|b k w|m ss|a b x y].
  - apply H1.
  - apply H2.
  - apply H3.
  - apply H4.
  - apply H5.
  - apply H6. induction ss as [|s ss IHs]; constructor; [apply IH|exact IHs].
  - apply H7; apply IH.
Qed.
Lemma unpick_unpick s : unpick (unpick s) = unpick s.
Proof.
  induction s as [| | | | |m ss IH|a b x y IHa IHb] using ship_ind'; try done; cbn [unpick].
  - f_equal. rewrite <- list_fmap_compose. apply list_fmap_ext.
    intros i s Hs. rewrite Forall_lookup in IH. by apply (IH i).
  - by rewrite IHa, IHb.
Qed.
Lemma iter_S n s : Nat.iter (S n) next_slice s = next_slice (Nat.iter n next_slice s).
Proof. done. Qed.
Lemma iter_mixed n m (ss : list (ship V)) : Nat.iter n next_slice (SMixed m ss) = SMixed m (Nat.iter n next_slice <$> ss).
Proof.
  induction n as [|n IH].
  - cbn. by rewrite list_fmap_id.
  - rewrite iter_S, IH. cbn [next_slice]. by rewrite <- list_fmap_compose.
Qed.
Lemma iter_leaf n s : next_slice s = s -> Nat.iter n next_slice s = s.
Proof. intros E. induction n as [|n IH]; [done|]. by rewrite iter_S, IH. Qed.
Lemma iter_or n (a b : ship V) x y : Nat.iter (S n) next_slice (SOr a b x y) = SOr a b x true.
Proof. induction n as [|n IH]; [done|]. by rewrite iter_S, IH. Qed.

(** *** Leaves *)
Lemma env_none e i : gen e < U16_MAX -> c e i = None -> win_index_of (env i) e = Ok None.
Proof. intros Hg He. by apply (wo_none _ _ (proj2 (Henv i))). Qed.
Lemma env_some e i r :
  c e i = Some r -> ∃ p, win_index_of (env i) e = Ok (Some p) ∧ getN (dense i) p = Some e ∧
    get_unchecked (ss_data (wn_set (env i))) p = Ok (r_val r) ∧
    (∀ k, match k with MIns => ss_ti (wn_set (env i)) = true | MMod => ss_tm (wn_set (env i)) = true
          | MInsMod => ss_ti (wn_set (env i)) = true ∧ ss_tm (wn_set (env i)) = true end ->
       win_marked (env i) k p = Ok (marked (λ i, wn_last_ins (env i)) (λ i, wn_last_mod (env i)) (λ i, wn_current (env i)) k i r)).
Proof.
  intros He. destruct (Henv i) as [_ HW]. destruct (wo_some _ _ HW e r He) as (p & E1 & E2).
  destruct (wo_row _ _ HW p e E2) as (_ & r' & Hr' & E3 & E4 & E5).
  assert (r' = r) as -> by congruence.
  exists p. split_and!; [done|done|unfold get_unchecked; by rewrite E3|].
  assert (∀ t a b, is_within t a b = in_window t a b) as Hw.
  { intros t a b. unfold is_within, in_window. apply eq_true_iff_eq.
    rewrite andb_true_iff, N.ltb_lt, N.leb_le. by rewrite bool_decide_eq_true. }
  intros [] Ht; unfold win_marked, marked, get_unchecked.
  - rewrite (E4 Ht). cbn [rbind]. by rewrite Hw.
  - rewrite (E5 Ht). cbn [rbind]. by rewrite Hw.
  - destruct Ht as [T1 T2]. rewrite (E4 T1), (E5 T2). cbn [rbind]. rewrite !Hw. by destruct (in_window _ _ _).
Qed.
Lemma good_ref i p e v : getN (dense i) p = Some e -> good e (ORef (wn_id (env i)) p v).
Proof.
  intros He i' p' Hin. cbn in Hin. apply elem_of_list_singleton in Hin. injection Hin as -> ->.
  by rewrite (proj1 (Henv i)).
Qed.

Lemma sail_win e k i : gen e < U16_MAX ->
  ∃ oo, sail (SWin (env i)) e k oo ∧ says e oo ((λ r, IVal (r_val r)) <$> c e i).
Proof.
  intros Hg. destruct (c e i) as [r|] eqn:Ec.
  - destruct (env_some _ _ _ Ec) as (p & E1 & E2 & E3 & _).
    exists (Some (ORef (wn_id (env i)) p (r_val r))). split.
    + exists (XPos p). cbn [indices_of get_sailor]. unfold win_ref. rewrite E1, E3. done.
    + split; [done|]. intros o [= <-]. by apply good_ref.
  - exists None. split; [|by split]. cbn [sail indices_of]. by rewrite (env_none _ _ Hg Ec).
Qed.
Lemma sail_track e k i neg m : gen e < U16_MAX -> use (QTrack neg m i) ->
  ∃ oo, sail (STrack neg m (env i)) e k oo ∧ says e oo (den (QTrack neg m i) e).
Proof.
  intros Hg Hu. cbn [denote]. destruct (c e i) as [r|] eqn:Ec.
  - destruct (env_some _ _ _ Ec) as (p & E1 & E2 & E3 & E4). cbn [usable] in Hu.
    specialize (E4 m ltac:(by destruct m)).
    destruct (xorb neg _) eqn:EX.
    + exists (Some (ORef (wn_id (env i)) p (r_val r))). split.
      * exists (XPos p). cbn [indices_of get_sailor]. unfold win_ref. rewrite E1. cbn [rbind].
        rewrite E4. cbn [rbind]. by rewrite EX, E3.
      * split; [done|]. intros o [= <-]. by apply good_ref.
    + exists None. split; [|by split]. cbn [sail indices_of]. rewrite E1. cbn [rbind].
      rewrite E4. cbn [rbind]. by rewrite EX.
  - exists None. split; [|by split]. cbn [sail indices_of]. by rewrite (env_none _ _ Hg Ec).
Qed.
Lemma sail_opt e k i : gen e < U16_MAX ->
  ∃ oo, sail (SOpt (env i)) e k oo ∧ says e oo (den (QOpt i) e).
Proof.
  intros Hg. cbn [denote]. destruct (c e i) as [r|] eqn:Ec.
  - destruct (env_some _ _ _ Ec) as (p & E1 & E2 & E3 & _).
    exists (Some (OOpt (Some (wn_id (env i), p, r_val r)))). split.
    + exists (XOpt (Some p)). cbn [indices_of get_sailor]. rewrite E1, E3. done.
    + split; [done|]. intros o [= <-]. by apply (good_ref i p e (r_val r)).
  - exists (Some (OOpt None)). split.
    + exists (XOpt None). cbn [indices_of get_sailor]. by rewrite (env_none _ _ Hg Ec).
    + split; [done|]. intros o [= <-] i' p' Hin. by apply elem_of_nil in Hin.
Qed.
Lemma sail_not e k i b : gen e < U16_MAX ->
  ∃ oo, sail (SNot b (env i)) e k oo ∧ says e oo (den (QNot b i) e).
Proof.
  intros Hg. cbn [denote]. destruct (c e i) as [r|] eqn:Ec.
  - destruct (env_some _ _ _ Ec) as (p & E1 & _).
    exists None. split; [|by split]. cbn [sail indices_of]. by rewrite E1.
  - exists (Some OUnit). split.
    + exists (XPos USIZE_MAX). cbn [indices_of get_sailor]. by rewrite (env_none _ _ Hg Ec).
    + split; [done|]. intros o [= <-] i' p' Hin. by apply elem_of_nil in Hin.
Qed.

Lemma dense_gen i k e : dense i !! k = Some e -> gen e < U16_MAX.
Proof.
  intros He. apply (wo_row _ _ (proj2 (Henv i)) (N.of_nat k)). by rewrite getN_lookup, Nat2N.id.
Qed.
Lemma dense_has i e : is_Some (c e i) <-> e ∈ dense i.
Proof.
  destruct (Henv i) as [_ HW]. split.
  - intros [r Hr]. destruct (wo_some _ _ HW e r Hr) as (p & _ & E). rewrite getN_lookup in E.
    by eapply elem_of_list_lookup_2.
  - intros [k Hk]%elem_of_list_lookup. destruct (wo_row _ _ HW (N.of_nat k) e) as (_ & r & Hr & _).
    { by rewrite getN_lookup, Nat2N.id. }
    by exists r.
Qed.
(** A storage that drives. *)
Lemma leaf_captain s i q :
  next_slice s = s -> (∀ e k, gen e < U16_MAX -> ∃ oo, sail s e k oo ∧ says e oo (den q e)) ->
  (∀ e x, den q e = Some x -> is_Some (c e i)) ->
  (is_exact s = true -> s = SWin (env i) ∧ (q = QView i ∨ q = QMut i)) ->
  captain_ok s (lenN (dense i)) (dense i, []) q [den q].
Proof.
  intros HN HS HC HE. destruct (Henv i) as [Hid HW]. constructor; try done.
  - constructor.
  - intros n sl f Hsl Hf. destruct n as [|n]; [|by destruct n]. cbn in Hsl, Hf. injection Hsl as <-.
    injection Hf as <-. split; [apply HW|]. intros k e He. pose proof (dense_gen _ _ _ He) as Hg.
    split; [done|]. cbn [Nat.iter]. by apply HS.
  - intros n f e x Hf Hx. destruct n as [|n]; [|by destruct n]. by injection Hf as <-.
  - intros e x Hx. exists 0%nat, (dense i), (den q). split_and!; try done. apply dense_has. by eapply HC.
  - intros n m f g e x Hne Hf Hg. destruct n as [|n]; [|by destruct n]. destruct m as [|m]; [done|by destruct m].
  - intros Hex. split; [done|]. intros f k e Hf Hk. injection Hf as <-.
    destruct (HE Hex) as [-> Hq]. cbn in Hk.
    destruct (wo_row _ _ HW (N.of_nat k) e) as (_ & r & Hr & Hd & _).
    { by rewrite getN_lookup, Nat2N.id. }
    exists (ORef (wn_id (env i)) (N.of_nat k) (r_val r)), (XPos (N.of_nat k)).
    cbn [get_captain index_from get_sailor]. unfold win_ref, get_unchecked. rewrite Hd. split_and!; try done.
    split.
    + destruct Hq as [-> | ->]; cbn [denote]; by rewrite Hr.
    + intros o [= <-]. apply good_ref. by rewrite getN_lookup, Nat2N.id.
Qed.
Lemma has_len i : has i -> lenN (dense i) ≠ 0.
Proof.
  intros (e & He). apply dense_has in He. unfold lenN. destruct (dense i); [by apply elem_of_nil in He|].
  cbn. lia.
Qed.
Lemma dense_len i : lenN (dense i) <= 2 ^ 48.
Proof. apply (wo_len _ _ (proj2 (Henv i))). Qed.

(** *** Tuples *)
(** The loops of [SMixed], as functions of their own. *)
Section mix.
Context (mask : N) (e : eid) (k : N).
Fixpoint mix_idx (j : N) (ss : list (ship V)) : res (option (list index)) :=
  match ss with
  | [] => Ok (Some [])
  | s :: ss =>
      rlet o := (if N.testbit mask j then rlet x := index_from s k in Ok (Some x)
                 else indices_of s e k) in
      match o with
      | None => Ok None
      | Some x => rlet l := mix_idx (j + 1) ss in Ok (cons x <$> l)
      end
  end.
End mix.
Fixpoint mix_get (ss : list (ship V)) (l : list index) : res (list (out V)) :=
  match ss, l with
  | s :: ss, x :: l => rlet o := get_sailor s x in rlet r := mix_get ss l in Ok (o :: r)
  | _, _ => Ok []
  end.
Lemma indices_of_mixed mask ss e k :
  indices_of (SMixed mask ss) e k = rlet l := mix_idx mask e k 0 ss in Ok (XTup <$> l).
Proof. reflexivity. Qed.
Lemma get_sailor_mixed mask ss l :
  get_sailor (SMixed mask ss) (XTup l) = rlet r := mix_get ss l in Ok (OTup r).
Proof. reflexivity. Qed.
Definition memb (mask j : N) s e k (oo : option (out V)) : Prop :=
  if N.testbit mask j then ∃ x o, index_from s k = Ok x ∧ get_sailor s x = Ok o ∧ oo = Some o
  else sail s e k oo.
Lemma mixed_go mask e k ss : ∀ xs j,
  length ss = length xs ->
  (∀ n s x, ss !! n = Some s -> xs !! n = Some x ->
     ∃ oo, memb mask (j + N.of_nat n) s e k oo ∧ says e oo x) ->
  ∃ ol, mix_idx mask e k j ss = Ok ol ∧
    match ol with
    | None => all_some xs = None
    | Some l => ∃ os, mix_get ss l = Ok os ∧ all_some xs = Some (erase <$> os) ∧ Forall (good e) os
    end.
Proof.
  induction ss as [|s ss IH]; intros xs j HL HF.
  - destruct xs; [|done]. exists (Some []). split; [done|]. exists []. by split_and!.
  - destruct xs as [|x xs]; [done|]. injection HL as HL.
    destruct (HF 0%nat s x eq_refl eq_refl) as (oo & Hm & Hs1 & Hs2). rewrite N.add_0_r in Hm.
    destruct (IH xs (j + 1) HL) as (ol & E1 & Hol).
    { intros n s' x' H1 H2. replace (j + 1 + N.of_nat n) with (j + N.of_nat (S n)) by lia. by apply HF. }
    cbn [mix_idx]. unfold memb in Hm.
    assert (∃ o, (if N.testbit mask j then rlet x := index_from s k in Ok (Some x) else indices_of s e k) = Ok o ∧
      match o with Some ix => ∃ v, get_sailor s ix = Ok v ∧ oo = Some v | None => oo = None end) as (o & -> & Ho).
    { destruct (N.testbit mask j).
      - destruct Hm as (ix & v & -> & Hv & ->). exists (Some ix). split; [done|]. by exists v.
      - destruct oo as [v|]; cbn [sail] in Hm; [|by exists None].
        destruct Hm as (ix & -> & Hv). exists (Some ix). split; [done|]. by exists v. }
    cbn [rbind]. destruct o as [ix|].
    + destruct Ho as (v & Hv & ->). rewrite E1. cbn [rbind].
      exists (cons ix <$> ol). split; [done|]. cbn [fmap option_fmap option_map] in Hs1. subst x.
      destruct ol as [l|]; cbn [fmap option_fmap option_map].
      * destruct Hol as (os & G1 & G2 & G3). exists (v :: os). cbn [mix_get]. rewrite Hv. cbn [rbind].
        rewrite G1. split; [done|]. cbn [all_some]. rewrite G2. split; [done|].
        constructor; [|done]. by apply Hs2.
      * cbn [all_some]. by rewrite Hol.
    + subst oo. exists None. split; [done|]. cbn in Hs1. by subst x.
Qed.
Lemma sail_mixed mask ss e k xs :
  length ss = length xs ->
  (∀ n s x, ss !! n = Some s -> xs !! n = Some x ->
     ∃ oo, memb mask (N.of_nat n) s e k oo ∧ says e oo x) ->
  ∃ oo, sail (SMixed mask ss) e k oo ∧ says e oo (ITup <$> all_some xs).
Proof.
  intros HL HF. destruct (mixed_go mask e k ss xs 0 HL) as (ol & E & Hol); [exact HF|].
  destruct ol as [l|].
  - destruct Hol as (os & G1 & G2 & G3). exists (Some (OTup os)). split.
    + exists (XTup l). rewrite indices_of_mixed, get_sailor_mixed, E, G1. done.
    + split; [by rewrite G2|]. intros o [= <-] i p Hin. cbn [refs] in Hin.
      apply elem_of_list_bind in Hin as (o & Ho & Hin). rewrite Forall_forall in G3. by apply (G3 o Hin).
  - exists None. split; [cbn [sail]; by rewrite indices_of_mixed, E|]. by rewrite Hol.
Qed.
Lemma den_tuple qs e : den (QTuple qs) e = ITup <$> all_some ((λ q, den q e) <$> qs).
Proof. reflexivity. Qed.
(** A tuple that is looked up. *)
Lemma mixed_sailor mask ss qs n :
  mask = 0 -> length ss = length qs ->
  (∀ j s q, ss !! j = Some s -> qs !! j = Some q -> sailor_ok (Nat.iter n next_slice s) q) ->
  sailor_ok (Nat.iter n next_slice (SMixed mask ss)) (QTuple qs).
Proof.
  intros -> HL HS e k Hg. rewrite iter_mixed, den_tuple. apply sail_mixed.
  - by rewrite !fmap_length.
  - intros j s x Hs Hx. rewrite list_lookup_fmap in Hs. rewrite list_lookup_fmap in Hx.
    destruct (ss !! j) as [s0|] eqn:E1; [|done]. destruct (qs !! j) as [q0|] eqn:E2; [|done].
    cbn in Hs, Hx. injection Hs as <-. injection Hx as <-. unfold memb. rewrite N.bits_0.
    by apply (HS j s0 q0).
Qed.
(** The driver of a tuple. *)
Definition tuple_phase (qs : list query) (j : nat) (f : eid -> option (item V)) (e : eid) : option (item V) :=
  ITup <$> all_some (<[j := f e]> ((λ q, den q e) <$> qs)).
Lemma count_ones_pow j : (count_ones (2 ^ N.of_nat j) <= 1)%nat.
Proof.
  unfold count_ones.
  assert (∀ l, NoDup l -> (length (filter (λ j', N.testbit (2 ^ N.of_nat j) (N.of_nat j')) l) <= 1)%nat) as H.
  { induction l as [|x l IH]; intros Hd; [cbn; lia|]. inversion Hd; subst. rewrite filter_cons.
    destruct (decide _) as [Hx|_]; [|by apply IH]. cbn [length].
    assert (filter (λ j', N.testbit (2 ^ N.of_nat j) (N.of_nat j')) l = []) as ->; [|cbn; lia].
    destruct (filter _ l) as [|y l'] eqn:E; [done|]. exfalso.
    assert (y ∈ y :: l') as Hy by apply elem_of_list_here. rewrite <- E in Hy.
    apply elem_of_list_filter in Hy as [Hy Hyl].
    rewrite N.pow2_bits_eqb in Hx, Hy. apply Is_true_true, N.eqb_eq in Hx, Hy.
    assert (x = y) by lia. by subst. }
  apply H, NoDup_seq.
Qed.
Lemma mixed_captain (l : list (ship V * N * access)) qs j s len a q fs :
  length l = length qs -> l !! j = Some (s, len, a) -> qs !! j = Some q ->
  captain_ok s len a q fs ->
  (∀ j' x q', l !! j' = Some x -> qs !! j' = Some q' -> j' ≠ j ->
     ∀ n, sailor_ok (Nat.iter n next_slice (unpick x.1.1)) q') ->
  ∃ fs', captain_ok (settle l (Some j)).1.1 (settle l (Some j)).1.2 (settle l (Some j)).2 (QTuple qs) fs'.
Proof.
  intros HL Hj Hq HC HS.
  set (ss := imap (λ m (x : ship V * N * access), if decide (Some j = Some m) then x.1.1 else unpick x.1.1) l).
  set (mask := if is_exact s then 2 ^ N.of_nat j else 0).
  assert (settle l (Some j) = (SMixed mask ss, len, a)) as ->.
  { unfold settle. cbn [mbind option_bind]. rewrite Hj. done. }
  cbn [fst snd].
  assert (length ss = length qs) as HLs by (unfold ss; by rewrite imap_length).
  assert (ss !! j = Some s) as Hsj.
  { unfold ss. rewrite list_lookup_imap, Hj. cbn. by rewrite decide_True. }
  assert (∀ m s', ss !! m = Some s' -> m ≠ j -> ∃ x, l !! m = Some x ∧ s' = unpick x.1.1) as Hso.
  { intros m s' Hm Hne. unfold ss in Hm. rewrite list_lookup_imap in Hm.
    destruct (l !! m) as [x|]; [|done]. cbn in Hm. rewrite decide_False in Hm by congruence.
    injection Hm as <-. by exists x. }
  assert (∀ e x, tuple_phase qs j (λ _, x) e = None ∨ is_Some x) as _.
  { intros e x. destruct x; [by right|]. left. unfold tuple_phase. destruct (all_some _) as [r|] eqn:E; [|done].
    apply all_some_Some in E. apply (f_equal (lookup j)) in E. rewrite list_lookup_insert in E.
    2:{ rewrite fmap_length. by eapply lookup_lt_Some. }
    rewrite list_lookup_fmap in E. by destruct (r !! j). }
  (* what the phases of the driver give *)
  assert (∀ e f x, tuple_phase qs j f e = Some x -> is_Some (f e)) as Htp.
  { intros e f x. unfold tuple_phase. destruct (all_some _) as [r|] eqn:E; [|done]. intros _.
    apply all_some_Some in E. apply (f_equal (lookup j)) in E. rewrite list_lookup_insert in E.
    2:{ rewrite fmap_length. by eapply lookup_lt_Some. }
    rewrite list_lookup_fmap in E. destruct (r !! j); [|done]. injection E as ->. by eexists. }
  assert (∀ e f y, f e = Some y -> den q e = Some y -> tuple_phase qs j f e = den (QTuple qs) e) as Htd.
  { intros e f y E1 E2. unfold tuple_phase. rewrite den_tuple. do 2 f_equal. rewrite E1. apply list_insert_id.
    rewrite list_lookup_fmap, Hq. cbn. by rewrite E2. }
  exists (tuple_phase qs j <$> fs). constructor.
  - apply HC.
  - apply HC.
  - rewrite fmap_length. apply HC.
  - intros n sl f Hsl Hf. rewrite list_lookup_fmap in Hf. destruct (fs !! n) as [g|] eqn:Eg; [|done].
    cbn in Hf. injection Hf as <-. destruct (co_phase _ _ _ _ _ HC _ _ _ Hsl Eg) as [Hnd Hph].
    split; [done|]. intros k e Hk. destruct (Hph k e Hk) as (Hg & oo & Hsail & Hsays). split; [done|].
    rewrite iter_mixed. apply sail_mixed.
    { rewrite fmap_length, insert_length, fmap_length. done. }
    intros m s' x Hs' Hx. rewrite list_lookup_fmap in Hs'. destruct (ss !! m) as [s0|] eqn:E0; [|done].
    cbn in Hs'. injection Hs' as <-. destruct (decide (m = j)) as [->|Hne].
    + assert (s0 = s) as -> by congruence.
      rewrite list_lookup_insert in Hx by (rewrite fmap_length; by eapply lookup_lt_Some).
      injection Hx as <-. unfold memb, mask. destruct (is_exact s) eqn:Eex.
      * rewrite N.pow2_bits_eqb, N.eqb_refl. destruct (co_exact _ _ _ _ _ HC Eex) as [Ha Hx].
        assert (n = 0%nat) as ->.
        { apply lookup_lt_Some in Hsl. unfold slices in Hsl. rewrite Ha in Hsl. cbn in Hsl. lia. }
        injection Hsl as <-. destruct (Hx g k e Eg Hk) as (o & ix & G1 & G2 & G3 & G4).
        exists (Some o). split; [|done]. by exists ix, o.
      * rewrite N.bits_0. by exists oo.
    + rewrite list_lookup_insert_ne, list_lookup_fmap in Hx by done.
      destruct (qs !! m) as [q'|] eqn:Eq; [|done]. cbn in Hx. injection Hx as <-.
      destruct (Hso m s0 E0 Hne) as (x0 & Hx0 & ->).
      assert (N.testbit mask (N.of_nat m) = false) as Hbit.
      { unfold mask. destruct (is_exact s); [|apply N.bits_0]. rewrite N.pow2_bits_eqb.
        apply N.eqb_neq. lia. }
      unfold memb. rewrite Hbit. by apply (HS m x0 q').
  - intros n f e x Hf Hx. rewrite list_lookup_fmap in Hf. destruct (fs !! n) as [g|] eqn:Eg; [|done].
    cbn in Hf. injection Hf as <-. destruct (Htp _ _ _ Hx) as [y Hy].
    rewrite <- Hx. symmetry. eapply Htd; [done|]. by eapply (co_sound _ _ _ _ _ HC).
  - intros e x Hx. assert (∃ y, den q e = Some y) as [y Hy].
    { rewrite den_tuple in Hx. destruct (all_some _) as [r|] eqn:E; [|done].
      apply all_some_Some in E. apply (f_equal (lookup j)) in E. rewrite !list_lookup_fmap, Hq in E.
      cbn in E. destruct (r !! j) as [y|]; [|done]. exists y. by injection E. }
    destruct (co_cover _ _ _ _ _ HC e y Hy) as (n & sl & f & E1 & E2 & E3 & E4).
    exists n, sl, (tuple_phase qs j f). split_and!; [done|by rewrite list_lookup_fmap, E2|done|].
    rewrite <- Hx. by eapply Htd.
  - intros n m f g e x Hne Hf Hg Hx. rewrite list_lookup_fmap in Hf, Hg.
    destruct (fs !! n) as [f0|] eqn:Ef; [|done]. destruct (fs !! m) as [g0|] eqn:Eg; [|done].
    cbn in Hf, Hg. injection Hf as <-. injection Hg as <-.
    destruct (Htp _ _ _ Hx) as [y Hy].
    destruct (tuple_phase qs j g0 e) as [z|] eqn:Ez; [|done].
    destruct (Htp _ _ _ Ez) as [y' Hy'].
    rewrite (co_apart _ _ _ _ _ HC n m f0 g0 e y Hne Ef Eg Hy) in Hy'. done.
  - intros Hex. cbn [is_exact] in Hex. apply bool_decide_eq_true in Hex.
    assert (length ss = 1%nat ∧ j = 0%nat ∧ is_exact s = true) as (Hl1 & -> & Hes).
    { apply lookup_lt_Some in Hsj. unfold mask in Hex. destruct (is_exact s) eqn:E.
      - pose proof (count_ones_pow j). lia.
      - change (count_ones 0) with 0%nat in Hex. lia. }
    destruct ss as [|s1 [|]]; try done. injection Hsj as ->.
    destruct qs as [|q1 [|]]; try done. injection Hq as ->.
    destruct (co_exact _ _ _ _ _ HC Hes) as [Ha Hx]. split; [done|].
    intros f k e Hf Hk. rewrite list_lookup_fmap in Hf. destruct (fs !! 0%nat) as [g|] eqn:Eg; [|done].
    cbn in Hf. injection Hf as <-. destruct (Hx g k e eq_refl Hk) as (o & ix & G1 & G2 & G3 & G4 & G5).
    exists (OTup [o]), (XTup [ix]). cbn [get_captain index_from get_sailor]. rewrite G1, G2, G3.
    split_and!; try done. split.
    + unfold tuple_phase. cbn. cbn in G4. by rewrite <- G4.
    + intros ? [= <-] i p Hin. cbn [refs] in Hin. rewrite bind_singleton in Hin. by apply (G5 o).
Qed.

(** *** Sail times *)
Section mix_time.
Context (mask : N).
Fixpoint mix_time (j acc : N) (ss : list (ship V)) : res N :=
  match ss with
  | [] => Ok acc
  | s :: ss =>
      rlet t := stime s in
      rlet acc := usize_add acc (if N.testbit mask j then f10 t else f05 t) in
      mix_time (j + 1) acc ss
  end.
End mix_time.
Lemma sail_time_mixed mask ss : stime (SMixed mask ss) = mix_time mask 0 0 ss.
Proof. reflexivity. Qed.
Definition sum (l : list N) : N := foldr N.add 0 l.
Lemma mix_time_ok mask ss ns :
  Forall2 (λ s n, bounded (stime s) n) ss ns -> ∀ j acc m,
  acc <= m * 2 ^ 52 -> m + sum ns <= 2 ^ 11 ->
  bounded (mix_time mask j acc ss) (m + sum ns).
Proof.
  induction 1 as [|s n ss ns (t & Ht & Hb) HF IH]; intros j acc m Hacc Hm.
  - exists acc. split; [done|]. cbn. lia.
  - cbn [mix_time]. rewrite Ht. cbn [rbind]. cbn [sum foldr] in *. change (foldr N.add 0 ns) with (sum ns) in *.
    set (u := if N.testbit mask j then f10 t else f05 t).
    assert (u <= n * 2 ^ 52) as Hu.
    { unfold u. destruct (N.testbit mask j).
      - apply H10; [|done]. change (2 ^ 24) with 16777216. change (2 ^ 11) with 2048 in Hm. lia.
      - etrans; [apply H05|done]. }
    assert (acc + u <= (m + n) * 2 ^ 52) as Ha by lia.
    assert ((m + n) * 2 ^ 52 <= 2 ^ 11 * 2 ^ 52) by (apply N.mul_le_mono_r; lia).
    unfold usize_add. assert (acc + u <=? USIZE_MAX = true) as ->.
    { apply N.leb_le. unfold USIZE_MAX. change (2 ^ 11 * 2 ^ 52) with (2 ^ 63) in *. lia. }
    cbn [rbind]. destruct (IH (j + 1) (acc + u) (m + n) Ha ltac:(lia)) as (t' & E & Hle).
    exists t'. split; [done|]. by rewrite <- N.add_assoc in Hle.
Qed.
Lemma bounded_weaken r n m : bounded r n -> n <= m -> bounded r m.
Proof. intros (t & E & Ht) Hle. exists t. split; [done|]. etrans; [exact Ht|]. by apply N.mul_le_mono_r. Qed.

(** *** Or *)
Lemma or_captain sa sb la lb i ab a b f :
  has_bitor a = true -> next_slice sa = sa ->
  (∀ e k, gen e < U16_MAX -> ∃ oo, sail sa e k oo ∧ says e oo (den a e)) ->
  (∀ e x, den a e = Some x -> is_Some (c e i)) -> la = lenN (dense i) ->
  captain_ok sb lb (ab, []) b [f] ->
  captain_ok (SOr sa sb true false) la (dense i, [(ab, lb)]) (QOr a b)
    [λ e, IOne <$> den a e; λ e, match den a e with Some _ => None | None => ITwo <$> f e end].
Proof.
  intros Hbo HN HS HC -> HB. constructor; try done.
  - constructor; [|constructor]. apply HB.
  - intros n sl g Hsl Hg. destruct n as [|[|n]]; [| |by destruct n].
    + injection Hsl as <-. injection Hg as <-. split; [apply (Henv i)|].
      intros k e He. pose proof (dense_gen _ _ _ He) as Hge. split; [done|].
      change (Nat.iter 0 next_slice (SOr sa sb true false)) with (SOr sa sb true false).
      destruct (HS e (N.of_nat k) Hge) as (oo & Hsail & Hs1 & Hs2). exists (OOne <$> oo). split.
      * destruct oo as [o|]; cbn [fmap option_fmap option_map sail] in *.
        -- destruct Hsail as (x & E1 & E2). exists (XOne x). cbn [indices_of get_sailor]. by rewrite E1, E2.
        -- cbn [indices_of]. by rewrite Hsail.
      * rewrite <- Hs1. split; [by destruct oo|]. intros o Ho.
        destruct oo as [o'|]; [|done]. injection Ho as <-. intros i' p Hin. by apply (Hs2 o').
    + injection Hsl as <-. injection Hg as <-.
      destruct (co_phase _ _ _ _ _ HB 0%nat ab f eq_refl eq_refl) as [Hnd Hph].
      split; [done|]. intros k e He. destruct (Hph k e He) as (Hge & oo & Hsail & Hs1 & Hs2).
      split; [done|]. rewrite iter_or. change (Nat.iter 0 next_slice sb) with sb in Hsail.
      destruct (HS e 0 Hge) as (oa & Hsa & Ha1 & _).
      destruct oo as [o|]; cbn [sail] in Hsail.
      * destruct Hsail as (x & E1 & E2). destruct oa as [o'|]; cbn [sail] in Hsa.
        -- exists None. split.
           ++ destruct Hsa as (x' & E3 & _). cbn [sail indices_of]. rewrite E1. cbn [rbind]. by rewrite E3.
           ++ rewrite <- Ha1. by split.
        -- exists (Some (OTwo o)). split.
           ++ exists (XTwo x). cbn [indices_of get_sailor]. rewrite E1. cbn [rbind]. by rewrite Hsa, E2.
           ++ rewrite <- Ha1, <- Hs1. split; [done|]. intros ? [= <-] i' p Hin. by apply (Hs2 o).
      * exists None. split; [cbn [sail indices_of]; by rewrite Hsail|].
        rewrite <- Hs1. split; [|done]. by destruct (den a e).
  - intros n g e x Hg Hx. cbn [denote]. destruct n as [|[|n]]; [| |by destruct n]; injection Hg as <-.
    + destruct (den a e); [done|]. done.
    + destruct (den a e); [done|]. destruct (f e) as [y|] eqn:Ef; [|done].
      by rewrite (co_sound _ _ _ _ _ HB 0%nat f e y eq_refl Ef).
  - intros e x Hx. cbn [denote] in Hx. destruct (den a e) as [y|] eqn:Ea.
    + exists 0%nat, (dense i). eexists. split_and!; [done|done| |]; [|by cbn; rewrite Ea].
      apply dense_has. by eapply HC.
    + destruct (den b e) as [y|] eqn:Eb; [|done].
      destruct (co_cover _ _ _ _ _ HB e y Eb) as (n & sl & g & E1 & E2 & E3 & E4).
      destruct n as [|n]; [|by destruct n]. injection E1 as <-. injection E2 as <-.
      exists 1%nat, ab. eexists. split_and!; [done|done|done|]. cbn. by rewrite Ea, E4.
  - intros n m g h e x Hne Hg Hh Hx. destruct n as [|[|n]]; [| |by destruct n]; injection Hg as <-;
      (destruct m as [|[|m]]; [| |by destruct m]); injection Hh as <-; try done.
    + destruct (den a e); done.
    + destruct (den a e); done.
Qed.
Lemma or_sailor sa sb a b p :
  sailor_ok sa a -> sailor_ok sb b -> sailor_ok (SOr sa sb false p) (QOr a b).
Proof.
  intros HA HB e k Hg. destruct (HA e k Hg) as (oa & SA & A1 & A2), (HB e k Hg) as (ob & SB & B1 & B2).
  cbn [denote]. rewrite <- A1, <- B1. unfold sail, says in *. cbn [indices_of].
  destruct oa as [o|].
  - destruct SA as (x & E1 & E2). exists (Some (OOne o)). split.
    + exists (XOne x). cbn [get_sailor]. rewrite E1, E2. cbn [rbind]. destruct ob as [o'|].
      * destruct SB as (y & E3 & _). by rewrite E3.
      * by rewrite SB.
    + split; [done|]. intros ? [= <-] i p' Hin. by apply (A2 o).
  - rewrite SA. cbn [rbind]. destruct ob as [o'|].
    + destruct SB as (y & E3 & E4). exists (Some (OTwo o')). split.
      * exists (XTwo y). cbn [get_sailor]. rewrite E3, E4. done.
      * split; [done|]. intros ? [= <-] i p' Hin. by apply (B2 o').
    + exists None. by rewrite SB.
Qed.

(** *** The choice of the driver *)
Lemma pick_min_ok l : ∀ j best min,
  (∃ n t, l !! n = Some (true, t) ∧ t < min) ->
  ∃ n t, pick_min j l best min = Some (j + n)%nat ∧ l !! n = Some (true, t).
Proof.
  induction l as [|[can t] l IH]; intros j best min (n & t' & Hn & Ht); [by destruct n|].
  cbn [pick_min].
  assert (∀ best m, (∃ n t, l !! n = Some (true, t) ∧ t < m) ∨ best = Some j ∧ can = true ->
    ∃ n t0, pick_min (S j) l best m = Some (j + n)%nat ∧ ((can, t) :: l) !! n = Some (true, t0)) as HX.
  { intros best' m [HE|[-> ->]].
    - destruct (IH (S j) best' m HE) as (n' & t'' & E1 & E2). exists (S n'), t''. rewrite E1.
      split; [f_equal; lia|done].
    - destruct (existsb (λ x, x.1 && (x.2 <? m)) l) eqn:EX.
      + apply existsb_exists in EX as ([c0 t0] & Hin & Hb). cbn in Hb. apply andb_true_iff in Hb as [-> Hlt].
        apply elem_of_list_In, elem_of_list_lookup in Hin as [n' Hn'].
        destruct (IH (S j) (Some j) m) as (n2 & t2 & E1 & E2).
        { exists n', t0. split; [done|]. by apply N.ltb_lt. }
        exists (S n2), t2. rewrite E1. split; [f_equal; lia|done].
      + assert (∀ j' b, pick_min j' l b m = b) as ->.
        { clear -EX. revert EX. induction l as [|[c0 t0] l IH]; intros EX j' b; [done|].
          cbn in EX. apply orb_false_iff in EX as [E1 E2]. cbn [pick_min]. rewrite E1. by apply IH. }
        exists 0%nat, t. split; [f_equal; lia|done]. }
  destruct can; cbn [andb].
  - destruct (N.ltb_spec t min) as [Hlt|Hge].
    + apply HX. by right.
    + apply HX. left. destruct n as [|n]; [cbn in Hn; injection Hn as ->; lia|]. by exists n, t'.
  - apply HX. left. destruct n as [|n]; [done|]. by exists n, t'.
Qed.
Lemma pick_unable_ok l : ∀ j, false ∈ l -> ∃ n, pick_unable j l = Some (j + n)%nat ∧ l !! n = Some false.
Proof.
  induction l as [|b l IH]; intros j Hin; [by apply elem_of_nil in Hin|]. cbn [pick_unable].
  destruct b.
  - apply elem_of_cons in Hin as [?|Hin]; [done|]. destruct (IH (S j) Hin) as (n & E1 & E2).
    exists (S n). rewrite E1. split; [f_equal; lia|done].
  - exists 0%nat. split; [f_equal; lia|done].
Qed.
Lemma one_false (l : list bool) n m :
  (length (filter (λ b, b = false) l) <= 1)%nat -> l !! n = Some false -> l !! m = Some false -> n = m.
Proof.
  revert n m. induction l as [|b l IH]; intros n m Hle Hn Hm; [by destruct n|].
  rewrite filter_cons in Hle.
  assert (b = false -> ∀ k, l !! k = Some false -> False) as HX.
  { intros -> k Hk. rewrite decide_True in Hle by done. cbn [length] in Hle.
    assert (false ∈ filter (λ b, b = false) l) as Hin.
    { apply elem_of_list_filter. split; [done|]. by eapply elem_of_list_lookup_2. }
    destruct (filter _ l); [by apply elem_of_nil in Hin|]. cbn in Hle. lia. }
  destruct n as [|n], m as [|m]; cbn in Hn, Hm.
  - done.
  - injection Hn as ->. exfalso. by eapply HX.
  - injection Hm as ->. exfalso. by eapply HX.
  - f_equal. apply IH; try done. destruct (decide (b = false)); [cbn in Hle; lia|done].
Qed.

(** *** Every usable query *)
Fixpoint into_list (qs : list query) : res (list (ship V * N * access)) :=
  match qs with
  | [] => Ok []
  | q :: qs => rlet x := into q in rlet l := into_list qs in Ok (x :: l)
  end.
Lemma into_tuple qs :
  into (QTuple qs) =
      rlet l := into_list qs in
      let sailors := can_sailor <$> qs in
      let unable := length (filter (λ b, b = false) sailors) in
      if negb (existsb can_captain qs) then Panic
      else if existsb (λ q, negb (can_captain q) && negb (can_sailor q)) qs then Panic
      else if (1 <? unable)%nat then Panic
      else
        rlet ts := sail_times f10 f05 f12 f20 (l.*1.*1) in
        if (unable =? 1)%nat then Ok (settle l (pick_unable 0 sailors))
        else Ok (settle l (pick_min 0 (zip (can_captain <$> qs) ts) None USIZE_MAX)).
Proof. reflexivity. Qed.
Lemma size_pos q : 1 <= size q.
Proof.
  induction q as [| | | | | |qs IH|a b IHa IHb] using query_ind'; cbn; try lia.
  clear IH. induction qs as [|q qs IH]; cbn; lia.
Qed.
Lemma size_tuple qs : size (QTuple qs) = sum (size <$> qs) + 1.
Proof. cbn [size]. induction qs as [|q qs IH]; cbn; [done|]. unfold sum in IH. cbn in IH. rewrite IH. lia. Qed.
Lemma leaf_time s i q :
  size q = 1 -> unpick s = s ->
  (∃ t, stime s = Ok t ∧ t <= 16 * lenN (dense i)) ->
  bounded (stime s) (size q) ∧ bounded (stime (unpick s)) (size q).
Proof.
  intros -> Hu (t & E & Ht). rewrite Hu. pose proof (dense_len i).
  assert (bounded (stime s) 1) by (exists t; split; [done|]; change (2 ^ 52) with (16 * 2 ^ 48); lia).
  done.
Qed.

Lemma leaf_ship s i q :
  next_slice s = s -> unpick s = s -> size q = 1 ->
  (∀ e k, gen e < U16_MAX -> ∃ oo, sail s e k oo ∧ says e oo (den q e)) ->
  (can_captain q = true -> (∀ e x, den q e = Some x -> is_Some (c e i)) ∧
     (is_exact s = true -> s = SWin (env i) ∧ (q = QView i ∨ q = QMut i))) ->
  (light q = true -> ∃ t, stime s = Ok t ∧ t <= 16 * lenN (dense i)) ->
  (full has q -> has i) -> (stocked has q <-> True) ->
  ship_ok s (lenN (dense i)) (dense i, []) q.
Proof.
  intros HN HU H1 HS HC HT Hfull Hst. constructor.
  - intros _ n. rewrite HU, iter_leaf by done. exact HS.
  - intros Hc. destruct (HC Hc) as [C1 C2]. eexists. by apply leaf_captain.
  - done.
  - intros Hl _. apply (leaf_time s i); try done. by apply HT.
  - intros _ Hf%Hfull. by apply has_len.
  - intros _ _. constructor.
Qed.
Lemma full_tuple qs : full has (QTuple qs) <-> Forall (full has) qs.
Proof. cbn [full]. induction qs as [|q qs IH]; [by split|]. rewrite Forall_cons. by rewrite IH. Qed.
Lemma stocked_tuple qs : stocked has (QTuple qs) <-> Forall (stocked has) qs.
Proof. cbn [stocked]. induction qs as [|q qs IH]; [by split|]. rewrite Forall_cons. by rewrite IH. Qed.
Lemma use_tuple qs :
  use (QTuple qs) <-> Forall use qs ∧
      Forall (λ q, (light q = true ∨ ∃ i, q = QNot true i) ∧ (can_sailor q = true -> sailable q = true) ∧
                   (can_captain q = true ∨ can_sailor q = true)) qs ∧
      Exists (λ q, can_captain q = true) qs ∧
      (length (filter (λ q, can_sailor q = false) qs) <= 1)%nat.
Proof.
  cbn [usable].
  assert ((fix all qs := match qs with [] => True | q :: qs => use q ∧ all qs end) qs <-> Forall use qs) as ->; [|done].
  induction qs as [|q qs IH]; [by split|]. rewrite Forall_cons. by rewrite IH.
Qed.
Lemma sum_elem (l : list N) x : x ∈ l -> x <= sum l.
Proof.
  induction l as [|y l IH]; intros Hin; [by apply elem_of_nil in Hin|]. cbn.
  apply elem_of_cons in Hin as [-> |Hin]; [lia|]. specialize (IH Hin). unfold sum in IH. lia.
Qed.
Definition made (x : ship V * N * access) q : Prop := into q = Ok x ∧ ship_ok x.1.1 x.1.2 x.2 q.
Lemma into_list_ok qs :
  Forall (λ q, ∃ x, made x q) qs -> ∃ l, into_list qs = Ok l ∧ Forall2 made l qs.
Proof.
  induction 1 as [|q qs (x & Hx) HF (l & E & Hl)].
  - exists []. split; [done|constructor].
  - exists (x :: l). cbn [into_list]. rewrite (proj1 Hx), E. split; [done|by constructor].
Qed.
Lemma sail_times_ok l qs :
  Forall2 made l qs -> Forall (λ q, (light q = true ∨ ∃ i, q = QNot true i) ∧ size q <= 2 ^ 11) qs ->
  ∃ ts, sail_times f10 f05 f12 f20 (l.*1.*1) = Ok ts ∧
    Forall2 (λ t q, light q = true -> t <= size q * 2 ^ 52) ts qs.
Proof.
  induction 1 as [|x q l qs [Hx1 Hx2] HF IH]; intros HL.
  - exists []. split; [done|constructor].
  - inversion HL as [|? ? [Hq Hsz] HL']; subst. destruct (IH HL') as (ts & E & Hts).
    assert (∃ t, stime x.1.1 = Ok t ∧ (light q = true -> t <= size q * 2 ^ 52)) as (t & Et & Ht).
    { destruct Hq as [Hl|(i & ->)].
      - destruct (so_time _ _ _ _ Hx2 Hl Hsz) as [(t & Et & Ht) _]. by exists t.
      - cbn [into_ship] in Hx1. injection Hx1 as <-. exists USIZE_MAX. done. }
    exists (t :: ts). rewrite !fmap_cons. cbn [sail_times]. rewrite Et. cbn [rbind]. rewrite E.
    split; [done|by constructor].
Qed.
Lemma made_tuple qs :
  use (QTuple qs) -> size (QTuple qs) <= 2 ^ 11 -> Forall (λ q, ∃ x, made x q) qs ->
  ∃ x, made x (QTuple qs).
Proof.
  intros Hu Hsz HF. apply use_tuple in Hu as (Hu1 & Hu2 & Hu3 & Hu4).
  rewrite size_tuple in Hsz.
  destruct (into_list_ok qs HF) as (l & El & Hl).
  assert (length l = length qs) as HLen by (by eapply Forall2_length).
  destruct (sail_times_ok l qs Hl) as (ts & Et & Hts).
  { apply Forall_forall. intros q Hq. rewrite Forall_forall in Hu2. split; [apply Hu2, Hq|].
    assert (size q ∈ size <$> qs) as Hin by (by apply elem_of_list_fmap_1). apply sum_elem in Hin. lia. }
  assert (∃ j q, qs !! j = Some q ∧ can_captain q = true ∧ into (QTuple qs) = Ok (settle l (Some j)) ∧
    ∀ j' q', qs !! j' = Some q' -> j' ≠ j -> sailable q' = true) as (j & q & Hq & Hcap & Einto & Hoth).
  { rewrite into_tuple, El. cbn [rbind]. cbv zeta.
    assert (existsb can_captain qs = true) as ->.
    { apply existsb_exists. apply Exists_exists in Hu3 as (q & Hin & Hc). exists q. by rewrite <- elem_of_list_In. }
    assert (existsb (λ q, negb (can_captain q) && negb (can_sailor q)) qs = false) as ->.
    { apply Bool.not_true_iff_false. intros (q & Hin & Hb)%existsb_exists. apply elem_of_list_In in Hin.
      rewrite Forall_forall in Hu2. destruct (Hu2 q Hin) as (_ & _ & [Hc|Hc]); rewrite Hc in Hb; [done|].
      by rewrite andb_false_r in Hb. }
    cbn [negb].
    assert (length (filter (λ b, b = false) (can_sailor <$> qs)) =
            length (filter (λ q, can_sailor q = false) qs)) as Hun.
    { clear. induction qs as [|q qs IH]; [done|]. rewrite fmap_cons, !filter_cons.
      destruct (decide (can_sailor q = false)); cbn [length]; by rewrite IH. }
    rewrite Hun. destruct (Nat.ltb_spec 1 (length (filter (λ q, can_sailor q = false) qs))) as [Hlt|_]; [lia|].
    rewrite Et. cbn [rbind].
    destruct (Nat.eqb_spec (length (filter (λ q, can_sailor q = false) qs)) 1) as [H1|H1].
    - assert (false ∈ can_sailor <$> qs) as Hin.
      { destruct (filter (λ q, can_sailor q = false) qs) as [|q l'] eqn:Ef; [done|].
        assert (q ∈ q :: l') as Hin by apply elem_of_list_here. rewrite <- Ef in Hin.
        apply elem_of_list_filter in Hin as [Hcs Hin]. apply elem_of_list_fmap. by exists q. }
      destruct (pick_unable_ok _ 0%nat Hin) as (j & E1 & E2). rewrite list_lookup_fmap in E2.
      destruct (qs !! j) as [q|] eqn:Eq; [|done]. cbn in E2. injection E2 as Hcs.
      exists j, q. split_and!; [done| |by rewrite E1|].
      + rewrite Forall_lookup in Hu2. destruct (Hu2 j q Eq) as (_ & _ & [Hc|Hc]); [done|congruence].
      + intros j' q' Hj' Hne. rewrite Forall_lookup in Hu2. destruct (Hu2 j' q' Hj') as (_ & Hs & _).
        destruct (can_sailor q') eqn:Ecs; [by apply Hs|]. exfalso. apply Hne.
        apply (one_false (can_sailor <$> qs)); [by rewrite Hun| |].
        * rewrite list_lookup_fmap, Hj'. cbn. by rewrite Ecs.
        * rewrite list_lookup_fmap, Eq. cbn. by rewrite Hcs.
    - assert (filter (λ q, can_sailor q = false) qs = []) as H0.
      { destruct (filter (λ q, can_sailor q = false) qs) as [|? [|]]; cbn in *; [done|done|lia]. }
      destruct (pick_min_ok (zip (can_captain <$> qs) ts) 0%nat None USIZE_MAX) as (j & t & E1 & E2).
      { apply Exists_exists in Hu3 as (q & Hin & Hc). apply elem_of_list_lookup in Hin as [j Hj].
        destruct (Forall2_lookup_r _ _ _ _ _ Hts Hj) as (t & Hjt & Ht).
        exists j, t. split.
        - apply lookup_zip_with_Some. exists true, t. rewrite list_lookup_fmap, Hj. cbn. by rewrite Hc.
        - rewrite Forall_lookup in Hu2. destruct (Hu2 j q Hj) as ([Hli|(i & ->)] & _); [|done].
          specialize (Ht Hli).
          assert (size q ∈ size <$> qs) as Hin by (apply elem_of_list_fmap_1; by eapply elem_of_list_lookup_2).
          apply sum_elem in Hin.
          assert (size q * 2 ^ 52 <= 2 ^ 11 * 2 ^ 52) by (apply N.mul_le_mono_r; lia).
          unfold USIZE_MAX. change (2 ^ 11 * 2 ^ 52) with (2 ^ 63) in *. lia. }
      apply lookup_zip_with_Some in E2 as (can & t' & Ec & E3 & _). injection Ec as <- <-.
      rewrite list_lookup_fmap in E3. destruct (qs !! j) as [q|] eqn:Eq; [|done]. cbn in E3. injection E3 as Hc.
      exists j, q. split_and!; [done|done|by rewrite E1|].
      intros j' q' Hj' _. rewrite Forall_lookup in Hu2. destruct (Hu2 j' q' Hj') as (_ & Hs & _). apply Hs.
      destruct (can_sailor q') eqn:Ecs; [done|]. exfalso.
      assert (q' ∈ filter (λ q, can_sailor q = false) qs) as Hin.
      { apply elem_of_list_filter. split; [done|]. by eapply elem_of_list_lookup_2. }
      rewrite H0 in Hin. by apply elem_of_nil in Hin. }
  destruct (Forall2_lookup_r _ _ _ _ _ Hl Hq) as ([[s len] a] & Hlj & Hmade).
  exists (settle l (Some j)). split; [done|].
  assert (settle l (Some j) = (SMixed (if is_exact s then 2 ^ N.of_nat j else 0)
    (imap (λ m x, if decide (Some j = Some m) then x.1.1 else unpick x.1.1) l), len, a)) as Eset.
  { unfold settle. cbn [mbind option_bind]. by rewrite Hlj. }
  assert (unpick <$> imap (λ m (x : ship V * N * access), if decide (Some j = Some m) then x.1.1 else unpick x.1.1) l =
    (λ x : ship V * N * access, unpick x.1.1) <$> l) as Hup.
  { rewrite fmap_imap. apply list_eq. intros m. rewrite list_lookup_imap, list_lookup_fmap.
    destruct (l !! m) as [x|]; [|done]. cbn. destruct (decide _); [done|]. by rewrite unpick_unpick. }
  constructor.
  - intros Hsail n. rewrite Eset. cbn [fst snd unpick]. rewrite Hup.
    apply mixed_sailor; [done|by rewrite fmap_length|].
    intros m s' q' Hm Hq'. rewrite list_lookup_fmap in Hm. destruct (l !! m) as [x|] eqn:Ex; [|done].
    cbn in Hm. injection Hm as <-. destruct (Forall2_lookup_lr _ _ _ _ _ _ Hl Ex Hq') as [_ Hok].
    apply (so_sailor _ _ _ _ Hok). cbn [sailable] in Hsail. rewrite forallb_forall in Hsail. apply Hsail.
    apply elem_of_list_In. by eapply elem_of_list_lookup_2.
  - intros _. destruct Hmade as [_ Hok]. destruct (so_captain _ _ _ _ Hok Hcap) as [fs Hfs].
    eapply mixed_captain; [done|done|done|exact Hfs|].
    intros j' x q' Hx Hq' Hne n. destruct (Forall2_lookup_lr _ _ _ _ _ _ Hl Hx Hq') as [_ Hok'].
    apply (so_sailor _ _ _ _ Hok'). by eapply Hoth.
  - intros Hof. rewrite Eset. cbn [snd]. destruct Hmade as [_ Hok].
    apply (so_or_free _ _ _ _ Hok). cbn [or_free] in Hof. rewrite forallb_forall in Hof. apply Hof.
    apply elem_of_list_In. by eapply elem_of_list_lookup_2.
  - intros Hli _. rewrite Eset. cbn [fst unpick]. rewrite !sail_time_mixed, size_tuple.
    rewrite Hup.
    assert (∀ m x q', l !! m = Some x -> qs !! m = Some q' ->
      bounded (stime x.1.1) (size q') ∧ bounded (stime (unpick x.1.1)) (size q')) as HB.
    { intros m x q' Hx Hq'. destruct (Forall2_lookup_lr _ _ _ _ _ _ Hl Hx Hq') as [_ Hok'].
      apply (so_time _ _ _ _ Hok').
      - cbn [light] in Hli. rewrite forallb_forall in Hli. apply Hli. apply elem_of_list_In.
        by eapply elem_of_list_lookup_2.
      - assert (size q' ∈ size <$> qs) as Hin by (apply elem_of_list_fmap_1; by eapply elem_of_list_lookup_2).
        apply sum_elem in Hin. lia. }
    assert (∀ mask ss, length ss = length qs -> (∀ m s' q', ss !! m = Some s' -> qs !! m = Some q' ->
      bounded (stime s') (size q')) -> bounded (mix_time mask 0 0 ss) (sum (size <$> qs) + 1)) as HM.
    { intros mask ss HLs HBs. apply (bounded_weaken _ (0 + sum (size <$> qs))); [|lia].
      apply mix_time_ok; [|lia|lia]. apply Forall2_fmap_r. apply Forall2_lookup. intros m.
      destruct (ss !! m) as [s'|] eqn:Es, (qs !! m) as [q'|] eqn:Eq.
      - constructor. by eapply HBs.
      - apply lookup_lt_Some in Es. apply lookup_ge_None in Eq. lia.
      - apply lookup_lt_Some in Eq. apply lookup_ge_None in Es. lia.
      - constructor. }
    split; apply HM.
    + by rewrite imap_length.
    + intros m s' q' Hs' Hq'. rewrite list_lookup_imap in Hs'. destruct (l !! m) as [x|] eqn:Ex; [|done].
      cbn in Hs'. injection Hs' as <-. destruct (HB m x q' Ex Hq'). by destruct (decide _).
    + by rewrite fmap_length.
    + intros m s' q' Hs' Hq'. rewrite list_lookup_fmap in Hs'. destruct (l !! m) as [x|] eqn:Ex; [|done].
      cbn in Hs'. injection Hs' as <-. by destruct (HB m x q' Ex Hq').
  - intros _ Hf. rewrite Eset. cbn [fst snd]. rewrite full_tuple, Forall_lookup in Hf.
    destruct Hmade as [_ Hok]. apply (so_full _ _ _ _ Hok Hcap). by eapply Hf.
  - intros _ Hf. rewrite Eset. cbn [fst snd]. rewrite stocked_tuple, Forall_lookup in Hf.
    destruct Hmade as [_ Hok]. apply (so_stocked _ _ _ _ Hok Hcap). by eapply Hf.
Qed.
Theorem into_ok q : use q -> size q <= 2 ^ 11 -> ∃ x, made x q.
Proof.
  induction q as [i|i|l|i|b i|b k i|qs IH|a b IHa IHb] using query_ind'; intros Hu Hsz.
  - exists (SWin (env i), lenN (dense i), (dense i, [])). split; [done|]. apply leaf_ship; try done.
    + intros e k Hg. by apply sail_win.
    + intros _. split; [|by eauto]. intros e x. cbn. by destruct (c e i).
    + intros _. exists (lenN (dense i)). split; [done|lia].
  - exists (SWin (env i), lenN (dense i), (dense i, [])). split; [done|]. apply leaf_ship; try done.
    + intros e k Hg. by apply sail_win.
    + intros _. split; [|by eauto]. intros e x. cbn. by destruct (c e i).
    + intros _. exists (lenN (dense i)). split; [done|lia].
  - exists (SIds l, lenN l, (l, [])). split; [done|]. destruct Hu as (Hnd & Hgen & Hlen). constructor; try done.
    + intros _. exists [den (QIds l)]. constructor; try done.
      * constructor.
      * intros n sl f Hsl Hf. destruct n as [|n]; [|by destruct n]. injection Hsl as <-. injection Hf as <-.
        split; [done|]. intros k e Hk. split; [rewrite Forall_lookup in Hgen; by eapply Hgen|].
        exists (Some (OId e)). split; [by exists (XId e)|].
        assert (e ∈ l) by (by eapply elem_of_list_lookup_2). split.
        -- cbn [denote]. by rewrite decide_True.
        -- intros o [= <-] i p Hin. by apply elem_of_nil in Hin.
      * intros n f e x Hf Hx. destruct n as [|n]; [|by destruct n]. by injection Hf as <-.
      * intros e x Hx. exists 0%nat, l, (den (QIds l)). split_and!; try done.
        cbn [denote] in Hx. by destruct (decide (e ∈ l)).
      * intros n m f g e x Hne Hf Hg. destruct n as [|n]; [|by destruct n]. destruct m as [|m]; [done|by destruct m].
    + intros _ _. assert (bounded (stime (SIds l : ship V)) 1); [|done].
      exists (lenN l). split; [done|]. unfold lenN. change (2 ^ 52) with (16 * 2 ^ 48). lia.
    + intros _ Hf. cbn in *. unfold lenN. destruct l; [done|]. cbn. lia.
    + constructor.
  - exists (SOpt (env i), lenN (dense i), (dense i, [])). split; [done|]. apply leaf_ship; try done.
    + intros e k Hg. by apply sail_opt.
    + intros _. exists (lenN (dense i)). split; [done|lia].
  - exists (SNot b (env i), lenN (dense i), (dense i, [])). split; [done|]. apply leaf_ship; try done.
    + intros e k Hg. by apply sail_not.
    + destruct b; [done|]. intros _. exists (f12 (lenN (dense i))). split; [done|].
      specialize (H12 (lenN (dense i))). lia.
  - exists (STrack b k (env i), lenN (dense i), (dense i, [])). split; [done|]. apply leaf_ship; try done.
    + intros e n Hg. by apply sail_track.
    + intros _. split; [|done]. intros e x. cbn. by destruct (c e i).
    + intros _. cbn [sail_time]. eexists. split; [done|].
      pose proof (H20 (lenN (dense i))). pose proof (H12 (f20 (lenN (dense i)))). destruct b; lia.
  - pose proof Hu as Hu'. apply use_tuple in Hu' as (Hu1 & _). apply made_tuple; [done|done|].
    apply Forall_forall. intros q Hq. rewrite Forall_forall in IH, Hu1. apply IH; [done|by apply Hu1|].
    rewrite size_tuple in Hsz.
    assert (size q ∈ size <$> qs) as Hin by (by apply elem_of_list_fmap_1). apply sum_elem in Hin. lia.
  - cbn [usable] in Hu. destruct Hu as (Hbo & Hua & Hub & Hof & Hcb). cbn [size] in Hsz.
    destruct (IHa Hua ltac:(lia)) as ([[sa la] aa] & Ea & Ha).
    destruct (IHb Hub ltac:(lia)) as ([[sb lb] ab] & Eb & Hb). cbn [fst snd] in *.
    destruct (so_captain _ _ _ _ Hb Hcb) as [fs Hfs]. pose proof (so_or_free _ _ _ _ Hb Hof) as Hab.
    destruct ab as [ab ?]. cbn [snd] in Hab. subst.
    pose proof (co_fs _ _ _ _ _ Hfs) as Hlen. cbn in Hlen. destruct fs as [|f [|]]; try done.
    exists (SOr sa sb true false, la, (aa.1, [(ab, lb)])). split.
    { cbn [into_ship]. rewrite Ea. cbn [rbind]. rewrite Eb. done. }
    assert (∃ i, next_slice sa = sa ∧ unpick sa = sa ∧
      (∀ e k, gen e < U16_MAX -> ∃ oo, sail sa e k oo ∧ says e oo (den a e)) ∧
      (∀ e x, den a e = Some x -> is_Some (c e i)) ∧ la = lenN (dense i) ∧ aa = (dense i, []) ∧
      (light a = true -> bounded (stime sa) (size a)) ∧ (full has a -> has i)) as (i & A1 & A2 & A3 & A4 & A5 & A6 & A7 & A8).
    { destruct a as [i|i| | | |[] [] i| |]; try done; exists i; cbn [into_ship] in Ea; injection Ea as <- <- <-;
        (split_and!; try done).
      - intros e k Hg. by apply sail_win.
      - intros e x. cbn. by destruct (c e i).
      - intros Hli. apply (so_time _ _ _ _ Ha Hli). cbn. lia.
      - intros e k Hg. by apply sail_win.
      - intros e x. cbn. by destruct (c e i).
      - intros Hli. apply (so_time _ _ _ _ Ha Hli). cbn. lia.
      - intros e k Hg. by apply sail_track.
      - intros e x. cbn. by destruct (c e i).
      - intros Hli. apply (so_time _ _ _ _ Ha Hli). cbn. lia. }
    subst aa. cbn [fst snd]. constructor.
    + intros Hs n. cbn [unpick]. rewrite A2.
      assert (Nat.iter n next_slice (SOr sa (unpick sb) false false) = SOr sa (unpick sb) false (bool_decide (n ≠ 0%nat))) as ->.
      { destruct n as [|n]; [done|]. by rewrite iter_or. }
      apply or_sailor; [exact A3|]. cbn [sailable] in Hs. apply (so_sailor _ _ _ _ Hb Hs 0).
    + intros _. eexists. by apply or_captain.
    + done.
    + intros Hli _. cbn [light] in Hli. apply andb_true_iff in Hli as [L1 L2].
      destruct (A7 L1) as (ta & Eta & Hta). destruct (so_time _ _ _ _ Hb L2 ltac:(lia)) as [(tb & Etb & Htb) (tb' & Etb' & Htb')].
      cbn [sail_time unpick size]. rewrite A2, Eta. cbn [rbind]. rewrite Etb, Etb'. cbn [rbind].
      assert (∀ t, t <= size b * 2 ^ 52 -> bounded (usize_add ta t) (size a + size b + 1)) as HX.
      { intros t Ht. unfold usize_add.
        assert (ta + t <= (size a + size b + 1) * 2 ^ 52) by lia.
        assert ((size a + size b + 1) * 2 ^ 52 <= 2 ^ 11 * 2 ^ 52) by (apply N.mul_le_mono_r; lia).
        assert (ta + t <=? USIZE_MAX = true) as ->.
        { apply N.leb_le. unfold USIZE_MAX. change (2 ^ 11 * 2 ^ 52) with (2 ^ 63) in *. lia. }
        by exists (ta + t). }
      split; by apply HX.
    + intros _ Hf. cbn [full] in Hf. rewrite A5. apply has_len. by apply A8.
    + intros _ Hf. cbn [stocked] in Hf. constructor; [|constructor]. cbn [snd].
      by apply (so_full _ _ _ _ Hb Hcb).
Qed.

(** *** The tour of the iterator *)
Lemma choose_list {A B} (sl : list A) : ∀ (P : nat -> A -> B -> Prop),
  (∀ k e, sl !! k = Some e -> ∃ oo, P k e oo) ->
  ∃ l : list (A * B), l.*1 = sl ∧ ∀ k e oo, l !! k = Some (e, oo) -> P k e oo.
Proof.
  induction sl as [|e sl IH]; intros P HP.
  - exists []. split; [done|]. intros k e oo Hk. by destruct k.
  - destruct (HP 0%nat e eq_refl) as [oo Hoo].
    destruct (IH (λ k, P (S k)) (λ k e' Hk, HP (S k) e' Hk)) as (l & <- & Hl).
    exists ((e, oo) :: l). split; [done|]. intros [|k] e' oo' Hk; [|by apply Hl]. cbn in Hk. by injection Hk as <- <-.
Qed.
Lemma slices_snoc ptr fu p len : slices (ptr, fu ++ [(p, len)]) = ptr :: slices (p, fu).
Proof. unfold slices. cbn [fst snd]. by rewrite fmap_app, reverse_app. Qed.
(** What the slices show. *)
Definition shown (fs : list (eid -> option (item V))) n (sls : list (list eid))
    (ls : list (list (eid * option (out V)))) : Prop :=
  length ls = length sls ∧
  ∀ m l, ls !! m = Some l -> ∃ sl f, sls !! m = Some sl ∧ fs !! (n + m)%nat = Some f ∧ l.*1 = sl ∧
    ∀ e oo, (e, oo) ∈ l -> says e oo (f e).
Lemma shown_tour ex fs s fu : ∀ ptr n,
  Forall (λ f : list eid * N, f.2 = lenN f.1) fu ->
  length fs = (n + S (length fu))%nat ->
  (∀ m sl f k e, slices (ptr, fu) !! m = Some sl -> fs !! (n + m)%nat = Some f -> sl !! k = Some e ->
     ∃ oo, (∀ fu' st en, item_at (Iter (Nat.iter (n + m) next_slice s) (sl, fu') ex st en) (N.of_nat k) = Ok oo) ∧
           says e oo (f e)) ->
  ∃ ls, tour (Iter (Nat.iter n next_slice s) (ptr, fu) ex 0 (lenN ptr)) ls ∧ shown fs n (slices (ptr, fu)) ls.
Proof.
  induction fu as [|[p len] fu IH] using rev_ind; intros ptr n HLs Hlen HR.
  - destruct (fs !! n) as [f|] eqn:Ef.
    2:{ apply lookup_ge_None in Ef. cbn in Hlen. lia. }
    destruct (choose_list ptr (λ k e oo, (∀ fu' st en, item_at (Iter (Nat.iter n next_slice s) (ptr, fu') ex st en) (N.of_nat k) = Ok oo) ∧ says e oo (f e)))
      as (l & Hl1 & Hl2).
    { intros k e Hk. destruct (HR 0%nat ptr f k e eq_refl) as (oo & H1 & H2); [by rewrite Nat.add_0_r|done|].
      rewrite Nat.add_0_r in H1. by exists oo. }
    exists [l]. split.
    + split; [|done]. split_and!; cbn; [lia| |].
      * unfold lenN. rewrite <- Hl1, fmap_length. lia.
      * intros m e oo Hm. destruct (Hl2 _ _ _ Hm) as [H1 H2]. rewrite N.add_0_l. split; [|by apply H1].
        unfold acc_get, get_unchecked. cbn. rewrite getN_lookup, Nat2N.id, <- Hl1, list_lookup_fmap, Hm. done.
    + split; [done|]. intros m l' Hm. destruct m as [|m]; [|by destruct m]. injection Hm as <-.
      exists ptr, f. split_and!; [done|by rewrite Nat.add_0_r|done|].
      intros e oo (k & Hk)%elem_of_list_lookup. by apply (Hl2 k).
  - apply Forall_app in HLs as [HLs HL1]. rewrite Forall_singleton in HL1. change (len = lenN p) in HL1. subst len.
    rewrite app_length in Hlen. cbn [length] in Hlen. rewrite slices_snoc in *.
    destruct (fs !! n) as [f|] eqn:Ef.
    2:{ apply lookup_ge_None in Ef. lia. }
    destruct (choose_list ptr (λ k e oo, (∀ fu' st en, item_at (Iter (Nat.iter n next_slice s) (ptr, fu') ex st en) (N.of_nat k) = Ok oo) ∧ says e oo (f e)))
      as (l & Hl1 & Hl2).
    { intros k e Hk. destruct (HR 0%nat ptr f k e eq_refl) as (oo & H1 & H2); [by rewrite Nat.add_0_r|done|].
      rewrite Nat.add_0_r in H1. by exists oo. }
    destruct (IH p (S n) HLs ltac:(lia)) as (ls & HT & Hsh).
    { intros m sl f' k e Hsl Hf Hk. replace (S n + m)%nat with (n + S m)%nat in * by lia.
      by apply (HR (S m) sl f' k e). }
    exists (l :: ls). split.
    + split.
      * split_and!; cbn; [lia| |].
        -- unfold lenN. rewrite <- Hl1, fmap_length. lia.
        -- intros m e oo Hm. destruct (Hl2 _ _ _ Hm) as [H1 H2]. rewrite N.add_0_l. split; [|by apply H1].
           unfold acc_get, get_unchecked. cbn. rewrite getN_lookup, Nat2N.id, <- Hl1, list_lookup_fmap, Hm. done.
      * unfold it_next_slice, acc_next_slice. cbn [it_acc it_ship it_exact snd]. rewrite last_snoc.
        rewrite app_length. cbn [length]. rewrite Nat.add_sub, take_app. exact HT.
    + destruct Hsh as [S1 S2]. split; [cbn; by rewrite S1|]. intros [|m] l' Hm.
      * injection Hm as <-. exists ptr, f. split_and!; [done|by rewrite Nat.add_0_r|done|].
        intros e oo (k & Hk)%elem_of_list_lookup. by apply (Hl2 k).
      * destruct (S2 m l' Hm) as (sl & f' & H1 & H2 & H3). exists sl, f'.
        replace (n + S m)%nat with (S n + m)%nat by lia. done.
Qed.
Lemma captain_tour s len a q fs :
  captain_ok s len a q fs ->
  ∃ ls, tour (Iter s a (is_exact s) 0 len) ls ∧ shown fs 0 (slices a) ls.
Proof.
  intros HC. destruct a as [ptr fu]. rewrite (co_len _ _ _ _ _ HC).
  apply (shown_tour (is_exact s) fs s fu ptr 0).
  - apply (co_lens _ _ _ _ _ HC).
  - rewrite (co_fs _ _ _ _ _ HC). unfold slices. cbn [fst snd length Nat.add]. by rewrite reverse_length, fmap_length.
  - intros m sl f k e Hsl Hf Hk. cbn [Nat.add] in *.
    destruct (is_exact s) eqn:Ex.
    + destruct (co_exact _ _ _ _ _ HC Ex) as [Ha Hx]. cbn in Ha. subst fu.
      destruct m as [|m]; [|by destruct m]. injection Hsl as <-.
      destruct (Hx f k e Hf Hk) as (o & x & E1 & _ & _ & Hs). exists (Some o). split; [|done].
      intros fu' st en. unfold item_at. cbn [it_exact it_ship]. cbn. by rewrite E1.
    + destruct (co_phase _ _ _ _ _ HC m sl f Hsl Hf) as [_ HP]. destruct (HP k e Hk) as (_ & oo & Hsail & Hs).
      exists oo. split; [|done]. intros fu' st en. unfold item_at. cbn [it_exact it_ship it_acc].
      assert (acc_get (sl, fu') (N.of_nat k) = Ok e) as ->.
      { unfold acc_get, get_unchecked. cbn. by rewrite getN_lookup, Nat2N.id, Hk. }
      cbn [rbind]. destruct oo as [o|]; cbn [sail] in Hsail.
      * destruct Hsail as (x & -> & E2). cbn [rbind]. by rewrite E2.
      * by rewrite Hsail.
Qed.
(** What the tour yields. *)
Definition yields q (L : list (eid * out V)) : Prop :=
  NoDup L.*1 ∧ (∀ e, e ∈ L.*1 <-> is_Some (den q e)) ∧
  ∀ e o, (e, o) ∈ L -> den q e = Some (erase o) ∧ good e o.
Lemma elem_items (l : list (eid * option (out V))) e o : (e, o) ∈ items l <-> (e, Some o) ∈ l.
Proof.
  unfold items. rewrite elem_of_list_omap. split.
  - intros ([e' [o'|]] & Hin & Hx); cbn in Hx; [|done]. by injection Hx as -> ->.
  - intros Hin. by exists (e, Some o).
Qed.
Lemma items_sub (l : list (eid * option (out V))) : sublist (items l).*1 l.*1.
Proof. induction l as [|[e [o|]] l IH]; [done| |]; cbn; by constructor. Qed.
Lemma NoDup_mjoin (ls : list (list (eid * option (out V)))) :
  (∀ m l, ls !! m = Some l -> NoDup (items l).*1) ->
  (∀ m m' l l' e, ls !! m = Some l -> ls !! m' = Some l' -> e ∈ (items l).*1 -> e ∈ (items l').*1 -> m = m') ->
  NoDup (items (mjoin ls)).*1.
Proof.
  induction ls as [|l ls IH]; intros H1 H2; [constructor|]. rewrite mjoin_cons, items_app, fmap_app.
  apply NoDup_app. split_and!.
  - by apply (H1 0%nat).
  - intros e He He'. rewrite <- mjoin_items in He'.
    apply elem_of_list_fmap in He' as ([e' o] & -> & Hin). apply elem_of_list_join in Hin as (l' & Hin & Hl').
    apply elem_of_list_fmap in Hl' as (l0 & -> & Hl0). apply elem_of_list_lookup in Hl0 as [m Hm].
    assert (0%nat = S m) as ?; [|done]. eapply (H2 0%nat (S m) l l0 e'); [done|done|done|].
    apply elem_of_list_fmap. by exists (e', o).
  - apply IH.
    + intros m l' Hm. by apply (H1 (S m)).
    + intros m m' l' l2 e Hm Hm' He He'. assert (S m = S m') as [= ->]; [|done].
      by eapply (H2 (S m) (S m') l' l2 e).
Qed.
Lemma shown_yields s len a q fs ls :
  captain_ok s len a q fs -> shown fs 0 (slices a) ls -> yields q (items (mjoin ls)).
Proof.
  intros HC [S1 S2].
  assert (∀ e o, (e, o) ∈ items (mjoin ls) <-> ∃ m l, ls !! m = Some l ∧ (e, Some o) ∈ l) as HI.
  { intros e o. rewrite elem_items, elem_of_list_join. split.
    - intros (l & H1 & [m Hm]%elem_of_list_lookup). by exists m, l.
    - intros (m & l & H1 & H2). exists l. split; [done|]. by eapply elem_of_list_lookup_2. }
  assert (∀ m l e o, ls !! m = Some l -> (e, Some o) ∈ l -> ∃ f, fs !! m = Some f ∧ f e = Some (erase o) ∧ good e o) as HF.
  { intros m l e o Hm Hin. destruct (S2 m l Hm) as (sl & f & H1 & H2 & H3 & H4). exists f. split; [done|].
    destruct (H4 e (Some o) Hin) as [E1 E2]. split; [done|]. by apply E2. }
  split_and!.
  - apply NoDup_mjoin.
    + intros m l Hm. destruct (S2 m l Hm) as (sl & f & H1 & H2 & H3 & _).
      assert (NoDup l.*1) as Hnd; [|].
      2:{ clear -Hnd. induction l as [|[e [o|]] l IH]; [constructor| |].
          - rewrite fmap_cons in Hnd. inversion Hnd as [|? ? H1 H2]; subst. cbn. constructor; [|by apply IH].
            intros Hin. apply H1. cbn. eapply elem_of_submseteq; [exact Hin|]. apply sublist_submseteq, items_sub.
          - rewrite fmap_cons in Hnd. inversion Hnd as [|? ? H1 H2]; subst. by apply IH. }
      rewrite H3. by apply (co_phase _ _ _ _ _ HC m sl f).
    + intros m m' l l' e Hm Hm' He He'.
      apply elem_of_list_fmap in He as ([e1 o] & -> & He%elem_items).
      apply elem_of_list_fmap in He' as ([e2 o'] & Heq & He'%elem_items). cbn in Heq. subst e2.
      cbn [fst] in *. destruct (HF _ _ _ _ Hm He) as (f & F1 & F2 & _), (HF _ _ _ _ Hm' He') as (g & G1 & G2 & _).
      destruct (decide (m = m')) as [|Hne]; [done|].
      by rewrite (co_apart _ _ _ _ _ HC m m' f g e1 _ Hne F1 G1 F2) in G2.
  - intros e. rewrite elem_of_list_fmap. split.
    + intros ([e' o] & -> & Hin). apply HI in Hin as (m & l & Hm & Hin). cbn.
      destruct (HF _ _ _ _ Hm Hin) as (f & F1 & F2 & _). exists (erase o).
      by apply (co_sound _ _ _ _ _ HC m f).
    + intros [x Hx]. destruct (co_cover _ _ _ _ _ HC e x Hx) as (n & sl & f & H1 & H2 & H3 & H4).
      assert (∃ l, ls !! n = Some l) as [l Hl].
      { apply lookup_lt_is_Some. rewrite S1. by eapply lookup_lt_Some. }
      destruct (S2 n l Hl) as (sl' & f' & J1 & J2 & J3 & J4). assert (sl' = sl) as -> by congruence.
      assert (f' = f) as -> by (cbn in J2; congruence). rewrite <- J3 in H3.
      apply elem_of_list_fmap in H3 as ([e' oo] & -> & Hin). cbn [fst] in *.
      destruct (J4 e' oo Hin) as [E1 _]. destruct oo as [o|]; [|cbn in E1; congruence].
      exists (e', o). split; [done|]. apply HI. by exists n, l.
  - intros e o Hin. apply HI in Hin as (m & l & Hm & Hin).
    destruct (HF _ _ _ _ Hm Hin) as (f & F1 & F2 & F3). split; [|done].
    by apply (co_sound _ _ _ _ _ HC m f).
Qed.
Theorem q_iter_ok q :
  use q -> can_captain q = true -> size q <= 2 ^ 11 ->
  ∃ it l ls, q_iter f10 f05 f12 f20 env q = Ok it ∧ tour it (l :: ls) ∧ yields q (items (mjoin (l :: ls))) ∧
    (or_free q = true -> ls = []) ∧ (stocked has q -> Forall (λ l, l ≠ []) ls) ∧
    (it_exact it = true -> ls = [] ∧ Forall (λ x, is_Some x.2) l).
Proof.
  intros Hu Hc Hsz. destruct (into_ok q Hu Hsz) as ([[s len] a] & E & Hok).
  destruct (so_captain _ _ _ _ Hok Hc) as [fs Hfs]. cbn [fst snd] in *.
  destruct (captain_tour _ _ _ _ _ Hfs) as (ls & HT & Hsh).
  destruct ls as [|l ls]; [done|]. exists (Iter s a (is_exact s) 0 len), l, ls.
  assert (∀ ls', Forall (λ f : list eid * N, f.2 ≠ 0) a.2 -> tour (Iter s a (is_exact s) 0 len) ls' -> Forall (λ l, l ≠ []) (tail ls')) as HNE.
  { clear. destruct a as [ptr0 fu].
    assert (∀ ex s ptr ls' n len, Forall (λ f : list eid * N, f.2 ≠ 0) fu -> tour (Iter s (ptr, fu) ex n len) ls' -> Forall (λ l, l ≠ []) (tail ls')) as HX.
    { induction fu as [|[p ln] fu IH] using rev_ind; intros ex s1 ptr ls' n ln0 HF HT.
      - destruct ls' as [|l ls']; [done|]. destruct HT as [_ HT]. cbn in HT. subst ls'. constructor.
      - destruct ls' as [|l ls']; [done|]. destruct HT as [_ HT]. cbn [tail].
        unfold it_next_slice, acc_next_slice in HT. cbn [it_acc it_ship it_exact snd] in HT. rewrite last_snoc in HT.
        rewrite app_length in HT. cbn [length] in HT. rewrite Nat.add_sub, take_app in HT.
        apply Forall_app in HF as [HF1 HF2]. rewrite Forall_singleton in HF2. cbn in HF2.
        specialize (IH ex _ p ls' _ _ HF1 HT).
        destruct ls' as [|l' ls']; [done|]. cbn in IH. constructor; [|done].
        destruct HT as [(_ & HL & _) _]. cbn in HL. destruct l'; [|done]. unfold lenN in HL. cbn in HL. lia. }
    intros ls'. apply HX. }
  assert (length ls = length a.2) as HLen.
  { destruct Hsh as [Hl _]. unfold slices in Hl. cbn [length] in Hl. rewrite reverse_length, fmap_length in Hl. by injection Hl. }
  split_and!.
  - unfold q_iter. by rewrite E.
  - done.
  - by eapply shown_yields.
  - intros Hof. rewrite (so_or_free _ _ _ _ Hok Hof) in HLen. by destruct ls.
  - intros Hst. apply (HNE (l :: ls)); [|done]. by apply (so_stocked _ _ _ _ Hok).
  - cbn [it_exact]. intros Hex. destruct (co_exact _ _ _ _ _ Hfs Hex) as [Ha Hx].
    rewrite Ha in HLen. split; [by destruct ls|].
    destruct Hsh as [_ S2]. destruct (S2 0%nat l eq_refl) as (sl & f & H1 & H2 & H3 & H4). cbn in H1, H2.
    injection H1 as <-. apply Forall_forall. intros [e oo] Hin. destruct (H4 e oo Hin) as [G1 _].
    apply elem_of_list_lookup in Hin as [k Hk].
    destruct (Hx f k e H2) as (o & x & _ & _ & _ & G2 & _).
    { rewrite <- H3, list_lookup_fmap, Hk. done. }
    cbn. destruct oo; [done|]. cbn in G1, G2. congruence.
Qed.
End ship.
