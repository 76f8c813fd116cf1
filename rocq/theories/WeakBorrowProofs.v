(** Invariant of the borrow checker under release/acquire memory (model in WeakBorrow.v). *)
From stdpp Require Import prelude list gmap fin_maps.
From Coq Require Import NArith Lia.
From Verif Require Import EntityId Borrow BorrowProofs WeakBorrow.
Open Scope N_scope.

(** The orderings the argument needs. The ordering of the fetch_add of read_reborrow and of the
    fetch_sub of check_overflow are free. *)
Definition enough (o : ords) : Prop :=
  a_read o = true ∧ a_xread o = true ∧ a_write o = true ∧ r_shared o = true ∧ r_excl o = true.

Definition acc (s : wst) : gset N := reads s ∪ writes s.

(** [e] is the timestamp of the last store of 0 (or of the initial message), [l] the last timestamp;
    the messages from [e] on are a chain of read-modify-writes, and the chains before it end in a
    message with the high bit set. *)
Record hist_ok (h : gmap N msg) (e l : N) : Prop := {
  h_le : e <= l;
  h_range : ∀ τ, e <= τ <= l → is_Some (h !! τ);
  h_max : ∀ τ, l < τ → h !! τ = None;
  h_old : ∀ τ m, τ < e → h !! τ = Some m → h !! (τ + 1) = None → HIGH_BIT <= m_val m;
  h_small : ∀ τ m, h !! τ = Some m → m_val m < MAX_FAILED_BORROWS
}.

(** [v] and [r] are the last value of the word and what it carries. *)
Record free (c : cell_cfg) (v : N) (r : gset N) (s : wst) : Prop := {
  f_objs : ∀ b x, objs s !! b = Some x →
    o_excl x = false ∧ o_root x = None ∧ (c_sync c = false → ∀ h, c_send c = Some h → o_own x = h);
  f_word : N.of_nat (size (objs s) + size (undo s)) <= v;
  f_sync : c_sync c = true → writes s ⊆ r;
  f_acc : ∀ a, a ∈ acc s → a ∈ r ∨ ∃ b x, objs s !! b = Some x ∧ a ∈ o_used x
}.
Record held (b : N) (v : N) (s : wst) : Prop := {
  g_obj : ∃ x, objs s !! b = Some x ∧ o_excl x = true ∧ o_root x = None;
  g_objs : ∀ b' x, b' ≠ b → objs s !! b' = Some x → o_excl x = false ∧ o_root x = Some b;
  g_undo : undo s = ∅;
  g_word : HIGH_BIT + N.of_nat (size (objs s)) <= v + 1;
  g_acc : ∀ a, a ∈ acc s → ∃ b x, objs s !! b = Some x ∧ a ∈ o_used x
}.
Definition mode (c : cell_cfg) (v : N) (r : gset N) (s : wst) : Prop := free c v r s ∨ ∃ b, held b v s.

(** The part of the invariant that does not speak about the word. *)
Record core (c : cell_cfg) (e : N) (s : wst) : Prop := {
  v_ts : ∀ b x, objs s !! b = Some x → e < o_ts x;
  v_nobj : ∀ b x, objs s !! b = Some x → b < nobj s;
  v_undo : ∀ t, is_Some (undo s !! t) → e < sn s t;
  v_born : c_sync c = true → ∀ b x, objs s !! b = Some x → writes s ⊆ o_born x;
  v_own : c_sync c = false → ∀ b x, objs s !! b = Some x → o_excl x = false →
    acc s ⊆ kn s (o_own x) ∧
    ∀ b' x', objs s !! b' = Some x' →
      o_used x' ⊆ kn s (o_own x) ∧ (o_excl x' = false → o_own x' = o_own x);
  v_race : raced s = false;
  v_dead : dead s = false
}.
Definition winv (c : cell_cfg) (s : wst) : Prop :=
  ∃ e l m, hist_ok (hist s) e l ∧ hist s !! l = Some m ∧ core c e s ∧ mode c (m_val m) (m_rel m) s.

(** An exclusive borrow tolerates only the shared borrows made from it. *)
Definition excl_ok (s : wst) : Prop :=
  ∀ b x b' x', objs s !! b = Some x → objs s !! b' = Some x' → b' ≠ b → o_excl x = true →
    o_excl x' = false ∧ o_root x' = Some b.

Lemma winv_excl c s : winv c s → excl_ok s.
Proof.
  intros (e & l & m & _ & _ & _ & [Hf|[b0 Hh]]) b x b' x' H H' Hne Hx.
  - destruct (f_objs _ _ _ _ Hf _ _ H) as (Hf' & _). congruence.
  - destruct (decide (b = b0)) as [->|Hb].
    + exact (g_objs _ _ _ Hh _ _ Hne H').
    + destruct (g_objs _ _ _ Hh _ _ Hb H). congruence.
Qed.

(** * The history of the word *)
Lemma sn_put t τ m k s t' : sn (put_msg t τ m k s) t' = if decide (t' = t) then τ else sn s t'.
Proof. unfold sn. cbn. destruct (decide (t' = t)) as [->|]; [by rewrite lookup_insert|by rewrite lookup_insert_ne]. Qed.
Lemma kn_put t τ m k s t' : kn (put_msg t τ m k s) t' = if decide (t' = t) then k else kn s t'.
Proof. unfold kn. cbn. destruct (decide (t' = t)) as [->|]; [by rewrite lookup_insert|by rewrite lookup_insert_ne]. Qed.

Lemma hist_last h e l τ m :
  hist_ok h e l → h !! τ = Some m → h !! (τ + 1) = None → e <= τ → τ = l.
Proof.
  intros H Hτ Hf He. destruct (decide (τ < l)) as [Hlt|Hge].
  - destruct (h_range _ _ _ H (τ + 1)) as [? E]; [lia|]. congruence.
  - destruct (decide (l < τ)) as [Hl|]; [|lia]. rewrite (h_max _ _ _ H _ Hl) in Hτ. done.
Qed.
Lemma hist_old h e l τ m m' :
  hist_ok h e l → h !! τ = Some m → h !! (τ + 1) = None → τ < e →
  HIGH_BIT <= m_val m' < MAX_FAILED_BORROWS →
  hist_ok (<[τ + 1 := m']> h) e l ∧ <[τ + 1 := m']> h !! l = h !! l.
Proof.
  intros H Hτ Hf He Hm.
  assert (τ + 1 ≠ e) as Hne.
  { intros E. destruct (h_range _ _ _ H e) as [? E']; [split; [lia|apply (h_le _ _ _ H)]|]. congruence. }
  pose proof (h_le _ _ _ H) as Hle.
  split; [|apply lookup_insert_ne; lia]. constructor.
  - done.
  - intros τ' Hτ'. rewrite lookup_insert_ne by lia. by apply (h_range _ _ _ H).
  - intros τ' Hτ'. rewrite lookup_insert_ne by lia. by apply (h_max _ _ _ H).
  - intros τ' m0 Hlt H0 H1. destruct (decide (τ' = τ + 1)) as [->|Hn].
    + rewrite lookup_insert in H0. injection H0 as <-. apply Hm.
    + rewrite lookup_insert_ne in H0 by done. apply (h_old _ _ _ H τ'); [lia|done|].
      destruct (decide (τ' = τ)) as [->|Hn']; [done|]. rewrite lookup_insert_ne in H1 by lia. done.
  - intros τ' m0 H0. destruct (decide (τ' = τ + 1)) as [->|Hn].
    + rewrite lookup_insert in H0. injection H0 as <-. apply Hm.
    + rewrite lookup_insert_ne in H0 by done. by apply (h_small _ _ _ H τ').
Qed.
Lemma hist_snoc h e l m' :
  hist_ok h e l → m_val m' < MAX_FAILED_BORROWS → hist_ok (<[l + 1 := m']> h) e (l + 1).
Proof.
  intros H Hm. pose proof (h_le _ _ _ H) as Hle. constructor.
  - lia.
  - intros τ' Hτ'. destruct (decide (τ' = l + 1)) as [->|]; [rewrite lookup_insert; by eexists|].
    rewrite lookup_insert_ne by lia. apply (h_range _ _ _ H). lia.
  - intros τ' Hτ'. rewrite lookup_insert_ne by lia. apply (h_max _ _ _ H). lia.
  - intros τ' m0 Hlt H0 H1. rewrite lookup_insert_ne in H0 by lia. apply (h_old _ _ _ H τ'); [lia|done|].
    destruct (decide (τ' + 1 = l + 1)) as [E|Hn]; [lia|]. rewrite lookup_insert_ne in H1 by lia. done.
  - intros τ' m0 H0. destruct (decide (τ' = l + 1)) as [->|Hn].
    + rewrite lookup_insert in H0. by injection H0 as <-.
    + rewrite lookup_insert_ne in H0 by done. by apply (h_small _ _ _ H τ').
Qed.
Lemma hist_store h e l m τ m' :
  hist_ok h e l → h !! l = Some m → HIGH_BIT <= m_val m → l < τ → m_val m' < MAX_FAILED_BORROWS →
  hist_ok (<[τ := m']> h) τ τ.
Proof.
  intros H Hl Hm Hlt Hm'. pose proof (h_le _ _ _ H) as Hle. constructor.
  - lia.
  - intros τ' Hτ'. replace τ' with τ by lia. rewrite lookup_insert. by eexists.
  - intros τ' Hτ'. rewrite lookup_insert_ne by lia. apply (h_max _ _ _ H). lia.
  - intros τ' m0 Hlt' H0 H1. rewrite lookup_insert_ne in H0 by lia.
    destruct (decide (l < τ')) as [Hl'|Hl']; [rewrite (h_max _ _ _ H _ Hl') in H0; done|].
    destruct (decide (τ' = l)) as [->|Hn]; [congruence|].
    assert (h !! (τ' + 1) = None) as H2.
    { destruct (decide (τ' + 1 = τ)) as [E|]; [lia|]. by rewrite lookup_insert_ne in H1 by lia. }
    destruct (decide (τ' < e)) as [|Hge]; [by apply (h_old _ _ _ H τ')|].
    destruct (h_range _ _ _ H (τ' + 1)) as [? E]; [lia|]. congruence.
  - intros τ' m0 H0. destruct (decide (τ' = τ)) as [->|Hn].
    + rewrite lookup_insert in H0. by injection H0 as <-.
    + rewrite lookup_insert_ne in H0 by done. by apply (h_small _ _ _ H τ').
Qed.

(** A read-modify-write, seen from outside. *)
Lemma rmw_inv acq rel f t τ s s' :
  rmw acq rel f t τ s = Some s' →
  ∃ m k, hist s !! τ = Some m ∧ hist s !! (τ + 1) = None ∧ sn s t <= τ ∧
    k = (if acq then kn s t ∪ m_rel m else kn s t) ∧
    s' = put_msg t (τ + 1) {| m_val := f (m_val m); m_rel := if rel then m_rel m ∪ k else m_rel m |} k s.
Proof.
  unfold rmw. intros H. destruct (hist s !! τ) as [m|] eqn:Em; [|done].
  destruct (hist s !! (τ + 1)) eqn:E1; [done|]. destruct (N.leb_spec (sn s t) τ); [|done].
  injection H as <-. by eexists _, _.
Qed.

(** Knowing more and having seen more does not hurt. *)
Lemma core_put c e t τ m k s :
  core c e s → sn s t <= τ → kn s t ⊆ k → core c e (put_msg t τ m k s).
Proof.
  intros H Hs Hk.
  assert (∀ t', kn s t' ⊆ kn (put_msg t τ m k s) t') as Hmono.
  { intros t'. rewrite kn_put. destruct (decide (t' = t)) as [->|]; done. }
  constructor.
  - exact (v_ts _ _ _ H).
  - exact (v_nobj _ _ _ H).
  - intros t' Ht'. rewrite sn_put. pose proof (v_undo _ _ _ H t' Ht') as Hu.
    destruct (decide (t' = t)) as [->|]; [lia|done].
  - exact (v_born _ _ _ H).
  - intros Hc b x Hb Hx. destruct (v_own _ _ _ H Hc b x Hb Hx) as [H1 H2]. split.
    + etransitivity; [exact H1|apply Hmono].
    + intros b' x' Hb'. destruct (H2 _ _ Hb') as [H3 H4]. split; [|done].
      etransitivity; [exact H3|apply Hmono].
  - exact (v_race _ _ _ H).
  - exact (v_dead _ _ _ H).
Qed.
Lemma mode_put c v r t τ m k s : mode c v r s → mode c v r (put_msg t τ m k s).
Proof.
  intros [H|[b H]]; [left|right; exists b].
  - constructor; apply H.
  - constructor; apply H.
Qed.
Lemma mode_le c v r v' r' s : mode c v r s → v <= v' → r ⊆ r' → mode c v' r' s.
Proof.
  intros [H|[b H]] Hv Hr; [left|right; exists b].
  - constructor; [apply H|pose proof (f_word _ _ _ _ H); lia| |].
    + intros Hc. etransitivity; [by apply H|done].
    + intros a Ha. destruct (f_acc _ _ _ _ H a Ha) as [?|?]; [left; set_solver|by right].
  - constructor; try apply H. pose proof (g_word _ _ _ H). lia.
Qed.

(** A new shared borrow; [k] is what its maker knows. *)
Lemma new_shared c e t τ root s :
  core c e s → e < τ → undo s !! t = None →
  (c_sync c = true → writes s ⊆ kn s t) →
  (c_sync c = false → acc s ⊆ kn s t ∧ ∀ b x, objs s !! b = Some x →
      o_used x ⊆ kn s t ∧ (o_excl x = false → o_own x = t)) →
  core c e (new_obj t τ false root s).
Proof.
  intros H Hτ Hu Hw Ho. constructor.
  - intros b x Hb. cbn in Hb. destruct (decide (b = nobj s)) as [->|Hn].
    + rewrite lookup_insert in Hb. injection Hb as <-. done.
    + rewrite lookup_insert_ne in Hb by done. by apply (v_ts _ _ _ H b).
  - intros b x Hb. cbn in Hb |- *. destruct (decide (b = nobj s)) as [->|Hn]; [lia|].
    rewrite lookup_insert_ne in Hb by done. pose proof (v_nobj _ _ _ H b x Hb). lia.
  - exact (v_undo _ _ _ H).
  - intros Hc b x Hb. cbn in Hb |- *. destruct (decide (b = nobj s)) as [->|Hn].
    + rewrite lookup_insert in Hb. injection Hb as <-. cbn. by apply Hw.
    + rewrite lookup_insert_ne in Hb by done. by apply (v_born _ _ _ H Hc b).
  - intros Hc b x Hb Hx. cbn in Hb.
    assert (o_own x = t) as Hown.
    { destruct (decide (b = nobj s)) as [->|Hn].
      - rewrite lookup_insert in Hb. by injection Hb as <-.
      - rewrite lookup_insert_ne in Hb by done. destruct (Ho Hc) as [_ Ho']. by destruct (Ho' _ _ Hb); auto. }
    rewrite Hown. split; [apply (Ho Hc)|].
    intros b' x' Hb'. cbn in Hb'. destruct (decide (b' = nobj s)) as [->|Hn].
    + rewrite lookup_insert in Hb'. injection Hb' as <-. cbn. done.
    + rewrite lookup_insert_ne in Hb' by done. apply (Ho Hc) in Hb'. exact Hb'.
  - exact (v_race _ _ _ H).
  - exact (v_dead _ _ _ H).
Qed.

Lemma fresh_obj c e s : core c e s → objs s !! nobj s = None.
Proof.
  intros H. destruct (objs s !! nobj s) as [x|] eqn:E; [|done].
  pose proof (v_nobj _ _ _ H _ _ E). lia.
Qed.

(** A new root shared borrow. *)
Lemma free_new c e v r t τ s :
  core c e s → free c v r s → (c_sync c = false → ∀ h, c_send c = Some h → t = h) →
  free c (v + 1) r (new_obj t τ false None s).
Proof.
  intros Hco H Hh. pose proof (fresh_obj _ _ _ Hco) as Hfr. constructor.
  - intros b x Hb. cbn in Hb. destruct (decide (b = nobj s)) as [->|Hn].
    + rewrite lookup_insert in Hb. injection Hb as <-. done.
    + rewrite lookup_insert_ne in Hb by done. by apply (f_objs _ _ _ _ H b).
  - cbn [objs undo new_obj set_objs]. rewrite map_size_insert_None by done. pose proof (f_word _ _ _ _ H). lia.
  - apply H.
  - intros a Ha. destruct (f_acc _ _ _ _ H a Ha) as [?|(b & x & Hb & Hax)]; [by left|].
    right. exists b, x. split; [|done]. cbn. rewrite lookup_insert_ne by congruence. done.
Qed.
Lemma held_new c e v t τ b s :
  core c e s → held b v s → held b (v + 1) (new_obj t τ false (Some b) s).
Proof.
  intros Hco H. pose proof (fresh_obj _ _ _ Hco) as Hfr.
  destruct (g_obj _ _ _ H) as (x0 & Hx0 & He0 & Hr0). constructor.
  - exists x0. split; [|done]. cbn. rewrite lookup_insert_ne by congruence. done.
  - intros b' x Hne Hb. cbn in Hb. destruct (decide (b' = nobj s)) as [->|Hn].
    + rewrite lookup_insert in Hb. injection Hb as <-. done.
    + rewrite lookup_insert_ne in Hb by done. by apply (g_objs _ _ _ H b').
  - apply H.
  - cbn [objs undo new_obj set_objs]. rewrite map_size_insert_None by done. pose proof (g_word _ _ _ H). lia.
  - intros a Ha. destruct (g_acc _ _ _ H a Ha) as (b' & x & Hb & Hax).
    exists b', x. split; [|done]. cbn. rewrite lookup_insert_ne by congruence. done.
Qed.

(** * Changes to the objects *)
Lemma hist_use t b s : hist (use_obj t b s) = hist s.
Proof. unfold use_obj. by destruct (objs s !! b). Qed.
Lemma hist_wrote t b s : hist (wrote_obj t b s) = hist s.
Proof. unfold wrote_obj. by destruct (objs s !! b). Qed.
(** What the guards mean for content that is not Sync. *)
Lemma bound_all c e v r t b x s :
  core c e s → mode c v r s → objs s !! b = Some x → w_bound_ok c t b x s = true → c_sync c = false →
  acc s ⊆ kn s t ∧ ∀ b' x', objs s !! b' = Some x' →
    o_used x' ⊆ kn s t ∧ (o_excl x' = false → o_own x' = t).
Proof.
  intros Hco Hm Hb Hok Hc. unfold w_bound_ok in Hok. rewrite Hc in Hok. cbn in Hok.
  destruct (o_excl x) eqn:Hx.
  - apply andb_true_iff in Hok as [Hu Hr]. apply bool_decide_eq_true in Hu.
    unfold reborrows_of in Hr. apply bool_decide_eq_true in Hr.
    destruct Hm as [Hf|[b0 Hh]].
    { destruct (f_objs _ _ _ _ Hf _ _ Hb). congruence. }
    assert (b = b0) as ->.
    { destruct (decide (b = b0)); [done|]. destruct (g_objs _ _ _ Hh b x); [done..|]. congruence. }
    assert (∀ b' x', objs s !! b' = Some x' → o_used x' ⊆ kn s t ∧ (o_excl x' = false → o_own x' = t)) as Hall.
    { intros b' x' Hb'. destruct (decide (b' = b0)) as [->|Hne].
      - rewrite Hb in Hb'. injection Hb' as <-. split; [done|]. congruence.
      - destruct (g_objs _ _ _ Hh b' x' Hne Hb') as [Hx' Hr'].
        pose proof (Hr _ _ Hb' Hr') as Hown. split; [|done].
        destruct (v_own _ _ _ Hco Hc b' x' Hb' Hx') as [_ H2]. rewrite <- Hown. by apply (H2 b' x'). }
    split; [|done]. intros a Ha. destruct (g_acc _ _ _ Hh a Ha) as (b' & x' & Hb' & Hax).
    destruct (Hall _ _ Hb') as [H1 _]. by apply H1.
  - apply N.eqb_eq in Hok as <-. exact (v_own _ _ _ Hco Hc b x Hb Hx).
Qed.

Lemma use_core c e t b s :
  core c e s →
  (c_sync c = false → ∀ b' x', objs s !! b' = Some x' → o_excl x' = false → o_own x' = t) →
  core c e (use_obj t b s).
Proof.
  intros H Ho. unfold use_obj. destruct (objs s !! b) as [x|] eqn:Hb; [|done].
  constructor; try apply H; cbn [objs nobj writes set_objs reads].
  - intros b' x' Hb'. destruct (decide (b' = b)) as [->|Hn].
    + rewrite lookup_insert in Hb'. injection Hb' as <-. exact (v_ts _ _ _ H b x Hb).
    + rewrite lookup_insert_ne in Hb' by done. exact (v_ts _ _ _ H _ _ Hb').
  - intros b' x' Hb'. destruct (decide (b' = b)) as [->|Hn].
    + exact (v_nobj _ _ _ H b x Hb).
    + rewrite lookup_insert_ne in Hb' by done. exact (v_nobj _ _ _ H _ _ Hb').
  - intros Hc b' x' Hb'. destruct (decide (b' = b)) as [->|Hn].
    + rewrite lookup_insert in Hb'. injection Hb' as <-. exact (v_born _ _ _ H Hc b x Hb).
    + rewrite lookup_insert_ne in Hb' by done. exact (v_born _ _ _ H Hc _ _ Hb').
  - intros Hc b' x' Hb' Hx'.
    assert (∃ x1, objs s !! b' = Some x1 ∧ o_excl x1 = false ∧ o_own x1 = o_own x') as (x1 & Hb1 & Hx1 & Ho1).
    { destruct (decide (b' = b)) as [->|Hn].
      - rewrite lookup_insert in Hb'. injection Hb' as <-. by exists x.
      - rewrite lookup_insert_ne in Hb' by done. by exists x'. }
    destruct (v_own _ _ _ H Hc b' x1 Hb1 Hx1) as [H1 H2]. rewrite Ho1 in H1, H2.
    assert (o_own x' = t) as Ht by (rewrite <- Ho1; exact (Ho Hc b' x1 Hb1 Hx1)).
    split; [exact H1|]. intros b2 x2 Hb2. destruct (decide (b2 = b)) as [->|Hn].
    + rewrite lookup_insert in Hb2. injection Hb2 as <-. cbn [o_used o_excl o_own].
      destruct (H2 _ _ Hb) as [H3 H4]. split; [|done]. change (kn (set_objs _ _ s)) with (kn s).
      rewrite Ht in H3 |- *. set_solver.
    + rewrite lookup_insert_ne in Hb2 by done. exact (H2 _ _ Hb2).
Qed.

Lemma use_mode c v r t b s : mode c v r s → mode c v r (use_obj t b s).
Proof.
  intros H. unfold use_obj. destruct (objs s !! b) as [x|] eqn:Hb; [|done].
  assert (∀ a, (∃ b' x', objs s !! b' = Some x' ∧ a ∈ o_used x') → ∃ b' x',
      <[b := {| o_excl := o_excl x; o_root := o_root x; o_born := o_born x;
                o_used := o_used x ∪ kn s t; o_ts := o_ts x; o_own := o_own x |}]> (objs s) !! b' = Some x' ∧
      a ∈ o_used x') as Hacc.
  { intros a (b' & x' & Hb' & Ha). destruct (decide (b' = b)) as [->|Hn].
    - eexists b, _. split; [by rewrite lookup_insert|]. cbn. rewrite Hb in Hb'. injection Hb' as <-. set_solver.
    - exists b', x'. by rewrite lookup_insert_ne. }
  destruct H as [H|[b0 H]]; [left|right; exists b0]; constructor; try apply H;
    cbn [objs nobj writes set_objs reads undo].
  - intros b' x' Hb'. destruct (decide (b' = b)) as [->|Hn].
    + rewrite lookup_insert in Hb'. injection Hb' as <-. exact (f_objs _ _ _ _ H b x Hb).
    + rewrite lookup_insert_ne in Hb' by done. exact (f_objs _ _ _ _ H _ _ Hb').
  - rewrite map_size_insert_Some by (by exists x). apply H.
  - intros a Ha. destruct (f_acc _ _ _ _ H a Ha) as [?|?]; [by left|right; by apply Hacc].
  - destruct (g_obj _ _ _ H) as (x0 & Hx0 & He0 & Hr0). destruct (decide (b0 = b)) as [->|Hn].
    + eexists. split; [by rewrite lookup_insert|]. cbn. rewrite Hb in Hx0. injection Hx0 as <-. done.
    + exists x0. by rewrite lookup_insert_ne.
  - intros b' x' Hne Hb'. destruct (decide (b' = b)) as [->|Hn].
    + rewrite lookup_insert in Hb'. injection Hb' as <-. exact (g_objs _ _ _ H b x Hne Hb).
    + rewrite lookup_insert_ne in Hb' by done. exact (g_objs _ _ _ H _ _ Hne Hb').
  - rewrite map_size_insert_Some by (by exists x). apply H.
  - intros a Ha. apply Hacc. exact (g_acc _ _ _ H a Ha).
Qed.

Lemma del_core c e b s : core c e s → core c e (set_objs (delete b (objs s)) (nobj s) s).
Proof.
  intros H. constructor; try apply H; cbn [objs nobj writes set_objs reads].
  - intros b' x' Hb'. apply lookup_delete_Some in Hb' as [_ Hb']. exact (v_ts _ _ _ H _ _ Hb').
  - intros b' x' Hb'. apply lookup_delete_Some in Hb' as [_ Hb']. exact (v_nobj _ _ _ H _ _ Hb').
  - intros Hc b' x' Hb'. apply lookup_delete_Some in Hb' as [_ Hb']. exact (v_born _ _ _ H Hc _ _ Hb').
  - intros Hc b' x' Hb' Hx. apply lookup_delete_Some in Hb' as [_ Hb'].
    destruct (v_own _ _ _ H Hc _ _ Hb' Hx) as [H1 H2]. split; [exact H1|].
    intros b2 x2 Hb2. apply lookup_delete_Some in Hb2 as [_ Hb2]. exact (H2 _ _ Hb2).
Qed.

(** Dropping a shared borrow. *)
Lemma del_mode c v r t b x s :
  mode c v r s → objs s !! b = Some x → o_excl x = false → o_used x ⊆ kn s t →
  0 < v ∧
  mode c (v - 1) (r ∪ kn s t)
    (let s'' := set_objs (delete b (objs s)) (nobj s) s in
     match o_root x with Some r0 => use_obj t r0 s'' | None => s'' end).
Proof.
  intros H Hb Hx Hu. cbv zeta.
  assert (size (objs s) ≠ 0%nat) as Hnz.
  { intros E. apply map_size_empty_inv in E. rewrite E, lookup_empty in Hb. done. }
  pose proof (map_size_delete_Some b (objs s) (ltac:(by exists x))) as Hsz.
  destruct H as [H|[b0 H]].
  - destruct (f_objs _ _ _ _ H b x Hb) as (_ & Hr & _). rewrite Hr.
    pose proof (f_word _ _ _ _ H) as Hw. split; [lia|]. left. constructor; cbn [objs nobj writes set_objs reads undo].
    + intros b' x' Hb'. apply lookup_delete_Some in Hb' as [_ Hb']. exact (f_objs _ _ _ _ H _ _ Hb').
    + rewrite Hsz. lia.
    + intros Hc. pose proof (f_sync _ _ _ _ H Hc). set_solver.
    + intros a Ha. destruct (f_acc _ _ _ _ H a Ha) as [?|(b' & x' & Hb' & Ha')]; [left; set_solver|].
      destruct (decide (b' = b)) as [->|Hn].
      * left. rewrite Hb in Hb'. injection Hb' as <-. set_solver.
      * right. exists b', x'. by rewrite lookup_delete_ne.
  - destruct (g_obj _ _ _ H) as (x0 & Hx0 & He0 & Hr0).
    assert (b ≠ b0) as Hne by congruence.
    destruct (g_objs _ _ _ H b x Hne Hb) as [_ Hr]. rewrite Hr.
    pose proof (g_word _ _ _ H) as Hw. split; [nums; lia|]. right. exists b0.
    unfold use_obj. cbn [objs nobj writes set_objs reads undo]. rewrite lookup_delete_ne by done. rewrite Hx0.
    constructor; cbn [objs nobj writes set_objs reads undo].
    + eexists. split; [by rewrite lookup_insert|]. done.
    + intros b' x' Hne' Hb'. rewrite lookup_insert_ne in Hb' by done.
      apply lookup_delete_Some in Hb' as [_ Hb']. exact (g_objs _ _ _ H _ _ Hne' Hb').
    + apply H.
    + rewrite map_size_insert_Some by (exists x0; by rewrite lookup_delete_ne). rewrite Hsz. nums. lia.
    + intros a Ha. destruct (g_acc _ _ _ H a Ha) as (b' & x' & Hb' & Ha').
      change (kn (set_objs _ _ s)) with (kn s).
      destruct (decide (b' = b)) as [->|Hn].
      * exists b0. eexists. split; [by rewrite lookup_insert|]. cbn.
        rewrite Hb in Hb'. injection Hb' as <-. set_solver.
      * destruct (decide (b' = b0)) as [->|Hn0].
        -- eexists b0, _. split; [by rewrite lookup_insert|]. cbn. rewrite Hx0 in Hb'. injection Hb' as <-. set_solver.
        -- exists b', x'. rewrite lookup_insert_ne, lookup_delete_ne by done. done.
Qed.

(** A data access and the end of the use of the object. *)
Definition touch (w : bool) (t b : N) (s : wst) : wst :=
  (if w then wrote_obj t b else use_obj t b) (access w t s).

Lemma kn_access w t s t' :
  kn (access w t s) t' = if decide (t' = t) then kn s t ∪ {[nev s]} else kn s t'.
Proof. unfold kn at 1. cbn. destruct (decide (t' = t)) as [->|]; [by rewrite lookup_insert|by rewrite lookup_insert_ne]. Qed.

Lemma touch_ok c e v r w t b x s :
  core c e s → mode c v r s → objs s !! b = Some x →
  o_born x ⊆ kn s t → w_bound_ok c t b x s = true →
  (w = true → c_sync c = true → o_excl x = true ∧ reborrowed b s = false ∧ o_used x ⊆ kn s t) →
  core c e (touch w t b s) ∧ mode c v r (touch w t b s).
Proof.
  intros Hco Hm Hb Hborn Hbound Hw.
  set (k := kn s t ∪ {[nev s]}).
  set (x1 := {| o_excl := o_excl x; o_root := o_root x; o_born := if w then k else o_born x;
                o_used := o_used x ∪ k; o_ts := o_ts x; o_own := o_own x |}).
  assert (touch w t b s = set_objs (<[b := x1]> (objs s)) (nobj s) (access w t s)) as ->.
  { unfold touch, wrote_obj, use_obj, x1, k. destruct w; cbn [objs access nobj]; rewrite Hb;
      rewrite (kn_access _ t s t), decide_True by done; done. }
  assert (∀ t', kn (set_objs (<[b := x1]> (objs s)) (nobj s) (access w t s)) t' =
                if decide (t' = t) then k else kn s t') as Hkn.
  { intros t'. exact (kn_access w t s t'). }
  assert (∀ t', kn s t' ⊆ kn (set_objs (<[b := x1]> (objs s)) (nobj s) (access w t s)) t') as Hmono.
  { intros t'. rewrite Hkn. destruct (decide (t' = t)) as [->|]; [set_solver|done]. }
  assert (acc (set_objs (<[b := x1]> (objs s)) (nobj s) (access w t s)) ⊆ acc s ∪ {[nev s]}) as Hacc.
  { unfold acc. cbn [reads writes set_objs access]. destruct w; set_solver. }
  (* for Sync content a write is made by the only object *)
  assert (w = true → c_sync c = true → (∀ b' x', objs s !! b' = Some x' → b' = b) ∧ acc s ⊆ kn s t ∧ ∃ b0, held b0 v s) as Hsole.
  { intros Hwt Hc. destruct (Hw Hwt Hc) as (Hx & Hre & Hu). apply bool_decide_eq_false in Hre.
    destruct Hm as [Hf|[b0 Hh]].
    { destruct (f_objs _ _ _ _ Hf _ _ Hb). congruence. }
    assert (b = b0) as <-.
    { destruct (decide (b = b0)); [done|]. destruct (g_objs _ _ _ Hh b x); [done..|]. congruence. }
    assert (∀ b' x', objs s !! b' = Some x' → b' = b) as Honly.
    { intros b' x' Hb'. destruct (decide (b' = b)) as [|Hne]; [done|]. exfalso. apply Hre.
      exists b', x'. split; [done|]. by destruct (g_objs _ _ _ Hh b' x' Hne Hb'). }
    split_and!; [done| |by exists b]. intros a Ha. destruct (g_acc _ _ _ Hh a Ha) as (b' & x' & Hb' & Hax).
    pose proof (Honly _ _ Hb') as ->. rewrite Hb in Hb'. injection Hb' as <-. by apply Hu. }
  assert (∀ a, a ∈ acc (set_objs (<[b := x1]> (objs s)) (nobj s) (access w t s)) →
            a ∈ acc s ∨ ∃ b' x', <[b := x1]> (objs s) !! b' = Some x' ∧ a ∈ o_used x') as Hnew.
  { intros a Ha. apply Hacc in Ha. apply elem_of_union in Ha as [Ha|Ha]; [by left|]. right.
    exists b, x1. split; [by rewrite lookup_insert|]. cbn. unfold k. set_solver. }
  assert (∀ a, (∃ b' x', objs s !! b' = Some x' ∧ a ∈ o_used x') →
               ∃ b' x', <[b := x1]> (objs s) !! b' = Some x' ∧ a ∈ o_used x') as Hold.
  { intros a (b' & x' & Hb' & Ha). destruct (decide (b' = b)) as [->|Hn].
    - exists b, x1. split; [by rewrite lookup_insert|]. cbn. rewrite Hb in Hb'. injection Hb' as <-. set_solver.
    - exists b', x'. by rewrite lookup_insert_ne. }
  split.
  - constructor; cbn [objs nobj writes set_objs reads undo access raced dead].
    + intros b' x' Hb'. destruct (decide (b' = b)) as [->|Hn].
      * rewrite lookup_insert in Hb'. injection Hb' as <-. exact (v_ts _ _ _ Hco b x Hb).
      * rewrite lookup_insert_ne in Hb' by done. exact (v_ts _ _ _ Hco _ _ Hb').
    + intros b' x' Hb'. destruct (decide (b' = b)) as [->|Hn].
      * exact (v_nobj _ _ _ Hco b x Hb).
      * rewrite lookup_insert_ne in Hb' by done. exact (v_nobj _ _ _ Hco _ _ Hb').
    + exact (v_undo _ _ _ Hco).
    + intros Hc b' x' Hb'. destruct w.
      * destruct (Hsole eq_refl Hc) as (Honly & Ha & _).
        destruct (decide (b' = b)) as [->|Hn].
        -- rewrite lookup_insert in Hb'. injection Hb' as <-. cbn. unfold k, acc in *. set_solver.
        -- rewrite lookup_insert_ne in Hb' by done. by apply Honly in Hb'.
      * destruct (decide (b' = b)) as [->|Hn].
        -- rewrite lookup_insert in Hb'. injection Hb' as <-. exact (v_born _ _ _ Hco Hc b x Hb).
        -- rewrite lookup_insert_ne in Hb' by done. exact (v_born _ _ _ Hco Hc _ _ Hb').
    + intros Hc b' x' Hb' Hx'.
      destruct (bound_all _ _ _ _ _ _ _ _ Hco Hm Hb Hbound Hc) as [Ha Hall].
      assert (o_own x' = t) as Ht.
      { destruct (decide (b' = b)) as [->|Hn].
        - rewrite lookup_insert in Hb'. injection Hb' as <-. exact (proj2 (Hall _ _ Hb) Hx').
        - rewrite lookup_insert_ne in Hb' by done. exact (proj2 (Hall _ _ Hb') Hx'). }
      rewrite Ht, Hkn, decide_True by done. split; [unfold k; set_solver|].
      intros b2 x2 Hb2. destruct (decide (b2 = b)) as [->|Hn].
      * rewrite lookup_insert in Hb2. injection Hb2 as <-. destruct (Hall _ _ Hb) as [H3 H4].
        split; [cbn; unfold k; set_solver|exact H4].
      * rewrite lookup_insert_ne in Hb2 by done. destruct (Hall _ _ Hb2) as [H3 H4].
        split; [unfold k; set_solver|exact H4].
    + rewrite (v_race _ _ _ Hco). cbn [orb]. apply negb_false_iff, bool_decide_eq_true.
      destruct (c_sync c) eqn:Hc.
      * destruct w.
        -- destruct (Hsole eq_refl eq_refl) as (_ & Ha & _). exact Ha.
        -- etransitivity; [exact (v_born _ _ _ Hco Hc b x Hb)|exact Hborn].
      * destruct (bound_all _ _ _ _ _ _ _ _ Hco Hm Hb Hbound Hc) as [Ha _].
        unfold acc in Ha. destruct w; set_solver.
    + exact (v_dead _ _ _ Hco).
  - destruct Hm as [H|[b0 H]]; [left|right; exists b0]; constructor;
      cbn [objs nobj writes set_objs reads undo access raced dead].
    + intros b' x' Hb'. destruct (decide (b' = b)) as [->|Hn].
      * rewrite lookup_insert in Hb'. injection Hb' as <-. exact (f_objs _ _ _ _ H b x Hb).
      * rewrite lookup_insert_ne in Hb' by done. exact (f_objs _ _ _ _ H _ _ Hb').
    + rewrite map_size_insert_Some by (by exists x). apply H.
    + intros Hc. destruct w; [|by apply H]. destruct (Hw eq_refl Hc) as (Hx & _).
      destruct (f_objs _ _ _ _ H b x Hb). congruence.
    + intros a Ha. destruct (Hnew a Ha) as [Ha'|?]; [|by right].
      destruct (f_acc _ _ _ _ H a Ha') as [?|?]; [by left|right; by apply Hold].
    + destruct (g_obj _ _ _ H) as (x0 & Hx0 & He0 & Hr0). destruct (decide (b0 = b)) as [->|Hn].
      * exists x1. split; [by rewrite lookup_insert|]. cbn. rewrite Hb in Hx0. injection Hx0 as <-. done.
      * exists x0. by rewrite lookup_insert_ne.
    + intros b' x' Hne Hb'. destruct (decide (b' = b)) as [->|Hn].
      * rewrite lookup_insert in Hb'. injection Hb' as <-. exact (g_objs _ _ _ H b x Hne Hb).
      * rewrite lookup_insert_ne in Hb' by done. exact (g_objs _ _ _ H _ _ Hne Hb').
    + apply H.
    + rewrite map_size_insert_Some by (by exists x). apply H.
    + intros a Ha. destruct (Hnew a Ha) as [Ha'|?]; [|done]. apply Hold. exact (g_acc _ _ _ H a Ha').
Qed.

(** * Every step keeps the invariant *)
Definition good (c : cell_cfg) (s : wst) : Prop :=
  winv c s ∨ (dead s = true ∧ raced s = false ∧ excl_ok s).

Lemma winv_init c : winv c w_init.
Proof.
  exists 0, 0, {| m_val := 0; m_rel := ∅ |}. split_and!.
  - constructor.
    + done.
    + intros τ Hτ. replace τ with 0 by lia. cbn. rewrite lookup_singleton. by eexists.
    + intros τ Hτ. cbn. apply lookup_singleton_ne. lia.
    + lia.
    + intros τ m H. cbn in H. apply lookup_singleton_Some in H as [_ <-]. done.
  - cbn. apply lookup_singleton.
  - constructor; cbn.
    + intros ? ? H. by rewrite lookup_empty in H.
    + intros ? ? H. by rewrite lookup_empty in H.
    + intros t [? H]. by rewrite lookup_empty in H.
    + intros _ ? ? H. by rewrite lookup_empty in H.
    + intros _ ? ? H. by rewrite lookup_empty in H.
    + done.
    + done.
  - left. constructor; cbn.
    + intros ? ? H. by rewrite lookup_empty in H.
    + done.
    + done.
    + intros a Ha. unfold acc in Ha. cbn in Ha. set_solver.
Qed.

Lemma add1 v : v < MAX_FAILED_BORROWS → fetch_add1 v = v + 1.
Proof. intros H. unfold fetch_add1. apply N.mod_small. nums. lia. Qed.
Lemma sub1 v : 0 < v → v < MAX_FAILED_BORROWS → fetch_sub1 v = v - 1.
Proof. intros H1 H2. apply fetch_sub1_pos; [done|]. nums. lia. Qed.

(** The state is dead, and nothing else has changed that matters. *)
Lemma good_die c e v r s : core c e s → mode c v r s → good c (die s).
Proof.
  intros Hco Hm. right. split; [done|]. split; [exact (v_race _ _ _ Hco)|].
  intros b x b' x' H H' Hne Hx. cbn in H, H'. destruct Hm as [Hf|[b0 Hh]].
  - destruct (f_objs _ _ _ _ Hf _ _ H) as (Hf' & _). congruence.
  - destruct (decide (b = b0)) as [->|Hb].
    + exact (g_objs _ _ _ Hh _ _ Hne H').
    + destruct (g_objs _ _ _ Hh _ _ Hb H). congruence.
Qed.

Lemma undo_core c e t s :
  core c e s → e < sn s t → core c e (set_undo (<[t := tt]> (undo s)) s).
Proof.
  intros H Ht. constructor; try apply H. cbn [undo set_undo].
  intros t' Ht'. change (sn (set_undo _ s)) with (sn s). destruct (decide (t' = t)) as [->|Hn]; [done|].
  rewrite lookup_insert_ne in Ht' by done. exact (v_undo _ _ _ H _ Ht').
Qed.
Lemma undo_free c v r t s :
  free c v r s → undo s !! t = None → free c (v + 1) r (set_undo (<[t := tt]> (undo s)) s).
Proof.
  intros H Ht. constructor; try apply H. cbn [objs undo set_undo].
  rewrite map_size_insert_None by done. pose proof (f_word _ _ _ _ H). lia.
Qed.

(** read *)
Lemma good_read c o t τ s s' :
  enough o → winv c s → undo s !! t = None → (c_sync c = false → c_send c = Some t) →
  w_read o t τ s = Some s' → good c s'.
Proof.
  intros (Har & _) (e & l & m & Hh & Hl & Hco & Hm) Hu Hhome. unfold w_read. rewrite Har.
  destruct (rmw true false fetch_add1 t τ s) as [s1|] eqn:Hr; [|done].
  apply rmw_inv in Hr as (m1 & k & Hm1 & Hf & Hsn & Hk & Hs1).
  pose proof (h_small _ _ _ Hh _ _ Hm1) as Hsm.
  rewrite (add1 _ Hsm) in Hs1.
  assert (kn s t ⊆ k) as Hkk by (subst k; set_solver).
  assert (core c e s1) as Hco1 by (subst s1; apply core_put; [done|lia|done]).
  assert (mode c (m_val m) (m_rel m) s1) as Hmo1 by (subst s1; by apply mode_put).
  assert (val_at (τ + 1) s1 = m_val m1 + 1) as Hval.
  { subst s1. unfold val_at. cbn [hist put_msg]. by rewrite lookup_insert. }
  assert (undo s1 = undo s) as Hus by (by subst s1).
  rewrite Hval, high_spec by (nums; lia).
  destruct (decide (τ < e)) as [Hlt|Hge].
  - (* an outdated message: the high bit is set *)
    pose proof (h_old _ _ _ Hh _ _ Hlt Hm1 Hf) as Hhigh.
    destruct (N.leb_spec HIGH_BIT (m_val m1 + 1)) as [_|?]; [|lia].
    intros E. injection E as <-. unfold overflow. rewrite Hval.
    destruct (N.eqb_spec (m_val m1 + 1) HIGH_BIT) as [?|_]; [lia|].
    destruct (N.leb_spec MAX_FAILED_BORROWS (m_val m1 + 1)) as [_|Hlt'].
    + exact (good_die _ _ _ _ _ Hco1 Hmo1).
    + destruct (hist_old (hist s) e l τ m1 {| m_val := m_val m1 + 1; m_rel := m_rel m1 |} Hh Hm1 Hf Hlt)
        as [H1 H2]; [cbn [m_val]; lia|].
      left. exists e, l, m. split_and!; [..|done|done].
      * subst s1. exact H1.
      * subst s1. cbn [hist put_msg]. by rewrite H2.
  - assert (τ = l) as -> by (apply (hist_last _ _ _ _ _ Hh Hm1 Hf); lia).
    rewrite Hl in Hm1. injection Hm1 as <-.
    destruct (N.leb_spec HIGH_BIT (m_val m + 1)) as [Hhigh|Hlow].
    + intros E. injection E as <-. unfold overflow. rewrite Hval.
      destruct (N.eqb_spec (m_val m + 1) HIGH_BIT) as [Heq|Hne].
      * left. exists e, (l + 1). eexists. split_and!.
        -- subst s1. cbn [hist put_msg set_undo]. apply hist_snoc; [done|]. cbn [m_val]. nums. lia.
        -- subst s1. cbn [hist put_msg set_undo]. apply lookup_insert.
        -- apply undo_core; [done|]. subst s1. rewrite sn_put, decide_True by done. pose proof (h_le _ _ _ Hh). lia.
        -- left. cbn [m_val m_rel]. apply undo_free; [|by rewrite Hus].
           destruct Hmo1 as [Hf1|[b0 Hh1]]; [done|]. exfalso.
           destruct (g_obj _ _ _ Hh1) as (x0 & Hx0 & _). pose proof (g_word _ _ _ Hh1) as Hw.
           assert (size (objs s1) ≠ 0%nat) as Hnz.
           { intros E. apply map_size_empty_inv in E. rewrite E, lookup_empty in Hx0. done. }
           lia.
      * destruct (N.leb_spec MAX_FAILED_BORROWS (m_val m + 1)) as [_|Hlt'].
        -- exact (good_die _ _ _ _ _ Hco1 Hmo1).
        -- left. exists e, (l + 1). eexists. split_and!.
           ++ subst s1. cbn [hist put_msg]. apply hist_snoc; [done|]. cbn [m_val]. lia.
           ++ subst s1. cbn [hist put_msg]. apply lookup_insert.
           ++ done.
           ++ cbn [m_val m_rel]. by apply (mode_le _ _ _ _ _ _ Hmo1); [lia|].
    + intros E. injection E as <-.
      assert (free c (m_val m) (m_rel m) s1) as Hf1.
      { destruct Hmo1 as [Hf1|[b0 Hh1]]; [done|]. exfalso.
        destruct (g_obj _ _ _ Hh1) as (x0 & Hx0 & _). pose proof (g_word _ _ _ Hh1) as Hw.
        assert (size (objs s1) ≠ 0%nat) as Hnz.
        { intros E. apply map_size_empty_inv in E. rewrite E, lookup_empty in Hx0. done. }
        lia. }
      assert (kn s1 t = k) as Hk1 by (subst s1; by rewrite kn_put, decide_True by done).
      left. exists e, (l + 1). eexists. split_and!.
      * subst s1. cbn [hist put_msg new_obj set_objs]. apply hist_snoc; [done|]. cbn [m_val]. nums. lia.
      * subst s1. cbn [hist put_msg new_obj set_objs]. apply lookup_insert.
      * apply new_shared; [done|pose proof (h_le _ _ _ Hh); lia|by rewrite Hus| |].
        -- intros Hc. rewrite Hk1. pose proof (f_sync _ _ _ _ Hf1 Hc). subst k. set_solver.
        -- intros Hc. rewrite Hk1. specialize (Hhome Hc).
           assert (∀ b x, objs s1 !! b = Some x → o_own x = t ∧ o_excl x = false) as Hown.
           { intros b x Hb. destruct (f_objs _ _ _ _ Hf1 _ _ Hb) as (Hx & _ & Hh'). split; [|done]. by apply Hh'. }
           assert (∀ b x, objs s1 !! b = Some x → o_used x ⊆ k) as Hused.
           { intros b x Hb. destruct (Hown _ _ Hb) as [Ho Hx].
             destruct (v_own _ _ _ Hco1 Hc _ _ Hb Hx) as [_ H2]. destruct (H2 _ _ Hb) as [H3 _].
             rewrite Ho, Hk1 in H3. done. }
           split.
           ++ intros a Ha. destruct (f_acc _ _ _ _ Hf1 a Ha) as [Ha'|(b & x & Hb & Ha')].
              ** subst k. set_solver.
              ** by apply (Hused _ _ Hb).
           ++ intros b x Hb. split; [by apply (Hused b)|]. intros _. by apply (Hown b).
      * left. cbn [m_val m_rel]. apply (free_new _ e); [done..|]. intros Hc h Hs. specialize (Hhome Hc). congruence.
Qed.

(** A failed compare-exchange *)
Lemma good_saw c t τ s : winv c s → sn s t <= τ → good c (saw t τ s).
Proof.
  intros (e & l & m & Hh & Hl & Hco & Hm) Hsn. left. exists e, l, m. split_and!; [done..| |].
  - constructor; try apply Hco. intros t' Ht'. unfold sn. cbn [seen saw].
    pose proof (v_undo _ _ _ Hco t' Ht') as Hu. destruct (decide (t' = t)) as [->|Hn].
    + rewrite lookup_insert. cbn. lia.
    + rewrite lookup_insert_ne by done. done.
  - destruct Hm as [H|[b H]]; [left|right; exists b]; constructor; apply H.
Qed.

(** A compare-exchange that succeeds finds the cell free and learns all accesses. *)
Lemma cas_free c acq new t τ s s1 :
  acq = true → winv c s → new < MAX_FAILED_BORROWS → cas acq new t τ s = Some (s1, true) →
  ∃ e l m, e <= l ∧ τ = l ∧ hist_ok (hist s1) e (l + 1) ∧
    hist s1 !! (l + 1) = Some {| m_val := new; m_rel := m_rel m |} ∧ core c e s1 ∧
    objs s1 = ∅ ∧ undo s1 = ∅ ∧ free c 0 (m_rel m) s1 ∧ m_rel m ⊆ kn s1 t ∧ acc s1 ⊆ m_rel m.
Proof.
  intros -> (e & l & m & Hh & Hl & Hco & Hm) Hnew. unfold cas.
  destruct (hist s !! τ) as [m0|] eqn:Hm0; [|done]. destruct (N.eqb_spec (m_val m0) 0) as [Hz|Hnz].
  2: { by destruct (sn s t <=? τ). }
  destruct (rmw true false (λ _, new) t τ s) as [s2|] eqn:Hr; [|done].
  intros E. injection E as <-. apply rmw_inv in Hr as (m1 & k & Hm1 & Hf & Hsn & Hk & Hs2).
  rewrite Hm0 in Hm1. injection Hm1 as <-.
  destruct (decide (τ < e)) as [Hlt|Hge].
  { pose proof (h_old _ _ _ Hh _ _ Hlt Hm0 Hf). nums. lia. }
  assert (τ = l) as -> by (apply (hist_last _ _ _ _ _ Hh Hm0 Hf); lia).
  rewrite Hl in Hm0. injection Hm0 as <-. rewrite Hz in Hm.
  assert (kn s t ⊆ k) as Hkk by (subst k; set_solver).
  assert (free c 0 (m_rel m) s) as Hfr.
  { destruct Hm as [?|[b0 Hh0]]; [done|]. pose proof (g_word _ _ _ Hh0) as Hw.
    destruct (g_obj _ _ _ Hh0) as (x0 & Hx0 & _). 
    assert (size (objs s) ≠ 0%nat) as Hnz.
    { intros E. apply map_size_empty_inv in E. rewrite E, lookup_empty in Hx0. done. }
    nums. lia. }
  pose proof (f_word _ _ _ _ Hfr) as Hw.
  assert (objs s = ∅) as Ho by (apply map_size_empty_inv; lia).
  assert (undo s = ∅) as Hu by (apply map_size_empty_inv; lia).
  exists e, l, m. split_and!.
  - apply (h_le _ _ _ Hh).
  - done.
  - subst s2. cbn [hist put_msg]. by apply hist_snoc.
  - subst s2. cbn [hist put_msg]. apply lookup_insert.
  - subst s2. apply core_put; [done|lia|done].
  - by subst s2.
  - by subst s2.
  - subst s2. constructor; apply Hfr.
  - subst s2. rewrite kn_put, decide_True by done. subst k. set_solver.
  - subst s2. intros a Ha. destruct (f_acc _ _ _ _ Hfr a Ha) as [?|(b & x & Hb & _)]; [done|].
    rewrite Ho, lookup_empty in Hb. done.
Qed.
Lemma cas_fail acq new t τ s s1 :
  cas acq new t τ s = Some (s1, false) → sn s t <= τ ∧ s1 = saw t τ s.
Proof.
  unfold cas. destruct (hist s !! τ) as [m|]; [|done]. destruct (m_val m =? 0).
  { by destruct (rmw _ _ _ _ _ _). }
  destruct (N.leb_spec (sn s t) τ); [|done]. intros E. by injection E as <-.
Qed.

(** exclusive_read *)
Lemma good_xread c o t τ s s' :
  enough o → winv c s → undo s !! t = None → c_send c = None →
  w_xread o t τ s = Some s' → good c s'.
Proof.
  intros (_ & Har & _) Hw Hu Hhome. unfold w_xread.
  destruct (cas (a_xread o) 1 t τ s) as [[s1 []]|] eqn:Hr; [|intros E; injection E as <-|done].
  2: { apply cas_fail in Hr as [Hsn ->]. by apply good_saw. }
  intros E. injection E as <-.
  apply (cas_free c) in Hr as (e & l & m & Hle & -> & Hh & Hl & Hco & Ho & Hun & Hfr & Hk & Ha); [|done..].
  left. eexists e, (l + 1), _. split_and!; [exact Hh|exact Hl| |].
  - apply new_shared; [done|lia|by rewrite Hun, lookup_empty| |].
    + intros Hc. pose proof (f_sync _ _ _ _ Hfr Hc). set_solver.
    + intros Hc. split; [set_solver|]. intros b x Hb. rewrite Ho, lookup_empty in Hb. done.
  - left. cbn [m_val m_rel]. apply (free_new c e 0 (m_rel m)); [done..|]. congruence.
Qed.

(** write *)
Lemma good_write c o t τ s s' :
  enough o → winv c s → undo s !! t = None → w_write o t τ s = Some s' → good c s'.
Proof.
  intros (_ & _ & Har & _) Hw Hu. unfold w_write.
  destruct (cas (a_write o) HIGH_BIT t τ s) as [[s1 []]|] eqn:Hr; [|intros E; injection E as <-|done].
  2: { apply cas_fail in Hr as [Hsn ->]. by apply good_saw. }
  intros E. injection E as <-.
  apply (cas_free c) in Hr as (e & l & m & Hle & -> & Hh & Hl & Hco & Ho & Hun & Hfr & Hk & Ha); [|done..].
  assert (acc s1 ⊆ kn s1 t) as Hacc by set_solver.
  left. eexists e, (l + 1), _. split_and!; [exact Hh|exact Hl| |].
  - constructor; cbn [objs nobj writes set_objs reads undo new_obj raced dead]; rewrite ?Ho, ?Hun.
    + intros b x Hb. apply lookup_insert_Some in Hb as [[_ <-]|[_ Hb]]; [cbn [o_ts]; lia|]. by rewrite lookup_empty in Hb.
    + intros b x Hb. apply lookup_insert_Some in Hb as [[<- _]|[_ Hb]]; [lia|]. by rewrite lookup_empty in Hb.
    + intros t' Ht'. destruct Ht' as [? Ht']. by rewrite lookup_empty in Ht'.
    + intros _ b x Hb. apply lookup_insert_Some in Hb as [[_ <-]|[_ Hb]]; [|by rewrite lookup_empty in Hb].
      cbn. unfold acc in Hacc. set_solver.
    + intros _ b x Hb Hx. apply lookup_insert_Some in Hb as [[_ <-]|[_ Hb]]; [done|]. by rewrite lookup_empty in Hb.
    + exact (v_race _ _ _ Hco).
    + exact (v_dead _ _ _ Hco).
  - right. exists (nobj s1). constructor; cbn [objs nobj writes set_objs reads undo new_obj]; rewrite ?Ho.
    + eexists. by rewrite lookup_insert.
    + intros b' x Hne Hb. rewrite lookup_insert_ne in Hb by done. by rewrite lookup_empty in Hb.
    + done.
    + rewrite insert_empty, map_size_singleton. cbn [m_val]. lia.
    + intros a Ha'. eexists _, _. rewrite lookup_insert. split; [done|]. cbn. by apply Hacc.
Qed.

(** clone and shared_reborrow *)
Lemma good_clone c o t b τ s s' :
  winv c s → undo s !! t = None → w_clone o c t b τ s = Some s' → good c s'.
Proof.
  intros (e & l & m & Hh & Hl & Hco & Hm) Hu. unfold w_clone.
  destruct (objs s !! b) as [x|] eqn:Hb; [|done].
  destruct (w_shared_ok t x s && w_bound_ok c t b x s) eqn:Hg; [|done].
  apply andb_true_iff in Hg as [Hg Hbound]. apply andb_true_iff in Hg as [Hborn Hts].
  apply bool_decide_eq_true in Hborn. apply N.leb_le in Hts.
  destruct (rmw _ false fetch_add1 t τ s) as [s1|] eqn:Hr; [|done].
  apply rmw_inv in Hr as (m1 & k & Hm1 & Hf & Hsn & Hk & Hs1).
  pose proof (v_ts _ _ _ Hco _ _ Hb) as Hets.
  assert (τ = l) as -> by (apply (hist_last _ _ _ _ _ Hh Hm1 Hf); lia).
  rewrite Hl in Hm1. injection Hm1 as <-.
  pose proof (h_small _ _ _ Hh _ _ Hl) as Hsm. rewrite (add1 _ Hsm) in Hs1.
  assert (kn s t ⊆ k) as Hkk by (subst k; destruct (a_clone o); set_solver).
  assert (c_sync c = false → acc s ⊆ k ∧ ∀ b' x', objs s !! b' = Some x' →
            o_used x' ⊆ k ∧ (o_excl x' = false → o_own x' = t)) as Hall.
  { intros Hc. destruct (bound_all _ _ _ _ _ _ _ _ Hco Hm Hb Hbound Hc) as [H1 H2].
    split; [set_solver|]. intros b' x' Hb'. destruct (H2 _ _ Hb') as [H3 H4]. split; [set_solver|done]. }
  set (s2 := use_obj t b s1).
  assert (kn s1 t = k) as Hk1 by (subst s1; by rewrite kn_put, decide_True by done).
  assert (core c e s1) as Hco1 by (subst s1; apply core_put; [done|lia|done]).
  assert (core c e s2) as Hco2.
  { apply use_core; [done|]. intros Hc b' x' Hb' Hx'. subst s1. exact (proj2 (proj2 (Hall Hc) b' x' Hb') Hx'). }
  assert (mode c (m_val m) (m_rel m) s2) as Hmo2 by (apply use_mode; subst s1; by apply mode_put).
  assert (hist s2 = <[l + 1 := {| m_val := m_val m + 1; m_rel := m_rel m |}]> (hist s)) as Hhs.
  { unfold s2, use_obj. destruct (objs s1 !! b); subst s1; done. }
  assert (undo s2 = undo s) as Hus.
  { unfold s2, use_obj. destruct (objs s1 !! b); subst s1; done. }
  assert (writes s2 = writes s ∧ acc s2 = acc s) as [Hws Has].
  { unfold s2, use_obj, acc. destruct (objs s1 !! b); subst s1; done. }
  assert (kn s2 t = k) as Hk2.
  { rewrite <- Hk1. unfold s2, use_obj. by destruct (objs s1 !! b). }
  assert (sn s2 t = l + 1) as Hs2.
  { assert (seen s2 = <[t := l + 1]> (seen s)) as Hse.
    { unfold s2, use_obj. destruct (objs s1 !! b); subst s1; done. }
    unfold sn. by rewrite Hse, lookup_insert. }
  assert (objs s2 = <[b := {| o_excl := o_excl x; o_root := o_root x; o_born := o_born x;
            o_used := o_used x ∪ k; o_ts := o_ts x; o_own := o_own x |}]> (objs s)) as Hos.
  { unfold s2, use_obj. assert (objs s1 = objs s) as -> by (by subst s1). rewrite Hb, Hk1. by subst s1. }
  assert (val_at (l + 1) s2 = m_val m + 1) as Hval by (unfold val_at; rewrite Hhs; by rewrite lookup_insert).
  pose proof (h_le _ _ _ Hh) as Hle.
  intros E. injection E as <-. fold s2. unfold overflow. rewrite Hval.
  destruct (N.eqb_spec (m_val m + 1) HIGH_BIT) as [Heq|Hne].
  - left. exists e, (l + 1). eexists. split_and!.
    + cbn [hist set_undo]. rewrite Hhs. apply hist_snoc; [done|]. cbn [m_val]. nums. lia.
    + cbn [hist set_undo]. rewrite Hhs. apply lookup_insert.
    + apply undo_core; [done|lia].
    + left. cbn [m_val m_rel]. apply undo_free; [|by rewrite Hus].
      destruct Hmo2 as [Hf1|[b0 Hh1]]; [done|]. exfalso.
      destruct (g_obj _ _ _ Hh1) as (x0 & Hx0 & _). pose proof (g_word _ _ _ Hh1) as Hw.
      assert (size (objs s2) ≠ 0%nat) as Hnz.
      { intros E. apply map_size_empty_inv in E. rewrite E, lookup_empty in Hx0. done. }
      lia.
  - destruct (N.leb_spec MAX_FAILED_BORROWS (m_val m + 1)) as [_|Hlt'].
    + exact (good_die _ _ _ _ _ Hco2 Hmo2).
    + left. exists e, (l + 1). eexists. split_and!.
      * cbn [hist new_obj set_objs]. rewrite Hhs. apply hist_snoc; [done|]. cbn [m_val]. lia.
      * cbn [hist new_obj set_objs]. rewrite Hhs. apply lookup_insert.
      * apply new_shared; [done|lia|by rewrite Hus| |].
        -- intros Hc. rewrite Hws, Hk2. pose proof (v_born _ _ _ Hco Hc _ _ Hb). set_solver.
        -- intros Hc. rewrite Has, Hk2. destruct (Hall Hc) as [H1 H2]. split; [done|].
           intros b' x' Hb'. rewrite Hos in Hb'. destruct (decide (b' = b)) as [->|Hn].
           ++ rewrite lookup_insert in Hb'. injection Hb' as <-. cbn. destruct (H2 _ _ Hb). split; [set_solver|done].
           ++ rewrite lookup_insert_ne in Hb' by done. exact (H2 b' x' Hb').
      * cbn [m_val m_rel]. destruct Hmo2 as [Hf2|[b0 Hh2]].
        -- left. assert (objs s2 !! b = Some {| o_excl := o_excl x; o_root := o_root x; o_born := o_born x;
            o_used := o_used x ∪ k; o_ts := o_ts x; o_own := o_own x |}) as Hb2 by (rewrite Hos; apply lookup_insert).
           destruct (f_objs _ _ _ _ Hf2 _ _ Hb2) as (Hx & Hro & Hhome). cbn in Hx, Hro, Hhome. rewrite Hx, Hro.
           apply (free_new _ e); [done..|]. intros Hc h Hs. destruct (Hall Hc) as [_ H2].
           destruct (H2 _ _ Hb) as [_ Ho]. rewrite <- (Hhome Hc h Hs). symmetry. by apply Ho.
        -- right. exists b0.
           assert (objs s2 !! b = Some {| o_excl := o_excl x; o_root := o_root x; o_born := o_born x;
            o_used := o_used x ∪ k; o_ts := o_ts x; o_own := o_own x |}) as Hb2 by (rewrite Hos; apply lookup_insert).
           assert ((if o_excl x then Some b else o_root x) = Some b0) as ->.
           { destruct (decide (b = b0)) as [->|Hn].
             - destruct (g_obj _ _ _ Hh2) as (x0 & Hx0 & He0 & _). rewrite Hb2 in Hx0. injection Hx0 as <-.
               cbn in He0. by rewrite He0.
             - destruct (g_objs _ _ _ Hh2 _ _ Hn Hb2) as [H1 H2]. cbn in H1, H2. by rewrite H1. }
           by apply (held_new c e).
Qed.

(** drop *)
Lemma good_drop c o t b τ s s' :
  enough o → winv c s → undo s !! t = None → w_drop o c t b τ s = Some s' → good c s'.
Proof.
  intros (_ & _ & _ & Hrs & Hrx) (e & l & m & Hh & Hl & Hco & Hm) Hu. unfold w_drop.
  destruct (objs s !! b) as [x|] eqn:Hb; [|done].
  destruct (w_sole_ok t b x s && w_bound_ok c t b x s) eqn:Hg; [|done].
  apply andb_true_iff in Hg as [Hg Hbound]. apply andb_true_iff in Hg as [Hg Hre].
  apply andb_true_iff in Hg as [Hused Hts].
  apply bool_decide_eq_true in Hused. apply N.leb_le in Hts. apply negb_true_iff in Hre.
  pose proof (v_ts _ _ _ Hco _ _ Hb) as Hets.
  pose proof (h_small _ _ _ Hh _ _ Hl) as Hsm.
  destruct (o_excl x) eqn:Hx.
  - cbn in Hre. apply bool_decide_eq_false in Hre. unfold w_drop_excl.
    destruct (hist s !! τ) eqn:Hfree; [done|]. destruct (N.ltb_spec (sn s t) τ) as [Hlt|]; [|done].
    rewrite Hrx. intros E. injection E as <-.
    destruct Hm as [Hf|[b0 Hh0]].
    { destruct (f_objs _ _ _ _ Hf _ _ Hb). congruence. }
    assert (b = b0) as <-.
    { destruct (decide (b = b0)); [done|]. destruct (g_objs _ _ _ Hh0 b x); [done..|]. congruence. }
    assert (l < τ) as Hlτ.
    { destruct (decide (l < τ)) as [|Hn]; [done|]. destruct (h_range _ _ _ Hh τ) as [? E]; [lia|]. congruence. }
    assert (∀ b' x', objs s !! b' = Some x' → b' = b) as Honly.
    { intros b' x' Hb'. destruct (decide (b' = b)) as [|Hne]; [done|]. exfalso. apply Hre.
      exists b', x'. split; [done|]. by destruct (g_objs _ _ _ Hh0 b' x' Hne Hb'). }
    assert (delete b (objs s) = ∅) as Hemp.
    { apply map_empty. intros b'. destruct (delete b (objs s) !! b') as [x'|] eqn:E; [|done].
      apply lookup_delete_Some in E as [Hne E]. apply Honly in E. congruence. }
    assert (HIGH_BIT <= m_val m) as Hhigh.
    { pose proof (g_word _ _ _ Hh0) as Hw. assert (size (objs s) ≠ 0%nat) as Hnz.
      { intros E. apply map_size_empty_inv in E. rewrite E, lookup_empty in Hb. done. }
      lia. }
    assert (acc s ⊆ kn s t) as Hacc.
    { intros a Ha. destruct (g_acc _ _ _ Hh0 a Ha) as (b' & x' & Hb' & Hax).
      pose proof (Honly _ _ Hb') as ->. rewrite Hb in Hb'. injection Hb' as <-. by apply Hused. }
    left. exists τ, τ. eexists. split_and!.
    + cbn [hist set_objs put_msg]. apply (hist_store _ e l m); [done..|]. cbn. nums. lia.
    + cbn [hist set_objs put_msg]. apply lookup_insert.
    + constructor; cbn [objs nobj writes set_objs reads undo put_msg raced dead]; rewrite ?Hemp.
      * intros ? ? H. by rewrite lookup_empty in H.
      * intros ? ? H. by rewrite lookup_empty in H.
      * rewrite (g_undo _ _ _ Hh0). intros t' [? H]. by rewrite lookup_empty in H.
      * intros _ ? ? H. by rewrite lookup_empty in H.
      * intros _ ? ? H. by rewrite lookup_empty in H.
      * exact (v_race _ _ _ Hco).
      * exact (v_dead _ _ _ Hco).
    + left. constructor; cbn [objs nobj writes set_objs reads undo put_msg m_val m_rel]; rewrite ?Hemp.
      * intros ? ? H. by rewrite lookup_empty in H.
      * rewrite (g_undo _ _ _ Hh0). done.
      * intros _. unfold acc in Hacc. set_solver.
      * intros a Ha. left. by apply Hacc.
  - unfold w_drop_shared. rewrite Hrs.
    destruct (rmw false true fetch_sub1 t τ s) as [s1|] eqn:Hr; [|done].
    apply rmw_inv in Hr as (m1 & k & Hm1 & Hf & Hsn & Hk & Hs1).
    assert (τ = l) as -> by (apply (hist_last _ _ _ _ _ Hh Hm1 Hf); lia).
    rewrite Hl in Hm1. injection Hm1 as <-. subst k.
    assert (kn s1 t = kn s t) as Hk1 by (subst s1; by rewrite kn_put, decide_True by done).
    assert (objs s1 = objs s ∧ undo s1 = undo s) as [Ho1 Hu1] by (by subst s1).
    assert (core c e s1) as Hco1 by (subst s1; apply core_put; [done|lia|done]).
    assert (mode c (m_val m) (m_rel m) s1) as Hmo1 by (subst s1; by apply mode_put).
    destruct (del_mode c _ _ t b x s1 Hmo1) as [Hpos Hmo2]; [by rewrite Ho1|done|by rewrite Hk1|].
    rewrite (sub1 _ Hpos Hsm) in Hs1. rewrite Hk1 in Hmo2. cbv zeta in Hmo2 |- *.
    intros E. injection E as <-.
    left. exists e, (l + 1), {| m_val := m_val m - 1; m_rel := m_rel m ∪ kn s t |}. split_and!.
    + assert (hist s1 = <[l + 1 := {| m_val := m_val m - 1; m_rel := m_rel m ∪ kn s t |}]> (hist s)) as Hhs by (by subst s1).
      assert (hist_ok (hist s1) e (l + 1)) as Hh1 by (rewrite Hhs; apply hist_snoc; [done|cbn [m_val]; lia]).
      destruct (o_root x); rewrite ?hist_use; exact Hh1.
    + assert (hist s1 !! (l + 1) = Some {| m_val := m_val m - 1; m_rel := m_rel m ∪ kn s t |}) as Hh1.
      { subst s1. cbn [hist put_msg]. apply lookup_insert. }
      destruct (o_root x); rewrite ?hist_use; exact Hh1.
    + destruct (o_root x) as [r0|]; [|by apply del_core].
      apply use_core; [by apply del_core|]. intros Hc b' x' Hb' Hx'. cbn [objs set_objs] in Hb'.
      apply lookup_delete_Some in Hb' as [_ Hb']. rewrite Ho1 in Hb'.
      destruct (bound_all _ _ _ _ _ _ _ _ Hco Hm Hb Hbound Hc) as [_ H2]. by apply (H2 b').
    + exact Hmo2.
Qed.

(** The fetch_sub of check_overflow *)
Lemma good_undo c o t τ s s' :
  winv c s → is_Some (undo s !! t) → w_undo o t τ s = Some s' → good c s'.
Proof.
  intros (e & l & m & Hh & Hl & Hco & Hm) Hu. unfold w_undo.
  destruct (rmw false (r_undo o) fetch_sub1 t τ s) as [s1|] eqn:Hr; [|done].
  apply rmw_inv in Hr as (m1 & k & Hm1 & Hf & Hsn & Hk & Hs1).
  pose proof (v_undo _ _ _ Hco _ Hu) as Het.
  assert (τ = l) as -> by (apply (hist_last _ _ _ _ _ Hh Hm1 Hf); lia).
  rewrite Hl in Hm1. injection Hm1 as <-. subst k.
  pose proof (h_small _ _ _ Hh _ _ Hl) as Hsm.
  assert (core c e s1) as Hco1 by (subst s1; apply core_put; [done|lia|done]).
  destruct Hm as [Hfr|[b0 Hh0]].
  2: { rewrite (g_undo _ _ _ Hh0), lookup_empty in Hu. by destruct Hu. }
  pose proof (f_word _ _ _ _ Hfr) as Hw.
  assert (size (undo s) ≠ 0%nat) as Hnz.
  { intros E. apply map_size_empty_inv in E. rewrite E, lookup_empty in Hu. by destruct Hu. }
  pose proof (map_size_delete_Some t (undo s) Hu) as Hsz.
  rewrite sub1 in Hs1 by lia.
  intros E. injection E as <-.
  left. exists e, (l + 1). eexists. split_and!.
  - subst s1. cbn [hist set_undo put_msg]. apply hist_snoc; [done|]. cbn [m_val]. lia.
  - subst s1. cbn [hist set_undo put_msg]. apply lookup_insert.
  - constructor; try apply Hco1. intros t' Ht'. cbn [undo set_undo] in Ht'.
    change (sn (set_undo _ s1)) with (sn s1). apply (v_undo _ _ _ Hco1).
    destruct Ht' as [y Hy]. apply lookup_delete_Some in Hy as [_ Hy]. by exists y.
  - left. subst s1. constructor; cbn [objs undo set_undo put_msg m_val m_rel writes reads].
    + apply Hfr.
    + rewrite Hsz. lia.
    + intros Hc. pose proof (f_sync _ _ _ _ Hfr Hc). destruct (r_undo o); set_solver.
    + intros a Ha. destruct (f_acc _ _ _ _ Hfr a Ha) as [?|?]; [left; destruct (r_undo o); set_solver|by right].
Qed.

Lemma good_sync c t t' s : winv c s → good c (w_sync t t' s).
Proof.
  intros (e & l & m & Hh & Hl & Hco & Hm). left. exists e, l, m.
  assert (∀ t2, kn s t2 ⊆ kn (w_sync t t' s) t2) as Hk.
  { intros t2. unfold kn at 2. cbn. destruct (decide (t2 = t')) as [->|Hn].
    - rewrite lookup_insert. cbn. set_solver.
    - rewrite lookup_insert_ne by done. done. }
  split_and!; [done..| |].
  - constructor; try apply Hco.
    + intros t2 Ht2. pose proof (v_undo _ _ _ Hco t2 Ht2) as H. unfold sn. cbn.
      destruct (decide (t2 = t')) as [->|Hn]; [rewrite lookup_insert; cbn; lia|by rewrite lookup_insert_ne].
    + intros Hc b x Hb Hx. destruct (v_own _ _ _ Hco Hc b x Hb Hx) as [H1 H2]. split.
      * etransitivity; [exact H1|apply Hk].
      * intros b' x' Hb'. destruct (H2 _ _ Hb') as [H3 H4]. split; [|done].
        etransitivity; [exact H3|apply Hk].
  - destruct Hm as [H|[b H]]; [left|right; exists b]; constructor; apply H.
Qed.

Theorem good_step c o s a s' :
  enough o → good c s → w_step o c s a = Some s' → good c s'.
Proof.
  intros Ho Hgood. unfold w_step. destruct Hgood as [Hw|(Hd & _)]; [|by rewrite Hd].
  destruct (dead s || negb (may_act a s)) eqn:Hg; [done|].
  apply orb_false_iff in Hg as [_ Hg]. apply negb_false_iff in Hg. unfold may_act in Hg.
  destruct a; cbn [actor] in Hg; try (apply bool_decide_eq_true in Hg).
  - unfold w_borrow. destruct (c_sync c) eqn:Hc; [|destruct (c_send c) as [h|] eqn:Hs].
    + apply good_read; [done..|]. congruence.
    + destruct (N.eqb_spec h t) as [->|].
      * apply good_read; [done..|]. congruence.
      * intros E. injection E as <-. by left.
    + by apply good_xread.
  - unfold w_borrow_mut. destruct (c_send c) as [h|] eqn:Hs.
    + destruct (h =? t).
      * by apply good_write.
      * intros E. injection E as <-. by left.
    + by apply good_write.
  - by apply good_clone.
  - by apply good_drop.
  - by apply good_undo.
  - unfold w_look. destruct (objs s !! b) as [x|] eqn:Hb; [|done].
    destruct (w_shared_ok t x s && w_bound_ok c t b x s) eqn:Hk; [|done].
    apply andb_true_iff in Hk as [Hk Hbound]. apply andb_true_iff in Hk as [Hborn Hts].
    apply bool_decide_eq_true in Hborn. intros E. injection E as <-.
    destruct Hw as (e & l & m & Hh & Hl & Hco & Hm).
    destruct (touch_ok c e _ _ false t b x s Hco Hm Hb Hborn Hbound) as [H1 H2]; [done|].
    left. exists e, l, m. unfold touch in H1, H2. split_and!; [| |exact H1|exact H2].
    + rewrite hist_use. exact Hh.
    + rewrite hist_use. exact Hl.
  - unfold w_poke. destruct (objs s !! b) as [x|] eqn:Hb; [|done].
    destruct (w_shared_ok t x s && w_bound_ok c t b x s && _) eqn:Hk; [|done].
    apply andb_true_iff in Hk as [Hk Hsole]. apply andb_true_iff in Hk as [Hk Hbound].
    apply andb_true_iff in Hk as [Hborn Hts].
    apply bool_decide_eq_true in Hborn. intros E. injection E as <-.
    destruct Hw as (e & l & m & Hh & Hl & Hco & Hm).
    destruct (touch_ok c e _ _ true t b x s Hco Hm Hb Hborn Hbound) as [H1 H2].
    { intros _ Hc. rewrite Hc in Hsole. cbn in Hsole. apply andb_true_iff in Hsole as [Hx Hso].
      apply andb_true_iff in Hso as [Hso Hre]. apply andb_true_iff in Hso as [Hso _].
      apply bool_decide_eq_true in Hso. rewrite Hx in Hre. cbn in Hre. apply negb_true_iff in Hre. done. }
    left. exists e, l, m. unfold touch in H1, H2. split_and!; [| |exact H1|exact H2].
    + rewrite hist_wrote. exact Hh.
    + rewrite hist_wrote. exact Hl.
  - intros E. injection E as <-. by apply good_sync.
Qed.

Lemma good_run c o l s s' : enough o → good c s → w_run o c s l = Some s' → good c s'.
Proof.
  intros Ho. revert s. induction l as [|a l IH]; intros s Hg; cbn.
  - intros E. by injection E as <-.
  - destruct (w_step o c s a) as [s1|] eqn:Hs; [|done]. apply IH. by eapply good_step.
Qed.
Lemma good_excl c s : good c s → excl_ok s.
Proof. intros [H|(_ & _ & H)]; [exact (winv_excl _ _ H)|done]. Qed.
Lemma good_raced c s : good c s → raced s = false.
Proof. intros [(e & l & m & _ & _ & H & _)|(_ & H & _)]; [exact (v_race _ _ _ H)|done]. Qed.

(** * Runs of fewer than 2^62 steps: the word is exact *)
Record exact_word (n : N) (s : wst) : Prop := {
  x_dead : dead s = false;
  x_undo : undo s = ∅;
  x_size : N.of_nat (size (objs s)) <= n;
  x_vals : ∀ τ m, hist s !! τ = Some m → m_val m <= HIGH_BIT + n;
  x_last : ∀ l m, hist s !! l = Some m → (∀ τ, l < τ → hist s !! τ = None) →
    (∀ b x, objs s !! b = Some x → o_excl x = false) → m_val m = N.of_nat (size (objs s))
}.

Lemma exact_init : exact_word 0 w_init.
Proof.
  constructor; cbn; try done.
  - intros τ m H. apply lookup_singleton_Some in H as [_ <-]. done.
  - intros l m H _ _. apply lookup_singleton_Some in H as [_ <-]. done.
Qed.

(** The last message of the history. *)
Lemma is_last h e l τ m : hist_ok h e l → h !! τ = Some m → (∀ τ', τ < τ' → h !! τ' = None) → τ = l.
Proof.
  intros H Hτ Hmax. destruct (h_range _ _ _ H l) as [m' Hl]; [split; [apply H|lia]|].
  destruct (decide (τ < l)) as [Hlt|Hge]; [rewrite (Hmax _ Hlt) in Hl; done|].
  destruct (decide (l < τ)) as [Hlt'|]; [rewrite (h_max _ _ _ H _ Hlt') in Hτ; done|lia].
Qed.

Lemma exact_le n n' s : exact_word n s → n <= n' → exact_word n' s.
Proof.
  intros H Hn. constructor; try apply H.
  - pose proof (x_size _ _ H). lia.
  - intros τ m Hm. pose proof (x_vals _ _ H _ _ Hm). lia.
Qed.
(** Objects that are only updated. *)
Lemma size_use t b s : size (objs (use_obj t b s)) = size (objs s).
Proof.
  unfold use_obj. destruct (objs s !! b) eqn:E; [|done]. cbn [objs set_objs].
  apply map_size_insert_Some. by eexists.
Qed.
Lemma excl_use t b s :
  (∀ b' x, objs (use_obj t b s) !! b' = Some x → o_excl x = false) ↔ (∀ b' x, objs s !! b' = Some x → o_excl x = false).
Proof.
  unfold use_obj. destruct (objs s !! b) as [x0|] eqn:E; [|done]. cbn [objs set_objs]. split; intros H b' x Hb'.
  - destruct (decide (b' = b)) as [->|Hn].
    + rewrite E in Hb'. injection Hb' as <-. exact (H b _ (lookup_insert _ _ _)).
    + apply (H b'). by rewrite lookup_insert_ne.
  - destruct (decide (b' = b)) as [->|Hn].
    + rewrite lookup_insert in Hb'. injection Hb' as <-. cbn. by apply (H b).
    + rewrite lookup_insert_ne in Hb' by done. by apply (H b').
Qed.

Lemma mode_val c n v r s :
  mode c v r s → exact_word n s → ((∀ b x, objs s !! b = Some x → o_excl x = false) → v = N.of_nat (size (objs s))) →
  v <= HIGH_BIT + n →
  (free c v r s ∧ v = N.of_nat (size (objs s)) ∧ v <= n) ∨
  (HIGH_BIT <= v ∧ ∃ b x, objs s !! b = Some x ∧ o_excl x = true).
Proof.
  intros [Hf|[b Hh]] Hx Hl Hv; [left|right].
  - assert (v = N.of_nat (size (objs s))) as E.
    { apply Hl. intros b x Hb. by apply (f_objs _ _ _ _ Hf b). }
    split_and!; [done|done|]. rewrite E. apply Hx.
  - destruct (g_obj _ _ _ Hh) as (x & Hb & Hex & _). split; [|by exists b, x].
    pose proof (g_word _ _ _ Hh) as Hw. assert (size (objs s) ≠ 0%nat) as Hnz.
    { intros E. apply map_size_empty_inv in E. rewrite E, lookup_empty in Hb. done. }
    lia.
Qed.

(** A message is appended and the objects change by one step. *)
Lemma exact_put n h s' :
  dead s' = false → undo s' = ∅ → N.of_nat (size (objs s')) <= n + 1 →
  (∀ τ m, h !! τ = Some m → m_val m <= HIGH_BIT + n) →
  (∃ τ0 m0, hist s' = <[τ0 := m0]> h ∧ m_val m0 <= HIGH_BIT + (n + 1)) →
  (∀ l m, hist s' !! l = Some m → (∀ τ, l < τ → hist s' !! τ = None) →
    (∀ b x, objs s' !! b = Some x → o_excl x = false) → m_val m = N.of_nat (size (objs s'))) →
  exact_word (n + 1) s'.
Proof.
  intros Hd Hu Hs Hv (τ0 & m0 & Hh & Hm0) Hl. constructor; [done..| |done].
  intros τ m Hm. rewrite Hh in Hm. apply lookup_insert_Some in Hm as [[_ <-]|[_ Hm]]; [done|].
  pose proof (Hv _ _ Hm). lia.
Qed.

Lemma exact_read n c o t τ s s' :
  enough o → n < 2 ^ 62 - 1 → winv c s → exact_word n s → w_read o t τ s = Some s' → exact_word (n + 1) s'.
Proof.
  intros Ho Hn (e & l & m & Hh & Hl & Hco & Hm) Hx. unfold w_read.
  destruct (rmw _ false fetch_add1 t τ s) as [s1|] eqn:Hr; [|done].
  apply rmw_inv in Hr as (m1 & k & Hm1 & Hf & Hsn & Hk & Hs1). clear Hk.
  pose proof (h_small _ _ _ Hh _ _ Hm1) as Hsm. rewrite (add1 _ Hsm) in Hs1.
  pose proof (h_le _ _ _ Hh) as Hle. pose proof (x_vals _ _ Hx _ _ Hm1) as Hv1.
  assert (val_at (τ + 1) s1 = m_val m1 + 1) as Hval.
  { subst s1. unfold val_at. cbn [hist put_msg]. by rewrite lookup_insert. }
  assert (hist s1 = <[τ + 1 := {| m_val := m_val m1 + 1; m_rel := m_rel m1 |}]> (hist s)) as Hhs by (by subst s1).
  assert (objs s1 = objs s) as Hos by (by subst s1).
  assert (nobj s1 = nobj s) as Hns by (by subst s1).
  assert (undo s1 = ∅) as Hus by (subst s1; apply Hx).
  assert (dead s1 = false) as Hds by (subst s1; apply Hx).
  clear Hs1. rewrite Hval, high_spec by (nums; lia).
  destruct (decide (τ < e)) as [Hlt|Hge].
  - pose proof (h_old _ _ _ Hh _ _ Hlt Hm1 Hf) as Hhigh.
    destruct (hist_old (hist s) e l τ m1 {| m_val := m_val m1 + 1; m_rel := m_rel m1 |} Hh Hm1 Hf Hlt)
        as [H1 H2]; [cbn [m_val]; nums; lia|].
    destruct (N.leb_spec HIGH_BIT (m_val m1 + 1)) as [_|?]; [|lia].
    unfold overflow. rewrite Hval. destruct (N.eqb_spec (m_val m1 + 1) HIGH_BIT) as [?|_]; [lia|].
    destruct (N.leb_spec MAX_FAILED_BORROWS (m_val m1 + 1)) as [?|_]; [nums; lia|].
    intros E. injection E as <-. apply (exact_put n (hist s)); [done|done|rewrite Hos; pose proof (x_size _ _ Hx); lia|apply Hx| |].
    + eexists _, _. split; [exact Hhs|]. cbn [m_val]. lia.
    + intros l' m' Hl' Hmax Hex. rewrite Hhs in Hl', Hmax. pose proof (is_last _ _ _ _ _ H1 Hl' Hmax) as ->.
      rewrite H2 in Hl'. rewrite Hos in Hex |- *. exact (x_last _ _ Hx l m' Hl' (h_max _ _ _ Hh) Hex).
  - assert (τ = l) as -> by (apply (hist_last _ _ _ _ _ Hh Hm1 Hf); lia).
    rewrite Hl in Hm1. injection Hm1 as <-.
    assert (hist_ok (hist s1) e (l + 1)) as Hh1.
    { rewrite Hhs. apply hist_snoc; [done|]. cbn [m_val]. nums. lia. }
    destruct (mode_val c n (m_val m) (m_rel m) s Hm Hx) as [(Hfr & Hsz & Hvn)|(Hhigh & b & x & Hb & Hxe)];
      [intros Hex; exact (x_last _ _ Hx l m Hl (h_max _ _ _ Hh) Hex)|done|..].
    + destruct (N.leb_spec HIGH_BIT (m_val m + 1)) as [?|_]; [nums; lia|].
      intros E. injection E as <-.
      assert (size (objs (new_obj t (l + 1) false None s1)) = S (size (objs s))) as Hsz'.
      { cbn [objs new_obj set_objs]. rewrite Hos, Hns. apply map_size_insert_None. exact (fresh_obj _ _ _ Hco). }
      apply (exact_put n (hist s)); [done|done|rewrite Hsz'; pose proof (x_size _ _ Hx); lia|apply Hx| |].
      * eexists _, _. split; [exact Hhs|]. cbn [m_val]. lia.
      * intros l' m' Hl' Hmax _. pose proof (is_last _ _ _ _ _ Hh1 Hl' Hmax) as ->. rewrite Hsz'.
        change (hist (new_obj t (l + 1) false None s1)) with (hist s1) in Hl'. rewrite Hhs, lookup_insert in Hl'.
        injection Hl' as <-. cbn [m_val]. lia.
    + destruct (N.leb_spec HIGH_BIT (m_val m + 1)) as [_|?]; [|lia].
      unfold overflow. rewrite Hval. destruct (N.eqb_spec (m_val m + 1) HIGH_BIT) as [?|_]; [lia|].
      destruct (N.leb_spec MAX_FAILED_BORROWS (m_val m + 1)) as [?|_]; [nums; lia|].
      intros E. injection E as <-. apply (exact_put n (hist s)); [done|done|rewrite Hos; pose proof (x_size _ _ Hx); lia|apply Hx| |].
      * eexists _, _. split; [exact Hhs|]. cbn [m_val]. lia.
      * intros l' m' _ _ Hex. rewrite Hos in Hex. specialize (Hex _ _ Hb). congruence.
Qed.

Lemma exact_saw n t τ s : exact_word n s → exact_word (n + 1) (saw t τ s).
Proof.
  intros H. apply (exact_le n); [|lia]. constructor; apply H.
Qed.

Lemma exact_xread n c o t τ s s' :
  enough o → n < 2 ^ 62 - 1 → winv c s → exact_word n s → w_xread o t τ s = Some s' → exact_word (n + 1) s'.
Proof.
  intros (_ & Har & _) Hn Hw Hx. unfold w_xread.
  destruct (cas (a_xread o) 1 t τ s) as [[s1 []]|] eqn:Hr; [|intros E; injection E as <-|done].
  2: { apply cas_fail in Hr as [Hsn ->]. by apply exact_saw. }
  intros E. injection E as <-.
  assert ((∃ m0, hist s1 = <[τ + 1 := m0]> (hist s) ∧ hist s1 !! (τ + 1) = Some m0) ∧ dead s1 = dead s) as [(m0 & Hhs & Hm0) Hds].
  { unfold cas in Hr. destruct (hist s !! τ) as [m0|]; [|done]. destruct (m_val m0 =? 0).
    - destruct (rmw _ _ _ _ _ _) as [s2|] eqn:Hr'; [|done]. injection Hr as <-.
      apply rmw_inv in Hr' as (m1 & k & _ & _ & _ & _ & ->). cbn [hist put_msg dead]. split; [|done]. eexists. split; [done|apply lookup_insert].
    - by destruct (sn s t <=? τ). }
  apply (cas_free c) in Hr as (e & l & m & Hle & -> & Hh & Hl & Hco & Hos & Hun & Hfr & Hk & Ha); [|done..].
  rewrite Hl in Hm0. injection Hm0 as <-.
  assert (size (objs (new_obj t (l + 1) false None s1)) = 1%nat) as Hsz.
  { cbn [objs new_obj set_objs]. rewrite Hos, insert_empty. apply map_size_singleton. }
  apply (exact_put n (hist s)); [cbn [dead new_obj set_objs]; rewrite Hds; apply Hx|done|rewrite Hsz; lia|apply Hx| |].
  - eexists _, _. split; [exact Hhs|]. cbn [m_val]. nums. lia.
  - intros l' m' Hl' Hmax _. pose proof (is_last _ _ _ _ _ Hh Hl' Hmax) as ->. rewrite Hsz.
    change (hist (new_obj t (l + 1) false None s1)) with (hist s1) in Hl'. rewrite Hl in Hl'. by injection Hl' as <-.
Qed.

Lemma exact_write n c o t τ s s' :
  enough o → n < 2 ^ 62 - 1 → winv c s → exact_word n s → w_write o t τ s = Some s' → exact_word (n + 1) s'.
Proof.
  intros (_ & _ & Har & _) Hn Hw Hx. unfold w_write.
  destruct (cas (a_write o) HIGH_BIT t τ s) as [[s1 []]|] eqn:Hr; [|intros E; injection E as <-|done].
  2: { apply cas_fail in Hr as [Hsn ->]. by apply exact_saw. }
  intros E. injection E as <-.
  assert ((∃ m0, hist s1 = <[τ + 1 := m0]> (hist s) ∧ hist s1 !! (τ + 1) = Some m0) ∧ dead s1 = dead s) as [(m0 & Hhs & Hm0) Hds].
  { unfold cas in Hr. destruct (hist s !! τ) as [m0|]; [|done]. destruct (m_val m0 =? 0).
    - destruct (rmw _ _ _ _ _ _) as [s2|] eqn:Hr'; [|done]. injection Hr as <-.
      apply rmw_inv in Hr' as (m1 & k & _ & _ & _ & _ & ->). cbn [hist put_msg dead]. split; [|done]. eexists. split; [done|apply lookup_insert].
    - by destruct (sn s t <=? τ). }
  apply (cas_free c) in Hr as (e & l & m & Hle & -> & Hh & Hl & Hco & Hos & Hun & Hfr & Hk & Ha); [|done..].
  rewrite Hl in Hm0. injection Hm0 as <-.
  assert (size (objs (new_obj t (l + 1) true None s1)) = 1%nat) as Hsz.
  { cbn [objs new_obj set_objs]. rewrite Hos, insert_empty. apply map_size_singleton. }
  apply (exact_put n (hist s)); [cbn [dead new_obj set_objs]; rewrite Hds; apply Hx|done|rewrite Hsz; lia|apply Hx| |].
  - eexists _, _. split; [exact Hhs|]. cbn [m_val]. lia.
  - intros l' m' _ _ Hex. cbn [objs new_obj set_objs] in Hex. specialize (Hex _ _ (lookup_insert _ _ _)). done.
Qed.

Lemma exact_clone n c o t b τ s s' :
  n < 2 ^ 62 - 1 → winv c s → exact_word n s → w_clone o c t b τ s = Some s' → exact_word (n + 1) s'.
Proof.
  intros Hn (e & l & m & Hh & Hl & Hco & Hm) Hx. unfold w_clone.
  destruct (objs s !! b) as [x|] eqn:Hb; [|done].
  destruct (w_shared_ok t x s && w_bound_ok c t b x s) eqn:Hg; [|done].
  apply andb_true_iff in Hg as [Hg _]. apply andb_true_iff in Hg as [_ Hts]. apply N.leb_le in Hts.
  destruct (rmw _ false fetch_add1 t τ s) as [s1|] eqn:Hr; [|done].
  apply rmw_inv in Hr as (m1 & k & Hm1 & Hf & Hsn & Hk & Hs1). clear Hk.
  pose proof (v_ts _ _ _ Hco _ _ Hb) as Hets.
  assert (τ = l) as -> by (apply (hist_last _ _ _ _ _ Hh Hm1 Hf); lia).
  rewrite Hl in Hm1. injection Hm1 as <-.
  pose proof (h_small _ _ _ Hh _ _ Hl) as Hsm. rewrite (add1 _ Hsm) in Hs1.
  pose proof (h_le _ _ _ Hh) as Hle. pose proof (x_vals _ _ Hx _ _ Hl) as Hv1.
  set (s2 := use_obj t b s1).
  assert (hist s2 = <[l + 1 := {| m_val := m_val m + 1; m_rel := m_rel m |}]> (hist s)) as Hhs.
  { unfold s2. rewrite hist_use. by subst s1. }
  assert (undo s2 = ∅) as Hus.
  { unfold s2, use_obj. destruct (objs s1 !! b); subst s1; apply Hx. }
  assert (dead s2 = false) as Hds.
  { unfold s2, use_obj. destruct (objs s1 !! b); subst s1; apply Hx. }
  assert (nobj s2 = nobj s) as Hns.
  { unfold s2, use_obj. destruct (objs s1 !! b); by subst s1. }
  assert (objs s1 = objs s) as Hos1 by (by subst s1).
  assert (size (objs s2) = size (objs s)) as Hss by (unfold s2; rewrite size_use; by rewrite Hos1).
  assert (val_at (l + 1) s2 = m_val m + 1) as Hval by (unfold val_at; rewrite Hhs; by rewrite lookup_insert).
  assert (objs s2 !! nobj s2 = None) as Hfresh.
  { rewrite Hns. unfold s2, use_obj. rewrite Hos1, Hb. cbn [objs set_objs].
    pose proof (v_nobj _ _ _ Hco _ _ Hb). rewrite lookup_insert_ne by lia. exact (fresh_obj _ _ _ Hco). }
  assert (hist_ok (hist s2) e (l + 1)) as Hh1.
  { rewrite Hhs. apply hist_snoc; [done|]. cbn [m_val]. nums. lia. }
  fold s2. unfold overflow. rewrite Hval.
  assert (m_val m + 1 ≠ HIGH_BIT ∧ ((∃ b x, objs s !! b = Some x ∧ o_excl x = true) ∨ m_val m = N.of_nat (size (objs s)))) as [Hne Hor].
  { destruct (mode_val c n (m_val m) (m_rel m) s Hm Hx) as [(Hfr & Hsz & Hvn)|(Hhigh & Hex)];
      [intros Hex; exact (x_last _ _ Hx l m Hl (h_max _ _ _ Hh) Hex)|done|..].
    - split; [nums; lia|by right].
    - split; [lia|by left]. }
  destruct (N.eqb_spec (m_val m + 1) HIGH_BIT) as [?|_]; [done|].
  destruct (N.leb_spec MAX_FAILED_BORROWS (m_val m + 1)) as [?|_]; [nums; lia|].
  intros E. injection E as <-.
  set (r := if o_excl x then Some b else o_root x).
  assert (size (objs (new_obj t (l + 1) false r s2)) = S (size (objs s))) as Hsz'.
  { cbn [objs new_obj set_objs]. rewrite map_size_insert_None by done. by rewrite Hss. }
  apply (exact_put n (hist s)); [done|done|rewrite Hsz'; pose proof (x_size _ _ Hx); lia|apply Hx| |].
  - eexists _, _. split; [exact Hhs|]. cbn [m_val]. lia.
  - intros l' m' Hl' Hmax Hex. pose proof (is_last _ _ _ _ _ Hh1 Hl' Hmax) as ->. rewrite Hsz'.
    change (hist (new_obj t (l + 1) false r s2)) with (hist s2) in Hl'. rewrite Hhs, lookup_insert in Hl'.
    injection Hl' as <-. cbn [m_val]. destruct Hor as [(b1 & x1 & Hb1 & Hx1)|Hsz]; [|lia]. exfalso.
    assert (∀ b' x, objs s2 !! b' = Some x → o_excl x = false) as Hex2.
    { intros b' x' Hb'. apply (Hex b'). cbn [objs new_obj set_objs]. rewrite lookup_insert_ne; [done|]. congruence. }
    unfold s2 in Hex2. apply (proj1 (excl_use _ _ _)) with (b' := b1) (x := x1) in Hex2; [congruence|]. by rewrite Hos1.
Qed.

Lemma exact_drop n c o t b τ s s' :
  enough o → n < 2 ^ 62 - 1 → winv c s → exact_word n s → w_drop o c t b τ s = Some s' → exact_word (n + 1) s'.
Proof.
  intros Ho Hn (e & l & m & Hh & Hl & Hco & Hm) Hx. unfold w_drop.
  destruct (objs s !! b) as [x|] eqn:Hb; [|done].
  destruct (w_sole_ok t b x s && w_bound_ok c t b x s) eqn:Hg; [|done].
  apply andb_true_iff in Hg as [Hg _]. apply andb_true_iff in Hg as [Hg Hre].
  apply andb_true_iff in Hg as [_ Hts]. apply N.leb_le in Hts. apply negb_true_iff in Hre.
  pose proof (v_ts _ _ _ Hco _ _ Hb) as Hets. pose proof (h_le _ _ _ Hh) as Hle.
  pose proof (h_small _ _ _ Hh _ _ Hl) as Hsm. pose proof (x_vals _ _ Hx _ _ Hl) as Hv1.
  pose proof (map_size_delete_Some b (objs s) (ltac:(by exists x))) as Hsz.
  assert (size (objs s) ≠ 0%nat) as Hnz.
  { intros E. apply map_size_empty_inv in E. rewrite E, lookup_empty in Hb. done. }
  destruct (o_excl x) eqn:Hxe.
  - cbn in Hre. apply bool_decide_eq_false in Hre. unfold w_drop_excl.
    destruct (hist s !! τ) eqn:Hfree; [done|]. destruct (N.ltb_spec (sn s t) τ) as [Hlt|]; [|done].
    intros E. injection E as <-.
    destruct Hm as [Hf|[b0 Hh0]].
    { destruct (f_objs _ _ _ _ Hf _ _ Hb). congruence. }
    assert (b = b0) as <-.
    { destruct (decide (b = b0)); [done|]. destruct (g_objs _ _ _ Hh0 b x); [done..|]. congruence. }
    assert (l < τ) as Hlτ.
    { destruct (decide (l < τ)) as [|Hn']; [done|]. destruct (h_range _ _ _ Hh τ) as [? E]; [lia|]. congruence. }
    assert (delete b (objs s) = ∅) as Hemp.
    { apply map_empty. intros b'. destruct (delete b (objs s) !! b') as [x'|] eqn:E; [|done].
      apply lookup_delete_Some in E as [Hne E]. exfalso. apply Hre. exists b', x'. split; [done|].
      by destruct (g_objs _ _ _ Hh0 b' x' ltac:(done) E). }
    apply (exact_put n (hist s)); [apply Hx|apply Hx|cbn [objs set_objs put_msg]; rewrite Hemp, map_size_empty; lia|apply Hx| |].
    + eexists _, _. split; [reflexivity|]. cbn [m_val]. lia.
    + intros l' m' Hl' Hmax _. cbn [hist set_objs put_msg objs] in Hl', Hmax |- *. rewrite Hemp, map_size_empty.
      destruct (decide (l' < τ)) as [Hlt'|Hge].
      * specialize (Hmax _ Hlt'). rewrite lookup_insert in Hmax. done.
      * apply lookup_insert_Some in Hl' as [[_ <-]|[Hne Hl']]; [done|].
        rewrite (h_max _ _ _ Hh) in Hl' by lia. done.
  - unfold w_drop_shared.
    destruct (rmw false _ fetch_sub1 t τ s) as [s1|] eqn:Hr; [|done].
    apply rmw_inv in Hr as (m1 & k & Hm1 & Hf & Hsn & Hk & Hs1).
    assert (τ = l) as -> by (apply (hist_last _ _ _ _ _ Hh Hm1 Hf); lia).
    rewrite Hl in Hm1. injection Hm1 as <-. clear Hk.
    assert (0 < m_val m ∧ ((∃ b x, objs s !! b = Some x ∧ o_excl x = true) ∨ m_val m = N.of_nat (size (objs s)))) as [Hpos Hor].
    { destruct (mode_val c n (m_val m) (m_rel m) s Hm Hx) as [(Hfr & Hsz' & Hvn)|(Hhigh & Hex)];
        [intros Hex; exact (x_last _ _ Hx l m Hl (h_max _ _ _ Hh) Hex)|done|..].
      - split; [lia|by right].
      - split; [nums; lia|by left]. }
    rewrite (sub1 _ Hpos Hsm) in Hs1.
    destruct (hist s1 !! (l + 1)) as [m2|] eqn:Hm2.
    2: { subst s1. cbn [hist put_msg] in Hm2. by rewrite lookup_insert in Hm2. }
    assert (hist s1 = <[l + 1 := m2]> (hist s) ∧ m_val m2 = m_val m - 1) as [Hhs Hv2].
    { subst s1. cbn [hist put_msg] in Hm2 |- *. rewrite lookup_insert in Hm2. by injection Hm2 as <-. }
    assert (objs s1 = objs s ∧ undo s1 = ∅ ∧ dead s1 = false) as (Hos & Hus & Hds).
    { subst s1. split_and!; [done|apply Hx|apply Hx]. }
    clear Hs1. intros E. injection E as <-.
    set (s2 := set_objs (delete b (objs s1)) (nobj s1) s1).
    set (s3 := match o_root x with Some r => use_obj t r s2 | None => s2 end).
    assert (hist s3 = hist s1 ∧ undo s3 = ∅ ∧ dead s3 = false) as (Hhs3 & Hus3 & Hds3).
    { unfold s3. destruct (o_root x) as [r|]; [|done]. split; [by rewrite hist_use|].
      unfold use_obj. by destruct (objs s2 !! r). }
    assert (size (objs s3) = Init.Nat.pred (size (objs s))) as Hsz3.
    { unfold s3. destruct (o_root x) as [r|]; rewrite ?size_use; unfold s2; cbn [objs set_objs]; by rewrite Hos. }
    assert ((∀ b x, objs s3 !! b = Some x → o_excl x = false) → ∀ b x, delete b (objs s) !! b = Some x → o_excl x = false) as _ by (intros _ b1 x1 H1; by rewrite lookup_delete in H1).
    assert ((∀ b' x', objs s3 !! b' = Some x' → o_excl x' = false) → ∀ b' x', objs s !! b' = Some x' → o_excl x' = false) as Hex3.
    { intros Hex b' x' Hb'. destruct (decide (b' = b)) as [->|Hne]; [congruence|].
      assert (∀ b' x', objs s2 !! b' = Some x' → o_excl x' = false) as Hex2.
      { unfold s3 in Hex. destruct (o_root x) as [r|]; [|done]. by apply (excl_use t r). }
      apply (Hex2 b'). unfold s2. cbn [objs set_objs]. by rewrite Hos, lookup_delete_ne. }
    apply (exact_put n (hist s)); [done|done|rewrite Hsz3; pose proof (x_size _ _ Hx); lia|apply Hx| |].
    + exists (l + 1), m2. split; [by rewrite Hhs3|]. lia.
    + intros l' m' Hl' Hmax Hex. rewrite Hhs3 in Hl', Hmax.
      assert (hist_ok (hist s1) e (l + 1)) as Hh1 by (rewrite Hhs; apply hist_snoc; [done|lia]).
      pose proof (is_last _ _ _ _ _ Hh1 Hl' Hmax) as ->. rewrite Hm2 in Hl'. injection Hl' as <-.
      destruct Hor as [(b1 & x1 & Hb1 & Hx1)|Hv]; [rewrite (Hex3 Hex _ _ Hb1) in Hx1; done|].
      rewrite Hsz3. lia.
Qed.

Lemma exact_same n s s' :
  exact_word n s → hist s' = hist s → dead s' = dead s → undo s' = undo s → size (objs s') = size (objs s) →
  ((∀ b x, objs s' !! b = Some x → o_excl x = false) → ∀ b x, objs s !! b = Some x → o_excl x = false) →
  exact_word (n + 1) s'.
Proof.
  intros Hx Hh Hd Hu Hs He. apply (exact_le n); [|lia]. constructor.
  - rewrite Hd. apply Hx.
  - rewrite Hu. apply Hx.
  - rewrite Hs. apply Hx.
  - rewrite Hh. apply Hx.
  - intros l m Hl Hmax Hex. rewrite Hh in Hl, Hmax. rewrite Hs. apply (x_last _ _ Hx l m Hl Hmax), He, Hex.
Qed.

Lemma exact_step n c o s a s' :
  enough o → n < 2 ^ 62 - 1 → good c s → exact_word n s → w_step o c s a = Some s' → exact_word (n + 1) s'.
Proof.
  intros Ho Hn Hgood Hx Hs.
  assert (winv c s) as Hw.
  { destruct Hgood as [?|[Hd _]]; [done|]. rewrite (x_dead _ _ Hx) in Hd. done. }
  unfold w_step in Hs. destruct (dead s || negb (may_act a s)) eqn:Hg; [done|].
  apply orb_false_iff in Hg as [_ Hg]. apply negb_false_iff in Hg. unfold may_act in Hg.
  assert (∀ s1, s1 = s → exact_word (n + 1) s1) as Hid by (intros ? ->; apply (exact_le n); [done|lia]).
  destruct a; cbn [actor] in Hg; try (apply bool_decide_eq_true in Hg).
  - unfold w_borrow in Hs. destruct (c_sync c); [|destruct (c_send c) as [h|]].
    + by eapply exact_read.
    + destruct (h =? t); [by eapply exact_read|]. injection Hs as <-. by apply Hid.
    + by eapply exact_xread.
  - unfold w_borrow_mut in Hs. destruct (c_send c) as [h|]; [|by eapply exact_write].
    destruct (h =? t); [by eapply exact_write|]. injection Hs as <-. by apply Hid.
  - by eapply exact_clone.
  - by eapply exact_drop.
  - rewrite (x_undo _ _ Hx), lookup_empty in Hg. by destruct Hg.
  - unfold w_look in Hs. destruct (objs s !! b) as [x|]; [|done]. destruct (_ && _); [|done]. injection Hs as <-.
    apply (exact_same n s); [done|by rewrite hist_use| | |by rewrite size_use|].
    + unfold use_obj. by destruct (objs (access false t s) !! b).
    + unfold use_obj. by destruct (objs (access false t s) !! b).
    + intros Hex. exact (proj1 (excl_use t b (access false t s)) Hex).
  - unfold w_poke in Hs. destruct (objs s !! b) as [x|] eqn:Hb; [|done]. destruct (_ && _); [|done]. injection Hs as <-.
    unfold wrote_obj. change (objs (access true t s)) with (objs s). rewrite Hb.
    apply (exact_same n s); [done..| |].
    + cbn [objs set_objs]. apply map_size_insert_Some. by exists x.
    + cbn [objs set_objs]. intros Hex b' x' Hb'. destruct (decide (b' = b)) as [->|Hne].
      * rewrite Hb in Hb'. injection Hb' as <-. exact (Hex _ _ (lookup_insert _ _ _)).
      * apply (Hex b'). by rewrite lookup_insert_ne.
  - injection Hs as <-. by apply (exact_same n s).
Qed.

Lemma exact_run c o l n s s' :
  enough o → good c s → exact_word n s → n + N.of_nat (length l) < 2 ^ 62 → w_run o c s l = Some s' →
  good c s' ∧ exact_word (n + N.of_nat (length l)) s'.
Proof.
  intros Ho. revert n s. induction l as [|a l IH]; intros n s Hg Hx Hn; cbn [w_run length].
  - intros E. injection E as <-. split; [done|]. by rewrite N.add_0_r.
  - cbn [length] in Hn. destruct (w_step o c s a) as [s1|] eqn:Hs; [|done]. intros Hr.
    destruct (IH (n + 1) s1 (good_step c o s a s1 Ho Hg Hs) (exact_step n c o s a s1 Ho ltac:(lia) Hg Hx Hs)) as [Hg2 Hx2]; [lia|done|].
    split; [done|]. replace (n + N.of_nat (S (length l))) with (n + 1 + N.of_nat (length l)) by lia. done.
Qed.

(** What is alive when a thread reads the last message and gets nothing. *)
Lemma refused_last n c s τ m :
  good c s → exact_word n s → hist s !! τ = Some m → (∀ τ', τ < τ' → hist s !! τ' = None) →
  (∃ b x, objs s !! b = Some x ∧ o_excl x = true) ∨ (m_val m = N.of_nat (size (objs s)) ∧ N.of_nat (size (objs s)) <= n).
Proof.
  intros Hg Hx Hm Hmax.
  assert (winv c s) as (e & l & m' & Hh & Hl & Hco & Hmo).
  { destruct Hg as [?|[Hd _]]; [done|]. rewrite (x_dead _ _ Hx) in Hd. done. }
  pose proof (is_last _ _ _ _ _ Hh Hm Hmax) as ->. rewrite Hl in Hm. injection Hm as ->.
  destruct Hmo as [Hf|[b Hh0]].
  - right. split; [|apply Hx]. apply (x_last _ _ Hx l m Hl Hmax). intros b x Hb. by apply (f_objs _ _ _ _ Hf b).
  - left. destruct (g_obj _ _ _ Hh0) as (x & ? & ? & _). by exists b, x.
Qed.
