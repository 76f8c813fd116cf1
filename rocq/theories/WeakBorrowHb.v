(** The views of the model of WeakBorrow.v are happens-before (WeakBorrowSpec.v). *)
From stdpp Require Import prelude list gmap fin_maps.
From Coq Require Import NArith Lia.
From Verif Require Import EntityId Borrow BorrowProofs WeakBorrow WeakBorrowProofs WeakBorrowSpec.
Local Open Scope nat_scope.

(** * What a step does to the word and to the views *)
Definition same_data (s s' : wst) : Prop :=
  reads s' = reads s ∧ writes s' = writes s ∧ nev s' = nev s ∧ raced s' = raced s.

Inductive shape (o : ords) (c : cell_cfg) (a : waction) (s s' : wst) : Prop :=
| sh_quiet : hist s' = hist s → known s' = known s → data_access {| e_act := a; e_pre := s; e_post := s' |} = None →
    (∀ t t', a ≠ WSync t t') → same_data s s' → shape o c a s s'
| sh_rmw τ m m' acq rel :
    hist s !! τ = Some m → hist s !! (τ + 1)%N = None → hist s' = <[(τ + 1)%N := m']> (hist s) →
    is_acquire o c {| e_act := a; e_pre := s; e_post := s' |} = acq →
    is_release o {| e_act := a; e_pre := s; e_post := s' |} = rel →
    is_store {| e_act := a; e_pre := s; e_post := s' |} = false →
    known s' = <[actor a := if acq then kn s (actor a) ∪ m_rel m else kn s (actor a)]> (known s) →
    m_rel m' = (if rel then m_rel m ∪ (if acq then kn s (actor a) ∪ m_rel m else kn s (actor a)) else m_rel m) →
    data_access {| e_act := a; e_pre := s; e_post := s' |} = None → (∀ t t', a ≠ WSync t t') →
    same_data s s' → shape o c a s s'
| sh_store τ m' rel :
    hist s !! τ = None → hist s' = <[τ := m']> (hist s) →
    is_acquire o c {| e_act := a; e_pre := s; e_post := s' |} = false →
    is_release o {| e_act := a; e_pre := s; e_post := s' |} = rel →
    is_store {| e_act := a; e_pre := s; e_post := s' |} = true →
    known s' = <[actor a := kn s (actor a)]> (known s) →
    m_rel m' = (if rel then kn s (actor a) else ∅) →
    data_access {| e_act := a; e_pre := s; e_post := s' |} = None → (∀ t t', a ≠ WSync t t') →
    same_data s s' → shape o c a s s'
| sh_access w :
    hist s' = hist s → known s' = <[actor a := kn s (actor a) ∪ {[nev s]}]> (known s) →
    data_access {| e_act := a; e_pre := s; e_post := s' |} = Some w →
    nev s' = (nev s + 1)%N →
    reads s' = (if w then reads s else reads s ∪ {[nev s]}) →
    writes s' = (if w then writes s ∪ {[nev s]} else writes s) →
    raced s' = raced s || negb (bool_decide ((if w then reads s ∪ writes s else writes s) ⊆ kn s (actor a))) →
    shape o c a s s'
| sh_sync t t' : a = WSync t t' → hist s' = hist s → known s' = <[t' := kn s t ∪ kn s t']> (known s) →
    same_data s s' → shape o c a s s'.

Lemma use_fields t b s :
  hist (use_obj t b s) = hist s ∧ known (use_obj t b s) = known s ∧ nev (use_obj t b s) = nev s ∧
  reads (use_obj t b s) = reads s ∧ writes (use_obj t b s) = writes s ∧ raced (use_obj t b s) = raced s.
Proof. unfold use_obj. by destruct (objs s !! b). Qed.
Lemma wrote_fields t b s :
  hist (wrote_obj t b s) = hist s ∧ known (wrote_obj t b s) = known s ∧ nev (wrote_obj t b s) = nev s ∧
  reads (wrote_obj t b s) = reads s ∧ writes (wrote_obj t b s) = writes s ∧ raced (wrote_obj t b s) = raced s.
Proof. unfold wrote_obj. by destruct (objs s !! b). Qed.

(** Two states agree on the word, the views and the data accesses. *)
Definition alike (s1 s2 : wst) : Prop :=
  hist s2 = hist s1 ∧ known s2 = known s1 ∧ nev s2 = nev s1 ∧
  reads s2 = reads s1 ∧ writes s2 = writes s1 ∧ raced s2 = raced s1.
Lemma alike_refl s : alike s s.
Proof. done. Qed.
Lemma alike_trans s1 s2 s3 : alike s1 s2 → alike s2 s3 → alike s1 s3.
Proof. intros (?&?&?&?&?&?) (?&?&?&?&?&?). split_and!; congruence. Qed.
Lemma alike_use t b s : alike s (use_obj t b s).
Proof. apply use_fields. Qed.
Lemma alike_overflow t τ f s : (∀ s, alike s (f s)) → alike s (overflow t τ f s).
Proof. intros H. unfold overflow. repeat case_match; [done|done|apply H]. Qed.

Lemma shape_rmw o c a s s' acq rel f τ s1 :
  rmw acq rel f (actor a) τ s = Some s1 → alike s1 s' →
  is_acquire o c {| e_act := a; e_pre := s; e_post := s' |} = acq →
  is_release o {| e_act := a; e_pre := s; e_post := s' |} = rel →
  is_store {| e_act := a; e_pre := s; e_post := s' |} = false →
  data_access {| e_act := a; e_pre := s; e_post := s' |} = None → (∀ t t', a ≠ WSync t t') →
  shape o c a s s'.
Proof.
  intros Hr (H1&H2&H3&H4&H5&H6) Ha Hre Hst Hd Hsy.
  apply rmw_inv in Hr as (m & k & Hm & Hf & Hsn & Hk & Hs1). subst s1.
  eapply (sh_rmw o c a s s' τ m _ acq rel Hm Hf); [exact H1|done|done|done| |by rewrite Hk|done|done|].
  - rewrite H2. subst k. reflexivity.
  - split_and!; [exact H4|exact H5|exact H3|exact H6].
Qed.

Lemma step_shape o c s a s' : w_step o c s a = Some s' → shape o c a s s'.
Proof.
  unfold w_step. destruct (dead s || negb (may_act a s)); [done|].
  destruct a as [t τ|t τ|t b τ|t b τ|t τ|t b|t b|t t'].
  - assert (is_acquire o c {| e_act := WBorrow t τ; e_pre := s; e_post := s' |} = a_read o →
      w_read o t τ s = Some s' → shape o c (WBorrow t τ) s s') as Hread.
    { intros Ha. unfold w_read. destruct (rmw _ _ _ _ _ _) as [s1|] eqn:Hr; [|done].
      intros E. apply (shape_rmw _ _ _ _ _ (a_read o) false fetch_add1 τ s1); [exact Hr| |done..].
      destruct (high (val_at (τ + 1) s1)); injection E as <-; [|done]. by apply alike_overflow. }
    unfold w_borrow. destruct (c_sync c) eqn:Hc; [|destruct (c_send c) as [h|] eqn:Hs].
    + apply Hread. cbn. by rewrite Hc.
    + destruct (h =? t)%N.
      * apply Hread. cbn. by rewrite Hc, Hs.
      * intros E. injection E as <-. by apply sh_quiet.
    + unfold w_xread, cas. destruct (hist s !! τ) as [m0|] eqn:Hm0; [|done].
      destruct (m_val m0 =? 0)%N.
      * destruct (rmw _ _ _ _ _ _) as [s1|] eqn:Hr; [|done]. intros E. injection E as <-.
        apply (shape_rmw _ _ _ _ _ (a_xread o) false (λ _, 1%N) τ s1); [exact Hr|done| |done..].
        cbn. by rewrite Hc, Hs.
      * destruct (sn s t <=? τ)%N; [|done]. intros E. injection E as <-. by apply sh_quiet.
  - assert (w_write o t τ s = Some s' → shape o c (WBorrowMut t τ) s s') as Hwrite.
    { unfold w_write, cas. destruct (hist s !! τ) as [m0|] eqn:Hm0; [|done].
      destruct (m_val m0 =? 0)%N.
      * destruct (rmw _ _ _ _ _ _) as [s1|] eqn:Hr; [|done]. intros E. injection E as <-.
        by apply (shape_rmw _ _ _ _ _ (a_write o) false (λ _, HIGH_BIT) τ s1); [exact Hr|..].
      * destruct (sn s t <=? τ)%N; [|done]. intros E. injection E as <-. by apply sh_quiet. }
    unfold w_borrow_mut. destruct (c_send c) as [h|]; [|done]. destruct (h =? t)%N; [done|].
    intros E. injection E as <-. by apply sh_quiet.
  - unfold w_clone. destruct (objs s !! b) as [x|] eqn:Hb; [|done]. destruct (_ && _); [|done].
    destruct (rmw _ _ _ _ _ _) as [s1|] eqn:Hr; [|done]. intros E. injection E as <-.
    apply (shape_rmw _ _ _ _ _ (a_clone o) false fetch_add1 τ s1); [exact Hr| |done..].
    eapply alike_trans; [apply alike_use|by apply alike_overflow].
  - unfold w_drop. destruct (objs s !! b) as [x|] eqn:Hb; [|done]. destruct (_ && _); [|done].
    destruct (o_excl x) eqn:Hx.
    + unfold w_drop_excl. destruct (hist s !! τ) eqn:Hf; [done|]. destruct (sn s t <? τ)%N; [|done].
      intros E. injection E as <-.
      eapply (sh_store _ _ _ _ _ τ _ (r_excl o)); [done|reflexivity|done| | |done|done|done|done|done].
      * unfold is_release. cbn. rewrite Hb, Hx. done.
      * unfold is_store. cbn. rewrite Hb, Hx. done.
    + unfold w_drop_shared. destruct (rmw _ _ _ _ _ _) as [s1|] eqn:Hr; [|done]. intros E. injection E as <-.
      apply (shape_rmw _ _ _ _ _ false (r_shared o) fetch_sub1 τ s1); [exact Hr| |done| | |done..].
      * cbv zeta. destruct (o_root x) as [r|]; [|done]. eapply alike_trans; [|apply alike_use]. done.
      * unfold is_release, is_store. cbn. rewrite Hb, Hx. done.
      * unfold is_store. cbn. rewrite Hb, Hx. done.
  - unfold w_undo. destruct (rmw _ _ _ _ _ _) as [s1|] eqn:Hr; [|done]. intros E. injection E as <-.
    by apply (shape_rmw _ _ _ _ _ false (r_undo o) fetch_sub1 τ s1); [exact Hr|..].
  - unfold w_look. destruct (objs s !! b) as [x|] eqn:Hb; [|done]. destruct (_ && _); [|done].
    intros E. injection E as <-. destruct (use_fields t b (access false t s)) as (H1&H2&H3&H4&H5&H6).
    apply (sh_access _ _ _ _ _ false); rewrite ?H1, ?H2, ?H3, ?H4, ?H5, ?H6; done.
  - unfold w_poke. destruct (objs s !! b) as [x|] eqn:Hb; [|done]. destruct (_ && _); [|done].
    intros E. injection E as <-. destruct (wrote_fields t b (access true t s)) as (H1&H2&H3&H4&H5&H6).
    apply (sh_access _ _ _ _ _ true); rewrite ?H1, ?H2, ?H3, ?H4, ?H5, ?H6; done.
  - intros E. injection E as <-. by apply (sh_sync _ _ _ _ _ t t').
Qed.

(** * Runs *)
Record mono (s s' : wst) : Prop := {
  mo_kn : ∀ t, kn s t ⊆ kn s' t;
  mo_hist : ∀ τ m, hist s !! τ = Some m → hist s' !! τ = Some m;
  mo_nev : (nev s <= nev s')%N;
  mo_reads : reads s ⊆ reads s';
  mo_writes : writes s ⊆ writes s';
  mo_raced : raced s = true → raced s' = true
}.
Lemma mono_refl s : mono s s.
Proof. by constructor. Qed.
Lemma mono_trans s1 s2 s3 : mono s1 s2 → mono s2 s3 → mono s1 s3.
Proof.
  intros H1 H2. constructor.
  - intros t. etransitivity; [apply H1|apply H2].
  - intros τ m H. by apply H2, H1.
  - etransitivity; [apply H1|apply H2].
  - etransitivity; [apply H1|apply H2].
  - etransitivity; [apply H1|apply H2].
  - intros H. by apply H2, H1.
Qed.

Lemma kn_upd s s' t k t' :
  known s' = <[t := k]> (known s) → kn s' t' = if decide (t' = t) then k else kn s t'.
Proof.
  intros H. unfold kn. rewrite H. destruct (decide (t' = t)) as [->|]; [by rewrite lookup_insert|by rewrite lookup_insert_ne].
Qed.

Lemma shape_mono o c a s s' : shape o c a s s' → mono s s'.
Proof.
  intros [Hh Hk _ _ (H1&H2&H3&H4)|τ m m' acq rel Hm Hf Hh Ha Hr Hst Hk _ _ _ (H1&H2&H3&H4)
         |τ m' rel Hf Hh Ha Hr Hst Hk _ _ _ (H1&H2&H3&H4)
         |w Hh Hk _ H3 H1 H2 H4|t t' _ Hh Hk (H1&H2&H3&H4)]; constructor.
  all: try (rewrite H1; done). all: try (rewrite H2; done). all: try (rewrite H3; done).
  all: try (rewrite H4; done). all: try (rewrite Hh; done).
  - intros t. unfold kn. by rewrite Hk.
  - intros t. rewrite (kn_upd _ _ _ _ t Hk). destruct (decide (t = actor a)) as [->|]; [|done]. destruct acq; set_solver.
  - intros τ' m0 H. rewrite Hh, lookup_insert_ne; [done|]. congruence.
  - intros t. rewrite (kn_upd _ _ _ _ t Hk). by destruct (decide (t = actor a)) as [->|].
  - intros τ' m0 H. rewrite Hh, lookup_insert_ne; [done|]. congruence.
  - intros t. rewrite (kn_upd _ _ _ _ t Hk). destruct (decide (t = actor a)) as [->|]; [set_solver|done].
  - lia.
  - rewrite H1. destruct w; set_solver.
  - rewrite H2. destruct w; set_solver.
  - rewrite H4. by intros ->.
  - intros t2. rewrite (kn_upd _ _ _ _ t2 Hk). destruct (decide (t2 = t')) as [->|]; [set_solver|done].
Qed.

Lemma trace_at o c tr s i e :
  wtrace o c tr s → tr !! i = Some e →
  wtrace o c (take i tr) (e_pre e) ∧ w_step o c (e_pre e) (e_act e) = Some (e_post e) ∧ mono (e_post e) s.
Proof.
  intros H. revert i e. induction H as [|tr s a s' H IH Hs]; intros i e Hi; [done|].
  destruct (decide (i < length tr)) as [Hlt|Hge].
  - rewrite lookup_app_l in Hi by done. destruct (IH _ _ Hi) as (H1 & H2 & H3).
    rewrite take_app_le by lia. split_and!; [done..|].
    eapply mono_trans; [exact H3|]. eapply shape_mono, step_shape, Hs.
  - rewrite lookup_app_r in Hi by lia.
    destruct (i - length tr) as [|n] eqn:Hn; [|by destruct n].
    injection Hi as <-. cbn [e_pre e_post e_act].
    replace i with (length tr) by lia. rewrite take_app. split_and!; [done..|apply mono_refl].
Qed.
Lemma trace_shape o c tr s i e :
  wtrace o c tr s → tr !! i = Some e → shape o c (e_act e) (e_pre e) (e_post e).
Proof. intros H Hi. apply step_shape. by apply (trace_at _ _ _ _ _ _ H Hi). Qed.
Lemma trace_lt o c tr s i j e e' :
  wtrace o c tr s → i < j → tr !! i = Some e → tr !! j = Some e' → mono (e_post e) (e_pre e').
Proof.
  intros H Hlt Hi Hj. destruct (trace_at _ _ _ _ _ _ H Hj) as (H1 & _ & _).
  apply (trace_at _ _ _ _ i e H1). by rewrite lookup_take.
Qed.

(** * Longer runs *)
Lemma rs_app tr l i τ : rel_seq tr i τ → rel_seq (tr ++ l) i τ.
Proof.
  induction 1 as [e τ Hi Hw|j e τ _ IH Hj Hw Hs].
  - eapply rs_head; [by apply lookup_app_l_Some|done].
  - eapply rs_next; [done|by apply lookup_app_l_Some|done..].
Qed.
Lemma hb_app o c tr l i j : hb o c tr i j → hb o c (tr ++ l) i j.
Proof.
  induction 1 as [i j e e' Hlt Hi Hj Ha|i j e e' t t' Hlt Hi Ha Hj He|i j Hlt (e & e' & τ & Hi & Hr & Hrs & Hj & Hq & Hs & Hw)|].
  - eapply hb_po; [done|by apply lookup_app_l_Some|by apply lookup_app_l_Some|done].
  - eapply hb_out; [done|by apply lookup_app_l_Some|done|by apply lookup_app_l_Some|done].
  - apply hb_sw; [done|]. exists e, e', τ. split_and!; [by apply lookup_app_l_Some|done|by apply rs_app|by apply lookup_app_l_Some|done..].
  - by eapply hb_trans.
Qed.
Lemma hb_lt o c tr i j : hb o c tr i j → i < j.
Proof. induction 1; lia. Qed.
Lemma rs_writer o c tr s i τ :
  wtrace o c tr s → rel_seq tr i τ → ∃ e m, tr !! i = Some e ∧ hist s !! τ = Some m.
Proof.
  intros H. induction 1 as [e τ Hi [Hw [m Hm]]|j e τ _ (e0 & m0 & H0 & _) Hj [Hw [m Hm]] Hs].
  - exists e, m. split; [done|]. by apply (trace_at _ _ _ _ _ _ H Hi).
  - exists e0, m. split; [done|]. by apply (trace_at _ _ _ _ _ _ H Hj).
Qed.

(** * What is known happened before *)
(** Step [i] is the data access [x]. *)
Definition is_event (tr : list wev) (i : nat) (x : N) : Prop :=
  ∃ e w, tr !! i = Some e ∧ data_access e = Some w ∧ nev (e_pre e) = x.
(** The end of step [k] is visible to the next step of [t]. *)
Definition visible (tr : list wev) (k : nat) (t : N) : Prop :=
  ∃ e, tr !! k = Some e ∧ (actor (e_act e) = t ∨ ∃ t0, e_act e = WSync t0 t).

Lemma event_app tr l i x : is_event tr i x → is_event (tr ++ l) i x.
Proof. intros (e & w & H & ? & ?). exists e, w. split_and!; [by apply lookup_app_l_Some|done..]. Qed.
Lemma visible_app tr l i x : visible tr i x → visible (tr ++ l) i x.
Proof. intros (e & H & ?). exists e. split_and!; [by apply lookup_app_l_Some|done..]. Qed.

Lemma visible_hb o c tr i k j e t :
  k = i ∨ hb o c tr i k → visible tr k t → k < j → tr !! j = Some e → actor (e_act e) = t → hb o c tr i j.
Proof.
  intros Hik (e0 & Hk & Hv) Hlt Hj Ht.
  assert (hb o c tr k j) as Hkj.
  { destruct Hv as [Ha|[t0 Ha]].
    - eapply hb_po; [done..|congruence].
    - eapply hb_out; [done..|congruence]. }
  destruct Hik as [->|Hik]; [done|]. by eapply hb_trans.
Qed.

Record views_ok (o : ords) (c : cell_cfg) (tr : list wev) (s : wst) : Prop := {
  k_known : ∀ t x, x ∈ kn s t → ∃ i k, is_event tr i x ∧ (k = i ∨ hb o c tr i k) ∧ visible tr k t;
  k_rel : ∀ τ m x, hist s !! τ = Some m → x ∈ m_rel m →
    ∃ i d e, is_event tr i x ∧ hb o c tr i d ∧ tr !! d = Some e ∧ is_release o e = true ∧ rel_seq tr d τ
}.

Lemma views_trace o c tr s : wtrace o c tr s → views_ok o c tr s.
Proof.
  induction 1 as [|tr s a s' Htr IH Hs].
  - constructor.
    + intros t x Hx. unfold kn in Hx. cbn in Hx. rewrite lookup_empty in Hx. cbn in Hx. set_solver.
    + intros τ m x Hm Hx. cbn in Hm. apply lookup_singleton_Some in Hm as [_ <-]. cbn in Hx. set_solver.
  - apply step_shape in Hs as Hsh.
    set (ev := {| e_act := a; e_pre := s; e_post := s' |}) in *.
    assert ((tr ++ [ev]) !! length tr = Some ev) as Hlast by (by rewrite list_lookup_middle).
    assert (∀ k e, tr !! k = Some e → k < length tr) as Hlen by (intros k e Hk; by eapply lookup_lt_Some).
    (* what was known stays known *)
    assert (∀ t x, x ∈ kn s t → ∃ i k, is_event (tr ++ [ev]) i x ∧ (k = i ∨ hb o c (tr ++ [ev]) i k) ∧
              visible (tr ++ [ev]) k t ∧ k < length tr) as Hkn.
    { intros t x Hx. destruct (k_known _ _ _ _ IH t x Hx) as (i & k & Hi & Hik & Hv).
      exists i, k. split_and!; [by apply event_app| |by apply visible_app|].
      - destruct Hik; [by left|right; by apply hb_app].
      - destruct Hv as (e & Hv & _). by eapply Hlen. }
    assert (∀ x, x ∈ kn s (actor a) → ∃ i, is_event (tr ++ [ev]) i x ∧ hb o c (tr ++ [ev]) i (length tr)) as Hme.
    { intros x Hx. destruct (Hkn _ _ Hx) as (i & k & Hi & Hik & Hv & Hlt). exists i. split; [done|].
      by eapply visible_hb. }
    assert (∀ τ m x, hist s !! τ = Some m → x ∈ m_rel m →
      ∃ i d e, is_event (tr ++ [ev]) i x ∧ hb o c (tr ++ [ev]) i d ∧ (tr ++ [ev]) !! d = Some e ∧
               is_release o e = true ∧ rel_seq (tr ++ [ev]) d τ ∧ d < length tr) as Hrel.
    { intros τ m x Hm Hx. destruct (k_rel _ _ _ _ IH τ m x Hm Hx) as (i & d & e & H1 & H2 & H3 & H4 & H5).
      exists i, d, e. split_and!; [by apply event_app|by apply hb_app|by apply lookup_app_l_Some|done|by apply rs_app|].
      by eapply Hlen. }
    assert (∀ t, actor a = t → visible (tr ++ [ev]) (length tr) t) as Hvis.
    { intros t Ht. exists ev. split; [done|]. by left. }
    assert (∀ t x, x ∈ kn s t → ∃ i k, is_event (tr ++ [ev]) i x ∧ (k = i ∨ hb o c (tr ++ [ev]) i k) ∧
              visible (tr ++ [ev]) k t) as Hkn'.
    { intros t x Hx. destruct (Hkn t x Hx) as (i & k & ? & ? & ? & _). by exists i, k. }
    assert (∀ τ m x, hist s !! τ = Some m → x ∈ m_rel m →
      ∃ i d e, is_event (tr ++ [ev]) i x ∧ hb o c (tr ++ [ev]) i d ∧ (tr ++ [ev]) !! d = Some e ∧
               is_release o e = true ∧ rel_seq (tr ++ [ev]) d τ) as Hrel'.
    { intros τ m x Hm Hx. destruct (Hrel τ m x Hm Hx) as (i & d & e & ? & ? & ? & ? & ? & _). by exists i, d, e. }
    destruct Hsh as [Hh Hk _ _ _|τ m m' acq rel Hm Hf Hh Ha Hr Hst Hk Hmr _ _ _
         |τ m' rel Hf Hh Ha Hr Hst Hk Hmr _ _ _
         |w Hh Hk Hd _ _ _ _|t t' Hat Hh Hk _].
    + constructor.
      * intros t x Hx. unfold kn in Hx. rewrite Hk in Hx. by apply Hkn'.
      * intros τ m x Hm Hx. rewrite Hh in Hm. by eapply Hrel'.
    + assert (writes_msg ev (τ + 1)%N) as Hw.
      { split; [done|]. cbn. rewrite Hh, lookup_insert. by eexists. }
      assert (∀ x, x ∈ m_rel m → acq = true → ∃ i, is_event (tr ++ [ev]) i x ∧ hb o c (tr ++ [ev]) i (length tr)) as Hacq.
      { intros x Hx Hacq. destruct (Hrel τ m x Hm Hx) as (i & d & e & H1 & H2 & H3 & H4 & H5 & Hd).
        exists i. split; [done|]. eapply hb_trans; [exact H2|]. apply hb_sw; [done|].
        exists e, ev, τ. refine (conj H3 (conj H4 (conj H5 (conj Hlast (conj (eq_trans Ha Hacq) (conj Hst Hw)))))). }
      assert (∀ x, x ∈ (if acq then kn s (actor a) ∪ m_rel m else kn s (actor a)) →
                ∃ i, is_event (tr ++ [ev]) i x ∧ hb o c (tr ++ [ev]) i (length tr)) as Hk'.
      { intros x Hx. destruct acq; [|by apply Hme].
        apply elem_of_union in Hx as [Hx|Hx]; [by apply Hme|by apply Hacq]. }
      constructor.
      * intros t x Hx. rewrite (kn_upd _ _ _ _ t Hk) in Hx. destruct (decide (t = actor a)) as [->|]; [|by apply Hkn'].
        destruct (Hk' x Hx) as (i & Hi & Hib). exists i, (length tr). split_and!; [done|by right|by apply Hvis].
      * intros τ' m0 x Hm0 Hx. rewrite Hh in Hm0. destruct (decide (τ' = (τ + 1)%N)) as [->|Hn].
        -- rewrite lookup_insert in Hm0. injection Hm0 as <-.
           assert (x ∈ m_rel m ∨ (rel = true ∧ ∃ i, is_event (tr ++ [ev]) i x ∧ hb o c (tr ++ [ev]) i (length tr))) as [Hxm|(Hrt & i & Hi & Hib)].
           { rewrite Hmr in Hx. destruct rel; [|by left]. apply elem_of_union in Hx as [Hx|Hx]; [by left|].
             right. split; [done|]. by apply Hk'. }
           ++ destruct (Hrel' τ m x Hm Hxm) as (i & d & e & H1 & H2 & H3 & H4 & H5).
              exists i, d, e. split_and!; [done..|]. exact (rs_next _ _ _ _ _ H5 Hlast Hw Hst).
           ++ exists i, (length tr), ev. split_and!; [done..|exact (eq_trans Hr Hrt)|]. by eapply rs_head.
        -- rewrite lookup_insert_ne in Hm0 by done. by eapply Hrel'.
    + assert (writes_msg ev τ) as Hw.
      { split; [done|]. cbn. rewrite Hh, lookup_insert. by eexists. }
      constructor.
      * intros t x Hx. rewrite (kn_upd _ _ _ _ t Hk) in Hx. destruct (decide (t = actor a)) as [->|]; by apply Hkn'.
      * intros τ' m0 x Hm0 Hx. rewrite Hh in Hm0. destruct (decide (τ' = τ)) as [->|Hn].
        -- rewrite lookup_insert in Hm0. injection Hm0 as <-. rewrite Hmr in Hx. destruct rel; [|set_solver].
           destruct (Hme x Hx) as (i & Hi & Hib).
           exists i, (length tr), ev. split_and!; [done..|]. by eapply rs_head.
        -- rewrite lookup_insert_ne in Hm0 by done. by eapply Hrel'.
    + constructor.
      * intros t x Hx. rewrite (kn_upd _ _ _ _ t Hk) in Hx. destruct (decide (t = actor a)) as [->|]; [|by apply Hkn'].
        apply elem_of_union in Hx as [Hx|Hx]; [by apply Hkn'|]. apply elem_of_singleton in Hx as ->.
        exists (length tr), (length tr). split_and!; [|by left|by apply Hvis]. by exists ev, w.
      * intros τ m x Hm Hx. rewrite Hh in Hm. by eapply Hrel'.
    + constructor.
      * intros t2 x Hx. rewrite (kn_upd _ _ _ _ t2 Hk) in Hx. destruct (decide (t2 = t')) as [->|]; [|by apply Hkn'].
        apply elem_of_union in Hx as [Hx|Hx]; [|by apply Hkn'].
        assert (actor a = t) as Hact by (by rewrite Hat). rewrite <- Hact in Hx.
        destruct (Hme x Hx) as (i & Hi & Hib). exists i, (length tr). split_and!; [done|by right|].
        exists ev. split; [done|]. right. exists t. exact Hat.
      * intros τ m x Hm Hx. rewrite Hh in Hm. by eapply Hrel'.
Qed.

(** * What happened before is known *)
Lemma rs_carries o c tr s d τ x :
  wtrace o c tr s → rel_seq tr d τ →
  (∀ e τ0 m0, tr !! d = Some e → writes_msg e τ0 → hist (e_post e) !! τ0 = Some m0 → x ∈ m_rel m0) →
  ∃ m, hist s !! τ = Some m ∧ x ∈ m_rel m.
Proof.
  intros H Hrs Hd. induction Hrs as [e τ Hi [Hw [m Hm]]|j e τ _ IH Hj [Hw [m Hm]] Hs].
  - exists m. split; [|by eapply Hd]. by apply (trace_at _ _ _ _ _ _ H Hi).
  - destruct IH as (m0 & Hm0 & Hx).
    pose proof (trace_at _ _ _ _ _ _ H Hj) as (_ & _ & Hmo).
    pose proof (trace_shape _ _ _ _ _ _ H Hj) as Hsh.
    exists m. split; [by apply Hmo|].
    destruct Hsh as [Hh Hk _ _ _|τ1 m1 m' acq rel Hm1 Hf Hh Ha Hr Hst Hk Hmr _ _ _
         |τ1 m' rel Hf Hh Ha Hr Hst Hk Hmr _ _ _
         |w Hh Hk Hd' _ _ _ _|t t' Hat Hh Hk _]; try (rewrite Hh in Hm; congruence).
    + rewrite Hh in Hm. destruct (decide ((τ + 1)%N = (τ1 + 1)%N)) as [E|Hn].
      2: { rewrite lookup_insert_ne in Hm by done. congruence. }
      assert (τ = τ1) as <- by lia. rewrite lookup_insert in Hm. injection Hm as <-.
      assert (hist s !! τ = Some m1) as Hm1'.
      { apply Hmo. apply (shape_mono _ _ _ _ _ (trace_shape _ _ _ _ _ _ H Hj)). done. }
      assert (m1 = m0) as -> by congruence. rewrite Hmr. destruct rel; set_solver.
    + assert (is_store e = true) by (destruct e; exact Hst). congruence.
Qed.

Lemma hb_known o c tr s i j e e' x :
  wtrace o c tr s → hb o c tr i j → tr !! i = Some e → tr !! j = Some e' →
  x ∈ kn (e_post e) (actor (e_act e)) → x ∈ kn (e_post e') (actor (e_act e')).
Proof.
  intros H Hb. revert e e'. induction Hb as [i j e0 e0' Hlt Hi Hj Ha|i j e0 e0' t t' Hlt Hi Ha Hj He
      |i j Hlt (e0 & e0' & τ & Hi & Hr & Hrs & Hj & Hq & Hs & Hw)|i j k Hij IH1 Hjk IH2]; intros e e' Hie Hje Hx.
  - assert (e0 = e) as -> by congruence. assert (e0' = e') as -> by congruence.
    apply (shape_mono _ _ _ _ _ (trace_shape _ _ _ _ _ _ H Hj)).
    apply (trace_lt _ _ _ _ _ _ _ _ H Hlt Hi Hj). by rewrite <- Ha.
  - assert (e0 = e) as -> by congruence. assert (e0' = e') as -> by congruence.
    apply (shape_mono _ _ _ _ _ (trace_shape _ _ _ _ _ _ H Hj)).
    apply (trace_lt _ _ _ _ _ _ _ _ H Hlt Hi Hj). rewrite He.
    pose proof (trace_shape _ _ _ _ _ _ H Hi) as Hsh. rewrite Ha in Hx. cbn in Hx.
    destruct Hsh as [_ _ _ Hn _|????? _ _ _ _ _ _ _ _ _ Hn _|??? _ _ _ _ _ _ _ _ Hn _|w _ _ Hd _ _ _ _|t1 t1' Hat _ Hk _].
    + by destruct (Hn t t').
    + by destruct (Hn t t').
    + by destruct (Hn t t').
    + unfold data_access in Hd. cbn in Hd. by rewrite Ha in Hd.
    + rewrite Ha in Hat. injection Hat as <- <-. rewrite (kn_upd _ _ _ _ _ Hk) in Hx. rewrite (kn_upd _ _ _ _ _ Hk).
      rewrite decide_True by done. destruct (decide (t = t')); [done|]. set_solver.
  - assert (e0 = e) as -> by congruence. assert (e0' = e') as -> by congruence.
    destruct (rs_carries _ _ _ _ _ _ x H Hrs) as (m & Hm & Hxm).
    { intros e1 τ0 m0 Hi1 [Hw0 _] Hm0. assert (e1 = e) as -> by congruence.
      pose proof (trace_shape _ _ _ _ _ _ H Hi) as Hsh.
      destruct Hsh as [Hh Hk _ _ _|τ1 m1 m' acq rel Hm1 Hf Hh Ha Hr' Hst Hk Hmr _ _ _
         |τ1 m' rel Hf Hh Ha Hr' Hst Hk Hmr _ _ _
         |w Hh Hk Hd' _ _ _ _|t t' Hat Hh Hk _]; try (rewrite Hh in Hm0; congruence).
      - assert (rel = true) as -> by (rewrite <- Hr'; destruct e; exact Hr).
        rewrite (kn_upd _ _ _ _ _ Hk), decide_True in Hx by done.
        rewrite Hh in Hm0. destruct (decide (τ0 = (τ1 + 1)%N)) as [->|Hn].
        + rewrite lookup_insert in Hm0. injection Hm0 as <-. rewrite Hmr. destruct acq; set_solver.
        + rewrite lookup_insert_ne in Hm0 by done. congruence.
      - assert (rel = true) as -> by (rewrite <- Hr'; destruct e; exact Hr).
        rewrite (kn_upd _ _ _ _ _ Hk), decide_True in Hx by done.
        rewrite Hh in Hm0. destruct (decide (τ0 = τ1)) as [->|Hn].
        + rewrite lookup_insert in Hm0. injection Hm0 as <-. by rewrite Hmr.
        + rewrite lookup_insert_ne in Hm0 by done. congruence. }
    pose proof (trace_shape _ _ _ _ _ _ H Hj) as Hsh. pose proof (trace_at _ _ _ _ _ _ H Hj) as (_ & _ & Hmo).
    destruct Hw as [Hw [m2 Hm2]].
    destruct Hsh as [Hh Hk _ _ _|τ1 m1 m' acq rel Hm1 Hf Hh Ha Hr' Hst Hk Hmr _ _ _
         |τ1 m' rel Hf Hh Ha Hr' Hst Hk Hmr _ _ _
         |w Hh Hk Hd' _ _ _ _|t t' Hat Hh Hk _]; try (rewrite Hh in Hm2; congruence).
    + assert (acq = true) as -> by (rewrite <- Ha; destruct e'; exact Hq).
      rewrite Hh in Hm2. destruct (decide ((τ + 1)%N = (τ1 + 1)%N)) as [E|Hn].
      2: { rewrite lookup_insert_ne in Hm2 by done. congruence. }
      assert (τ = τ1) as <- by lia.
      assert (hist s !! τ = Some m1) as Hm1'.
      { apply Hmo. apply (shape_mono _ _ _ _ _ (trace_shape _ _ _ _ _ _ H Hj)). done. }
      assert (m1 = m) as -> by congruence.
      rewrite (kn_upd _ _ _ _ _ Hk), decide_True by done. set_solver.
    + assert (is_store e' = true) by (destruct e'; exact Hst). congruence.
  - pose proof (hb_lt _ _ _ _ _ Hjk) as Hlt2.
    assert (is_Some (tr !! j)) as [ej Hej].
    { apply lookup_lt_is_Some. apply lookup_lt_Some in Hje. lia. }
    eapply IH2; [exact Hej|done|]. by eapply IH1.
Qed.

(** * Data races *)
Lemma access_shape o c tr s j e w :
  wtrace o c tr s → tr !! j = Some e → data_access e = Some w →
  let s := e_pre e in let s' := e_post e in let t := actor (e_act e) in
  known s' = <[t := kn s t ∪ {[nev s]}]> (known s) ∧ nev s' = (nev s + 1)%N ∧
  reads s' = (if w then reads s else reads s ∪ {[nev s]}) ∧
  writes s' = (if w then writes s ∪ {[nev s]} else writes s) ∧
  raced s' = raced s || negb (bool_decide ((if w then reads s ∪ writes s else writes s) ⊆ kn s t)).
Proof.
  intros H Hj Hd. cbv zeta. pose proof (trace_shape _ _ _ _ _ _ H Hj) as Hsh.
  destruct Hsh as [_ _ Hn _ _|????? _ _ _ _ _ _ _ _ Hn _ _|??? _ _ _ _ _ _ _ Hn _ _|w' _ Hk Hd' H1 H2 H3 H4|t1 t1' Hat _ _ _].
  - unfold data_access in Hd, Hn. cbn in Hn. congruence.
  - unfold data_access in Hd, Hn. cbn in Hn. congruence.
  - unfold data_access in Hd, Hn. cbn in Hn. congruence.
  - assert (w' = w) as -> by (unfold data_access in Hd, Hd'; cbn in Hd'; congruence). done.
  - unfold data_access in Hd. rewrite Hat in Hd. done.
Qed.

(** Every recorded access is a step of the run. *)
Lemma recorded o c tr s :
  wtrace o c tr s →
  (∀ x, x ∈ reads s → ∃ i e, tr !! i = Some e ∧ data_access e = Some false ∧ nev (e_pre e) = x) ∧
  (∀ x, x ∈ writes s → ∃ i e, tr !! i = Some e ∧ data_access e = Some true ∧ nev (e_pre e) = x).
Proof.
  induction 1 as [|tr s a s' Htr [IH1 IH2] Hs].
  - split; intros x Hx; cbn in Hx; set_solver.
  - apply step_shape in Hs as Hsh.
    set (ev := {| e_act := a; e_pre := s; e_post := s' |}) in *.
    assert ((tr ++ [ev]) !! length tr = Some ev) as Hlast by (by rewrite list_lookup_middle).
    assert (∀ b x, (∃ i e, tr !! i = Some e ∧ data_access e = Some b ∧ nev (e_pre e) = x) →
                   ∃ i e, (tr ++ [ev]) !! i = Some e ∧ data_access e = Some b ∧ nev (e_pre e) = x) as Hold.
    { intros b x (i & e & Hi & ? & ?). exists i, e. split; [by apply lookup_app_l_Some|done]. }
    destruct Hsh as [_ _ _ _ (H1&H2&_)|????? _ _ _ _ _ _ _ _ _ _ (H1&H2&_)|??? _ _ _ _ _ _ _ _ _ (H1&H2&_)
         |w Hh Hk Hd _ H1 H2 _|t t' Hat Hh Hk (H1&H2&_)]; rewrite H1, H2.
    1,2,3,5: (split; intros x Hx; apply Hold; auto).
    split; intros x Hx; destruct w.
    + apply Hold; auto.
    + apply elem_of_union in Hx as [Hx|Hx]; [apply Hold; auto|]. apply elem_of_singleton in Hx as ->. by exists (length tr), ev.
    + apply elem_of_union in Hx as [Hx|Hx]; [apply Hold; auto|]. apply elem_of_singleton in Hx as ->. by exists (length tr), ev.
    + apply Hold; auto.
Qed.

Lemma event_unique o c tr s i j e e' w w' :
  wtrace o c tr s → tr !! i = Some e → tr !! j = Some e' → data_access e = Some w → data_access e' = Some w' →
  nev (e_pre e) = nev (e_pre e') → i = j.
Proof.
  intros H Hi Hj Hd Hd' Hn.
  destruct (access_shape _ _ _ _ _ _ _ H Hi Hd) as (_ & H1 & _).
  destruct (access_shape _ _ _ _ _ _ _ H Hj Hd') as (_ & H2 & _).
  destruct (decide (i < j)) as [Hlt|]; [|destruct (decide (j < i)) as [Hlt|]; [|lia]].
  - pose proof (mo_nev _ _ (trace_lt _ _ _ _ _ _ _ _ H Hlt Hi Hj)). lia.
  - pose proof (mo_nev _ _ (trace_lt _ _ _ _ _ _ _ _ H Hlt Hj Hi)). lia.
Qed.

Lemma raced_at o c tr s :
  wtrace o c tr s → raced s = true →
  ∃ j e w, tr !! j = Some e ∧ data_access e = Some w ∧
    ¬ (if w then reads (e_pre e) ∪ writes (e_pre e) else writes (e_pre e)) ⊆ kn (e_pre e) (actor (e_act e)).
Proof.
  induction 1 as [|tr s a s' Htr IH Hs]; [done|]. intros Hr.
  apply step_shape in Hs as Hsh.
  set (ev := {| e_act := a; e_pre := s; e_post := s' |}) in *.
  assert ((tr ++ [ev]) !! length tr = Some ev) as Hlast by (by rewrite list_lookup_middle).
  assert (raced s = true → ∃ j e w, (tr ++ [ev]) !! j = Some e ∧ data_access e = Some w ∧
    ¬ (if w then reads (e_pre e) ∪ writes (e_pre e) else writes (e_pre e)) ⊆ kn (e_pre e) (actor (e_act e))) as Hold.
  { intros H. destruct (IH H) as (j & e & w & Hj & ?). exists j, e, w. split; [by apply lookup_app_l_Some|done]. }
  destruct Hsh as [_ _ _ _ (_&_&_&H1)|????? _ _ _ _ _ _ _ _ _ _ (_&_&_&H1)|??? _ _ _ _ _ _ _ _ _ (_&_&_&H1)
         |w Hh Hk Hd _ _ _ H1|t t' Hat Hh Hk (_&_&_&H1)]; rewrite H1 in Hr.
  1,2,3,5: by apply Hold.
  apply orb_true_iff in Hr as [Hr|Hr]; [by apply Hold|].
  apply negb_true_iff, bool_decide_eq_false in Hr. by exists (length tr), ev, w.
Qed.

Theorem raced_iff o c tr s :
  wtrace o c tr s → raced s = true ↔ ∃ i j, data_race o c tr i j.
Proof.
  intros H. split.
  - intros Hr. destruct (raced_at _ _ _ _ H Hr) as (j & e' & w' & Hj & Hd' & Hns).
    assert (∃ x, x ∈ (if w' then reads (e_pre e') ∪ writes (e_pre e') else writes (e_pre e')) ∧
                 x ∉ kn (e_pre e') (actor (e_act e'))) as (x & Hx & Hxn).
    { apply dec_stable. intros Hno. apply Hns. intros x Hx. apply dec_stable. intros Hxn. apply Hno. by exists x. }
    pose proof (trace_at _ _ _ _ _ _ H Hj) as (Hpre & _ & _).
    destruct (recorded _ _ _ _ Hpre) as [Hrd Hwr].
    assert (∃ i e w, take j tr !! i = Some e ∧ data_access e = Some w ∧ nev (e_pre e) = x ∧ w || w' = true) as
      (i & e & w & Hi & Hd & Hx' & Hww).
    { destruct w'.
      - apply elem_of_union in Hx as [Hx|Hx].
        + destruct (Hrd _ Hx) as (i & e & ? & ? & ?). by exists i, e, false.
        + destruct (Hwr _ Hx) as (i & e & ? & ? & ?). by exists i, e, true.
      - destruct (Hwr _ Hx) as (i & e & ? & ? & ?). by exists i, e, true. }
    apply lookup_take_Some in Hi as [Hi Hlt].
    exists i, j. split; [done|]. exists e, e', w, w'. split_and!; [done..|]. intros Hb.
    destruct (access_shape _ _ _ _ _ _ _ H Hi Hd) as (Hk & Hn & _).
    destruct (access_shape _ _ _ _ _ _ _ H Hj Hd') as (Hk' & _).
    assert (x ∈ kn (e_post e') (actor (e_act e'))) as Hin.
    { apply (hb_known _ _ _ _ _ _ _ _ x H Hb Hi Hj).
      rewrite (kn_upd _ _ _ _ _ Hk), decide_True by done. set_solver. }
    rewrite (kn_upd _ _ _ _ _ Hk'), decide_True in Hin by done.
    apply elem_of_union in Hin as [Hin|Hin]; [done|]. apply elem_of_singleton in Hin.
    pose proof (mo_nev _ _ (trace_lt _ _ _ _ _ _ _ _ H Hlt Hi Hj)). lia.
  - intros (i & j & Hlt & e & e' & w & w' & Hi & Hj & Hd & Hd' & Hww & Hnb).
    destruct (raced s) eqn:Hr; [done|]. exfalso. apply Hnb.
    destruct (access_shape _ _ _ _ _ _ _ H Hi Hd) as (Hk & Hn & Hre & Hwr & _).
    destruct (access_shape _ _ _ _ _ _ _ H Hj Hd') as (_ & _ & _ & _ & Hra).
    pose proof (trace_at _ _ _ _ _ _ H Hj) as (Hpre & _ & Hmo).
    assert (raced (e_post e') = false) as Hr'.
    { destruct (raced (e_post e')) eqn:E; [|done]. pose proof (mo_raced _ _ Hmo E). congruence. }
    rewrite Hr' in Hra. symmetry in Hra. apply orb_false_iff in Hra as [_ Hra].
    apply negb_false_iff, bool_decide_eq_true in Hra.
    pose proof (trace_lt _ _ _ _ _ _ _ _ H Hlt Hi Hj) as Hm1.
    assert (nev (e_pre e) ∈ kn (e_pre e') (actor (e_act e'))) as Hin.
    { apply Hra. pose proof (mo_reads _ _ Hm1) as M1. pose proof (mo_writes _ _ Hm1) as M2.
      rewrite Hre in M1. rewrite Hwr in M2. destruct w, w'; try done; set_solver. }
    destruct (k_known _ _ _ _ (views_trace _ _ _ _ Hpre) _ _ Hin) as (i' & k & (e0 & w0 & Hi0 & Hd0 & Hx0) & Hik & Hv).
    apply lookup_take_Some in Hi0 as [Hi0 _].
    assert (i' = i) as -> by (eapply (event_unique _ _ _ _ _ _ _ _ _ _ H Hi0 Hi Hd0 Hd); done).
    assert (k < j) as Hkj.
    { destruct Hv as (ek & Hek & _). by apply lookup_take_Some in Hek as [_ ?]. }
    rewrite <- (take_drop j tr). eapply visible_hb; [| |exact Hkj| |reflexivity].
    + destruct Hik as [->|Hik]; [by left|right; by apply hb_app].
    + by apply visible_app.
    + rewrite take_drop. exact Hj.
Qed.

Lemma trace_run o c tr s : wtrace o c tr s → w_run o c w_init (map e_act tr) = Some s.
Proof.
  assert (∀ l1 l2 s0, w_run o c s0 (l1 ++ l2) =
            match w_run o c s0 l1 with Some s1 => w_run o c s1 l2 | None => None end) as Happ.
  { induction l1 as [|a l1 IH]; intros l2 s0; [done|]. cbn. destruct (w_step o c s0 a); [apply IH|done]. }
  induction 1 as [|tr s a s' Htr IH Hs]; [done|]. rewrite map_app, Happ, IH. cbn. by rewrite Hs.
Qed.
Lemma run_trace o c l s : w_run o c w_init l = Some s → ∃ tr, wtrace o c tr s ∧ map e_act tr = l.
Proof.
  assert (∀ l tr s0, wtrace o c tr s0 → w_run o c s0 l = Some s → ∃ tr', wtrace o c tr' s ∧ map e_act tr' = map e_act tr ++ l) as Hgen.
  { clear l. induction l as [|a l IH]; intros tr s0 Htr Hr; cbn in Hr.
    - injection Hr as <-. exists tr. by rewrite app_nil_r.
    - destruct (w_step o c s0 a) as [s1|] eqn:Hs; [|done].
      destruct (IH _ _ (wt_snoc _ _ _ _ _ _ Htr Hs) Hr) as (tr' & H1 & H2). exists tr'. split; [done|].
      rewrite H2, map_app, <- app_assoc. done. }
  intros Hr. destruct (Hgen l [] w_init (wt_nil o c) Hr) as (tr & H1 & H2). by exists tr.
Qed.
