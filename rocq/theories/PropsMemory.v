(** Properties of the memory reports (C84). *)
From stdpp Require Import prelude list gmap fin_sets.
From Coq Require Import NArith Lia.
From Verif Require Import EntityId Base SparseSet Entities SparseSetSpec SparseSetProofs SparseSetProofs2
  SparseSetHistory PropsSparseSet EntitiesSpec EntitiesProofs EntitiesHistory PropsEntities Memory MemorySpec.
Local Open Scope N_scope.

(** * Which pages there are *)
Definition shape (sp : sparse_array) : list bool := (λ o, match o with Some _ => true | None => false end) <$> sp.
Global Arguments shape : simpl never.
Lemma shape_len sp : length (shape sp) = length sp.
Proof. apply fmap_length. Qed.
Lemma write_shape sp e v sp' : sa_write sp e v = Ok sp' → shape sp' = shape sp.
Proof.
  unfold sa_write. destruct (getN sp (bucket e)) as [[b|]|] eqn:E; [|done..].
  destruct (getN b (bucket_index e)); [|done]. intros [= <-]. rewrite setN_insert. unfold shape.
  rewrite list_fmap_insert. apply list_insert_id. rewrite list_lookup_fmap.
  rewrite getN_lookup in E. by rewrite E.
Qed.
Lemma kill_shape l sp sp' : kill_slots l sp = Ok sp' → shape sp' = shape sp.
Proof.
  revert sp. induction l as [|e l IH]; intros sp; cbn; [by intros [= <-]|].
  destruct (sa_write sp e eid_dead) as [sp1| |] eqn:E; [|done..]. cbn. intros H.
  rewrite (IH _ H). by apply write_shape in E.
Qed.
Lemma reindex_shape i l sp sp' : sort_reindex i l sp = Ok sp' → shape sp' = shape sp.
Proof.
  revert i sp. induction l as [|e l IH]; intros i sp; cbn; [by intros [= <-]|].
  destruct (sa_get_unchecked sp e) as [x| |]; [|done..]. cbn. destruct (i <? INDEX_MASK); [|done].
  destruct (sa_write sp e _) as [sp1| |] eqn:E; [|done..]. cbn. intros H.
  rewrite (IH _ _ H). by apply write_shape in E.
Qed.
Ltac inv_ok H :=
  repeat (match type of H with
  | rbind ?x _ = Ok _ => let E := fresh "E" in destruct x eqn:E; cbn [rbind] in H; [|discriminate H..]
  | (let (_, _) := ?p in _) = Ok _ => destruct p; cbn [rbind] in H
  | (if ?b then _ else _) = Ok _ => let E := fresh "E" in destruct b eqn:E; cbn [rbind] in H; try discriminate H
  | match ?x with _ => _ end = Ok _ => let E := fresh "E" in destruct x eqn:E; cbn [rbind] in H; try discriminate H
  end).
Section steps.
Context {T : Type}.
Implicit Types s : sset T.
Lemma remove_shape s e s' r : actual_remove s e = Ok (s', r) → shape (ss_sparse s') = shape (ss_sparse s).
Proof.
  unfold actual_remove. destruct (sa_get (ss_sparse s) e) as [slot|]; [|by intros [= <- _]].
  destruct (gen slot <=? gen e); [|by intros [= <- _]]. intros H.
  destruct (sa_write (ss_sparse s) e eid_dead) as [sp| |] eqn:E1; cbn [rbind] in H; [|done..].
  destruct (swap_remove (ss_dense s) (idx slot)) as [[? dn]| |]; cbn [rbind] in H; [|done..].
  destruct (if ss_ti s then _ else _) as [im| |]; cbn [rbind] in H; [|done..].
  destruct (if ss_tm s then _ else _) as [mm| |]; cbn [rbind] in H; [|done..].
  destruct (swap_remove (ss_data s) (idx slot)) as [[c dt]| |]; cbn [rbind] in H; [|done..].
  apply write_shape in E1.
  destruct (idx slot <? lenN dn).
  - destruct (get_unchecked dn (idx slot)) as [last| |]; cbn [rbind] in H; [|done..].
    destruct (sa_get_unchecked sp last) as [ls| |]; cbn [rbind] in H; [|done..].
    destruct (sa_write sp last _) as [sp2| |] eqn:E2; cbn [rbind] in H; [|done..].
    apply write_shape in E2. destruct (gen e =? gen slot); injection H as <- _; cbn; by rewrite E2.
  - cbn [rbind] in H. destruct (gen e =? gen slot); injection H as <- _; by cbn.
Qed.
Lemma delete_shape s e t s' r : dyn_delete s e t = Ok (s', r) → shape (ss_sparse s') = shape (ss_sparse s).
Proof.
  unfold dyn_delete. destruct (actual_remove s e) as [[s1 c]| |] eqn:E; cbn [rbind]; [|done..].
  apply remove_shape in E. destruct c as [c|]; intros [= <- _]; [|done]. destruct (ss_td s1); by cbn.
Qed.
Lemma dremove_shape s e t s' r : dyn_remove s e t = Ok (s', r) → shape (ss_sparse s') = shape (ss_sparse s).
Proof.
  unfold dyn_remove. destruct (actual_remove s e) as [[s1 c]| |] eqn:E; cbn [rbind]; [|done..].
  apply remove_shape in E. destruct c as [c|]; intros [= <- _]; [|done]. destruct (ss_tr s1); by cbn.
Qed.
Lemma retain_shape {St} n i r (f : St → eid → T → St * bool) st t s s' st' :
  retain_loop n i r f st t s = Ok (s', st') → shape (ss_sparse s') = shape (ss_sparse s).
Proof.
  revert i r st s. induction n as [|n IH]; intros i r st s; cbn; [by intros [= <- _]|].
  destruct (i <? r); [done|].
  destruct (get_unchecked (ss_dense s) _) as [e| |]; cbn [rbind]; [|done..].
  destruct (get_unchecked (ss_data s) _) as [c| |]; cbn [rbind]; [|done..].
  destruct (f st e c) as [st1 keep]. destruct keep; [apply IH|].
  destruct (dyn_delete s e t) as [[s1 b]| |] eqn:E; cbn [rbind]; [|done..].
  intros H. rewrite (IH _ _ _ _ H). by eapply delete_shape.
Qed.
Lemma swap_shape s i p s' : sort_swap s i p = Ok s' → ss_sparse s' = ss_sparse s.
Proof.
  unfold sort_swap. destruct (swapN (ss_dense s) i p) as [dn| |]; cbn [rbind]; [|done..].
  destruct (swapN (ss_data s) i p) as [dt| |]; cbn [rbind]; [|done..].
  destruct (if ss_ti s then _ else _) as [im| |]; cbn [rbind]; [|done..].
  destruct (if ss_tm s then _ else _) as [mm| |]; cbn [rbind]; [|done..].
  by intros [= <-].
Qed.
Lemma loop_shape n tr i s s' : sort_loop n tr i s = Ok s' → ss_sparse s' = ss_sparse s.
Proof.
  revert i s. induction n as [|n IH]; intros i s; cbn; [by intros [= <-]|].
  destruct (get_unchecked tr i) as [p0| |]; cbn [rbind]; [|done..].
  destruct (sort_follow _ tr i p0) as [p| |]; cbn [rbind]; [|done..].
  destruct (sort_swap s i p) as [s1| |] eqn:E; cbn [rbind]; [|done..].
  intros H. rewrite (IH _ _ H). by eapply swap_shape.
Qed.
(** What an insertion does to the pages. *)
Definition grow (l : list bool) (b : N) : list bool :=
  setN (l ++ replicate (N.to_nat (b + 1 - lenN l)) false) b true.
Lemma allocate_shape sp e sp' : sa_allocate_at sp e = Ok sp' → shape sp' = grow (shape sp) (bucket e).
Proof.
  unfold sa_allocate_at. destruct (eid_is_dead e); [done|]. unfold sa_fill, sa_resize, grow.
  assert (Hs : shape (sp ++ replicate (N.to_nat (bucket e + 1 - lenN sp)) None) =
    shape sp ++ replicate (N.to_nat (bucket e + 1 - lenN (shape sp))) false).
  { unfold shape, lenN. rewrite fmap_app, fmap_replicate, fmap_length. done. }
  destruct (getN (sp ++ _) (bucket e)) as [[b|]|] eqn:E; [| |done]; intros [= <-].
  - rewrite <-Hs, setN_insert, list_insert_id; [done|]. unfold shape.
    rewrite getN_lookup in E. by rewrite list_lookup_fmap, E.
  - rewrite <-Hs, !setN_insert. unfold shape. by rewrite list_fmap_insert.
Qed.
Lemma insert_shape s e v t s' r :
  ss_insert s e v t = Ok (s', r) → shape (ss_sparse s') = grow (shape (ss_sparse s)) (bucket e).
Proof.
  unfold ss_insert. destruct (sa_allocate_at (ss_sparse s) e) as [sp| |] eqn:E; cbn [rbind]; [|done..].
  apply allocate_shape in E. destruct (sa_get_unchecked sp e) as [slot| |]; cbn [rbind]; [|done..].
  destruct (eid_is_dead slot); [|destruct (gen e =? gen slot); [|destruct (gen slot <? gen e)]]; intros H.
  - destruct (lenN (ss_dense s) <? INDEX_MASK); [|done].
    destruct (sa_write sp e _) as [sp1| |] eqn:E1; cbn [rbind] in H; [|done..].
    injection H as <- _. cbn. apply write_shape in E1. by rewrite E1.
  - destruct (get_unchecked (ss_data s) _) as [old| |]; cbn [rbind] in H; [|done..].
    destruct (sa_write sp e _) as [sp1| |] eqn:E1; cbn [rbind] in H; [|done..].
    destruct (get_unchecked (ss_dense s) _) as [de| |]; cbn [rbind] in H; [|done..].
    destruct (if ss_tm s then _ else _) as [mm| |]; cbn [rbind] in H; [|done..].
    injection H as <- _. cbn. apply write_shape in E1. by rewrite E1.
  - destruct (get_unchecked (ss_data s) _) as [old| |]; cbn [rbind] in H; [|done..].
    destruct (sa_write sp e _) as [sp1| |] eqn:E1; cbn [rbind] in H; [|done..].
    destruct (get_unchecked (ss_dense s) _) as [de| |]; cbn [rbind] in H; [|done..].
    destruct (if ss_ti s then _ else _) as [mm| |]; cbn [rbind] in H; [|done..].
    injection H as <- _. cbn. apply write_shape in E1. by rewrite E1.
  - injection H as <- _. by cbn.
Qed.
Lemma enable_sparse s a b c d : ss_sparse (enable_tracking s a b c d) = ss_sparse s.
Proof.
  unfold enable_tracking, track_insertion, track_modification, track_deletion, track_removal.
  destruct a, b, c, d; repeat case_match; done.
Qed.
Lemma step_shape s o s' ev : s_step s o = Ok (s', ev) →
  shape (ss_sparse s') =
    match o with OInsert e _ _ => grow (shape (ss_sparse s)) (bucket e) | _ => shape (ss_sparse s) end.
Proof.
  destruct o; cbn [s_step]; intros H.
  - destruct (ss_insert s e v t) as [[s1 r]| |] eqn:E; cbn [rbind] in H; [|done..].
    injection H as <- _. by eapply insert_shape.
  - destruct (dyn_remove s e t) as [[s1 r]| |] eqn:E; cbn [rbind] in H; [|done..].
    injection H as <- _. by eapply dremove_shape.
  - destruct (dyn_delete s e t) as [[s1 r]| |] eqn:E; cbn [rbind] in H; [|done..].
    injection H as <- _. by eapply delete_shape.
  - destruct (ss_write s e f t) as [[s1 r]| |] eqn:E; cbn [rbind] in H; [|done..].
    injection H as <- _. unfold ss_write in E. destruct (index_of s e) as [p|]; [|by injection E as <- _].
    destruct (get_unchecked (ss_data s) p); cbn [rbind] in E; [|done..].
    destruct (if ss_tm s then _ else _) as [mm| |]; cbn [rbind] in E; [|done..]. by injection E as <- _.
  - destruct (ss_clear s t) as [s1| |] eqn:E; cbn [rbind] in H; [|done..]. injection H as <- _.
    unfold ss_clear in E. destruct (kill_slots _ _) as [sp| |] eqn:E1; cbn [rbind] in E; [|done..].
    injection E as <-. cbn. by eapply kill_shape.
  - destruct (ss_drain s t) as [[s1 d]| |] eqn:E; cbn [rbind] in H; [|done..].
    destruct (drain_all _ d) as [l| |]; cbn [rbind] in H; [|done..]. injection H as <- _.
    unfold ss_drain in E. destruct (kill_slots _ _) as [sp| |] eqn:E1; cbn [rbind] in E; [|done..].
    injection E as <- _. cbn. by eapply kill_shape.
  - destruct (ss_retain s _ _ t) as [[s1 r]| |] eqn:E; cbn [rbind] in H; [|done..].
    injection H as <- _. by eapply retain_shape.
  - destruct (ss_sort s order) as [s1| |] eqn:E; cbn [rbind] in H; [|done..]. injection H as <- _.
    unfold ss_sort in E. destruct (sort_loop _ _ _ s) as [s2| |] eqn:E1; cbn [rbind] in E; [|done..].
    destruct (sort_reindex _ _ _) as [sp| |] eqn:E2; cbn [rbind] in E; [|done..]. injection E as <-.
    cbn. apply loop_shape in E1. apply reindex_shape in E2. by rewrite E2, E1.
  - destruct (ss_apply s _ _ _ t) as [[s1 r]| |] eqn:E; cbn [rbind] in H; [|done..].
    injection H as <- _. unfold ss_apply in E.
    destruct (index_of s a) as [pa|]; [|done]. destruct (index_of s b) as [pb|]; [|done].
    destruct (pa =? pb); [done|]. destruct (if ss_tm s then _ else _) as [mm| |]; cbn [rbind] in E; [|done..].
    destruct (get_unchecked (ss_data s) pa); cbn [rbind] in E; [|done..].
    destruct (get_unchecked (ss_data s) pb); cbn [rbind] in E; [|done..]. by injection E as <- _.
  - destruct (ss_apply_mut s _ _ _ t) as [[s1 r]| |] eqn:E; cbn [rbind] in H; [|done..].
    injection H as <- _. unfold ss_apply_mut in E.
    destruct (index_of s a) as [pa|]; [|done]. destruct (index_of s b) as [pb|]; [|done].
    destruct (pa =? pb); [done|]. destruct (if ss_tm s then _ else _) as [mm| |]; cbn [rbind] in E; [|done..].
    destruct (get_unchecked (ss_data s) pa) as [va| |]; cbn [rbind] in E; [|done..].
    destruct (get_unchecked (ss_data s) pb) as [vb| |]; cbn [rbind] in E; [|done..].
    destruct (f va vb) as [va' vb']. by injection E as <- _.
  - injection H as <- _. by rewrite enable_sparse.
  - by injection H as <- _.
  - by injection H as <- _.
  - by injection H as <- _.
  - by injection H as <- _.
Qed.
End steps.

(** Pages of a shape: [P] are the filled ones, all within it, the last one filled. *)
Definition shaped (l : list bool) (P : gset N) : Prop :=
  (∀ b, getN l b = Some true ↔ b ∈ P) ∧ page_end P (lenN l).
Lemma grow_len l b : lenN (grow l b) = N.max (lenN l) (b + 1).
Proof.
  unfold grow. rewrite lenN_setN, lenN_app. unfold lenN at 2. rewrite replicate_length. lia.
Qed.
Lemma grow_get l b c : getN (grow l b) c = Some true ↔ c = b ∨ getN l c = Some true.
Proof.
  unfold grow. destruct (decide (c = b)) as [->|Hn].
  - rewrite getN_setN_eq; [tauto|]. rewrite lenN_app. unfold lenN at 2. rewrite replicate_length. lia.
  - rewrite getN_setN_ne by done. split.
    + intros H. right. destruct (decide (c < lenN l)) as [Hc|Hc].
      * by rewrite getN_app_l in H.
      * rewrite getN_app_r in H by lia. rewrite getN_replicate in H. by case_match.
    + intros [?|H]; [done|]. rewrite getN_app_l; [done|]. by apply getN_Some_lt in H.
Qed.
Lemma shaped_grow l P b : shaped l P → shaped (grow l b) ({[b]} ∪ P).
Proof.
  intros [H1 [H2 H3]]. split; [|split].
  - intros c. rewrite grow_get, H1. set_solver.
  - intros c. rewrite grow_len, elem_of_union, elem_of_singleton. intros [->|Hc]; [lia|].
    specialize (H2 c Hc). lia.
  - rewrite grow_len. right. destruct (decide (lenN l <= b)).
    + replace (N.max (lenN l) (b + 1) - 1) with b by lia. set_solver.
    + destruct H3 as [H3|H3]; [lia|]. replace (N.max (lenN l) (b + 1)) with (lenN l) by lia. set_solver.
Qed.
Lemma run_shape {T} (ops : list (sop T)) : ∀ s s' evs P, s_run s ops = Ok (s', evs) →
  shaped (shape (ss_sparse s)) P → shaped (shape (ss_sparse s')) (pages_of ops ∪ P).
Proof.
  induction ops as [|o ops IH]; intros s s' evs P; cbn [s_run].
  - intros [= <- _] H. unfold pages_of. cbn. by rewrite (left_id_L ∅ (∪)).
  - destruct (s_step s o) as [[s1 ev]| |] eqn:E; cbn [rbind]; [|done..].
    destruct (s_run s1 ops) as [[s2 evs2]| |] eqn:E2; cbn [rbind]; [|done..].
    intros [= <- _] H. apply step_shape in E.
    assert (Hp : pages_of (o :: ops) ∪ P =
      pages_of ops ∪ match o with OInsert e _ _ => {[page e]} ∪ P | _ => P end).
    { unfold pages_of. destruct o; cbn; set_solver. }
    rewrite Hp. eapply IH; [exact E2|]. rewrite E. destruct o; try done.
    by apply (shaped_grow _ _ (page e)).
Qed.

Lemma new_shaped {T} ti tm td tr (ops : list (sop T)) s evs :
  s_run (ss_new ti tm td tr) ops = Ok (s, evs) → shaped (shape (ss_sparse s)) (pages_of ops).
Proof.
  intros E. rewrite <-(right_id_L ∅ (∪) (pages_of ops)). eapply run_shape; [exact E|].
  split; [|split; [set_solver|by left]]. intros b. change (shape _) with (@nil bool). rewrite getN_nil. split; [done|set_solver].
Qed.

(** Counting the filled pages. *)
Definition filled (l : list bool) : list N := filter (λ b, getN l b = Some true) (N.of_nat <$> seq 0 (length l)).
Lemma filter_ext (P Q : N → Prop) `{!∀ x, Decision (P x), !∀ x, Decision (Q x)} (l : list N) :
  (∀ x, x ∈ l → (P x ↔ Q x)) → filter P l = filter Q l.
Proof.
  induction l as [|x l IH]; intros Hx; [done|]. rewrite !filter_cons, IH by (intros; apply Hx; by right).
  specialize (Hx x (elem_of_list_here _ _)). repeat case_decide; tauto.
Qed.
Lemma pages_bytes_shape sp : pages_bytes sp = 256 * N.of_nat (length (filled (shape sp))).
Proof.
  unfold pages_bytes. induction sp as [|o sp IH] using rev_ind; [done|].
  rewrite foldl_app. cbn [foldl]. rewrite IH. unfold shape, filled. rewrite fmap_app, app_length. cbn [fmap list_fmap length].
  set (l := (λ o, match o with Some _ => true | None => false end) <$> sp).
  rewrite seq_app, fmap_app, filter_app, app_length. cbn [seq fmap list_fmap plus].
  assert (E : filter (λ b, getN (l ++ [match o with Some _ => true | None => false end]) b = Some true)
    (N.of_nat <$> seq 0 (length l)) = filter (λ b, getN l b = Some true) (N.of_nat <$> seq 0 (length l))).
  { apply filter_ext. intros b Hb. apply elem_of_list_fmap in Hb as (k & -> & Hk).
    apply elem_of_seq in Hk. rewrite getN_app_l; [done|]. unfold lenN. lia. }
  rewrite E. rewrite filter_cons, filter_nil.
  rewrite getN_app_r by (unfold lenN; lia). replace (N.of_nat (length l) - lenN l) with 0 by (unfold lenN; lia).
  change (getN [match o with Some _ => true | None => false end] 0)
    with (Some (match o with Some _ => true | None => false end)).
  change (BUCKET_SIZE * SZ_ID) with 256. generalize (length (filter (λ b, getN l b = Some true) (N.of_nat <$> seq 0 (length l)))).
  intros k. destruct o as [b|]; case_decide; try done; cbn [length]; lia.
Qed.
Lemma filled_size l P : shaped l P → length (filled l) = size P.
Proof.
  intros [H [H2 _]].
  assert (HP : P = list_to_set (filled l)).
  { apply set_eq. intros b. rewrite elem_of_list_to_set. unfold filled. rewrite elem_of_list_filter, H.
    split; [|tauto]. intros Hb. split; [done|]. apply elem_of_list_fmap. exists (N.to_nat b).
    split; [lia|]. apply elem_of_seq. specialize (H2 b Hb). unfold lenN in H2. lia. }
  rewrite HP, size_list_to_set; [done|]. unfold filled. apply NoDup_filter, NoDup_fmap_2; [apply _|apply NoDup_seq].
Qed.

(** * C84 *)
Section props.
Context {T : Type}.
Implicit Types (s : sset T) (h : hist T).

(** The report of a storage follows from its history: as many components as entities have one; and the bytes in use
    are those of [bytes], for the pages ever inserted into, the components, and the entries of the two logs. *)
Theorem C84_report ti tm td tr ops s h z c l :
  reaches ti tm td tr ops s h → h_lists h l →
  u_count (ss_memory_usage z s c) = lenN l ∧
  ∃ n, page_end (pages_of ops) n ∧
    u_used (ss_memory_usage z s c) = bytes z h (pages_of ops) n (lenN l) (lenN (ss_del s)) (lenN (ss_rem s)).
Proof.
  intros HRe Hl. destruct (reaches_SR _ _ _ _ _ _ _ HRe) as (a & HS & HH).
  pose proof (sr_inv s a HS) as HI.
  pose proof (C12_packed _ _ _ _ _ _ _ HRe) as (Hnd & _ & _ & _ & _ & Hdom & _).
  assert (Hn : lenN (ss_dense s) = lenN l).
  { unfold lenN. f_equal. destruct Hl as [Hl1 Hl2]. rewrite <-(fmap_length fst l). apply Permutation_length.
    apply NoDup_Permutation; [done..|]. intros e. rewrite Hdom, elem_of_list_fmap. split.
    - intros [v Hv]. exists (e, v). split; [done|]. by apply Hl2.
    - intros ([e' v] & -> & Hin). exists v. by apply Hl2. }
  cbn [u_count ss_memory_usage]. split; [done|].
  destruct HRe as (_ & evs & E & _).
  pose proof (new_shaped _ _ _ _ _ _ _ E) as Hsh.
  exists (lenN (ss_sparse s)). split.
  { destruct Hsh as [_ Hsh]. unfold lenN in *. by rewrite shape_len in Hsh. }
  cbn [u_used ss_memory_usage]. unfold ss_used, bytes, sa_used. rewrite pages_bytes_shape, (filled_size _ _ Hsh).
  rewrite (si_data s HI), (si_ins s HI), (si_mod s HI), (sr_ti s a HS), (sr_tm s a HS), <-(hr_ti h a HH),
    <-(hr_tm h a HH), Hn. unfold SZ_PTR, SZ_ID, SZ_TS, SZ_REM.
  destruct (h_ti h), (h_tm h); lia.
Qed.
(** What is in use is allocated, and the detailed report adds up to the short one. *)
Theorem C84_allocated z s c : caps_ok s c →
  u_used (ss_memory_usage z s c) <= u_allocated (ss_memory_usage z s c) ∧
  let '(base, allocated, used) := ss_detailed z s c in
  let sum m := m_sparse m + m_dense m + m_data m + m_ins m + m_mod m + m_del m + m_rem m + m_itself m in
  base = ss_memory_usage z s c ∧ sum allocated = u_allocated base ∧ sum used = u_used base ∧
  m_sparse used <= m_sparse allocated ∧ m_dense used <= m_dense allocated ∧ m_data used <= m_data allocated ∧
  m_ins used <= m_ins allocated ∧ m_mod used <= m_mod allocated ∧ m_del used <= m_del allocated ∧
  m_rem used <= m_rem allocated ∧ m_itself used = m_itself allocated.
Proof.
  intros (H1 & H2 & H3 & H4 & H5 & H6 & H7).
  cbn [ss_detailed ss_memory_usage u_used u_allocated m_sparse m_dense m_data m_ins m_mod m_del m_rem m_itself].
  unfold ss_used, ss_allocated, sa_used, sa_reserved.
  pose proof (N.mul_le_mono_r _ _ SZ_PTR H1). pose proof (N.mul_le_mono_r _ _ SZ_ID H2).
  pose proof (N.mul_le_mono_r _ _ (sz_comp z) H3). pose proof (N.mul_le_mono_r _ _ SZ_TS H4).
  pose proof (N.mul_le_mono_r _ _ SZ_TS H5). pose proof (N.mul_le_mono_r _ _ (sz_del z) H6).
  pose proof (N.mul_le_mono_r _ _ SZ_REM H7).
  split_and!; try done; lia.
Qed.
(** No operation gives the memory of a page back. *)
Theorem C84_pages_kept ti tm td tr ops s h ops' s' h' :
  reaches ti tm td tr ops s h → reaches ti tm td tr (ops ++ ops') s' h' →
  sa_used (ss_sparse s) <= sa_used (ss_sparse s').
Proof.
  intros (_ & evs & E & _) (_ & evs' & E' & _).
  pose proof (new_shaped _ _ _ _ _ _ _ E) as [H1 [H2 H3]].
  pose proof (new_shaped _ _ _ _ _ _ _ E') as [H1' [H2' H3']].
  assert (Hsub : pages_of ops ⊆ pages_of (ops ++ ops')).
  { unfold pages_of. rewrite omap_app, list_to_set_app_L. set_solver. }
  unfold sa_used, SZ_PTR. rewrite !pages_bytes_shape, (filled_size _ (pages_of ops)) by done.
  rewrite (filled_size (shape (ss_sparse s')) (pages_of (ops ++ ops'))) by done.
  pose proof (subseteq_size _ _ Hsub). unfold lenN in *. rewrite !shape_len in *.
  assert (N.of_nat (length (ss_sparse s)) <= N.of_nat (length (ss_sparse s'))); [|lia].
  destruct H3 as [H3|H3]; [lia|]. specialize (H2' _ (Hsub _ H3)). lia.
Qed.
(** Handles below [m] keep the pages bounded, however long the history: at most 264 bytes per 32 handles. *)
Theorem C84_bounded ti tm td tr ops s h m :
  reaches ti tm td tr ops s h → (∀ e v t, OInsert e v t ∈ ops → idx e < m) →
  sa_used (ss_sparse s) <= 264 * (m / 32 + 1).
Proof.
  intros HRe Hm. destruct HRe as (_ & evs & E & _).
  pose proof (new_shaped _ _ _ _ _ _ _ E) as Hsh.
  assert (Hb : ∀ b, b ∈ pages_of ops → b <= m / 32).
  { intros b. unfold pages_of. rewrite elem_of_list_to_set, elem_of_list_omap. intros (o & Ho & Eb).
    destruct o; try done. injection Eb as <-. unfold page. apply N.div_le_mono; [done|].
    specialize (Hm _ _ _ Ho). lia. }
  assert (Hl : lenN (shape (ss_sparse s)) <= m / 32 + 1).
  { destruct Hsh as [_ [_ [?|Hin]]]; [lia|]. specialize (Hb _ Hin). lia. }
  unfold sa_used. rewrite pages_bytes_shape. unfold SZ_PTR.
  assert (Hf : N.of_nat (length (filled (shape (ss_sparse s)))) <= lenN (shape (ss_sparse s))).
  { unfold filled. pose proof (filter_length (λ b, getN (shape (ss_sparse s)) b = Some true)
      (N.of_nat <$> seq 0 (length (shape (ss_sparse s))))) as Hf.
    rewrite fmap_length, seq_length in Hf. unfold lenN. lia. }
  assert (lenN (ss_sparse s) = lenN (shape (ss_sparse s))) as -> by (unfold lenN; by rewrite shape_len).
  lia.
Qed.
End props.

(** A storage with deletions tracked, left with one component of two; its numbers. *)
Definition case_ops : list (SparseSetSpec.sop N) :=
  [SparseSetSpec.OInsert (3, 0) 5 1; SparseSetSpec.OInsert (70, 2) 6 2; SparseSetSpec.ODelete (3, 0) 3].
Definition case_set : sset N :=
  Eval vm_compute in match s_run (ss_new true false true false) case_ops with Ok (s, _) => s | _ => ss_new true false true false end.
Example C84_case : ∃ h,
  reaches true false true false case_ops case_set h ∧ h_lists h [((70, 2), 6)] ∧ pages_of case_ops = {[0; 2]} ∧
  caps_ok case_set (Caps 4 4 4 4 0 4 0) ∧
  ss_memory_usage (Sizes 4 24 300) case_set (Caps 4 4 4 4 0 4 0) =
    Usage (8 * 3 + 256 * 2 + 1 * (8 + 4 + 8) + 1 * 24 + 300) (8 * 4 + 256 * 2 + 4 * 8 + 4 * 4 + 4 * 8 + 4 * 24 + 300) 1.
Proof.
  eexists. split_and!.
  - eapply reaches_intro; [concrete_allowed|vm_compute; reflexivity].
  - split; [apply NoDup_singleton|]. intros e v. cbn. unfold at_. rewrite elem_of_list_singleton.
    repeat (case_decide; simplify_eq/=; try done); naive_solver.
  - apply (bool_decide_unpack _). vm_compute. exact I.
  - repeat split; vm_compute; discriminate.
  - vm_compute. reflexivity.
Qed.

(** False: memory in use goes back when the components are gone.  One insertion at a high index keeps 8 bytes per 32
    lower indices and 256 more. *)
Definition kept_ops : list (SparseSetSpec.sop N) :=
  [SparseSetSpec.OInsert (32000, 0) 5 1; SparseSetSpec.OClear 2].
Definition kept_set : sset N :=
  Eval vm_compute in match s_run (ss_new false false false false) kept_ops with Ok (s, _) => s | _ => ss_new false false false false end.
Theorem C84_kept_refuted z c : ∃ s h,
  reaches false false false false kept_ops s h ∧ h_lists h [] ∧
  u_used (ss_memory_usage z s c) = 8 * 1001 + 256 + sz_self z.
Proof.
  exists kept_set. eexists. split_and!.
  - eapply reaches_intro; [unfold kept_ops; concrete_allowed|vm_compute; reflexivity].
  - split; [constructor|]. intros e v. cbn. set_solver.
  - cbn [u_used ss_memory_usage]. unfold ss_used.
    assert (sa_used (ss_sparse kept_set) = 8 * 1001 + 256) as -> by (vm_compute; reflexivity).
    assert (lenN (ss_dense kept_set) = 0) as -> by (vm_compute; reflexivity).
    assert (lenN (ss_data kept_set) = 0) as -> by (vm_compute; reflexivity).
    assert (lenN (ss_ins kept_set) = 0) as -> by (vm_compute; reflexivity).
    assert (lenN (ss_mod kept_set) = 0) as -> by (vm_compute; reflexivity).
    assert (lenN (ss_del kept_set) = 0) as -> by (vm_compute; reflexivity).
    assert (lenN (ss_rem kept_set) = 0) as -> by (vm_compute; reflexivity).
    lia.
Qed.

(** * The allocator *)
Definition below (a : aspec) : Prop :=
  (∀ e, e ∈ a_live a → idx e < a_next a) ∧ (∀ e, e ∈ a_ready a → idx e < a_next a).
Lemma fresh_idx n : ∀ start e, e ∈ a_fresh start n → start <= idx e < start + N.of_nat n.
Proof.
  induction n as [|n IH]; intros start e; cbn [a_fresh]; [set_solver|].
  rewrite elem_of_cons. intros [->|H]; [cbn; lia|]. apply IH in H. lia.
Qed.
Definition top_of (n : N) (l : list eid) : Prop :=
  (∀ e, e ∈ l → idx e < n) ∧ (n = 0 ∨ ∃ e, e ∈ l ∧ idx e = n - 1).
Lemma fresh_last n start : n ≠ 0%nat → (start + N.of_nat n - 1, 0) ∈ a_fresh start n.
Proof.
  revert start. induction n as [|n IH]; intros start Hn; [done|]. cbn [a_fresh]. rewrite elem_of_cons.
  destruct n as [|n]; [left; f_equal; lia|]. right.
  replace (start + N.of_nat (S (S n)) - 1) with (start + 1 + N.of_nat (S n) - 1) by lia. by apply IH.
Qed.
Lemma below_step a o ev a' l : a_step a o ev a' → below a → top_of (a_next a) l →
  below a' ∧ top_of (a_next a') (l ++ ev_issued ev).
Proof.
  intros Hs [Hl Hr] [H1 H2].
  assert (Hk : ∀ es, (∀ e, e ∈ es → idx e < a_next a) → top_of (a_next a) (l ++ es)).
  { intros es He. split.
    - intros e. rewrite elem_of_app. naive_solver.
    - destruct H2 as [?|(e & ? & ?)]; [by left|]. right. exists e. rewrite elem_of_app. tauto. }
  destruct Hs; cbn [a_next a_ready a_live ev_issued].
  - split.
    + split; cbn; [|intros; apply Hr; rewrite H; by right]. intros e. rewrite elem_of_union, elem_of_singleton.
      intros [->|?]; [|by apply Hl]. apply Hr. rewrite H. by left.
    + apply Hk. intros e. rewrite elem_of_list_singleton. intros ->. apply Hr. rewrite H. by left.
  - split.
    + split; cbn; [|set_solver]. intros e. rewrite elem_of_union, elem_of_singleton.
      intros [->|He]; [cbn; lia|]. specialize (Hl _ He). lia.
    + split.
      * intros e. rewrite elem_of_app, elem_of_list_singleton. intros [He| ->]; [|cbn; lia].
        specialize (H1 _ He). lia.
      * right. exists (a_next a, 0). rewrite elem_of_app, elem_of_list_singleton. cbn. split; [tauto|lia].
  - split.
    + split; cbn.
      * intros e. rewrite elem_of_union, elem_of_list_to_set.
        intros [He|He]; [apply fresh_idx in He; lia|]. specialize (Hl _ He). lia.
      * intros e He. specialize (Hr _ He). lia.
    + split.
      * intros e. rewrite elem_of_app. intros [He|He]; [specialize (H1 _ He); lia|]. apply fresh_idx in He. lia.
      * destruct (decide (n = 0%nat)) as [->|Hn].
        { cbn [a_fresh]. rewrite app_nil_r, N.add_0_r. done. }
        right. eexists. rewrite elem_of_app. split; [right; by apply fresh_last|done].
  - split; [|by apply Hk; set_solver]. split; cbn.
    + intros e'. set_solver.
    + intros e'. rewrite elem_of_app, elem_of_list_singleton. intros [?| ->]; [by apply Hr|]. cbn. by apply Hl.
  - split; [done|]. apply Hk. set_solver.
  - split; [done|]. apply Hk. set_solver.
  - split.
    + split; cbn.
      * intros e'. rewrite elem_of_union, elem_of_singleton. intros [->|He]; [lia|]. specialize (Hl _ He). lia.
      * intros e'. rewrite elem_of_app. intros [He|He]; [specialize (Hr _ He); lia|]. apply fresh_idx in He. lia.
    + split.
      * intros e'. rewrite elem_of_app, elem_of_list_singleton. intros [He| ->]; [specialize (H1 _ He); lia|lia].
      * right. exists e. rewrite elem_of_app, elem_of_list_singleton. split; [tauto|lia].
  - assert (He : idx e < a_next a) by (rewrite <-H0; by apply Hl). split.
    + split; cbn; [|done]. intros e'. rewrite elem_of_union, elem_of_singleton, elem_of_filter.
      intros [->|[_ ?]]; [done|by apply Hl].
    + apply Hk. intros e'. rewrite elem_of_list_singleton. by intros ->.
  - split; [done|]. apply Hk. set_solver.
  - assert (He : idx e < a_next a) by (rewrite <-H0; by apply Hr). split.
    + split; cbn.
      * intros e'. rewrite elem_of_union, elem_of_singleton. intros [->|?]; [done|by apply Hl].
      * intros e'. rewrite elem_of_list_filter. intros [_ ?]. by apply Hr.
    + apply Hk. intros e'. rewrite elem_of_list_singleton. by intros ->.
  - split; [done|]. apply Hk. set_solver.
  - split; [|apply Hk; set_solver]. split; cbn; [set_solver|]. intros e He.
    apply elem_of_list_lookup in He as [k Hk']. specialize (H0 (N.of_nat k) e). rewrite getN_lookup, Nat2N.id in H0.
    destruct (H0 Hk') as [-> _]. rewrite <-H. apply lookup_lt_Some in Hk'. unfold lenN. lia.
Qed.
Lemma below_run a ops evs a' l : a_run a ops evs a' → below a → top_of (a_next a) l →
  below a' ∧ top_of (a_next a') (l ++ issued evs).
Proof.
  intros Hr. revert l. induction Hr as [|a a1 a2 o ev ops evs Hs Hr IH]; intros l Hb Ht.
  - unfold issued. cbn. by rewrite app_nil_r.
  - destruct (below_step _ _ _ _ _ Hs Hb Ht) as [Hb1 Ht1]. unfold issued. cbn [mbind list_bind].
    rewrite (assoc_L (++)). by apply IH.
Qed.
(** The count reported for the entities is one more than the highest index ever given out; the live entities are at
    most that many, and the bytes in use are 8 for each. *)
Theorem C84_entities ops s evs self cap :
  history_ok ops → e_run e_new ops = Ok (s, evs) →
  let n := u_count (e_memory_usage self s cap) in
  (∀ e, e ∈ issued evs → idx e < n) ∧ (n = 0 ∨ ∃ e, e ∈ issued evs ∧ idx e = n - 1) ∧
  (∀ l, NoDup l → (∀ e, e ∈ l → is_alive s e = true) → lenN l <= n) ∧
  u_used (e_memory_usage self s cap) = 8 * n + self ∧
  (lenN (e_data s) <= cap → u_used (e_memory_usage self s cap) <= u_allocated (e_memory_usage self s cap)).
Proof.
  intros Hok Hrun. destruct (run_refines ops Hok) as (s0 & evs0 & a & Hrun0 & Ha & HR & _).
  rewrite Hrun in Hrun0. injection Hrun0 as <- <-. cbn [e_memory_usage u_count u_used u_allocated].
  destruct (below_run _ _ _ _ [] Ha) as [[Hl _] [H1 H2]].
  { split; cbn; set_solver. } { split; [set_solver|by left]. }
  cbn [app] in H1, H2. rewrite (R_len s a HR). unfold SZ_ID.
  split; [done|]. split; [done|]. split; [|split; lia].
  intros l Hnd Hin.
  assert (Hidx : NoDup (idx <$> l)).
  { clear -Hnd Hin. induction Hnd as [|e l He Hnd IH]; cbn; [constructor|]. constructor; [|apply IH; set_solver].
    rewrite elem_of_list_fmap. intros (e' & Ee & He'). apply He.
    assert (H1 := Hin e (elem_of_list_here _ _)). assert (H2 := Hin e' (elem_of_list_further _ _ _ He')).
    unfold is_alive in H1, H2. rewrite <-Ee in H2. repeat case_match; try done.
    apply bool_decide_eq_true in H1, H2. congruence. }
  unfold lenN. rewrite <-(fmap_length idx l).
  assert (Hsub : (idx <$> l) ⊆+ (N.of_nat <$> seq 0 (N.to_nat (a_next a)))).
  { apply NoDup_submseteq; [done|]. intros i. rewrite !elem_of_list_fmap. intros (e & -> & He).
    exists (N.to_nat (idx e)). split; [lia|]. apply elem_of_seq.
    assert (idx e < a_next a); [|lia]. apply Hin in He. apply Hl, (R_live s a HR). 
    unfold is_alive in He. repeat case_match; try done. apply bool_decide_eq_true in He. congruence. }
  apply submseteq_length in Hsub. rewrite (fmap_length N.of_nat), seq_length in Hsub. lia.
Qed.
(** False: the count is that of the live entities. *)
Theorem C84_entities_refuted : ∃ ops s evs self cap,
  history_ok ops ∧ e_run e_new ops = Ok (s, evs) ∧ e_iter s = [] ∧ u_count (e_memory_usage self s cap) = 8.
Proof.
  exists [OSpawn (7, 0); Entities.ODelete (7, 0)]. eexists _, _, 0, 0. split_and!; [|vm_compute; reflexivity..].
  split; [by vm_compute| |set_solver]. intros e He. apply elem_of_list_In in He. cbn in He.
  by destruct He as [[= <-]|[[=]|[]]].
Qed.
Example C84_entities_case : history_ok sample_ops ∧ ∃ s evs, e_run e_new sample_ops = Ok (s, evs) ∧
  e_iter s = [(0, 2); (7, 0)] ∧ e_memory_usage 100 s 16 = Usage 164 228 8.
Proof.
  split; [exact sample_ok|]. eexists _, _. split_and!; [vm_compute; reflexivity..|].
  vm_compute. reflexivity.
Qed.

Print Assumptions C84_report.
Print Assumptions C84_allocated.
Print Assumptions C84_pages_kept.
Print Assumptions C84_bounded.
Print Assumptions C84_kept_refuted.
Print Assumptions C84_entities.
Print Assumptions C84_entities_refuted.
