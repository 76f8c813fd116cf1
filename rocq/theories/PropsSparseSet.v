(** Properties C10-C17, C20-C23: component storages. *)
From stdpp Require Import prelude list gmap sorting.
From Coq Require Import NArith Lia.
From Verif Require Import EntityId Base SparseSet Track SparseSetSpec SparseSetProofs SparseSetProofs2
  SparseSetHistory.
Open Scope N_scope.

(** Checks the hypotheses of a concrete history. *)
Ltac concrete_allowed :=
  repeat (eapply allowed_cons_intro;
    [ cbn [h_allowed]; try done;
      try (split; [done|]; intros [??]; cbn -[N.lt]; unfold at_; intros -> ?;
           repeat (case_decide; simplify_eq/=; try lia; try done); naive_solver lia)
    | vm_compute; reflexivity | ]);
  apply allowed_nil.

Section props.
Context {T : Type}.
Implicit Types (s : sset T) (h : hist T).

(** Reading a reached storage. *)
Lemma reach_get ti tm td tr ops s h e :
  reaches ti tm td tr ops s h -> gen e < U16_MAX -> ss_get s e = Ok (h_val h e).
Proof.
  intros HRe He. destruct (reaches_SR _ _ _ _ _ _ _ HRe) as (a & HS & HH).
  by rewrite (ss_get_SR s a), (hr_val h a HH) by done.
Qed.
Lemma reach_ins ti tm td tr ops s h e l c :
  reaches ti tm td tr ops s h -> gen e < U16_MAX -> h_ti h = true ->
  is_inserted s e l c = Ok (match h_val h e with Some _ => is_within (h_ins h e) l c | None => false end).
Proof.
  intros HRe He Ht. destruct (reaches_SR _ _ _ _ _ _ _ HRe) as (a & HS & HH).
  rewrite (is_inserted_SR s a), (hr_val h a HH); [|done|done|by rewrite <- (hr_ti h a HH)].
  destruct (sp_map a !! e) as [r|] eqn:E; [|done]. by rewrite (hr_ins h a HH _ _ E).
Qed.
Lemma reach_mod ti tm td tr ops s h e l c :
  reaches ti tm td tr ops s h -> gen e < U16_MAX -> h_tm h = true ->
  is_modified s e l c = Ok (match h_val h e with Some _ => is_within (h_mod h e) l c | None => false end).
Proof.
  intros HRe He Ht. destruct (reaches_SR _ _ _ _ _ _ _ HRe) as (a & HS & HH).
  rewrite (is_modified_SR s a), (hr_val h a HH); [|done|done|by rewrite <- (hr_tm h a HH)].
  destruct (sp_map a !! e) as [r|] eqn:E; [|done]. by rewrite (hr_mod h a HH _ _ E).
Qed.
Lemma reach_index ti tm td tr ops s h e v :
  reaches ti tm td tr ops s h -> h_val h e = Some v ->
  ∃ p, index_of s e = Some p ∧ getN (ss_dense s) p = Some e ∧ getN (ss_data s) p = Some v ∧
       handle_ok e.
Proof.
  intros HRe Hv. destruct (reaches_SR _ _ _ _ _ _ _ HRe) as (a & HS & HH).
  rewrite (hr_val h a HH) in Hv. destruct (sp_map a !! e) as [r|] eqn:E; [|done].
  injection Hv as <-.
  destruct (index_of_Some s _ e r (sr_inv s a HS) (sr_rows s a HS) E) as (p & ? & ? & ? & _ & _ & ?).
  by exists p.
Qed.
Lemma reach_none ti tm td tr ops s h e :
  reaches ti tm td tr ops s h -> gen e < U16_MAX -> h_val h e = None -> index_of s e = None.
Proof.
  intros HRe Hg Hn. destruct (reaches_SR _ _ _ _ _ _ _ HRe) as (a & HS & HH).
  apply (h_none_iff h a) in Hn; [|done].
  exact (index_of_None s _ e (sr_inv s a HS) (sr_rows s a HS) Hg Hn).
Qed.

(** * C10: a storage is a map from entities to components *)

(** Every allowed history runs without panic or undefined behaviour, and afterwards every handle
    reads what the history says. *)
Theorem C10_map_reads ti tm td tr (ops : list (sop T)) :
  allowed_history (ss_new ti tm td tr) (h_init ti tm td tr) ops ->
  ∃ s h, reaches ti tm td tr ops s h ∧
    ∀ e, gen e < U16_MAX ->
      ss_get s e = Ok (h_val h e) ∧ ss_contains s e = bool_decide (is_Some (h_val h e)).
Proof.
  intros Hal. destruct (reaches_exists _ _ _ _ _ Hal) as (s & h & HRe).
  exists s, h. split; [done|]. intros e He.
  destruct (reaches_SR _ _ _ _ _ _ _ HRe) as (a & HS & HH).
  rewrite (ss_get_SR s a), (ss_contains_SR s a), (hr_val h a HH) by done. split; [done|].
  apply bool_decide_ext. by rewrite fmap_is_Some.
Qed.
(** What each operation answers, at any point of any allowed history. *)
Theorem C10_map_answers ti tm td tr ops s h o :
  reaches ti tm td tr ops s h -> h_allowed h o ->
  ∃ s' ev, s_step s o = Ok (s', ev) ∧ answer_ok h o ev ∧
           reaches ti tm td tr (ops ++ [o]) s' (h_step h (o, ev)).
Proof.
  intros HRe Ho. destruct (reaches_step _ _ _ _ _ _ _ _ HRe Ho) as (s' & ev & E & HRe').
  exists s', ev. split; [done|]. split; [|done].
  destruct (reaches_SR _ _ _ _ _ _ _ HRe) as (a & HS & HH).
  destruct (s_step_ok s h a o HS HH Ho) as (s2 & ev2 & a' & E1 & E2 & _).
  rewrite E in E1. injection E1 as <- <-. by eapply answer_step.
Qed.
(** get_or_insert_with: the stored component, or the new one, or nothing when a newer generation
    owns the index. *)
Theorem C10_get_or_insert ti tm td tr ops s h e v t :
  reaches ti tm td tr ops s h -> h_allowed h (OInsert e v t) ->
  match h_val h e with
  | Some old => get_or_insert s e v t = Ok (s, Some old)
  | None =>
      (∃ s', get_or_insert s e v t = Ok (s', Some v) ∧
             reaches ti tm td tr (ops ++ [OInsert e v t]) s' (h_step h (OInsert e v t, EInsert Inserted)))
      ∨ (∃ s' e', get_or_insert s e v t = Ok (s', None) ∧ idx e' = idx e ∧ gen e < gen e' ∧
               is_Some (h_val h e') ∧
               reaches ti tm td tr (ops ++ [OInsert e v t]) s' h)
  end.
Proof.
  intros HRe Hal.
  destruct (reaches_SR _ _ _ _ _ _ _ HRe) as (a & HS & HH).
  pose proof Hal as [[_ Hg] _]. unfold get_or_insert.
  rewrite (ss_contains_SR s a) by done.
  destruct (C10_map_answers _ _ _ _ _ _ _ _ HRe Hal) as (s' & ev & E & Ha & HRe').
  cbn in Ha. rewrite (hr_val h a HH) in *.
  destruct (sp_map a !! e) as [r|] eqn:Hm; cbn [fmap option_fmap option_map] in *.
  - cbn. rewrite (ss_get_SR s a), Hm by done. done.
  - cbn [s_step] in E. destruct (ss_insert s e v t) as [[s2 r]| |]; cbn [rbind] in E; try done.
    injection E as <- <-.
    rewrite bool_decide_eq_false_2 by (by intros [? ?]). cbn [rbind].
    destruct Ha as [[[= ->] _]|[[= ->] (e' & ? & ? & ?)]].
    + left. exists s2. cbn [was_inserted].
      destruct (reaches_SR _ _ _ _ _ _ _ HRe') as (a2 & HS2 & HH2).
      rewrite (ss_get_SR s2 a2) by done. rewrite <- (hr_val _ a2 HH2). cbn [h_step h_upd h_val].
      unfold at_. rewrite decide_True by done. done.
    + right. exists s2, e'. cbn [was_inserted]. done.
Qed.

(** * C11: stale and foreign handles *)

(** Reading and writing through a handle that owns nothing. *)
Theorem C11_read_write ti tm td tr ops s h e f t :
  reaches ti tm td tr ops s h -> gen e < U16_MAX -> h_val h e = None ->
  ss_get s e = Ok None ∧ ss_contains s e = false ∧ ss_write s e f t = Ok (s, false) ∧
  (∀ l c, is_inserted s e l c = Ok false ∧ is_modified s e l c = Ok false).
Proof.
  intros HRe Hg Hn. destruct (reaches_SR _ _ _ _ _ _ _ HRe) as (a & HS & HH).
  apply (h_none_iff h a) in Hn; [|done].
  rewrite (ss_get_SR s a), (ss_contains_SR s a), Hn by done.
  pose proof (index_of_None s _ e (sr_inv s a HS) (sr_rows s a HS) Hg Hn) as Hi.
  unfold ss_write, is_inserted, is_modified. rewrite Hi. done.
Qed.
(** In a storage where the index of a handle only ever serves one generation, the component is the
    handle's: two handles of the same index never both find one. *)
Theorem C11_one_owner ti tm td tr ops s h e e' v v' :
  reaches ti tm td tr ops s h -> gen e < U16_MAX -> gen e' < U16_MAX -> idx e = idx e' ->
  ss_get s e = Ok (Some v) -> ss_get s e' = Ok (Some v') -> e = e'.
Proof.
  intros HRe Hg Hg' Hi. destruct (reaches_SR _ _ _ _ _ _ _ HRe) as (a & HS & HH).
  rewrite !(ss_get_SR s a) by done.
  destruct (sp_map a !! e) as [r|] eqn:E; [|done].
  destruct (sp_map a !! e') as [r'|] eqn:E'; [|done]. intros _ _.
  apply (hr_one h a HH); [by eexists|by eexists|done].
Qed.
(** Removing and deleting through a handle that owns nothing change nothing, provided no component
    of an older generation is left at that index.  Missing for the full claim: see the refutation. *)
Theorem C11_remove_delete_partial ti tm td tr ops s h e t :
  reaches ti tm td tr ops s h -> gen e < U16_MAX -> h_val h e = None ->
  (∀ e', idx e' = idx e -> gen e' < gen e -> h_val h e' = None) ->
  dyn_remove s e t = Ok (s, None) ∧ dyn_delete s e t = Ok (s, false).
Proof.
  intros HRe Hg Hn Hno. destruct (reaches_SR _ _ _ _ _ _ _ HRe) as (a & HS & HH).
  unfold dyn_remove, dyn_delete. rewrite (actual_remove_none s a e HS Hg).
  - done.
  - intros e' Hi Hge. apply (h_none_iff h a); [done|].
    destruct (decide (gen e' = gen e)).
    + assert (e' = e) as -> by (destruct e', e; cbn in *; congruence). done.
    + apply Hno; [done|lia].
Qed.
End props.

(** A handle of a newer generation takes out the component of the older one: the answer is [None],
    nothing is logged even with all the trackings on, and the component is gone. *)
Theorem C11_newer_handle_refuted :
  ∃ (ops : list (sop N)) s h (old new : eid),
    reaches true true true true ops s h ∧
    gen new < U16_MAX ∧ old ≠ new ∧ h_val h old = Some 42 ∧ h_val h new = None ∧
    ∃ s', dyn_remove s new 5 = Ok (s', None) ∧ ss_get s' old = Ok None ∧
          ss_rem s' = [] ∧ ss_del s' = [] ∧ ss_on_rem s' = [].
Proof.
  exists [OInsert (3, 0) 42 1].
  assert (allowed_history (ss_new true true true true) (h_init true true true true)
            [OInsert (3, 0) 42 1]) as Hal.
  { concrete_allowed. }
  eexists _, _, (3, 0), (3, 1). split.
  { eapply reaches_intro; [exact Hal|vm_compute; reflexivity]. }
  split; [done|]. split; [done|]. split; [done|]. split; [done|].
  eexists. split; [reflexivity|]. done.
Qed.

Section props.
Context {T : Type}.
Implicit Types (s : sset T) (h : hist T).

(** * C12: densely packed, internally consistent *)
Theorem C12_packed ti tm td tr ops s h :
  reaches ti tm td tr ops s h ->
  NoDup (ss_dense s) ∧ NoDup (idx <$> ss_dense s) ∧
  lenN (ss_data s) = lenN (ss_dense s) ∧
  (ss_ti s = true -> lenN (ss_ins s) = lenN (ss_dense s)) ∧
  (ss_tm s = true -> lenN (ss_mod s) = lenN (ss_dense s)) ∧
  (∀ e, e ∈ ss_dense s <-> is_Some (h_val h e)) ∧
  (∀ i e, getN (ss_dense s) i = Some e ->
     index_of s e = Some i ∧ getN (ss_data s) i = h_val h e ∧
     (ss_ti s = true -> getN (ss_ins s) i = Some (h_ins h e)) ∧
     (ss_tm s = true -> getN (ss_mod s) i = Some (h_mod h e))) ∧
  (∀ i e, gen e < U16_MAX -> index_of s e = Some i -> id_at s i = Some e).
Proof.
  intros HRe. destruct (reaches_SR _ _ _ _ _ _ _ HRe) as (a & HS & HH).
  pose proof (sr_inv s a HS) as HI. pose proof (sr_rows s a HS) as HR.
  split; [by apply dense_NoDup|]. split; [by apply dense_idx_NoDup|].
  split; [apply HI|].
  split; [intros E; rewrite (si_ins s HI), E; done|].
  split; [intros E; rewrite (si_mod s HI), E; done|].
  split.
  { intros e. rewrite (h_some_iff h a e HH), getN_elem. split.
    - intros [p Hp]. destruct (sr_row s _ HR _ _ Hp) as (r & Hr & _). eauto.
    - intros [r Hr]. by apply (sr_dom s _ HR _ _ Hr). }
  split.
  - intros i e Hp. destruct (sr_row s _ HR _ _ Hp) as (r & Hr & Hv & Hi & Hm).
    destruct (si_dense s HI _ _ Hp) as [_ [_ Hg]].
    split; [by apply index_of_spec|]. split; [by rewrite (hr_val h a HH), Hr|].
    rewrite (hr_ins h a HH _ _ Hr), (hr_mod h a HH _ _ Hr). done.
  - intros i e Hg Hi. unfold id_at. by apply index_of_spec.
Qed.

(** * C13: inserting over an older generation *)

(** What does hold: the new handle reads the new component and the old one nothing.  The id kept in
    the dense list has the bitwise or of the two generations. *)
Theorem C13_newer_generation_partial ti tm td tr ops s h e e' v t :
  reaches ti tm td tr ops s h -> handle_ok e ->
  idx e' = idx e -> gen e' < gen e -> is_Some (h_val h e') ->
  ∃ s' p, ss_insert s e v t = Ok (s', OtherComponentOverride) ∧
    ss_get s' e = Ok (Some v) ∧ ss_get s' e' = Ok None ∧
    index_of s' e = Some p ∧ id_at s' p = Some (idx e, N.lor (gen e') (gen e)) ∧
    (∀ x, gen x < U16_MAX -> idx x ≠ idx e -> ss_get s' x = ss_get s x) ∧
    (gen e' = 0 -> id_at s' p = Some e).
Proof.
  intros HRe Hok Hi Hg He'. destruct (reaches_SR _ _ _ _ _ _ _ HRe) as (a & HS & HH).
  apply (h_some_iff h a e' HH) in He'. destruct He' as [r Hr].
  pose proof (sr_inv s a HS) as HI. pose proof (sr_rows s a HS) as HR.
  destruct (sr_dom s _ HR _ _ Hr) as [p Hp].
  destruct (sr_row s _ HR _ _ Hp) as (r' & Hr' & Hv & Hin & Hm).
  destruct (si_dense s HI _ _ Hp) as [Hslot Hok'].
  unfold ss_insert.
  destruct (sa_allocate_ok (ss_sparse s) e (si_wf s HI) (proj2 Hok)) as (sp & -> & W & X & _).
  cbn [rbind].
  assert (sa_get sp e = Some (p, gen e')) as Hs.
  { rewrite (sa_get_idx _ e e' (eq_sym Hi)). by eapply sa_ext_keep. }
  unfold sa_get_unchecked. rewrite Hs. cbn [rbind].
  rewrite is_dead_false by apply Hok'. cbn [idx gen fst snd].
  destruct (N.eqb_spec (gen e) (gen e')); [lia|].
  destruct (N.ltb_spec (gen e') (gen e)); [|lia].
  unfold get_unchecked. rewrite Hv, Hp. cbn [rbind].
  destruct (sa_write_ok sp e _ (copy_gn (p, gen e') e) W Hs) as (sp' & -> & W' & G').
  cbn [rbind].
  pose proof (getN_Some_lt _ _ _ Hp) as Hlt. pose proof (si_data s HI) as HL.
  assert ((if ss_ti s then set_unchecked (ss_ins s) p t else Ok (ss_ins s)) =
          Ok (if ss_ti s then setN (ss_ins s) p t else ss_ins s)) as ->.
  { pose proof (si_ins s HI) as E. destruct (ss_ti s); [|done]. unfold set_unchecked.
    destruct (N.ltb_spec p (lenN (ss_ins s))); [done|lia]. }
  cbn [rbind].
  assert (copy_idx_gen e' e = (idx e, N.lor (gen e') (gen e))) as Hcopy.
  { unfold copy_idx_gen. rewrite Hi, N.lor_diag. f_equal. lia. }
  eexists _, p. split; [done|].
  unfold ss_get, index_of, id_at. cbn [with_rows with_calls ss_sparse ss_data ss_dense].
  rewrite !G', Hi, N.eqb_refl. unfold copy_gn. cbn [idx gen fst snd].
  rewrite N.eqb_refl. destruct (N.eqb_spec (gen e') (gen e)); [lia|].
  unfold get_unchecked. rewrite !getN_setN, !N.eqb_refl. cbn [andb].
  assert (p <? lenN (ss_data s) = true) as -> by (apply N.ltb_lt; lia).
  assert (p <? lenN (ss_dense s) = true) as -> by (apply N.ltb_lt; lia). cbn [rbind andb].
  rewrite Hcopy.
  split; [done|]. split; [done|]. split; [done|]. split; [done|]. split.
  - intros x Hx Hne. rewrite G'. destruct (N.eqb_spec (idx x) (idx e)); [done|].
    destruct (X x) as [->|[-> ->]].
    2:{ change (gen eid_dead) with U16_MAX. destruct (N.eqb_spec (gen x) U16_MAX); [lia|done]. }
    destruct (sa_get (ss_sparse s) x) as [y|] eqn:Hy; [|done].
    destruct (N.eqb_spec (gen x) (gen y)) as [Hxy|]; [|done].
    unfold get_unchecked. rewrite getN_setN.
    destruct (N.eqb_spec (idx y) p) as [Hyp|]; [|done].
    exfalso. destruct (si_sparse s HI _ _ Hy) as [->|Hd];
      [change (gen eid_dead) with U16_MAX in Hxy; lia|].
    rewrite Hyp, Hp in Hd. injection Hd as Hd. apply Hne. rewrite <- Hi. by rewrite Hd.
  - intros H0. rewrite H0, N.lor_0_l. by destruct e.
Qed.
End props.

(** Generations 1 then 2 at the same index: the storage lists the id (3, 3), which nobody owns. *)
Theorem C13_newer_generation_refuted :
  ∃ (ops : list (sop N)) s h,
    reaches false false false false ops s h ∧ h_val h (3, 1) = Some 10 ∧
    ∃ s', ss_insert s (3, 2) 20 7 = Ok (s', OtherComponentOverride) ∧
          ss_get s' (3, 2) = Ok (Some 20) ∧
          ss_dense s' = [(3, 3)] ∧ ss_get s' (3, 3) = Ok None.
Proof.
  exists [OInsert (3, 1) 10 1].
  assert (allowed_history (ss_new false false false false) (h_init false false false false)
            [OInsert (3, 1) 10 1]) as Hal.
  { concrete_allowed. }
  eexists _, _. split.
  { eapply reaches_intro; [exact Hal|vm_compute; reflexivity]. }
  split; [done|]. eexists. split; [reflexivity|]. done.
Qed.

Section props.
Context {T : Type}.
Implicit Types (s : sset T) (h : hist T).

(** * C14: sorting *)

(** The order handed to the permutation code: positions sorted by the components they hold. *)
Definition sorted_order (le : T -> T -> Prop) s (tr : list N) : Prop :=
  tr ≡ₚ (N.of_nat <$> seq 0 (length (ss_dense s))) ∧
  Sorted (λ i j, ∃ x y, getN (ss_data s) i = Some x ∧ getN (ss_data s) j = Some y ∧ le x y) tr.

Lemma sorted_lookup {A} (R : A -> A -> Prop) (l : list A) :
  Sorted R l <-> ∀ i x y, l !! i = Some x -> l !! S i = Some y -> R x y.
Proof.
  split.
  - intros H. induction H as [|a l Hs IH Hd]; intros i x y Hx Hy; [done|].
    destruct i as [|i]; cbn in *; [|by eapply IH].
    destruct l as [|b l]; cbn in *; [done|]. inversion Hd; subst. congruence.
  - induction l as [|a l IH]; intros H; [constructor|]. constructor.
    + apply IH. intros i x y Hx Hy. by apply (H (S i)).
    + destruct l as [|b l]; [constructor|]. constructor. by apply (H 0%nat).
Qed.

Theorem C14_sort ti tm td tr ops s h (le : T -> T -> Prop) order :
  reaches ti tm td tr ops s h -> sorted_order le s order ->
  ∃ s', ss_sort s order = Ok s' ∧
    Sorted le (ss_data s') ∧ ss_dense s' ≡ₚ ss_dense s ∧
    (∀ e, gen e < U16_MAX -> ss_get s' e = ss_get s e) ∧
    (∀ e l c, gen e < U16_MAX -> h_ti h = true -> is_inserted s' e l c = is_inserted s e l c) ∧
    (∀ e l c, gen e < U16_MAX -> h_tm h = true -> is_modified s' e l c = is_modified s e l c) ∧
    ss_del s' = ss_del s ∧ ss_rem s' = ss_rem s ∧
    reaches ti tm td tr (ops ++ [OSort order]) s' h.
Proof.
  intros HRe [Hperm Hsort]. destruct (reaches_SR _ _ _ _ _ _ _ HRe) as (a & HS & HH).
  assert (is_perm (lenN (ss_dense s)) order) as Hp.
  { unfold is_perm, lenN. by rewrite Nat2N.id. }
  destruct (ss_sort_SR s a order HS Hp) as (s' & E & HS').
  exists s'. split; [done|].
  destruct (ss_sort_moved s order (sr_inv s a HS) Hp)
    as (s2 & cur & E2 & Hcur & M1 & M2 & _ & _ & L & M5 & HI').
  rewrite E in E2. injection E2 as <-.
  pose proof (si_data s (sr_inv s a HS)) as HL.
  pose proof (si_data s' HI') as HL'.
  split.
  { apply sorted_lookup. intros i x y Hx Hy.
    pose proof (lookup_lt_Some _ _ _ Hy) as Hlt.
    assert (N.of_nat i < lenN (ss_dense s) ∧ N.of_nat (S i) < lenN (ss_dense s)) as [H1 H2].
    { unfold lenN in *. lia. }
    pose proof (M2 _ H1) as D1. pose proof (M2 _ H2) as D2.
    pose proof (Hcur _ H1) as C1. pose proof (Hcur _ H2) as C2.
    rewrite (getN_lookup (ss_data s')), Nat2N.id in D1.
    rewrite (getN_lookup (ss_data s')), Nat2N.id in D2.
    rewrite (getN_lookup order), Nat2N.id in C1.
    rewrite (getN_lookup order), Nat2N.id in C2.
    rewrite Hx in D1. rewrite Hy in D2.
    destruct (proj1 (sorted_lookup _ _) Hsort i _ _ C1 C2) as (x' & y' & Ex & Ey & Hle).
    congruence. }
  split.
  { apply NoDup_Permutation; [by apply dense_NoDup|by apply dense_NoDup, HS|].
    intros e. rewrite !getN_elem. split.
    - intros [p Hpp]. destruct (sr_row s' _ (sr_rows s' a HS') _ _ Hpp) as (r & Hr & _).
      by apply (sr_dom s _ (sr_rows s a HS) _ _ Hr).
    - intros [p Hpp]. destruct (sr_row s _ (sr_rows s a HS) _ _ Hpp) as (r & Hr & _).
      by apply (sr_dom s' _ (sr_rows s' a HS') _ _ Hr). }
  split; [intros e He; by rewrite !(ss_get_SR _ a)|].
  split; [intros e l c He Ht; rewrite (hr_ti h a HH) in Ht; by rewrite !(is_inserted_SR _ a)|].
  split; [intros e l c He Ht; rewrite (hr_tm h a HH) in Ht; by rewrite !(is_modified_SR _ a)|].
  split; [by rewrite M5|]. split; [by rewrite M5|].
  destruct (reaches_step _ _ _ _ _ _ _ (OSort order) HRe) as (s3 & ev & E3 & HRe').
  { intros l Hl. assert (l ≡ₚ zip (ss_dense s) (ss_data s)) as ->.
    { eapply h_lists_perm; [done|]. eapply HR_lists; [done|]. apply rows_vals; apply HS. }
    rewrite zip_with_length_l by (unfold lenN in HL; lia). done. }
  cbn [s_step] in E3. rewrite E in E3. cbn [rbind] in E3. injection E3 as <- <-. exact HRe'.
Qed.
(** Such an order exists for every total, decidable comparison: sort_unstable_by always has one to
    choose. *)
Theorem C14_order_exists s (le : T -> T -> Prop) `{!RelDecision le, !Total le} :
  lenN (ss_data s) = lenN (ss_dense s) -> ∃ order, sorted_order le s order.
Proof.
  intros HL.
  set (R := λ i j, ∀ x y, getN (ss_data s) i = Some x -> getN (ss_data s) j = Some y -> le x y).
  assert (RelDecision R) as HD.
  { intros i j. unfold R. destruct (getN (ss_data s) i) as [x|], (getN (ss_data s) j) as [y|].
    - destruct (decide (le x y)); [left; naive_solver|right; naive_solver].
    - left. done.
    - left. done.
    - left. done. }
  assert (Total R) as HT.
  { intros i j. unfold R. destruct (getN (ss_data s) i) as [x|], (getN (ss_data s) j) as [y|].
    - destruct (total le x y); [left|right]; naive_solver.
    - by left.
    - by left.
    - by left. }
  set (l := N.of_nat <$> seq 0 (length (ss_dense s))).
  exists (merge_sort R l). split; [apply merge_sort_Permutation|].
  pose proof (Sorted_merge_sort R l) as Hs.
  apply sorted_lookup. intros i x y Hx Hy.
  pose proof (proj1 (sorted_lookup _ _) Hs i x y Hx Hy) as HR.
  assert (∀ z, z ∈ merge_sort R l -> ∃ v, getN (ss_data s) z = Some v) as Hin.
  { intros z. rewrite merge_sort_Permutation. unfold l.
    intros (k & -> & Hk%elem_of_seq)%elem_of_list_fmap.
    apply getN_lt. unfold lenN in *. lia. }
  destruct (Hin x) as [vx Hvx]; [by eapply elem_of_list_lookup_2|].
  destruct (Hin y) as [vy Hvy]; [by eapply elem_of_list_lookup_2|].
  exists vx, vy. split; [done|]. split; [done|]. by apply HR.
Qed.

(** * C15: apply and apply_mut *)
Theorem C15_apply {R} ti tm td tr ops s h a b u v (f : T -> T -> T * R) t :
  reaches ti tm td tr ops s h -> a ≠ b -> h_val h a = Some u -> h_val h b = Some v ->
  ∃ s', ss_apply s a b f t = Ok (s', (f u v).2) ∧
    ss_get s' a = Ok (Some (f u v).1) ∧
    (∀ e, gen e < U16_MAX -> e ≠ a -> ss_get s' e = ss_get s e) ∧
    (h_tm h = true -> ∀ e l c, gen e < U16_MAX ->
       is_modified s' e l c = if decide (e = a) then Ok (is_within t l c) else is_modified s e l c) ∧
    (h_ti h = true -> ∀ e l c, gen e < U16_MAX -> is_inserted s' e l c = is_inserted s e l c) ∧
    ss_dense s' = ss_dense s ∧
    reaches ti tm td tr (ops ++ [OApply a b (λ x y, (f x y).1) t]) s'
      (h_write h a (f u v).1 t).
Proof.
  intros HRe Hab Ha Hb.
  destruct (reaches_step _ _ _ _ _ _ _ (OApply a b (λ x y, (f x y).1) t) HRe) as (s' & ev & E & HRe').
  { split; [done|]. split; eauto. }
  cbn [s_step h_step] in E, HRe'. rewrite Ha, Hb in HRe'.
  destruct (reach_index _ _ _ _ _ _ _ _ _ HRe Ha) as (pa & Ia & Da & Va & Oka).
  destruct (reach_index _ _ _ _ _ _ _ _ _ HRe Hb) as (pb & Ib & Db & Vb & Okb).
  assert (pa =? pb = false) as Hpp by (apply N.eqb_neq; intros ->; congruence).
  assert (ss_apply s a b f t = Ok (s', (f u v).2) ∧ ss_dense s' = ss_dense s) as [E2 Edn].
  { unfold ss_apply in *. rewrite Ia, Ib, Hpp in *.
    destruct (if ss_tm s then _ else _) as [mm| |]; cbn [rbind] in *; [|done..].
    unfold get_unchecked in *. rewrite Va, Vb in *. cbn [rbind] in *.
    destruct (f u v) as [u' r] eqn:Ef. cbn [fst snd rbind] in *.
    injection E as <- <-. done. }
  exists s'. split; [done|].
  split; [rewrite (reach_get _ _ _ _ _ _ _ _ HRe') by apply Oka; cbn; unfold at_; by rewrite decide_True|].
  split.
  { intros e He Hne. rewrite (reach_get _ _ _ _ _ _ _ _ HRe'), (reach_get _ _ _ _ _ _ _ _ HRe) by done.
    cbn. unfold at_. by rewrite decide_False. }
  split.
  { intros Ht e l c He. rewrite (reach_mod _ _ _ _ _ _ _ _ _ _ HRe' He Ht),
      (reach_mod _ _ _ _ _ _ _ _ _ _ HRe He Ht).
    cbn. unfold at_. by destruct (decide (e = a)). }
  split; [|done].
  intros Ht e l c He. rewrite (reach_ins _ _ _ _ _ _ _ _ _ _ HRe' He Ht),
      (reach_ins _ _ _ _ _ _ _ _ _ _ HRe He Ht).
  cbn. unfold at_. destruct (decide (e = a)) as [->|]; [|done]. by rewrite Ha.
Qed.
Theorem C15_apply_mut {R} ti tm td tr ops s h a b u v (f : T -> T -> T * T * R) t :
  reaches ti tm td tr ops s h -> a ≠ b -> h_val h a = Some u -> h_val h b = Some v ->
  ∃ s', ss_apply_mut s a b f t = Ok (s', (f u v).2) ∧
    ss_get s' a = Ok (Some (f u v).1.1) ∧ ss_get s' b = Ok (Some (f u v).1.2) ∧
    (∀ e, gen e < U16_MAX -> e ≠ a -> e ≠ b -> ss_get s' e = ss_get s e) ∧
    (h_tm h = true -> ∀ e l c, gen e < U16_MAX ->
       is_modified s' e l c = if decide (e = a ∨ e = b) then Ok (is_within t l c)
                              else is_modified s e l c) ∧
    (h_ti h = true -> ∀ e l c, gen e < U16_MAX -> is_inserted s' e l c = is_inserted s e l c) ∧
    ss_dense s' = ss_dense s ∧
    reaches ti tm td tr (ops ++ [OApplyMut a b (λ x y, (f x y).1) t]) s'
      (h_write (h_write h a (f u v).1.1 t) b (f u v).1.2 t).
Proof.
  intros HRe Hab Ha Hb.
  destruct (reaches_step _ _ _ _ _ _ _ (OApplyMut a b (λ x y, (f x y).1) t) HRe) as (s' & ev & E & HRe').
  { split; [done|]. split; eauto. }
  cbn [s_step h_step] in E, HRe'. rewrite Ha, Hb in HRe'.
  destruct (reach_index _ _ _ _ _ _ _ _ _ HRe Ha) as (pa & Ia & Da & Va & Oka).
  destruct (reach_index _ _ _ _ _ _ _ _ _ HRe Hb) as (pb & Ib & Db & Vb & Okb).
  assert (pa =? pb = false) as Hpp by (apply N.eqb_neq; intros ->; congruence).
  assert (ss_apply_mut s a b f t = Ok (s', (f u v).2) ∧ ss_dense s' = ss_dense s) as [E2 Edn].
  { unfold ss_apply_mut in *. rewrite Ia, Ib, Hpp in *.
    destruct (if ss_tm s then _ else _) as [mm| |]; cbn [rbind] in *; [|done..].
    unfold get_unchecked in *. rewrite Va, Vb in *. cbn [rbind] in *.
    destruct (f u v) as [[u' v'] r] eqn:Ef. cbn [fst snd rbind] in *.
    injection E as <- <-. done. }
  exists s'. split; [done|].
  split. { rewrite (reach_get _ _ _ _ _ _ _ _ HRe') by apply Oka. cbn. unfold at_.
           rewrite decide_False by done. by rewrite decide_True. }
  split; [rewrite (reach_get _ _ _ _ _ _ _ _ HRe') by apply Okb; cbn; unfold at_; by rewrite decide_True|].
  split.
  { intros e He Hne Hne2. rewrite (reach_get _ _ _ _ _ _ _ _ HRe'), (reach_get _ _ _ _ _ _ _ _ HRe) by done.
    cbn. unfold at_. by rewrite !decide_False. }
  split.
  { intros Ht e l c He. rewrite (reach_mod _ _ _ _ _ _ _ _ _ _ HRe' He Ht),
      (reach_mod _ _ _ _ _ _ _ _ _ _ HRe He Ht).
    cbn. unfold at_. destruct (decide (e = b)), (decide (e = a)), (decide (e = a ∨ e = b)); naive_solver. }
  split; [|done].
  intros Ht e l c He. rewrite (reach_ins _ _ _ _ _ _ _ _ _ _ HRe' He Ht),
      (reach_ins _ _ _ _ _ _ _ _ _ _ HRe He Ht).
  cbn. unfold at_. destruct (decide (e = b)) as [->|]; [by rewrite Hb|].
  destruct (decide (e = a)) as [->|]; [|done]. by rewrite Ha.
Qed.
(** Both panic, and so change nothing, when a component is missing or the entities are the same. *)
Theorem C15_apply_panics {R} {R'} ti tm td tr ops s h a b (f : T -> T -> T * R) (g : T -> T -> T * T * R') t :
  reaches ti tm td tr ops s h -> gen a < U16_MAX -> gen b < U16_MAX ->
  a = b ∨ h_val h a = None ∨ h_val h b = None ->
  ss_apply s a b f t = Panic ∧ ss_apply_mut s a b g t = Panic.
Proof.
  intros HRe Ha Hb Hc. unfold ss_apply, ss_apply_mut.
  destruct Hc as [->|[H|H]].
  - destruct (index_of s b); [|done]. by rewrite N.eqb_refl.
  - by rewrite (reach_none _ _ _ _ _ _ _ _ HRe Ha H).
  - rewrite (reach_none _ _ _ _ _ _ _ _ HRe Hb H). by destruct (index_of s a).
Qed.

(** * C16: retain *)

(** The answers of a predicate that may look at the calls it got before.  [None] in the second
    component: it did not write to the component. *)
Definition decision : Type := bool * option T.
Fixpoint judge (p : list (eid * T) -> eid -> T -> decision) (pre log : list (eid * T))
    : list (eid * T * decision) :=
  match log with
  | [] => []
  | (e, c) :: log => (e, c, p pre e c) :: judge p (pre ++ [(e, c)]) log
  end.
(** The closure handed to the code: it keeps the calls it got. *)
Definition recording (p : list (eid * T) -> eid -> T -> decision)
    : list (eid * T) -> eid -> T -> list (eid * T) * bool * option T :=
  λ st e c, (st ++ [(e, c)], (p st e c).1, (p st e c).2).
Definition left_value (x : eid * T * decision) : T := default x.1.2 x.2.2.

Lemma judge_fst p pre log : (judge p pre log).*1 = log.
Proof.
  revert pre. induction log as [|[e c] log IH]; intros pre; [done|]. cbn. by rewrite IH.
Qed.

Lemma sp_retain_recording p t calls : ∀ pre (m : gmap eid (row T)) st m' dr,
  NoDup calls.*1 -> (∀ e r, (e, r) ∈ calls -> m !! e = Some r) ->
  sp_retain (recording p) t pre calls m = (st, m', dr) ->
  let log := prod_map id r_val <$> calls in
  st = pre ++ log ∧
  (∀ e, e ∉ calls.*1 -> m' !! e = m !! e) ∧
  (∀ e r, (e, r) ∈ calls -> ∃ d, (e, r_val r, d) ∈ judge p pre log ∧
     m' !! e = if d.1 : bool
               then Some (match d.2 with Some v => Row v (r_ins r) t | None => r end) else None) ∧
  dr = (λ x, (x.1.1, left_value x)) <$> filter (λ x, x.2.1 = false) (judge p pre log).
Proof.
  induction calls as [|[e r] calls IH]; intros pre m st m' dr Hnd Hin; cbn [sp_retain].
  - intros [= <- <- <-]. cbn. rewrite app_nil_r. split; [done|]. split; [done|].
    split; [|done]. intros e r H. by apply elem_of_nil in H.
  - change ((((e, r) :: calls).*1)) with (e :: calls.*1) in *.
    apply NoDup_cons in Hnd as [Hni Hnd].
    unfold recording at 1. destruct (p pre e (r_val r)) as [keep w] eqn:Ep. cbn [fst snd].
    set (r' := match w with Some v => Row v (r_ins r) t | None => r end).
    assert (∀ e2 r2, (e2, r2) ∈ calls -> e2 ≠ e) as Hne.
    { intros e2 r2 H ->. apply Hni. apply elem_of_list_fmap. by exists (e, r2). }
    assert (prod_map id r_val <$> ((e, r) :: calls) = (e, r_val r) :: (prod_map id r_val <$> calls))
      as Hlog by done.
    assert (judge p pre ((e, r_val r) :: (prod_map id r_val <$> calls)) =
            (e, r_val r, p pre e (r_val r)) ::
              judge p (pre ++ [(e, r_val r)]) (prod_map id r_val <$> calls)) as Hjudge by done.
    cbv zeta. destruct keep.
    + intros HE. destruct (IH (pre ++ [(e, r_val r)]) (<[e:=r']> m) st m' dr Hnd) as (I1 & I2 & I3 & I4).
      { intros e2 r2 H. rewrite lookup_insert_ne by (by apply not_eq_sym; eapply Hne).
        apply Hin. by right. }
      { exact HE. }
      rewrite Hlog, Hjudge. split; [by rewrite I1, <- app_assoc|].
      split.
      { intros e2 [H1 H2]%not_elem_of_cons. rewrite I2 by done. by rewrite lookup_insert_ne. }
      split.
      * intros e2 r2 [[= -> ->]|H]%elem_of_cons.
        -- exists (true, w). split; [rewrite Ep; left|]. cbn [fst snd].
           rewrite I2 by done. by rewrite lookup_insert.
        -- destruct (I3 _ _ H) as (d & D1 & D2). exists d. split; [by right|done].
      * rewrite I4, Ep, filter_cons_False by done. done.
    + destruct (sp_retain (recording p) t (pre ++ [(e, r_val r)]) calls (delete e m)) as [[st2 m2] dr2] eqn:HE.
      intros [= <- <- <-].
      destruct (IH (pre ++ [(e, r_val r)]) (delete e m) st2 m2 dr2 Hnd) as (I1 & I2 & I3 & I4).
      { intros e2 r2 H. rewrite lookup_delete_ne by (by apply not_eq_sym; eapply Hne).
        apply Hin. by right. }
      { exact HE. }
      rewrite Hlog, Hjudge. split; [by rewrite I1, <- app_assoc|].
      split.
      { intros e2 [H1 H2]%not_elem_of_cons. rewrite I2 by done. by rewrite lookup_delete_ne. }
      split.
      * intros e2 r2 [[= -> ->]|H]%elem_of_cons.
        -- exists (false, w). split; [rewrite Ep; left|]. cbn [fst snd].
           rewrite I2 by done. by rewrite lookup_delete.
        -- destruct (I3 _ _ H) as (d & D1 & D2). exists d. split; [by right|done].
      * rewrite I4, Ep, filter_cons_True by done. rewrite fmap_cons. f_equal. f_equal.
        unfold left_value. cbn [fst snd]. subst r'. by destruct w.
Qed.

Theorem C16_retain_mut ti tm td tr ops s h (p : list (eid * T) -> eid -> T -> decision) t :
  reaches ti tm td tr ops s h ->
  ∃ s' log, ss_retain_mut s (recording p) [] t = Ok (s', log) ∧
    (* one call for each component present *)
    h_lists h log ∧
    (* the survivors, with what the closure left in them *)
    (∀ e v, gen e < U16_MAX ->
       ss_get s' e = Ok (Some v) <->
       ∃ c d, (e, c, d) ∈ judge p [] log ∧ d.1 = true ∧ v = default c d.2) ∧
    (* the others are logged as deleted *)
    ss_del s' = (if h_td h then
                   ss_del s ++ ((λ x, (x.1.1, t, left_value x)) <$>
                                filter (λ x, x.2.1 = false) (judge p [] log))
                 else ss_del s) ∧
    ss_rem s' = ss_rem s ∧
    (* marks: kept ones are flagged modified iff the closure wrote to them *)
    (h_tm h = true -> ∀ e c d l u, (e, c, d) ∈ judge p [] log -> d.1 = true ->
       is_modified s' e l u = match d.2 with Some _ => Ok (is_within t l u) | None => is_modified s e l u end) ∧
    (h_ti h = true -> ∀ e c d l u, (e, c, d) ∈ judge p [] log -> d.1 = true ->
       is_inserted s' e l u = is_inserted s e l u).
Proof.
  intros HRe. destruct (reaches_SR _ _ _ _ _ _ _ HRe) as (a & HS & HH).
  destruct (ss_retain_mut_SR s a (recording p) [] t HS) as (s' & st & calls & m' & dr & E1 & E2 & E3 & HS').
  assert (NoDup calls.*1) as Hnd by (rewrite E2; apply NoDup_fst_map_to_list).
  assert (∀ e r, (e, r) ∈ calls <-> sp_map a !! e = Some r) as Hin.
  { intros e r. rewrite E2. by rewrite elem_of_map_to_list. }
  destruct (sp_retain_recording p t calls [] (sp_map a) st m' dr Hnd) as (J1 & J2 & J3 & J4);
    [by intros; apply Hin|done|].
  cbn [app] in J1. set (log := prod_map id r_val <$> calls) in *. subst st.
  assert (h_lists h log) as HL.
  { eapply HR_lists; [done|]. unfold log, vals. by rewrite E2. }
  assert (∀ e c d, (e, c, d) ∈ judge p [] log ->
     ∃ r, (e, r) ∈ calls ∧ c = r_val r ∧
       m' !! e = if d.1 : bool then Some (match d.2 with Some v => Row v (r_ins r) t | None => r end) else None) as Hj.
  { intros e c d Hd.
    assert (NoDup (judge p [] log).*1.*1) as Hndj.
    { rewrite judge_fst. unfold log. rewrite <- list_fmap_compose.
      erewrite list_fmap_ext; [exact Hnd|]. by intros ? []. }
    assert ((e, c) ∈ log) as Hl.
    { rewrite <- (judge_fst p [] log). apply elem_of_list_fmap. by exists (e, c, d). }
    unfold log in Hl. apply elem_of_list_fmap in Hl as ([e2 r] & [= -> ->] & Hr).
    exists r. split; [done|]. split; [done|].
    destruct (J3 _ _ Hr) as (d2 & D1 & D2).
    assert (d = d2) as ->; [|done].
    apply elem_of_list_lookup in Hd as [i Hi]. apply elem_of_list_lookup in D1 as [j Hjj].
    assert (i = j) as ->.
    { eapply (NoDup_lookup _ i j e2 Hndj).
      - apply list_lookup_fmap_Some. exists (e2, r_val r). split; [|done].
        apply list_lookup_fmap_Some. by eexists.
      - apply list_lookup_fmap_Some. exists (e2, r_val r). split; [|done].
        apply list_lookup_fmap_Some. by eexists. }
    congruence. }
  exists s', log. split; [done|]. split; [done|].
  split.
  { intros e v He. rewrite (ss_get_SR s' _ e HS' He). cbn [upd sp_map]. split.
    - intros [= Hv]. destruct (m' !! e) as [r'|] eqn:Em; [|done]. injection Hv as <-.
      destruct (sp_map a !! e) as [r|] eqn:Ea.
      + destruct (J3 e r) as (d & D1 & D2); [by apply Hin|]. exists (r_val r), d. split; [done|].
        rewrite Em in D2. destruct d as [[] [w|]]; cbn in *; try done; injection D2 as ->; done.
      + rewrite J2 in Em; [congruence|].
        intros ([e2 r] & -> & Hr)%elem_of_list_fmap. apply Hin in Hr. cbn in Ea. congruence.
    - intros (c & d & Hd & Hk & ->). destruct (Hj _ _ _ Hd) as (r & Hr & -> & ->). rewrite Hk.
      cbn. by destruct d as [? [w|]]. }
  split.
  { rewrite (sr_del _ _ HS'), (sr_del _ _ HS), (hr_td h a HH). cbn [upd sp_del]. unfold log_del.
    rewrite J4. destruct (sp_td a); [|done]. f_equal. by rewrite <- list_fmap_compose. }
  split; [by rewrite (sr_rem _ _ HS'), (sr_rem _ _ HS)|].
  split.
  - intros Ht e c d l u Hd Hk. destruct (Hj _ _ _ Hd) as (r & Hr & -> & Em). rewrite Hk in Em.
    apply Hin in Hr.
    destruct (index_of_Some s _ e r (sr_inv s a HS) (sr_rows s a HS) Hr) as (_ & _ & _ & _ & _ & _ & [_ Hg]).
    rewrite (hr_tm h a HH) in Ht.
    rewrite (is_modified_SR s' _ e l u HS' Hg Ht), (is_modified_SR s _ e l u HS Hg Ht).
    cbn [upd sp_map]. rewrite Em, Hr. by destruct d as [? [w|]].
  - intros Ht e c d l u Hd Hk. destruct (Hj _ _ _ Hd) as (r & Hr & -> & Em). rewrite Hk in Em.
    apply Hin in Hr.
    destruct (index_of_Some s _ e r (sr_inv s a HS) (sr_rows s a HS) Hr) as (_ & _ & _ & _ & _ & _ & [_ Hg]).
    rewrite (hr_ti h a HH) in Ht.
    rewrite (is_inserted_SR s' _ e l u HS' Hg Ht), (is_inserted_SR s _ e l u HS Hg Ht).
    cbn [upd sp_map]. rewrite Em, Hr. by destruct d as [? [w|]].
Qed.
Theorem C16_retain ti tm td tr ops s h (p : list (eid * T) -> eid -> T -> bool) t :
  reaches ti tm td tr ops s h ->
  let q := λ pre e c, (p pre e c, None) in
  ∃ s' log, ss_retain s (λ st e c, (st ++ [(e, c)], p st e c)) [] t = Ok (s', log) ∧
    h_lists h log ∧
    (∀ e v, gen e < U16_MAX ->
       ss_get s' e = Ok (Some v) <-> (e, v, (true, None)) ∈ judge q [] log) ∧
    ss_del s' = (if h_td h then
                   ss_del s ++ ((λ x, (x.1.1, t, x.1.2)) <$>
                                filter (λ x, x.2.1 = false) (judge q [] log))
                 else ss_del s) ∧
    ss_rem s' = ss_rem s.
Proof.
  intros HRe q. destruct (C16_retain_mut _ _ _ _ _ _ _ q t HRe) as (s' & log & E1 & E2 & E3 & E4 & E5 & _).
  assert (∀ pre l x, x ∈ judge q pre l -> x.2.2 = None) as Hq.
  { intros pre l. revert pre. induction l as [|[e c] l IH]; intros pre x.
    - intros H. by apply elem_of_nil in H.
    - cbn. intros [->|H]%elem_of_cons; [done|]. by eapply IH. }
  exists s', log.
  split.
  { rewrite <- E1. unfold ss_retain, ss_retain_mut. rewrite retain_as_mut. reflexivity. }
  split; [done|]. split.
  { intros e v He. rewrite E3 by done. split.
    - intros (c & [k w] & Hd & Hk & ->). pose proof (Hq _ _ _ Hd) as Hw. cbn in *. by subst.
    - intros Hd. by exists v, (true, None). }
  split; [|done].
  rewrite E4. destruct (h_td h); [|done]. f_equal.
  assert (∀ x, x ∈ filter (λ x, x.2.1 = false) (judge q [] log) -> x.2.2 = None) as Hf.
  { intros x [_ Hx]%elem_of_list_filter. by eapply Hq. }
  revert Hf. generalize (filter (λ x, x.2.1 = false) (judge q [] log)). intros L.
  induction L as [|[[e c] [k w]] L IH]; intros Hf; [done|]. rewrite !fmap_cons. f_equal.
  - unfold left_value. pose proof (Hf (e, c, (k, w)) ltac:(left)) as Hw. cbn in *. by subst w.
  - apply IH. intros y Hy. apply Hf. by right.
Qed.

(** * C17: clear and drain *)
(** The first [k] elements taken from a drain. *)
Fixpoint drain_take (k : nat) (d : drain T) : res (list (eid * T)) :=
  match k with
  | O => Ok []
  | S k => rlet o := drain_next d in
           match o with
           | None => Ok []
           | Some (x, d) => rlet l := drain_take k d in Ok (x :: l)
           end
  end.
Lemma drain_take_all k : ∀ d n l, (length (dr_data d) <= n)%nat ->
  drain_all n d = Ok l -> drain_take k d = Ok (take k l).
Proof.
  induction k as [|k IH]; intros d n l Hn Hall; [done|]. cbn [drain_take].
  destruct n as [|n].
  - destruct d as [dn [|c dt]]; [|cbn in Hn; lia]. cbn in Hall. injection Hall as <-. done.
  - cbn [drain_all] in Hall. destruct (drain_next d) as [[[x d2]|]| |] eqn:E; cbn [rbind] in *; try done.
    + destruct (drain_all n d2) as [l2| |] eqn:E2; cbn [rbind] in Hall; try done.
      injection Hall as <-. rewrite (IH d2 n l2); [done| |done].
      unfold drain_next in E. destruct d as [dn [|c dt]]; [done|]. cbn in E, Hn.
      destruct (if _ <? _ then _ else _); cbn in E; try done. injection E as <- <-. cbn. lia.
    + by injection Hall as <-.
Qed.

Theorem C17_drain ti tm td tr ops s h t :
  reaches ti tm td tr ops s h ->
  ∃ s' d l, ss_drain s t = Ok (s', d) ∧ h_lists h l ∧
    (∀ k, drain_take k d = Ok (take k l)) ∧
    ss_len s' = 0 ∧ (∀ e, gen e < U16_MAX -> ss_get s' e = Ok None ∧ ss_contains s' e = false) ∧
    ∃ h', reaches ti tm td tr (ops ++ [ODrain t]) s' h' ∧ ∀ e, h_val h' e = None.
Proof.
  intros HRe. destruct (reaches_SR _ _ _ _ _ _ _ HRe) as (a & HS & HH).
  destruct (ss_drain_SR s a t HS) as (s' & d & E & Ed & Hp & a' & Hst & HS').
  destruct (reaches_step _ _ _ _ _ _ _ (ODrain t) HRe) as (s2 & ev & E2 & HRe2); [done|].
  cbn [s_step] in E2. rewrite E in E2. cbn [rbind] in E2. rewrite Ed in E2. cbn [rbind] in E2.
  injection E2 as <- <-.
  exists s', d, (zip (ss_dense s) (ss_data s)). split; [done|].
  split; [by eapply HR_lists|].
  split; [intros k; eapply drain_take_all; [|exact Ed]; lia|].
  split.
  { unfold ss_drain in E. destruct (kill_slots _ _); cbn [rbind] in E; try done.
    by injection E as <- <-. }
  split.
  - intros e He. pose proof (reach_get _ _ _ _ _ _ _ _ HRe2 He) as HG. split; [done|].
    by destruct (C11_read_write _ _ _ _ _ _ _ _ id 0 HRe2 He eq_refl) as (_ & ? & _).
  - eexists. split; [exact HRe2|]. done.
Qed.
Theorem C17_clear ti tm td tr ops s h t :
  reaches ti tm td tr ops s h ->
  ∃ s', ss_clear s t = Ok s' ∧
    ss_len s' = 0 ∧ (∀ e, gen e < U16_MAX -> ss_get s' e = Ok None ∧ ss_contains s' e = false) ∧
    ∃ h', reaches ti tm td tr (ops ++ [OClear t]) s' h' ∧ ∀ e, h_val h' e = None.
Proof.
  intros HRe.
  destruct (reaches_step _ _ _ _ _ _ _ (OClear t) HRe) as (s2 & ev & E2 & HRe2); [done|].
  cbn [s_step] in E2. destruct (ss_clear s t) as [s'| |] eqn:E; cbn [rbind] in E2; try done.
  injection E2 as <- <-. exists s'. split; [done|]. split.
  { unfold ss_clear in E. destruct (kill_slots _ _); cbn [rbind] in E; try done.
    by injection E as <-. }
  split.
  - intros e He. pose proof (reach_get _ _ _ _ _ _ _ _ HRe2 He) as HG. split; [done|].
    by destruct (C11_read_write _ _ _ _ _ _ _ _ id 0 HRe2 He eq_refl) as (_ & ? & _).
  - eexists. split; [exact HRe2|]. done.
Qed.

(** * C20, C21: inserted and modified *)
Theorem C20_inserted ti tm td tr ops s h e last current :
  reaches ti tm td tr ops s h -> gen e < U16_MAX -> h_ti h = true ->
  ∃ b, is_inserted s e last current = Ok b ∧
    (b = true <-> is_Some (h_val h e) ∧ last < h_ins h e ∧ h_ins h e <= current).
Proof.
  intros HRe He Ht. eexists. split; [by eapply reach_ins|].
  destruct (h_val h e) as [v|].
  - unfold is_within. rewrite andb_true_iff, N.ltb_lt, N.leb_le. split; [|tauto].
    intros [? ?]. eauto.
  - split; [done|]. by intros [[? ?] _].
Qed.
Theorem C21_modified ti tm td tr ops s h e last current :
  reaches ti tm td tr ops s h -> gen e < U16_MAX -> h_tm h = true ->
  ∃ b, is_modified s e last current = Ok b ∧
    (b = true <-> is_Some (h_val h e) ∧ last < h_mod h e ∧ h_mod h e <= current).
Proof.
  intros HRe He Ht. eexists. split; [by eapply reach_mod|].
  destruct (h_val h e) as [v|].
  - unfold is_within. rewrite andb_true_iff, N.ltb_lt, N.leb_le. split; [|tauto].
    intros [? ?]. eauto.
  - split; [done|]. by intros [[? ?] _].
Qed.
(** * C22: the logs *)
Theorem C22_logs ti tm td tr ops s h o s' ev :
  reaches ti tm td tr ops s h -> h_allowed h o -> s_step s o = Ok (s', ev) ->
  del_log_ok h o (ss_del s) (ss_del s') ∧ rem_log_ok h o (ss_rem s) (ss_rem s').
Proof.
  intros HRe Ho E. destruct (reaches_SR _ _ _ _ _ _ _ HRe) as (a & HS & HH).
  destruct (s_step_ok s h a o HS HH Ho) as (s2 & ev2 & a' & E1 & E2 & HS' & _).
  rewrite E in E1. injection E1 as <- <-.
  rewrite (sr_del _ _ HS), (sr_del _ _ HS'), (sr_rem _ _ HS), (sr_rem _ _ HS').
  by eapply logs_step.
Qed.
(** What the views answer is what the logs contain. *)
Theorem C22_queries s e last current :
  (is_removed s e last current = true <-> ∃ t, (e, t) ∈ ss_rem s ∧ last < t ∧ t <= current) ∧
  (is_deleted s e last current = true <-> ∃ t v, (e, t, v) ∈ ss_del s ∧ last < t ∧ t <= current) ∧
  (e ∈ v_removed s last current <-> ∃ t, (e, t) ∈ ss_rem s ∧ last < t ∧ t <= current) ∧
  (∀ v, (e, v) ∈ v_deleted s last current <->
        ∃ t, (e, t, v) ∈ ss_del s ∧ last < t ∧ t <= current).
Proof.
  assert (∀ t, is_within t last current = true <-> last < t ∧ t <= current) as Hw.
  { intros t. unfold is_within. by rewrite andb_true_iff, N.ltb_lt, N.leb_le. }
  split; [|split; [|split]].
  - unfold is_removed. rewrite existsb_exists. setoid_rewrite <- elem_of_list_In. split.
    + intros ([e' t] & Hin & Hb). apply andb_true_iff in Hb as [H1 H2]. cbn in *.
      destruct (decide (e' = e)) as [->|]; [|done]. exists t. by rewrite <- Hw.
    + intros (t & Hin & Ht). exists (e, t). split; [done|]. cbn.
      rewrite decide_True by done. by apply Hw.
  - unfold is_deleted. rewrite existsb_exists. setoid_rewrite <- elem_of_list_In. split.
    + intros ([[e' t] v] & Hin & Hb). apply andb_true_iff in Hb as [H1 H2]. cbn in *.
      destruct (decide (e' = e)) as [->|]; [|done]. exists t, v. by rewrite <- Hw.
    + intros (t & v & Hin & Ht). exists (e, t, v). split; [done|]. cbn.
      rewrite decide_True by done. by apply Hw.
  - unfold v_removed. rewrite elem_of_list_omap. split.
    + intros ([e' t] & Hin & Hb). cbn in Hb. destruct (is_within t last current) eqn:E; [|done].
      injection Hb as ->. exists t. by rewrite <- Hw.
    + intros (t & Hin & Ht). exists (e, t). split; [done|]. cbn. by rewrite (proj2 (Hw t)).
  - intros v. unfold v_deleted. rewrite elem_of_list_omap. split.
    + intros ([[e' t] v'] & Hin & Hb). cbn in Hb. destruct (is_within t last current) eqn:E; [|done].
      injection Hb as -> ->. exists t. by rewrite <- Hw.
    + intros (t & Hin & Ht). exists (e, t, v). split; [done|]. cbn. by rewrite (proj2 (Hw t)).
Qed.
(** What "older than" really does: entries stamped exactly [t] go too. *)
Theorem C22_clear_older_partial s t :
  let s' := clear_all_removed_and_deleted_older s t in
  (∀ x, x ∈ ss_del s' <-> x ∈ ss_del s ∧ t < x.1.2) ∧
  (∀ x, x ∈ ss_rem s' <-> x ∈ ss_rem s ∧ t < x.2) ∧
  sublist (ss_del s') (ss_del s) ∧ sublist (ss_rem s') (ss_rem s) ∧
  s' = with_logs s (ss_del s') (ss_rem s').
Proof.
  cbn. unfold is_older_than. split; [|split].
  - intros x. rewrite elem_of_list_filter, N.ltb_lt. tauto.
  - intros x. rewrite elem_of_list_filter, N.ltb_lt. tauto.
  - assert (∀ A (P : A -> Prop) `{!∀ x, Decision (P x)} (l : list A), sublist (filter P l) l) as Hsub.
    { intros A P HD l. induction l as [|x l IH]; [constructor|]. rewrite filter_cons.
      destruct (decide (P x)); by constructor. }
    split; [apply Hsub|]. split; [apply Hsub|]. done.
Qed.
End props.

(** The claim says entries stamped [t] are kept: they are not. *)
Theorem C22_clear_older_refuted :
  ∃ (ops : list (sop N)) s h t,
    reaches false false true true ops s h ∧ ss_rem s = [((3, 0), t)] ∧ ss_del s = [((4, 0), t, 6)] ∧
    ss_rem (clear_all_removed_and_deleted_older s t) = [] ∧
    ss_del (clear_all_removed_and_deleted_older s t) = [].
Proof.
  exists [OInsert (3, 0) 5 1; OInsert (4, 0) 6 2; ORemove (3, 0) 7; ODelete (4, 0) 7].
  eexists _, _, 7. split.
  { eapply reaches_intro; [concrete_allowed|vm_compute; reflexivity]. }
  done.
Qed.
(** The inherent SparseSet::clear_all_removed_and_deleted leaves the deleted components. *)
Theorem C22_clear_all_refuted :
  ∃ (ops : list (sop N)) s h,
    reaches false false true true ops s h ∧ ss_del s = [((4, 0), 7, 6)] ∧
    ss_del (clear_all_removed_and_deleted s) = [((4, 0), 7, 6)].
Proof.
  exists [OInsert (4, 0) 6 2; ODelete (4, 0) 7]. eexists _, _. split.
  { eapply reaches_intro; [concrete_allowed|vm_compute; reflexivity]. }
  done.
Qed.

(** * C23: tracking types *)
Inductive event_kind := KInsertion | KModification | KDeletion | KRemoval.
(** The words of the name of each type. *)
Definition words (k : tracking) : list event_kind :=
  match k with
  | Nothing => []
  | TInsertion => [KInsertion] | TModification => [KModification]
  | TDeletion => [KDeletion] | TRemoval => [KRemoval]
  | InsertionAndModification => [KInsertion; KModification]
  | InsertionAndDeletion => [KInsertion; KDeletion]
  | InsertionAndRemoval => [KInsertion; KRemoval]
  | ModificationAndDeletion => [KModification; KDeletion]
  | ModificationAndRemoval => [KModification; KRemoval]
  | DeletionAndRemoval => [KDeletion; KRemoval]
  | InsertionAndModificationAndDeletion => [KInsertion; KModification; KDeletion]
  | InsertionAndModificationAndRemoval => [KInsertion; KModification; KRemoval]
  | InsertionAndDeletionAndRemoval => [KInsertion; KDeletion; KRemoval]
  | ModificationAndDeletionAndRemoval => [KModification; KDeletion; KRemoval]
  | TAll => [KInsertion; KModification; KDeletion; KRemoval]
  end.
Definition says (k : tracking) (w : event_kind) : bool :=
  existsb (λ x, match x, w with
                | KInsertion, KInsertion | KModification, KModification
                | KDeletion, KDeletion | KRemoval, KRemoval => true
                | _, _ => false end) (words k).

(** Clearing through the storage, as World::clear_all_removed_and_deleted does, empties both logs and
    leaves the rest of the storage. *)
Theorem C22_clear_storage {T} : ∀ (s : sset T) e v last current,
  let s' := storage_clear_all_removed_and_deleted s in
  e ∉ v_removed s' last current ∧ (e, v) ∉ v_deleted s' last current ∧
  is_removed s' e last current = false ∧ is_deleted s' e last current = false ∧
  s' = with_logs s (ss_del s') (ss_rem s').
Proof. intros s e v last current. cbn. split_and!; try done; by apply not_elem_of_nil. Qed.
(** Clearing through the tracking type: the logs the name of the type asks for are emptied (for the
    other form, exactly the entries stamped after [t] stay, in order), and nothing else of the
    storage changes. *)
Theorem C22_clear_tracking {T} : ∀ k (s : sset T) t,
  let s1 := k_clear_all_removed_and_deleted k s in let s2 := k_clear_older k s t in
  (says k KDeletion = true -> ss_del s1 = [] ∧
     (∀ x, x ∈ ss_del s2 <-> x ∈ ss_del s ∧ t < x.1.2) ∧ sublist (ss_del s2) (ss_del s)) ∧
  (says k KRemoval = true -> ss_rem s1 = [] ∧
     (∀ x, x ∈ ss_rem s2 <-> x ∈ ss_rem s ∧ t < x.2) ∧ sublist (ss_rem s2) (ss_rem s)) ∧
  (says k KDeletion = false -> ss_del s1 = ss_del s ∧ ss_del s2 = ss_del s) ∧
  (says k KRemoval = false -> ss_rem s1 = ss_rem s ∧ ss_rem s2 = ss_rem s) ∧
  s1 = with_logs s (ss_del s1) (ss_rem s1) ∧ s2 = with_logs s (ss_del s2) (ss_rem s2).
Proof.
  intros k s t. pose proof (C22_clear_older_partial s t) as (H1 & H2 & H3 & H4 & _).
  cbn [clear_all_removed_and_deleted_older with_logs ss_del ss_rem] in H1, H2, H3, H4.
  unfold k_clear_all_removed_and_deleted, k_clear_older.
  assert (overrides k = (says k KInsertion, says k KModification, says k KDeletion, says k KRemoval))
    as Hk by (by destruct k).
  cbn zeta. rewrite Hk. cbn [fst snd with_logs ss_del ss_rem].
  destruct (says k KDeletion), (says k KRemoval); by split_and!.
Qed.
(** A log switched on at run time for a type whose name does not ask for it is not emptied through
    the type: the deletions of a type with no tracking, tracked after track_deletion, stay. *)
Theorem C22_clear_runtime_refuted :
  ∃ (ops : list (sop N)) s h,
    reaches false false false false ops s h ∧ ss_del s = [((4, 0), 7, 6)] ∧
    ss_del (k_clear_all_removed_and_deleted Nothing s) = [((4, 0), 7, 6)] ∧
    ss_del (k_clear_older Nothing s 9) = [((4, 0), 7, 6)].
Proof.
  exists [OTrack false false true false; OInsert (4, 0) 6 2; ODelete (4, 0) 7]. eexists _, _. split.
  { eapply reaches_intro; [concrete_allowed|vm_compute; reflexivity]. }
  done.
Qed.

(** For fifteen of the sixteen types, the flags of a new storage and the methods of the type follow
    the name. *)
Theorem C23_flags_partial : ∀ k, k ≠ ModificationAndRemoval ->
  k_track_insertion k = says k KInsertion ∧ k_track_modification k = says k KModification ∧
  k_track_deletion k = says k KDeletion ∧ k_track_removal k = says k KRemoval ∧
  overrides k = (says k KInsertion, says k KModification, says k KDeletion, says k KRemoval).
Proof. by intros []. Qed.
(** Over any history of a storage of one of these types, and for any window. *)
Lemma flags_stay {T} (l : list (sop T * sevent T)) : ∀ h,
  (h_ti h = true -> h_ti (hist_of h l) = true) ∧ (h_tm h = true -> h_tm (hist_of h l) = true).
Proof.
  induction l as [|[o ev] l IH]; intros h; [done|]. cbn [hist_of foldl].
  destruct (IH (h_step h (o, ev))) as [I1 I2]. unfold hist_of in *.
  assert ((h_ti h = true -> h_ti (h_step h (o, ev)) = true) ∧
          (h_tm h = true -> h_tm (h_step h (o, ev)) = true)) as [J1 J2].
  { destruct o; cbn; try done; repeat case_match; cbn; try done.
    split; intros ->; done. }
  split; auto.
Qed.
Theorem C23_reports_partial {T} : ∀ k ops (s : sset T) h e l c,
  k ≠ ModificationAndRemoval ->
  reaches (k_track_insertion k) (k_track_modification k) (k_track_deletion k) (k_track_removal k)
    ops s h -> gen e < U16_MAX ->
  (∃ b, k_is_inserted k s e l c = Ok b ∧
     (b = true <-> says k KInsertion = true ∧ is_Some (h_val h e) ∧ l < h_ins h e ∧ h_ins h e <= c)) ∧
  (∃ b, k_is_modified k s e l c = Ok b ∧
     (b = true <-> says k KModification = true ∧ is_Some (h_val h e) ∧ l < h_mod h e ∧ h_mod h e <= c)) ∧
  (k_is_deleted k s e l c = true <->
     says k KDeletion = true ∧ ∃ t v, (e, t, v) ∈ ss_del s ∧ l < t ∧ t <= c) ∧
  (k_is_removed k s e l c = true <->
     says k KRemoval = true ∧ ∃ t, (e, t) ∈ ss_rem s ∧ l < t ∧ t <= c).
Proof.
  intros k ops s h e l c Hk HRe Hg.
  destruct (C23_flags_partial k Hk) as (F1 & F2 & F3 & F4 & F5).
  pose proof (C22_queries s e l c) as (Q1 & Q2 & _ & _).
  unfold k_is_inserted, k_is_modified, k_is_deleted, k_is_removed. rewrite F5. cbn [fst snd].
  assert ((k_track_insertion k = true -> h_ti h = true) ∧
          (k_track_modification k = true -> h_tm h = true)) as [G1 G2].
  { destruct HRe as (_ & evs & _ & ->). apply (flags_stay (zip ops evs) (h_init _ _ _ _)). }
  split; [|split; [|split]].
  - destruct (says k KInsertion) eqn:Es.
    + destruct (C20_inserted _ _ _ _ _ _ _ e l c HRe Hg) as (b & Hb & Hiff); [auto|].
      exists b. split; [done|]. rewrite Hiff. tauto.
    + exists false. split; [done|]. split; [done|]. by intros [? _].
  - destruct (says k KModification) eqn:Es.
    + destruct (C21_modified _ _ _ _ _ _ _ e l c HRe Hg) as (b & Hb & Hiff); [auto|].
      exists b. split; [done|]. rewrite Hiff. tauto.
    + exists false. split; [done|]. split; [done|]. by intros [? _].
  - destruct (says k KDeletion); [rewrite Q2; tauto|]. split; [done|]. by intros [? _].
  - destruct (says k KRemoval); [rewrite Q1; tauto|]. split; [done|]. by intros [? _].
Qed.
(** ModificationAndRemoval never records a removal: whatever is inserted and removed through a new
    storage of that type, the log stays empty and the view answers no. *)
Theorem C23_modification_and_removal_refuted :
  says ModificationAndRemoval KRemoval = true ∧
  ∀ (e : eid) (v t1 t2 : N), handle_ok e ->
    ∃ s1 s2, ss_insert (ss_new_for ModificationAndRemoval) e v t1 = Ok (s1, Inserted) ∧
      dyn_remove s1 e t2 = Ok (s2, Some v) ∧
      (∀ l c, k_is_removed ModificationAndRemoval s2 e l c = false) ∧
      k_removed_or_deleted ModificationAndRemoval s2 = [].
Proof.
  split; [done|]. intros e v t1 t2 Hok.
  set (k := ModificationAndRemoval).
  assert (reaches (k_track_insertion k) (k_track_modification k) (k_track_deletion k)
    (k_track_removal k) [] (ss_new_for k) (h_init (k_track_insertion k) (k_track_modification k)
    (k_track_deletion k) (k_track_removal k)) (T := N)) as H0.
  { split; [|by exists []]. intros pre o post s1 evs1 Heq. by destruct pre. }
  assert (h_allowed (T := N) (h_init (k_track_insertion k) (k_track_modification k)
    (k_track_deletion k) (k_track_removal k)) (OInsert e v t1)) as Al1 by (split; done).
  destruct (C10_map_answers _ _ _ _ _ _ _ (OInsert e v t1) H0 Al1) as (s1 & ev & E1 & A1 & H1).
  cbn in A1. destruct A1 as [[-> _]|[_ (? & _ & _ & [? ?])]]; [|done].
  destruct (C10_map_answers _ _ _ _ _ _ _ (ORemove e t2) H1) as (s2 & ev2 & E2 & A2 & H2).
  { apply Hok. }
  cbn [answer_ok h_step h_upd h_val] in A2. unfold at_ in A2. rewrite decide_True in A2 by done.
  subst ev2.
  destruct (C22_logs _ _ _ _ _ _ _ (OInsert e v t1) _ _ H0 Al1 E1) as [_ L1].
  destruct (C22_logs _ _ _ _ _ _ _ (ORemove e t2) _ _ H1 (proj2 Hok) E2) as [_ L2].
  cbn [rem_log_ok] in L1, L2. cbn [h_step h_upd h_val h_tr] in L2. unfold at_ in L2.
  rewrite decide_True in L2 by done.
  cbn [s_step] in E1, E2.
  destruct (ss_insert _ e v t1) as [[s1' r1]| |]; cbn [rbind] in E1; try done.
  injection E1 as <- ->.
  destruct (dyn_remove s1' e t2) as [[s2' r2]| |] eqn:ER; cbn [rbind] in E2; try done.
  injection E2 as <- ->.
  exists s1', s2'. split; [done|]. split; [done|].
  assert (ss_rem s2' = []) as Hr.
  { rewrite L2, L1. done. }
  split.
  - intros l c. unfold k_is_removed, is_removed. rewrite Hr. done.
  - unfold k_removed_or_deleted. rewrite Hr. done.
Qed.

(** * The hypotheses are met by a non-trivial history *)

(** Six operations with a recycled index, all trackings on. *)
Definition ex_ops : list (sop N) :=
  [OInsert (0, 0) 10 1; OInsert (40, 2) 20 2; OWrite (40, 2) (λ x, x + 1) 3; ORemove (0, 0) 4;
   OInsert (0, 1) 30 5; ODelete (40, 2) 6; OInsert (40, 3) 50 7; OWrite (0, 1) (λ x, x * 2) 8].
Lemma ex_allowed : allowed_history (ss_new true true true true) (h_init true true true true) ex_ops.
Proof.
  unfold ex_ops. concrete_allowed.
Qed.
(** What the history says at the end, and the storage the model reaches: C10, C12, C20, C21 apply
    with non-empty content. *)
Example ex_reaches : ∃ s h, reaches true true true true ex_ops s h ∧
  ss_dense s = [(0, 1); (40, 3)] ∧ ss_data s = [60; 50] ∧
  h_val h (0, 1) = Some 60 ∧ h_val h (40, 3) = Some 50 ∧ h_val h (0, 0) = None ∧
  h_val h (40, 2) = None ∧ h_ins h (0, 1) = 5 ∧ h_mod h (0, 1) = 8 ∧
  ss_rem s = [((0, 0), 4)] ∧ ss_del s = [((40, 2), 6, 21)] ∧
  is_inserted s (0, 1) 4 5 = Ok true ∧ is_inserted s (0, 1) 5 9 = Ok false ∧
  is_modified s (0, 1) 7 8 = Ok true ∧ is_modified s (40, 3) 0 9 = Ok false.
Proof.
  eexists _, _. split; [eapply reaches_intro; [apply ex_allowed|vm_compute; reflexivity]|].
  vm_compute. repeat split.
Qed.
(** C11: the old handles of the recycled indices are such handles; nothing older is left. *)
Example ex_C11 : ∃ s h, reaches true true true true ex_ops s h ∧
  h_val h (0, 0) = None ∧ ss_get s (0, 0) = Ok None ∧ ss_get s (0, 1) = Ok (Some 60) ∧
  dyn_remove s (0, 0) 9 = Ok (s, None) ∧ dyn_delete s (40, 2) 9 = Ok (s, false).
Proof.
  eexists _, _. split; [eapply reaches_intro; [apply ex_allowed|vm_compute; reflexivity]|].
  vm_compute. repeat split.
Qed.
(** C14: both entities are present; the order [1; 0] is the sorted one and exchanges them. *)
Example ex_C14 : ∃ s h, reaches true true true true ex_ops s h ∧ sorted_order N.le s [1; 0] ∧
  ∃ s', ss_sort s [1; 0] = Ok s' ∧ ss_data s' = [50; 60] ∧ ss_dense s' = [(40, 3); (0, 1)].
Proof.
  eexists _, _. split; [eapply reaches_intro; [apply ex_allowed|vm_compute; reflexivity]|].
  split.
  - split; [cbn; apply perm_swap|]. repeat constructor. by exists 50, 60.
  - eexists. vm_compute. repeat split.
Qed.
(** C15: swapping the two components. *)
Example ex_C15 : ∃ s h, reaches true true true true ex_ops s h ∧
  h_val h (0, 1) = Some 60 ∧ h_val h (40, 3) = Some 50 ∧
  ∃ s', ss_apply_mut s (0, 1) (40, 3) (λ x y, (y, x, x + y)) 9 = Ok (s', 110) ∧
        ss_data s' = [50; 60].
Proof.
  eexists _, _. split; [eapply reaches_intro; [apply ex_allowed|vm_compute; reflexivity]|].
  split; [done|]. split; [done|]. eexists. vm_compute. repeat split.
Qed.
(** C16: a predicate that answers no at its second call. *)
Example ex_C16 : ∃ s h, reaches true true true true ex_ops s h ∧
  ∃ s' log, ss_retain s (λ st e c, (st ++ [(e, c)], length st =? 0)%nat) [] 9 = Ok (s', log) ∧
    log = [((0, 1), 60); ((40, 3), 50)] ∧ ss_dense s' = [(0, 1)] ∧
    ss_del s' = [((40, 2), 6, 21); ((40, 3), 9, 50)].
Proof.
  eexists _, _. split; [eapply reaches_intro; [apply ex_allowed|vm_compute; reflexivity]|].
  eexists _, _. vm_compute. repeat split.
Qed.
(** C17 *)
Example ex_C17 : ∃ s h, reaches true true true true ex_ops s h ∧
  ∃ s' d, ss_drain s 9 = Ok (s', d) ∧ drain_take 1 d = Ok [((0, 1), 60)] ∧
    drain_take 5 d = Ok [((0, 1), 60); ((40, 3), 50)] ∧ ss_dense s' = [] ∧
    ss_rem s' = [((0, 0), 4); ((0, 1), 9); ((40, 3), 9)].
Proof.
  eexists _, _. split; [eapply reaches_intro; [apply ex_allowed|vm_compute; reflexivity]|].
  eexists _, _. vm_compute. repeat split.
Qed.

Print Assumptions C10_map_reads.
Print Assumptions C10_map_answers.
Print Assumptions C10_get_or_insert.
Print Assumptions C11_read_write.
Print Assumptions C11_one_owner.
Print Assumptions C11_remove_delete_partial.
Print Assumptions C11_newer_handle_refuted.
Print Assumptions C12_packed.
Print Assumptions C13_newer_generation_partial.
Print Assumptions C13_newer_generation_refuted.
Print Assumptions C14_sort.
Print Assumptions C14_order_exists.
Print Assumptions C15_apply.
Print Assumptions C15_apply_mut.
Print Assumptions C15_apply_panics.
Print Assumptions C16_retain_mut.
Print Assumptions C16_retain.
Print Assumptions C17_drain.
Print Assumptions C17_clear.
Print Assumptions C20_inserted.
Print Assumptions C21_modified.
Print Assumptions C22_logs.
Print Assumptions C22_queries.
Print Assumptions C22_clear_older_partial.
Print Assumptions C22_clear_older_refuted.
Print Assumptions C22_clear_all_refuted.
Print Assumptions C22_clear_storage.
Print Assumptions C22_clear_tracking.
Print Assumptions C22_clear_runtime_refuted.
Print Assumptions C23_flags_partial.
Print Assumptions C23_reports_partial.
Print Assumptions C23_modification_and_removal_refuted.
