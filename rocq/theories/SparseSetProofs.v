(** Representation invariant of SparseSet.v and refinement of SparseSetSpec.v. *)
From stdpp Require Import prelude list gmap sorting.
From Coq Require Import NArith.
From Verif Require Import EntityId Base SparseSet SparseSetSpec.
Open Scope N_scope.

(** * Lists *)
Lemma getN_take {A} (l : list A) n i :
  getN (take n l) i = if i <? N.of_nat n then getN l i else None.
Proof.
  rewrite !getN_lookup. destruct (N.ltb_spec i (N.of_nat n)).
  - apply lookup_take. lia.
  - apply lookup_ge_None. rewrite take_length. lia.
Qed.
Lemma last_getN {A} (l : list A) : last l = getN l (lenN l - 1).
Proof. rewrite last_lookup, getN_lookup. f_equal. unfold lenN. lia. Qed.
Lemma getN_setN {A} (l : list A) i j x :
  getN (setN l i x) j = if (j =? i) && (i <? lenN l) then Some x else getN l j.
Proof.
  destruct (N.eqb_spec j i) as [->|]; cbn.
  - destruct (N.ltb_spec i (lenN l)).
    + by apply getN_setN_eq.
    + by rewrite !getN_ge by (rewrite ?lenN_setN; lia).
  - apply getN_setN_ne. congruence.
Qed.
Lemma getN_ext {A} (l k : list A) : (∀ i, getN l i = getN k i) -> l = k.
Proof.
  intros H. apply list_eq. intros i. specialize (H (N.of_nat i)).
  rewrite !getN_lookup, Nat2N.id in H. done.
Qed.
Lemma getN_None_ge {A} (l : list A) i : getN l i = None -> lenN l <= i.
Proof. rewrite getN_lookup. intros H%lookup_ge_None. unfold lenN. lia. Qed.
Lemma lenN_determined {A B} (l : list A) (k : list B) :
  (∀ i, is_Some (getN l i) <-> is_Some (getN k i)) -> lenN l = lenN k.
Proof.
  intros H. destruct (N.lt_trichotomy (lenN l) (lenN k)) as [Hl|[Hl|Hl]]; [|done|].
  - destruct (getN_lt k (lenN l) Hl) as [x Hx].
    destruct (proj2 (H (lenN l))) as [y Hy]; [eauto|]. apply getN_Some_lt in Hy. lia.
  - destruct (getN_lt l (lenN k) Hl) as [x Hx].
    destruct (proj1 (H (lenN k))) as [y Hy]; [eauto|]. apply getN_Some_lt in Hy. lia.
Qed.
Lemma getN_elem {A} (l : list A) x : x ∈ l <-> ∃ i, getN l i = Some x.
Proof.
  split.
  - intros [i Hi]%elem_of_list_lookup. exists (N.of_nat i). by rewrite getN_lookup, Nat2N.id.
  - intros [i Hi]. rewrite getN_lookup in Hi. by eapply elem_of_list_lookup_2.
Qed.
Lemma NoDup_getN {A} (l : list A) :
  (∀ i j x, getN l i = Some x -> getN l j = Some x -> i = j) -> NoDup l.
Proof.
  intros H. apply NoDup_alt. intros i j x Hi Hj.
  assert (N.of_nat i = N.of_nat j); [|lia].
  eapply H; by rewrite getN_lookup, Nat2N.id.
Qed.

Lemma swap_remove_ok {A} (l : list A) i x :
  getN l i = Some x ->
  ∃ l', swap_remove l i = Ok (x, l') ∧ lenN l' = lenN l - 1 ∧ lenN l > 0 ∧
    ∀ j, getN l' j =
         if j <? lenN l - 1 then (if j =? i then getN l (lenN l - 1) else getN l j) else None.
Proof.
  intros Hi. pose proof (getN_Some_lt _ _ _ Hi) as Hlt.
  destruct (getN_lt l (lenN l - 1)) as [y Hy]; [lia|].
  unfold swap_remove. rewrite Hi, last_getN, Hy. eexists. split; [done|].
  assert (length l > 0)%nat by (unfold lenN in *; lia).
  split; [|split; [unfold lenN in *; lia|]].
  - unfold lenN. rewrite take_length, setN_length. lia.
  - intros j. rewrite getN_take, getN_setN.
    replace (N.of_nat (length l - 1)) with (lenN l - 1) by (unfold lenN; lia).
    destruct (j <? lenN l - 1); [|done].
    destruct (N.eqb_spec j i) as [->|]; cbn; [|done].
    destruct (N.ltb_spec i (lenN l)); [done|lia].
Qed.
Lemma swapN_ok {A} (l : list A) i j x y :
  getN l i = Some x -> getN l j = Some y ->
  ∃ l', swapN l i j = Ok l' ∧ lenN l' = lenN l ∧
    ∀ k, getN l' k = if k =? j then Some x else if k =? i then Some y else getN l k.
Proof.
  intros Hi Hj. unfold swapN. rewrite Hi, Hj. eexists. split; [done|].
  split; [by rewrite !lenN_setN|]. intros k.
  rewrite !getN_setN, lenN_setN.
  apply getN_Some_lt in Hi, Hj.
  destruct (N.ltb_spec i (lenN l)); [|lia]. destruct (N.ltb_spec j (lenN l)); [|lia].
  destruct (k =? j), (k =? i); done.
Qed.

(** * Sparse array *)
Definition sa_wf (sp : sparse_array) : Prop :=
  ∀ b l, getN sp b = Some (Some l) -> lenN l = BUCKET_SIZE.

Lemma sa_get_idx sp e e' : idx e = idx e' -> sa_get sp e = sa_get sp e'.
Proof. unfold sa_get, bucket, bucket_index. by intros ->. Qed.

Lemma bucket_inj e e' :
  bucket e = bucket e' -> bucket_index e = bucket_index e' -> idx e = idx e'.
Proof.
  unfold bucket, bucket_index. intros H1 H2.
  rewrite (N.div_mod (idx e) BUCKET_SIZE), (N.div_mod (idx e') BUCKET_SIZE) by done.
  by rewrite H1, H2.
Qed.
Lemma bucket_index_lt e : bucket_index e < BUCKET_SIZE.
Proof. by apply N.mod_lt. Qed.

Lemma sa_write_ok sp e y v :
  sa_wf sp -> sa_get sp e = Some y ->
  ∃ sp', sa_write sp e v = Ok sp' ∧ sa_wf sp' ∧
    ∀ e', sa_get sp' e' = if idx e' =? idx e then Some v else sa_get sp e'.
Proof.
  intros Hwf. unfold sa_get at 1, sa_write.
  destruct (getN sp (bucket e)) as [[b|]|] eqn:Hb; try done. intros Hy. rewrite Hy.
  eexists. split; [done|]. pose proof (getN_Some_lt _ _ _ Hb) as Hlt.
  pose proof (getN_Some_lt _ _ _ Hy) as Hlt'. split.
  - intros c l. rewrite getN_setN. destruct (N.eqb_spec c (bucket e)) as [->|]; cbn.
    + destruct (bucket e <? lenN sp); intros H.
      * injection H as <-. rewrite lenN_setN. by eapply Hwf.
      * by eapply Hwf.
    + apply Hwf.
  - intros e'. unfold sa_get. rewrite getN_setN.
    destruct (N.ltb_spec (bucket e) (lenN sp)); [|lia].
    destruct (N.eqb_spec (bucket e') (bucket e)) as [He|He]; cbn.
    + rewrite getN_setN. destruct (N.ltb_spec (bucket_index e) (lenN b)); [|lia].
      destruct (N.eqb_spec (bucket_index e') (bucket_index e)) as [Hi|Hi]; cbn.
      * rewrite (bucket_inj e' e) by done. by rewrite N.eqb_refl.
      * destruct (N.eqb_spec (idx e') (idx e)) as [Hx|].
        -- exfalso. apply Hi. unfold bucket_index. by rewrite Hx.
        -- by rewrite He, Hb.
    + destruct (N.eqb_spec (idx e') (idx e)) as [Hx|]; [|done].
      exfalso. apply He. unfold bucket. by rewrite Hx.
Qed.

(** Allocation only turns missing slots into dead ones. *)
Definition sa_ext (sp sp' : sparse_array) : Prop :=
  ∀ e, sa_get sp' e = sa_get sp e ∨ (sa_get sp e = None ∧ sa_get sp' e = Some eid_dead).
Lemma sa_ext_refl sp : sa_ext sp sp.
Proof. intros e. by left. Qed.
Lemma sa_ext_trans a b c : sa_ext a b -> sa_ext b c -> sa_ext a c.
Proof.
  intros H1 H2 e. destruct (H1 e) as [E1|[E1 E1']], (H2 e) as [E2|[E2 E2']];
    rewrite ?E1, ?E2 in *; auto; right; split; congruence.
Qed.
Lemma sa_ext_keep sp sp' e x : sa_ext sp sp' -> sa_get sp e = Some x -> sa_get sp' e = Some x.
Proof. intros H Hx. destruct (H e) as [E|[E _]]; congruence. Qed.
Lemma sa_ext_back sp sp' e x :
  sa_ext sp sp' -> sa_get sp' e = Some x -> x = eid_dead ∨ sa_get sp e = Some x.
Proof. intros H Hx. destruct (H e) as [E|[_ E]]; [right|left]; congruence. Qed.

Lemma getN_replicate {A} n (x : A) i : getN (replicate n x) i = if i <? N.of_nat n then Some x else None.
Proof.
  rewrite getN_lookup. destruct (N.ltb_spec i (N.of_nat n)).
  - apply lookup_replicate_2. lia.
  - apply lookup_ge_None. rewrite replicate_length. lia.
Qed.

Lemma sa_resize_get sp n b :
  getN (sa_resize sp n) b =
  if b <? lenN sp then getN sp b else if b <? n then Some None else None.
Proof.
  unfold sa_resize. destruct (N.ltb_spec b (lenN sp)).
  - by apply getN_app_l.
  - rewrite getN_app_r, getN_replicate by done.
    destruct (N.ltb_spec (b - lenN sp) (N.of_nat (N.to_nat (n - lenN sp)))),
             (N.ltb_spec b n); try done; lia.
Qed.
Lemma sa_resize_ok sp n :
  sa_wf sp -> sa_wf (sa_resize sp n) ∧ sa_ext sp (sa_resize sp n) ∧
    (∀ b, b < n -> is_Some (getN (sa_resize sp n) b)) .
Proof.
  intros Hwf. split; [|split].
  - intros b l. rewrite sa_resize_get.
    destruct (b <? lenN sp); [apply Hwf|]. by destruct (b <? n).
  - intros e. left. unfold sa_get. rewrite sa_resize_get.
    destruct (N.ltb_spec (bucket e) (lenN sp)); [done|].
    rewrite (getN_ge sp) by done. by destruct (bucket e <? n).
  - intros b Hb. rewrite sa_resize_get. destruct (N.ltb_spec b (lenN sp)) as [H|H].
    + destruct (getN_lt sp b H) as [x ->]. eauto.
    + destruct (N.ltb_spec b n); [eauto|lia].
Qed.
Lemma sa_fill_ok sp b :
  sa_wf sp -> is_Some (getN sp b) ->
  ∃ sp', sa_fill sp b = Ok sp' ∧ sa_wf sp' ∧ sa_ext sp sp' ∧
    (∀ e, bucket e = b -> is_Some (sa_get sp' e)) ∧
    (∀ c, is_Some (getN sp c) -> is_Some (getN sp' c)).
Proof.
  intros Hwf [o Ho]. unfold sa_fill. rewrite Ho. destruct o as [l|].
  - exists sp. split; [done|]. split; [done|]. split; [apply sa_ext_refl|]. split; [|done].
    intros e <-. unfold sa_get. rewrite Ho.
    destruct (getN_lt l (bucket_index e)) as [x ->]; [|eauto].
    rewrite (Hwf _ _ Ho). apply bucket_index_lt.
  - pose proof (getN_Some_lt _ _ _ Ho) as Hlt.
    assert (∀ c, getN (setN sp b (Some dead_bucket)) c =
                 if c =? b then Some (Some dead_bucket) else getN sp c) as Hg.
    { intros c. rewrite getN_setN. destruct (N.ltb_spec b (lenN sp)); [|lia].
      by destruct (c =? b). }
    eexists. split; [done|]. split; [|split; [|split]].
    + intros c l. rewrite Hg. destruct (c =? b); [|apply Hwf].
      intros E. injection E as <-. reflexivity.
    + intros e. unfold sa_get. rewrite Hg. destruct (N.eqb_spec (bucket e) b) as [He|]; [|by left].
      right. rewrite He, Ho. split; [done|].
      unfold dead_bucket. rewrite getN_replicate, N2Nat.id.
      destruct (N.ltb_spec (bucket_index e) BUCKET_SIZE) as [|H]; [done|].
      pose proof (bucket_index_lt e). lia.
    + intros e <-. unfold sa_get. rewrite Hg, N.eqb_refl.
      unfold dead_bucket. rewrite getN_replicate, N2Nat.id.
      destruct (N.ltb_spec (bucket_index e) BUCKET_SIZE) as [|H]; [eauto|].
      pose proof (bucket_index_lt e). lia.
    + intros c Hc. rewrite Hg. destruct (c =? b); eauto.
Qed.
Lemma sa_allocate_ok sp e :
  sa_wf sp -> gen e < U16_MAX ->
  ∃ sp', sa_allocate_at sp e = Ok sp' ∧ sa_wf sp' ∧ sa_ext sp sp' ∧ is_Some (sa_get sp' e).
Proof.
  intros Hwf Hg. unfold sa_allocate_at.
  assert (eid_is_dead e = false) as ->.
  { unfold eid_is_dead. apply N.eqb_neq. lia. }
  destruct (sa_resize_ok sp (bucket e + 1) Hwf) as (W1 & X1 & L1).
  destruct (sa_fill_ok _ (bucket e) W1 (L1 (bucket e) ltac:(lia))) as (sp' & E & W2 & X2 & S2 & _).
  exists sp'. split; [done|]. split; [done|]. split; [by eapply sa_ext_trans|]. by apply S2.
Qed.

(** * Invariant *)
Section inv.
Context {T : Type}.
Implicit Types (s : sset T) (m : gmap eid (row T)) (a : sspec T).

Record SI s : Prop := {
  si_wf : sa_wf (ss_sparse s);
  si_data : lenN (ss_data s) = lenN (ss_dense s);
  si_ins : lenN (ss_ins s) = if ss_ti s then lenN (ss_dense s) else 0;
  si_mod : lenN (ss_mod s) = if ss_tm s then lenN (ss_dense s) else 0;
  si_dense : ∀ p e, getN (ss_dense s) p = Some e ->
      sa_get (ss_sparse s) e = Some (p, gen e) ∧ handle_ok e;
  si_sparse : ∀ e x, sa_get (ss_sparse s) e = Some x ->
      x = eid_dead ∨ getN (ss_dense s) (idx x) = Some (idx e, gen x);
}.

Record SRows s m : Prop := {
  sr_row : ∀ p e, getN (ss_dense s) p = Some e ->
    ∃ r, m !! e = Some r ∧ getN (ss_data s) p = Some (r_val r) ∧
         (ss_ti s = true -> getN (ss_ins s) p = Some (r_ins r)) ∧
         (ss_tm s = true -> getN (ss_mod s) p = Some (r_mod r));
  sr_dom : ∀ e r, m !! e = Some r -> ∃ p, getN (ss_dense s) p = Some e;
}.

Record SR s a : Prop := {
  sr_inv : SI s;
  sr_rows : SRows s (sp_map a);
  sr_del : ss_del s = sp_del a;
  sr_rem : ss_rem s = sp_rem a;
  sr_ti : ss_ti s = sp_ti a;
  sr_tm : ss_tm s = sp_tm a;
  sr_td : ss_td s = sp_td a;
  sr_tr : ss_tr s = sp_tr a;
  sr_li : ss_last_ins s = sp_last_ins a;
  sr_lm : ss_last_mod s = sp_last_mod a;
}.

Lemma gen_dead e : gen e < U16_MAX -> gen e ≠ gen eid_dead.
Proof. unfold eid_dead. cbn. lia. Qed.

Lemma is_dead_false e : gen e < U16_MAX -> eid_is_dead e = false.
Proof. intros. unfold eid_is_dead. apply N.eqb_neq. lia. Qed.

(** A position determines an id and conversely. *)
Lemma si_inj s p q e e' :
  SI s -> getN (ss_dense s) p = Some e -> getN (ss_dense s) q = Some e' -> idx e = idx e' -> p = q.
Proof.
  intros H He He' Hi. destruct (si_dense s H _ _ He) as [G1 _], (si_dense s H _ _ He') as [G2 _].
  rewrite (sa_get_idx _ _ _ Hi) in G1. congruence.
Qed.

Lemma index_of_spec s e p :
  SI s -> gen e < U16_MAX -> index_of s e = Some p <-> getN (ss_dense s) p = Some e.
Proof.
  intros H Hg. unfold index_of. split.
  - destruct (sa_get (ss_sparse s) e) as [x|] eqn:Hx; [|done].
    destruct (N.eqb_spec (gen e) (gen x)) as [Hgx|]; [|done]. intros [= <-].
    destruct (si_sparse s H _ _ Hx) as [->|Hd].
    + by apply gen_dead in Hg.
    + rewrite <- Hgx in Hd. rewrite Hd. by destruct e.
  - intros Hp. destruct (si_dense s H _ _ Hp) as [-> _]. cbn. by rewrite N.eqb_refl.
Qed.
Lemma index_of_None s m e :
  SI s -> SRows s m -> gen e < U16_MAX -> m !! e = None -> index_of s e = None.
Proof.
  intros H HR Hg Hm. destruct (index_of s e) as [p|] eqn:Hp; [|done].
  apply index_of_spec in Hp; [|done..].
  destruct (sr_row s m HR _ _ Hp) as (r & Hr & _). congruence.
Qed.
Lemma index_of_Some s m e r :
  SI s -> SRows s m -> m !! e = Some r ->
  ∃ p, index_of s e = Some p ∧ getN (ss_dense s) p = Some e ∧
       getN (ss_data s) p = Some (r_val r) ∧
       (ss_ti s = true -> getN (ss_ins s) p = Some (r_ins r)) ∧
       (ss_tm s = true -> getN (ss_mod s) p = Some (r_mod r)) ∧ handle_ok e.
Proof.
  intros H HR Hm. destruct (sr_dom s m HR _ _ Hm) as [p Hp].
  destruct (sr_row s m HR _ _ Hp) as (r' & Hr' & Hrow).
  assert (r' = r) as -> by congruence.
  destruct (si_dense s H _ _ Hp) as [_ Hok].
  exists p. split; [by apply index_of_spec; [|apply Hok|]|]. tauto.
Qed.

(** Reading through the refinement. *)
Lemma ss_get_SR s a e : SR s a -> gen e < U16_MAX -> ss_get s e = Ok (r_val <$> sp_map a !! e).
Proof.
  intros [HI HR _ _ _ _ _ _ _ _] Hg. unfold ss_get.
  destruct (sp_map a !! e) as [r|] eqn:Hm.
  - destruct (index_of_Some s _ e r HI HR Hm) as (p & -> & _ & Hv & _).
    unfold get_unchecked. by rewrite Hv.
  - by rewrite (index_of_None s _ e HI HR Hg Hm).
Qed.
Lemma is_inserted_SR s a e l c :
  SR s a -> gen e < U16_MAX -> sp_ti a = true ->
  is_inserted s e l c = Ok (match sp_map a !! e with
                            | Some r => is_within (r_ins r) l c | None => false end).
Proof.
  intros [HI HR _ _ Hti _ _ _ _ _] Hg Ht. unfold is_inserted.
  destruct (sp_map a !! e) as [r|] eqn:Hm.
  - destruct (index_of_Some s _ e r HI HR Hm) as (p & -> & _ & _ & Hv & _).
    unfold get_index. rewrite Hv by congruence. done.
  - by rewrite (index_of_None s _ e HI HR Hg Hm).
Qed.
Lemma is_modified_SR s a e l c :
  SR s a -> gen e < U16_MAX -> sp_tm a = true ->
  is_modified s e l c = Ok (match sp_map a !! e with
                            | Some r => is_within (r_mod r) l c | None => false end).
Proof.
  intros [HI HR _ _ _ Htm _ _ _ _] Hg Ht. unfold is_modified.
  destruct (sp_map a !! e) as [r|] eqn:Hm.
  - destruct (index_of_Some s _ e r HI HR Hm) as (p & -> & _ & _ & _ & Hv & _).
    unfold get_index. rewrite Hv by congruence. done.
  - by rewrite (index_of_None s _ e HI HR Hg Hm).
Qed.
Lemma ss_contains_SR s a e :
  SR s a -> gen e < U16_MAX -> ss_contains s e = bool_decide (is_Some (sp_map a !! e)).
Proof.
  intros [HI HR _ _ _ _ _ _ _ _] Hg.
  assert (ss_contains s e = match index_of s e with Some _ => true | None => false end) as ->.
  { unfold ss_contains, index_of. destruct (sa_get _ e); [|done].
    rewrite N.eqb_sym. by destruct (_ =? _). }
  destruct (sp_map a !! e) as [r|] eqn:Hm.
  - destruct (index_of_Some s _ e r HI HR Hm) as (p & -> & _). done.
  - by rewrite (index_of_None s _ e HI HR Hg Hm).
Qed.

Lemma ss_new_SR ti tm td tr : SR (ss_new ti tm td tr) (sp_init ti tm td tr).
Proof.
  split; try done.
  - split; cbn; try done.
    + intros b l. by rewrite getN_nil.
    + by destruct ti.
    + by destruct tm.
    + intros p e. by rewrite getN_nil.
    + intros e x. unfold sa_get. by rewrite getN_nil.
  - split; cbn.
    + intros p e. by rewrite getN_nil.
    + intros e r. by rewrite lookup_empty.
Qed.

(** The dense array is never full when an index is free. *)
Lemma pigeon (l : list N) n : NoDup l -> Forall (λ x, x < n) l -> lenN l <= n.
Proof.
  intros Hnd Hf. unfold lenN.
  assert (length l <= length (N.of_nat <$> seq 0 (N.to_nat n)))%nat as H.
  { apply submseteq_length, NoDup_submseteq; [done|].
    intros x Hx. rewrite Forall_forall in Hf. specialize (Hf x Hx).
    apply elem_of_list_fmap. exists (N.to_nat x). split; [lia|]. apply elem_of_seq. lia. }
  rewrite fmap_length, seq_length in H. lia.
Qed.
Lemma dense_not_full s e :
  SI s -> handle_ok e -> (∀ p e', getN (ss_dense s) p = Some e' -> idx e' ≠ idx e) ->
  lenN (ss_dense s) < INDEX_MASK.
Proof.
  intros H Hok Hfree.
  assert (lenN (idx e :: (idx <$> ss_dense s)) <= INDEX_MASK) as HL.
  { apply pigeon.
    - constructor.
      + intros (e' & He & Hin)%elem_of_list_fmap. apply getN_elem in Hin as [p Hp].
        by apply (Hfree p e').
      + apply NoDup_getN. intros i j x.
        rewrite !getN_lookup, !list_lookup_fmap. rewrite <- !getN_lookup.
        destruct (getN (ss_dense s) i) as [e1|] eqn:H1; [|done].
        destruct (getN (ss_dense s) j) as [e2|] eqn:H2; [|done]. cbn.
        intros [= <-] [= Hij]. symmetry in Hij. by eapply si_inj.
    - constructor; [apply Hok|]. apply Forall_forall. intros x (e' & -> & Hin)%elem_of_list_fmap.
      apply getN_elem in Hin as [p Hp]. apply (si_dense s H _ _ Hp). }
  rewrite lenN_cons in HL. unfold lenN in *. rewrite fmap_length in HL. lia.
Qed.

Lemma copy_idx_gen_same e : handle_ok e -> copy_idx_gen e e = e.
Proof.
  intros [H1 H2]. unfold copy_idx_gen. rewrite !N.lor_diag.
  destruct e as [i g]. cbn in *. f_equal. lia.
Qed.

(** ** Generic preservation lemmas *)

(** The invariants only read the rows, the sparse array and the two flags. *)
Lemma SI_same s s' :
  SI s -> ss_sparse s' = ss_sparse s -> ss_dense s' = ss_dense s ->
  lenN (ss_data s') = lenN (ss_data s) -> lenN (ss_ins s') = lenN (ss_ins s) ->
  lenN (ss_mod s') = lenN (ss_mod s) -> ss_ti s' = ss_ti s -> ss_tm s' = ss_tm s -> SI s'.
Proof.
  intros [H1 H2 H3 H4 H5 H6] E1 E2 E3 E4 E5 E6 E7.
  split; rewrite ?E1, ?E2, ?E3, ?E4, ?E5, ?E6, ?E7; done.
Qed.
Lemma SI_ext s s' :
  SI s -> sa_wf (ss_sparse s') -> sa_ext (ss_sparse s) (ss_sparse s') ->
  ss_dense s' = ss_dense s ->
  lenN (ss_data s') = lenN (ss_data s) -> lenN (ss_ins s') = lenN (ss_ins s) ->
  lenN (ss_mod s') = lenN (ss_mod s) -> ss_ti s' = ss_ti s -> ss_tm s' = ss_tm s -> SI s'.
Proof.
  intros [H1 H2 H3 H4 H5 H6] W X E2 E3 E4 E5 E6 E7.
  split; rewrite ?E2, ?E3, ?E4, ?E5, ?E6, ?E7; try done.
  - intros p e He. destruct (H5 p e He) as [G O]. split; [|done]. by eapply sa_ext_keep.
  - intros e x Hx. destruct (sa_ext_back _ _ _ _ X Hx) as [->|G]; [by left|]. by apply H6.
Qed.
Lemma SRows_same s s' m :
  SRows s m -> ss_dense s' = ss_dense s -> ss_data s' = ss_data s -> ss_ins s' = ss_ins s ->
  ss_mod s' = ss_mod s -> ss_ti s' = ss_ti s -> ss_tm s' = ss_tm s -> SRows s' m.
Proof.
  intros [H1 H2] E1 E2 E3 E4 E5 E6. split; rewrite ?E1, ?E2, ?E3, ?E4, ?E5, ?E6; done.
Qed.
(** Changing the row at one position. *)
Lemma SRows_update s s' m p e r :
  SI s -> SRows s m -> getN (ss_dense s) p = Some e ->
  ss_dense s' = ss_dense s -> ss_data s' = setN (ss_data s) p (r_val r) ->
  ss_ti s' = ss_ti s -> ss_tm s' = ss_tm s ->
  (ss_ti s = true -> ∀ q, getN (ss_ins s') q = if q =? p then Some (r_ins r) else getN (ss_ins s) q) ->
  (ss_tm s = true -> ∀ q, getN (ss_mod s') q = if q =? p then Some (r_mod r) else getN (ss_mod s) q) ->
  SRows s' (<[e := r]> m).
Proof.
  intros HI [H1 H2] Hp E1 E2 E5 E6 Hi Hm. split; rewrite E1, ?E2, ?E5, ?E6.
  - intros q e' Hq. destruct (decide (q = p)) as [->|Hqp].
    + assert (e' = e) as -> by congruence. exists r. rewrite lookup_insert. split; [done|].
      split.
      { rewrite getN_setN_eq; [done|]. rewrite (si_data s HI). by eapply getN_Some_lt. }
      split; intros Ht; [rewrite Hi by done|rewrite Hm by done]; by rewrite N.eqb_refl.
    + assert (e' ≠ e) as Hne.
      { intros ->. apply Hqp. by eapply si_inj. }
      destruct (H1 q e' Hq) as (r' & Hr' & Hv & Hti & Htm). exists r'.
      rewrite lookup_insert_ne by done. split; [done|].
      rewrite getN_setN_ne by done. split; [done|].
      split; intros Ht; [rewrite Hi by done|rewrite Hm by done];
        (destruct (N.eqb_spec q p); [done|auto]).
  - intros e' r'. destruct (decide (e' = e)) as [->|Hne]; [by exists p|].
    rewrite lookup_insert_ne by done. apply H2.
Qed.

Lemma si_ins_some s p e :
  SI s -> ss_ti s = true -> getN (ss_dense s) p = Some e -> p < lenN (ss_ins s).
Proof. intros H Ht Hp. rewrite (si_ins s H), Ht. by eapply getN_Some_lt. Qed.
Lemma si_mod_some s p e :
  SI s -> ss_tm s = true -> getN (ss_dense s) p = Some e -> p < lenN (ss_mod s).
Proof. intros H Ht Hp. rewrite (si_mod s H), Ht. by eapply getN_Some_lt. Qed.
Lemma si_data_some s p e :
  SI s -> getN (ss_dense s) p = Some e -> p < lenN (ss_data s).
Proof. intros H Hp. rewrite (si_data s H). by eapply getN_Some_lt. Qed.

(** Marking a position in the modification vector when it is tracked. *)
Lemma mark_mod s p e t :
  SI s -> getN (ss_dense s) p = Some e ->
  ∃ mm, (if ss_tm s then set_unchecked (ss_mod s) p t else Ok (ss_mod s)) = Ok mm ∧
        (if ss_tm s then set_index_panic (ss_mod s) p t else Ok (ss_mod s)) = Ok mm ∧
        lenN mm = lenN (ss_mod s) ∧
        (ss_tm s = true -> ∀ q, getN mm q = if q =? p then Some t else getN (ss_mod s) q).
Proof.
  intros HI Hp. destruct (ss_tm s) eqn:Ht; [|eauto 6; exists (ss_mod s); done].
  pose proof (si_mod_some s p e HI Ht Hp) as Hlt. unfold set_unchecked, set_index_panic.
  destruct (N.ltb_spec p (lenN (ss_mod s))); [|lia].
  eexists. split; [done|]. split; [done|]. split; [by rewrite lenN_setN|].
  intros _ q. rewrite getN_setN. destruct (N.ltb_spec p (lenN (ss_mod s))); [|lia].
  by destruct (q =? p).
Qed.

(** ** insert *)
Lemma free_dense s m e :
  SRows s m -> index_free m e -> ∀ p e', getN (ss_dense s) p = Some e' -> idx e' ≠ idx e.
Proof.
  intros HR Hf p e' Hp Hi. destruct (sr_row s m HR _ _ Hp) as (r & Hr & _).
  rewrite (Hf e' Hi) in Hr. done.
Qed.

Lemma ss_insert_SR s a e v t :
  SR s a -> handle_ok e -> no_older (sp_map a) e ->
  ∃ s' r a', ss_insert s e v t = Ok (s', r) ∧ sp_step a (OInsert e v t) a' (EInsert r) ∧ SR s' a'.
Proof.
  intros [HI HR Hdel Hrem Hti Htm Htd Htr Hli Hlm] Hok Hno. unfold ss_insert.
  destruct (sa_allocate_ok (ss_sparse s) e (si_wf s HI) (proj2 Hok)) as (sp & -> & W & X & [slot Hs]).
  cbn [rbind]. unfold sa_get_unchecked. rewrite Hs. cbn [rbind].
  destruct (eid_is_dead slot) eqn:Hdead.
  - (* new *)
    assert (index_free (sp_map a) e) as Hfree.
    { intros e' Hi. destruct (sp_map a !! e') as [r|] eqn:Hm; [|done]. exfalso.
      destruct (sr_dom s _ HR _ _ Hm) as [p Hp]. destruct (si_dense s HI _ _ Hp) as [G O].
      apply (sa_ext_keep _ sp) in G; [|done]. rewrite (sa_get_idx _ e' e Hi), Hs in G.
      injection G as ->. rewrite is_dead_false in Hdead; [done|apply O]. }
    pose proof (free_dense s _ e HR Hfree) as Hfd.
    pose proof (dense_not_full s e HI Hok Hfd) as Hfull.
    destruct (N.ltb_spec (lenN (ss_dense s)) INDEX_MASK) as [_|]; [|lia].
    destruct (sa_write_ok sp e slot (lenN (ss_dense s), gen e) W Hs) as (sp' & -> & W' & G').
    cbn [rbind]. eexists _, _, _. split; [done|]. split; [by apply SpInsertNew|].
    assert (∀ p e', getN (ss_dense s ++ [e]) p = Some e' ->
              (p = lenN (ss_dense s) ∧ e' = e) ∨ (p < lenN (ss_dense s) ∧ getN (ss_dense s) p = Some e')) as Happ.
    { intros p e' Hp. destruct (N.lt_ge_cases p (lenN (ss_dense s))) as [Hlt|Hge].
      - rewrite getN_app_l in Hp by done. by right.
      - pose proof (getN_Some_lt _ _ _ Hp) as Hlt. rewrite lenN_app in Hlt. cbn in Hlt.
        assert (p = lenN (ss_dense s)) as -> by lia.
        rewrite getN_app_r, N.sub_diag in Hp by lia. cbn in Hp. left. split; congruence. }
    split; cbn; try done.
    + split; cbn; try done.
      * rewrite !lenN_app, (si_data s HI). done.
      * rewrite lenN_app. pose proof (si_ins s HI) as E. destruct (ss_ti s); rewrite ?lenN_app, E; done.
      * rewrite lenN_app. pose proof (si_mod s HI) as E. destruct (ss_tm s); rewrite ?lenN_app, E; done.
      * intros p e' Hp. rewrite G'. destruct (Happ p e' Hp) as [[-> ->]|[Hlt Hp']].
        -- rewrite N.eqb_refl. done.
        -- destruct (si_dense s HI _ _ Hp') as [G O]. split; [|done].
           destruct (N.eqb_spec (idx e') (idx e)) as [Hi|]; [by apply Hfd in Hp'|].
           by eapply sa_ext_keep.
      * intros e' x. rewrite G'. destruct (N.eqb_spec (idx e') (idx e)) as [Hi|Hi].
        -- intros [= <-]. right. cbn. rewrite getN_app_r, N.sub_diag by lia. cbn.
           rewrite Hi. by destruct e.
        -- intros Hx. destruct (sa_ext_back _ _ _ _ X Hx) as [->|Hx']; [by left|].
           destruct (si_sparse s HI _ _ Hx') as [->|Hd]; [by left|]. right.
           rewrite getN_app_l; [done|]. by eapply getN_Some_lt.
    + split; cbn.
      * intros p e' Hp. destruct (Happ p e' Hp) as [[-> ->]|[Hlt Hp']].
        -- exists (Row v t 0). rewrite lookup_insert. cbn. split; [done|].
           split; [by rewrite <- (si_data s HI), getN_app_r, N.sub_diag by lia|].
           pose proof (si_ins s HI) as E1. pose proof (si_mod s HI) as E2.
           split; intros Ht; rewrite Ht in *.
           ++ by rewrite <- E1, getN_app_r, N.sub_diag by lia.
           ++ by rewrite <- E2, getN_app_r, N.sub_diag by lia.
        -- destruct (sr_row s _ HR _ _ Hp') as (r & Hr & Hv & Hi & Hmm). exists r.
           rewrite lookup_insert_ne by (intros <-; rewrite (Hfree e) in Hr; done).
           split; [done|].
           split; [by rewrite getN_app_l by (rewrite (si_data s HI); lia)|].
           pose proof (si_ins s HI) as E1. pose proof (si_mod s HI) as E2.
           split; intros Ht; rewrite Ht in *;
             rewrite getN_app_l by (rewrite ?E1, ?E2; lia); auto.
      * intros e' r'. destruct (decide (e' = e)) as [->|Hne].
        -- intros _. exists (lenN (ss_dense s)). by rewrite getN_app_r, N.sub_diag by lia.
        -- rewrite lookup_insert_ne by done. intros Hm.
           destruct (sr_dom s _ HR _ _ Hm) as [p Hp]. exists p.
           rewrite getN_app_l; [done|]. by eapply getN_Some_lt.
  - assert (sa_get (ss_sparse s) e = Some slot) as Hs'.
    { destruct (sa_ext_back _ _ _ _ X Hs) as [->|]; [done|done]. }
    destruct (si_sparse s HI _ _ Hs') as [->|Hd]; [done|].
    destruct (sr_row s _ HR _ _ Hd) as (r & Hr & Hv & Hi & Hm).
    destruct (N.eqb_spec (gen e) (gen slot)) as [Hg|Hg].
    + (* same handle *)
      assert ((idx e, gen slot) = e) as He by (rewrite <- Hg; by destruct e).
      rewrite He in *. unfold get_unchecked. rewrite Hv, Hd. cbn [rbind].
      destruct (sa_write_ok sp e slot (copy_gn slot e) W Hs) as (sp' & -> & W' & G').
      cbn [rbind].
      destruct (mark_mod s (idx slot) e t HI Hd) as (mm & -> & _ & Hlm' & Hmm). cbn [rbind].
      rewrite copy_idx_gen_same by done.
      assert (setN (ss_dense s) (idx slot) e = ss_dense s) as ->.
      { apply getN_ext. intros q. rewrite getN_setN.
        destruct (N.eqb_spec q (idx slot)) as [->|]; cbn; [|done].
        destruct (_ <? _); congruence. }
      assert (copy_gn slot e = slot) as Hcg by (unfold copy_gn; rewrite Hg; by destruct slot).
      eexists _, _, _. split; [done|]. split; [by apply SpInsertSame|].
      split; cbn; try done.
      * eapply SI_ext; [exact HI|..]; cbn; try done.
        -- eapply sa_ext_trans; [exact X|]. intros e'. left. rewrite G', Hcg.
           destruct (N.eqb_spec (idx e') (idx e)) as [Hx|]; [|done].
           by rewrite (sa_get_idx _ _ _ Hx).
        -- by rewrite lenN_setN.
      * eapply SRows_update; [exact HI|exact HR|exact Hd|..]; cbn; try done.
        -- intros Ht q. destruct (N.eqb_spec q (idx slot)) as [->|]; [auto|done].
    + destruct (N.ltb_spec (gen slot) (gen e)) as [Hlt|Hge].
      { rewrite (Hno (idx e, gen slot)) in Hr by done. done. }
      eexists _, _, _. split; [done|].
      split; [eapply SpInsertRefused with (e' := (idx e, gen slot)); cbn; [done|lia|by eexists]|].
      split; cbn; try done.
      * by eapply SI_ext.
      * by eapply SRows_same.
Qed.

(** ** Removal *)
(** What [actual_remove] does when index and position of a component are known. *)
Lemma actual_remove_at s a e p e0 r :
  SR s a -> idx e0 = idx e -> gen e0 <= gen e -> getN (ss_dense s) p = Some e0 ->
  sp_map a !! e0 = Some r ->
  ∃ s', actual_remove s e =
        Ok (s', if gen e =? gen e0 then Some (r_val r) else None) ∧
    SR s' (upd_map a (delete e0 (sp_map a))).
Proof.
  intros [HI HR Hdel Hrem Hti Htm Htd Htr Hli Hlm] Hi Hg Hp Hr.
  destruct (si_dense s HI _ _ Hp) as [Hsp Hok].
  unfold actual_remove. rewrite (sa_get_idx _ e e0), Hsp by done. cbn [idx gen fst snd].
  destruct (N.leb_spec (gen e0) (gen e)) as [_|]; [|lia].
  destruct (sa_write_ok (ss_sparse s) e (p, gen e0) eid_dead (si_wf s HI))
    as (sp1 & -> & W1 & G1); [by rewrite (sa_get_idx _ e e0)|].
  cbn [rbind].
  destruct (swap_remove_ok _ _ _ Hp) as (dn & -> & Ldn & Lpos & Gdn). cbn [rbind].
  pose proof (getN_Some_lt _ _ _ Hp) as Hlt.
  destruct (sr_row s _ HR _ _ Hp) as (r' & Hr' & Hv & Hii & Hmm).
  assert (r' = r) as -> by congruence.
  assert (∃ im, (if ss_ti s then rmap snd (swap_remove (ss_ins s) p) else Ok (ss_ins s)) = Ok im ∧
      lenN im = (if ss_ti s then lenN dn else 0) ∧
      (ss_ti s = true -> ∀ j, getN im j = if j <? lenN (ss_dense s) - 1 then
          (if j =? p then getN (ss_ins s) (lenN (ss_dense s) - 1) else getN (ss_ins s) j) else None))
    as (im & -> & Lim & Gim).
  { pose proof (si_ins s HI) as E. destruct (ss_ti s).
    - destruct (swap_remove_ok _ _ _ (Hii eq_refl)) as (im & -> & L & _ & G). exists im.
      split; [done|]. split; [rewrite L, E, Ldn; done|]. intros _. by rewrite <- E.
    - by exists (ss_ins s). }
  cbn [rbind].
  assert (∃ mm, (if ss_tm s then rmap snd (swap_remove (ss_mod s) p) else Ok (ss_mod s)) = Ok mm ∧
      lenN mm = (if ss_tm s then lenN dn else 0) ∧
      (ss_tm s = true -> ∀ j, getN mm j = if j <? lenN (ss_dense s) - 1 then
          (if j =? p then getN (ss_mod s) (lenN (ss_dense s) - 1) else getN (ss_mod s) j) else None))
    as (mm & -> & Lmm & Gmm).
  { pose proof (si_mod s HI) as E. destruct (ss_tm s).
    - destruct (swap_remove_ok _ _ _ (Hmm eq_refl)) as (mm & -> & L & _ & G). exists mm.
      split; [done|]. split; [rewrite L, E, Ldn; done|]. intros _. by rewrite <- E.
    - by exists (ss_mod s). }
  cbn [rbind].
  destruct (swap_remove_ok _ _ _ Hv) as (dt & -> & Ldt & _ & Gdt). cbn [rbind].
  rewrite (si_data s HI) in Ldt, Gdt.
  destruct (getN_lt (ss_dense s) (lenN (ss_dense s) - 1)) as [el Hel]; [lia|].
  destruct (si_dense s HI _ _ Hel) as [Hspl Hokl].
  assert (∃ sp2, (if p <? lenN dn then
            rlet last := get_unchecked dn p in
            rlet ls := sa_get_unchecked sp1 last in sa_write sp1 last (copy_idx ls (p, gen e0))
          else Ok sp1) = Ok sp2 ∧ sa_wf sp2 ∧
        ∀ e', sa_get sp2 e' =
              if idx e' =? idx e0 then Some eid_dead
              else if idx e' =? idx el then Some (p, gen el) else sa_get (ss_sparse s) e')
    as (sp2 & E2 & W2 & G2).
  { destruct (N.ltb_spec p (lenN dn)) as [Hpl|Hpl].
    - unfold get_unchecked. rewrite Gdn, <- Ldn, N.eqb_refl.
      destruct (N.ltb_spec p (lenN dn)); [|lia]. rewrite Ldn, Hel. cbn [rbind].
      assert (idx el ≠ idx e0) as Hne.
      { intros Heq. assert (lenN (ss_dense s) - 1 = p) by (by eapply si_inj). lia. }
      unfold sa_get_unchecked. rewrite G1.
      destruct (N.eqb_spec (idx el) (idx e)) as [|_]; [congruence|]. rewrite Hspl. cbn [rbind].
      destruct (sa_write_ok sp1 el (lenN (ss_dense s) - 1, gen el)
                  (copy_idx (lenN (ss_dense s) - 1, gen el) (p, gen e0)) W1) as (sp2 & -> & W2 & G2).
      { rewrite G1. destruct (N.eqb_spec (idx el) (idx e)) as [|_]; [congruence|]. done. }
      exists sp2. split; [done|]. split; [done|]. intros e'. rewrite G2, G1. rewrite <- Hi.
      destruct (N.eqb_spec (idx e') (idx el)), (N.eqb_spec (idx e') (idx e0)); try done. congruence.
    - exists sp1. split; [done|]. split; [done|]. intros e'. rewrite G1, <- Hi.
      assert (p = lenN (ss_dense s) - 1) as -> by lia.
      assert (el = e0) as -> by congruence.
      by destruct (idx e' =? idx e0). }
  rewrite E2. cbn [rbind].
  assert (∀ q e', getN dn q = Some e' ->
     (q = p ∧ e' = el ∧ p < lenN (ss_dense s) - 1 ∧ idx el ≠ idx e0) ∨
     (q ≠ p ∧ getN (ss_dense s) q = Some e' ∧ q < lenN (ss_dense s) - 1 ∧ idx e' ≠ idx e0)) as Hdn.
  { intros q e' Hq. rewrite Gdn in Hq.
    destruct (N.ltb_spec q (lenN (ss_dense s) - 1)) as [Hql|]; [|done].
    destruct (N.eqb_spec q p) as [->|Hqp].
    - left. split; [done|]. split; [congruence|]. split; [done|]. intros Heq.
      pose proof (si_inj s _ _ el e0 HI Hel Hp Heq). lia.
    - right. split; [done|]. split; [done|]. split; [done|]. intros Heq. apply Hqp.
      exact (si_inj s _ _ e' e0 HI Hq Hp Heq). }
  set (s1 := with_rows s sp2 dn dt im mm).
  assert (SR s1 (upd_map a (delete e0 (sp_map a)))) as HSR.
  { subst s1. split; cbn; try done.
    - split; cbn; try done.
      + by rewrite Ldt, Ldn.
      + intros q e' Hq. rewrite G2. destruct (Hdn q e' Hq) as [(-> & -> & _ & Hne)|(Hqp & Hq' & Hql & Hne)].
        * split; [|done]. destruct (N.eqb_spec (idx el) (idx e0)); [done|].
          by rewrite N.eqb_refl.
        * destruct (si_dense s HI _ _ Hq') as [G O]. split; [|done].
          destruct (N.eqb_spec (idx e') (idx e0)); [done|].
          destruct (N.eqb_spec (idx e') (idx el)) as [Heq|]; [|done].
          assert (q = lenN (ss_dense s) - 1) by (by eapply si_inj). lia.
      + intros e' x. rewrite G2. destruct (N.eqb_spec (idx e') (idx e0)) as [|Hn0]; [by intros [= <-]; left|].
        destruct (N.eqb_spec (idx e') (idx el)) as [Heq|Hnl].
        * intros [= <-]. right. cbn. rewrite Gdn.
          assert (p ≠ lenN (ss_dense s) - 1) as Hpn.
          { intros ->. assert (el = e0) by congruence. congruence. }
          destruct (N.ltb_spec p (lenN (ss_dense s) - 1)); [|lia].
          rewrite N.eqb_refl, Hel, Heq. by destruct el.
        * intros Hx. destruct (si_sparse s HI _ _ Hx) as [->|Hd]; [by left|]. right.
          rewrite Gdn. pose proof (getN_Some_lt _ _ _ Hd) as Hxl.
          assert (idx x ≠ lenN (ss_dense s) - 1) as Hx1.
          { intros E. rewrite E, Hel in Hd. injection Hd as ->. done. }
          assert (idx x ≠ p) as Hx2.
          { intros E. rewrite E, Hp in Hd. injection Hd as ->. done. }
          destruct (N.ltb_spec (idx x) (lenN (ss_dense s) - 1)); [|lia].
          destruct (N.eqb_spec (idx x) p); done.
    - split; cbn.
      + intros q e' Hq.
        assert (e' ≠ e0) as Hne.
        { destruct (Hdn q e' Hq) as [(_ & -> & _ & Hn)|(_ & _ & _ & Hn)]; congruence. }
        assert (∃ k, getN (ss_dense s) k = Some e' ∧ getN dt q = getN (ss_data s) k ∧
                  (ss_ti s = true -> getN im q = getN (ss_ins s) k) ∧
                  (ss_tm s = true -> getN mm q = getN (ss_mod s) k)) as (k & Hk & Ek1 & Ek2 & Ek3).
        { destruct (Hdn q e' Hq) as [(-> & -> & Hl & _)|(Hqp & Hq' & Hl & _)].
          - exists (lenN (ss_dense s) - 1). rewrite Gdt.
            destruct (N.ltb_spec p (lenN (ss_dense s) - 1)); [|lia]. rewrite N.eqb_refl.
            split; [done|]. split; [done|].
            split; intros Ht; [rewrite Gim|rewrite Gmm]; try done;
              destruct (N.ltb_spec p (lenN (ss_dense s) - 1)); try lia; by rewrite N.eqb_refl.
          - exists q. rewrite Gdt.
            destruct (N.ltb_spec q (lenN (ss_dense s) - 1)); [|lia].
            destruct (N.eqb_spec q p); [done|].
            split; [done|]. split; [done|].
            split; intros Ht; [rewrite Gim|rewrite Gmm]; try done;
              destruct (N.ltb_spec q (lenN (ss_dense s) - 1)); try lia;
              destruct (N.eqb_spec q p); done. }
        destruct (sr_row s _ HR _ _ Hk) as (r2 & Hr2 & Hv2 & Hi2 & Hm2).
        exists r2. rewrite lookup_delete_ne by done. rewrite Ek1. split; [done|]. split; [done|].
        split; intros Ht; [rewrite Ek2|rewrite Ek3]; auto.
      + intros e' r2. destruct (decide (e' = e0)) as [->|Hne]; [by rewrite lookup_delete|].
        rewrite lookup_delete_ne by done. intros Hm.
        destruct (sr_dom s _ HR _ _ Hm) as [k Hk].
        pose proof (getN_Some_lt _ _ _ Hk) as Hkl.
        assert (k ≠ p) as Hkp by (intros ->; congruence).
        destruct (decide (k = lenN (ss_dense s) - 1)) as [->|Hkn].
        * exists p. rewrite Gdn. destruct (N.ltb_spec p (lenN (ss_dense s) - 1)); [|lia].
          rewrite N.eqb_refl. done.
        * exists k. rewrite Gdn. destruct (N.ltb_spec k (lenN (ss_dense s) - 1)); [|lia].
          destruct (N.eqb_spec k p); done. }
  destruct (N.eqb_spec (gen e) (gen e0)).
  - eexists. split; [done|]. destruct HSR as [X1 X2 X3 X4 X5 X6 X7 X8 X9 X10].
    split; cbn in *; try done; [by eapply SI_same|by eapply SRows_same].
  - eexists. split; [done|]. done.
Qed.
Lemma actual_remove_none s a e :
  SR s a -> gen e < U16_MAX -> (∀ e', idx e' = idx e -> gen e' <= gen e -> sp_map a !! e' = None) ->
  actual_remove s e = Ok (s, None).
Proof.
  intros [HI HR _ _ _ _ _ _ _ _] Hg Hn. unfold actual_remove.
  destruct (sa_get (ss_sparse s) e) as [slot|] eqn:Hs; [|done].
  destruct (N.leb_spec (gen slot) (gen e)) as [Hle|]; [|done].
  destruct (si_sparse s HI _ _ Hs) as [->|Hd]; [change (gen eid_dead) with U16_MAX in Hle; lia|].
  destruct (sr_row s _ HR _ _ Hd) as (r & Hr & _).
  by rewrite (Hn (idx e, gen slot)) in Hr.
Qed.

(** A handle either owns its component, or a stale one is there, or nothing is in its way. *)
Lemma handle_cases m e :
  (∃ r, m !! e = Some r) ∨
  (m !! e = None ∧ ∃ e', idx e' = idx e ∧ gen e' < gen e ∧ is_Some (m !! e')) ∨
  (m !! e = None ∧ no_older m e).
Proof.
  destruct (m !! e) as [r|] eqn:Hm; [left; by eexists|right].
  destruct (decide (set_Exists (λ e', idx e' = idx e ∧ gen e' < gen e) (dom m))) as [(e' & Hin & H)|Hn].
  - left. split; [done|]. exists e'. apply elem_of_dom in Hin. tauto.
  - right. split; [done|]. intros e' Hi Hlt. destruct (m !! e') as [r|] eqn:E; [|done].
    exfalso. apply Hn. exists e'. split; [apply elem_of_dom; by eexists|done].
Qed.
Lemma none_below m e :
  m !! e = None -> no_older m e -> ∀ e', idx e' = idx e -> gen e' <= gen e -> m !! e' = None.
Proof.
  intros H1 H2 e' Hi Hg. destruct (decide (gen e' = gen e)).
  - assert (e' = e) as -> by (destruct e', e; cbn in *; congruence). done.
  - apply H2; [done|lia].
Qed.

Lemma SR_logs s a m dl rl :
  SR s (upd_map a m) ->
  SR (with_logs s dl rl) (upd a m dl rl).
Proof.
  intros [X1 X2 X3 X4 X5 X6 X7 X8 X9 X10]. split; cbn in *; try done.
  - by eapply SI_same.
  - by eapply SRows_same.
Qed.

Lemma dyn_remove_SR s a e t :
  SR s a -> gen e < U16_MAX ->
  ∃ s' r a', dyn_remove s e t = Ok (s', r) ∧ sp_step a (ORemove e t) a' (ERemove r) ∧ SR s' a'.
Proof.
  intros HSR Hg. unfold dyn_remove.
  destruct (handle_cases (sp_map a) e) as [[r Hr]|[(Hn & e' & Hi & Hlt & [r Hr])|[Hn Hno]]].
  - destruct (sr_dom s _ (sr_rows s a HSR) _ _ Hr) as [p Hp].
    destruct (actual_remove_at s a e p e r HSR) as (s' & -> & HSR'); try done.
    rewrite N.eqb_refl. cbn [rbind].
    eexists _, _, _. split; [done|]. split; [by apply SpRemove|].
    pose proof (sr_tr _ _ HSR') as E. cbn in E. rewrite E.
    pose proof (sr_rem _ _ HSR') as E2. pose proof (sr_del _ _ HSR') as E3. cbn in E2, E3.
    destruct (sp_tr a).
    + rewrite E2, E3. by apply SR_logs.
    + destruct HSR'. by split.
  - destruct (sr_dom s _ (sr_rows s a HSR) _ _ Hr) as [p Hp].
    destruct (actual_remove_at s a e p e' r HSR) as (s' & -> & HSR'); try done; [lia|].
    destruct (N.eqb_spec (gen e) (gen e')); [lia|]. cbn [rbind].
    eexists _, _, _. split; [done|]. split; [by eapply SpRemoveStale|done].
  - rewrite (actual_remove_none s a e HSR Hg (none_below _ _ Hn Hno)). cbn [rbind].
    eexists _, _, _. split; [done|]. split; [by apply SpRemoveNone|done].
Qed.
Lemma dyn_delete_SR s a e t :
  SR s a -> gen e < U16_MAX ->
  ∃ s' r a', dyn_delete s e t = Ok (s', r) ∧ sp_step a (ODelete e t) a' (EDelete r) ∧ SR s' a'.
Proof.
  intros HSR Hg. unfold dyn_delete.
  destruct (handle_cases (sp_map a) e) as [[r Hr]|[(Hn & e' & Hi & Hlt & [r Hr])|[Hn Hno]]].
  - destruct (sr_dom s _ (sr_rows s a HSR) _ _ Hr) as [p Hp].
    destruct (actual_remove_at s a e p e r HSR) as (s' & -> & HSR'); try done.
    rewrite N.eqb_refl. cbn [rbind].
    eexists _, _, _. split; [done|]. split; [by apply SpDelete|].
    pose proof (sr_td _ _ HSR') as E. cbn in E. rewrite E.
    pose proof (sr_rem _ _ HSR') as E2. pose proof (sr_del _ _ HSR') as E3. cbn in E2, E3.
    destruct (sp_td a).
    + rewrite E2, E3. by apply SR_logs.
    + destruct HSR'. by split.
  - destruct (sr_dom s _ (sr_rows s a HSR) _ _ Hr) as [p Hp].
    destruct (actual_remove_at s a e p e' r HSR) as (s' & -> & HSR'); try done; [lia|].
    destruct (N.eqb_spec (gen e) (gen e')); [lia|]. cbn [rbind].
    eexists _, _, _. split; [done|]. split; [by eapply SpDeleteStale|done].
  - rewrite (actual_remove_none s a e HSR Hg (none_below _ _ Hn Hno)). cbn [rbind].
    eexists _, _, _. split; [done|]. split; [by apply SpDeleteNone|done].
Qed.

(** ** In-place writes *)
Lemma ss_write_SR s a e f t :
  SR s a -> gen e < U16_MAX ->
  ∃ s' r a', ss_write s e f t = Ok (s', r) ∧ sp_step a (OWrite e f t) a' (EWrite r) ∧ SR s' a'.
Proof.
  intros HSR Hg. pose proof HSR as [HI HR Hdel Hrem Hti Htm Htd Htr Hli Hlm]. unfold ss_write.
  destruct (sp_map a !! e) as [r|] eqn:Hm.
  - destruct (index_of_Some s _ e r HI HR Hm) as (p & -> & Hp & Hv & Hi & Hmm & Hok).
    unfold get_unchecked. rewrite Hv. cbn [rbind].
    destruct (mark_mod s p e t HI Hp) as (mm & -> & _ & Lmm & Gmm). cbn [rbind].
    eexists _, _, _. split; [done|]. split; [by eapply SpWrite|].
    split; cbn; try done.
    + eapply SI_same; [exact HI|..]; cbn; try done. by rewrite lenN_setN.
    + eapply SRows_update; [exact HI|exact HR|exact Hp|..]; cbn; try done.
      intros Ht q. destruct (N.eqb_spec q p) as [->|]; [auto|done].
  - rewrite (index_of_None s _ e HI HR Hg Hm).
    eexists _, _, _. split; [done|]. split; [by apply SpWriteNone|done].
Qed.

Lemma ss_apply_SR s a x y f t :
  SR s a -> x ≠ y -> is_Some (sp_map a !! x) -> is_Some (sp_map a !! y) ->
  ∃ s' a', ss_apply s x y (λ u v, (f u v, ())) t = Ok (s', ()) ∧
           sp_step a (OApply x y f t) a' EUnit ∧ SR s' a'.
Proof.
  intros HSR Hxy [rx Hx] [ry Hy]. pose proof HSR as [HI HR Hdel Hrem Hti Htm Htd Htr Hli Hlm].
  unfold ss_apply.
  destruct (index_of_Some s _ x rx HI HR Hx) as (p & -> & Hp & Hv & Hi & Hmm & Hok).
  destruct (index_of_Some s _ y ry HI HR Hy) as (q & -> & Hq & Hv2 & _).
  destruct (N.eqb_spec p q) as [->|Hpq]; [congruence|].
  destruct (mark_mod s p x t HI Hp) as (mm & _ & -> & Lmm & Gmm). cbn [rbind].
  unfold get_unchecked. rewrite Hv, Hv2. cbn [rbind].
  eexists _, _. split; [done|]. split; [by eapply SpApply|].
  split; cbn; try done.
  - eapply SI_same; [exact HI|..]; cbn; try done. by rewrite lenN_setN.
  - eapply SRows_update; [exact HI|exact HR|exact Hp|..]; cbn; try done.
    intros Ht k. destruct (N.eqb_spec k p) as [->|]; [auto|done].
Qed.
Lemma ss_apply_mut_SR s a x y f t :
  SR s a -> x ≠ y -> is_Some (sp_map a !! x) -> is_Some (sp_map a !! y) ->
  ∃ s' a', ss_apply_mut s x y (λ u v, (f u v, ())) t = Ok (s', ()) ∧
           sp_step a (OApplyMut x y f t) a' EUnit ∧ SR s' a'.
Proof.
  intros HSR Hxy [rx Hx] [ry Hy]. pose proof HSR as [HI HR Hdel Hrem Hti Htm Htd Htr Hli Hlm].
  unfold ss_apply_mut.
  destruct (index_of_Some s _ x rx HI HR Hx) as (p & -> & Hp & Hv & Hi & Hmm & Hok).
  destruct (index_of_Some s _ y ry HI HR Hy) as (q & -> & Hq & Hv2 & Hi2 & Hmm2 & Hok2).
  destruct (N.eqb_spec p q) as [->|Hpq]; [congruence|].
  destruct (mark_mod s p x t HI Hp) as (mm & _ & E1 & Lmm & Gmm).
  set (s1 := with_rows s (ss_sparse s) (ss_dense s)
               (setN (ss_data s) p (f (r_val rx) (r_val ry)).1) (ss_ins s) mm).
  assert (SI s1) as HI1.
  { eapply SI_same; [exact HI|..]; cbn; try done. by rewrite lenN_setN. }
  assert (SRows s1 (<[x := Row (f (r_val rx) (r_val ry)).1 (r_ins rx) t]> (sp_map a))) as HR1.
  { eapply SRows_update; [exact HI|exact HR|exact Hp|..]; cbn; try done.
    intros Ht k. destruct (N.eqb_spec k p) as [->|]; [auto|done]. }
  destruct (mark_mod s1 q y t HI1 Hq) as (mm2 & _ & E2 & Lmm2 & Gmm2). cbn in E2, Lmm2, Gmm2.
  assert ((if ss_tm s then rlet mm := set_index_panic (ss_mod s) p t in set_index_panic mm q t
           else Ok (ss_mod s)) = Ok mm2) as ->.
  { destruct (ss_tm s); [rewrite E1; done|]. congruence. }
  cbn [rbind]. unfold get_unchecked. rewrite Hv, Hv2. cbn [rbind].
  destruct (f (r_val rx) (r_val ry)) as [vx vy] eqn:Ef.
  eexists _, _. split; [done|]. split; [by eapply SpApplyMut|].
  rewrite Ef. split; cbn; try done.
  - eapply SI_same; [exact HI1|..]; cbn; try done. by rewrite !lenN_setN.
  - eapply (SRows_update s1); [exact HI1|exact HR1|exact Hq|..]; cbn; try done.
    intros Ht k. destruct (N.eqb_spec k q) as [->|]; [auto|done].
Qed.

End inv.
