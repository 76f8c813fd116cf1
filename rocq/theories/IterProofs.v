(** Consuming an iterator: next, next_back, fold, rfold, with_id and split, for any iterator whose
    positions can all be read. *)
From stdpp Require Import prelude list.
From Coq Require Import NArith Lia.
From Verif Require Import EntityId Base SparseSet SparseSetSpec Iter IterSpec.
Open Scope N_scope.

Section consume.
Context {V : Type}.
Implicit Types (it : iter V) (l : list (eid * option (out V))) (ls : list (list (eid * option (out V)))).

(** The positions from [k] on hold the ids and items of [l]. *)
Definition reads it (k : N) l : Prop :=
  ∀ m e oo, l !! m = Some (e, oo) ->
    acc_get (it_acc it) (k + N.of_nat m) = Ok e ∧ item_at it (k + N.of_nat m) = Ok oo.
Definition slice it l : Prop :=
  it_start it <= it_end it ∧ it_end it - it_start it = lenN l ∧ reads it (it_start it) l.
(** What is left to visit, slice by slice. *)
Fixpoint tour it ls : Prop :=
  match ls with
  | [] => False
  | l :: ls => slice it l ∧
               match it_next_slice it with None => ls = [] | Some it' => tour it' ls end
  end.
Definition items l : list (eid * out V) := omap (λ x, pair x.1 <$> x.2) l.

Lemma items_app l1 l2 : items (l1 ++ l2) = items l1 ++ items l2.
Proof. apply omap_app. Qed.
Lemma items_cons e oo l : items ((e, oo) :: l) = option_list (pair e <$> oo) ++ items l.
Proof. unfold items. cbn. by destruct oo. Qed.

Lemma reads_cons it k e oo l :
  reads it k ((e, oo) :: l) -> acc_get (it_acc it) k = Ok e ∧ item_at it k = Ok oo ∧ reads it (k + 1) l.
Proof.
  intros H. destruct (H 0%nat e oo eq_refl) as [H1 H2]. rewrite N.add_0_r in H1, H2.
  split_and!; [done..|]. intros m e' oo' Hm. destruct (H (S m) e' oo' Hm) as [H3 H4].
  replace (k + 1 + N.of_nat m) with (k + N.of_nat (S m)) by lia. done.
Qed.
Lemma reads_snoc it k e oo l :
  reads it k (l ++ [(e, oo)]) ->
  acc_get (it_acc it) (k + lenN l) = Ok e ∧ item_at it (k + lenN l) = Ok oo ∧ reads it k l.
Proof.
  intros H. destruct (H (length l) e oo) as [H1 H2]; [by apply list_lookup_middle|].
  split_and!; [done..|]. intros m e' oo' Hm. apply H. by apply lookup_app_l_Some.
Qed.
Lemma reads_range it it' k l :
  it_acc it' = it_acc it -> it_ship it' = it_ship it -> it_exact it' = it_exact it ->
  reads it k l -> reads it' k l.
Proof.
  intros E1 E2 E3 H m e oo Hm. destruct (H m e oo Hm) as [H1 H2]. unfold item_at in *.
  by rewrite E1, E2, E3.
Qed.
Lemma fold_range_reads it k l : reads it k l -> fold_range it k (length l) = Ok (items l).*2.
Proof.
  revert k. induction l as [|[e oo] l IH]; intros k H; [done|].
  apply reads_cons in H as (_ & H2 & H3). cbn [length fold_range]. rewrite H2. cbn [rbind].
  rewrite (IH _ H3). cbn [rbind]. rewrite items_cons. by destruct oo.
Qed.
Lemma wi_range_reads it k l : reads it k l -> wi_range it k (length l) = Ok (items l).
Proof.
  revert k. induction l as [|[e oo] l IH]; intros k H; [done|].
  apply reads_cons in H as (H1 & H2 & H3). cbn [length wi_range]. unfold wi_item. rewrite H1. cbn [rbind].
  rewrite H2. cbn [rbind]. rewrite (IH _ H3). cbn [rbind]. rewrite items_cons. by destruct oo.
Qed.
Lemma rfold_range_reads it k l : reads it k l -> rfold_range it k (length l) = Ok (reverse (items l).*2).
Proof.
  induction l as [|[e oo] l IH] using rev_ind; intros H; [done|].
  apply reads_snoc in H as (_ & H2 & H3). rewrite app_length, Nat.add_comm. cbn [length Nat.add rfold_range].
  unfold lenN in H2. rewrite H2. cbn [rbind]. rewrite (IH H3). cbn [rbind].
  rewrite items_app, fmap_app, reverse_app. f_equal. rewrite items_cons. by destruct oo.
Qed.
Lemma wi_rrange_reads it k l : reads it k l -> wi_rrange it k (length l) = Ok (reverse (items l)).
Proof.
  induction l as [|[e oo] l IH] using rev_ind; intros H; [done|].
  apply reads_snoc in H as (H1 & H2 & H3). rewrite app_length, Nat.add_comm. cbn [length Nat.add wi_rrange].
  unfold wi_item. unfold lenN in H1, H2. rewrite H1. cbn [rbind]. rewrite H2. cbn [rbind].
  rewrite (IH H3). cbn [rbind].
  rewrite items_app, reverse_app. f_equal. rewrite items_cons. by destruct oo.
Qed.

(** *** Folds *)
Lemma it_next_slice_range it a b : it_next_slice (with_range it a b) = it_next_slice it.
Proof. done. Qed.
Lemma next_slice_follow it it' :
  it_next_slice it = Some it' ->
  ∃ ptr len fs, (it_acc it).2 = fs ++ [(ptr, len)] ∧ it_acc it' = (ptr, fs) ∧
    it_start it' = 0 ∧ it_end it' = len ∧ it_exact it' = it_exact it ∧
    it_ship it' = next_slice (it_ship it).
Proof.
  unfold it_next_slice, acc_next_slice. destruct (it_acc it) as [p f]. cbn [snd].
  destruct f as [|x f _] using rev_ind; [done|]. rewrite last_snoc. destruct x as [ptr len].
  intros [= <-]. exists ptr, len, f. cbn. split_and!; try done.
  rewrite app_length. cbn [length]. by rewrite Nat.add_sub, take_app.
Qed.
Lemma next_slice_none it : it_next_slice it = None -> (it_acc it).2 = [].
Proof.
  unfold it_next_slice, acc_next_slice. destruct (it_acc it) as [p f]. cbn [snd].
  destruct f as [|x f _] using rev_ind; [done|]. rewrite last_snoc. by destruct x.
Qed.
Lemma next_slice_nil it : (it_acc it).2 = [] -> it_next_slice it = None.
Proof. unfold it_next_slice, acc_next_slice. by intros ->. Qed.

Lemma slice_fuel it it' : it_next_slice it = Some it' -> length (it_acc it).2 = S (length (it_acc it').2).
Proof.
  intros (p & n & f & E1 & E2 & _)%next_slice_follow. rewrite E1, E2, app_length. cbn. lia.
Qed.

(** [want l] is what [range] collects of a slice. *)
Lemma fold_slices_tour {A} (range : iter V -> N -> nat -> res (list A))
    (want : list (eid * option (out V)) -> list A) :
  want [] = [] ->
  (∀ it k l, reads it k l -> range it k (length l) = Ok (want l)) ->
  ∀ fuel it ls, tour it ls ->
    (length (it_acc it).2 + (if (it_start it =? it_end it)%N then 0 else 1) < fuel)%nat ->
    fold_slices range it_next_slice fuel it = Ok (mjoin (want <$> ls)).
Proof.
  intros W0 HW. induction fuel as [|fuel IH]; intros it ls HT Hf; [lia|].
  destruct ls as [|l ls]; [done|]. destruct HT as [(H1 & H2 & H3) HT].
  cbn [fold_slices].
  assert (∀ it' l' ls', tour it' (l' :: ls') -> (length (it_acc it').2 < fuel)%nat ->
    rbind (range it' (it_start it') (N.to_nat (it_end it' - it_start it')))
      (λ x, rbind (fold_slices range it_next_slice fuel (with_range it' (it_end it') (it_end it')))
        (λ r, Ok (x ++ r))) = Ok (want l' ++ mjoin (want <$> ls'))) as HX.
  { intros it' l' ls' [(J1 & J2 & J3) JT] Jf. rewrite J2. unfold lenN. rewrite Nat2N.id.
    rewrite (HW _ _ _ J3). cbn [rbind].
    rewrite (IH (with_range it' (it_end it') (it_end it')) ([] :: ls')).
    - cbn [rbind]. change (mjoin (want <$> [] :: ls')) with (want [] ++ mjoin (want <$> ls')). by rewrite W0.
    - split; [|by rewrite it_next_slice_range]. split_and!; cbn; [lia|unfold lenN; cbn; lia|].
      intros m e oo Hm. done.
    - cbn. rewrite N.eqb_refl. lia. }
  destruct (N.eqb_spec (it_start it) (it_end it)) as [E|E].
  - assert (l = []) as ->. { destruct l; [done|]. unfold lenN in H2. cbn in H2. lia. }
    change (mjoin (want <$> [] :: ls)) with (want [] ++ mjoin (want <$> ls)). rewrite W0.
    destruct (it_next_slice it) as [it'|] eqn:E2; [|by subst ls].
    destruct ls as [|l' ls]; [done|]. cbn [rbind]. rewrite (HX it' l' ls); [done|done|].
    pose proof (slice_fuel _ _ E2). lia.
  - rewrite (HX it l ls); [done|by split|]. lia.
Qed.

Lemma mjoin_cons {A} (l : list A) (ls : list (list A)) : mjoin (l :: ls) = l ++ mjoin ls.
Proof. done. Qed.
Lemma mjoin_one {A} (l : list A) : mjoin [l] = l.
Proof. apply app_nil_r. Qed.
Lemma mjoin_items ls : mjoin (items <$> ls) = items (mjoin ls).
Proof. induction ls as [|l ls IH]; [done|]. by rewrite fmap_cons, !mjoin_cons, items_app, <- IH. Qed.
Lemma mjoin_fmap_snd (ls : list (list (eid * out V))) : mjoin ((λ x : list (eid * out V), x.*2) <$> ls) = (mjoin ls).*2.
Proof. induction ls as [|l ls IH]; [done|]. by rewrite fmap_cons, !mjoin_cons, fmap_app, <- IH. Qed.

Lemma it_fold_tour it ls : tour it ls -> it_fold it = Ok (items (mjoin ls)).*2.
Proof.
  intros HT. unfold it_fold. rewrite (fold_slices_tour _ (λ l, (items l).*2)) with (ls := ls); [|done| |done|].
  - f_equal. rewrite <- mjoin_items, <- mjoin_fmap_snd. by rewrite <- list_fmap_compose.
  - intros ???. apply fold_range_reads.
  - unfold slices_fuel. destruct (_ =? _); lia.
Qed.
Lemma it_rfold_tour it ls :
  tour it ls -> it_rfold it = Ok (mjoin ((λ l, reverse (items l).*2) <$> ls)).
Proof.
  intros HT. unfold it_rfold. rewrite (fold_slices_tour _ (λ l, reverse (items l).*2)) with (ls := ls);
    [done|done| |done|].
  - intros ???. apply rfold_range_reads.
  - unfold slices_fuel. destruct (_ =? _); lia.
Qed.
Lemma wi_rfold_tour it ls :
  tour it ls -> wi_rfold it = Ok (mjoin ((λ l, reverse (items l)) <$> ls)).
Proof.
  intros HT. unfold wi_rfold. rewrite (fold_slices_tour _ (λ l, reverse (items l))) with (ls := ls);
    [done|done| |done|].
  - intros ???. apply wi_rrange_reads.
  - unfold slices_fuel. destruct (_ =? _); lia.
Qed.
Lemma wi_fold_tour it l : tour it [l] -> wi_fold it = Ok (items l).
Proof.
  intros [(H1 & H2 & H3) HN].
  assert (it_next_slice it = None) as HN' by (destruct (it_next_slice it); [by cbn in HN|done]).
  apply next_slice_none in HN'. unfold wi_fold, slices_fuel. rewrite HN'. cbn [length fold_slices].
  assert (∀ a b, wi_next_slice (with_range it a b) = None) as HW.
  { intros a b. unfold wi_next_slice, acc_next_slice. cbn [with_range it_acc]. by rewrite HN'. }
  assert (wi_next_slice it = None) as ->.
  { unfold wi_next_slice, acc_next_slice. by rewrite HN'. }
  destruct (N.eqb_spec (it_start it) (it_end it)) as [E|E].
  - destruct l; [done|]. unfold lenN in H2. cbn in H2. lia.
  - rewrite H2. unfold lenN. rewrite Nat2N.id, (wi_range_reads _ _ _ H3). cbn [rbind].
    assert (∀ a, it_start (with_range it a a) =? it_end (with_range it a a) = true) as ->
      by (intros; apply N.eqb_refl).
    rewrite HW. cbn [rbind]. by rewrite app_nil_r.
Qed.

(** *** next *)
Lemma tour_left it ls : tour it ls -> it_left it = length (mjoin ls).
Proof.
  revert it. induction ls as [|l ls IH]; intros it HT; [done|].
  destruct HT as [(H1 & H2 & H3) HT]. unfold it_left in *. rewrite mjoin_cons, app_length.
  destruct (it_next_slice it) as [it'|] eqn:E.
  - rewrite <- (IH _ HT). apply next_slice_follow in E as (p & n & f & E1 & E2 & E3 & E4 & _).
    unfold follow_up_len. rewrite E1, E2, E3, E4. cbn [snd]. rewrite foldr_app. cbn [foldr snd].
    assert (∀ (f : list (list eid * N)) b, foldr (λ f n, f.2 + n) b f = foldr (λ f n, f.2 + n) 0 f + b) as HF.
    { clear. induction f as [|x f IH]; intros b; cbn; [lia|]. rewrite IH. lia. }
    rewrite HF. unfold lenN in H2. lia.
  - subst ls. unfold follow_up_len. rewrite (next_slice_none _ E). cbn. unfold lenN in H2. lia.
Qed.
Lemma slice_shift it e oo l :
  slice it ((e, oo) :: l) ->
  acc_get (it_acc it) (it_start it) = Ok e ∧ item_at it (it_start it) = Ok oo ∧
  slice (with_range it (it_start it + 1) (it_end it)) l ∧ it_start it ≠ it_end it.
Proof.
  intros (H1 & H2 & H3). unfold lenN in H2. cbn [length] in H2.
  apply reads_cons in H3 as (R1 & R2 & R3). split_and!; [done..| |lia].
  split_and!; cbn; [lia|unfold lenN; lia|]. by eapply reads_range; [..|exact R3].
Qed.
Lemma next_loop_tour n : ∀ fuel it l ls,
  tour it (l :: ls) -> Forall (λ l, l ≠ []) ls ->
  length (mjoin (l :: ls)) = n -> (n < fuel)%nat ->
  match items (mjoin (l :: ls)) with
  | [] => ∃ it', next_loop fuel it = Ok (it', None) ∧ tour it' [[]]
  | (e, x) :: rest => ∃ it' l' ls', next_loop fuel it = Ok (it', Some x) ∧ tour it' (l' :: ls') ∧
      Forall (λ l, l ≠ []) ls' ∧ (length ls' <= length ls)%nat ∧ items (mjoin (l' :: ls')) = rest ∧
      acc_get (it_acc it') (it_start it' - 1) = Ok e
  end.
Proof.
  induction n as [|n IH]; intros fuel it l ls HT Hls Hlen Hf.
  - destruct l as [|[e oo] l]; [|done]. destruct ls as [|l' ls].
    + cbn. destruct fuel as [|fuel]; [lia|]. cbn [next_loop]. exists it. split; [|done].
      destruct HT as [(H1 & H2 & _) HN]. unfold lenN in H2. cbn in H2.
      assert (it_start it =? it_end it = true) as -> by (apply N.eqb_eq; lia).
      destruct (it_next_slice it); [by cbn in HN|done].
    + inversion Hls; subst. destruct l'; [done|]. cbn in Hlen. done.
  - destruct fuel as [|fuel]; [lia|].
    assert (∃ it0 e oo l0 ls0,
      (if it_start it =? it_end it then it_next_slice it else Some it) = Some it0 ∧
      tour it0 (((e, oo) :: l0) :: ls0) ∧ Forall (λ l, l ≠ []) ls0 ∧ (length ls0 <= length ls)%nat ∧
      mjoin (l :: ls) = (e, oo) :: mjoin (l0 :: ls0)) as (it0 & e & oo & l0 & ls0 & E0 & HT0 & HF0 & HLen & HJ).
    { destruct l as [|[e oo] l].
      - destruct ls as [|l' ls]; [done|]. inversion Hls; subst. destruct l' as [|[e oo] l']; [done|].
        destruct HT as [(Hle & Hl0 & _) HN]. unfold lenN in Hl0. cbn in Hl0.
        assert (it_start it =? it_end it = true) as -> by (apply N.eqb_eq; lia).
        destruct (it_next_slice it) as [it'|]; [|done]. exists it', e, oo, l', ls. split_and!; try done. cbn. lia.
      - exists it, e, oo, l, ls. split_and!; try done.
        destruct HT as [HS _]. apply slice_shift in HS as (_ & _ & _ & Hne).
        apply N.eqb_neq in Hne. by rewrite Hne. }
    cbn [next_loop]. rewrite E0. destruct HT0 as [HS HN].
    apply slice_shift in HS as (R1 & R2 & R3 & _). rewrite R2. cbn [rbind].
    assert (tour (with_range it0 (it_start it0 + 1) (it_end it0)) (l0 :: ls0)) as HT' by (by split).
    rewrite HJ, items_cons. rewrite HJ in Hlen. cbn [length] in Hlen. destruct oo as [x|].
    + cbn [fmap option_fmap option_map option_list app].
      eexists _, l0, ls0. split_and!; [done|done|done|done|done|]. cbn. by rewrite N.add_sub.
    + cbn [fmap option_fmap option_map option_list app].
      pose proof (IH fuel _ l0 ls0 HT' HF0 ltac:(lia) ltac:(lia)) as HI.
      destruct (items (mjoin (l0 :: ls0))) as [|[e' x'] rest]; [done|].
      destruct HI as (it' & l' & ls' & HI). exists it', l', ls'. intuition lia.
Qed.
Lemma collects_fun {A} (next : iter V -> res (iter V * option A)) it r r' :
  collects next it r -> collects next it r' -> r = r'.
Proof.
  intros H. revert r'. induction H as [it it' E|it it' x r E H IH]; intros r' H'; inversion H'; subst.
  - done.
  - congruence.
  - congruence.
  - f_equal; [congruence|]. apply IH. congruence.
Qed.
Lemma it_next_tour it l ls :
  tour it (l :: ls) -> Forall (λ l, l ≠ []) ls ->
  match items (mjoin (l :: ls)) with
  | [] => ∃ it', it_next it = Ok (it', None) ∧ tour it' [[]]
  | (e, x) :: rest => ∃ it' l' ls', it_next it = Ok (it', Some x) ∧ tour it' (l' :: ls') ∧
      Forall (λ l, l ≠ []) ls' ∧ (length ls' <= length ls)%nat ∧ items (mjoin (l' :: ls')) = rest ∧
      acc_get (it_acc it') (it_start it' - 1) = Ok e
  end.
Proof.
  intros HT HF. eapply next_loop_tour; [done|done|done|]. rewrite (tour_left _ _ HT). lia.
Qed.
Lemma it_collects it l ls :
  tour it (l :: ls) -> Forall (λ l, l ≠ []) ls -> collects it_next it (items (mjoin (l :: ls))).*2.
Proof.
  remember (items (mjoin (l :: ls))) as L eqn:E. revert it l ls E.
  induction L as [|[e x] L IH]; intros it l ls E HT HF; pose proof (it_next_tour it l ls HT HF) as HN;
    rewrite <- E in HN.
  - destruct HN as (it' & HN & _). by eapply collects_nil.
  - destruct HN as (it' & l' & ls' & HN & HT' & HF' & Hle & HL & _). cbn [fmap list_fmap snd].
    eapply collects_cons; [done|]. by eapply IH.
Qed.
Lemma wi_collects it l ls :
  tour it (l :: ls) -> Forall (λ l, l ≠ []) ls -> collects wi_next it (items (mjoin (l :: ls))).
Proof.
  remember (items (mjoin (l :: ls))) as L eqn:E. revert it l ls E.
  induction L as [|[e x] L IH]; intros it l ls E HT HF; pose proof (it_next_tour it l ls HT HF) as HN;
    rewrite <- E in HN.
  - destruct HN as (it' & HN & _). eapply (collects_nil _ _ it'). unfold wi_next. by rewrite HN.
  - destruct HN as (it' & l' & ls' & HN & HT' & HF' & Hle & HL & HA).
    eapply (collects_cons _ _ it'); [|by eapply IH]. unfold wi_next. rewrite HN. cbn [rbind].
    by rewrite HA.
Qed.

(** *** next_back and interleavings, for one slice *)
Lemma slice_unshift it e oo l :
  slice it (l ++ [(e, oo)]) ->
  item_at it (it_end it - 1) = Ok oo ∧ acc_get (it_acc it) (it_end it - 1) = Ok e ∧
  slice (with_range it (it_start it) (it_end it - 1)) l ∧ it_start it ≠ it_end it ∧ it_end it ≠ 0.
Proof.
  intros (H1 & H2 & H3). rewrite lenN_app in H2. change (lenN [(e, oo)]) with 1 in H2.
  apply reads_snoc in H3 as (R1 & R2 & R3).
  replace (it_end it - 1) with (it_start it + lenN l) by lia.
  split_and!; [done..| |lia|lia].
  split_and!; cbn; [lia|lia|]. by eapply reads_range; [..|exact R3].
Qed.
Lemma back_loop_tour l : ∀ fuel it,
  tour it [l] -> (length l < fuel)%nat ->
  ∃ it', tour it' [[]] ∧ items l = [] ∧ back_loop fuel it = Ok (it', None) ∨
  ∃ e x l', tour it' [l'] ∧ items l = items l' ++ [(e, x)] ∧ back_loop fuel it = Ok (it', Some x) ∧
     acc_get (it_acc it') (it_end it') = Ok e.
Proof.
  induction l as [|[e oo] l IH] using rev_ind; intros fuel it HT Hf.
  - exists it. left. split_and!; [done..|]. destruct fuel; [lia|]. cbn [back_loop].
    destruct HT as [(H1 & H2 & _) HN]. unfold lenN in H2. cbn in H2.
    assert (it_start it =? it_end it = true) as -> by (apply N.eqb_eq; lia).
    destruct (it_next_slice it); [by cbn in HN|done].
  - destruct HT as [HS HN]. apply slice_unshift in HS as (R1 & R2 & R3 & Hne & Hz).
    destruct fuel as [|fuel]; [lia|]. cbn [back_loop].
    apply N.eqb_neq in Hne, Hz. rewrite Hne, Hz, R1. cbn [rbind].
    assert (tour (with_range it (it_start it) (it_end it - 1)) [l]) as HT' by (by split).
    rewrite items_app, items_cons. destruct oo as [x|].
    + eexists. right. exists e, x, l. split_and!; [exact HT'|done|done|done].
    + rewrite app_length in Hf. cbn [length] in Hf.
      destruct (IH fuel _ HT' ltac:(lia)) as (it' & [(J1 & J2 & J3)|(e' & x' & l' & J1 & J2 & J3 & J4)]).
      * exists it'. left. split_and!; [done| |done]. rewrite J2. done.
      * exists it'. right. exists e', x', l'. split_and!; [done| |done|done]. rewrite J2. cbn. by rewrite app_nil_r.
Qed.
Lemma it_next_back_tour it l :
  tour it [l] ->
  ∃ it', tour it' [[]] ∧ items l = [] ∧ it_next_back it = Ok (it', None) ∨
  ∃ e x l', tour it' [l'] ∧ items l = items l' ++ [(e, x)] ∧ it_next_back it = Ok (it', Some x) ∧
     acc_get (it_acc it') (it_end it') = Ok e.
Proof.
  intros HT. apply back_loop_tour; [done|]. rewrite (tour_left _ _ HT). cbn. rewrite app_nil_r. lia.
Qed.

Lemma play_tour calls : ∀ it l, tour it [l] ->
  ∃ it' os l', play calls it = Ok (it', os) ∧ tour it' [l'] ∧ length os = length calls ∧
    (items l).*2 = came false calls os ++ (items l').*2 ++ reverse (came true calls os) ∧
    (None ∈ os -> items l' = []).
Proof.
  induction calls as [|b calls IH]; intros it l HT.
  - exists it, [], l. split_and!; [done|done|done| |by intros ?%elem_of_nil].
    unfold came. cbn [zip zip_with omap list_omap reverse app]. by rewrite app_nil_r.
  - cbn [play].
    assert (∃ it1 o l1, (if b then it_next_back it else it_next it) = Ok (it1, o) ∧ tour it1 [l1] ∧
      (items l).*2 = (if b then (items l1).*2 ++ option_list o else option_list o ++ (items l1).*2) ∧
      (o = None -> items l1 = [])) as (it1 & o & l1 & E1 & HT1 & HI & HNone).
    { destruct b.
      - destruct (it_next_back_tour it l HT) as (it' & [(J1 & J2 & J3)|(e' & x' & l' & J1 & J2 & J3 & J4)]).
        + exists it', None, []. split_and!; try done. by rewrite J2.
        + exists it', (Some x'), l'. split_and!; try done. by rewrite J2, fmap_app.
      - pose proof (it_next_tour it l [] HT (Forall_nil_2 _)) as HN. rewrite mjoin_one in HN.
        destruct (items l) as [|[e x] rest].
        + destruct HN as (it' & HN & HT'). by exists it', None, [].
        + destruct HN as (it' & l' & ls' & HN & HT' & HF' & Hle & HL & _).
          destruct ls' as [|l2 ls'].
          * exists it', (Some x), l'. split_and!; try done.
            rewrite mjoin_one in HL. by rewrite HL.
          * cbn in Hle. lia. }
    rewrite E1. cbn [rbind]. destruct (IH it1 l1 HT1) as (it' & os & l' & E2 & HT2 & HL & HO & HN2).
    rewrite E2. cbn [rbind]. exists it', (o :: os), l'.
    split_and!; [done|done|by cbn; rewrite HL| |].
    + rewrite HI, HO. unfold came. destruct b; cbn [zip zip_with omap list_omap fst snd eqb].
      * destruct o; cbn [option_list]; [|by rewrite app_nil_r]. by rewrite reverse_cons, !app_assoc.
      * by destruct o.
    + intros [<-|Hn]%elem_of_cons; [|by apply HN2].
      rewrite (HNone eq_refl) in HO. cbn [fmap list_fmap] in HO.
      symmetry in HO. apply app_nil in HO as [_ HO]. apply app_nil in HO as [HO _].
      by apply fmap_nil_inv in HO.
Qed.

(** *** split, for one slice *)
Lemma it_split_tour it l :
  tour it [l] ->
  ∃ a ob, it_split it = Ok (a, ob) ∧
    match ob with
    | None => a = it
    | Some b => ∃ l1 l2, l = l1 ++ l2 ∧ tour a [l1] ∧ tour b [l2]
    end.
Proof.
  intros [(H1 & H2 & H3) HN].
  assert (it_next_slice it = None) as HN' by (destruct (it_next_slice it); [by cbn in HN|done]).
  apply next_slice_none in HN'. unfold it_split, follow_up_len. rewrite HN'. cbn [foldr].
  destruct (N.leb_spec (it_end it - it_start it + 0) 1) as [Hle|Hgt]; [by exists it, None|].
  unfold acc_split_at. rewrite HN'. cbn [split_point default take drop].
  change (0 =? 0) with true. cbn [rbind].
  set (h := (it_end it - it_start it) / 2).
  assert (h <= lenN l) as Hh. { subst h. rewrite H2. apply N.div_le_upper_bound; lia. }
  eexists _, _. split; [done|]. exists (take (N.to_nat h) l), (drop (N.to_nat h) l).
  split; [by rewrite take_drop|]. unfold lenN in *. split.
  - split; [|by rewrite next_slice_nil]. split_and!; cbn [it_start it_end].
    + lia.
    + unfold lenN. rewrite take_length. lia.
    + apply (reads_range it); [by destruct it as [? [? ?] ???]; cbn in *; subst|done|done|].
      intros m e oo Hm. apply H3. rewrite lookup_take_Some in Hm. by destruct Hm.
  - split; [|by rewrite next_slice_nil]. split_and!; cbn [it_start it_end].
    + lia.
    + unfold lenN. rewrite drop_length. lia.
    + apply (reads_range it); [by destruct it as [? [? ?] ???]; cbn in *; subst|done|done|].
      intros m e oo Hm. rewrite lookup_drop in Hm.
      replace (it_start it + h + N.of_nat m) with (it_start it + N.of_nat (N.to_nat h + m)) by lia.
      by apply H3.
Qed.
Lemma pieces_tour it ps :
  pieces it ps -> ∀ l, tour it [l] ->
  ∃ lp, mjoin lp = l ∧ Forall2 (λ p l', tour p [l']) ps lp.
Proof.
  induction 1 as [it|it it' E|it a b la lb E H1 IH1 H2 IH2]; intros l HT.
  - exists [l]. split; [apply app_nil_r|]. constructor; [done|constructor].
  - destruct (it_split_tour it l HT) as (a & ob & E' & Hob). rewrite E in E'. injection E' as -> <-.
    subst. exists [l]. split; [apply app_nil_r|]. constructor; [done|constructor].
  - destruct (it_split_tour it l HT) as (a' & ob & E' & Hob). rewrite E in E'. injection E' as <- <-.
    destruct Hob as (l1 & l2 & -> & T1 & T2).
    destruct (IH1 _ T1) as (lp1 & <- & F1), (IH2 _ T2) as (lp2 & <- & F2).
    exists (lp1 ++ lp2). split; [|by apply Forall2_app]. clear. induction lp1 as [|x lp1 IH]; [done|].
    rewrite <- app_comm_cons, !mjoin_cons, IH. by rewrite app_assoc.
Qed.
End consume.
