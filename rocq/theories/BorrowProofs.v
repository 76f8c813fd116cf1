(** Inductive invariant of the borrow checker. *)
From stdpp Require Import prelude list gmap.
From Coq Require Import NArith.
From Verif Require Import EntityId MapSum Borrow.
Open Scope N_scope.

(** Contribution of each object / call: normal shared borrows, shared borrows made from an
    exclusive one, exclusive borrows, calls that are about to abort. *)
Definition wn (o : bobj) : N := match o with BShared _ false => 1 | _ => 0 end.
Definition wu (o : bobj) : N := match o with BShared _ true => 1 | _ => 0 end.
Definition wx (o : bobj) : N := match o with BExcl => 1 | _ => 0 end.
Definition cn (p : pc) : N :=
  match p with
  | ReadGot new => if new <? HIGH_BIT then 1 else 0
  | XReadGot old => if old =? 0 then 1 else 0
  | CloneGot _ _ false _ => 1
  | DropS _ false => 1
  | _ => 0
  end.
Definition cu (p : pc) : N :=
  match p with CloneGot _ _ true _ => 1 | DropS _ true => 1 | _ => 0 end.
Definition cx (p : pc) : N :=
  match p with WriteGot old => if old =? 0 then 1 else 0 | DropX => 1 | _ => 0 end.
Definition ca (p : pc) : N :=
  match p with
  | ReadGot new | CloneGot _ _ _ new => if MAX_FAILED_BORROWS <=? new then 1 else 0
  | _ => 0
  end.

Definition Sn (s : bst) : N := msum wn (pool s) + msum cn (calls s).
Definition Su (s : bst) : N := msum wu (pool s) + msum cu (calls s).
Definition Sx (s : bst) : N := msum wx (pool s) + msum cx (calls s).
Definition Sa (s : bst) : N := msum ca (calls s).

(** Local well-formedness of a call. *)
Definition pc_ok (s : bst) (p : pc) : Prop :=
  match p with
  | ReadGot new => new < W64 /\ new <> HIGH_BIT
  | CloneGot b r u new =>
      new < W64 /\ new <> HIGH_BIT /\ exists o, pool s !! b = Some o /\ root_of b o = (r, u)
  | ReadSub | CloneSub _ => False
  | DropS r true => pool s !! r = Some BExcl
  | _ => True
  end.

Record BI (s : bst) : Prop := {
  bi_load : load s < 2 ^ 62;
  bi_x : Sx s = 0 \/ Sx s = 1;
  bi_free : Sx s = 0 -> word s = Sn s /\ Su s = 0;
  bi_held : Sx s = 1 -> Sn s = 0 /\ HIGH_BIT + Su s <= word s /\ word s < MAX_FAILED_BORROWS + Sa s;
  bi_pc : forall t p, calls s !! t = Some p -> pc_ok s p;
  bi_root : forall b r, pool s !! b = Some (BShared r true) -> pool s !! r = Some BExcl;
  bi_fresh : forall b o, pool s !! b = Some o -> b < next_id s /\ (root_of b o).1 < next_id s
}.

Lemma high_spec new : new < W64 -> high new = (HIGH_BIT <=? new).
Proof.
  intros Hlt. unfold high, HIGH_BIT.
  destruct (N.testbit new 63) eqn:Hb.
  - assert (2 ^ 63 <= new) as Hge.
    { destruct (decide (2 ^ 63 <= new)) as [|Hn]; [done|exfalso].
      assert (N.testbit new 63 = false); [|congruence].
      destruct (decide (new = 0)) as [->|]; [apply N.bits_0|].
      assert (0 < new) as Hp0 by (apply N.neq_0_lt_0; done).
      apply N.bits_above_log2. apply (proj1 (N.log2_lt_pow2 new 63 Hp0)).
      apply N.lt_nge. exact Hn. }
    rewrite (proj2 (N.leb_le _ _) Hge).
    destruct (N.eqb_spec (N.land new (2 ^ 63)) 0) as [He|]; [exfalso|done].
    assert (N.testbit (N.land new (2 ^ 63)) 63 = true) as Ht.
    { rewrite N.land_spec, Hb, N.pow2_bits_true. done. }
    rewrite He in Ht. done.
  - assert (new < 2 ^ 63) as Hle.
    { rewrite N.testbit_eqb in Hb. apply N.eqb_neq in Hb.
      assert (new / 2 ^ 63 < 2) as Hq by (apply N.div_lt_upper_bound; [done|exact Hlt]).
      apply (proj1 (N.div_small_iff new (2 ^ 63) ltac:(done))).
      remember (new / 2 ^ 63) as q eqn:Eq. clear Eq.
      assert (q = 0 \/ q = 1) as [->| ->] by lia; [done|]. by destruct Hb. }
    rewrite (proj2 (N.leb_gt _ _) Hle).
    destruct (N.eqb_spec (N.land new (2 ^ 63)) 0) as [He|Hn]; [done|exfalso].
    apply Hn. apply N.bits_inj_0. intros i. rewrite N.land_spec, N.pow2_bits_eqb.
    destruct (N.eqb_spec 63 i) as [<-|]; [by rewrite Hb|]. apply andb_false_r.
Qed.

Lemma anyb_false {A} (f : A -> bool) (m : gmap N A) i x :
  anyb f m = false -> m !! i = Some x -> f x = false.
Proof.
  intros Ha Hi. destruct (f x) eqn:Hf; [|done].
  assert (anyb f m = true); [|congruence].
  apply existsb_exists. exists (i, x). split; [|done].
  apply elem_of_list_In, elem_of_map_to_list. done.
Qed.

(** Everything is bounded by the load. *)
Lemma load_bounds s : Sn s + Su s + Sx s <= load s /\ Sa s <= load s.
Proof.
  unfold Sn, Su, Sx, Sa, load.
  pose proof (msum_le_size (fun o => wn o + (wu o + wx o)) (pool s)) as Hp.
  pose proof (msum_le_size (fun p => cn p + (cu p + cx p)) (calls s)) as Hc.
  pose proof (msum_le_size ca (calls s)) as Ha.
  rewrite !msum_plus in Hp. rewrite !msum_plus in Hc.
  assert (forall o, wn o + (wu o + wx o) <= 1) as H1 by (intros [? []|]; cbn; lia).
  assert (forall p, cn p + (cu p + cx p) <= 1) as H2.
  { intros []; cbn; repeat case_match; lia. }
  assert (forall p, ca p <= 1) as H3 by (intros []; cbn; repeat case_match; lia).
  specialize (Hp H1). specialize (Hc H2). specialize (Ha H3). lia.
Qed.

Lemma BI_init : BI b_init.
Proof.
  split; cbn [pool calls word next_id b_init].
  - done.
  - left. done.
  - intros _. done.
  - unfold Sx. cbn [pool calls b_init]. rewrite !msum_empty. lia.
  - intros t p Hp. by rewrite lookup_empty in Hp.
  - intros b r Hb. by rewrite lookup_empty in Hb.
  - intros b r Hb. by rewrite lookup_empty in Hb.
Qed.

Ltac nums := change HIGH_BIT with 9223372036854775808 in *;
             change MAX_FAILED_BORROWS with 13835058055282163712 in *;
             change W64 with 18446744073709551616 in *;
             change (2 ^ 62) with 4611686018427387904 in *.

Lemma fetch_add1_small w : w + 1 < W64 -> fetch_add1 w = w + 1.
Proof. intros. unfold fetch_add1. by rewrite N.mod_small. Qed.
Lemma fetch_sub1_pos w : 0 < w -> w < W64 -> fetch_sub1 w = w - 1.
Proof.
  intros H1 H2. unfold fetch_sub1. replace (w + W64 - 1) with ((w - 1) + 1 * W64) by (nums; lia).
  rewrite N.mod_add by done. apply N.mod_small. lia.
Qed.

(** The word never overflows. *)
Lemma BI_word s : BI s -> word s + 1 < W64.
Proof.
  intros [Hl Hx Hf Hh _ _ _]. pose proof (load_bounds s) as [Hb1 Hb2].
  destruct Hx as [Hx|Hx].
  - destruct (Hf Hx). nums. lia.
  - destruct (Hh Hx) as (? & ? & ?). nums. lia.
Qed.

(** A fetch_add never yields exactly the high bit. *)
Lemma BI_add_ne s : BI s -> fetch_add1 (word s) <> HIGH_BIT.
Proof.
  intros HI. rewrite fetch_add1_small by (by apply BI_word).
  destruct HI as [Hl Hx Hf Hh _ _ _]. pose proof (load_bounds s) as [Hb1 Hb2].
  destruct Hx as [Hx|Hx].
  - destruct (Hf Hx). nums. lia.
  - destruct (Hh Hx) as (? & ? & ?). nums. lia.
Qed.

(** Adding a call. *)
Lemma sums_set_call t p w s :
  calls s !! t = None ->
  Sn (set_call t p w s) = Sn s + cn p /\ Su (set_call t p w s) = Su s + cu p /\
  Sx (set_call t p w s) = Sx s + cx p /\ Sa (set_call t p w s) = Sa s + ca p.
Proof.
  intros Ht. unfold Sn, Su, Sx, Sa, set_call; cbn [pool calls].
  rewrite !msum_insert by done. lia.
Qed.
Lemma sums_end_call t p w s :
  calls s !! t = Some p ->
  Sn s = Sn (end_call t w s) + cn p /\ Su s = Su (end_call t w s) + cu p /\
  Sx s = Sx (end_call t w s) + cx p /\ Sa s = Sa (end_call t w s) + ca p.
Proof.
  intros Ht. unfold Sn, Su, Sx, Sa, end_call; cbn [pool calls].
  rewrite (msum_delete cn (calls s) t p Ht), (msum_delete cu (calls s) t p Ht),
    (msum_delete cx (calls s) t p Ht), (msum_delete ca (calls s) t p Ht). lia.
Qed.
Lemma sums_ret t p o s :
  calls s !! t = Some p -> pool s !! next_id s = None ->
  Sn (ret_borrow t o s) + cn p = Sn s + wn o /\ Su (ret_borrow t o s) + cu p = Su s + wu o /\
  Sx (ret_borrow t o s) + cx p = Sx s + wx o /\ Sa (ret_borrow t o s) + ca p = Sa s.
Proof.
  intros Ht Hn. unfold Sn, Su, Sx, Sa, ret_borrow; cbn [pool calls].
  rewrite !msum_insert by done.
  rewrite (msum_delete cn (calls s) t p Ht), (msum_delete cu (calls s) t p Ht),
    (msum_delete cx (calls s) t p Ht), (msum_delete ca (calls s) t p Ht). lia.
Qed.
Lemma sums_drop t b o s :
  calls s !! t = None -> pool s !! b = Some o ->
  let s' := (drop_start t b o s).1 in
  Sn s' = Sn s /\ Su s' = Su s /\ Sx s' = Sx s /\ Sa s' = Sa s.
Proof.
  intros Ht Hb. unfold Sn, Su, Sx, Sa, drop_start; cbn [pool calls fst].
  rewrite !msum_insert by done.
  rewrite (msum_delete wn (pool s) b o Hb), (msum_delete wu (pool s) b o Hb),
    (msum_delete wx (pool s) b o Hb).
  destruct o as [r []|]; cbn [wn wu wx cn cu cx ca]; lia.
Qed.

Lemma fresh_id s : BI s -> pool s !! next_id s = None.
Proof.
  intros HI. destruct (pool s !! next_id s) as [o|] eqn:Ho; [|done].
  pose proof (bi_fresh s HI _ _ Ho) as [? _]. lia.
Qed.

(** Invariant for a step that only adds a call. *)
Lemma BI_set_call t p w s :
  BI s -> calls s !! t = None -> load (set_call t p w s) < 2 ^ 62 ->
  pc_ok s p ->
  (Sx s + cx p = 0 \/ Sx s + cx p = 1) ->
  (Sx s + cx p = 0 -> w = Sn s + cn p /\ Su s + cu p = 0) ->
  (Sx s + cx p = 1 -> Sn s + cn p = 0 /\ HIGH_BIT + (Su s + cu p) <= w /\
     w < MAX_FAILED_BORROWS + (Sa s + ca p)) ->
  BI (set_call t p w s).
Proof.
  intros HI Ht Hl Hp Hx Hf Hh.
  destruct (sums_set_call t p w s Ht) as (E1 & E2 & E3 & E4).
  split; rewrite ?E1, ?E2, ?E3, ?E4; try done.
  - intros t' p' Hp'. cbn [set_call calls] in Hp'.
    destruct (decide (t' = t)) as [->|Hne].
    + rewrite lookup_insert in Hp'. by injection Hp' as <-.
    + rewrite lookup_insert_ne in Hp' by done. exact (bi_pc s HI t' p' Hp').
  - exact (bi_root s HI).
  - exact (bi_fresh s HI).
Qed.

(** Invariant for a step that only ends a call. *)
Lemma BI_end_call t p w s :
  BI s -> calls s !! t = Some p ->
  (Sx s - cx p = 0 \/ Sx s - cx p = 1) ->
  (Sx s - cx p = 0 -> w = Sn s - cn p /\ Su s - cu p = 0) ->
  (Sx s - cx p = 1 -> Sn s - cn p = 0 /\ HIGH_BIT + (Su s - cu p) <= w /\
     w < MAX_FAILED_BORROWS + (Sa s - ca p)) ->
  BI (end_call t w s).
Proof.
  intros HI Ht Hx Hf Hh.
  destruct (sums_end_call t p w s Ht) as (E1 & E2 & E3 & E4).
  replace (Sx s - cx p) with (Sx (end_call t w s)) in * by lia.
  replace (Sn s - cn p) with (Sn (end_call t w s)) in * by lia.
  replace (Su s - cu p) with (Su (end_call t w s)) in * by lia.
  replace (Sa s - ca p) with (Sa (end_call t w s)) in * by lia.
  split; try done.
  - unfold load. cbn [end_call pool calls].
    pose proof (bi_load s HI) as Hl. unfold load in Hl.
    pose proof (map_size_delete_Some t (calls s) (ltac:(by exists p))) as Hsz.
    assert (size (calls s) <> 0%nat).
    { intros H0. apply map_size_empty_inv in H0. rewrite H0, lookup_empty in Ht. done. }
    rewrite Hsz. lia.
  - intros t' p' Hp'. cbn [end_call calls] in Hp'. apply lookup_delete_Some in Hp' as [_ Hp'].
    exact (bi_pc s HI t' p' Hp').
  - exact (bi_root s HI).
  - exact (bi_fresh s HI).
Qed.

(** Invariant when a call returns a borrow. *)
Lemma BI_ret t p o s :
  BI s -> calls s !! t = Some p -> load (ret_borrow t o s) < 2 ^ 62 ->
  cn p = wn o -> cu p = wu o -> cx p = wx o -> ca p = 0 ->
  (forall r, o = BShared r true -> pool s !! r = Some BExcl) ->
  (root_of (next_id s) o).1 < next_id s + 1 ->
  BI (ret_borrow t o s).
Proof.
  intros HI Ht Hl En Eu Ex Ea Hr Hrt. pose proof (fresh_id s HI) as Hn.
  destruct (sums_ret t p o s Ht Hn) as (E1 & E2 & E3 & E4).
  assert (Sn (ret_borrow t o s) = Sn s) as F1 by lia.
  assert (Su (ret_borrow t o s) = Su s) as F2 by lia.
  assert (Sx (ret_borrow t o s) = Sx s) as F3 by lia.
  assert (Sa (ret_borrow t o s) = Sa s) as F4 by lia.
  split; rewrite ?F1, ?F2, ?F3, ?F4; try done.
  - apply HI.
  - apply HI.
  - apply HI.
  - intros t' p' Hp'. cbn [ret_borrow calls] in Hp'. apply lookup_delete_Some in Hp' as [Hne Hp'].
    pose proof (bi_pc s HI t' p' Hp') as Hok.
    destruct p' as [|n|old|b r u n|b|old|r u|]; cbn [pc_ok] in *; try done.
    + destruct Hok as (? & ? & o' & Ho' & Hro). split_and!; try done. exists o'.
      split; [|done]. cbn [ret_borrow pool]. rewrite lookup_insert_ne; [done|].
      intros Heq. rewrite Heq in Hn. congruence.
    + destruct u; [|done]. cbn [ret_borrow pool]. rewrite lookup_insert_ne; [done|].
      intros Heq. rewrite Heq in Hn. congruence.
  - intros b r Hb. cbn [ret_borrow pool] in *.
    assert (pool s !! r = Some BExcl) as Hrr.
    { destruct (decide (b = next_id s)) as [->|Hne].
      - rewrite lookup_insert in Hb. injection Hb as ->. by apply Hr.
      - rewrite lookup_insert_ne in Hb by done. exact (bi_root s HI b r Hb). }
    rewrite lookup_insert_ne; [done|]. intros Heq. rewrite Heq in Hn. congruence.
  - intros b o' Hb. cbn [ret_borrow pool next_id] in *.
    destruct (decide (b = next_id s)) as [->|Hne].
    + rewrite lookup_insert in Hb. injection Hb as <-. split; [lia|done].
    + rewrite lookup_insert_ne in Hb by done. pose proof (bi_fresh s HI b o' Hb). lia.
Qed.

(** Invariant when a drop starts. *)
Lemma BI_drop t b o s :
  BI s -> calls s !! t = None -> pool s !! b = Some o -> may_drop b o s = true ->
  load (drop_start t b o s).1 < 2 ^ 62 ->
  BI (drop_start t b o s).1.
Proof.
  intros HI Ht Hb Hm Hl.
  destruct (sums_drop t b o s Ht Hb) as (F1 & F2 & F3 & F4).
  unfold may_drop in Hm. apply andb_prop in Hm as [Hm1 Hm2]. apply negb_true_iff in Hm1.
  split; rewrite ?F1, ?F2, ?F3, ?F4; try done.
  - apply HI.
  - apply HI.
  - apply HI.
  - intros t' p' Hp'. unfold drop_start in Hp'. cbn [fst calls] in Hp'.
    destruct (decide (t' = t)) as [->|Hne].
    + rewrite lookup_insert in Hp'. injection Hp' as <-.
      destruct o as [r []|]; cbn [pc_ok]; try done.
      unfold drop_start; cbn [fst pool].
      pose proof (bi_root s HI b r Hb) as Hr.
      rewrite lookup_delete_ne; [done|]. intros ->. congruence.
    + rewrite lookup_insert_ne in Hp' by done.
      pose proof (bi_pc s HI t' p' Hp') as Hok.
      pose proof (anyb_false _ _ _ _ Hm1 Hp') as Hc.
      destruct p' as [|n|old|b' r u n|b'|old|r u|]; cbn [pc_ok in_clone] in *; try done.
      * destruct Hok as (? & ? & o' & Ho' & Hro). split_and!; try done. exists o'.
        split; [|done]. cbn [pool fst drop_start]. rewrite lookup_delete_ne; [done|].
        by apply N.eqb_neq.
      * destruct u; [|done]. unfold drop_start; cbn [fst pool].
        rewrite lookup_delete_ne; [done|]. intros ->.
        rewrite Hb in Hok. injection Hok as ->.
        apply andb_prop in Hm2 as [_ Hm2]. apply negb_true_iff in Hm2.
        pose proof (anyb_false _ _ _ _ Hm2 Hp') as Hd. cbn [drop_under] in Hd.
        by rewrite N.eqb_refl in Hd.
  - intros b' r Hb'. unfold drop_start in *. cbn [fst pool] in *.
    apply lookup_delete_Some in Hb' as [Hne Hb'].
    pose proof (bi_root s HI b' r Hb') as Hr.
    rewrite lookup_delete_ne; [done|]. intros ->. rewrite Hb in Hr. injection Hr as ->.
    apply andb_prop in Hm2 as [Hm2 _]. apply negb_true_iff in Hm2.
    pose proof (anyb_false _ _ _ _ Hm2 Hb') as Hd. cbn [obj_under] in Hd.
    by rewrite N.eqb_refl in Hd.
  - intros b' o' Hb'. unfold drop_start in *. cbn [fst pool next_id] in *.
    apply lookup_delete_Some in Hb' as [Hne Hb']. exact (bi_fresh s HI b' o' Hb').
Qed.

(** Only one thing can hold the exclusive access. *)
Lemma excl_pool_calls s t p b :
  BI s -> pool s !! b = Some BExcl -> calls s !! t = Some p -> cx p = 0.
Proof.
  intros HI Hb Hp. pose proof (msum_ge wx _ _ _ Hb) as H1. pose proof (msum_ge cx _ _ _ Hp) as H2.
  pose proof (bi_x s HI) as Hx. unfold Sx in Hx. cbn [wx] in H1. lia.
Qed.
Lemma cu_root s t p : BI s -> calls s !! t = Some p -> cu p <> 0 ->
  exists r, pool s !! r = Some BExcl.
Proof.
  intros HI Hp Hc. pose proof (bi_pc s HI t p Hp) as Hok.
  destruct p as [|n|old|b r [] n|b|old|r []|]; cbn [cu pc_ok] in *; try done.
  - destruct Hok as (_ & _ & o & Ho & Hr). destruct o as [r' u|]; cbn [root_of] in Hr.
    + injection Hr as -> ->. exists r. exact (bi_root s HI b r Ho).
    + injection Hr as ->. by exists r.
  - by exists r.
Qed.
Lemma DropX_no_under s t : BI s -> calls s !! t = Some DropX -> Su s = 0.
Proof.
  intros HI Ht. unfold Su.
  assert (forall r, pool s !! r <> Some BExcl) as Hno.
  { intros r Hr. pose proof (excl_pool_calls s t _ r HI Hr Ht) as He. done. }
  rewrite (msum_zero wu), (msum_zero cu); [done| |].
  - intros t' p' Hp'. destruct (decide (cu p' = 0)) as [|Hn]; [done|].
    destruct (cu_root s t' p' HI Hp' Hn) as [r Hr]. by destruct (Hno r).
  - intros b [r []|] Ho; cbn [wu]; try done. destruct (Hno r). exact (bi_root s HI b r Ho).
Qed.

Lemma BI_step c s l s' ev :
  BI s -> b_step c s l = Some (s', ev) -> load s' < 2 ^ 62 -> BI s'.
Proof.
  intros HI Hst Hl. destruct l as [t a]. unfold b_step in Hst.
  destruct (aborted s); [done|].
  pose proof (BI_word s HI) as Hw. pose proof (BI_add_ne s HI) as Hne.
  pose proof (bi_x s HI) as Hx. pose proof (bi_free s HI) as Hf. pose proof (bi_held s HI) as Hh.
  pose proof (load_bounds s) as [Hb1 Hb2]. pose proof (bi_load s HI) as Hls.
  assert (calls s !! t = None -> load (set_call t (ReadGot (fetch_add1 (word s))) (fetch_add1 (word s)) s)
            < 2 ^ 62 ->
     BI (set_call t (ReadGot (fetch_add1 (word s))) (fetch_add1 (word s)) s)) as Hread.
  { intros Ht Hl'. rewrite fetch_add1_small in * by done.
    apply BI_set_call; try done; cbn [pc_ok cn cu cx ca].
    - lia.
    - intros H0. rewrite N.add_0_r in H0. destruct (Hf H0). nums.
      destruct (N.ltb_spec (word s + 1) 9223372036854775808); lia.
    - intros H1. rewrite N.add_0_r in H1. destruct (Hh H1) as (? & ? & ?). nums.
      destruct (N.ltb_spec (word s + 1) 9223372036854775808);
      destruct (N.leb_spec 13835058055282163712 (word s + 1)); lia. }
  assert (calls s !! t = None -> load (set_call t (WriteGot (word s)) (if word s =? 0 then HIGH_BIT else word s) s)
            < 2 ^ 62 ->
     BI (set_call t (WriteGot (word s)) (if word s =? 0 then HIGH_BIT else word s) s)) as Hwrite.
  { intros Ht Hl'.
    apply BI_set_call; try done; cbn [cn cu cx ca]; nums;
      destruct (N.eqb_spec (word s) 0) as [H0|H0].
    - destruct Hx as [Hx|Hx]; [lia|]. destruct (Hh Hx). lia.
    - lia.
    - lia.
    - intros H1. rewrite N.add_0_r in H1. destruct (Hf H1). lia.
    - intros H1. assert (Sx s = 0) as H2 by lia. destruct (Hf H2). lia.
    - intros H1. rewrite N.add_0_r in H1. destruct (Hh H1) as (? & ? & ?). lia. }
  destruct a as [| |b|b|]; destruct (calls s !! t) as [p|] eqn:Ht; try done.
  - (* ABorrow *)
    injection Hst as Hst. unfold borrow_start in Hst.
    assert ((s', ev) = read_start t s \/ (s', ev) = xread_start t s \/ s' = s) as Hc.
    { destruct (c_sync c); [by left|]. destruct (c_send c) as [h|]; [|by right; left].
      destruct (h =? t); [by left|]. right; right. congruence. }
    destruct Hc as [Hc|[Hc|Hc]].
    + injection Hc as -> _. by apply Hread.
    + injection Hc as -> _.
      apply BI_set_call; try done; cbn [pc_ok cn cu cx ca]; nums;
        destruct (N.eqb_spec (word s) 0) as [H0|H0].
      * lia.
      * lia.
      * intros H1. rewrite N.add_0_r in H1. destruct (Hf H1). lia.
      * intros H1. rewrite N.add_0_r in H1. destruct (Hf H1). lia.
      * intros H1. rewrite N.add_0_r in H1. destruct (Hh H1) as (? & ? & ?). lia.
      * intros H1. rewrite N.add_0_r in H1. destruct (Hh H1) as (? & ? & ?). lia.
    + by subst.
  - (* ABorrowMut *)
    injection Hst as Hst. unfold borrow_mut_start in Hst.
    assert ((s', ev) = write_start t s \/ s' = s) as Hc.
    { destruct (c_send c) as [h|]; [|by left].
      destruct (h =? t); [by left|]. right. congruence. }
    destruct Hc as [Hc|Hc]; [|by subst].
    injection Hc as -> _. by apply Hwrite.
  - (* AClone *)
    destruct (pool s !! b) as [o|] eqn:Hb; [|done]. injection Hst as Hst.
    unfold clone_start in Hst. rewrite fetch_add1_small in * by done.
    destruct (root_of b o) as [r u] eqn:Hr. injection Hst as <- _.
    assert (u = false -> Sx s = 0) as Hu.
    { intros ->. destruct o as [r' u'|]; cbn [root_of] in Hr; [|done].
      injection Hr as -> ->. destruct Hx as [Hx|Hx]; [done|].
      destruct (Hh Hx) as (H1 & _). pose proof (msum_ge wn _ _ _ Hb) as H2.
      unfold Sn in H1. cbn [wn] in H2. lia. }
    assert (u = true -> Sx s = 1) as Hu'.
    { intros ->. assert (exists r, pool s !! r = Some BExcl) as [r' Hr'].
      { destruct o as [r' u'|]; cbn [root_of] in Hr; [|by exists b].
        injection Hr as -> ->. exists r. exact (bi_root s HI b r Hb). }
      pose proof (msum_ge wx _ _ _ Hr') as H2. cbn [wx] in H2. unfold Sx in *. lia. }
    apply BI_set_call; try done.
    + cbn [pc_ok]. split_and!; [lia|done|]. by exists o.
    + cbn [cx]. lia.
    + cbn [cx cn cu]. intros H0. rewrite N.add_0_r in H0. destruct (Hf H0).
      destruct u; [specialize (Hu' eq_refl); lia|]. lia.
    + cbn [cx cn cu ca]. intros H0. rewrite N.add_0_r in H0. destruct (Hh H0) as (? & ? & ?).
      destruct u; [|specialize (Hu eq_refl); lia]. nums.
      destruct (N.leb_spec 13835058055282163712 (word s + 1)); lia.
  - (* ADrop *)
    destruct (pool s !! b) as [o|] eqn:Hb; [|done].
    destruct (may_drop b o s) eqn:Hm; [|done]. injection Hst as Hst.
    replace s' with (drop_start t b o s).1 in * by (by rewrite Hst).
    by apply BI_drop.
  - (* AStep *)
    injection Hst as Hst. pose proof (bi_pc s HI t p Ht) as Hok.
    pose proof (sums_end_call t p (word s) s Ht) as (E1 & E2 & E3 & E4).
    destruct p as [new| |old|b r u new|b|old|r u|]; cbn [continue pc_ok] in *; try done.
    + destruct Hok as [Hlt Hnh]. rewrite high_spec in Hst by done.
      destruct (N.leb_spec HIGH_BIT new) as [Hge|Hlo].
      * destruct (N.eqb_spec new HIGH_BIT); [done|].
        destruct (N.leb_spec MAX_FAILED_BORROWS new) as [Hab|Hab].
        -- injection Hst as <- _. destruct HI. split; done.
        -- injection Hst as <- _. apply (BI_end_call t _ _ _ HI Ht).
           ++ cbn [cx]. lia.
           ++ cbn [cx cn cu]. rewrite N.sub_0_r. intros H0. destruct (Hf H0).
              rewrite (proj2 (N.ltb_ge _ _) Hge). lia.
           ++ cbn [cx cn cu ca]. rewrite N.sub_0_r. intros H0. destruct (Hh H0) as (? & ? & ?).
              rewrite (proj2 (N.ltb_ge _ _) Hge), (proj2 (N.leb_gt _ _) Hab). lia.
      * injection Hst as <- _. apply (BI_ret t (ReadGot new)); try done; cbn [cn cu cx ca wn wu wx].
        -- by rewrite (proj2 (N.ltb_lt _ _) Hlo).
        -- nums. destruct (N.leb_spec 13835058055282163712 new); lia.
        -- cbn [root_of fst]. lia.
    + destruct (N.eqb_spec old 0) as [->|Ho].
      * injection Hst as <- _. apply (BI_ret t (XReadGot 0)); try done.
        cbn [root_of fst]. lia.
      * injection Hst as <- _. apply (BI_end_call t _ _ _ HI Ht); cbn [cn cu cx ca];
          rewrite (proj2 (N.eqb_neq _ _) Ho) || idtac.
        -- lia.
        -- rewrite !N.sub_0_r. intros H0. by apply Hf.
        -- rewrite !N.sub_0_r. intros H0. by apply Hh.
    + destruct Hok as (Hlt & Hnh & o & Hb & Hr).
      destruct (N.eqb_spec new HIGH_BIT); [done|].
      destruct (N.leb_spec MAX_FAILED_BORROWS new) as [Hab|Hab].
      * injection Hst as <- _. destruct HI. split; done.
      * injection Hst as <- _. apply (BI_ret t (CloneGot b r u new)); try done.
        -- cbn [ca]. by rewrite (proj2 (N.leb_gt _ _) Hab).
        -- intros r' [= -> ->]. destruct o as [r1 u1|]; cbn [root_of] in Hr.
           ++ injection Hr as -> ->. exact (bi_root s HI b r' Hb).
           ++ by injection Hr as ->.
        -- pose proof (bi_fresh s HI b o Hb) as [_ Hfr]. rewrite Hr in Hfr. cbn [fst root_of] in *.
           lia.
    + destruct (N.eqb_spec old 0) as [->|Ho].
      * injection Hst as <- _. apply (BI_ret t (WriteGot 0)); try done.
        cbn [root_of fst]. lia.
      * injection Hst as <- _. apply (BI_end_call t _ _ _ HI Ht); cbn [cn cu cx ca];
          rewrite ?(proj2 (N.eqb_neq _ _) Ho).
        -- lia.
        -- rewrite !N.sub_0_r. intros H0. by apply Hf.
        -- rewrite !N.sub_0_r. intros H0. by apply Hh.
    + injection Hst as <- _. apply (BI_end_call t _ _ _ HI Ht); destruct u; cbn [cn cu cx ca] in *.
      * lia.
      * lia.
      * rewrite !N.sub_0_r. intros H0. destruct (Hf H0). lia.
      * rewrite !N.sub_0_r. intros H0. destruct (Hf H0) as [Hf1 Hf2].
        rewrite fetch_sub1_pos; [|lia|lia]. split; lia.
      * rewrite !N.sub_0_r. intros H0. destruct (Hh H0) as (? & ? & ?).
        rewrite fetch_sub1_pos; [|lia|lia]. split_and!; lia.
      * rewrite !N.sub_0_r. intros H0. destruct (Hh H0) as (? & ? & ?). lia.
    + injection Hst as <- _. pose proof (DropX_no_under s t HI Ht) as Hu.
      cbn [cn cu cx ca] in *.
      assert (Sx s = 1) as H1 by lia. destruct (Hh H1) as (? & ? & ?).
      apply (BI_end_call t _ _ _ HI Ht); cbn [cn cu cx ca]; lia.
Qed.

Lemma b_reach_BI c tr s : b_reach c tr s -> BI s.
Proof.
  induction 1 as [|tr s l s' ev Hr IH Hst Hl]; [apply BI_init|].
  exact (BI_step c s l s' ev IH Hst Hl).
Qed.
