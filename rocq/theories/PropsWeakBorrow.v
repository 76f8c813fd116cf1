(** C71: the borrow flag of a storage keeps data accesses apart under release/acquire memory.
    Model: WeakBorrow.v. Happens-before and data races: WeakBorrowSpec.v. *)
From stdpp Require Import prelude list gmap.
From Coq Require Import NArith Lia.
From Verif Require Import EntityId Borrow BorrowProofs WeakBorrow WeakBorrowSpec WeakBorrowProofs WeakBorrowHb.
Local Open Scope nat_scope.

(** * Spec *)
(** Content reachable from all threads, Send and not Sync, of one thread only. *)
Definition cfg_plain : cell_cfg := {| c_send := None; c_sync := true |}.
Definition cfg_cell : cell_cfg := {| c_send := None; c_sync := false |}.

(** Message [τ] is the last one of the word. *)
Definition newest (s : wst) (τ : N) : Prop := ∀ τ', (τ < τ')%N → hist s !! τ' = None.
(** The call made a borrow. *)
Definition granted (s s' : wst) : Prop := nobj s' = (nobj s + 1)%N.

(** * Theorems *)
Lemma trace_good o c tr s : enough o → wtrace o c tr s → good c s.
Proof.
  intros Ho H. apply trace_run in H. eapply good_run; [exact Ho| |exact H]. left. apply winv_init.
Qed.

(** No run of the code as it is has a data race. *)
Theorem C71_race_free c tr s :
  wtrace crate_ords c tr s → ∀ i j, ¬ data_race crate_ords c tr i j.
Proof.
  intros H i j Hrace. assert (raced s = true) as Hr.
  { apply (raced_iff _ _ _ _ H). by exists i, j. }
  rewrite (good_raced c s) in Hr; [done|]. eapply trace_good; [|exact H]. done.
Qed.

(** Five of the seven orderings are what that takes: with these five, whatever the other two are, there
    is no race; without any one of them there is a run with a race. *)
Theorem C71_orderings o :
  (a_read o = true ∧ a_xread o = true ∧ a_write o = true ∧ r_shared o = true ∧ r_excl o = true) ↔
  (∀ c tr s, wtrace o c tr s → ∀ i j, ¬ data_race o c tr i j).
Proof.
  split.
  - intros Ho c tr s H i j Hrace. assert (raced s = true) as Hr.
    { apply (raced_iff _ _ _ _ H). by exists i, j. }
    rewrite (good_raced c s) in Hr; [done|]. by eapply trace_good.
  - intros Hno.
    assert (∀ c l, match w_run o c w_init l with Some s => raced s | None => false end = false) as Hrun.
    { intros c l. destruct (w_run o c w_init l) as [s|] eqn:Hr; [|done].
      destruct (raced s) eqn:E; [|done]. exfalso.
      destruct (run_trace _ _ _ _ Hr) as (tr & Htr & _).
      destruct (proj1 (raced_iff _ _ _ _ Htr) E) as (i & j & Hij). by eapply Hno. }
    (* an exclusive borrow, then a shared one *)
    assert (a_read o && r_excl o = true) as H1.
    { specialize (Hrun cfg_plain [WBorrowMut 1 0; WPoke 1 0; WDrop 1 0 2; WBorrow 2 2; WLook 2 1]%N).
      clear Hno. destruct o as [[] [] [] [] [] [] []]; try reflexivity; vm_compute in Hrun; discriminate. }
    (* a shared borrow, then an exclusive one *)
    assert (a_write o && r_shared o = true) as H2.
    { specialize (Hrun cfg_plain [WBorrow 1 0; WLook 1 0; WDrop 1 0 1; WBorrowMut 2 2; WPoke 2 1]%N).
      clear Hno. destruct o as [[] [] [] [] [] [] []]; try reflexivity; vm_compute in Hrun; discriminate. }
    (* two shared borrows of content that is not Sync *)
    assert (a_xread o && r_shared o = true) as H3.
    { specialize (Hrun cfg_cell [WBorrow 1 0; WPoke 1 0; WDrop 1 0 1; WBorrow 2 2; WPoke 2 1]%N).
      clear Hno. destruct o as [[] [] [] [] [] [] []]; try reflexivity; vm_compute in Hrun; discriminate. }
    apply andb_true_iff in H1 as [? ?]. apply andb_true_iff in H2 as [? ?]. apply andb_true_iff in H3 as [? _]. done.
Qed.

(** While an exclusive borrow is alive, all other live borrows are reborrows of it. *)
Theorem C71_exclusive c tr s b x b' x' :
  wtrace crate_ords c tr s → objs s !! b = Some x → o_excl x = true →
  objs s !! b' = Some x' → b' ≠ b → o_excl x' = false ∧ o_root x' = Some b.
Proof.
  intros H Hb Hx Hb' Hne. assert (good c s) as Hg by (eapply trace_good; [|exact H]; done).
  exact (good_excl c s Hg b x b' x' Hb Hb' Hne Hx).
Qed.

(** For content that is not Sync, all live shared borrows belong to one thread. *)
Theorem C71_not_sync c tr s b x b' x' :
  wtrace crate_ords c tr s → dead s = false → c_sync c = false → objs s !! b = Some x → o_excl x = false →
  objs s !! b' = Some x' → o_excl x' = false → o_own x' = o_own x.
Proof.
  intros H Hd Hc Hb Hx Hb' Hx'. assert (good c s) as Hg by (eapply trace_good; [|exact H]; done).
  destruct Hg as [(e & l & m & _ & _ & Hco & _)|[Hd' _]]; [|congruence].
  destruct (v_own _ _ _ Hco Hc b x Hb Hx) as [_ H2]. by apply (H2 b').
Qed.

Lemma short_run c tr s :
  wtrace crate_ords c tr s → (N.of_nat (length tr) < 2 ^ 62)%N →
  good c s ∧ exact_word (N.of_nat (length tr)) s.
Proof.
  intros H Hlen. apply trace_run in H.
  pose proof (exact_run c crate_ords (map e_act tr) 0 w_init s) as He.
  rewrite map_length in He. apply He; [done|left; apply winv_init|apply exact_init|exact Hlen|exact H].
Qed.

(** A borrow that a thread which reads the newest value of the word does not get is in conflict
    with a live one (runs of fewer than 2^62 steps). *)
Theorem C71_refused_borrow c tr s t τ s' :
  wtrace crate_ords c tr s → (N.of_nat (length tr) < 2 ^ 62)%N → c_sync c = true →
  w_step crate_ords c s (WBorrow t τ) = Some s' → newest s τ → ¬ granted s s' →
  ∃ b x, objs s !! b = Some x ∧ o_excl x = true.
Proof.
  intros H Hlen Hc Hs Hnew Hng. destruct (short_run _ _ _ H Hlen) as [Hg Hx].
  unfold w_step in Hs. destruct (dead s || _) eqn:Hd; [done|]. unfold w_borrow in Hs. rewrite Hc in Hs.
  unfold w_read in Hs. destruct (rmw _ _ _ _ _ _) as [s1|] eqn:Hr; [|done].
  apply rmw_inv in Hr as (m & k & Hm & Hf & Hsn & Hk & Hs1).
  destruct (refused_last _ _ _ _ _ Hg Hx Hm Hnew) as [?|[Hv Hsz]]; [done|]. exfalso. apply Hng.
  assert (val_at (τ + 1) s1 = fetch_add1 (m_val m)) as Hval.
  { subst s1. unfold val_at. cbn [hist put_msg]. by rewrite lookup_insert. }
  assert (m_val m < MAX_FAILED_BORROWS)%N as Hsm by (nums; lia).
  rewrite Hval, (add1 _ Hsm), high_spec in Hs by (nums; lia).
  destruct (N.leb_spec HIGH_BIT (m_val m + 1)) as [?|_]; [nums; lia|].
  injection Hs as <-. unfold granted. by subst s1.
Qed.
Theorem C71_refused_borrow_mut c tr s t τ s' :
  wtrace crate_ords c tr s → (N.of_nat (length tr) < 2 ^ 62)%N → (c_send c = None ∨ c_send c = Some t) →
  w_step crate_ords c s (WBorrowMut t τ) = Some s' → newest s τ → ¬ granted s s' →
  ∃ b x, objs s !! b = Some x.
Proof.
  intros H Hlen Hc Hs Hnew Hng. destruct (short_run _ _ _ H Hlen) as [Hg Hx].
  unfold w_step in Hs. destruct (dead s || _) eqn:Hd; [done|].
  assert (w_write crate_ords t τ s = Some s') as Hw.
  { unfold w_borrow_mut in Hs. destruct Hc as [E|E]; rewrite E in Hs; [done|]. by rewrite N.eqb_refl in Hs. }
  unfold w_write, cas in Hw. destruct (hist s !! τ) as [m|] eqn:Hm; [|done].
  destruct (N.eqb_spec (m_val m) 0) as [Hz|Hnz].
  - destruct (rmw _ _ _ _ _ _) as [s1|] eqn:Hr; [|done]. injection Hw as <-. exfalso. apply Hng.
    apply rmw_inv in Hr as (m1 & k & _ & _ & _ & _ & ->). done.
  - destruct (refused_last _ _ _ _ _ Hg Hx Hm Hnew) as [(b & x & Hb & _)|[Hv Hsz]]; [by exists b, x|].
    destruct (decide (objs s = ∅)) as [E|Hne].
    + rewrite E, map_size_empty in Hv. done.
    + apply map_choose in Hne as (b & x & Hb). by exists b, x.
Qed.

(** A thread that reads an outdated value may be refused though no borrow is alive: thread 1 has
    written and dropped its exclusive borrow, thread 2 has not seen that. *)
Definition stale_run : list waction := [WBorrowMut 1 0; WPoke 1 0; WDrop 1 0 5]%N.
Theorem C71_stale_refuted :
  ¬ ∀ c tr s t τ s', wtrace crate_ords c tr s → c_sync c = true → (N.of_nat (length tr) < 2 ^ 62)%N →
      w_step crate_ords c s (WBorrow t τ) = Some s' → ¬ granted s s' → ∃ b x, objs s !! b = Some x.
Proof.
  intros Hall. destruct (w_run crate_ords cfg_plain w_init stale_run) as [s|] eqn:Hr; [|vm_compute in Hr; discriminate].
  destruct (run_trace _ _ _ _ Hr) as (tr & Htr & Hl).
  assert (length tr = 3) as Hlen by (rewrite <- (map_length e_act), Hl; reflexivity).
  assert (match w_run crate_ords cfg_plain w_init stale_run with
          | Some s => match w_step crate_ords cfg_plain s (WBorrow 2 1) with
                      | Some s' => (nobj s' =? nobj s)%N && (N.of_nat (size (objs s)) =? 0)%N
                      | None => false end
          | None => false end = true) as Hc by (vm_compute; reflexivity).
  rewrite Hr in Hc. destruct (w_step crate_ords cfg_plain s (WBorrow 2 1)) as [s'|] eqn:Hs; [|discriminate].
  apply andb_true_iff in Hc as [Hn Hz]. apply N.eqb_eq in Hn. apply N.eqb_eq in Hz.
  destruct (Hall cfg_plain tr s 2%N 1%N s' Htr eq_refl) as (b & x & Hb).
  - rewrite Hlen. lia.
  - exact Hs.
  - unfold granted. lia.
  - assert (objs s = ∅) as E by (apply map_size_empty_inv; lia). rewrite E, lookup_empty in Hb. discriminate.
Qed.

(** * The hypotheses are met by non-trivial cases *)
(** Two threads, an exclusive borrow with a reborrow that another thread uses, a clone of a shared one, a
    refused borrow that reads an outdated value, synchronisation outside of the cell: a run, without race. *)
Definition demo : list waction :=
  [WBorrowMut 1 0; WPoke 1 0; WClone 1 0 1; WSync 1 2; WLook 2 1; WBorrow 3 2; WDrop 2 1 3; WSync 2 1;
   WPoke 1 0; WDrop 1 0 7; WBorrow 4 4; WBorrow 2 7; WClone 2 2 8; WLook 2 3; WDrop 2 3 9; WDrop 2 2 10;
   WBorrowMut 5 11; WPoke 5 4]%N.
Definition run_info (r : option wst) : option (N * N * N * bool) :=
  match r with
  | Some s => Some (N.of_nat (size (hist s)), N.of_nat (size (objs s)), nev s, raced s)
  | None => None
  end.
Example demo_run : run_info (w_run crate_ords cfg_plain w_init demo) = Some (12%N, 1%N, 5%N, false).
Proof. vm_compute. reflexivity. Qed.
Example demo_trace : ∃ tr s, wtrace crate_ords cfg_plain tr s ∧ length tr = 18.
Proof.
  pose proof demo_run as Hd.
  destruct (w_run crate_ords cfg_plain w_init demo) as [s|] eqn:Hr; [clear Hd|discriminate Hd].
  destruct (run_trace _ _ _ _ Hr) as (tr & Htr & Hl). exists tr, s. split; [exact Htr|].
  rewrite <- (map_length e_act), Hl. reflexivity.
Qed.
(** With a Relaxed store in ExclusiveBorrow::drop the same run has a race. *)
Definition relaxed_store : ords :=
  {| a_read := true; a_xread := true; a_clone := true; a_write := true;
     r_shared := true; r_excl := false; r_undo := true |}.
Example demo_race : run_info (w_run relaxed_store cfg_plain w_init demo) = Some (12%N, 1%N, 5%N, true).
Proof. vm_compute. reflexivity. Qed.
(** Content that is not Sync: two threads one after the other, each writes through a shared borrow. *)
Definition demo_cell : list waction :=
  [WBorrow 1 0; WPoke 1 0; WClone 1 0 1; WPoke 1 1; WBorrow 2 1; WDrop 1 1 2; WDrop 1 0 3; WBorrow 2 4; WPoke 2 2]%N.
Example demo_cell_run : run_info (w_run crate_ords cfg_cell w_init demo_cell) = Some (6%N, 1%N, 3%N, false).
Proof. vm_compute. reflexivity. Qed.

Print Assumptions C71_race_free.
Print Assumptions C71_orderings.
Print Assumptions C71_exclusive.
Print Assumptions C71_not_sync.
Print Assumptions C71_refused_borrow.
Print Assumptions C71_refused_borrow_mut.
Print Assumptions C71_stale_refuted.
