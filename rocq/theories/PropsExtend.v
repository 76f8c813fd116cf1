(** Properties of workloads made with [extend] (C73). *)
From stdpp Require Import prelude list gmap relations.
From Verif Require Import Sched SchedSpec SchedProofs SchedProofs2 SchedProofs3 SchedProofs4 PropsSched PropsSched3
  Extend ExtendSpec ExtendProofs.
Local Open Scope nat_scope.

Lemma built_ext_wf w : built_ext w → Forall wf_wsys (wl_systems w).
Proof.
  induction 1 as [w H|ss w H _ IH|s w H _ IH|w _ IH|w o _ IH1 _ IH2|n w _ IH|c w _ IH]; try exact IH.
  - by apply built_wf in H as [H _].
  - cbn. apply Forall_app. split; [done|]. eapply Forall_impl; [exact H|].
    intros s Hs. by apply declared_wf in Hs as [Hs _].
  - cbn. apply Forall_app. split; [done|]. apply Forall_singleton. apply wf_shift. by apply declared_wf.
  - cbn. apply Forall_app. split; [done|]. apply Forall_map. eapply Forall_impl; [exact IH2|].
    intros s. apply wf_shift.
Qed.

Section ext.
  Context (ss : list wsys) (bars : list nat) (f : fns).
  Hypothesis Hwf : Forall wf_wsys ss.
  Let ps := placed ss bars f.

  Lemma deps_waits i w s j :
    ss !! i = Some w → ps !! i = Some s →
    j ∈ p_hard s ∨ j ∈ p_soft s ↔ waits_for ss bars j i.
  Proof.
    intros Hw Hs. destruct (placed_lookup ss bars f Hwf i w Hw) as (s' & Hs' & _ & _ & _ & _ & _ & _ & _ & Hh & Hso).
    unfold ps in Hs. rewrite Hs in Hs'. injection Hs' as <-. rewrite Hh, Hso.
    pose proof (lookup_lt_Some _ _ _ Hw) as Hlt.
    unfold waits_for, linked, barred, nearest_conflict, nearest, declared_first, conflicting. split.
    - intros [[Hb|[[Ho (Hji & (o & Hj & Hno & Hcl) & Hk)]|He]]|[Ho (Hji & (o & Hj & Hno) & Hk)]].
      + left. right. left. done.
      + left. right. right. refine (conj _ (conj _ _)).
        * split; [done|]. exists o, w. done.
        * exists o, w. split_and!; [done..|]. by apply clash_sym.
        * intros k H1 H2 (_ & sk & sw & Hsk & Hsw & Hnk & _) (sk' & sw' & Hsk' & Hsw' & Hcl').
          rewrite Hsk in Hsk'. injection Hsk' as <-. rewrite Hw in Hsw'. injection Hsw' as <-.
          apply (Hk k H1 H2). exists sk. split_and!; [done..|]. by apply clash_sym.
      + left. left. done.
      + right. split.
        * split; [done|]. exists o, w. done.
        * intros k H1 H2 (_ & sk & sw & Hsk & _ & Hnk & _). apply (Hk k H1 H2). by exists sk.
    - intros [[He|[Hb|(Hd & Hc & Hk)]]|[Hd Hk]].
      + left. right. right. done.
      + left. left. by destruct Hb as [_ ?].
      + left. right. left. destruct Hd as (Hji & sj & sw & Hsj & Hsw & Hnj & Hnw).
        destruct Hc as (sj' & sw' & Hsj' & Hsw' & Hcl). rewrite Hsj in Hsj'. injection Hsj' as <-.
        rewrite Hw in Hsw, Hsw'. injection Hsw as <-. injection Hsw' as <-.
        split; [done|]. split; [done|]. split.
        * exists sj. split_and!; [done..|]. by apply clash_sym.
        * intros k H1 H2 (sk & Hsk & Hnk & Hcl'). apply (Hk k H1 H2).
          -- split; [done|]. exists sk, w. done.
          -- exists sk, w. split_and!; [done..|]. by apply clash_sym.
      + right. destruct Hd as (Hji & sj & sw & Hsj & Hsw & Hnj & Hnw).
        rewrite Hw in Hsw. injection Hsw as <-. split; [done|]. split; [done|]. split.
        * by exists sj.
        * intros k H1 H2 (sk & Hsk & Hnk). apply (Hk k H1 H2). split; [done|]. exists sk, w. done.
  Qed.

  Lemma placed_ex i w : ss !! i = Some w →
    ∃ s, ps !! i = Some s ∧ ∀ j, LUid j ∈ p_tags s ↔ j = w_uid w.
  Proof.
    intros Hw. destruct (placed_lookup ss bars f Hwf i w Hw) as (s & Hs & _ & Ht & _).
    exists s. split; [done|]. intros j. rewrite Ht, elem_of_app, elem_of_list_singleton.
    rewrite Forall_lookup in Hwf. destruct (Hwf i w Hw) as (Hu & _). rewrite Forall_forall in Hu.
    split; [|intros ->; by right].
    intros [H|H]; [|congruence]. by destruct (Hu _ H j).
  Qed.
  Lemma placed_of i s : ps !! i = Some s → ∃ w, ss !! i = Some w.
  Proof.
    intros Hs. apply lookup_lt_is_Some. apply lookup_lt_Some in Hs. unfold ps in Hs.
    by rewrite placed_length in Hs.
  Qed.

  Lemma placeable_turn i : placeable ps i → gets_turn ss bars i.
  Proof.
    apply (placeable_ind2 ps (λ i, gets_turn ss bars i)
      (λ j, ∃ i' s, ss !! i' = Some s ∧ w_uid s = j ∧ gets_turn ss bars i')).
    - intros k s Hs _ IH. constructor. intros j Hj. apply IH.
      destruct (placed_of k s Hs) as [w Hw]. by apply (deps_waits k w s j Hw Hs).
    - intros j k s Hs Ht _ IH. destruct (placed_of k s Hs) as [w Hw].
      exists k, w. split_and!; [done| |done].
      destruct (placed_ex k w Hw) as (s' & Hs' & H). rewrite Hs in Hs'. injection Hs' as <-.
      symmetry. by apply H.
  Qed.
  Lemma turn_placeable i : gets_turn ss bars i → i < length ss → placeable ps i.
  Proof.
    revert i. fix IH 2. intros i H. destruct H as [i H]. intros Hi.
    apply lookup_lt_is_Some in Hi as [w Hw]. destruct (placed_ex i w Hw) as (s & Hs & _).
    econstructor; [exact Hs|]. intros j Hj.
    apply (deps_waits i w s j Hw Hs) in Hj. destruct (H j Hj) as (i' & s' & Hs' & Hu & Ht).
    pose proof (IH i' Ht (lookup_lt_Some _ _ _ Hs')) as Hp.
    destruct (placed_ex i' s' Hs') as (p & Hp' & Hl). econstructor; [exact Hp'| |exact Hp].
    by apply Hl.
  Qed.
End ext.

Lemma no_reqs_checks w sc :
  Forall wf_wsys (wl_systems w) → no_reqs w →
  check_in (insert_systems (wl_systems w) (sc_fns sc)).2 = None ∧
  check_before (placed (wl_systems w) (wl_barriers w) (sc_fns sc)) = None ∧
  check_after (placed (wl_systems w) (wl_barriers w) (sc_fns sc)) = None.
Proof.
  intros Hwf Hreq. unfold no_reqs in Hreq. rewrite Forall_lookup in Hreq.
  assert (Hun : ∀ l, unmet [] l = []).
  { intros l. unfold unmet. induction l as [|x l IH]; [done|]. exact IH. }
  assert (Hpl : ∀ i s, placed (wl_systems w) (wl_barriers w) (sc_fns sc) !! i = Some s →
    p_req_before s = [] ∧ p_req_after s = []).
  { intros i s Hs. assert (∃ x, wl_systems w !! i = Some x) as [x Hx].
    { apply lookup_lt_is_Some. apply lookup_lt_Some in Hs. by rewrite placed_length in Hs. }
    destruct (placed_lookup _ (wl_barriers w) (sc_fns sc) Hwf i x Hx) as (s' & Hs' & _ & _ & _ & E1 & E2 & _).
    rewrite Hs in Hs'. injection Hs' as <-. rewrite E1, E2. by destruct (Hreq i x Hx) as (_ & ? & ?). }
  split_and!; unfold check_in, check_before, check_after; apply first_unmet_none; intros k _ _.
  - destruct (insert_systems _ _) as [f ps] eqn:E. cbn [snd].
    destruct (insert_systems_lookup _ _ _ _ E) as [Hlen H].
    destruct (ps !! k) as [s|] eqn:Es; [|done].
    assert (∃ x, wl_systems w !! k = Some x) as [x Hx].
    { apply lookup_lt_is_Some. rewrite <-Hlen. by apply lookup_lt_Some in Es. }
    destruct (H k x Hx) as (p & Hp & _ & _ & _ & _ & _ & _ & _ & E1 & _).
    rewrite Es in Hp. injection Hp as <-. rewrite E1. destruct (Hreq k x Hx) as (-> & _). apply Hun.
  - destruct (placed _ _ _ !! k) as [s|] eqn:Es; [|done].
    destruct (Hpl k s Es) as [-> _]. apply Hun.
  - destruct (placed _ _ _ !! k) as [s|] eqn:Es; [|done].
    destruct (Hpl k s Es) as [_ ->]. apply Hun.
Qed.

(** * C73: accepting *)

(** A workload that is accepted was ordered. *)
Lemma accepted_ordered w sc sc' info ba order :
  create_workload w sc = Some (sc', inr (info, ba, order)) →
  sc_workloads sc !! wl_name w = None ∧ sc_fns sc' = (insert_systems (wl_systems w) (sc_fns sc)).1 ∧
  order_systems (placed (wl_systems w) (wl_barriers w) (sc_fns sc)) (ba_new (wl_run_if w)) =
    Some (inr (info, ba, order)).
Proof.
  unfold create_workload, placed. destruct (sc_workloads sc !! wl_name w); [done|].
  destruct (insert_systems _ _) as [f ps]. cbn [fst snd].
  destruct (check_in ps) as [[]|]; [done|]. destruct (check_before _) as [[]|]; [done|].
  destruct (check_after _) as [[]|]; [done|]. destruct (order_systems _ _) as [[e|r]|]; [done| |done].
  intros [= <- ->]. done.
Qed.

(** Building ends whatever the numbers. *)
Theorem C73_terminates w sc : built_ext w → is_Some (create_workload w sc).
Proof.
  intros _. unfold create_workload.
  destruct (sc_workloads sc !! wl_name w); [done|].
  destruct (insert_systems _ _) as [f ps].
  destruct (check_in ps) as [[]|]; [done|].
  destruct (check_before _) as [[]|]; [done|]. destruct (check_after _) as [[]|]; [done|].
  destruct (order_systems_any (constrain ps (wl_barriers w)) (ba_new (wl_run_if w)))
    as [(info' & ba' & order' & segs & -> & _)|(l & -> & _)]; done.
Qed.

(** An accepted workload gives every system its turn. *)
Theorem C73_accepted_turns w sc :
  built_ext w → accepted w sc →
  ∀ i, i < length (wl_systems w) → gets_turn (wl_systems w) (wl_barriers w) i.
Proof.
  intros Hb (sc' & [[info ba] order] & Hc) i Hi. pose proof (built_ext_wf w Hb) as Hwf.
  apply accepted_ordered in Hc as (_ & _ & Ho).
  destruct (order_systems_any (placed (wl_systems w) (wl_barriers w) (sc_fns sc)) (ba_new (wl_run_if w)))
    as [(info0 & ba0 & order0 & segs & _ & _ & _ & _ & _ & Hp)|(l & Ho' & _)]; [|congruence].
  eapply placeable_turn; [done|]. apply Hp. by rewrite placed_length.
Qed.

(** Exactly these workloads are accepted. *)
Theorem C73_accepted_iff w sc :
  built_ext w → sc_workloads sc !! wl_name w = None → no_reqs w →
  accepted w sc ↔ ∀ i, i < length (wl_systems w) → gets_turn (wl_systems w) (wl_barriers w) i.
Proof.
  intros Hb Hn Hr. split; [by apply C73_accepted_turns|]. intros Ht.
  pose proof (built_ext_wf w Hb) as Hwf.
  destruct (no_reqs_checks w sc Hwf Hr) as (C1 & C2 & C3).
  destruct (order_systems_any (placed (wl_systems w) (wl_barriers w) (sc_fns sc)) (ba_new (wl_run_if w)))
    as [(info & ba & order & segs & Ho & _)|(l & _ & i & Hi & Hnp)].
  - unfold accepted, create_workload. rewrite Hn. unfold placed in *.
    destruct (insert_systems _ _) as [f ps]. cbn [snd] in *. rewrite C1, C2, C3, Ho.
    by eexists _, (info, ba, order).
  - exfalso. apply Hnp. rewrite placed_length in Hi by done. apply turn_placeable; [done|by apply Ht|done].
Qed.

(** * C73: safety *)

(** The batches of an accepted workload stay free of conflicts, and hold each declared system once. *)
Theorem C73_batch_conflict_free w sc sc' info ba order k b i j x y :
  built_ext w → create_workload w sc = Some (sc', inr (info, ba, order)) →
  info !! k = Some b → members b !! i = Some x → members b !! j = Some y → i ≠ j →
  ¬ clash (p_borrows x) (p_borrows y).
Proof.
  intros Hb Hc Hk Hx Hy Hij. apply accepted_ordered in Hc as (_ & _ & Ho).
  destruct (order_systems_any (placed (wl_systems w) (wl_barriers w) (sc_fns sc)) (ba_new (wl_run_if w)))
    as [(info' & ba0 & order0 & segs & Ho' & -> & _ & Hcf & _ & _)|(l & Ho' & _)]; [|congruence].
  rewrite Ho in Ho'. injection Ho' as -> _ _.
  apply (list_lookup_fmap_Some to_binfo) in Hk as (seg & Hseg & ->).
  pose proof (Hcf seg (elem_of_list_lookup_2 _ _ _ Hseg)) as Hs.
  pose proof (members_perm seg Hs) as Hp.
  apply Permutation_inj in Hp as [_ (g & Hg & Hl)]. rewrite Hl in Hx, Hy.
  apply (Hs (g i) (g j)); [done..|]. intros E. by apply Hij, Hg.
Qed.

Theorem C73_each_once w sc sc' info ba order :
  built_ext w → fns_ok (sc_fns sc) → create_workload w sc = Some (sc', inr (info, ba, order)) →
  concat (map members info) ≡ₚ order ∧
  map placed_key order ≡ₚ map (declared_key (sc_fns sc')) (wl_systems w).
Proof.
  intros Hb Hf Hc. pose proof (built_ext_wf w Hb) as Hwf.
  apply accepted_ordered in Hc as (_ & Hfn & Ho).
  destruct (order_systems_any (placed (wl_systems w) (wl_barriers w) (sc_fns sc)) (ba_new (wl_run_if w)))
    as [(info' & ba0 & order0 & segs & Ho' & -> & -> & Hcf & Hk & _)|(l & Ho' & _)]; [|congruence].
  rewrite Ho in Ho'. injection Ho' as -> _ ->. split.
  - clear -Hcf. induction segs as [|seg segs IH]; [done|]. cbn [map concat].
    rewrite members_perm by (apply Hcf; by left). rewrite IH; [done|]. intros; apply Hcf; by right.
  - set (ps := placed _ _ _) in *.
    assert (H1 : map placed_key (concat segs) ≡ₚ map placed_key ps).
    { change (map ckey (concat segs)) with (ckey <$> concat segs) in Hk.
      change (map ckey ps) with (ckey <$> ps) in Hk.
      set (g := λ k : nat * list tinfo * list label * option cond, (Some k.1.1.1, k.1.1.2, k.2)).
      apply (fmap_Permutation g) in Hk. rewrite <-!list_fmap_compose in Hk. exact Hk. }
    rewrite H1. apply reflexive_eq. apply list_eq. intros i.
    change (map placed_key ps) with (placed_key <$> ps).
    change (map (declared_key (sc_fns sc')) (wl_systems w)) with (declared_key (sc_fns sc') <$> wl_systems w).
    rewrite !list_lookup_fmap.
    destruct (wl_systems w !! i) as [x|] eqn:Ex.
    + destruct (placed_lookup _ (wl_barriers w) (sc_fns sc) Hwf i x Ex)
        as (s & Hs & E1 & _ & _ & _ & _ & E2 & E3 & _).
      unfold ps. rewrite Hs. cbn [fmap option_fmap option_map]. f_equal.
      unfold placed_key, declared_key. rewrite E1, E2, Hfn.
      destruct (insert_systems (wl_systems w) (sc_fns sc)) as [f' ps'] eqn:Ei. cbn [fst snd] in *.
      destruct (insert_systems_fns _ _ _ _ Hf Ei) as (_ & _ & _ & H & _).
      destruct (insert_systems_lookup _ _ _ _ Ei) as [_ Hl]. destruct (Hl i x Ex) as (p & Hp & _).
      rewrite Hp in E3. cbn in E3. rewrite (H i x p Ex Hp). by rewrite E3.
    + assert (ps !! i = None) as ->; [|done]. apply lookup_ge_None in Ex.
      apply lookup_ge_None. unfold ps. by rewrite placed_length.
Qed.

(** * C73: [extend] compared with [with_system] *)

(** Lists of systems that differ in the numbers only. *)
Definition vis (s : wsys) := (w_borrows s, w_tags s, w_before_all s, w_after_all s).
Definition alike (ss ss' : list wsys) : Prop := ∀ i, vis <$> ss !! i = vis <$> ss' !! i.

Section alike.
  Context (ss ss' : list wsys) (bars : list nat).
  Hypothesis Ha : alike ss ss'.

  Lemma alike_lookup i s : ss !! i = Some s → ∃ s', ss' !! i = Some s' ∧ vis s = vis s'.
  Proof.
    intros Hs. pose proof (Ha i) as H. rewrite Hs in H. symmetry in H.
    apply fmap_Some in H as (s' & Hs' & E). eauto.
  Qed.
  Lemma alike_length : length ss ≤ length ss'.
  Proof.
    destruct (decide (length ss ≤ length ss')) as [H|H]; [done|]. exfalso.
    destruct (lookup_lt_is_Some_2 ss (length ss')) as [s Hs]; [lia|].
    destruct (alike_lookup _ _ Hs) as (s' & Hs' & _). apply lookup_lt_Some in Hs'. lia.
  Qed.
  Lemma alike_explicit a b : explicit ss a b → explicit ss' a b.
  Proof.
    intros (Hn & sa & sb & Hsa & Hsb & H). split; [done|].
    destruct (alike_lookup _ _ Hsa) as (sa' & Hsa' & [= _ E1 E2 E3]).
    destruct (alike_lookup _ _ Hsb) as (sb' & Hsb' & [= _ F1 F2 F3]).
    exists sa', sb'. split_and!; [done..|]. by rewrite <-E1, <-E2, <-F1, <-F3.
  Qed.
  Lemma alike_barred a b : barred ss bars a b → barred ss' bars a b.
  Proof. intros [H1 H2]. split; [|done]. pose proof alike_length. lia. Qed.
  Lemma alike_first a b : declared_first ss a b → declared_first ss' a b.
  Proof.
    intros (Hl & sa & sb & Hsa & Hsb & Ho1 & Ho2). split; [done|].
    destruct (alike_lookup _ _ Hsa) as (sa' & Hsa' & [= _ E1 E2 E3]).
    destruct (alike_lookup _ _ Hsb) as (sb' & Hsb' & [= _ F1 F2 F3]).
    exists sa', sb'. unfold opted_out in *. rewrite E2, E3 in Ho1. rewrite F2, F3 in Ho2. done.
  Qed.
  Lemma alike_conflicting a b : conflicting ss a b → conflicting ss' a b.
  Proof.
    intros (sa & sb & Hsa & Hsb & Hc).
    destruct (alike_lookup _ _ Hsa) as (sa' & Hsa' & [= E1 _ _ _]).
    destruct (alike_lookup _ _ Hsb) as (sb' & Hsb' & [= F1 _ _ _]).
    exists sa', sb'. by rewrite <-E1, <-F1.
  Qed.
  Lemma alike_edge a b : order_edge ss bars a b → order_edge ss' bars a b.
  Proof.
    intros [H|[H|H]]; [left; by apply alike_explicit|right; left; by apply alike_barred|].
    right. right. by apply alike_first.
  Qed.
End alike.
Lemma alike_sym ss ss' : alike ss ss' → alike ss' ss.
Proof. intros H i. by rewrite H. Qed.
Lemma alike_waits ss ss' bars j i : alike ss ss' → waits_for ss bars j i → waits_for ss' bars j i.
Proof.
  intros Ha. pose proof (alike_sym _ _ Ha) as Hs. intros [[H|[H|(H1 & H2 & H3)]]|[H1 H2]].
  - left. left. by eapply alike_explicit.
  - left. right. left. by eapply alike_barred.
  - left. right. right. refine (conj _ (conj _ _)); [by eapply alike_first|by eapply alike_conflicting|].
    intros k K1 K2 K3 K4. apply (H3 k K1 K2); [by eapply alike_first|by eapply alike_conflicting].
  - right. split; [by eapply alike_first|]. intros k K1 K2 K3. apply (H2 k K1 K2). by eapply alike_first.
Qed.

Lemma one_by_one_spec ss w :
  wl_name (one_by_one ss w) = wl_name w ∧ wl_barriers (one_by_one ss w) = wl_barriers w ∧
  wl_systems (one_by_one ss w) = wl_systems w ++ imap (λ k s, s_shift (length (wl_systems w) + k) s) ss.
Proof.
  revert w. induction ss as [|s ss IH]; intros w.
  - cbn. by rewrite app_nil_r.
  - cbn [one_by_one fold_left]. destruct (IH (wl_with_system s w)) as (E1 & E2 & E3).
    unfold one_by_one in *. rewrite E1, E2, E3. split_and!; [done..|].
    cbn [wl_systems wl_with_system wl_set_systems]. rewrite <-app_assoc. f_equal.
    cbn [imap app]. rewrite Nat.add_0_r. f_equal. apply imap_ext. intros k x _.
    rewrite app_length. simpl. f_equal. lia.
Qed.
Lemma one_by_one_built ss w : built w → Forall declared ss → built (one_by_one ss w).
Proof.
  revert w. induction ss as [|s ss IH]; intros w Hb HF; [done|].
  apply Forall_cons in HF as [H1 H2]. cbn. apply IH; [by constructor|done].
Qed.

Lemma extend_alike ss w : alike (wl_systems (wl_extend ss w)) (wl_systems (one_by_one ss w)).
Proof.
  destruct (one_by_one_spec ss w) as (_ & _ & E). intros i. rewrite E. cbn [wl_extend wl_set_systems wl_systems].
  destruct (decide (i < length (wl_systems w))) as [H|H].
  - by rewrite !lookup_app_l.
  - rewrite !lookup_app_r by lia. rewrite list_lookup_imap. by destruct (ss !! _).
Qed.

(** The number of the system at a position of an extended workload. *)
Lemma extend_uid ss w i s :
  built w → Forall declared ss → wl_systems (wl_extend ss w) !! i = Some s →
  w_uid s = if decide (i < length (wl_systems w)) then i else 0.
Proof.
  intros Hb Hd. cbn. rewrite lookup_app. destruct (wl_systems w !! i) as [x|] eqn:E.
  - intros [= <-]. rewrite decide_True by (by apply lookup_lt_Some in E).
    destruct (built_wf w Hb) as (_ & H & _). eauto.
  - intros Hs. rewrite decide_False by (apply lookup_ge_None in E; lia).
    rewrite Forall_lookup in Hd. by apply Hd, declared_wf in Hs as [_ ?].
Qed.

(** The last system ordered by declaration before [q]. *)
Lemma last_declared_first ss p q :
  declared_first ss p q → ∃ r, p ≤ r ∧ declared_first ss r q ∧ ∀ k, r < k → k < q → ¬ declared_first ss k q.
Proof.
  intros H. pose proof H as [Hpq _].
  assert (Hd : ∀ a b, Decision (declared_first ss a b)).
  { intros a b. unfold declared_first, opted_out.
    destruct (decide (a < b)) as [Hl|Hl]; [|right; intros [? _]; lia].
    destruct (ss !! a) as [sa|]; [|right; intros (_ & ? & ? & [=] & _)].
    destruct (ss !! b) as [sb|]; [|right; intros (_ & ? & ? & _ & [=] & _)].
    destruct (decide (¬ (w_before_all sa ≠ [] ∨ w_after_all sa ≠ []) ∧ ¬ (w_before_all sb ≠ [] ∨ w_after_all sb ≠ [])))
      as [Hy|Hy].
    - left. split; [done|]. exists sa, sb. split_and!; [done..|apply Hy|apply Hy].
    - right. intros (_ & x & y & [= <-] & [= <-] & H1 & H2). by apply Hy. }
  assert (Hind : ∀ n p, q - p ≤ n → declared_first ss p q →
    ∃ r, p ≤ r ∧ declared_first ss r q ∧ ∀ k, r < k → k < q → ¬ declared_first ss k q).
  { clear -Hd. induction n as [|n IH]; intros p Hn Hp.
    - destruct Hp as [Hl _]. lia.
    - destruct (decide (Exists (λ k, declared_first ss k q) (seq (S p) (q - S p)))) as [He|He].
      + apply Exists_exists in He as (k & Hk & Hf). apply elem_of_seq in Hk.
        destruct (IH k) as (r & Hr & Hr' & Hn'); [lia|done|]. exists r. split_and!; [lia|done|done].
      + exists p. split_and!; [lia|done|]. intros k K1 K2 Hf. apply He. apply Exists_exists.
        exists k. split; [|done]. apply elem_of_seq. lia. }
  by apply (Hind (q - p)).
Qed.

(** Something that has to come after an added system (other than the very first of a workload): refused. *)
Theorem C73_extend_refused ss w sc p q :
  built w → Forall declared ss →
  length (wl_systems w) ≤ p → 1 ≤ p →
  order_edge (wl_systems (wl_extend ss w)) (wl_barriers w) p q →
  ¬ accepted (wl_extend ss w) sc.
Proof.
  intros Hb Hd Hp H1 He Hacc.
  assert (Hx : built_ext (wl_extend ss w)) by (constructor; [done|by constructor]).
  pose proof (C73_accepted_turns _ sc Hx Hacc) as Ht.
  assert (Hq : ∃ r, p ≤ r ∧ waits_for (wl_systems (wl_extend ss w)) (wl_barriers w) r q).
  { destruct He as [He|[He|He]].
    - exists p. split; [lia|]. left. by left.
    - exists p. split; [lia|]. left. right. by left.
    - destruct (last_declared_first _ _ _ He) as (r & Hr & Hr' & Hn). exists r. split; [done|]. right. done. }
  assert (Hql : q < length (wl_systems (wl_extend ss w))).
  { destruct He as [(_ & _ & sb & _ & Hs & _)|[[? _]|(_ & _ & sb & _ & Hs & _)]];
      [by apply lookup_lt_Some in Hs|done|by apply lookup_lt_Some in Hs]. }
  destruct Hq as (r & Hr & Hw). specialize (Ht q Hql). destruct Ht as [q Ht].
  destruct (Ht r Hw) as (i & s & Hs & Hu & _).
  pose proof (extend_uid _ _ _ _ Hb Hd Hs) as E. destruct (decide _); lia.
Qed.

(** Where adding the systems one by one works, [extend] works exactly if nothing has to come after an added
    system (other than the very first of a workload). *)
Theorem C73_extend_iff ss w sc :
  built w → Forall declared ss → no_reqs (wl_extend ss w) → accepted (one_by_one ss w) sc →
  accepted (wl_extend ss w) sc ↔
  ∀ p q, length (wl_systems w) ≤ p → 1 ≤ p →
    ¬ order_edge (wl_systems (wl_extend ss w)) (wl_barriers w) p q.
Proof.
  intros Hb Hd Hr Ha. split.
  { intros Hacc p q H1 H2 He. by eapply C73_extend_refused. }
  intros Hno.
  assert (Hx : built_ext (wl_extend ss w)) by (constructor; [done|by constructor]).
  pose proof (one_by_one_built ss w Hb Hd) as Hb1.
  destruct (one_by_one_spec ss w) as (E1 & E2 & E3).
  pose proof (C73_accepted_turns _ _ (XBuilt _ Hb1) Ha) as Ht. rewrite E2 in Ht.
  assert (Hn : sc_workloads sc !! wl_name w = None).
  { destruct Ha as (sc' & [[info ba] order] & Hc). apply accepted_ordered in Hc as (Hn & _). by rewrite <-E1. }
  apply C73_accepted_iff; [done|exact Hn|done|]. intros i Hi.
  pose proof (extend_alike ss w) as Hal.
  assert (Hgo : ∀ i, gets_turn (wl_systems (one_by_one ss w)) (wl_barriers w) i →
    gets_turn (wl_systems (wl_extend ss w)) (wl_barriers w) i).
  { fix IH 2. intros k [k' Hk]. constructor. intros j Hj.
    destruct (Hk j (alike_waits _ _ _ _ _ Hal Hj)) as (i' & s & Hs & Hu & Hg).
    assert (Hij : i' = j).
    { destruct (built_wf _ Hb1) as (_ & H & _). rewrite <-Hu. symmetry. by apply H. }
    destruct (alike_lookup _ _ (alike_sym _ _ Hal) _ _ Hs) as (s' & Hs' & _).
    exists i', s'. split; [done|]. split; [|by apply IH].
    rewrite (extend_uid _ _ _ _ Hb Hd Hs'). destruct (decide _) as [Hl|Hl]; [done|].
    destruct (decide (j = 0)) as [->|Hj0]; [done|]. exfalso. apply (Hno j k'); [lia|lia|].
    destruct Hj as [[Hj|[Hj|[Hj _]]]|[Hj _]]; [by left|by right; left|by right; right|by right; right]. }
  apply Hgo, Ht. pose proof (alike_length _ _ Hal). simpl in *. lia.
Qed.

(** * C73: what does not hold, and examples *)

Definition accepts (w : workload) : bool :=
  match create_workload w sc_new with Some (_, inr _) => true | _ => false end.
Lemma accepts_true w : accepts w = true → accepted w sc_new.
Proof. unfold accepts, accepted. destruct (create_workload w sc_new) as [[sc' [e|r]]|]; [done|eauto|done]. Qed.
Lemma accepts_false w : accepts w = false → ¬ accepted w sc_new.
Proof. intros E (sc' & r & H). unfold accepts in E. by rewrite H in E. Qed.

(** Three systems without any constraint between them. *)
Definition plain3 : list wsys := [sy 10 [wr 1]; sy 11 [wr 2]; sy 12 [wr 3]].
Lemma plain3_declared : Forall declared plain3.
Proof. decl. Qed.

(** [extend] refuses what [with_system] takes. *)
Theorem C73_like_with_system_refuted :
  ∃ ss w, Forall declared ss ∧ built w ∧ no_reqs (wl_extend ss w) ∧
    accepted (one_by_one ss w) sc_new ∧ ¬ accepted (wl_extend ss w) sc_new.
Proof.
  exists plain3, (wl_new (LName 1)). split_and!.
  - exact plain3_declared.
  - constructor.
  - by repeat constructor.
  - apply accepts_true. vm_compute. reflexivity.
  - apply accepts_false. vm_compute. reflexivity.
Qed.

(** The system at 3 must come after the one at 0 (both use storage 1), which comes after 1, which comes
    after 2.  The added system has the number 0. *)
Definition late : list wsys :=
  [s_after_all (LName 11) (sy 10 [wr 1]); s_after_all (LName 12) (sy 11 [rd 2]); sy 12 [rd 2];
   s_after_all (LName 10) (sy 13 [rd 1])].
Definition late_w : workload := nm 1 late.
Definition late_more : list wsys := [s_before_all (LName 99) (sy 14 [rd 3])].
Lemma late_built : built late_w.
Proof. apply built_nm. decl. Qed.
Lemma late_declared : Forall declared late_more.
Proof. decl. Qed.
Definition late_result := Eval vm_compute in create_workload (wl_extend late_more late_w) sc_new.

(** An explicit order that is accepted and reversed. *)
Theorem C73_order_refuted :
  ∃ w ss sc' info ba order a c sa sc ka kc ba' bc x y,
    built w ∧ Forall declared ss ∧ accepted (one_by_one ss w) sc_new ∧
    create_workload (wl_extend ss w) sc_new = Some (sc', inr (info, ba, order)) ∧
    NoDup (w_type <$> wl_systems (wl_extend ss w)) ∧
    wl_systems (wl_extend ss w) !! a = Some sa ∧ wl_systems (wl_extend ss w) !! c = Some sc ∧
    explicit (wl_systems (wl_extend ss w)) a c ∧ clash (w_borrows sa) (w_borrows sc) ∧
    info !! ka = Some ba' ∧ x ∈ members ba' ∧ placed_key x = declared_key (sc_fns sc') sa ∧
    info !! kc = Some bc ∧ y ∈ members bc ∧ placed_key y = declared_key (sc_fns sc') sc ∧
    kc < ka.
Proof.
  exists late_w, late_more.
  assert (Hc : create_workload (wl_extend late_more late_w) sc_new = late_result) by (vm_compute; reflexivity).
  unfold late_result in Hc.
  eexists _, _, _, _, 0, 3, _, _, 2, 1, _, _, _, _.
  refine (conj late_built (conj late_declared (conj _ (conj Hc _)))).
  { apply accepts_true. vm_compute. reflexivity. }
  refine (conj _ (conj eq_refl (conj eq_refl (conj _ (conj _ (conj eq_refl (conj _ (conj _
    (conj eq_refl (conj _ (conj _ _))))))))))).
  - apply (bool_decide_unpack _). vm_compute. exact I.
  - split; [done|]. eexists _, _. refine (conj eq_refl (conj eq_refl _)). right.
    exists (LName 10). split; apply (bool_decide_unpack _); vm_compute; exact I.
  - eexists _, _. split_and!; [by left|by left|]. left. split; [reflexivity|]. left. reflexivity.
  - apply elem_of_list_here.
  - vm_compute. reflexivity.
  - apply elem_of_list_further. apply elem_of_list_here.
  - vm_compute. reflexivity.
  - lia.
Qed.

(** ** The hypotheses are met *)

(** One system added to a workload: accepted, and its hypotheses hold. *)
Example one_added :
  let w := nm 1 plain3 in let ss := [sy 20 [rd 1]] in
  built w ∧ Forall declared ss ∧ no_reqs (wl_extend ss w) ∧ accepted (one_by_one ss w) sc_new ∧
  accepted (wl_extend ss w) sc_new ∧ length (wl_systems (wl_extend ss w)) = 4.
Proof.
  cbn zeta. split_and!.
  - apply built_nm, plain3_declared.
  - decl.
  - by repeat constructor.
  - apply accepts_true. vm_compute. reflexivity.
  - apply accepts_true. vm_compute. reflexivity.
  - reflexivity.
Qed.
(** Two systems added to a workload: the hypotheses of the refusal. *)
Example two_added :
  let w := nm 1 [sy 10 [wr 1]] in let ss := [sy 20 [rd 1]; sy 21 [rd 1]] in
  built w ∧ Forall declared ss ∧ length (wl_systems w) ≤ 1 ∧
  order_edge (wl_systems (wl_extend ss w)) (wl_barriers w) 1 2.
Proof.
  cbn zeta. refine (conj _ (conj _ (conj _ _))).
  - apply built_nm. decl.
  - decl.
  - cbn. lia.
  - right. right. split; [lia|]. eexists _, _. refine (conj eq_refl (conj eq_refl _)).
    unfold opted_out. cbn. split; intros [H|H]; by apply H.
Qed.
(** A workload of [built_ext] which is accepted with its numbers out of place. *)
Example late_accepted : built_ext (wl_extend late_more late_w) ∧ accepted (wl_extend late_more late_w) sc_new ∧
  map w_uid (wl_systems (wl_extend late_more late_w)) = [0; 1; 2; 3; 0] ∧
  fns_ok (sc_fns sc_new) ∧
  sc_workloads sc_new !! wl_name (wl_extend late_more late_w) = None ∧ no_reqs (wl_extend late_more late_w).
Proof.
  split_and!.
  - constructor; [apply late_declared|constructor; apply late_built].
  - apply accepts_true. vm_compute. reflexivity.
  - vm_compute. reflexivity.
  - intros ty i H. change (f_lookup (sc_fns sc_new)) with (∅ : gmap N nat) in H. by rewrite lookup_empty in H.
  - reflexivity.
  - by repeat constructor.
Qed.

Print Assumptions C73_terminates.
Print Assumptions C73_accepted_turns.
Print Assumptions C73_accepted_iff.
Print Assumptions C73_batch_conflict_free.
Print Assumptions C73_each_once.
Print Assumptions C73_extend_refused.
Print Assumptions C73_extend_iff.
Print Assumptions C73_like_with_system_refuted.
Print Assumptions C73_order_refuted.
