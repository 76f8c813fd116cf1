(** Properties of what adding a workload reports (C72). *)
From Coq Require Import Sorted.
From stdpp Require Import prelude countable list gmap relations sorting.
From Verif Require Import Sched SchedSpec SchedProofs SchedProofs2 SchedProofs3 PropsSched PropsSched3
  WorkloadInfo WorkloadInfoSpec WorkloadInfoProofs WorkloadInfoOrder.
Local Open Scope nat_scope.

(** * What an entry is made of *)

Lemma entries_imembers b : entries (to_batch_info b) = map to_sysinfo (imembers b).
Proof.
  unfold entries, to_batch_info, imembers. cbn [fst snd]. rewrite map_app. by destruct (ib_single b).
Qed.
Lemma members_imembers b : members (erase b) = map i_sys (imembers b).
Proof.
  unfold members, erase, imembers. cbn [bi_single bi_par]. rewrite map_app. by destruct (ib_single b).
Qed.

Lemma create_both w sc sc' inf sc2 info ba order :
  create_info w sc = Some (sc', inr inf) → create_workload w sc = Some (sc2, inr (info, ba, order)) →
  sc' = sc2 ∧ ∃ ii, i_order_systems (i_constrain (map i_new (insert_systems (wl_systems w) (sc_fns sc)).2) (wl_barriers w))
                (ba_new (wl_run_if w)) = Some (inr (ii, ba)) ∧
    inf = map to_batch_info ii ∧ info = map erase ii.
Proof. intros H1 H2. pose proof (create_info_erases w sc) as H. by rewrite H1, H2 in H. Qed.

Lemma entry_isys ii k p si :
  entry (map to_batch_info ii) (map erase ii) k p si ↔
  ∃ b s, ii !! k = Some b ∧ s ∈ imembers b ∧ si = to_sysinfo s ∧ pos (i_sys s) = p.
Proof.
  split.
  - intros (bi & b & n & s & H1 & H2 & H3 & H4 & H5).
    apply (list_lookup_fmap_Some to_batch_info) in H1 as (b1 & Hb & ->).
    apply (list_lookup_fmap_Some erase) in H2 as (b2 & Hb2 & ->).
    rewrite Hb in Hb2. injection Hb2 as <-. rewrite entries_imembers in H3. rewrite members_imembers in H4.
    apply (list_lookup_fmap_Some to_sysinfo) in H3 as (x & Hx & ->).
    apply (list_lookup_fmap_Some i_sys) in H4 as (y & Hy & ->).
    rewrite Hx in Hy. injection Hy as <-. exists b1, x. split_and!; [done| |done|done].
    by eapply elem_of_list_lookup_2.
  - intros (b & s & Hb & Hs & -> & <-). apply elem_of_list_lookup in Hs as [n Hn].
    exists (to_batch_info b), (erase b), n, (i_sys s). split_and!; [| | | |done].
    + change (map to_batch_info ii) with (to_batch_info <$> ii). by rewrite list_lookup_fmap, Hb.
    + change (map erase ii) with (erase <$> ii). by rewrite list_lookup_fmap, Hb.
    + rewrite entries_imembers. change (map to_sysinfo (imembers b)) with (to_sysinfo <$> imembers b).
      by rewrite list_lookup_fmap, Hn.
    + rewrite members_imembers. change (map i_sys (imembers b)) with (i_sys <$> imembers b).
      by rewrite list_lookup_fmap, Hn.
Qed.

Section info.
  Context (w : workload) (sc sc' sc2 : sched) (inf : list batch_info) (info : list binfo) (ba : batches)
    (order : list psys).
  Hypothesis (Hb : built w) (Hi : create_info w sc = Some (sc', inr inf))
    (Hc : create_workload w sc = Some (sc2, inr (info, ba, order))).

  Lemma entry_in_batch k p si : entry inf info k p si → in_batch info p k.
  Proof.
    intros (bi & b & n & s & _ & H2 & _ & H4 & H5). exists b, s. split_and!; [done| |done].
    by eapply elem_of_list_lookup_2.
  Qed.
  Lemma in_batch_entry k p : in_batch info p k → ∃ si, entry inf info k p si.
  Proof.
    destruct (create_both _ _ _ _ _ _ _ _ Hi Hc) as (_ & ii & _ & -> & ->).
    intros (b & s & Hk & Hs & Hp). apply (list_lookup_fmap_Some erase) in Hk as (ib & Hib & ->).
    rewrite members_imembers in Hs. apply (elem_of_list_fmap_2 i_sys) in Hs as (x & -> & Hx).
    exists (to_sysinfo x). apply entry_isys. by exists ib, x.
  Qed.

  (** Everything about an entry, before the definitions are put in terms of positions. *)
  Lemma entry_all k p si : entry inf info k p si →
    ∃ x s0, wl_systems w !! p = Some x ∧
      i_constrain (map i_new (insert_systems (wl_systems w) (sc_fns sc)).2) (wl_barriers w) !! p = Some s0 ∧
      placed (wl_systems w) (wl_barriers w) (sc_fns sc) !! p = Some (i_sys s0) ∧
      si_borrow si = w_borrows x ∧ si_unique_id si = fn_id w sc p ∧
      si_after si = p_hard (i_sys s0) ∧ si_after_all si = i_after_all s0 ∧ si_before_all si = i_before_all s0 ∧
      (si_conflict si = i_conflict s0 ∨
       ∃ k' q y c, k = S k' ∧ in_batch info q k' ∧ wl_systems w !! q = Some y ∧ si_conflict si = Some c ∧
         names_clash c (w_borrows x) (fn_id w sc q) (w_borrows y)).
  Proof.
    intros He. destruct (create_ok _ _ _ _ _ _ Hb Hc) as (segs & HP & _).
    destruct (create_both _ _ _ _ _ _ _ _ Hi Hc) as (_ & ii & Hii & E1 & E2).
    pose proof (built_wf w Hb) as Hwf.
    set (l := i_constrain (map i_new (insert_systems (wl_systems w) (sc_fns sc)).2) (wl_barriers w)) in *.
    assert (El : map i_sys l = placed (wl_systems w) (wl_barriers w) (sc_fns sc)).
    { unfold l. rewrite i_constrain_sys. unfold placed. f_equal. rewrite map_map. apply map_id. }
    rewrite E1, E2 in He. apply entry_isys in He as (b & s & Hbk & Hs & -> & Hp).
    assert (Hmem : ∀ k b s, ii !! k = Some b → s ∈ imembers b →
      info !! k = Some (erase b) ∧ i_sys s ∈ members (erase b)).
    { intros k0 b0 s0 H1 H2. split.
      - rewrite E2. change (map erase ii) with (erase <$> ii). by rewrite list_lookup_fmap, H1.
      - rewrite members_imembers. by apply (elem_of_list_fmap_1 i_sys). }
    destruct (Hmem k b s Hbk Hs) as [Hk Hm].
    destruct (member_sys w sc info order segs k _ _ Hb HP Hk Hm) as (x & Hx & B & _ & I).
    rewrite Hp in Hx, I.
    destruct (i_order_reported _ _ _ _ Hii k b s Hbk Hs) as (s1 & H1 & (N1 & N2 & N3 & N4) & Hcf).
    apply (elem_of_list_fmap_2 (λ s, with_after (p_hard (i_sys s)) s)) in H1 as (s0 & -> & H0).
    apply elem_of_list_lookup in H0 as [j Hj].
    assert (Hpl : placed (wl_systems w) (wl_barriers w) (sc_fns sc) !! j = Some (i_sys s0)).
    { rewrite <-El, lookup_sys, Hj. done. }
    destruct (placed_tag w (sc_fns sc) Hwf _ _ Hpl) as [Hpos _].
    assert (j = p) as ->.
    { rewrite <-Hpos, <-Hp. unfold pos. destruct N4 as (_ & _ & -> & _). done. }
    exists x, s0. cbn [to_sysinfo si_borrow si_conflict si_after si_after_all si_before_all si_unique_id].
    cbn [with_after i_after i_after_all i_before_all i_conflict i_sys] in *.
    refine (conj Hx (conj Hj (conj Hpl (conj B (conj I (conj N1 (conj N2 (conj N3 _)))))))).
    destruct Hcf as [Hcf|(k' & b' & o & c & -> & Hb' & Ho & Hcs & Hci)]; [by left|]. right.
    destruct (Hmem k' b' o Hb' Ho) as [Hk' Hm'].
    destruct (member_sys w sc info order segs k' _ _ Hb HP Hk' Hm') as (y & Hy & By & _ & Iy).
    exists k', (pos (i_sys o)), y, c. split; [done|]. split; [by exists (erase b'), (i_sys o)|].
    split; [done|]. split; [done|]. apply conflict_info_names in Hci. rewrite B, By, Iy in Hci. exact Hci.
  Qed.
End info.

(** * C72 *)

(** The report and the stored workload come from the same decisions: an error is reported exactly when the
    build has it, the scheduler ends the same, and the batches of the report are, number by number, those that
    are stored for running. *)
Theorem C72_errors w sc : built w →
  ∃ sc' r, create_info w sc = Some (sc', r) ∧
    match r with
    | inl e => create_workload w sc = Some (sc', inl e)
    | inr inf => ∃ info ba order, create_workload w sc = Some (sc', inr (info, ba, order)) ∧
        sc_workloads sc' !! wl_name w = Some ba ∧
        map (λ b : batch_info, (si_unique_id <$> b.1, map si_unique_id b.2)) inf = ba_par ba ∧
        map (λ b, length (entries b)) inf = map (λ b, length (members b)) info
    end.
Proof.
  intros Hb. pose proof (create_info_erases w sc) as H. destruct (C32_terminates w sc Hb) as [[sc2 r2] Hc].
  rewrite Hc in H. destruct (create_info w sc) as [[sc1 [e|inf]]|] eqn:Hi; [| |done].
  - exists sc1, (inl e). split; [done|]. destruct r2 as [e'|[[info ba] order]]; [|done]. by destruct H as [-> ->].
  - exists sc1, (inr inf). split; [done|]. destruct r2 as [e'|[[info ba] order]]; [done|].
    destruct H as (-> & ii & _ & -> & ->). exists (map erase ii), ba, order. split; [done|].
    destruct (C30_stored_indices w sc sc2 _ _ _ Hb Hc) as (A & B & _). split; [done|]. rewrite B, !map_map. split.
    + apply map_ext. intros b. unfold to_batch_info, batch_indices, erase. cbn [fst snd bi_single bi_par].
      change (p_index <$> map i_sys (ib_par b)) with (map p_index (map i_sys (ib_par b))).
      rewrite !map_map. f_equal. by destruct (ib_single b).
    + apply map_ext. intros b. by rewrite entries_imembers, members_imembers, !map_length.
Qed.

(** Each declared system has exactly one entry: in the batch it runs in, with its borrows and with the number
    of its function. *)
Theorem C72_entries w sc sc' inf info ba order :
  built w → create_info w sc = Some (sc', inr inf) → create_workload w sc = Some (sc', inr (info, ba, order)) →
  length (concat (map entries inf)) = length (wl_systems w) ∧
  (∀ p x, wl_systems w !! p = Some x → ∃ k si, in_batch info p k ∧ entry inf info k p si) ∧
  (∀ k p si, entry inf info k p si →
    in_batch info p k ∧ ∃ x, wl_systems w !! p = Some x ∧
    si_borrow si = w_borrows x ∧ si_unique_id si = fn_id w sc p).
Proof.
  intros Hb Hi Hc. destruct (create_ok _ _ _ _ _ _ Hb Hc) as (segs & HP & _).
  pose proof (built_wf w Hb) as Hwf. split_and!.
  - destruct (C30_each_system_once _ _ _ _ _ _ Hb Hc) as (_ & Hperm & _).
    apply Permutation_length in Hperm. rewrite seq_length, map_length in Hperm. rewrite <-Hperm.
    destruct (create_both _ _ _ _ _ _ _ _ Hi Hc) as (_ & ii & _ & -> & ->).
    rewrite !map_map. clear. induction ii as [|b ii IH]; cbn [map concat]; [done|].
    by rewrite !app_length, IH, entries_imembers, members_imembers, !map_length.
  - intros p x Hx. destruct (in_batch_exists _ _ _ _ HP p) as [k Hk].
    { rewrite (placed_length _ _ _ (Hsys w Hwf)). by apply lookup_lt_Some in Hx. }
    destruct (in_batch_entry _ _ _ _ _ _ _ _ Hi Hc k p Hk) as [si Hsi]. eauto.
  - intros k p si He. split; [by eapply entry_in_batch|].
    destruct (entry_all _ _ _ _ _ _ _ _ Hb Hi Hc k p si He) as (x & s0 & Hx & _ & _ & H1 & H2 & _). eauto.
Qed.

(** A reported conflict is a real one: it names two borrows which exclude each other, one of the system and
    one of a system that runs in an earlier batch. *)
Theorem C72_conflict w sc sc' inf info ba order k p si x c :
  built w → create_info w sc = Some (sc', inr inf) → create_workload w sc = Some (sc', inr (info, ba, order)) →
  entry inf info k p si → wl_systems w !! p = Some x → si_conflict si = Some c →
  ∃ k' q y, k' < k ∧ in_batch info q k' ∧ wl_systems w !! q = Some y ∧
    names_clash c (w_borrows x) (fn_id w sc q) (w_borrows y) ∧ clash (w_borrows x) (w_borrows y).
Proof.
  intros Hb Hi Hc He Hx Hcf.
  destruct (entry_all _ _ _ _ _ _ _ _ Hb Hi Hc k p si He) as (x' & s0 & Hx' & Hs0 & _ & _ & _ & _ & _ & _ & H).
  rewrite Hx in Hx'. injection Hx' as <-. pose proof (built_wf w Hb) as Hwf.
  destruct H as [H|(k' & q & y & c' & -> & Hq & Hy & Hc' & Hn)].
  - destruct (final_notes (wl_systems w) (wl_barriers w) (sc_fns sc) (Hsys w Hwf) p x Hx) as (s & Hs & Hnc & _).
    rewrite Hs0 in Hs. injection Hs as <-. rewrite <-H, Hcf in Hnc.
    destruct Hnc as [[? _]|(Hno & q & y & c' & Hqp & Hy & Hyo & Hcc & Hn & Hcl)]; [done|]. injection Hcc as <-.
    destruct (C31_constraints_respected w sc sc' info ba order q p Hb Hc) as [(k1 & k2 & H1 & H2 & Hlt) _].
    { right. right. split; [split; [done|]; eauto 8|]. exists y, x. split_and!; [done|done|]. by apply clash_sym. }
    destruct (create_ok _ _ _ _ _ _ Hb Hc) as (segs & HP & _).
    pose proof (in_batch_unique _ _ _ _ HP p _ _ H2 (entry_in_batch _ _ _ _ _ He)) as ->.
    exists k1, q, y. split_and!; try done.
  - rewrite Hcf in Hc'. injection Hc' as <-. exists k', q, y. split_and!; try done; [lia|].
    destruct c as [a m b|a|m b]; cbn [names_clash] in Hn; [|done|].
    + destruct Hn as (_ & Ha & Hb' & Hcl). exists a, b. done.
    + destruct Hn as (_ & Hb' & Hsb & a & Ha & Hsa). exists a, b. split_and!; [done|done|].
      unfold borrow_clash. auto.
Qed.

(** A system with no explicit order that conflicts with one declared before it does have a conflict reported. *)
Theorem C72_conflict_noted w sc sc' inf info ba order k p q si :
  built w → create_info w sc = Some (sc', inr inf) → create_workload w sc = Some (sc', inr (info, ba, order)) →
  entry inf info k p si → declared_first (wl_systems w) q p → conflicting (wl_systems w) q p →
  si_conflict si ≠ None.
Proof.
  intros Hb Hi Hc He (Hlt & y & x & Hy & Hx & Hyo & Hxo) (y' & x' & Hy' & Hx' & Hcl) Hno.
  rewrite Hy in Hy'. injection Hy' as <-. rewrite Hx in Hx'. injection Hx' as <-.
  destruct (entry_all _ _ _ _ _ _ _ _ Hb Hi Hc k p si He) as (x' & s0 & Hx' & Hs0 & _ & _ & _ & _ & _ & _ & H).
  rewrite Hx in Hx'. injection Hx' as <-. pose proof (built_wf w Hb) as Hwf.
  destruct (final_notes (wl_systems w) (wl_barriers w) (sc_fns sc) (Hsys w Hwf) p x Hx) as (s & Hs & Hnc & _).
  rewrite Hs0 in Hs. injection Hs as <-.
  destruct H as [H|(k' & q' & y' & c' & _ & _ & _ & Hc' & _)]; [|congruence].
  rewrite <-H, Hno in Hnc. destruct Hnc as [[_ [Ho|Hall]]|(_ & ? & ? & ? & _ & _ & _ & ? & _)]; [done| |done].
  apply (Hall q y Hlt Hy Hyo). by apply clash_sym.
Qed.

(** The list [after] has the positions of the systems this one is directly ordered behind: by an explicit
    constraint, by a barrier, or as the nearest earlier one it conflicts with.  All of them run in an earlier
    batch. *)
Theorem C72_after w sc sc' inf info ba order k p si :
  built w → create_info w sc = Some (sc', inr inf) → create_workload w sc = Some (sc', inr (info, ba, order)) →
  entry inf info k p si →
  (∀ j, j ∈ si_after si ↔ linked (wl_systems w) (wl_barriers w) j p) ∧
  (∀ j, j ∈ si_after si → ∃ k', k' < k ∧ in_batch info j k').
Proof.
  intros Hb Hi Hc He.
  destruct (entry_all _ _ _ _ _ _ _ _ Hb Hi Hc k p si He) as (x & s0 & Hx & _ & Hpl & _ & _ & -> & _).
  pose proof (built_wf w Hb) as Hwf. destruct (create_ok _ _ _ _ _ _ Hb Hc) as (segs & HP & _). split.
  - destruct (placed_lookup _ (wl_barriers w) (sc_fns sc) (Hsys w Hwf) _ _ Hx) as
      (s & Hs & _ & _ & _ & _ & _ & _ & _ & Hh & _).
    rewrite Hpl in Hs. injection Hs as <-. intros j. rewrite Hh. unfold linked, barred, nearest_conflict, nearest.
    pose proof (lookup_lt_Some _ _ _ Hx) as Hlen.
    assert (Hdc : ∀ k, k < p → (declared_first (wl_systems w) k p ∧ conflicting (wl_systems w) k p) ↔
      (¬ opted_out x ∧ ∃ o, wl_systems w !! k = Some o ∧ ¬ opted_out o ∧ clash (w_borrows x) (w_borrows o))).
    { intros i Hip. split.
      - intros [(_ & y & x' & Hy & Hx' & Hyo & Hxo) (y' & x'' & Hy' & Hx'' & Hcl)].
        simplify_eq. split; [done|]. exists y. split_and!; [done..|]. by apply clash_sym.
      - intros (Hxo & o & Ho & Hoo & Hcl). split; [split; [done|]; exists o, x; done|].
        exists o, x. split_and!; [done..|]. by apply clash_sym. }
    split.
    + intros [Hbar|[(Hxo & Hjp & Ho & Hnear)|Hex]].
      * right. left. by split.
      * right. right. destruct (proj2 (Hdc j Hjp) (conj Hxo Ho)) as [D1 D2]. split_and!; [done..|].
        intros i Hji Hip Hdi Hci. apply (Hnear i Hji Hip).
        destruct (proj1 (Hdc i Hip) (conj Hdi Hci)) as [_ H]. exact H.
      * by left.
    + intros [Hex|[[_ Hbar]|(Hd & Hcf & Hnear)]].
      * right. by right.
      * by left.
      * right. left. pose proof Hd as [Hjp _]. destruct (proj1 (Hdc j Hjp) (conj Hd Hcf)) as [Hxo Ho].
        split_and!; [done..|]. intros i Hji Hip Hi'.
        destruct (proj2 (Hdc i Hip) (conj Hxo Hi')) as [D1 D2]. by apply (Hnear i).
  - intros j Hj. destruct (hard_runs_before _ _ _ _ HP p j _ Hpl Hj) as [(k1 & k2 & H1 & H2 & Hlt) _].
    pose proof (in_batch_unique _ _ _ _ HP p _ _ H2 (entry_in_batch _ _ _ _ _ He)) as ->. eauto.
Qed.

(** The lists [after_all] and [before_all]: one note for each other system with a label this one has to run
    after, or before, with the first such label. *)
Theorem C72_all_lists w sc sc' inf info ba order k p si x :
  built w → create_info w sc = Some (sc', inr inf) → create_workload w sc = Some (sc', inr (info, ba, order)) →
  entry inf info k p si → wl_systems w !! p = Some x →
  noted (si_after_all si) (λ j, j)
    (λ j t, j ≠ p ∧ ∃ y, wl_systems w !! j = Some y ∧ first_in (w_after_all x) (w_tags y) t) ∧
  noted (si_before_all si) (fn_id w sc)
    (λ j t, j ≠ p ∧ ∃ y, wl_systems w !! j = Some y ∧ first_in (w_tags y) (w_before_all x) t).
Proof.
  intros Hb Hi Hc He Hx.
  destruct (entry_all _ _ _ _ _ _ _ _ Hb Hi Hc k p si He) as (x' & s0 & Hx' & Hs0 & _ & _ & _ & _ & -> & -> & _).
  pose proof (built_wf w Hb) as Hwf.
  destruct (final_notes (wl_systems w) (wl_barriers w) (sc_fns sc) (Hsys w Hwf) p x Hx) as (s & Hs & _ & H1 & H2).
  rewrite Hs0 in Hs. injection Hs as <-. split; [exact H2|exact H1].
Qed.

(** The numbers: where no function of the workload was registered before and no two systems have the same
    function, the number of a system is its position, counted from the number of the functions registered
    before.  (In general it is not, see [C72_numbers_refuted] and [C72_unique_refuted].) *)
Lemma insert_new ss f :
  NoDup (map w_type ss) → (∀ s, s ∈ ss → f_lookup f !! w_type s = None) →
  ∀ p s, (insert_systems ss f).2 !! p = Some s → p_index s = length (f_systems f) + p.
Proof.
  revert f. induction ss as [|x ss IH]; intros f Hnd Hnew p s; cbn [insert_systems]; [done|].
  cbn [map] in Hnd. apply NoDup_cons in Hnd as [Hx Hnd].
  unfold place_sys, fn_index. rewrite (Hnew x) by (by left).
  rewrite (surjective_pairing (insert_systems ss _)). cbn [snd].
  destruct p as [|p]; cbn [lookup list_lookup].
  - intros [= <-]. cbn [p_index]. lia.
  - intros Hp. apply IH in Hp; [|done|].
    + rewrite Hp. cbn [f_systems]. rewrite app_length. cbn. lia.
    + intros y Hy. cbn [f_lookup]. rewrite lookup_insert_ne; [apply Hnew; by right|].
      intros E. apply Hx. rewrite E. by apply (elem_of_list_fmap_1 w_type).
Qed.
Theorem C72_ids_partial w sc sc' inf info ba order k p si :
  built w → create_info w sc = Some (sc', inr inf) → create_workload w sc = Some (sc', inr (info, ba, order)) →
  NoDup (map w_type (wl_systems w)) →
  (∀ s, s ∈ wl_systems w → f_lookup (sc_fns sc) !! w_type s = None) →
  entry inf info k p si → si_unique_id si = length (f_systems (sc_fns sc)) + p.
Proof.
  intros Hb Hi Hc Hnd Hnew He.
  destruct (entry_all _ _ _ _ _ _ _ _ Hb Hi Hc k p si He) as (x & _ & Hx & _ & _ & _ & -> & _).
  unfold fn_id. pose proof (insert_new (wl_systems w) (sc_fns sc) Hnd Hnew p) as H.
  destruct (insert_systems_lookup _ _ _ _ (surjective_pairing (insert_systems (wl_systems w) (sc_fns sc)))) as [_ Hl].
  destruct (Hl p x Hx) as (s & Hs & _). rewrite Hs. cbn. by apply H.
Qed.

(** * Concrete reports *)

(** Batch, position and entry of all systems. *)
Definition report (inf : list batch_info) (info : list binfo) : list (nat * nat * sysinfo) :=
  concat (imap (λ k bb, zip_with (λ si s, (k, pos s, si)) (entries bb.1) (members bb.2)) (zip inf info)).
Lemma report_entry inf info k p si : (k, p, si) ∈ report inf info → entry inf info k p si.
Proof.
  unfold report. intros H. apply elem_of_list_In, in_concat in H as (l & Hl & H).
  apply elem_of_list_In, elem_of_lookup_imap in Hl as (k0 & [bi b] & -> & Hz).
  apply lookup_zip_with_Some in Hz as (bi' & b' & [= <- <-] & Hbi & Hb').
  apply elem_of_list_In, elem_of_list_lookup in H as (n & Hn). cbn [fst snd] in Hn.
  apply lookup_zip_with_Some in Hn as (si' & s & [= -> -> ->] & H1 & H2).
  exists bi, b, n, s. done.
Qed.
Definition build (w : workload) (sc : sched) : option (list (nat * nat * sysinfo)) :=
  match create_info w sc, create_workload w sc with
  | Some (_, inr inf), Some (_, inr (info, _, _)) => Some (report inf info)
  | _, _ => None
  end.
Definition after_adding (w : workload) (sc : sched) : sched :=
  match create_info w sc with Some (sc', _) => sc' | None => sc end.
Lemma build_ok w sc l : build w sc = Some l →
  ∃ sc' inf info ba order, create_info w sc = Some (sc', inr inf) ∧
    create_workload w sc = Some (sc', inr (info, ba, order)) ∧
    ∀ k p si, (k, p, si) ∈ l → entry inf info k p si.
Proof.
  unfold build. destruct (create_info w sc) as [[sc1 [e|inf]]|] eqn:Hi; [done| |done].
  destruct (create_workload w sc) as [[sc2 [e|[[info ba] order]]]|] eqn:Hc; [done| |done].
  intros [= <-]. destruct (create_both _ _ _ _ _ _ _ _ Hi Hc) as (-> & _).
  exists sc2, inf, info, ba, order. split_and!; [done..|]. intros. by apply report_entry.
Qed.

Definition si_of (b : list tinfo) (c : option conflict) (a : list nat) (aa ab : list (nat * label)) (n : nat) :=
  {| si_borrow := b; si_conflict := c; si_after := a; si_after_all := aa; si_before_all := ab; si_unique_id := n |}.

(** The workload of PropsSched3.v: a conflict with an earlier system, a !Send one, all storages, [before_all],
    a barrier. *)
Example ex1_report : build ex1 sc_new = Some
  [(0, 0, si_of [wr 1] None [] [] [] 0);
   (0, 4, si_of [rd 3] None [] [] [(1, LName 11)] 4);
   (1, 2, si_of [wr_local 5] None [] [] [] 2);
   (1, 1, si_of [rd 1; wr 2] (Some (CBorrow (rd 1) 0 (wr 1))) [0; 4] [] [] 1);
   (2, 3, si_of [all_mut] (Some (CBorrow all_mut 2 (wr_local 5))) [2] [] [] 3);
   (3, 5, si_of [rd 3] (Some (CBorrow (rd 3) 3 all_mut)) [0; 1; 2; 3; 4] [] [] 5)].
Proof. vm_compute. reflexivity. Qed.
(** The hypotheses of [C72_conflict], [C72_conflict_noted], [C72_after] and [C72_all_lists] are met there. *)
Example ex1_entry : ∃ sc' inf info ba order k si,
  create_info ex1 sc_new = Some (sc', inr inf) ∧ create_workload ex1 sc_new = Some (sc', inr (info, ba, order)) ∧
  entry inf info k 1 si ∧ si_conflict si = Some (CBorrow (rd 1) 0 (wr 1)) ∧ 4 ∈ si_after si ∧
  declared_first (wl_systems ex1) 0 1 ∧ conflicting (wl_systems ex1) 0 1.
Proof.
  destruct (build_ok _ _ _ ex1_report) as (sc' & inf & info & ba & order & H1 & H2 & H).
  exists sc', inf, info, ba, order, 1, (si_of [rd 1; wr 2] (Some (CBorrow (rd 1) 0 (wr 1))) [0; 4] [] [] 1).
  split_and!; [exact H1|exact H2| |reflexivity| | |].
  - apply H. do 3 apply elem_of_list_further. apply elem_of_list_here.
  - apply elem_of_list_further, elem_of_list_here.
  - split; [lia|]. eexists _, _. split_and!; [vm_compute; reflexivity|vm_compute; reflexivity| |];
      (intros [Hf|Hf]; apply Hf; reflexivity).
  - eexists _, _. split_and!; [vm_compute; reflexivity|vm_compute; reflexivity|].
    exists (wr 1), (rd 1). split_and!; [apply elem_of_list_here|apply elem_of_list_here|].
    unfold borrow_clash. cbn. auto.
Qed.

(** [C72_ids_partial]: a second workload of two new functions. *)
Definition two_new : workload := nm 7 [sy 20 [wr 1]; sy 21 [wr 1]].
Lemma two_new_built : built two_new.
Proof. repeat constructor. Qed.
Definition after_ex1 : sched := Eval vm_compute in after_adding ex1 sc_new.
Example two_new_report : build two_new after_ex1 = Some
  [(0, 0, si_of [wr 1] None [] [] [] 6);
   (1, 1, si_of [wr 1] (Some (CBorrow (wr 1) 6 (wr 1))) [0] [] [] 7)].
Proof. vm_compute. reflexivity. Qed.
Example two_new_functions : NoDup (map w_type (wl_systems two_new)) ∧
  (∀ s, s ∈ wl_systems two_new → f_lookup (sc_fns after_ex1) !! w_type s = None).
Proof.
  split; [by apply (bool_decide_unpack (NoDup _)); vm_compute|].
  assert (H : forallb (λ s, bool_decide (f_lookup (sc_fns after_ex1) !! w_type s = None)) (wl_systems two_new) = true)
    by (vm_compute; reflexivity).
  rewrite forallb_forall in H. intros s Hs. apply elem_of_list_In in Hs.
  exact (bool_decide_eq_true_1 _ (H s Hs)).
Qed.

(** * What the report does not say *)

(** [unique_id] is not unique: a function that is used twice. *)
Definition twice : workload := nm 3 [sy 10 [wr 1]; sy 10 [wr 1]].
Lemma twice_built : built twice.
Proof. repeat constructor. Qed.
Theorem C72_unique_refuted :
  ¬ ∀ w sc sc' inf info ba order k p si k' p' si',
      built w → create_info w sc = Some (sc', inr inf) → create_workload w sc = Some (sc', inr (info, ba, order)) →
      entry inf info k p si → entry inf info k' p' si' → si_unique_id si = si_unique_id si' → p = p'.
Proof.
  intros Hall.
  assert (Hr : build twice sc_new = Some
    [(0, 0, si_of [wr 1] None [] [] [] 0); (1, 1, si_of [wr 1] (Some (CBorrow (wr 1) 0 (wr 1))) [0] [] [] 0)])
    by (vm_compute; reflexivity).
  destruct (build_ok _ _ _ Hr) as (sc' & inf & info & ba & order & H1 & H2 & H).
  assert (0 = 1); [|done].
  eapply (Hall twice sc_new); [exact twice_built|exact H1|exact H2|apply H, elem_of_list_here|
    apply H, elem_of_list_further, elem_of_list_here|reflexivity].
Qed.

(** The numbers in [after] are not the numbers in [unique_id]: those are positions in the workload, these are
    places in the scheduler.  In a workload that is not the first one a number in [after] may be that of no
    system of the workload. *)
Theorem C72_numbers_refuted :
  ¬ ∀ w sc sc' inf info ba order k p si j,
      built w → create_info w sc = Some (sc', inr inf) → create_workload w sc = Some (sc', inr (info, ba, order)) →
      entry inf info k p si → j ∈ si_after si → ∃ k' p' si', entry inf info k' p' si' ∧ si_unique_id si' = j.
Proof.
  intros Hall. destruct (build_ok _ _ _ two_new_report) as (sc' & inf & info & ba & order & H1 & H2 & H).
  destruct (Hall two_new after_ex1 sc' inf info ba order 1 1
    (si_of [wr 1] (Some (CBorrow (wr 1) 6 (wr 1))) [0] [] [] 7) 0) as (k' & p' & si' & He & Hn).
  - exact two_new_built.
  - exact H1.
  - exact H2.
  - apply H, elem_of_list_further, elem_of_list_here.
  - apply elem_of_list_here.
  - destruct two_new_functions as [Hnd Hnew].
    pose proof (C72_ids_partial two_new after_ex1 sc' inf info ba order k' p' si' two_new_built H1 H2 Hnd Hnew He) as Hid.
    rewrite Hn in Hid. change (0 = 6 + p') in Hid. lia.
Qed.

(** The system named by a conflict need not be in the batch this system could not get into. *)
Definition far : workload :=
  wl_with_system (sy 12 [wr 1]) (wl_with_barrier (wl_with_system (sy 11 [wr 2]) (wl_with_barrier (nm 4 [sy 10 [wr 1]])))).
Lemma far_built : built far.
Proof. repeat constructor. Qed.
Theorem C72_previous_batch_refuted :
  ¬ ∀ w sc sc' inf info ba order k p si c x,
      built w → create_info w sc = Some (sc', inr inf) → create_workload w sc = Some (sc', inr (info, ba, order)) →
      entry inf info (S k) p si → wl_systems w !! p = Some x → si_conflict si = Some c →
      ∃ q y, in_batch info q k ∧ wl_systems w !! q = Some y ∧
        names_clash c (w_borrows x) (fn_id w sc q) (w_borrows y).
Proof.
  intros Hall.
  assert (Hr : build far sc_new = Some
    [(0, 0, si_of [wr 1] None [] [] [] 0); (1, 1, si_of [wr 2] None [0] [] [] 1);
     (2, 2, si_of [wr 1] (Some (CBorrow (wr 1) 0 (wr 1))) [0; 1] [] [] 2)])
    by (vm_compute; reflexivity).
  destruct (build_ok _ _ _ Hr) as (sc' & inf & info & ba & order & H1 & H2 & H).
  destruct (wl_systems far !! 2) as [x|] eqn:Hx; [|vm_compute in Hx; discriminate].
  edestruct (Hall far sc_new) as (q & y & Hq & Hy & Hn);
    [exact far_built|exact H1|exact H2|apply H; do 2 apply elem_of_list_further; apply elem_of_list_here|exact Hx|
     reflexivity|].
  destruct (create_ok _ _ _ _ _ _ far_built H2) as (segs & HP & _).
  assert (q = 0 ∨ q = 1 ∨ q = 2) as Hq3.
  { apply lookup_lt_Some in Hy. change (q < 3) in Hy. lia. }
  destruct Hn as [Hn _]. destruct Hq3 as [->|[->| ->]].
  - assert (in_batch info 0 0) as H0.
    { eapply entry_in_batch. apply H, elem_of_list_here. }
    pose proof (in_batch_unique _ _ _ _ HP 0 _ _ Hq H0). discriminate.
  - change (0 = 1) in Hn. discriminate.
  - change (0 = 2) in Hn. discriminate.
Qed.

(** A system may be kept out of the first batch with nothing in its entry that says why: the order by
    declaration among systems without conflict is not reported. *)
Definition silent : workload := nm 5 [sy 10 [wr 1]; sy 11 [wr 1]; sy 12 [rd 5]].
Lemma silent_built : built silent.
Proof. repeat constructor. Qed.
Theorem C72_explained_refuted :
  ¬ ∀ w sc sc' inf info ba order k p si,
      built w → create_info w sc = Some (sc', inr inf) → create_workload w sc = Some (sc', inr (info, ba, order)) →
      entry inf info (S k) p si →
      si_conflict si ≠ None ∨ si_after si ≠ [] ∨ si_after_all si ≠ [] ∨ si_before_all si ≠ [].
Proof.
  intros Hall.
  assert (Hr : build silent sc_new = Some
    [(0, 0, si_of [wr 1] None [] [] [] 0); (1, 1, si_of [wr 1] (Some (CBorrow (wr 1) 0 (wr 1))) [0] [] [] 1);
     (1, 2, si_of [rd 5] None [] [] [] 2)])
    by (vm_compute; reflexivity).
  destruct (build_ok _ _ _ Hr) as (sc' & inf & info & ba & order & H1 & H2 & H).
  edestruct (Hall silent sc_new) as [Hn|[Hn|[Hn|Hn]]];
    [exact silent_built|exact H1|exact H2|apply H; do 2 apply elem_of_list_further; apply elem_of_list_here|
     apply Hn; reflexivity..].
Qed.

(** A system that clashes with one of the batch right before, with no conflict reported: it was ordered
    explicitly. *)
Definition explicit_only : workload := nm 6 [sy 10 [wr 1]; s_after_all (LName 10) (sy 11 [wr 1])].
Lemma explicit_only_built : built explicit_only.
Proof. repeat constructor. Qed.
Theorem C72_clash_reported_refuted :
  ¬ ∀ w sc sc' inf info ba order k p si q x y,
      built w → create_info w sc = Some (sc', inr inf) → create_workload w sc = Some (sc', inr (info, ba, order)) →
      entry inf info (S k) p si → in_batch info q k → wl_systems w !! p = Some x → wl_systems w !! q = Some y →
      clash (w_borrows x) (w_borrows y) → si_conflict si ≠ None.
Proof.
  intros Hall.
  assert (Hr : build explicit_only sc_new = Some
    [(0, 0, si_of [wr 1] None [] [] [] 0); (1, 1, si_of [wr 1] None [0] [(0, LName 10)] [] 1)])
    by (vm_compute; reflexivity).
  destruct (build_ok _ _ _ Hr) as (sc' & inf & info & ba & order & H1 & H2 & H).
  destruct (wl_systems explicit_only !! 1) as [x|] eqn:Hx; [|vm_compute in Hx; discriminate].
  destruct (wl_systems explicit_only !! 0) as [y|] eqn:Hy; [|vm_compute in Hy; discriminate].
  eapply (Hall explicit_only sc_new);
    [exact explicit_only_built|exact H1|exact H2|apply H, elem_of_list_further, elem_of_list_here|
     eapply entry_in_batch, H, elem_of_list_here|exact Hx|exact Hy| |reflexivity].
  exists (wr 1), (wr 1). vm_compute in Hx. injection Hx as <-. vm_compute in Hy. injection Hy as <-.
  split_and!; [apply elem_of_list_here..|]. unfold borrow_clash. cbn. auto.
Qed.

Print Assumptions C72_errors.
Print Assumptions C72_entries.
Print Assumptions C72_conflict.
Print Assumptions C72_conflict_noted.
Print Assumptions C72_after.
Print Assumptions C72_all_lists.
Print Assumptions C72_ids_partial.
Print Assumptions C72_unique_refuted.
Print Assumptions C72_numbers_refuted.
Print Assumptions C72_previous_batch_refuted.
Print Assumptions C72_explained_refuted.
Print Assumptions C72_clash_reported_refuted.
