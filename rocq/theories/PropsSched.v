(** Properties of workload building (C29-C35, C38, C39, C55). *)
From stdpp Require Import prelude list gmap relations sorting.
From Verif Require Import Sched SchedSpec SchedProofs SchedProofs2 SchedProofs3.
Local Open Scope nat_scope.

(** * What a successful build gives *)

Lemma create_ok w sc sc' info ba order :
  built w → create_workload w sc = Some (sc', inr (info, ba, order)) →
  let ps := placed (wl_systems w) (wl_barriers w) (sc_fns sc) in
  ∃ segs, Placed ps info order segs ∧ Stored info ba order ∧ ba_rif ba = wl_run_if w ∧
    check_in (insert_systems (wl_systems w) (sc_fns sc)).2 = None ∧ check_before ps = None ∧
    check_after ps = None ∧
    sc_fns sc' = (insert_systems (wl_systems w) (sc_fns sc)).1 ∧
    sc_workloads sc !! wl_name w = None ∧
    sc_workloads sc' = <[wl_name w := ba]> (sc_workloads sc).
Proof.
  intros Hb. pose proof (built_wf w Hb) as Hwf. unfold create_workload.
  destruct (sc_workloads sc !! wl_name w) eqn:En; [done|].
  unfold placed. destruct (insert_systems _ _) as [f ps] eqn:Ei. cbn [fst snd].
  destruct (check_in ps) as [[]|] eqn:E1; [done|].
  destruct (check_before _) as [[]|] eqn:E2; [done|].
  destruct (check_after _) as [[]|] eqn:E3; [done|].
  destruct (order_systems_spec (constrain ps (wl_barriers w)))
    with (ba := ba_new (wl_run_if w)) as [(info' & ba' & order' & segs & Ho & HP)|(l & Ho & _)].
  - intros i s. pose proof (placed_tag w (sc_fns sc) Hwf i s) as H. unfold placed in H.
    by rewrite Ei in H.
  - intros i s j. pose proof (placed_dep_lt w (sc_fns sc) Hwf i s j) as H. unfold placed in H.
    by rewrite Ei in H.
  - rewrite Ho. cbn [fst snd]. intros [= <- -> -> ->]. destruct (order_systems_stored _ _ _ _ _ Ho).
    exists segs. split_and!; done.
  - by rewrite Ho.
Qed.

(** [w_i], its placed version and the one in the batches. *)
Lemma member_sys w sc info order segs k b s :
  built w → Placed (placed (wl_systems w) (wl_barriers w) (sc_fns sc)) info order segs →
  info !! k = Some b → s ∈ members b →
  ∃ x, wl_systems w !! pos s = Some x ∧ p_borrows s = w_borrows x ∧ p_run_if s = w_run_if x ∧
    p_index s = default 0 (p_index <$> (insert_systems (wl_systems w) (sc_fns sc)).2 !! pos s).
Proof.
  intros Hb HP Hk Hs. pose proof (built_wf w Hb) as Hwf.
  rewrite (pl_info _ _ _ _ HP), list_lookup_fmap in Hk. apply fmap_Some in Hk as (seg & Hseg & ->).
  rewrite members_perm in Hs by (eapply pl_free; [exact HP|]; by eapply elem_of_list_lookup_2).
  destruct (pl_core _ _ _ _ HP s) as (s0 & Hs0 & (C1 & C2 & _ & _ & _ & _ & C7)).
  { apply elem_of_list_In, in_concat. exists seg. rewrite <-!elem_of_list_In.
    split; [by eapply elem_of_list_lookup_2|done]. }
  destruct (placed_inv w (sc_fns sc) Hwf _ _ Hs0) as [x Hx].
  destruct (placed_lookup _ (wl_barriers w) (sc_fns sc) (Hsys w Hwf) _ _ Hx) as
    (s' & Hs' & B & _ & _ & _ & _ & R & I & _).
  rewrite Hs0 in Hs'. injection Hs' as <-. exists x. split_and!; [done|congruence..].
Qed.
Lemma order_sys w sc info order segs k s :
  built w → Placed (placed (wl_systems w) (wl_barriers w) (sc_fns sc)) info order segs →
  order !! k = Some s →
  ∃ x, wl_systems w !! pos s = Some x ∧ p_borrows s = w_borrows x ∧ p_run_if s = w_run_if x ∧
    p_index s = default 0 (p_index <$> (insert_systems (wl_systems w) (sc_fns sc)).2 !! pos s).
Proof.
  intros Hb HP Hk. pose proof (built_wf w Hb) as Hwf.
  rewrite (pl_order _ _ _ _ HP) in Hk.
  destruct (pl_core _ _ _ _ HP s) as (s0 & Hs0 & (C1 & C2 & _ & _ & _ & _ & C7)).
  { by eapply elem_of_list_lookup_2. }
  destruct (placed_inv w (sc_fns sc) Hwf _ _ Hs0) as [x Hx].
  destruct (placed_lookup _ (wl_barriers w) (sc_fns sc) (Hsys w Hwf) _ _ Hx) as
    (s' & Hs' & B & _ & _ & _ & _ & R & I & _).
  rewrite Hs0 in Hs'. injection Hs' as <-. exists x. split_and!; [done|congruence..].
Qed.

(** * C29 *)

(** Two different systems of one batch have no borrows that exclude each other: not the same
    storage with one exclusive access, not both bound to the main thread, and none of them
    all storages. *)
Theorem C29_batch_conflict_free w sc sc' info ba order k i j si sj :
  built w → create_workload w sc = Some (sc', inr (info, ba, order)) →
  in_batch info i k → in_batch info j k → i ≠ j →
  wl_systems w !! i = Some si → wl_systems w !! j = Some sj →
  ¬ clash (w_borrows si) (w_borrows sj).
Proof.
  intros Hb Hc Hi Hj Hne Hsi Hsj Hcl.
  destruct (create_ok _ _ _ _ _ _ Hb Hc) as (segs & HP & _).
  pose proof (built_wf w Hb) as Hwf.
  destruct (placed_lookup _ (wl_barriers w) (sc_fns sc) (Hsys w Hwf) _ _ Hsi) as (pi & Hpi & Bi & _).
  destruct (placed_lookup _ (wl_barriers w) (sc_fns sc) (Hsys w Hwf) _ _ Hsj) as (pj & Hpj & Bj & _).
  destruct (in_seq_exists _ _ _ _ HP i) as [a Ha]; [by apply lookup_lt_Some in Hpi|].
  destruct (in_seq_exists _ _ _ _ HP j) as [b Hb']; [by apply lookup_lt_Some in Hpj|].
  rewrite <-Bi, <-Bj in Hcl.
  destruct (lt_eq_lt_dec a b) as [[Hab| -> ]|Hab].
  - destruct (clash_runs_before _ _ _ _ HP i j pi pj a b) as [(k1 & k2 & H1 & H2 & Hlt) _]; try done.
    pose proof (in_batch_unique _ _ _ _ HP i _ _ Hi H1).
    pose proof (in_batch_unique _ _ _ _ HP j _ _ Hj H2). lia.
  - destruct Ha as (x & Hx & Hpx), Hb' as (y & Hy & Hpy). congruence.
  - apply clash_sym in Hcl.
    destruct (clash_runs_before _ _ _ _ HP j i pj pi b a) as [(k1 & k2 & H1 & H2 & Hlt) _]; try done.
    pose proof (in_batch_unique _ _ _ _ HP j _ _ Hj H1).
    pose proof (in_batch_unique _ _ _ _ HP i _ _ Hi H2). lia.
Qed.

(** A system using all storages shares its batch only with systems that borrow nothing. *)
Theorem C29_all_storages_alone w sc sc' info ba order k i j si sj t :
  built w → create_workload w sc = Some (sc', inr (info, ba, order)) →
  in_batch info i k → in_batch info j k → i ≠ j →
  wl_systems w !! i = Some si → wl_systems w !! j = Some sj →
  t ∈ w_borrows si → t_storage t = SAll → w_borrows sj = [].
Proof.
  intros Hb Hc Hi Hj Hne Hsi Hsj Ht Hall.
  destruct (w_borrows sj) as [|u us] eqn:E; [done|]. exfalso.
  eapply C29_batch_conflict_free; [exact Hb|exact Hc|exact Hi|exact Hj|done|done|done|].
  exists t, u. rewrite E. split_and!; [done|by left|]. unfold borrow_clash. auto.
Qed.

(** The systems handed to worker threads neither need the main thread nor use all
    storages; at most one system of a batch is not handed to them. *)
Theorem C29_workers_only_get_safe_systems w sc sc' info ba order k b s x t :
  built w → create_workload w sc = Some (sc', inr (info, ba, order)) →
  info !! k = Some b → s ∈ bi_par b → wl_systems w !! pos s = Some x → t ∈ w_borrows x →
  t_safe t = true ∧ t_storage t ≠ SAll.
Proof.
  intros Hb Hc Hk Hs Hx Ht.
  destruct (create_ok _ _ _ _ _ _ Hb Hc) as (segs & HP & _).
  destruct (member_sys w sc info order segs k b s Hb HP Hk) as (y & Hy & B & _).
  { unfold members. apply elem_of_app. by right. }
  rewrite Hx in Hy. injection Hy as <-.
  rewrite (pl_info _ _ _ _ HP), list_lookup_fmap in Hk. apply fmap_Some in Hk as (seg & _ & ->).
  unfold to_binfo in Hs. cbn [bi_par] in Hs. apply elem_of_filter_bool in Hs as [_ Hs].
  apply negb_true_iff in Hs. unfold is_single in Hs.
  rewrite <-not_true_iff_false, existsb_exists in Hs. rewrite B in Hs.
  split.
  - destruct (t_safe t) eqn:E; [done|]. exfalso. apply Hs. exists t.
    rewrite <-elem_of_list_In, E. done.
  - intros E. apply Hs. exists t. rewrite <-elem_of_list_In. split; [done|].
    rewrite bool_decide_true by done. by rewrite orb_true_r.
Qed.

(** * C30 *)

Theorem C30_each_system_once w sc sc' info ba order :
  built w → create_workload w sc = Some (sc', inr (info, ba, order)) →
  let n := length (wl_systems w) in
  map pos order ≡ₚ seq 0 n ∧
  map pos (concat (map members info)) ≡ₚ seq 0 n ∧
  (∃ segs, order = concat segs ∧ Forall2 (λ seg b, seg ≡ₚ members b) segs info).
Proof.
  intros Hb Hc. destruct (create_ok _ _ _ _ _ _ Hb Hc) as (segs & HP & _).
  pose proof (built_wf w Hb) as Hwf.
  pose proof (placed_length (wl_systems w) (wl_barriers w) (sc_fns sc) (Hsys w Hwf)) as Hlen.
  assert (Hperm : Forall2 (λ seg b, seg ≡ₚ members b) segs info).
  { rewrite (pl_info _ _ _ _ HP). pose proof (pl_free _ _ _ _ HP) as Hf. clear -Hf.
    induction segs as [|seg segs IH]; constructor.
    - symmetry. apply members_perm, Hf. by left.
    - apply IH. intros. apply Hf. by right. }
  assert (Hpo : map pos order ≡ₚ seq 0 (length (wl_systems w))).
  { rewrite (pl_order _ _ _ _ HP), (pl_perm _ _ _ _ HP). by rewrite Hlen. }
  cbv zeta. split_and!; [done| |].
  - rewrite <-Hpo, (pl_order _ _ _ _ HP). apply Permutation_map. symmetry.
    clear -Hperm. induction Hperm as [|seg b segs info H _ IH]; [done|].
    cbn [map concat]. by rewrite H, IH.
  - exists segs. split; [apply (pl_order _ _ _ _ HP)|done].
Qed.

(** What is stored for running are these systems, with their run conditions. *)
Theorem C30_stored_indices w sc sc' info ba order :
  built w → create_workload w sc = Some (sc', inr (info, ba, order)) →
  sc_workloads sc' !! wl_name w = Some ba ∧
  ba_par ba = map batch_indices info ∧ ba_seq ba = map p_index order ∧
  ba_rif ba = wl_run_if w ∧
  (∀ k s, order !! k = Some s → ∃ x r,
     wl_systems w !! pos s = Some x ∧ ba_seq_rif ba !! k = Some r ∧
     match r with None => w_run_if x = None | Some c => w_run_if x = ba_sys_rif ba !! c ∧ w_run_if x ≠ None end) ∧
  (∀ k b, info !! k = Some b → ∃ r rs, ba_par_rif ba !! k = Some (r, rs) ∧
     length rs = length (bi_par b) ∧
     (∀ s, bi_single b = Some s → ∃ x, wl_systems w !! pos s = Some x ∧
        match r with None => w_run_if x = None | Some c => w_run_if x = ba_sys_rif ba !! c ∧ w_run_if x ≠ None end) ∧
     (∀ a s, bi_par b !! a = Some s → ∃ x r', wl_systems w !! pos s = Some x ∧ rs !! a = Some r' ∧
        match r' with None => w_run_if x = None | Some c => w_run_if x = ba_sys_rif ba !! c ∧ w_run_if x ≠ None end)).
Proof.
  intros Hb Hc. destruct (create_ok _ _ _ _ _ _ Hb Hc) as
    (segs & HP & [S1 S2 S3 S4] & Hrif & _ & _ & _ & _ & _ & Hw).
  split_and!; try done.
  - by rewrite Hw, lookup_insert.
  - intros k s Hk. destruct (order_sys w sc info order segs k s Hb HP Hk) as (x & Hx & _ & R & _).
    destruct (Forall2_lookup_r _ _ _ k (p_run_if s) S4) as (r & Hr & Hres).
    { by rewrite list_lookup_fmap, Hk. }
    exists x, r. split_and!; [done|done|]. rewrite R in Hres. unfold resolves in Hres.
    destruct r, (w_run_if x); try done; by rewrite Hres.
  - intros k b Hk. destruct (Forall2_lookup_l _ _ _ k b S2 Hk) as ([r rs] & Hr & [A1 A2]).
    cbn [fst snd] in *. exists r, rs.
    pose proof (Forall2_length _ _ _ A2) as Hl. rewrite fmap_length in Hl. split_and!; [done|done| |].
    + intros s Hs. destruct (member_sys w sc info order segs k b s Hb HP Hk) as (x & Hx & _ & R & _).
      { unfold members. rewrite Hs. by left. }
      exists x. split; [done|]. rewrite Hs in A1. cbn in A1. rewrite R in A1. unfold resolves in A1.
      destruct r, (w_run_if x); try done; by rewrite A1.
    + intros a s Hs. destruct (member_sys w sc info order segs k b s Hb HP Hk) as (x & Hx & _ & R & _).
      { unfold members. apply elem_of_app. right. by eapply elem_of_list_lookup_2. }
      destruct (Forall2_lookup_r _ _ _ a (p_run_if s) A2) as (r' & Hr' & Hres).
      { by rewrite list_lookup_fmap, Hs. }
      exists x, r'. split_and!; [done|done|]. rewrite R in Hres. unfold resolves in Hres.
      destruct r', (w_run_if x); try done; by rewrite Hres.
Qed.

(** The function found under a system's index is the one declared, provided a type has only
    one function: systems are told apart by their type. *)
Theorem C30_function_partial w sc sc' info ba order k s x :
  built w → fns_ok (sc_fns sc) →
  (∀ y z, y ∈ wl_systems w → z ∈ wl_systems w → w_type y = w_type z → w_fn y = w_fn z) →
  (∀ y i, y ∈ wl_systems w → f_lookup (sc_fns sc) !! w_type y = Some i →
     f_systems (sc_fns sc) !! i = Some (w_fn y)) →
  create_workload w sc = Some (sc', inr (info, ba, order)) →
  order !! k = Some s → wl_systems w !! pos s = Some x →
  f_systems (sc_fns sc') !! p_index s = Some (w_fn x).
Proof.
  intros Hb Hok Hty Hreg Hc Hk Hx. destruct (create_ok _ _ _ _ _ _ Hb Hc) as
    (segs & HP & _ & _ & _ & _ & _ & Hf & _).
  destruct (order_sys w sc info order segs k s Hb HP Hk) as (y & Hy & _ & _ & I).
  rewrite Hx in Hy. injection Hy as <-. rewrite Hf, I.
  destruct (insert_systems _ _) as [f ps] eqn:E. cbn [fst snd].
  destruct (insert_systems_fns _ _ _ _ Hok E) as (_ & _ & B & L & R).
  assert (Hlen : length ps = length (wl_systems w)).
  { exact (proj1 (insert_systems_lookup _ _ _ _ E)). }
  destruct (lookup_lt_is_Some_2 ps (pos s)) as [p Hp].
  { rewrite Hlen. by apply lookup_lt_Some in Hx. }
  rewrite Hp. simpl. pose proof (L _ _ _ Hx Hp) as Hl.
  destruct (R _ _ Hl) as [H|(z & Hz & Ht & Hfz)].
  - apply B. eapply Hreg; [by eapply elem_of_list_lookup_2|done].
  - rewrite Hfz. f_equal. apply Hty; [done|by eapply elem_of_list_lookup_2|done].
Qed.

(** * C31 *)

Theorem C31_constraints_respected w sc sc' info ba order a b :
  built w → create_workload w sc = Some (sc', inr (info, ba, order)) →
  must_precede (wl_systems w) (wl_barriers w) a b → runs_before info order a b.
Proof.
  intros Hb Hc. destruct (create_ok _ _ _ _ _ _ Hb Hc) as (segs & HP & _).
  pose proof (built_wf w Hb) as Hwf.
  intros [He|[Hbar|[Hd Hcf]]].
  - destruct He as (Hne & sa & sb & Hsa & Hsb & Hl).
    destruct (placed_lookup _ (wl_barriers w) (sc_fns sc) (Hsys w Hwf) _ _ Hsb) as
      (p & Hp & _ & _ & _ & _ & _ & _ & _ & Hh & _).
    eapply hard_runs_before; [exact HP|exact Hp|]. apply Hh. right. right.
    split; [done|]. by exists sa, sb.
  - destruct Hbar as (Hlen & k & Hk & Hak & Hkb).
    destruct (lookup_lt_is_Some_2 _ _ Hlen) as [sb Hsb].
    destruct (placed_lookup _ (wl_barriers w) (sc_fns sc) (Hsys w Hwf) _ _ Hsb) as
      (p & Hp & _ & _ & _ & _ & _ & _ & _ & Hh & _).
    eapply hard_runs_before; [exact HP|exact Hp|]. apply Hh. left. eauto.
  - destruct Hcf as (sa & sb & Hsa & Hsb & Hcl).
    destruct (placed_lookup _ (wl_barriers w) (sc_fns sc) (Hsys w Hwf) _ _ Hsa) as (pa & Hpa & Ba & _).
    destruct (placed_lookup _ (wl_barriers w) (sc_fns sc) (Hsys w Hwf) _ _ Hsb) as (pb & Hpb & Bb & _).
    rewrite <-Ba, <-Bb in Hcl.
    destruct (tc_dep_seq _ _ _ _ HP b a) as (x & y & Hx & Hy & Hxy).
    { eapply edge_dep; [done|]. right. by right. }
    eapply clash_runs_before; try done. destruct Hd as [? _]. lia.
Qed.

(** * C32 *)

(** Building always ends (it never runs out of the model's fuel). *)
Theorem C32_terminates w sc : built w → is_Some (create_workload w sc).
Proof.
  intros Hb. pose proof (built_wf w Hb) as Hwf. unfold create_workload.
  destruct (sc_workloads sc !! wl_name w); [done|].
  destruct (insert_systems _ _) as [f ps] eqn:Ei.
  destruct (check_in ps) as [[]|]; [done|].
  destruct (check_before _) as [[]|]; [done|]. destruct (check_after _) as [[]|]; [done|].
  destruct (order_systems_spec (constrain ps (wl_barriers w)))
    with (ba := ba_new (wl_run_if w)) as [(info' & ba' & order' & segs & -> & HP)|(l & -> & _)];
    [| |done|done].
  - intros i s. pose proof (placed_tag w (sc_fns sc) Hwf i s) as H. unfold placed in H.
    by rewrite Ei in H.
  - intros i s j. pose proof (placed_dep_lt w (sc_fns sc) Hwf i s j) as H. unfold placed in H.
    by rewrite Ei in H.
Qed.

(** A cycle is reported only if the order relation has one, a workload is accepted only if it
    has none. *)
Theorem C32_cycle_iff w sc sc' r :
  built w → create_workload w sc = Some (sc', r) →
  match r with
  | inr _ => acyclic (order_edge (wl_systems w) (wl_barriers w))
  | inl (ECycle _) => ∃ x, tc (order_edge (wl_systems w) (wl_barriers w)) x x
  | inl EExists => is_Some (sc_workloads sc !! wl_name w)
  | inl (EMissingIn i l) => ∃ s, wl_systems w !! i = Some s ∧ w_req_in s ≠ []
  | inl (EMissingBefore i l) => ∃ s, wl_systems w !! i = Some s ∧ w_req_before s ≠ []
  | inl (EMissingAfter i l) => ∃ s, wl_systems w !! i = Some s ∧ w_req_after s ≠ []
  end.
Proof.
  intros Hb. pose proof (built_wf w Hb) as Hwf. unfold create_workload.
  destruct (sc_workloads sc !! wl_name w) eqn:En; [by intros [= <- <-]|].
  assert (Hun : ∀ l, unmet [] l = []).
  { intros l. unfold unmet. induction l as [|x l IH]; [done|]. exact IH. }
  assert (Hun' : ∀ req l, unmet req l ≠ [] → req ≠ []).
  { intros req l H ->. by rewrite Hun in H. }
  assert (Hfu : ∀ f n i j l, first_unmet f i n = Some (j, l) → f j ≠ []).
  { intros f n. induction n as [|n IH]; intros i j l; cbn [first_unmet]; [done|].
    destruct (f i) eqn:Ef; [apply IH|]. intros [= <- <-]. by rewrite Ef. }
  pose proof (placed_length (wl_systems w) (wl_barriers w) (sc_fns sc) (Hsys w Hwf)) as Hlen.
  pose proof (placed_lookup (wl_systems w) (wl_barriers w) (sc_fns sc) (Hsys w Hwf)) as Hpl.
  pose proof (placed_inv w (sc_fns sc) Hwf) as Hpi.
  unfold placed in *.
  destruct (insert_systems _ _) as [f ps] eqn:Ei. cbn [snd] in *.
  destruct (insert_systems_lookup _ _ _ _ Ei) as [Hll Hil].
  destruct (check_in ps) as [[i l]|] eqn:E1.
  { intros [= <- <-]. unfold check_in in E1. apply Hfu in E1.
    destruct (ps !! i) as [s|] eqn:Es; [|done]. apply Hun' in E1.
    destruct (lookup_lt_is_Some_2 (wl_systems w) i) as [x Hx].
    { rewrite <-Hll. by apply lookup_lt_Some in Es. }
    destruct (Hil i x Hx) as (s' & Hs' & H). rewrite Es in Hs'. injection Hs' as <-.
    exists x. split; [done|]. intros E. apply E1. rewrite <-E. naive_solver. }
  destruct (check_before _) as [[i l]|] eqn:E2.
  { intros [= <- <-]. unfold check_before in E2. apply Hfu in E2.
    destruct (constrain _ _ !! i) as [s|] eqn:Es; [|done]. apply Hun' in E2.
    destruct (Hpi i s Es) as [x Hx]. destruct (Hpl i x Hx) as (s' & Hs' & _ & _ & _ & R & _).
    rewrite Es in Hs'. injection Hs' as <-. exists x. split; [done|congruence]. }
  destruct (check_after _) as [[i l]|] eqn:E3.
  { intros [= <- <-]. unfold check_after in E3. apply Hfu in E3.
    destruct (constrain _ _ !! i) as [s|] eqn:Es; [|done]. apply Hun' in E3.
    destruct (Hpi i s Es) as [x Hx]. destruct (Hpl i x Hx) as (s' & Hs' & _ & _ & _ & _ & R & _).
    rewrite Es in Hs'. injection Hs' as <-. exists x. split; [done|congruence]. }
  pose proof (acyclic_iff w (sc_fns sc) Hwf) as Hiff.
  pose proof (dep_edge w (sc_fns sc) Hwf) as Hde. unfold placed in *. rewrite Ei in Hiff, Hde.
  cbn [snd] in *.
  destruct (order_systems_spec (constrain ps (wl_barriers w)))
    with (ba := ba_new (wl_run_if w)) as
    [(info' & ba' & order' & segs & Ho & HP)|(l & Ho & x & Hx)].
  - intros i s. pose proof (placed_tag w (sc_fns sc) Hwf i s) as H. unfold placed in H.
    by rewrite Ei in H.
  - intros i s j. pose proof (placed_dep_lt w (sc_fns sc) Hwf i s j) as H. unfold placed in H.
    by rewrite Ei in H.
  - rewrite Ho. intros [= <- <-]. apply Hiff. by eapply placed_acyclic.
  - rewrite Ho. intros [= <- <-]. exists x. eapply tc_mono; [|exact Hx].
    intros a b Hab. apply tc_once. by apply Hde.
Qed.

(** Without requirements, and with a new name: accepted exactly when acyclic. *)
Theorem C32_accepted_iff w sc :
  built w → sc_workloads sc !! wl_name w = None →
  Forall (λ s, w_req_in s = [] ∧ w_req_before s = [] ∧ w_req_after s = []) (wl_systems w) →
  (∃ sc' r, create_workload w sc = Some (sc', inr r)) ↔
  acyclic (order_edge (wl_systems w) (wl_barriers w)).
Proof.
  intros Hb Hn Hreq. split.
  - intros (sc' & r & Hc). by apply (C32_cycle_iff w sc sc' (inr r) Hb) in Hc.
  - intros Ha. destruct (C32_terminates w sc Hb) as [[sc' r] Hc].
    pose proof (C32_cycle_iff w sc sc' r Hb Hc) as H. rewrite Forall_lookup in Hreq.
    destruct r as [e|r]; [|eauto]. exfalso. destruct e; cbn in H.
    + rewrite Hn in H. by destruct H.
    + destruct H as (s & Hs & H). destruct (Hreq _ _ Hs). naive_solver.
    + destruct H as (s & Hs & H). destruct (Hreq _ _ Hs). naive_solver.
    + destruct H as (s & Hs & H). destruct (Hreq _ _ Hs). naive_solver.
    + destruct H as [x Hx]. by eapply Ha.
Qed.

(** * C33 *)

Lemma sorted_seq a n : StronglySorted le (seq a n).
Proof.
  revert a. induction n as [|n IH]; intros a; cbn [seq]; constructor; [apply IH|].
  apply Forall_forall. intros x Hx. apply elem_of_seq in Hx. lia.
Qed.
Lemma sorted_lookup (l : list nat) :
  (∀ i j x y, i < j → l !! i = Some x → l !! j = Some y → x ≤ y) → StronglySorted le l.
Proof.
  induction l as [|a l IH]; intros H; constructor.
  - apply IH. intros i j x y Hij Hx Hy. apply (H (S i) (S j)); [lia|done|done].
  - apply Forall_forall. intros x Hx. apply elem_of_list_lookup in Hx as [i Hi].
    apply (H 0 (S i)); [lia|done|done].
Qed.

Lemma no_opt_out_edge ss bars a b :
  Forall (λ s, ¬ opted_out s) ss → order_edge ss bars a b → a < b.
Proof.
  intros Hno [He|[Hb|Hd]].
  - exfalso. destruct He as (_ & sa & sb & Hsa & Hsb & H). rewrite Forall_lookup in Hno.
    pose proof (Hno _ _ Hsa) as Ha. pose proof (Hno _ _ Hsb) as Hb. unfold opted_out in *.
    destruct H as [(l & Hl & _)|(l & Hl & _)].
    + apply Ha. left. intros E. rewrite E in Hl. by apply elem_of_nil in Hl.
    + apply Hb. right. intros E. rewrite E in Hl. by apply elem_of_nil in Hl.
  - destruct Hb as (_ & k & _ & ? & ?). lia.
  - by destruct Hd.
Qed.

Theorem C33_accepted w sc :
  built w → sc_workloads sc !! wl_name w = None →
  Forall (λ s, w_req_in s = [] ∧ w_req_before s = [] ∧ w_req_after s = []) (wl_systems w) →
  Forall (λ s, ¬ opted_out s) (wl_systems w) →
  ∃ sc' r, create_workload w sc = Some (sc', inr r).
Proof.
  intros Hb Hn Hreq Hno. apply C32_accepted_iff; [done..|].
  intros x Hx. assert (x < x); [|lia].
  assert (∀ a b, tc (order_edge (wl_systems w) (wl_barriers w)) a b → a < b) as H.
  { clear x Hx. induction 1 as [a b Hab|a b c Hab _ IH].
    - by eapply no_opt_out_edge.
    - apply no_opt_out_edge in Hab; [lia|done]. }
  by apply H.
Qed.

Theorem C33_declaration_order w sc sc' info ba order :
  built w → create_workload w sc = Some (sc', inr (info, ba, order)) →
  Forall (λ s, ¬ opted_out s) (wl_systems w) →
  map pos order = seq 0 (length (wl_systems w)) ∧
  (∀ a b, a < b → conflicting (wl_systems w) a b → runs_before info order a b).
Proof.
  intros Hb Hc Hno. pose proof (built_wf w Hb) as Hwf.
  assert (Hdf : ∀ a b, a < b → b < length (wl_systems w) → declared_first (wl_systems w) a b).
  { intros a b Hab Hl. split; [done|].
    destruct (lookup_lt_is_Some_2 (wl_systems w) a) as [sa Hsa]; [lia|].
    destruct (lookup_lt_is_Some_2 (wl_systems w) b) as [sb Hsb]; [lia|].
    rewrite Forall_lookup in Hno. exists sa, sb. split_and!; eauto. }
  split.
  - destruct (create_ok _ _ _ _ _ _ Hb Hc) as (segs & HP & _).
    destruct (C30_each_system_once _ _ _ _ _ _ Hb Hc) as (Hp & _).
    apply (StronglySorted_unique le); [|apply sorted_seq|exact Hp].
    apply sorted_lookup. intros i j x y Hij Hx Hy.
    destruct (decide (x ≤ y)) as [|Hlt]; [done|]. exfalso.
    assert (Hin : x ∈ seq 0 (length (wl_systems w))).
    { rewrite <-Hp. by eapply elem_of_list_lookup_2. }
    apply elem_of_seq in Hin.
    destruct (tc_dep_seq _ _ _ _ HP x y) as (k & l & Hk & Hl & Hkl).
    { eapply edge_dep; [done|]. right. right. apply Hdf; lia. }
    rewrite list_lookup_fmap in Hx, Hy.
    apply fmap_Some in Hx as (p & Hp1 & ->). apply fmap_Some in Hy as (q & Hq1 & ->).
    assert (l = i) by (eapply (in_seq_unique _ _ _ _ HP); [exact Hl|by exists p]).
    assert (k = j) by (eapply (in_seq_unique _ _ _ _ HP); [exact Hk|by exists q]). lia.
  - intros a b Hab Hcf. eapply C31_constraints_respected; [done..|]. right. right.
    split; [|done]. apply Hdf; [done|]. destruct Hcf as (_ & sb & _ & Hsb & _).
    by apply lookup_lt_Some in Hsb.
Qed.
