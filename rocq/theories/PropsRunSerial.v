(** Properties of running a workload: C68, every run is a run of the started systems one at a
    time. *)
From stdpp Require Import prelude countable list gmap sorting.
From Verif Require Import Sched SchedSpec SchedProofs SchedProofs2 SchedProofs3 PropsSched PropsSched2
  PropsSched3.
From Verif Require Import Run RunSpec RunProofs RunProofs2 RunProofs3 RunProofs4 PropsRun PropsRun2 PropsRun3.
From Verif Require Import RunSerial.
Local Open Scope nat_scope.

Lemma fop_nodup {A B} (f : A → B) (R : A → A → Prop) l :
  NoDup (map f l) → (∀ x y, x ∈ l → y ∈ l → f x ≠ f y → R x y) → ForallOrdPairs R l.
Proof.
  induction l as [|x l IH]; intros Hnd H; [constructor|]. cbn in Hnd. apply NoDup_cons in Hnd as [Hx Hnd].
  constructor.
  - apply Forall_forall. intros y Hy. apply H; [by left|by right|]. intros Heq. apply Hx.
    rewrite Heq. apply elem_of_list_In, in_map, elem_of_list_In. done.
  - apply IH; [done|]. intros y z Hy Hz. apply H; by right.
Qed.

Section loop.
Context {V E : Type} (sysf : N → prog V (option E)) (condf : N → prog V (E + bool)).
Context (fs : list N) (ba : batches) (cnd : task → cond → Prop).

(** What the proofs need to know about batch number [k]. *)
Definition good (k : nat) (b : option nat * list nat) (r : option nat * list (option nat)) : Prop :=
  wf_batch fs ba b r ∧
  (∀ sl ix ci cd, job b r sl = Some (ix, Some ci) → ba_sys_rif ba !! ci = Some cd → cnd (k, sl) cd) ∧
  ∃ bor, ∀ fl,
    (∀ x f, x ∈ batch_tasks b fl → fs !! x.2 = Some f → respects (bor x) (sysf f)) ∧
    (∀ x y, x ∈ batch_tasks b fl → y ∈ batch_tasks b fl → x.1 ≠ y.1 → ¬ clash (bor x) (bor y)).

(** One batch. *)
Lemma batch_items k b r m m1 evs f tr m2 fin :
  good k b r → eval_batch condf ba k b r m = (m1, evs, inr f) →
  bsteps sysf fs k (fst <$> (own_task b f).1)
    {| b_store := m1; b_pend := batch_tasks b f; b_run := []; b_done := [] |} tr
    {| b_store := m2; b_pend := []; b_run := []; b_done := fin |} →
  ∃ bor st rs, exec_items st m1 = (m2, rs) ∧ fin ≡ₚ rs ∧
    map (λ y, ((k, y.1.1), y.2)) st = started sysf tr ∧
    (∀ y, y ∈ st → y.1 ∈ batch_tasks b f ∧ ∃ g, fs !! y.1.2 = Some g ∧ y.2 = sysf g) ∧
    NoDup (map (λ y, y.1.1) st) ∧ ok_items (with_bor bor st).
Proof.
  intros (W & _ & bor & Hb) Hev Hst. destruct (Hb f) as [Hr Hs]. clear Hb.
  destruct (batch_result_exists (fst <$> (own_task b f).1) fin) as [res Hres].
  pose proof (batch_complete sysf condf fs ba k b r m m1 evs f tr m2 fin res W Hev Hst Hres) as Hbt.
  destruct (bsteps_items sysf bor fs k _ _ _ _ Hst eq_refl) as (st & rs & X1 & X2 & X3 & X4).
  { unfold left_items. cbn. rewrite app_nil_r. split.
    - apply Forall_fmap, Forall_forall. intros x Hx. unfold pitem. cbn.
      destruct (fs !! x.2) as [g|] eqn:Eg; [by apply Hr|constructor].
    - apply fop_map. apply (fop_nodup fst).
      + apply batch_tasks_nodup.
      + intros x y Hx Hy Hne. cbn. by apply Hs. }
  cbn [b_run b_store b_done app] in *. exists bor, st, rs.
  assert (Hnd : NoDup (map (λ y, y.1.1) st)).
  { pose proof (bt_starts _ _ _ _ _ _ _ _ Hbt) as Hn.
    destruct (eval_batch_trace condf fs ba k b r m m1 evs _ W Hev) as (S1 & _).
    rewrite starts_app, S1 in Hn. cbn [app] in Hn. rewrite <-(started_starts sysf), <-X3 in Hn.
    clear -Hn. apply (NoDup_fmap_1 (λ sl, (k, sl))). rewrite (map_map _ fst) in Hn.
    change (NoDup (map (λ sl, (k, sl)) (map (λ y, y.1.1) st))). by rewrite map_map. }
  split_and!; try done. split.
  - unfold with_bor. apply Forall_fmap, Forall_forall. intros y Hy. cbn.
    destruct (X4 y Hy) as (A & g & Hg & ->). by apply Hr.
  - unfold with_bor. apply fop_map. apply (fop_nodup (λ y, y.1.1)); [done|]. intros x y Hx Hy Hne. cbn.
    destruct (X4 x Hx) as [A _]. destruct (X4 y Hy) as [B _]. by apply Hs.
Qed.

Lemma batch_serial all k b r m m1 evs f tr m2 fin :
  good k b r → eval_batch condf ba k b r m = (m1, evs, inr f) →
  bsteps sysf fs k (fst <$> (own_task b f).1)
    {| b_store := m1; b_pend := batch_tasks b f; b_run := []; b_done := [] |} tr
    {| b_store := m2; b_pend := []; b_run := []; b_done := fin |} →
  (∀ t r, EvEnd t r ∈ tr → EvEnd t r ∈ all) →
  serial sysf condf cnd all (evs ++ tr) m m2.
Proof.
  intros Hg Hev Hst Hall.
  destruct (batch_items _ _ _ _ _ _ _ _ _ _ Hg Hev Hst) as (bor & st & rs & X1 & X2 & X3 & _).
  destruct Hg as (W & Hc & _).
  eapply serial_app; [by eapply eval_batch_serial|].
  destruct (bsteps_facts sysf fs k _ _ _ _ Hst) as (st0 & sk & fin0 & F).
  eapply (items_serial sysf condf k); [by eapply bf_conds|done|done|].
  intros x r0 Hx. apply Hall. apply (bf_end _ _ _ _ _ _ _ _ _ F). exists x. split; [|done].
  rewrite <-X2 in Hx. pose proof (bf_done _ _ _ _ _ _ _ _ _ F) as Hd. cbn in Hd. by subst.
Qed.

Lemma par_loop_serial all k l m tr m' res :
  (∀ a b r, l !! a = Some (b, r) → good (k + a) b r) →
  par_loop sysf condf fs ba k l m tr m' res →
  (∀ t r, EvEnd t r ∈ tr → EvEnd t r ∈ all) → serial sysf condf cnd all tr m m'.
Proof.
  intros Hg H.
  induction H as [k m|k b r l m m1 evs e Hev|k b r l m m1 evs f sl ix Hev Hin Hno|
    k b r l m m1 evs f tr m2 fin e Hev Hst Hres|k b r l m m1 evs f tr m2 fin tr' m3 res Hev Hst Hres Hl IH];
    intros Hall.
  - constructor.
  - pose proof (Hg 0 b r eq_refl) as (W & Hc & _). rewrite Nat.add_0_r in Hc. by eapply eval_batch_serial.
  - pose proof (Hg 0 b r eq_refl) as (W & Hc & _). rewrite Nat.add_0_r in Hc. by eapply eval_batch_serial.
  - pose proof (Hg 0 b r eq_refl) as G. rewrite Nat.add_0_r in G. eapply batch_serial; [done..|].
    intros t r0 Ht. apply Hall, elem_of_app. by right.
  - pose proof (Hg 0 b r eq_refl) as G. rewrite Nat.add_0_r in G. rewrite app_assoc. eapply serial_app.
    + eapply batch_serial; [done..|]. intros t r0 Ht. apply Hall. set_solver.
    + apply IH.
      * intros a b' r' Ha. rewrite Nat.add_succ_l, <-Nat.add_succ_r. by apply (Hg (S a)).
      * intros t r0 Ht. apply Hall. set_solver.
Qed.

(** * Runs that start the same systems *)

Lemma perm_filter_fst (k : nat) (l1 l1' l2 l2' : list task) :
  (∀ t, t ∈ l1 → t.1 = k) → (∀ t, t ∈ l1' → t.1 = k) →
  (∀ t, t ∈ l2 → t.1 ≠ k) → (∀ t, t ∈ l2' → t.1 ≠ k) →
  l1 ++ l2 ≡ₚ l1' ++ l2' → l1 ≡ₚ l1' ∧ l2 ≡ₚ l2'.
Proof.
  intros H1 H1' H2 H2' Hp.
  assert (Hf : ∀ l l' : list task, (∀ t, t ∈ l → t.1 = k) → (∀ t, t ∈ l' → t.1 ≠ k) →
    filter (λ t, t.1 = k) (l ++ l') = l ∧ filter (λ t, t.1 ≠ k) (l ++ l') = l').
  { clear. intros l l' H H'. induction l as [|t l IH]; cbn [app].
    - induction l' as [|t l' IH']; [done|]. rewrite !filter_cons.
      assert (t.1 ≠ k) by (apply H'; by left). rewrite decide_False, decide_True by done.
      destruct IH' as [I1 I2]; [intros; apply H'; by right|]. split; [exact I1|f_equal; exact I2].
    - rewrite !filter_cons. assert (t.1 = k) as Ht by (apply H; by left).
      rewrite decide_True by done. rewrite (decide_False (P := t.1 ≠ k)) by (by intros ?).
      destruct IH as [I1 I2]; [intros; apply H; by right|]. split; [f_equal; exact I1|exact I2]. }
  destruct (Hf l1 l2 H1 H2) as [A1 A2]. destruct (Hf l1' l2' H1' H2') as [B1 B2]. split.
  - rewrite <-A1, <-B1. by rewrite Hp.
  - rewrite <-A2, <-B2. by rewrite Hp.
Qed.

Lemma batch_determined k b r m m1 evs f tr m2 fin tr' m2' fin' :
  good k b r → eval_batch condf ba k b r m = (m1, evs, inr f) →
  bsteps sysf fs k (fst <$> (own_task b f).1)
    {| b_store := m1; b_pend := batch_tasks b f; b_run := []; b_done := [] |} tr
    {| b_store := m2; b_pend := []; b_run := []; b_done := fin |} →
  bsteps sysf fs k (fst <$> (own_task b f).1)
    {| b_store := m1; b_pend := batch_tasks b f; b_run := []; b_done := [] |} tr'
    {| b_store := m2'; b_pend := []; b_run := []; b_done := fin' |} →
  starts tr ≡ₚ starts tr' →
  m2 = m2' ∧ fin ≡ₚ fin' ∧ (∀ t r, EvEnd t r ∈ tr ↔ EvEnd t r ∈ tr').
Proof.
  intros Hg Hev H1 H2 Hp.
  destruct (batch_items _ _ _ _ _ _ _ _ _ _ Hg Hev H1) as (bor & st & rs & X1 & X2 & X3 & X4 & X5 & X6).
  destruct (batch_items _ _ _ _ _ _ _ _ _ _ Hg Hev H2) as (bor' & st' & rs' & Y1 & Y2 & Y3 & Y4 & Y5 & _).
  assert (Hsl : map (λ y, y.1.1) st ≡ₚ map (λ y, y.1.1) st').
  { rewrite <-!(started_starts sysf), <-X3, <-Y3 in Hp. rewrite !(map_map _ fst) in Hp. cbn in Hp.
    assert (Hc : ∀ l : list (slot * nat * prog V (option E)),
      map (λ y, y.1.1) l = map snd (map (λ y, (k, y.1.1)) l)).
    { intros l. by rewrite map_map. }
    rewrite !Hc. by rewrite Hp. }
  assert (Hin : ∀ s1 s2 : list (slot * nat * prog V (option E)),
    (∀ y, y ∈ s1 → y.1 ∈ batch_tasks b f ∧ ∃ g, fs !! y.1.2 = Some g ∧ y.2 = sysf g) →
    (∀ y, y ∈ s2 → y.1 ∈ batch_tasks b f ∧ ∃ g, fs !! y.1.2 = Some g ∧ y.2 = sysf g) →
    map (λ y, y.1.1) s1 ≡ₚ map (λ y, y.1.1) s2 → ∀ y, y ∈ s1 → y ∈ s2).
  { clear. intros s1 s2 A B Hp y Hy.
    assert (Hy' : y.1.1 ∈ map (λ y, y.1.1) s2).
    { rewrite <-Hp. apply elem_of_list_In, in_map_iff. exists y. by rewrite <-elem_of_list_In. }
    apply elem_of_list_In, in_map_iff in Hy' as (z & Hz & Hin). apply elem_of_list_In in Hin.
    destruct (A y Hy) as (A1 & g & A2 & A3). destruct (B z Hin) as (B1 & g' & B2 & B3).
    assert (Hyz : y.1 = z.1).
    { pose proof (batch_tasks_nodup b f) as Hnd. destruct y as [[sl ix] p], z as [[sl' ix'] p']. cbn in *. subst sl'.
      f_equal. apply elem_of_list_lookup in A1 as [i Hi], B1 as [j Hj].
      assert (i = j) as ->.
      { eapply NoDup_lookup; [exact Hnd|..]; rewrite list_lookup_fmap; [by rewrite Hi|by rewrite Hj]. }
      rewrite Hi in Hj. by injection Hj. }
    assert (y = z) as ->; [|done]. destruct y as [x p], z as [x' p']. cbn in *. subst x'.
    rewrite A2 in B2. injection B2 as <-. by subst. }
  assert (Hst : st ≡ₚ st').
  { apply NoDup_Permutation; [by eapply NoDup_fmap_1|by eapply NoDup_fmap_1|]. intros y. split.
    - by apply Hin.
    - by apply Hin. }
  destruct (exec_items_perm bor st st' m1 Hst X6) as [P1 P2]. rewrite X1, Y1 in P1, P2. cbn in P1, P2.
  assert (Hfin : fin ≡ₚ fin') by (by rewrite X2, Y2). split_and!; try done.
  destruct (bsteps_facts sysf fs k _ _ _ _ H1) as (s0 & sk & f0 & F).
  destruct (bsteps_facts sysf fs k _ _ _ _ H2) as (s0' & sk' & f0' & F').
  pose proof (bf_done _ _ _ _ _ _ _ _ _ F) as D. pose proof (bf_done _ _ _ _ _ _ _ _ _ F') as D'. cbn in D, D'. subst.
  intros t r0. rewrite (bf_end _ _ _ _ _ _ _ _ _ F), (bf_end _ _ _ _ _ _ _ _ _ F'). by setoid_rewrite Hfin.
Qed.

Lemma batch_result_fail own (fin fin' : list (slot * nat * option E)) r r' :
  fin ≡ₚ fin' → batch_result own fin r → batch_result own fin' r' → r = None ↔ r' = None.
Proof.
  intros Hp H H'.
  assert (Hn : ∀ (l : list (slot * nat * option E)) q,
    batch_result own l q → q = None ↔ ∀ x o, (x, o) ∈ l → o = None).
  { clear. intros l q Hq. destruct Hq as [x e Hx _|x e Hx _ _|Hall]; split; try done.
    - intros Ha. by apply Ha in Hx.
    - intros Ha. by apply Ha in Hx. }
  rewrite (Hn _ _ H), (Hn _ _ H'). by setoid_rewrite Hp.
Qed.

Lemma batch_starts_num k b r m m1 evs f tr m2 fin :
  good k b r → eval_batch condf ba k b r m = (m1, evs, inr f) →
  bsteps sysf fs k (fst <$> (own_task b f).1)
    {| b_store := m1; b_pend := batch_tasks b f; b_run := []; b_done := [] |} tr
    {| b_store := m2; b_pend := []; b_run := []; b_done := fin |} →
  (∀ t, t ∈ starts tr → t.1 = k) ∧ starts evs = [] ∧ ends evs = [].
Proof.
  intros (W & _) Hev Hst. destruct (eval_batch_trace condf fs ba k b r m m1 evs _ W Hev) as (S1 & S2 & _).
  split; [|done]. destruct (bsteps_facts sysf fs k _ _ _ _ Hst) as (s0 & sk & f0 & F).
  intros t. rewrite (bf_starts _ _ _ _ _ _ _ _ _ F). intros Ht.
  apply elem_of_list_In, in_map_iff in Ht as (x & <- & _). done.
Qed.
Lemma par_loop_num k l m tr m' res :
  (∀ a b r, l !! a = Some (b, r) → good (k + a) b r) →
  par_loop sysf condf fs ba k l m tr m' res → ∀ t, t ∈ starts tr → k ≤ t.1.
Proof.
  intros Hg H. apply par_loop_batches in H as (trs & -> & _ & _ & _ & H).
  2: { intros a b r Ha. apply (Hg a b r Ha). }
  intros t Ht. rewrite starts_concat in Ht. apply concat_elem in Ht as (a & tra & Ha & Ht).
  rewrite list_lookup_fmap in Ha. apply fmap_Some in Ha as (tra' & Ha & ->).
  destruct (H a tra' Ha) as (b & r & _ & Hbt). apply elem_of_starts in Ht as [f Hf].
  apply (bt_task _ _ _ _ _ _ _ _ Hbt) in Hf. cbn in Hf. lia.
Qed.
Lemma no_ends (tr : list (event V E task)) t r : ends tr = [] → EvEnd t r ∉ tr.
Proof. intros H Hin. assert (t ∈ ends tr) as Ht by (apply elem_of_ends; eauto). rewrite H in Ht. by apply elem_of_nil in Ht. Qed.

Lemma par_loop_determined k l m tr1 m1 r1 tr2 m2 r2 :
  (∀ a b r, l !! a = Some (b, r) → good (k + a) b r) →
  par_loop sysf condf fs ba k l m tr1 m1 r1 → par_loop sysf condf fs ba k l m tr2 m2 r2 →
  starts tr1 ≡ₚ starts tr2 →
  m1 = m2 ∧ (∀ t r, EvEnd t r ∈ tr1 ↔ EvEnd t r ∈ tr2) ∧ (r1 = None ↔ r2 = None).
Proof.
  intros Hg H. revert tr2 m2 r2.
  induction H as [k m|k b r l m m1 evs e Hev|k b r l m m1 evs f sl ix Hev Hin Hno|
    k b r l m m1 evs f tr ma fin e Hev Hst Hres|k b r l m m1 evs f tr ma fin tr' mb res Hev Hst Hres Hl IH];
    intros tr2 m2 r2 H2 Hp.
  - inversion H2; subst. done.
  - inversion H2 as [|? ? ? ? ? ? ? ? Hev'|? ? ? ? ? ? ? ? ? ? Hev' Hin' Hno'|
      ? ? ? ? ? ? ? ? ? ? ? ? Hev' Hst' Hres'|? ? ? ? ? ? ? ? ? ? ? ? ? ? Hev' Hst' Hres' Hl']; subst;
      rewrite Hev in Hev'; simplify_eq; done.
  - exfalso. destruct (Hg 0 b r eq_refl) as (W & _).
    destruct (task_job fs ba b r f sl ix W Hin) as [c Hj].
    destruct W as (_ & _ & _ & W). destruct (W _ _ _ Hj). congruence.
  - pose proof (Hg 0 b r eq_refl) as G. rewrite Nat.add_0_r in G.
    destruct (batch_starts_num _ _ _ _ _ _ _ _ _ _ G Hev Hst) as (N1 & N2 & N3).
    inversion H2 as [|? ? ? ? ? ? ? ? Hev'|? ? ? ? ? ? ? ? ? ? Hev' Hin' Hno'|
      ? ? ? ? ? ? ? ? ? ? ? ? Hev' Hst' Hres'|? ? ? ? ? ? ? ? ? ? ? ? ? ? Hev' Hst' Hres' Hl']; subst;
      rewrite Hev in Hev'; simplify_eq.
    + exfalso. destruct (Hg 0 b r eq_refl) as (W & _).
      destruct (task_job fs ba b r _ _ _ W Hin') as [c Hj].
      destruct W as (_ & _ & _ & W). destruct (W _ _ _ Hj). congruence.
    + rewrite !starts_app, N2 in Hp. cbn [app] in Hp.
      destruct (batch_determined _ _ _ _ _ _ _ _ _ _ _ _ _ G Hev Hst Hst' Hp) as (-> & Hf & He).
      split_and!; [done| |done]. intros t r0. rewrite !elem_of_app. naive_solver.
    + exfalso. destruct (batch_starts_num _ _ _ _ _ _ _ _ _ _ G Hev Hst') as (N1' & _ & _).
      rewrite !starts_app, N2 in Hp. cbn [app] in Hp.
      rewrite <-(app_nil_r (starts tr)) in Hp. apply (perm_filter_fst k) in Hp as [Hp _]; [|done|done|..].
      * destruct (batch_determined _ _ _ _ _ _ _ _ _ _ _ _ _ G Hev Hst Hst' Hp) as (-> & Hf & He).
        destruct (batch_result_fail _ _ _ _ _ Hf Hres Hres') as [_ X]. by specialize (X eq_refl).
      * intros t Ht. by apply elem_of_nil in Ht.
      * intros t Ht. eapply par_loop_num in Ht; [|..|exact Hl'].
        -- lia.
        -- intros a b' r' Ha. rewrite Nat.add_succ_l, <-Nat.add_succ_r. by apply (Hg (S a)).
  - pose proof (Hg 0 b r eq_refl) as G. rewrite Nat.add_0_r in G.
    assert (Hg' : ∀ a b' r', l !! a = Some (b', r') → good (S k + a) b' r').
    { intros a b' r' Ha. rewrite Nat.add_succ_l, <-Nat.add_succ_r. by apply (Hg (S a)). }
    destruct (batch_starts_num _ _ _ _ _ _ _ _ _ _ G Hev Hst) as (N1 & N2 & N3).
    assert (Hgt : ∀ t, t ∈ starts tr' → t.1 ≠ k).
    { intros t Ht. eapply par_loop_num in Ht; [|exact Hg'|exact Hl]. lia. }
    inversion H2 as [|? ? ? ? ? ? ? ? Hev'|? ? ? ? ? ? ? ? ? ? Hev' Hin' Hno'|
      ? ? ? ? ? ? ? ? ? ? ? ? Hev' Hst' Hres'|? ? ? ? ? ? ? ? ? ? ? ? ? ? Hev' Hst' Hres' Hl']; subst;
      rewrite Hev in Hev'; simplify_eq.
    + exfalso. destruct (Hg 0 b r eq_refl) as (W & _).
      destruct (task_job fs ba b r _ _ _ W Hin') as [c Hj].
      destruct W as (_ & _ & _ & W). destruct (W _ _ _ Hj). congruence.
    + exfalso. destruct (batch_starts_num _ _ _ _ _ _ _ _ _ _ G Hev Hst') as (N1' & _ & _).
      rewrite !starts_app, N2 in Hp. cbn [app] in Hp. symmetry in Hp.
      rewrite <-(app_nil_r (starts tr0)) in Hp.
      apply (perm_filter_fst k) in Hp as [Hp _]; [|done|done| |done].
      * symmetry in Hp. destruct (batch_determined _ _ _ _ _ _ _ _ _ _ _ _ _ G Hev Hst Hst' Hp) as (-> & Hf & He).
        destruct (batch_result_fail _ _ _ _ _ Hf Hres Hres') as [X _]. by specialize (X eq_refl).
      * intros t Ht. by apply elem_of_nil in Ht.
    + destruct (batch_starts_num _ _ _ _ _ _ _ _ _ _ G Hev Hst') as (N1' & _ & _).
      rewrite !starts_app, N2 in Hp. cbn [app] in Hp.
      apply (perm_filter_fst k) in Hp as [Hp Hp']; [|done|done|done|].
      2: { intros t Ht. eapply par_loop_num in Ht; [|exact Hg'|exact Hl']. lia. }
      destruct (batch_determined _ _ _ _ _ _ _ _ _ _ _ _ _ G Hev Hst Hst' Hp) as (-> & Hf & He).
      destruct (IH Hg' _ _ _ Hl' Hp') as (-> & He' & Hr). split_and!; [done| |done].
      intros t r0. rewrite !elem_of_app. naive_solver.
Qed.
End loop.

Section c68.
Context {V E : Type} (sysf : N → prog V (option E)) (condf : N → prog V (E + bool)).

Lemma good_stored w sc sc' info ba order fs :
  built w → fns_ok (sc_fns sc) → create_workload w sc = Some (sc', inr (info, ba, order)) →
  f_systems (sc_fns sc') `prefix_of` fs →
  (∀ s x f, s ∈ order → wl_systems w !! pos s = Some x →
     fs !! p_index s = Some f → respects (w_borrows x) (sysf f)) →
  ∀ a b r, zip (ba_par ba) (ba_par_rif ba) !! a = Some (b, r) → good sysf fs ba (cond_at w info) a b r.
Proof.
  intros Hb Hok Hc Hfs Hresp a b r Ha.
  destruct (create_ok _ _ _ _ _ _ Hb Hc) as (segs & HP & _).
  destruct (C30_each_system_once _ _ _ _ _ _ Hb Hc) as (_ & _ & (segs' & Hord & Hperm)).
  pose proof (stored_wf w sc sc' info ba order Hb Hc Hok fs Hfs _ _ _ Ha) as W.
  destruct (stored_at w sc sc' info ba order Hb Hc _ _ _ Ha) as (bi & Hbi & -> & Hal).
  assert (Hmem : ∀ s, s ∈ members bi → s ∈ order).
  { intros s Hs. rewrite Hord. destruct (Forall2_lookup_r _ _ _ _ _ Hperm Hbi) as (seg & Hseg & Hsp).
    rewrite <-Hsp in Hs. apply concat_elem. eauto. }
  assert (Hslot : ∀ fl x, x ∈ batch_tasks (batch_indices bi) fl →
    ∃ s, slot_of bi x.1 = Some s ∧ x.2 = p_index s).
  { intros fl [sl ix] Hx. destruct (task_job fs ba _ _ _ _ _ W Hx) as [c Hj].
    destruct (job_slot _ _ _ _ _ _ Hal Hj) as (s & H1 & H2 & _). eauto. }
  split_and!; [done|..].
  - intros sl ix ci cd Hj Hcd. destruct (job_slot _ _ _ _ _ _ Hal Hj) as (s & Hs & -> & Hres).
    destruct (member_sys w sc info order segs a bi s Hb HP Hbi) as (x & Hx & _ & R & _);
      [by eapply slot_member|].
    exists (pos s), x. split_and!; [done|by exists bi, s|]. rewrite <-R. cbn in Hres.
    destruct (p_run_if s) as [c|]; [|done]. congruence.
  - exists (bor_of bi). intros fl. split.
    + intros x f Hx Hf. destruct (Hslot fl x Hx) as (s & Hs & Hix). rewrite Hix in Hf.
      unfold bor_of. rewrite Hs.
      destruct (member_sys w sc info order segs a bi s Hb HP Hbi) as (y & Hy & B & _);
        [by eapply slot_member|]. rewrite B. eapply Hresp; [|done|done]. apply Hmem. by eapply slot_member.
    + intros x y Hx Hy Hne. destruct (Hslot fl x Hx) as (s & Hs & _). destruct (Hslot fl y Hy) as (s' & Hs' & _).
      unfold bor_of. rewrite Hs, Hs'.
      destruct (member_sys w sc info order segs a bi s Hb HP Hbi) as (z & Hz & Bz & _);
        [by eapply slot_member|].
      destruct (member_sys w sc info order segs a bi s' Hb HP Hbi) as (z' & Hz' & Bz' & _);
        [by eapply slot_member|].
      rewrite Bz, Bz'. eapply (C29_batch_conflict_free w sc sc' info ba order a (pos s) (pos s')); try done.
      * exists bi, s. split_and!; [done|by eapply slot_member|done].
      * exists bi, s'. split_and!; [done|by eapply slot_member|done].
      * intros Hp. apply Hne. eapply slot_unique; [by eapply info_nodup|done|done|done].
Qed.

(** * C68 *)

(** Every run in parallel, whatever its outcome and however the systems were interleaved, left
    the storages and gave the results of running alone, one after the other in the order of
    their starts, the systems that were started (and the conditions where they were evaluated).
    Only assumed: the function under each system's index uses only what the system declares. *)
Theorem C68_serial w sc sc' info ba order sc2 m tr m' r :
  built w → fns_ok (sc_fns sc) → create_workload w sc = Some (sc', inr (info, ba, order)) →
  loaded sc' sc2 (wl_name w) ba →
  (∀ s x f, s ∈ order → wl_systems w !! pos s = Some x →
     f_systems (sc_fns sc2) !! p_index s = Some f → respects (w_borrows x) (sysf f)) →
  run_workload_par sysf condf (wl_name w) sc2 m tr m' r →
  serial sysf condf (cond_at w info) tr tr (after_rif condf w m) m'.
Proof.
  intros Hb Hok Hc [Hl Hfs] Hresp Hrun. unfold run_workload_par in Hrun. rewrite Hl in Hrun.
  unfold run_batches_par, workload_rif in Hrun. unfold after_rif.
  destruct (create_ok _ _ _ _ _ _ Hb Hc) as (segs & _ & _ & Hrif & _). rewrite Hrif in Hrun.
  assert (Hloop : ∀ m1, par_run sysf condf (f_systems (sc_fns sc2)) ba m1 tr m' r →
    serial sysf condf (cond_at w info) tr tr m1 m').
  { intros m1 Hp. eapply par_loop_serial; [|exact Hp|done]. intros a b r0 Ha. by eapply good_stored. }
  destruct (wl_run_if w) as [c|]; [|by apply Hloop].
  destruct (ceval condf c m) as [m1 [e|[]]]; cbn [fst].
  - destruct Hrun as (-> & -> & _). constructor.
  - by apply Hloop.
  - destruct Hrun as (-> & -> & _). constructor.
Qed.

(** Two parallel runs that started the same systems, in whatever order and interleaving, gave the
    same results and left the same storages; both failed or both succeeded. *)
Theorem C68_determined w sc sc' info ba order sc2 m tr1 m1 r1 tr2 m2 r2 :
  built w → fns_ok (sc_fns sc) → create_workload w sc = Some (sc', inr (info, ba, order)) →
  loaded sc' sc2 (wl_name w) ba →
  (∀ s x f, s ∈ order → wl_systems w !! pos s = Some x →
     f_systems (sc_fns sc2) !! p_index s = Some f → respects (w_borrows x) (sysf f)) →
  run_workload_par sysf condf (wl_name w) sc2 m tr1 m1 r1 →
  run_workload_par sysf condf (wl_name w) sc2 m tr2 m2 r2 →
  starts tr1 ≡ₚ starts tr2 →
  m1 = m2 ∧ (∀ t r, EvEnd t r ∈ tr1 ↔ EvEnd t r ∈ tr2) ∧ (r1 = None ↔ r2 = None).
Proof.
  intros Hb Hok Hc [Hl Hfs] Hresp H1 H2 Hp. unfold run_workload_par in *. rewrite Hl in *.
  unfold run_batches_par in *. destruct (workload_rif condf ba m) as [m0 [q|[]]].
  - destruct H1 as (-> & -> & ->), H2 as (-> & -> & ->). done.
  - eapply par_loop_determined; [|exact H1|exact H2|exact Hp]. intros a b r0 Ha. by eapply good_stored.
Qed.

Lemma seq_loop_serial (cnd : nat → cond → Prop) all fs ba i l m tr m' res :
  (∀ j ix ci cd, l !! j = Some (ix, Some ci) → ba_sys_rif ba !! ci = Some cd → cnd (i + j) cd) →
  seq_loop sysf condf fs ba i l m = (tr, m', res) → (∀ t r, EvEnd t r ∈ tr → EvEnd t r ∈ all) →
  serial sysf condf cnd all tr m m'.
Proof.
  revert i m tr m' res. induction l as [|[ix r] l IH]; intros i m tr m' res Hc; cbn [seq_loop].
  { intros [= <- <- <-]. constructor. }
  destruct (eval_rif condf ba i (Some ix) r m) as [[m1 evs] c] eqn:Ev.
  assert (S1 : serial sysf condf cnd all evs m m1).
  { eapply eval_rif_serial; [|exact Ev]. intros ci cd -> Hcd. rewrite <-(Nat.add_0_r i). by eapply Hc. }
  assert (Hc' : ∀ j ix ci cd, l !! j = Some (ix, Some ci) → ba_sys_rif ba !! ci = Some cd → cnd (S i + j) cd).
  { intros j ix' ci cd Hj. rewrite Nat.add_succ_l, <-Nat.add_succ_r. by apply (Hc (S j) ix'). }
  destruct c as [e|[]]; [by intros [= <- <- <-]|..].
  - destruct (fs !! ix) as [f|]; [|by intros [= <- <- <-]].
    destruct (exec (sysf f) m1) as [m2 [e|]] eqn:Ee.
    + intros [= <- <- <-] Hall. eapply serial_app; [exact S1|].
      eapply SerStart; [done| |by constructor; constructor]. apply Hall. apply elem_of_app. right. right. by left.
    + destruct (seq_loop sysf condf fs ba (S i) l m2) as [[tr2 m3] res2] eqn:El. intros [= <- <- <-] Hall.
      rewrite <-app_assoc. eapply serial_app; [exact S1|]. cbn [app].
      eapply SerStart; [done| |constructor; eapply IH; [exact Hc'|exact El|]].
      * apply Hall. apply elem_of_app. left. apply elem_of_app. right. right. by left.
      * intros t r0 Ht. apply Hall. apply elem_of_app. by right.
  - destruct (seq_loop sysf condf fs ba (S i) l m1) as [[tr2 m3] res2] eqn:El. intros [= <- <- <-] Hall.
    eapply serial_app; [exact S1|]. eapply IH; [exact Hc'|exact El|].
    intros t r0 Ht. apply Hall. apply elem_of_app. by right.
Qed.

(** Without the feature "parallel" nothing needs to be assumed about the systems. *)
Theorem C68_serial_seq w sc sc' info ba order sc2 m tr m' r :
  built w → create_workload w sc = Some (sc', inr (info, ba, order)) →
  loaded sc' sc2 (wl_name w) ba →
  run_workload_seq sysf condf (wl_name w) sc2 m = (tr, m', r) →
  serial sysf condf (cond_nth w order) tr tr (after_rif condf w m) m'.
Proof.
  intros Hb Hc [Hl Hfs] Hrun. unfold run_workload_seq in Hrun. rewrite Hl in Hrun.
  unfold run_batches_seq, workload_rif in Hrun. unfold after_rif.
  destruct (create_ok _ _ _ _ _ _ Hb Hc) as (segs & HP & _ & Hrif & _). rewrite Hrif in Hrun.
  assert (Hloop : ∀ m1, seq_run sysf condf (f_systems (sc_fns sc2)) ba m1 = (tr, m', r) →
    serial sysf condf (cond_nth w order) tr tr m1 m').
  { intros m1 Hp. eapply seq_loop_serial; [|exact Hp|done]. intros j ix ci cd Hj Hcd. cbn.
    destruct (seq_at w sc sc' info ba order Hb Hc _ _ _ Hj) as (s & Hs & -> & Hres). cbn in Hres.
    destruct (order_sys w sc info order segs j s Hb HP Hs) as (x & Hx & _ & R & _).
    exists s, x. split_and!; [done|done|]. rewrite <-R. destruct (p_run_if s) as [c|]; [|done]. congruence. }
  destruct (wl_run_if w) as [c|]; [|by apply Hloop].
  destruct (ceval condf c m) as [m1 [e|[]]]; cbn [fst].
  - injection Hrun as <- <- _. constructor.
  - by apply Hloop.
  - injection Hrun as <- <- _. constructor.
Qed.
End c68.

(** * Concrete cases *)

(** The failed run [exf_run], and another one with the starts the other way round, where the
    write comes last: the hypotheses hold, the traces differ. *)
Lemma exf_respects s x f :
  s ∈ exf_order → wl_systems exf !! pos s = Some x →
  f_systems (sc_fns exf_sc) !! p_index s = Some f → respects (w_borrows x) (run_sysf f).
Proof.
  intros Hs. unfold exf_order in Hs.
  repeat (apply elem_of_cons in Hs as [->|Hs]); [..|by apply elem_of_nil in Hs];
    (intros Hx; vm_compute in Hx; injection Hx as <-; intros Hf; vm_compute in Hf; injection Hf as <-; cbn).
  - apply set_respects. exists (wr 1). split; [by left|by left].
  - constructor.
  - constructor.
    + exists (rd 1). split; [by left|by left].
    + intros v. constructor; [|constructor]. exists (wr 2). split; [right; by left|by left].
Qed.
Definition exf_tr2 : list (event N unit task) :=
  [EvStart (0, Par 1) 14; EvEnd (0, Par 1) (Some tt); EvStart (0, Par 0) 10; EvEnd (0, Par 0) None].
Lemma exf_run2 :
  run_workload_par run_sysf run_condf (wl_name exf) exf_sc ∅ exf_tr2 {[1%N := 10%N]} (Some (RSystem 1 tt)).
Proof.
  unfold run_workload_par. cbn. unfold run_batches_par, par_run. cbn.
  change exf_tr2 with ([] ++ exf_tr2). eapply PFail; [reflexivity| |].
  - vm_compute (batch_tasks _ _).
    eapply bsteps_cons_eq; [apply (BStart _ _ _ _ ∅ [(Par 0, 0)] [] (Par 1) 1 14%N [] []); reflexivity| |].
    1: eapply bsteps_cons_eq; [apply (BEnd _ _ _ _ _ _ [] [] (Par 1, 1) (Some tt) [])| |].
    1: eapply bsteps_cons_eq; [apply (BStart _ _ _ _ ∅ [] [] (Par 0) 0 10%N _ _); reflexivity| |].
    1: eapply bsteps_cons_eq; [apply (BWr _ _ _ _ ∅ [] [] [] (Par 0, 0) 1 (Some 10%N) (Ret None) _)| |].
    1: eapply bsteps_cons_eq; [apply (BEnd _ _ _ _ _ [] [] [] (Par 0, 0) None [((Par 1, 1), Some tt)])| |].
    1: apply bsteps_nil.
    all: reflexivity.
  - apply (BRPool _ _ (Par 1, 1) tt); [by left|done|].
    intros y e' Hy. cbn in Hy. apply elem_of_cons in Hy as [[= ->]|Hy]; [done|].
    by apply elem_of_list_singleton in Hy.
Qed.
Example C68_case :
  serial run_sysf run_condf (cond_at exf exf_info) exf_tr exf_tr ∅ {[1%N := 10%N]} ∧
  starts exf_tr ≡ₚ starts exf_tr2 ∧ starts exf_tr ≠ starts exf_tr2 ∧
  (∀ t r, EvEnd t r ∈ exf_tr ↔ EvEnd t r ∈ exf_tr2).
Proof.
  assert (Hl : loaded exf_sc exf_sc (wl_name exf) exf_ba).
  { eapply loaded_self, exf_create. apply exf_built. }
  assert (Hp : starts exf_tr ≡ₚ starts exf_tr2) by apply perm_swap.
  split_and!; [|done|done|].
  - eapply (C68_serial run_sysf run_condf exf sc_new exf_sc exf_info exf_ba exf_order exf_sc ∅);
      [apply exf_built|apply fns_ok_new|apply exf_create|done|apply exf_respects|apply exf_run].
  - by eapply (C68_determined run_sysf run_condf exf sc_new exf_sc exf_info exf_ba exf_order exf_sc ∅);
      [apply exf_built|apply fns_ok_new|apply exf_create|done|apply exf_respects|apply exf_run|apply exf_run2|].
Qed.
(** A successful run with conditions. *)
Example C68_case_conditions :
  ∃ tr m', run_workload_par run_sysf run_condf (wl_name exr) exr_sc exr_m tr m' None ∧
    serial run_sysf run_condf (cond_at exr exr_info) tr tr exr_m m' ∧
    cond_at exr exr_info (0, Par 1) (CNot (CBase 9)).
Proof.
  destruct C37_case as (tr & m' & Hr & _). exists tr, m'. split_and!; [done|..].
  - eapply (C68_serial run_sysf run_condf exr sc_new exr_sc exr_info exr_ba exr_order exr_sc exr_m);
      [apply exr_built|apply fns_ok_new|apply exr_create|by eapply loaded_self, exr_create; apply exr_built| |done].
    intros s x f Hs Hx Hf. replace f with (w_fn x).
    { apply exr_respects. by eapply elem_of_list_lookup_2. }
    unfold exr_order in Hs. repeat (apply elem_of_cons in Hs as [->|Hs]); [..|by apply elem_of_nil in Hs];
      (vm_compute in Hx; injection Hx as <-; vm_compute in Hf; injection Hf as <-; reflexivity).
  - eexists 1, _. split; [reflexivity|]. split; [|reflexivity]. eexists _, _. split_and!; reflexivity.
Qed.
Example C68_case_seq :
  ∃ tr m' r, run_workload_seq run_sysf run_condf (wl_name exr) exr_sc exr_m = (tr, m', r) ∧
    serial run_sysf run_condf (cond_nth exr exr_order) tr tr exr_m m' ∧ starts tr = [0; 2; 3].
Proof.
  destruct (run_workload_seq run_sysf run_condf (wl_name exr) exr_sc exr_m) as [[tr m'] r] eqn:Er.
  exists tr, m', r. split; [done|]. split.
  - eapply (C68_serial_seq run_sysf run_condf exr sc_new exr_sc exr_info exr_ba exr_order exr_sc exr_m);
      [apply exr_built|apply exr_create|by eapply loaded_self, exr_create; apply exr_built|done].
  - assert (H : starts (run_workload_seq run_sysf run_condf (wl_name exr) exr_sc exr_m).1.1 = [0; 2; 3])
      by (vm_compute; reflexivity). by rewrite Er in H.
Qed.

(** The assumption is needed: two systems that add one to a storage they did not declare can
    lose an update, which no order of running them alone does. *)
Definition add_prog : prog N (option unit) :=
  Rd 1 (λ v, Wr 1 (Some (default 0 v + 1))%N (Ret None)).
Definition add_sysf (f : N) : prog N (option unit) := add_prog.
Definition exu : workload := nm 1 [sy 20 [wr 5]; sy 21 [wr 6]].
Example C68_undeclared :
  ∃ sc' info ba order, built exu ∧ create_workload exu sc_new = Some (sc', inr (info, ba, order)) ∧
    loaded sc' sc' (wl_name exu) ba ∧
    ∃ tr m', run_workload_par add_sysf run_condf (wl_name exu) sc' ∅ tr m' None ∧
      ¬ serial add_sysf run_condf (cond_at exu info) tr tr ∅ m'.
Proof.
  assert (Hb : built exu) by (apply built_nm; decl).
  destruct (create_workload exu sc_new) as [[sc' [e|[[info ba] order]]]|] eqn:E;
    [vm_compute in E; done| |vm_compute in E; done].
  exists sc', info, ba, order. split; [done|]. split; [done|].
  split; [by eapply loaded_self|].
  vm_compute in E. injection E as <- <- <- <-.
  eexists [EvStart (0, Par 0) 20%N; EvStart (0, Par 1) 21%N; EvEnd (0, Par 0) None; EvEnd (0, Par 1) None],
    (put 1 (Some 1%N) (put 1 (Some 1%N) ∅)). split.
  - unfold run_workload_par. vm_compute (sc_workload _ _). cbv beta iota.
    unfold run_batches_par. vm_compute (workload_rif _ _ _). cbv beta iota. unfold par_run.
    vm_compute (zip _ _).
    match goal with |- par_loop _ _ _ _ _ _ _ ?tr _ _ => change tr with ([] ++ tr ++ []) end.
    eapply PNext; [vm_compute; reflexivity| |apply BROk|apply PNil].
    + vm_compute (batch_tasks _ _). vm_compute (f_systems _).
      eapply bsteps_cons_eq; [apply (BStart _ _ _ _ ∅ [] [(Par 1, 1)] (Par 0) 0 20%N [] []); reflexivity| |].
      1: eapply bsteps_cons_eq; [apply (BStart _ _ _ _ ∅ [] [] (Par 1) 1 21%N _ []); reflexivity| |].
      1: eapply bsteps_cons_eq; [apply (BRd _ _ _ _ ∅ [] [] [((Par 1, 1), add_prog)] (Par 0, 0))| |].
      1: eapply bsteps_cons_eq; [apply (BRd _ _ _ _ ∅ [] [((Par 0, 0), Wr 1 (Some 1%N) (Ret None))] [] (Par 1, 1))| |].
      1: eapply bsteps_cons_eq; [apply (BWr _ _ _ _ ∅ [] [] [((Par 1, 1), Wr 1 (Some 1%N) (Ret None))] (Par 0, 0))| |].
      1: eapply bsteps_cons_eq; [apply (BWr _ _ _ _ _ [] [((Par 0, 0), Ret None)] [] (Par 1, 1))| |].
      1: eapply bsteps_cons_eq; [apply (BEnd _ _ _ _ _ [] [] [((Par 1, 1), Ret None)] (Par 0, 0) None [])| |].
      1: eapply bsteps_cons_eq; [apply (BEnd _ _ _ _ _ [] [] [] (Par 1, 1) None [((Par 0, 0), None)])| |].
      1: apply bsteps_nil.
      all: reflexivity.
    + intros x r Hx. cbn in Hx. apply elem_of_cons in Hx as [[= -> ->]|Hx]; [done|].
      by apply elem_of_list_singleton in Hx as [= -> ->].
  - intros H. inversion H as [| | |? ? ? ? ? m1 ? E1 _ H1|]; subst. cbn in E1. injection E1 as <- _.
    inversion H1 as [| | |? ? ? ? ? m2 ? E2 _ H2|]; subst. cbn in E2. injection E2 as <- _.
    inversion H2 as [| | | |? ? ? ? ? H3]; subst. inversion H3 as [| | | |? ? ? ? ? H4]; subst.
    inversion H4.
Qed.

Print Assumptions C68_serial.
Print Assumptions C68_serial_seq.
Print Assumptions C68_determined.
