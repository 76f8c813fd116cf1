(** Properties of running a workload: C37, parallel runs and the sequential run agree. *)
From stdpp Require Import prelude countable list gmap sorting.
From Verif Require Import Sched SchedSpec SchedProofs SchedProofs2 SchedProofs3 PropsSched PropsSched3.
From Verif Require Import Run RunSpec RunProofs RunProofs2 RunProofs3 RunProofs4.
Local Open Scope nat_scope.

Section agree.
Context {V E : Type} (sysf : N → prog V (option E)) (condf : N → prog V (E + bool)).
Context (fs : list N) (ba : batches) (ss : list wsys) (m0 : store V).

(** Storages reached from [m0] by writes of the systems [ss]. *)
Inductive touched : store V → Prop :=
| TouchRefl : touched m0
| TouchPut m s v x : touched m → x ∈ ss → may_write (w_borrows x) s → touched (put s v m).

Lemma exec_touched {A} x (p : prog V A) m :
  x ∈ ss → respects (w_borrows x) p → touched m → touched (exec p m).1.
Proof.
  intros Hx Hp. revert m. induction Hp as [a|s k Hr Hk IH|s v p Hw Hp IH]; intros m Hm; cbn [exec].
  - done.
  - by apply IH.
  - apply IH. by econstructor.
Qed.
Lemma steady_touched c m : steady condf ss c → touched m → ceval condf c m = (m, (ceval condf c m0).2).
Proof.
  intros [H1 H2] Ht. assert ((ceval condf c m).2 = (ceval condf c m0).2) as <-.
  { induction Ht as [|m s v x Ht IH Hx Hw]; [done|]. rewrite <-IH. by eapply H2. }
  rewrite <-(H1 m) at 2. by destruct (ceval condf c m).
Qed.

(** Whether a placed system is to run ([None]: its condition fails), and its program. *)
Definition flag (s : psys) : option bool :=
  match p_run_if s with
  | None => Some true
  | Some c => match (ceval condf c m0).2 with inr b => Some b | inl _ => None end
  end.
Definition item_of (s : psys) : list tinfo * prog V (option E) :=
  (p_borrows s, match fs !! p_index s with Some f => sysf f | None => Ret None end).

(** What the theorem assumes about a placed system. *)
Record fair (s : psys) : Prop := {
  fa_sys : ∃ x, x ∈ ss ∧ p_borrows s = w_borrows x;
  fa_fn : is_Some (fs !! p_index s);
  fa_resp : respects (p_borrows s) (item_of s).2;
  fa_steady : ∀ c, p_run_if s = Some c → steady condf ss c
}.

Definition outcome (l : list psys) (m : store V) : option (store V) :=
  if decide (Forall (λ s, flag s ≠ None) l)
  then outp (map item_of (filter (λ s, flag s = Some true) l)) m else None.

Lemma outp_app (l1 l2 : list (list tinfo * prog V (option E))) m :
  outp (l1 ++ l2) m = outp l1 m ≫= outp l2.
Proof.
  revert m. induction l1 as [|[bs p] l1 IH]; intros m; [done|]. cbn [app outp].
  destruct (exec p m) as [m1 [e|]]; [done|apply IH].
Qed.
Lemma outcome_app l1 l2 m : outcome (l1 ++ l2) m = outcome l1 m ≫= outcome l2.
Proof.
  unfold outcome. destruct (decide (Forall _ (l1 ++ l2))) as [H|H].
  - apply Forall_app in H as [H1 H2]. rewrite decide_True by done.
    rewrite filter_app, map_app, outp_app. destruct (outp _ m) as [m1|]; [|done]. cbn.
    by rewrite decide_True.
  - destruct (decide (Forall _ l1)) as [H1|]; [|done]. destruct (outp _ m) as [m1|]; [|done]. cbn.
    rewrite decide_False; [done|]. intros H2. apply H. by apply Forall_app.
Qed.
Lemma outcome_bad l m : ¬ Forall (λ s, flag s ≠ None) l → outcome l m = None.
Proof. intros H. unfold outcome. by rewrite decide_False. Qed.
Lemma outcome_good l m :
  Forall (λ s, flag s ≠ None) l →
  outcome l m = outp (map item_of (filter (λ s, flag s = Some true) l)) m.
Proof. intros H. unfold outcome. by rewrite decide_True. Qed.
Lemma outcome_perm l l' m :
  l ≡ₚ l' → ok_items (map item_of (filter (λ s, flag s = Some true) l)) → outcome l m = outcome l' m.
Proof.
  intros Hp Hok. unfold outcome.
  rewrite (decide_ext _ (Forall (λ s, flag s ≠ None) l')) by (by rewrite Hp).
  destruct (decide _); [|done]. apply outp_perm; [|done]. by rewrite Hp.
Qed.
Lemma outp_touched l m m' :
  Forall fair l → touched m → outp (map item_of l) m = Some m' → touched m'.
Proof.
  revert m. induction l as [|s l IH]; intros m HF Hm; cbn [map outp].
  - by intros [= <-].
  - apply Forall_cons in HF as [[(x & Hx & Hbx) [f Hf] Hr _] HF]. unfold item_of at 1.
    unfold item_of in Hr. cbn [snd] in Hr. rewrite Hf in *.
    pose proof (exec_touched x (sysf f) m Hx ltac:(by rewrite <-Hbx) Hm) as Ht.
    destruct (exec (sysf f) m) as [m1 [e|]]; [done|]. by apply IH.
Qed.
Lemma Forall_filter' {A} (P Q : A → Prop) `{!∀ x, Decision (P x)} l :
  Forall Q l → Forall Q (filter P l).
Proof.
  rewrite !Forall_forall. intros HQ x Hx. apply elem_of_list_filter in Hx as [_ Hx]. by apply HQ.
Qed.
Lemma outcome_touched l m m' : Forall fair l → touched m → outcome l m = Some m' → touched m'.
Proof.
  intros HF Hm. unfold outcome. destruct (decide _); [|done]. apply outp_touched; [|done].
  by apply Forall_filter'.
Qed.

Lemma eval_rif_fair {T} (t : T) nm r s m :
  resolves (ba_sys_rif ba) r (p_run_if s) → fair s → touched m →
  ∃ evs c, eval_rif condf ba t nm r m = (m, evs, c) ∧
    match c with inr b => flag s = Some b | inl _ => flag s = None end.
Proof.
  intros Hres Hs Hm. unfold eval_rif, flag. destruct r as [c|], (p_run_if s) as [cd|] eqn:Er; try done; cbn in Hres.
  - rewrite Hres. pose proof (steady_touched cd m (fa_steady _ Hs _ Er) Hm) as Hcd. rewrite Hcd.
    destruct (ceval condf cd m0) as [m1 [e|b]]; cbn; (eexists _, _; split; [done|]; done).
  - eexists _, _. split; [done|]. done.
Qed.

(** ** The sequential run *)
Lemma seq_loop_outcome i l sl m tr m' res :
  Forall2 (λ y s, y.1 = p_index s ∧ resolves (ba_sys_rif ba) y.2 (p_run_if s) ∧ fair s) l sl →
  touched m → seq_loop sysf condf fs ba i l m = (tr, m', res) →
  outcome sl m = match res with None => Some m' | Some _ => None end.
Proof.
  intros HF. revert i m tr m' res.
  induction HF as [|[ix r] s l sl (Hix & Hres & Hs) HF IH]; intros i m tr m' res Hm; cbn [seq_loop].
  { by intros [= <- <- <-]. }
  cbn in Hix, Hres. subst ix.
  assert (Hone : ∀ m1, outcome (s :: sl) m1 = outcome [s] m1 ≫= outcome sl).
  { intros m1. apply (outcome_app [s]). }
  rewrite Hone.
  destruct (eval_rif_fair i (Some (p_index s)) r s m Hres Hs Hm) as (evs & c & -> & Hc).
  destruct c as [e|b].
  { intros [= <- <- <-]. rewrite outcome_bad; [done|].
    intros H. by apply Forall_cons in H as [H _]. }
  assert (Ho : outcome [s] m = if b then outp [item_of s] m else Some m).
  { rewrite outcome_good by (constructor; [by rewrite Hc|done]).
    rewrite filter_cons. destruct b.
    - by rewrite decide_True.
    - rewrite decide_False; [done|]. by rewrite Hc. }
  rewrite Ho. destruct b.
  - destruct (fa_fn _ Hs) as [f Hf]. rewrite Hf. unfold item_of. rewrite Hf. cbn [outp].
    destruct (exec (sysf f) m) as [m1 [e|]] eqn:Ex; [by intros [= <- <- <-]|]. cbn.
    destruct (seq_loop sysf condf fs ba (S i) l m1) as [[evs' m3] res'] eqn:El.
    intros [= <- <- <-]. eapply IH; [|exact El].
    destruct (fa_sys _ Hs) as (x & Hx & Hbx).
    pose proof (exec_touched x (sysf f) m Hx) as Ht. rewrite Ex in Ht. apply Ht; [|done].
    rewrite <-Hbx. pose proof (fa_resp _ Hs) as Hr. unfold item_of in Hr. cbn in Hr. by rewrite Hf in Hr.
  - cbn. destruct (seq_loop sysf condf fs ba (S i) l m) as [[evs' m3] res'] eqn:El.
    intros [= <- <- <-]. by eapply IH.
Qed.

(** ** One batch *)
Lemma eval_pars_fair k j l sl m :
  Forall2 (λ y s, y.1 = p_index s ∧ resolves (ba_sys_rif ba) y.2 (p_run_if s) ∧ fair s) l sl →
  touched m →
  ∃ evs c, eval_pars condf ba k j l m = (m, evs, c) ∧
    match c with inr bs => map flag sl = map Some bs | inl _ => ¬ Forall (λ s, flag s ≠ None) sl end.
Proof.
  intros HF Hm. revert j. induction HF as [|[ix r] s l sl (Hix & Hres & Hs) HF IH]; intros j; cbn [eval_pars].
  { eexists _, _. split; [done|]. done. }
  cbn in Hix, Hres. subst ix.
  destruct (eval_rif_fair (k, Par j) (Some (p_index s)) r s m Hres Hs Hm) as (evs & c & -> & Hc).
  destruct c as [e|b].
  { eexists _, _. split; [done|]. cbn. intros H. by apply Forall_cons in H as [H _]. }
  destruct (IH (S j)) as (evs' & c' & -> & Hc'). eexists _, _. split; [done|].
  destruct c' as [e|bs]; cbn.
  - intros H. apply Forall_cons in H as [_ H]. done.
  - by rewrite Hc, Hc'.
Qed.

Definition slotted (b : binfo) : list (slot * psys) :=
  option_list (pair Sgl <$> bi_single b) ++ imap (λ j s, (Par j, s)) (bi_par b).
Lemma slotted_members b : (slotted b).*2 = members b.
Proof.
  unfold slotted, members. rewrite fmap_app. f_equal.
  - by destruct (bi_single b).
  - rewrite fmap_imap. apply list_eq. intros j. rewrite list_lookup_imap. by destruct (bi_par b !! j).
Qed.
Lemma slotted_elem b sl s : (sl, s) ∈ slotted b ↔ slot_of b sl = Some s.
Proof.
  unfold slotted. rewrite elem_of_app, elem_of_lookup_imap. destruct sl as [|j]; cbn.
  - split.
    + intros [H|(j & s' & [=] & _)]. destruct (bi_single b) as [s'|]; cbn in H;
        rewrite ?ol_some, ?ol_none in H; [|by apply elem_of_nil in H].
      apply elem_of_list_singleton in H. by injection H as ->.
    + intros ->. left. cbn. by left.
  - split.
    + intros [H|(j' & s' & [= -> ->] & H)]; [|done]. destruct (bi_single b) as [s'|]; cbn in H;
        rewrite ?ol_some, ?ol_none in H; [|by apply elem_of_nil in H].
      by apply elem_of_list_singleton in H.
    + intros H. right. eauto.
Qed.
Lemma slotted_nodup b : NoDup (slotted b).*1.
Proof.
  unfold slotted. rewrite fmap_app, fmap_imap. apply NoDup_app. split_and!.
  - destruct (bi_single b); cbn; [apply NoDup_singleton|apply NoDup_nil_2].
  - intros sl H (j & s & -> & _)%elem_of_lookup_imap. destruct (bi_single b); cbn in H;
      [|by apply elem_of_nil in H]. by apply elem_of_list_singleton in H.
  - apply NoDup_alt. intros i j x Hi Hj. rewrite list_lookup_imap in Hi, Hj.
    apply fmap_Some in Hi as (a & _ & ->). apply fmap_Some in Hj as (a' & _ & Hj). cbn in Hj. congruence.
Qed.
Lemma nodup_fst {A B} (l : list (A * B)) : NoDup l.*1 → NoDup l.
Proof. apply NoDup_fmap_1. Qed.

Lemma fop_filter {A} (R : A → A → Prop) (P : A → Prop) `{!∀ x, Decision (P x)} l :
  ForallOrdPairs R l → ForallOrdPairs R (filter P l).
Proof.
  induction 1 as [|x l H1 H2 IH]; [constructor|]. rewrite filter_cons. destruct (decide _); [|done].
  constructor; [|done]. by apply Forall_filter'.
Qed.
Lemma fop_map {A B} (f : A → B) (R : B → B → Prop) l :
  ForallOrdPairs (λ x y, R (f x) (f y)) l → ForallOrdPairs R (map f l).
Proof.
  induction 1 as [|x l H1 H2 IH]; [constructor|]. cbn. constructor; [|done].
  apply Forall_fmap. done.
Qed.
Definition separate (l : list psys) : Prop :=
  ForallOrdPairs (λ s s', ¬ clash (p_borrows s) (p_borrows s')) l.
Lemma ok_items_fair l : Forall fair l → separate l → ok_items (map item_of l).
Proof.
  intros H1 H2. split.
  - apply Forall_fmap. eapply Forall_impl; [exact H1|]. intros s Hs. apply (fa_resp _ Hs).
  - apply fop_map. done.
Qed.

Lemma batch_outcome k bi r m m1 evs c :
  aligned (ba_sys_rif ba) bi r → Forall fair (members bi) → touched m →
  eval_batch condf ba k (batch_indices bi) r m = (m1, evs, c) →
  m1 = m ∧ match c with
  | inl _ => outcome (members bi) m = None
  | inr f => Forall (λ s, flag s ≠ None) (members bi) ∧
      (∀ sl s, slot_of bi sl = Some s →
         flag s = match sl with Sgl => Some f.1 | Par j => f.2 !! j end)
  end.
Proof.
  intros [A1 A2] HF Hm. unfold eval_batch. cbn [batch_indices fst snd].
  assert (Hs0 : ∃ evs c, eval_rif condf ba (k, Sgl) (p_index <$> bi_single bi) (r.1) m = (m, evs, c) ∧
    match c with inr b => ∀ s, bi_single bi = Some s → flag s = Some b
               | inl _ => ∃ s, bi_single bi = Some s ∧ flag s = None end).
  { destruct (bi_single bi) as [s|] eqn:Es; cbn in A1 |- *.
    - destruct (eval_rif_fair (k, Sgl) (Some (p_index s)) (r.1) s m) as (evs' & c' & -> & Hc); [done| |done|].
      { eapply Forall_forall in HF; [exact HF|]. unfold members. rewrite Es. apply elem_of_app. left. by left. }
      eexists _, _. split; [done|]. destruct c'; [eauto|]. by intros s' [= <-].
    - destruct (r.1); [done|]. eexists _, _. split; [done|]. done. }
  destruct Hs0 as (evs0 & c0 & -> & Hc0). destruct c0 as [e|b0].
  { intros [= <- <- <-]. split; [done|]. destruct Hc0 as (s & Hs & Hfl). rewrite outcome_bad; [done|].
    intros H. unfold members in H. rewrite Hs in H.
    apply Forall_app in H as [H _]. by apply Forall_cons in H as [H _]. }
  destruct (eval_pars_fair k 0 (zip (p_index <$> bi_par bi) r.2) (bi_par bi) m) as (evs1 & c1 & -> & Hc1); [|done|].
  { apply Forall2_same_length_lookup_2.
    - apply Forall2_length in A2. rewrite fmap_length in A2. rewrite zip_with_length, fmap_length. lia.
    - intros j [ix rj] s Hj Hs. apply lookup_zip_with_Some in Hj as (ix' & rj' & [= <- <-] & H1 & H2).
      rewrite list_lookup_fmap, Hs in H1. injection H1 as <-.
      destruct (Forall2_lookup_l _ _ _ _ _ A2 H2) as (cj & Hcj & Hresj).
      rewrite list_lookup_fmap, Hs in Hcj. injection Hcj as <-. split_and!; [done|done|].
      eapply Forall_forall in HF; [exact HF|]. unfold members. apply elem_of_app. right.
      by eapply elem_of_list_lookup_2. }
  intros [= <- <- <-]. split; [done|]. destruct c1 as [e|bs].
  - rewrite outcome_bad; [done|]. intros H. unfold members in H.
    apply Forall_app in H as [_ H]. done.
  - split.
    + unfold members. apply Forall_app. split.
      * destruct (bi_single bi) as [s|]; [rewrite ol_some|rewrite ol_none; done].
        constructor; [|done]. by rewrite (Hc0 s eq_refl).
      * apply Forall_forall. intros s Hs. apply elem_of_list_lookup in Hs as [j Hj].
        assert (map flag (bi_par bi) !! j = Some (flag s)) as Hl by (by rewrite list_lookup_fmap, Hj).
        rewrite Hc1, list_lookup_fmap in Hl. destruct (bs !! j) as [b|]; [|done].
        cbn in Hl. intros Hn. by rewrite Hn in Hl.
    + intros [|j] s Hs; cbn in *; [by apply Hc0|].
      assert (map flag (bi_par bi) !! j = Some (flag s)) as Hl by (by rewrite list_lookup_fmap, Hs).
      rewrite Hc1, list_lookup_fmap in Hl. destruct (bs !! j) as [b|]; [|done].
      cbn in Hl. congruence.
Qed.

(** The borrows of a task of a batch. *)
Definition bor_of (bi : binfo) (x : slot * nat) : list tinfo :=
  match slot_of bi x.1 with Some s => p_borrows s | None => [] end.
Lemma tasks_items bi f :
  Forall (λ s, flag s ≠ None) (members bi) →
  (∀ sl s, slot_of bi sl = Some s → flag s = match sl with Sgl => Some f.1 | Par j => f.2 !! j end) →
  map (pitem sysf fs (bor_of bi)) (batch_tasks (batch_indices bi) f) ≡ₚ
  map item_of (filter (λ s, flag s = Some true) (members bi)).
Proof.
  intros HF Hfl.
  assert (Hp : batch_tasks (batch_indices bi) f ≡ₚ
    map (λ y, (y.1, p_index y.2)) (filter (λ y, flag y.2 = Some true) (slotted bi))).
  { apply NoDup_Permutation.
    - apply nodup_fst, batch_tasks_nodup.
    - apply NoDup_fmap_2_strong.
      + intros [sl s] [sl' s'] H1 H2. cbn. intros [= -> _].
        apply elem_of_list_filter in H1 as [_ H1]. apply elem_of_list_filter in H2 as [_ H2].
        apply slotted_elem in H1, H2. congruence.
      + apply NoDup_filter, nodup_fst, slotted_nodup.
    - intros [sl ix]. rewrite batch_tasks_elem, elem_of_list_In, in_map_iff. split.
      + intros [(-> & H1 & H2)|(j & -> & H1 & H2)]; cbn in H1.
        * apply fmap_Some in H1 as (s & Hs & ->). exists (Sgl, s). split; [done|].
          rewrite <-elem_of_list_In, elem_of_list_filter, slotted_elem. cbn.
          rewrite (Hfl Sgl s Hs), H2. done.
        * rewrite list_lookup_fmap in H1. apply fmap_Some in H1 as (s & Hs & ->).
          exists (Par j, s). split; [done|].
          rewrite <-elem_of_list_In, elem_of_list_filter, slotted_elem. cbn.
          by rewrite (Hfl (Par j) s Hs), H2.
      + intros ([sl' s] & [= -> <-] & Hin).
        rewrite <-elem_of_list_In, elem_of_list_filter, slotted_elem in Hin. cbn in Hin.
        destruct Hin as [Hft Hs]. rewrite (Hfl sl s Hs) in Hft. destruct sl as [|j]; cbn in *.
        * left. rewrite Hs. injection Hft as ->. done.
        * right. exists j. by rewrite list_lookup_fmap, Hs. }
  rewrite Hp, map_map, <-slotted_members.
  assert (Hsl : ∀ y, y ∈ slotted bi → slot_of bi y.1 = Some y.2).
  { intros [sl s]. apply slotted_elem. }
  match goal with |- ?a ≡ₚ ?b => enough (a = b) as Heq by (by rewrite Heq) end.
  clear -Hsl. induction (slotted bi) as [|[sl s] l IH]; [done|].
  cbn [fmap list_fmap]. rewrite !filter_cons. cbn [snd].
  assert (IH' := IH (λ y Hy, Hsl y (elem_of_list_further _ _ _ Hy))).
  destruct (decide (flag s = Some true)); [|done]. cbn [map]. f_equal; [|done].
  unfold pitem, item_of, bor_of. cbn [fst snd].
  pose proof (Hsl (sl, s) (elem_of_list_here _ _)) as H. cbn in H. by rewrite H.
Qed.

(** ** All batches *)
Lemma par_loop_outcome k l infos m tr m' res :
  Forall2 (λ y bi, y.1 = batch_indices bi ∧ aligned (ba_sys_rif ba) bi y.2 ∧
    Forall fair (members bi) ∧ separate (members bi)) l infos →
  touched m → par_loop sysf condf fs ba k l m tr m' res →
  outcome (concat (map members infos)) m = match res with None => Some m' | Some _ => None end.
Proof.
  intros HF Hm H. revert infos HF Hm.
  induction H as [k m|k b r l m m1 evs e Hev|k b r l m m1 evs f sl ix Hev Hin Hno|
    k b r l m m1 evs f tr m2 fin e Hev Hst Hres|k b r l m m1 evs f tr m2 fin tr' m3 res Hev Hst Hres Hl IH];
    intros infos HF Hm.
  - apply Forall2_nil_inv_l in HF as ->. done.
  - apply Forall2_cons_inv_l in HF as (bi & infos' & (Hb & Hal & Hf & Hsep) & HF & ->). cbn in Hb, Hal. subst b.
    cbn [map concat]. rewrite outcome_app.
    destruct (batch_outcome _ _ _ _ _ _ _ Hal Hf Hm Hev) as [-> ->]. done.
  - exfalso. apply Forall2_cons_inv_l in HF as (bi & infos' & (Hb & Hal & Hf & Hsep) & HF & ->). cbn in Hb, Hal. subst b.
    assert (∃ s, s ∈ members bi ∧ ix = p_index s) as (s & Hs & ->).
    { apply batch_tasks_elem in Hin as [(-> & H1 & H2)|(j & -> & H1 & H2)]; cbn in H1.
      - apply fmap_Some in H1 as (s & Hs & ->). exists s. split; [|done]. by eapply (slot_member _ Sgl).
      - rewrite list_lookup_fmap in H1. apply fmap_Some in H1 as (s & Hs & ->). exists s.
        split; [|done]. by eapply (slot_member _ (Par j)). }
    eapply Forall_forall in Hf; [|exact Hs]. destruct (fa_fn _ Hf). congruence.
  - apply Forall2_cons_inv_l in HF as (bi & infos' & (Hb & Hal & Hf & Hsep) & HF & ->). cbn in Hb, Hal. subst b.
    cbn [map concat]. rewrite outcome_app.
    destruct (batch_outcome _ _ _ _ _ _ _ Hal Hf Hm Hev) as [-> [Hfl Hf2]].
    assert (Hok : ok_items (map item_of (filter (λ s, flag s = Some true) (members bi)))).
    { apply ok_items_fair; [by apply Forall_filter'|by apply fop_filter]. }
    pose proof (tasks_items bi f Hfl Hf2) as Hperm.
    pose proof (batch_outp sysf fs k _ (bor_of bi) _ _ _ _ _ _ Hst Hres) as Ho.
    assert (Hok2 := ok_items_perm _ _ (symmetry Hperm) Hok). specialize (Ho Hok2). cbn in Ho.
    rewrite (outp_perm _ _ _ Hperm Hok2) in Ho. rewrite outcome_good by done.
    by rewrite Ho.
  - apply Forall2_cons_inv_l in HF as (bi & infos' & (Hb & Hal & Hf & Hsep) & HF & ->). cbn in Hb, Hal. subst b.
    cbn [map concat]. rewrite outcome_app.
    destruct (batch_outcome _ _ _ _ _ _ _ Hal Hf Hm Hev) as [-> [Hfl Hf2]].
    assert (Hok : ok_items (map item_of (filter (λ s, flag s = Some true) (members bi)))).
    { apply ok_items_fair; [by apply Forall_filter'|by apply fop_filter]. }
    pose proof (tasks_items bi f Hfl Hf2) as Hperm.
    pose proof (batch_outp sysf fs k _ (bor_of bi) _ _ _ _ _ _ Hst Hres) as Ho.
    assert (Hok2 := ok_items_perm _ _ (symmetry Hperm) Hok). specialize (Ho Hok2). cbn in Ho.
    rewrite (outp_perm _ _ _ Hperm Hok2) in Ho.
    assert (Hout : outcome (members bi) m = Some m2) by (by rewrite outcome_good).
    rewrite Hout. cbn. apply IH; [done|]. by eapply outcome_touched.
Qed.
End agree.

Lemma fop_from_distinct {A} (f : A → nat) (R : A → A → Prop) l :
  NoDup (map f l) → (∀ x y, x ∈ l → y ∈ l → f x ≠ f y → R x y) → ForallOrdPairs R l.
Proof.
  induction l as [|x l IH]; intros Hnd H; [constructor|]. cbn in Hnd. apply NoDup_cons in Hnd as [Hx Hnd].
  constructor.
  - apply Forall_forall. intros y Hy. apply H; [by left|by right|]. intros Heq. apply Hx.
    rewrite Heq. apply elem_of_list_In, in_map, elem_of_list_In. done.
  - apply IH; [done|]. intros y z Hy Hz. apply H; by right.
Qed.

(** * C37 *)

(** Every parallel run succeeds exactly if the sequential run does, and then leaves the same
    storages, provided
    - the function under each system's index only uses the storages the system declares,
    - the systems' run conditions change nothing and do not depend on what systems of the
      workload write. *)
Theorem C37_parallel_is_sequential {V E} (sysf : N → prog V (option E)) (condf : N → prog V (E + bool))
    w sc sc' info ba order sc2 m tr m' r trs ms rs :
  built w → fns_ok (sc_fns sc) → create_workload w sc = Some (sc', inr (info, ba, order)) →
  loaded sc' sc2 (wl_name w) ba →
  (∀ s x f, s ∈ order → wl_systems w !! pos s = Some x →
     f_systems (sc_fns sc2) !! p_index s = Some f → respects (w_borrows x) (sysf f)) →
  (∀ x c, x ∈ wl_systems w → w_run_if x = Some c → steady condf (wl_systems w) c) →
  run_workload_par sysf condf (wl_name w) sc2 m tr m' r →
  run_workload_seq sysf condf (wl_name w) sc2 m = (trs, ms, rs) →
  (r = None ↔ rs = None) ∧ (rs = None → m' = ms).
Proof.
  intros Hb Hok Hc Hld Hresp Hst Hpar Hseq. pose proof Hld as [Hl Hfs].
  unfold run_workload_par in Hpar. unfold run_workload_seq in Hseq. rewrite Hl in *.
  unfold run_batches_par in Hpar. unfold run_batches_seq in Hseq.
  destruct (workload_rif condf ba m) as [m0 [r1|[]]].
  { destruct Hpar as (_ & -> & ->). injection Hseq as _ <- <-. done. }
  unfold par_run in Hpar. unfold seq_run in Hseq.
  destruct (create_ok _ _ _ _ _ _ Hb Hc) as (segs & HP & [S1 S2 S3 S4] & _).
  destruct (C30_each_system_once _ _ _ _ _ _ Hb Hc) as (_ & _ & (segs' & Hord & Hperm)).
  set (fs := f_systems (sc_fns sc2)) in *.
  assert (Hfair : ∀ k s, order !! k = Some s → fair sysf condf fs (wl_systems w) s).
  { intros k s Hs. destruct (order_sys w sc info order segs k s Hb HP Hs) as (x & Hx & Bx & Rx & _).
    destruct (order_fn w sc sc' info ba order Hb Hc Hok fs Hfs k s Hs) as [f Hf].
    constructor.
    - exists x. split; [by eapply elem_of_list_lookup_2|done].
    - by exists f.
    - unfold item_of. rewrite Hf. cbn. rewrite Bx. eapply Hresp; [by eapply elem_of_list_lookup_2|done|done].
    - intros c Hcc. apply (Hst x); [by eapply elem_of_list_lookup_2|congruence]. }
  assert (Hmem : ∀ k b s, info !! k = Some b → s ∈ members b → ∃ k', order !! k' = Some s).
  { intros k b s Hk Hs. apply elem_of_list_lookup. rewrite Hord.
    destruct (Forall2_lookup_r _ _ _ _ _ Hperm Hk) as (seg & Hseg & Hsp).
    rewrite <-Hsp in Hs. apply concat_elem. eauto. }
  assert (Hfairb : ∀ k b, info !! k = Some b → Forall (fair sysf condf fs (wl_systems w)) (members b)).
  { intros k b Hk. apply Forall_forall. intros s Hs. destruct (Hmem k b s Hk Hs) as [k' Hk']. eauto. }
  assert (Hsep : ∀ k b, info !! k = Some b → separate (members b)).
  { intros k b Hk. eapply (fop_from_distinct pos); [by eapply info_nodup|].
    intros s s' Hs Hs' Hne.
    destruct (member_sys w sc info order segs k b s Hb HP Hk Hs) as (x & Hx & Bx & _).
    destruct (member_sys w sc info order segs k b s' Hb HP Hk Hs') as (x' & Hx' & Bx' & _).
    rewrite Bx, Bx'. eapply (C29_batch_conflict_free w sc sc' info ba order k (pos s) (pos s')); try done.
    - by exists b, s.
    - by exists b, s'. }
  assert (Hs1 := seq_loop_outcome sysf condf fs ba (wl_systems w) m0 0
    (zip (ba_seq ba) (ba_seq_rif ba)) order m0 trs ms rs).
  assert (Hp1 := par_loop_outcome sysf condf fs ba (wl_systems w) m0 0
    (zip (ba_par ba) (ba_par_rif ba)) info m0 tr m' r).
  assert (Hsame : outcome sysf condf fs m0 order m0 = outcome sysf condf fs m0 (concat (map members info)) m0).
  { rewrite Hord. clear -Hperm Hfairb Hsep. generalize m0 at 2 4 as m1.
    induction Hperm as [|seg b segs' info Hp Hperm IH]; intros m1; [done|].
    cbn [map concat]. rewrite !outcome_app.
    rewrite (outcome_perm sysf condf fs m0 seg (members b)); [|done|].
    - destruct (outcome _ _ _ _ (members b) m1) as [m2|]; [|done]. cbn. apply IH.
      + intros k b' Hk. by apply (Hfairb (S k)).
      + intros k b' Hk. by apply (Hsep (S k)).
    - eapply ok_items_perm.
      + apply Permutation_map. rewrite Hp. done.
      + apply (ok_items_fair sysf condf fs (wl_systems w)).
        * apply Forall_filter'. by apply (Hfairb 0).
        * apply fop_filter. by apply (Hsep 0). }
  rewrite Hs1 in Hsame; [|..|apply TouchRefl|done].
  2: { apply Forall2_same_length_lookup_2.
       - apply Forall2_length in S4. rewrite map_length in S4. rewrite zip_with_length, S3, map_length. lia.
       - intros j [ix rf] s Hj Hs. destruct (seq_at _ _ _ _ _ _ Hb Hc _ _ _ Hj) as (s' & Hs' & -> & Hres).
         rewrite Hs in Hs'. injection Hs' as <-. split_and!; [done|done|by eapply Hfair]. }
  rewrite Hp1 in Hsame; [|..|apply TouchRefl|done].
  2: { apply Forall2_same_length_lookup_2.
       - by eapply stored_length.
       - intros j [b rf] bi Hj Hbi. destruct (stored_at _ _ _ _ _ _ Hb Hc _ _ _ Hj) as (bi' & Hbi' & -> & Hal).
         rewrite Hbi in Hbi'. injection Hbi' as <-. split_and!; [done|done|by eapply Hfairb|by eapply Hsep]. }
  destruct r, rs; try done. split; [done|]. intros _. by injection Hsame as ->.
Qed.

(** The same, for functions told apart by their types: each system's own function respects the
    system's declaration. *)
Theorem C37_declared_functions {V E} (sysf : N → prog V (option E)) (condf : N → prog V (E + bool))
    w sc sc' info ba order sc2 m tr m' r trs ms rs :
  built w → fns_ok (sc_fns sc) → create_workload w sc = Some (sc', inr (info, ba, order)) →
  loaded sc' sc2 (wl_name w) ba →
  (∀ y z, y ∈ wl_systems w → z ∈ wl_systems w → w_type y = w_type z → w_fn y = w_fn z) →
  (∀ y i, y ∈ wl_systems w → f_lookup (sc_fns sc) !! w_type y = Some i →
     f_systems (sc_fns sc) !! i = Some (w_fn y)) →
  (∀ x, x ∈ wl_systems w → respects (w_borrows x) (sysf (w_fn x))) →
  (∀ x c, x ∈ wl_systems w → w_run_if x = Some c → steady condf (wl_systems w) c) →
  run_workload_par sysf condf (wl_name w) sc2 m tr m' r →
  run_workload_seq sysf condf (wl_name w) sc2 m = (trs, ms, rs) →
  (r = None ↔ rs = None) ∧ (rs = None → m' = ms).
Proof.
  intros Hb Hok Hc Hl Hty Hreg Hresp Hst Hpar Hseq.
  eapply (C37_parallel_is_sequential sysf condf w sc sc' info ba order sc2 m tr m' r); try done.
  intros s x f Hs Hx Hf. apply elem_of_list_lookup in Hs as [k Hk].
  pose proof (C30_function_partial _ _ _ _ _ _ _ _ _ Hb Hok Hty Hreg Hc Hk Hx) as Hfn.
  destruct Hl as [_ [fs' Hfs]]. rewrite Hfs in Hf. rewrite (lookup_app_l_Some _ _ _ _ Hfn) in Hf.
  injection Hf as <-. apply Hresp. by eapply elem_of_list_lookup_2.
Qed.

(** All schedules give the same result. *)
Theorem C37_schedule_independent {V E} (sysf : N → prog V (option E)) (condf : N → prog V (E + bool))
    w sc sc' info ba order sc2 m tr1 m1 tr2 m2 r :
  built w → fns_ok (sc_fns sc) → create_workload w sc = Some (sc', inr (info, ba, order)) →
  loaded sc' sc2 (wl_name w) ba →
  (∀ s x f, s ∈ order → wl_systems w !! pos s = Some x →
     f_systems (sc_fns sc2) !! p_index s = Some f → respects (w_borrows x) (sysf f)) →
  (∀ x c, x ∈ wl_systems w → w_run_if x = Some c → steady condf (wl_systems w) c) →
  run_workload_par sysf condf (wl_name w) sc2 m tr1 m1 None →
  run_workload_par sysf condf (wl_name w) sc2 m tr2 m2 r →
  r = None ∧ m2 = m1.
Proof.
  intros Hb Hok Hc Hl Hresp Hst H1 H2.
  destruct (run_workload_seq sysf condf (wl_name w) sc2 m) as [[trs ms] rs] eqn:Es.
  destruct (C37_parallel_is_sequential _ _ _ _ _ _ _ _ _ _ _ _ _ _ _ _ Hb Hok Hc Hl Hresp Hst H1 Es) as [E1 E1'].
  destruct (C37_parallel_is_sequential _ _ _ _ _ _ _ _ _ _ _ _ _ _ _ _ Hb Hok Hc Hl Hresp Hst H2 Es) as [E2 E2'].
  assert (rs = None) as -> by tauto. split; [tauto|]. rewrite E1', E2'; tauto.
Qed.
