(** Proofs about running workloads: the places of the declared systems, and sequential runs. *)
From stdpp Require Import prelude countable list gmap sorting.
From Verif Require Import Sched SchedSpec SchedProofs SchedProofs2 SchedProofs3 PropsSched.
From Verif Require Import Run RunSpec RunProofs RunProofs2.
Local Open Scope nat_scope.

(** * Places *)

Lemma job_slot conds bi r sl ix c :
  aligned conds bi r → job (batch_indices bi) r sl = Some (ix, c) →
  ∃ s, slot_of bi sl = Some s ∧ ix = p_index s ∧ resolves conds c (p_run_if s).
Proof.
  intros [A1 A2] H. destruct sl as [|j]; cbn in *.
  - destruct (bi_single bi) as [s|]; [|done]. cbn in *. injection H as <- <-. eauto.
  - apply lookup_zip_with_Some in H as (i & r' & [= <- <-] & Hi & Hr).
    rewrite list_lookup_fmap in Hi. apply fmap_Some in Hi as (s & Hs & ->).
    destruct (Forall2_lookup_l _ _ _ _ _ A2 Hr) as (c' & Hc' & Hres).
    rewrite list_lookup_fmap, Hs in Hc'. injection Hc' as <-. eauto.
Qed.
Lemma slot_job conds bi r sl s :
  aligned conds bi r → slot_of bi sl = Some s →
  ∃ c, job (batch_indices bi) r sl = Some (p_index s, c) ∧ resolves conds c (p_run_if s).
Proof.
  intros [A1 A2] H. destruct sl as [|j]; cbn in *.
  - rewrite H in *. cbn in *. eauto.
  - destruct (Forall2_lookup_r _ _ _ j (p_run_if s) A2) as (c & Hc & Hres).
    { by rewrite list_lookup_fmap, H. }
    exists c. split; [|done]. apply lookup_zip_with_Some. eexists _, _. split; [done|].
    split; [|done]. by rewrite list_lookup_fmap, H.
Qed.
Lemma slot_member b sl s : slot_of b sl = Some s → s ∈ members b.
Proof.
  unfold members. destruct sl; cbn; intros H; apply elem_of_app.
  - left. rewrite H. by left.
  - right. by eapply elem_of_list_lookup_2.
Qed.
Lemma member_slot b s : s ∈ members b → ∃ sl, slot_of b sl = Some s.
Proof.
  unfold members. intros [H|H]%elem_of_app.
  - destruct (bi_single b) as [s'|] eqn:Es; [|by rewrite ol_none in H; apply elem_of_nil in H].
    rewrite ol_some in H. apply elem_of_list_singleton in H as ->. by exists Sgl.
  - apply elem_of_list_lookup in H as [j H]. by exists (Par j).
Qed.
Definition slot_ix (b : binfo) (sl : slot) : nat :=
  match sl, bi_single b with Sgl, _ => 0 | Par j, Some _ => S j | Par j, None => j end.
Lemma slot_ix_lookup b sl s : slot_of b sl = Some s → members b !! slot_ix b sl = Some s.
Proof.
  unfold members, slot_ix. destruct sl as [|j]; cbn; intros H.
  - by rewrite H.
  - by destruct (bi_single b).
Qed.
Lemma slot_unique b sl sl' s s' :
  NoDup (map pos (members b)) → slot_of b sl = Some s → slot_of b sl' = Some s' → pos s = pos s' →
  sl = sl'.
Proof.
  intros Hnd H H' Hp.
  assert (Hi : slot_ix b sl = slot_ix b sl').
  { eapply NoDup_lookup; [exact Hnd|..]; rewrite list_lookup_fmap.
    - by rewrite (slot_ix_lookup _ _ _ H).
    - rewrite (slot_ix_lookup _ _ _ H'). cbn. by rewrite Hp. }
  unfold slot_ix in Hi. destruct sl, sl', (bi_single b) eqn:Es; cbn in *; congruence.
Qed.

Section places.
Context (w : workload) (sc sc' : sched) (info : list binfo) (ba : batches) (order : list psys).
Context (Hb : built w) (Hc : create_workload w sc = Some (sc', inr (info, ba, order))).

Lemma info_nodup k b : info !! k = Some b → NoDup (map pos (members b)).
Proof.
  intros Hk. destruct (C30_each_system_once _ _ _ _ _ _ Hb Hc) as (_ & Hp & _).
  assert (Hnd : NoDup (map pos (concat (map members info)))).
  { rewrite Hp. apply NoDup_seq. }
  apply elem_of_list_split_length in Hk as (l1 & l2 & -> & _).
  rewrite map_app, concat_app, map_app in Hnd. cbn [map concat] in Hnd. rewrite map_app in Hnd.
  apply NoDup_app in Hnd as (_ & _ & Hnd). by apply NoDup_app in Hnd as (Hnd & _ & _).
Qed.
Lemma runs_as_unique i t t' : runs_as info i t → runs_as info i t' → t = t'.
Proof.
  intros (b & s & H1 & H2 & H3) (b' & s' & H1' & H2' & H3').
  destruct (create_ok _ _ _ _ _ _ Hb Hc) as (segs & HP & _).
  assert (t.1 = t'.1) as Hk.
  { eapply (in_batch_unique _ _ _ _ HP i); [exists b, s|exists b', s'];
      (split_and!; [done|by eapply slot_member|done]). }
  destruct t as [k sl], t' as [k' sl']. cbn in *. subst k'. rewrite H1 in H1'. injection H1' as <-.
  f_equal. eapply slot_unique; [by eapply info_nodup|done|done|congruence].
Qed.
Lemma runs_as_exists i x : wl_systems w !! i = Some x → ∃ t, runs_as info i t.
Proof.
  intros Hx. destruct (C30_each_system_once _ _ _ _ _ _ Hb Hc) as (_ & Hp & _).
  assert (Hi : i ∈ map pos (concat (map members info))).
  { rewrite Hp. apply elem_of_seq. apply lookup_lt_Some in Hx. lia. }
  apply elem_of_list_In, in_map_iff in Hi as (s & Hs & Hi).
  apply in_concat in Hi as (mb & Hm & Hi). apply in_map_iff in Hm as (b & <- & Hb').
  apply elem_of_list_In in Hi, Hb'. apply elem_of_list_lookup in Hb' as [k Hk].
  apply member_slot in Hi as [sl Hsl]. exists (k, sl), b, s. done.
Qed.

Context (Hok : fns_ok (sc_fns sc)).
Context (fs : list N) (Hfs : f_systems (sc_fns sc') `prefix_of` fs).

Lemma index_ok i x :
  wl_systems w !! i = Some x →
  is_Some (fs !! default 0 (p_index <$> (insert_systems (wl_systems w) (sc_fns sc)).2 !! i)).
Proof.
  intros Hx. destruct (create_ok _ _ _ _ _ _ Hb Hc) as (segs & HP & _ & _ & _ & _ & _ & Hf & _).
  destruct (insert_systems _ _) as [f ps] eqn:Ei. cbn [fst snd] in *.
  destruct (insert_systems_fns _ _ _ _ Hok Ei) as (B1 & _ & _ & L & _).
  destruct (lookup_lt_is_Some_2 ps i) as [p Hp].
  { rewrite (proj1 (insert_systems_lookup _ _ _ _ Ei)). by apply lookup_lt_Some in Hx. }
  rewrite Hp. cbn. pose proof (L _ _ _ Hx Hp) as Hl. apply B1 in Hl. rewrite <-Hf in Hl.
  apply lookup_lt_is_Some_2. destruct Hfs as [fs' ->]. rewrite app_length. lia.
Qed.
Lemma member_fn k b s : info !! k = Some b → s ∈ members b → is_Some (fs !! p_index s).
Proof.
  intros Hk Hs. destruct (create_ok _ _ _ _ _ _ Hb Hc) as (segs & HP & _).
  destruct (member_sys w sc info order segs k b s Hb HP Hk Hs) as (x & Hx & _ & _ & ->).
  by eapply index_ok.
Qed.
Lemma order_fn k s : order !! k = Some s → is_Some (fs !! p_index s).
Proof.
  intros Hk. destruct (create_ok _ _ _ _ _ _ Hb Hc) as (segs & HP & _).
  destruct (order_sys w sc info order segs k s Hb HP Hk) as (x & Hx & _ & _ & ->).
  by eapply index_ok.
Qed.

Lemma stored_at k b r :
  zip (ba_par ba) (ba_par_rif ba) !! k = Some (b, r) →
  ∃ bi, info !! k = Some bi ∧ b = batch_indices bi ∧ aligned (ba_sys_rif ba) bi r.
Proof.
  intros H. destruct (create_ok _ _ _ _ _ _ Hb Hc) as (segs & _ & [S1 S2 _ _] & _).
  apply lookup_zip_with_Some in H as (b0 & r0 & [= <- <-] & H1 & H2).
  rewrite S1, list_lookup_fmap in H1. apply fmap_Some in H1 as (bi & Hbi & ->).
  destruct (Forall2_lookup_l _ _ _ _ _ S2 Hbi) as (r1 & Hr1 & Hal). rewrite H2 in Hr1.
  injection Hr1 as <-. eauto.
Qed.
Lemma stored_length : length (zip (ba_par ba) (ba_par_rif ba)) = length info.
Proof.
  destruct (create_ok _ _ _ _ _ _ Hb Hc) as (segs & _ & [S1 S2 _ _] & _).
  apply Forall2_length in S2. rewrite zip_with_length, S1, map_length. lia.
Qed.
Lemma stored_wf k b r :
  zip (ba_par ba) (ba_par_rif ba) !! k = Some (b, r) → wf_batch fs ba b r.
Proof.
  intros H. apply stored_at in H as (bi & Hbi & -> & Hal). split_and!.
  - intros Hn. cbn in Hn. destruct Hal as [A1 _]. destruct (bi_single bi); [done|]. cbn in A1.
    by destruct (r.1).
  - destruct Hal as [_ A2]. apply Forall2_length in A2. rewrite fmap_length in A2.
    cbn. rewrite fmap_length. congruence.
  - intros sl ix c Hj. destruct (job_slot _ _ _ _ _ _ Hal Hj) as (s & _ & _ & Hres).
    cbn in Hres. destruct (p_run_if s); [|done]. by rewrite Hres.
  - intros sl ix c Hj. destruct (job_slot _ _ _ _ _ _ Hal Hj) as (s & Hs & -> & _).
    eapply member_fn; [done|]. by eapply slot_member.
Qed.

Lemma seq_at k ix r :
  zip (ba_seq ba) (ba_seq_rif ba) !! k = Some (ix, r) →
  ∃ s, order !! k = Some s ∧ ix = p_index s ∧ resolves (ba_sys_rif ba) r (p_run_if s).
Proof.
  intros H. destruct (create_ok _ _ _ _ _ _ Hb Hc) as (segs & _ & [_ _ S3 S4] & _).
  apply lookup_zip_with_Some in H as (ix0 & r0 & [= <- <-] & H1 & H2).
  rewrite S3, list_lookup_fmap in H1. apply fmap_Some in H1 as (s & Hs & ->).
  destruct (Forall2_lookup_l _ _ _ _ _ S4 H2) as (c & Hc' & Hres).
  rewrite list_lookup_fmap, Hs in Hc'. injection Hc' as <-. eauto.
Qed.
Lemma seq_of k s :
  order !! k = Some s → ∃ r, zip (ba_seq ba) (ba_seq_rif ba) !! k = Some (p_index s, r) ∧
    resolves (ba_sys_rif ba) r (p_run_if s).
Proof.
  intros H. destruct (create_ok _ _ _ _ _ _ Hb Hc) as (segs & _ & [_ _ S3 S4] & _).
  destruct (Forall2_lookup_r _ _ _ k (p_run_if s) S4) as (r & Hr & Hres).
  { by rewrite list_lookup_fmap, H. }
  exists r. split; [|done]. apply lookup_zip_with_Some. eexists _, _. split; [done|].
  split; [|done]. by rewrite S3, list_lookup_fmap, H.
Qed.
End places.

(** * Traces of several batches *)
Section traces.
Context {V E : Type}.
Lemma concat_elem {A} (ll : list (list A)) x : x ∈ concat ll ↔ ∃ a l, ll !! a = Some l ∧ x ∈ l.
Proof.
  rewrite elem_of_list_In, in_concat. split.
  - intros (l & Hl & Hx). apply elem_of_list_In in Hl, Hx.
    apply elem_of_list_lookup in Hl as [a Hl]. eauto.
  - intros (a & l & Hl & Hx). exists l. rewrite <-!elem_of_list_In. split; [|done].
    by eapply elem_of_list_lookup_2.
Qed.
Lemma starts_concat {T} (trs : list (list (event V E T))) : starts (concat trs) = concat (map starts trs).
Proof. induction trs as [|tr trs IH]; [done|]. cbn [map concat]. by rewrite starts_app, IH. Qed.
Lemma ends_concat {T} (trs : list (list (event V E T))) : ends (concat trs) = concat (map ends trs).
Proof. induction trs as [|tr trs IH]; [done|]. cbn [map concat]. by rewrite ends_app, IH. Qed.
(** Lists numbered by their elements. *)
Lemma nodup_concat {A} (num : A → nat) k (ll : list (list A)) :
  (∀ a l, ll !! a = Some l → NoDup l ∧ ∀ x, x ∈ l → num x = k + a) → NoDup (concat ll).
Proof.
  revert k. induction ll as [|l ll IH]; intros k H; [apply NoDup_nil_2|]. cbn [concat].
  apply NoDup_app. split_and!.
  - by apply (H 0).
  - intros x Hx Hx'. apply concat_elem in Hx' as (a & l' & Hl & Hx').
    apply (H (S a)) in Hx'; [|done]. apply (H 0) in Hx; [|done]. lia.
  - apply (IH (S k)). intros a l' Hl. destruct (H (S a) l' Hl) as [H1 H2]. split; [done|].
    intros x Hx. rewrite H2 by done. lia.
Qed.
Lemma sorted_concat {A} (num : A → nat) k (ll : list (list A)) l1 l2 l3 x y :
  (∀ a l, ll !! a = Some l → ∀ x, x ∈ l → num x = k + a) →
  concat ll = l1 ++ x :: l2 ++ y :: l3 → num x ≤ num y.
Proof.
  revert k l1. induction ll as [|l ll IH]; intros k l1 H; cbn [concat].
  { intros Heq. by destruct l1. }
  intros Heq. apply app_split in Heq as [(l' & -> & Heq)|(l' & -> & Heq)].
  - assert (num x = k).
    { rewrite (H 0 _ eq_refl); [lia|]. apply elem_of_app. right. by left. }
    symmetry in Heq. apply app_split in Heq as [(l'' & -> & _)|(l'' & -> & Heq)].
    + assert (y ∈ l1 ++ x :: l2 ++ y :: l'') as Hy.
      { apply elem_of_app. right. right. apply elem_of_app. right. by left. }
      rewrite (H 0 _ eq_refl _ Hy). lia.
    + assert (y ∈ concat ll) as Hy. { rewrite Heq. apply elem_of_app. right. by left. }
      apply concat_elem in Hy as (a & l0 & Hl & Hy). rewrite (H (S a) _ Hl _ Hy). lia.
  - eapply (IH (S k)); [|exact Heq]. intros a l0 Hl z Hz. rewrite (H (S a) _ Hl _ Hz). lia.
Qed.
End traces.

(** * Sequential runs *)
Section seq.
Context {V E : Type} (sysf : N → prog V (option E)) (condf : N → prog V (E + bool)).
Notation event := (event V E).

Record seq_facts (fs : list N) (ba : batches) (i : nat) (l : list (nat * option nat))
    (tr : list (event nat)) (res : option (rerr E)) : Prop := {
  sf_ge : ∀ ev, ev ∈ tr → i ≤ ev_task ev;
  sf_start : ∀ t f, EvStart t f ∈ tr → ∃ ix r, l !! (t - i) = Some (ix, r) ∧ fs !! ix = Some f ∧
    (r = None ∨ passed tr t);
  sf_sorted : StronglySorted lt (starts tr);
  sf_ends : starts tr = ends tr;
  sf_cond : ∀ t m v, EvCond t m v ∈ tr → ∃ ix ci cd, l !! (t - i) = Some (ix, Some ci) ∧
    ba_sys_rif ba !! ci = Some cd ∧ (ceval condf cd m).2 = inr v;
  sf_ok : res = None → ∀ j ix r, l !! j = Some (ix, r) →
    match r with
    | None => i + j ∈ starts tr
    | Some _ => ∃ m v, EvCond (i + j) m v ∈ tr ∧ (v = true ↔ i + j ∈ starts tr)
    end;
  sf_failed : ∀ t e, failed tr t e →
    (∃ ix r, l !! (t - i) = Some (ix, r) ∧ res = Some (RSystem ix e)) ∧
    ∀ t', t' ∈ starts tr → t' ≤ t;
  sf_res : ∀ x, res = Some x → ∃ ix r e t, i ≤ t ∧ l !! (t - i) = Some (ix, r) ∧
    x = RSystem ix e ∧ failed tr t e
}.

Lemma passed_app {T} (tr1 tr2 : list (event T)) t :
  passed (tr1 ++ tr2) t ↔ passed tr1 t ∨ passed tr2 t.
Proof.
  unfold passed. split.
  - intros (m & [H|H]%elem_of_app); eauto.
  - intros [(m & H)|(m & H)]; exists m; apply elem_of_app; auto.
Qed.
Lemma failed_app {T} (tr1 tr2 : list (event T)) t e :
  failed (tr1 ++ tr2) t e ↔ failed tr1 t e ∨ failed tr2 t e.
Proof.
  unfold failed. rewrite elem_of_app. split.
  - intros [[H|H]|(m & [H|H]%elem_of_app)]; eauto 6.
  - intros [[H|[m H]]|[H|[m H]]]; [eauto| |eauto|]; right; exists m; apply elem_of_app; auto.
Qed.

Lemma seq_loop_facts fs ba i l m tr m' res :
  (∀ j ix r, l !! j = Some (ix, r) → is_Some (fs !! ix) ∧
     match r with Some c => is_Some (ba_sys_rif ba !! c) | None => True end) →
  seq_loop sysf condf fs ba i l m = (tr, m', res) → seq_facts fs ba i l tr res.
Proof.
  revert i m tr m' res. induction l as [|[ix r] l IH]; intros i m tr m' res Hwf.
  { cbn. intros [= <- <- <-]. constructor; try (by intros; set_solver); try done.
    - constructor.
    - intros t e [H|[? H]]; by apply elem_of_nil in H. }
  cbn [seq_loop].
  destruct (Hwf 0 ix r eq_refl) as [[f Hf] Hr].
  assert (Hwf' : ∀ j ix r, l !! j = Some (ix, r) → is_Some (fs !! ix) ∧
     match r with Some c => is_Some (ba_sys_rif ba !! c) | None => True end).
  { intros j ix' r' Hj. by apply (Hwf (S j) ix' r'). }
  destruct (eval_rif condf ba i (Some ix) r m) as [[m1 evs] c] eqn:Ev.
  assert (Hevs : match c with
    | inl e => ∃ ci cd e', r = Some ci ∧ ba_sys_rif ba !! ci = Some cd ∧ evs = [EvCondErr i m e'] ∧
        e = RSystem ix e'
    | inr v => (r = None ∧ v = true ∧ evs = []) ∨ ∃ ci cd, r = Some ci ∧ ba_sys_rif ba !! ci = Some cd ∧
        evs = [EvCond i m v] ∧ (ceval condf cd m).2 = inr v
    end).
  { unfold eval_rif in Ev. destruct r as [ci|]; [|injection Ev as <- <- <-; by left].
    destruct Hr as [cd Hcd]. rewrite Hcd in Ev. destruct (ceval condf cd m) as [m2 [e|v]] eqn:Ec;
      injection Ev as <- <- <-.
    - eauto 10.
    - right. exists ci, cd. by rewrite Ec. }
  destruct c as [e|v].
  { destruct Hevs as (ci & cd & e' & -> & Hcd & -> & ->). intros [= <- <- <-].
    constructor; try done.
    - intros ev ->%elem_of_list_singleton. done.
    - intros t g H%elem_of_list_singleton. done.
    - constructor.
    - intros t m0 v H%elem_of_list_singleton. done.
    - intros t e [H|[m0 H]]; apply elem_of_list_singleton in H; [done|]. injection H as -> -> ->.
      rewrite Nat.sub_diag. split; [|intros t' Ht'; by apply elem_of_nil in Ht']. eauto.
    - intros x [= <-]. exists ix, (Some ci), e', i. rewrite Nat.sub_diag. split_and!; [lia|done|done|].
      right. exists m. by left. }
  (* the rest of the run, after events [evs'] of this system *)
  assert (Hstep : ∀ evs' tr' res' (ran : bool),
    seq_facts fs ba (S i) l tr' res' →
    (evs' = evs ++ (if ran then [EvStart i f; EvEnd i None] else [])) → v = ran →
    seq_facts fs ba i ((ix, r) :: l) (evs' ++ tr') res').
  { intros evs' tr' res' ran Hfacts -> <-.
    destruct Hfacts as [F1 F2 F3 F4 F5 F6 F7 F8].
    assert (Hsub : ∀ t, S i ≤ t → (((ix, r) :: l) !! (t - i)) = l !! (t - S i)).
    { intros t Ht. replace (t - i) with (S (t - S i)) by lia. done. }
    set (mine := evs ++ (if v then [EvStart i f; EvEnd i None] else [])).
    assert (Hmine : ∀ ev, ev ∈ mine → ev_task ev = i).
    { intros ev [H|H]%elem_of_app.
      - destruct Hevs as [(_ & _ & ->)|(ci & cd & _ & _ & -> & _)];
          [by apply elem_of_nil in H|by apply elem_of_list_singleton in H as ->].
      - destruct v; [|by apply elem_of_nil in H].
        apply elem_of_cons in H as [->|H]; [done|by apply elem_of_list_singleton in H as ->]. }
    assert (Hst : starts mine = if v then [i] else []).
    { unfold mine. rewrite starts_app.
      destruct Hevs as [(_ & _ & ->)|(ci & cd & _ & _ & -> & _)]; by destruct v. }
    assert (Hen : ends mine = if v then [i] else []).
    { unfold mine. rewrite ends_app.
      destruct Hevs as [(_ & _ & ->)|(ci & cd & _ & _ & -> & _)]; by destruct v. }
    assert (Hge : ∀ t, t ∈ starts tr' → S i ≤ t).
    { intros t Ht. apply elem_of_starts in Ht as [g Hg]. by apply F1 in Hg. }
    assert (Hi : i ∈ starts (mine ++ tr') ↔ v = true).
    { rewrite starts_app, Hst, elem_of_app. split.
      - intros [H|H]; [destruct v; [done|by apply elem_of_nil in H]|]. apply Hge in H. lia.
      - intros ->. left. by left. }
    assert (Hnf : ∀ t e, ¬ failed mine t e).
    { intros t e [H|[m0 H]]; unfold mine in H.
      - apply elem_of_app in H as [H|H].
        + destruct Hevs as [(_ & _ & ->)|(ci & cd & _ & _ & -> & _)];
            [by apply elem_of_nil in H|by apply elem_of_list_singleton in H].
        + destruct v; [|by apply elem_of_nil in H].
          apply elem_of_cons in H as [H|H]; [done|by apply elem_of_list_singleton in H].
      - apply elem_of_app in H as [H|H].
        + destruct Hevs as [(_ & _ & ->)|(ci & cd & _ & _ & -> & _)];
            [by apply elem_of_nil in H|by apply elem_of_list_singleton in H].
        + destruct v; [|by apply elem_of_nil in H].
          apply elem_of_cons in H as [H|H]; [done|by apply elem_of_list_singleton in H]. }
    constructor.
    - intros ev [H|H]%elem_of_app; [apply Hmine in H; lia|apply F1 in H; lia].
    - intros t g [H|H]%elem_of_app.
      + pose proof (Hmine _ H) as Ht. cbn in Ht. subst t. rewrite Nat.sub_diag. exists ix, r.
        split; [done|]. unfold mine in H. apply elem_of_app in H as [H|H].
        { destruct Hevs as [(_ & _ & ->)|(ci & cd & _ & _ & -> & _)];
            [by apply elem_of_nil in H|by apply elem_of_list_singleton in H]. }
        destruct v; [|by apply elem_of_nil in H].
        apply elem_of_cons in H as [[= ->]|H]; [|by apply elem_of_list_singleton in H].
        split; [done|]. destruct Hevs as [(-> & _ & ->)|(ci & cd & -> & _ & -> & _)]; [by left|].
        right. exists m. by left.
      + pose proof (F1 _ H) as Ht. cbn in Ht. rewrite Hsub by done.
        destruct (F2 _ _ H) as (ix' & r' & H1 & H2 & H3). exists ix', r'. split_and!; [done..|].
        destruct H3 as [H3|H3]; [by left|right]. apply passed_app. by right.
    - rewrite starts_app, Hst. destruct v; [|done]. cbn. constructor; [done|].
      apply Forall_forall. intros t Ht. by apply Hge in Ht.
    - by rewrite starts_app, ends_app, Hst, Hen, F4.
    - intros t m0 v0 [H|H]%elem_of_app.
      + pose proof (Hmine _ H) as Ht. cbn in Ht. subst t. rewrite Nat.sub_diag.
        unfold mine in H. apply elem_of_app in H as [H|H].
        2: { destruct v; [|by apply elem_of_nil in H].
             apply elem_of_cons in H as [H|H]; [done|by apply elem_of_list_singleton in H]. }
        destruct Hevs as [(_ & _ & ->)|(ci & cd & -> & Hcd & -> & Hce)];
          [by apply elem_of_nil in H|]. apply elem_of_list_singleton in H. injection H as -> ->.
        exists ix, ci, cd. done.
      + pose proof (F1 _ H) as Ht. cbn in Ht. rewrite Hsub by done. by apply F5.
    - intros Hres [|j] ix' r' Hj.
      + cbn in Hj. injection Hj as <- <-. rewrite Nat.add_0_r.
        destruct Hevs as [(-> & -> & ->)|(ci & cd & -> & _ & -> & _)]; [by apply Hi|].
        exists m, v. split; [by left|]. by rewrite Hi.
      + cbn in Hj. pose proof (F6 Hres j ix' r' Hj) as H. rewrite Nat.add_succ_comm in H.
        assert (Hs : i + S j ∈ starts (mine ++ tr') ↔ i + S j ∈ starts tr').
        { rewrite starts_app, elem_of_app, Hst. split; [|by right]. intros [H0|H0]; [|done].
          destruct v; [|by apply elem_of_nil in H0]. apply elem_of_list_singleton in H0. lia. }
        destruct r' as [c'|]; [|by apply Hs]. destruct H as (m0 & v0 & H1 & H2).
        exists m0, v0. split; [apply elem_of_app; by right|]. by rewrite Hs.
    - intros t e [H|H]%failed_app; [by apply Hnf in H|].
      assert (S i ≤ t) as Ht.
      { destruct H as [H|[m0 H]]; by apply F1 in H. }
      rewrite Hsub by done. destruct (F7 _ _ H) as [H1 H2]. split; [done|].
      intros t' Ht'. rewrite starts_app, Hst in Ht'. apply elem_of_app in Ht' as [Ht'|Ht']; [|by apply H2].
      destruct v; [|by apply elem_of_nil in Ht']. apply elem_of_list_singleton in Ht'. lia.
    - intros x Hx. destruct (F8 x Hx) as (ix' & r' & e & t & H1 & H2 & H3 & H4).
      exists ix', r', e, t. rewrite Hsub by done. split_and!; [lia|done|done|]. apply failed_app. by right. }
  destruct v.
  - rewrite Hf. destruct (exec (sysf f) m1) as [m2 [e|]] eqn:Ex.
    + intros [= <- <- <-].
      clear Hstep.
      assert (Hst : starts (evs ++ [EvStart i f; EvEnd i (Some e)]) = [i] ∧
                    ends (evs ++ [EvStart i f; EvEnd i (Some e)]) = [i]).
      { rewrite starts_app, ends_app.
        by destruct Hevs as [(_ & _ & ->)|(ci & cd & _ & _ & -> & _)]. }
      destruct Hst as [Hst Hen].
      assert (Hin : ∀ ev, ev ∈ evs ++ [EvStart i f; EvEnd i (Some e)] →
        (ev ∈ evs ∧ ∃ ci cd, r = Some ci ∧ ba_sys_rif ba !! ci = Some cd ∧ ev = EvCond i m true ∧
           (ceval condf cd m).2 = inr true) ∨ ev = EvStart i f ∨ ev = EvEnd i (Some e)).
      { intros ev Hev. apply elem_of_app in Hev as [H|H].
        - left. split; [done|]. destruct Hevs as [(_ & _ & ->)|(ci & cd & -> & Hcd & -> & Hce)];
            [by apply elem_of_nil in H|]. apply elem_of_list_singleton in H as ->. by exists ci, cd.
        - right. apply elem_of_cons in H as [->|H]; [by left|].
          apply elem_of_list_singleton in H as ->. by right. }
      constructor.
      * intros ev Hev. apply Hin in Hev as [(_ & ? & ? & _ & _ & -> & _)|[->| ->]]; done.
      * intros t g Hev. apply Hin in Hev as [(_ & ? & ? & _ & _ & [=] & _)|[[= -> ->]|[=]]].
        rewrite Nat.sub_diag. exists ix, r. split_and!; [done..|].
        destruct Hevs as [(-> & _ & ->)|(ci & cd & -> & _ & -> & _)]; [by left|]. right. exists m. by left.
      * rewrite Hst. repeat constructor.
      * congruence.
      * intros t m0 v0 Hev. apply Hin in Hev as [(_ & ci & cd & -> & Hcd & [= -> -> ->] & Hce)|[[=]|[=]]].
        rewrite Nat.sub_diag. exists ix, ci, cd. done.
      * done.
      * intros t e0 [H|[m0 H]]; apply Hin in H as [(_ & ? & ? & _ & _ & [=] & _)|[[=]|[= -> ->]]].
        rewrite Nat.sub_diag, Hst. split; [eauto|]. intros t' ->%elem_of_list_singleton. done.
      * intros x [= <-]. exists ix, r, e, i. rewrite Nat.sub_diag. split_and!; [lia|done|done|].
        left. apply elem_of_app. right. right. by left.
    + destruct (seq_loop sysf condf fs ba (S i) l m2) as [[evs' m3] res'] eqn:El.
      intros [= <- <- <-]. eapply (Hstep _ _ _ true); [by eapply IH|done|done].
  - destruct (seq_loop sysf condf fs ba (S i) l m1) as [[evs' m3] res'] eqn:El.
    intros [= <- <- <-]. eapply (Hstep _ _ _ false); [by eapply IH|by rewrite app_nil_r|done].
Qed.
End seq.
