(** C79: a view that asks for tracking always finds the tracking data it reads. *)
From stdpp Require Import prelude list gmap.
From Coq Require Import NArith Lia.
From Verif Require Import EntityId Base SparseSet SparseSetSpec SparseSetProofs SparseSetHistory.
From Verif Require Import Iter IterSpec IterFloat IterProofs IterProofs2 PropsSparseSet.
From Verif Require Import ViewTrack ViewTrackSpec.
Open Scope N_scope.

Section props.
Context {T : Type}.
Implicit Types (v : vmut T) (s : sset T) (h : hist T).

(** ** Invariant *)
Definition on (k : trk) h : Prop := covers (Trk (h_ti h) (h_tm h) (h_td h) (h_tr h)) k.
Definition ready (k : trk) v h : Prop := on k h ∧ ∃ a, SR (vm_set v) a ∧ HR h a.

Lemma h_step_on k h o ev : on k h -> on k (h_step h (o, ev)).
Proof.
  intros (H1 & H2 & H3 & H4). unfold on, covers in *. cbn in *.
  destruct o; cbn; repeat case_match; cbn; try by split_and!.
  split_and!; intros Hk; apply orb_true_iff; left; auto.
Qed.
Lemma hist_of_on k l : ∀ h, on k h -> on k (hist_of h l).
Proof. induction l as [|[o ev] l IH]; intros h H; [done|]. apply (IH (h_step h (o, ev))), h_step_on, H. Qed.
Lemma made_SR st s h : made st s h -> on st h ∧ ∃ a, SR s a ∧ HR h a.
Proof.
  intros [ops HRe]. split; [|by eapply reaches_SR]. destruct HRe as (_ & evs & _ & ->).
  apply hist_of_on. split_and!; done.
Qed.
Lemma covers_trans a b c : covers a b -> covers b c -> covers a c.
Proof. intros (?&?&?&?) (?&?&?&?). split; [|split; [|split]]; auto. Qed.
Lemma check_on k s h a : SR s a -> HR h a ->
  check_tracking s (k_ins k) (k_mod k) (k_del k) (k_rem k) = true <-> on k h.
Proof.
  intros HS HH. unfold check_tracking, on, covers. cbn.
  rewrite (sr_ti _ _ HS), (sr_tm _ _ HS), (sr_td _ _ HS), (sr_tr _ _ HS),
    <- (hr_ti _ _ HH), <- (hr_tm _ _ HH), <- (hr_td _ _ HH), <- (hr_tr _ _ HH).
  destruct k as [[] [] [] []], h as [? ? ? [] [] [] []]; cbn; naive_solver.
Qed.
Lemma held_ready st k x v h :
  held st k x v h -> x = false ∨ covers st k -> ready k v h.
Proof.
  intros Hh Hx. induction Hh as [s h lr c v Hm Hb|v h o v' ev Hh IH Ho Hd|v h li lm lr Hh IH|v h s' h' Hex Hh IH Hm].
  - destruct (made_SR _ _ _ Hm) as [_ (a & HS & HH)]. unfold borrow_view in Hb.
    destruct (check_tracking s _ _ _ _) eqn:E; [|done]. injection Hb as <-.
    split; [by eapply check_on|]. by exists a.
  - destruct IH as [Hon (a & HS & HH)].
    destruct (s_step_ok _ _ _ _ HS HH Ho) as (s' & ev' & a' & E & _ & HS' & HH').
    unfold v_do in Hd. rewrite E in Hd. cbn [rbind] in Hd. injection Hd as <- <-.
    split; [by apply h_step_on|]. by exists a'.
  - exact IH.
  - destruct Hx as [->|Hx]; [done|]. destruct (made_SR _ _ _ Hm) as [Hon HS].
    split; [|done]. by eapply covers_trans.
Qed.

(** ** The reads *)
Definition cell h (e : eid) (i : N) : option (row T) :=
  (λ x, Row x (h_ins h e) (h_mod h e)) <$> h_val h e.
Lemma ready_told k v h e : ready k v h -> gen e < U16_MAX ->
  (k_ins k = true -> v_is_inserted v e = Ok (new_in h v e)) ∧
  (k_mod k = true -> v_is_modified v e = Ok (written_in h v e)).
Proof.
  intros [(Hi & Hm & _) (a & HS & HH)] He. cbn in Hi, Hm.
  assert (∀ t l c (P : Prop) (D : Decision (P ∧ l < t ∧ t <= c)), P -> is_within t l c = bool_decide (P ∧ l < t ∧ t <= c)) as Hw.
  { intros t l c P D HP. unfold is_within. apply eq_true_iff_eq.
    rewrite andb_true_iff, bool_decide_eq_true, N.ltb_lt, N.leb_le. tauto. }
  split; intros Hk.
  - unfold v_is_inserted. rewrite (is_inserted_SR _ a) by (rewrite <- ?(hr_ti _ _ HH); auto).
    unfold new_in. rewrite (hr_val _ _ HH). f_equal. destruct (sp_map a !! e) as [r|] eqn:E.
    + rewrite (hr_ins _ _ HH _ _ E). apply Hw. by eexists.
    + symmetry. apply bool_decide_eq_false_2. by intros [[? ?] _].
  - unfold v_is_modified. rewrite (is_modified_SR _ a) by (rewrite <- ?(hr_tm _ _ HH); auto).
    unfold written_in. rewrite (hr_val _ _ HH). f_equal. destruct (sp_map a !! e) as [r|] eqn:E.
    + rewrite (hr_mod _ _ HH _ _ E). apply Hw. by eexists.
    + symmetry. apply bool_decide_eq_false_2. by intros [[? ?] _].
Qed.
Lemma ready_window k v h i : ready k v h ->
  wn_id (v_window v i) = i ∧ win_ok (v_window v i) (λ e, cell h e i).
Proof.
  intros [_ (a & HS & HH)]. split; [done|].
  eapply win_ok_SR; [done|apply HS|apply HS|].
  intros e. unfold cell. rewrite (hr_val _ _ HH). destruct (sp_map a !! e) as [[x i' m']|] eqn:E; cbn; [|done].
  by rewrite (hr_ins _ _ HH _ _ E), (hr_mod _ _ HH _ _ E).
Qed.
(** What an iteration over the view should visit: who is in the storage and marked, resp. not marked. *)
Definition wanted h v (neg : bool) (m : mark) (e : eid) : option T :=
  match h_val h e with Some x => if xorb neg (told h v m e) then Some x else None | None => None end.
Lemma denote_wanted h v neg m e :
  denote (cell h) (λ _, vm_li v) (λ _, vm_lm v) (λ _, vm_cur v) (QTrack neg m 0) e = IVal <$> wanted h v neg m e.
Proof.
  cbn [denote]. unfold cell, wanted. destruct (h_val h e) as [x|] eqn:E; cbn [fmap option_fmap option_map]; [|done].
  assert (marked (λ _, vm_li v) (λ _, vm_lm v) (λ _, vm_cur v) m 0 (Row x (h_ins h e) (h_mod h e)) = told h v m e) as ->.
  { unfold marked, told, new_in, written_in, in_window. cbn [r_ins r_mod]. rewrite E.
    assert (∀ (P : Prop) (D1 : Decision P) (D : Decision (is_Some (Some x) ∧ P)),
      @bool_decide (is_Some (Some x) ∧ P) D = @bool_decide P D1) as Hb.
    { intros P D1 D. apply bool_decide_ext. split; [tauto|]. intros. split; [by eexists|done]. }
    destruct m; erewrite ?Hb; done. }
  by destruct (xorb _ _).
Qed.
Lemma ready_iter k v h neg m : ready k v h -> offers k m ->
  ∃ it L, v_iter v neg m = Ok it ∧ collects wi_next it L ∧ collects it_next it L.*2 ∧ it_fold it = Ok L.*2 ∧
    NoDup L.*1 ∧ (∀ e, e ∈ L.*1 <-> is_Some (wanted h v neg m e)) ∧
    (∀ e o, (e, o) ∈ L -> ∃ x, wanted h v neg m e = Some x ∧ erase o = IVal x).
Proof.
  intros HR Hof.
  destruct (q_iter_ok f32_id f32_half f32_not f32_track (v_window v) (cell h)
    (λ i, ready_window k v h i HR) f32_id_le f32_half_le f32_not_le f32_track_le (QTrack neg m 0))
    as (it & l & ls & E & HT & (Y1 & Y2 & Y3) & H1 & H2 & H3).
  - destruct HR as [(Hi & Hm & _) (a & HS & HH)]. cbn in Hi, Hm.
    rewrite (hr_ti _ _ HH), <- (sr_ti _ _ HS) in Hi. rewrite (hr_tm _ _ HH), <- (sr_tm _ _ HS) in Hm.
    destruct m; cbn in *; naive_solver.
  - done.
  - cbn. lia.
  - rewrite (H1 eq_refl) in *.
    exists it, (items (mjoin [l])). split; [exact E|]. split; [by apply wi_collects; [done|constructor]|].
    split; [by apply it_collects; [done|constructor]|]. split; [by apply it_fold_tour|].
    split; [done|]. split.
    + intros e. rewrite Y2. change (is_Some (denote (cell h) (λ _, vm_li v) (λ _, vm_lm v) (λ _, vm_cur v) (QTrack neg m 0) e) <-> is_Some (wanted h v neg m e)).
      rewrite denote_wanted. by rewrite fmap_is_Some.
    + intros e o Hin. destruct (Y3 e o Hin) as [Hd _].
      change (denote (cell h) (λ _, vm_li v) (λ _, vm_lm v) (λ _, vm_cur v) (QTrack neg m 0) e = Some (erase o)) in Hd.
      rewrite denote_wanted in Hd. apply fmap_Some in Hd as (x & -> & ->). by exists x.
Qed.

(** ** C79 *)
(** As long as nobody assigns to the storage as a whole, or whatever is assigned when the type of the
    component itself tracks what the view asks for: every operation through the view goes through,
    is_inserted and is_modified answer what the history says, and the iterators visit exactly who they
    should. (Without the condition it is false, see below.) *)
Theorem C79_reads st k x v h :
  held st k x v h -> x = false ∨ covers st k ->
  (∀ o, h_allowed h (stamp (vm_cur v) o) -> ∃ v' ev, v_do v o = Ok (v', ev)) ∧
  (∀ e, gen e < U16_MAX ->
     (k_ins k = true -> v_is_inserted v e = Ok (new_in h v e)) ∧
     (k_mod k = true -> v_is_modified v e = Ok (written_in h v e))) ∧
  (∀ neg m, offers k m -> ∃ it L, v_iter v neg m = Ok it ∧
     collects wi_next it L ∧ collects it_next it L.*2 ∧ it_fold it = Ok L.*2 ∧
     NoDup L.*1 ∧ (∀ e, e ∈ L.*1 <-> is_Some (wanted h v neg m e)) ∧
     (∀ e o, (e, o) ∈ L -> ∃ x, wanted h v neg m e = Some x ∧ erase o = IVal x)).
Proof.
  intros Hh Hx. pose proof (held_ready _ _ _ _ _ Hh Hx) as HR. split; [|split].
  - intros o Ho. destruct HR as [_ (a & HS & HH)].
    destruct (s_step_ok _ _ _ _ HS HH Ho) as (s' & ev' & a' & E & _).
    unfold v_do. rewrite E. cbn [rbind]. by eexists _, _.
  - intros e He. by eapply ready_told.
  - intros neg m Hm. by eapply ready_iter.
Qed.
(** The world keeps what the view asked for: whoever asks for the same again, or less, gets it. *)
Theorem C79_again st k x v h k' last_run current :
  held st k x v h -> x = false ∨ covers st k -> covers k k' ->
  is_Some (borrow_view k' (vm_set v) last_run current).
Proof.
  intros Hh Hx Hc. destruct (held_ready _ _ _ _ _ Hh Hx) as [Hon (a & HS & HH)].
  unfold borrow_view. rewrite (proj2 (check_on k' (vm_set v) h a HS HH)); [by eexists|].
  by eapply covers_trans.
Qed.
(** A view is refused exactly when the storage does not track what it asks for. *)
Theorem C79_borrow st k s h last_run current :
  made st s h -> is_Some (borrow_view k s last_run current) <-> covers (Trk (h_ti h) (h_tm h) (h_td h) (h_tr h)) k.
Proof.
  intros Hm. destruct (made_SR _ _ _ Hm) as [_ (a & HS & HH)]. rewrite <- (check_on k s h a HS HH).
  unfold borrow_view. destruct (check_tracking s _ _ _ _); split; try done. by intros [? ?].
Qed.

(** ** What goes wrong *)
(** Tracking turned on for one world only (the type of the component does not track): the storage
    behind a view is exchanged for a new one, something is inserted through the same view, and asking
    whether it was inserted, resp. modified, panics; the iterator reads past the end of an empty vector. *)
Lemma made_new st : made st (ss_new (T:=T) (k_ins st) (k_mod st) (k_del st) (k_rem st)) (h_init (k_ins st) (k_mod st) (k_del st) (k_rem st)).
Proof. exists []. split; [apply allowed_nil|]. by exists []. Qed.
Lemma made_step st s h o s' ev :
  made st s h -> h_allowed h o -> s_step s o = Ok (s', ev) -> made st s' (h_step h (o, ev)).
Proof.
  intros [ops HRe] Ho E. destruct (reaches_step _ _ _ _ _ _ _ _ HRe Ho) as (s2 & ev2 & E2 & HRe2).
  rewrite E in E2. injection E2 as <- <-. by eexists.
Qed.
Definition lacks (st : trk) (m : mark) : Prop :=
  match m with MIns => k_ins st = false | MMod => k_mod st = false | MInsMod => False end.
Theorem C79_exchanged_refuted st k m (x : T) :
  offers k m -> lacks st m ->
  ∃ v h e, held st k true v h ∧ h_val h e = Some x ∧ gen e < U16_MAX ∧
    match m with MIns => v_is_inserted v e | _ => v_is_modified v e end = Panic ∧
    (∃ it, v_iter v false m = Ok it ∧ it_next it = Ub ∧ it_fold it = Ub) ∧
    ∀ last_run current, borrow_view k (vm_set v) last_run current = None.
Proof.
  intros Hk Hst.
  set (s0 := ss_new (T:=T) (k_ins st) (k_mod st) (k_del st) (k_rem st)).
  set (h0 := h_init (T:=T) (k_ins st) (k_mod st) (k_del st) (k_rem st)).
  set (s1 := enable_tracking s0 (k_ins k) (k_mod k) (k_del k) (k_rem k)).
  assert (∃ h1, made st s1 h1) as [h1 Hm1].
  { eexists. eapply (made_step st s0 h0 (OTrack (k_ins k) (k_mod k) (k_del k) (k_rem k))); [apply made_new|done|done]. }
  assert (borrow_view k s1 None 7 = Some (VMut s1 0 0 0 7)) as Hb.
  { destruct st as [[] [] [] []], k as [[] [] [] []]; reflexivity. }
  assert (∃ v2, v_do (v_put (VMut s1 0 0 0 7) s0) (OInsert (0, 0) x 0) = Ok (v2, EInsert Inserted) ∧
    match m with MIns => v_is_inserted v2 (0, 0) | _ => v_is_modified v2 (0, 0) end = Panic ∧
    (∃ it, v_iter v2 false m = Ok it ∧ it_next it = Ub ∧ it_fold it = Ub) ∧
    check_tracking (vm_set v2) (k_ins k) (k_mod k) (k_del k) (k_rem k) = false) as (v2 & E & Hp & Hit & Hc).
  { subst s1 s0. clear -Hk Hst.
    destruct m; cbn in Hk, Hst; [| |done]; destruct st as [[] [] sd sr], k as [[] [] kd kr]; cbn in Hk, Hst; try done;
      (eexists; split; [vm_compute; reflexivity|]; split; [vm_compute; reflexivity|]; split;
       [eexists; split; [vm_compute; reflexivity|]; split; vm_compute; reflexivity|vm_compute; reflexivity]). }
  exists v2, (h_step h0 (OInsert (0, 0) x 7, EInsert Inserted)), (0, 0).
  split; [|split; [done|split; [done|split; [done|split; [done|]]]]].
  - eapply (HeldDo st k true (v_put (VMut s1 0 0 0 7) s0) h0 (OInsert (0, 0) x 0)); [|split; [done|]|exact E].
    + eapply HeldPut; [done|eapply HeldBorrow; [exact Hm1|exact Hb]|apply made_new].
    + done.
  - intros last_run current. unfold borrow_view. by rewrite Hc.
Qed.
(** A change made through a view of [new_for_custom_storage] (which any storage of the table can be
    given to, the usual ones included) carries the timestamp 0: no view ever reports it, whatever its
    window, and an earlier change that was still to be reported is forgotten with it. *)
Theorem C79_custom_refuted st s h e (x : T) (f : T -> T) :
  made st s h -> handle_ok e -> (∀ e', idx e' = idx e -> gen e' < gen e -> h_val h e' = None) ->
  (∃ v' ev, v_do (custom_view s) (OInsert e x 0) = Ok (v', ev) ∧
    ∀ k last_run current v, borrow_view k (vm_set v') last_run current = Some v ->
      (h_val h e = None -> ev = EInsert Inserted -> k_ins k = true -> v_is_inserted v e = Ok false) ∧
      (∀ old, ev = EInsert (ComponentOverride old) -> k_mod k = true -> v_is_modified v e = Ok false)) ∧
  (∃ v' ev, v_do (custom_view s) (OWrite e f 0) = Ok (v', ev) ∧
    ∀ k last_run current v, borrow_view k (vm_set v') last_run current = Some v ->
      is_Some (h_val h e) -> k_mod k = true -> v_is_modified v e = Ok false).
Proof.
  intros Hm He Hno.
  assert (∀ o, h_allowed h o -> stamp 0 o = o ->
    ∃ v' ev, v_do (custom_view s) o = Ok (v', ev) ∧
      ∀ k last_run current v, borrow_view k (vm_set v') last_run current = Some v ->
        held st k false v (h_step h (o, ev))) as Hgen.
  { intros o Ho Hs. destruct (made_SR _ _ _ Hm) as [_ (a & HS & HH)].
    destruct (s_step_ok _ _ _ _ HS HH Ho) as (s' & ev & a' & E & _).
    unfold v_do. cbn [custom_view vm_cur vm_set]. rewrite Hs, E. cbn [rbind]. exists (v_with (custom_view s) s'), ev.
    split; [done|]. intros k lr c v Hb. eapply HeldBorrow; [|exact Hb].
    eapply made_step; [exact Hm|exact Ho|exact E]. }
  assert (∀ k v h' e, held st k false v h' -> gen e < U16_MAX ->
    (h_ins h' e = 0 -> k_ins k = true -> v_is_inserted v e = Ok false) ∧
    (h_mod h' e = 0 -> k_mod k = true -> v_is_modified v e = Ok false)) as Hzero.
  { intros k v h' e' Hh Hg. destruct (C79_reads _ _ _ _ _ Hh (or_introl eq_refl)) as (_ & Hr & _).
    destruct (Hr e' Hg) as [H1 H2]. split; intros Hz Hk.
    - rewrite (H1 Hk). f_equal. apply bool_decide_eq_false_2. rewrite Hz. lia.
    - rewrite (H2 Hk). f_equal. apply bool_decide_eq_false_2. rewrite Hz. lia. }
  split.
  - destruct (Hgen (OInsert e x 0)) as (v' & ev & E & Hh); [by split|done|].
    exists v', ev. split; [done|]. intros k lr c v Hb. specialize (Hh k lr c v Hb).
    destruct (Hzero k v _ e Hh ltac:(apply He)) as [H1 H2]. split.
    + intros _ -> Hk. apply H1; [|done]. cbn. unfold at_. by rewrite decide_True.
    + intros old -> Hk. apply H2; [|done]. cbn. unfold at_. by rewrite decide_True.
  - destruct (Hgen (OWrite e f 0)) as (v' & ev & E & Hh); [apply He|done|].
    exists v', ev. split; [done|]. intros k lr c v Hb [y Hy] Hk. specialize (Hh k lr c v Hb).
    destruct (Hzero k v _ e Hh ltac:(apply He)) as [_ H2]. apply H2; [|done].
    cbn. rewrite Hy. cbn. unfold at_. by rewrite decide_True.
Qed.
End props.

(** ** Cases *)
Definition ins_mod : trk := Trk true true false false.
(** A component that does not track by itself; the world turns tracking on; one component is inserted
    by someone else at time 3, one through the view at time 7. *)
Definition exs0 : sset N := ss_new false false false false.
Definition after s (o : sop N) : sset N := match s_step s o with Ok (s, _) => s | _ => s end.
Definition exs1 : sset N := after exs0 (OTrack true true false false).
Definition exs2 : sset N := after exs1 (OInsert (0, 0) 10 3).
Definition exh1 : hist N := h_step (h_init false false false false) (OTrack true true false false, EUnit).
Definition exh2 : hist N := h_step exh1 (OInsert (0, 0) 10 3, EInsert Inserted).
Lemma ex_made : made untracked exs2 exh2.
Proof.
  assert (made untracked exs1 exh1) as H1.
  { eapply (made_step untracked exs0 (h_init false false false false) (OTrack true true false false) exs1 EUnit);
      [apply made_new|done|vm_compute; reflexivity]. }
  eapply (made_step untracked exs1 exh1 (OInsert (0, 0) 10 3) exs2 (EInsert Inserted)); [exact H1| |vm_compute; reflexivity].
  split; [done|]. by intros e' _ Hg%N.nlt_0_r.
Qed.
Definition exv2 : vmut N := VMut exs2 5 5 5 7.
Definition exv3 : vmut N := v_with exv2 (after exs2 (OInsert (1, 0) 20 7)).
Definition exv4 : vmut N := v_with exv2 (after (vm_set exv3) (OWrite (0, 0) N.succ 7)).
Definition exh3 : hist N := h_step exh2 (OInsert (1, 0) 20 7, EInsert Inserted).
Definition exh4 : hist N := h_step exh3 (OWrite (0, 0) N.succ 7, EWrite true).
Example ex_C79_reads : held untracked ins_mod false exv4 exh4 ∧
  v_is_inserted exv4 (0, 0) = Ok false ∧ v_is_modified exv4 (0, 0) = Ok true ∧ v_is_inserted exv4 (1, 0) = Ok true ∧
  (rlet it := v_iter exv4 false MIns in it_fold it) = Ok [ORef 0 1 20] ∧
  (rlet it := v_iter exv4 true MMod in it_fold it) = Ok [ORef 0 1 20].
Proof.
  split; [|split_and!; vm_compute; reflexivity].
  assert (held untracked ins_mod false exv2 exh2) as H2.
  { eapply (HeldBorrow untracked ins_mod false exs2 exh2 (Some 5) 7); [exact ex_made|vm_compute; reflexivity]. }
  assert (held untracked ins_mod false exv3 exh3) as H3.
  { eapply (HeldDo untracked ins_mod false exv2 exh2 (OInsert (1, 0) 20 0) exv3 (EInsert Inserted)); [exact H2| |vm_compute; reflexivity].
    split; [done|]. by intros e' _ Hg%N.nlt_0_r. }
  eapply (HeldDo untracked ins_mod false exv3 exh3 (OWrite (0, 0) N.succ 0) exv4 (EWrite true)); [exact H3|done|vm_compute; reflexivity].
Qed.
(** A component that tracks by itself: the storage behind the view is exchanged. *)
Definition exn : sset N := ss_new true true false false.
Definition exw : vmut N := VMut (after exn (OInsert (4, 2) 20 7)) 5 5 5 7.
Definition exhn : hist N := h_init true true false false.
Example ex_C79_static : (∃ h, held ins_mod ins_mod true exw h) ∧ covers ins_mod ins_mod ∧
  v_is_inserted exw (4, 2) = Ok true ∧ is_Some (borrow_view ins_mod (vm_set exw) None 9).
Proof.
  split; [|split; [|split]].
  - eexists.
    eapply (HeldDo ins_mod ins_mod true (v_put (VMut exn 5 5 5 7) exn) exhn (OInsert (4, 2) 20 0) exw (EInsert Inserted));
      [|split; done|vm_compute; reflexivity].
    eapply (HeldPut ins_mod ins_mod true _ exhn); [done| |apply made_new].
    eapply (HeldBorrow ins_mod ins_mod true exn exhn (Some 5) 7); [apply made_new|vm_compute; reflexivity].
  - split_and!; done.
  - vm_compute. reflexivity.
  - unfold borrow_view. replace (check_tracking _ _ _ _ _) with true by (vm_compute; reflexivity). by eexists.
Qed.
Example ex_C79_exchanged : offers ins_mod MIns ∧ lacks untracked MIns ∧ lacks untracked MMod.
Proof. done. Qed.
(** An earlier write, at 3, was to be reported to a view with the window (2, 9]; after a write
    through a view of [new_for_custom_storage] it no longer is. *)
Example ex_C79_custom :
  (rlet (s1, _) := s_step exs0 (OTrack true true false false) in
   rlet (s2, _) := s_step s1 (OInsert (0, 0) 10 1) in
   rlet (s3, _) := s_step s2 (OWrite (0, 0) N.succ 3) in
   rlet (v, _) := v_do (custom_view s3) (OWrite (0, 0) N.succ 8) in
   Ok (v_is_modified (v_with (VMut s3 2 2 2 9) s3) (0, 0), v_is_modified (v_with (VMut s3 2 2 2 9) (vm_set v)) (0, 0)))
  = Ok (Ok true, Ok false).
Proof. vm_compute. reflexivity. Qed.

Print Assumptions C79_reads.
Print Assumptions C79_again.
Print Assumptions C79_borrow.
Print Assumptions C79_exchanged_refuted.
Print Assumptions C79_custom_refuted.
