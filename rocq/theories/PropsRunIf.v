(** C70: what the calls of [run_if] and [skip_if] on systems, workloads and nested workloads
    amount to when the workload is run. *)
From stdpp Require Import prelude countable list gmap.
From Verif Require Import Sched SchedSpec SchedProofs SchedProofs3 SchedProofs4 PropsSched PropsSched3.
From Verif Require Import Run RunSpec RunProofs PropsRun PropsRun3.
Local Open Scope nat_scope.

(** * Vocabulary *)

(** One call of [run_if] or [skip_if] with the function [n]. *)
Inductive test := RunIf (n : N) | SkipIf (n : N).

(** The calls made on a system, first to last. *)
Inductive asks : wsys → list test → Prop :=
| AMk ty fn n bs : asks (mk_wsys ty fn (LName n) bs) []
| ATag n s l : asks s l → asks (s_tag (LName n) s) l
| ABefore n s l : asks s l → asks (s_before_all (LName n) s) l
| AAfter n s l : asks s l → asks (s_after_all (LName n) s) l
| AReqIn n s l : asks s l → asks (s_require_in (LName n) s) l
| AReqBefore n s l : asks s l → asks (s_require_before (LName n) s) l
| AReqAfter n s l : asks s l → asks (s_require_after (LName n) s) l
| ARunIf n s l : asks s l → asks (s_run_if (CBase n) s) (l ++ [RunIf n])
| ASkipIf n s l : asks s l → asks (s_skip_if (CBase n) s) (l ++ [SkipIf n]).

(** The calls that concern a whole workload, and those that concern each of its systems.  A
    workload that becomes part of another one passes its calls on to its systems, before their
    own ones. *)
Notation calls := (list test * list (list test))%type.
Definition nested (y : calls) : list (list test) := map (app y.1) y.2.
Inductive says : workload → list test → list (list test) → Prop :=
| YNew n : says (wl_new (LName n)) [] []
| YSystem s w k l ls : asks s k → says w l ls → says (wl_with_system s w) l (ls ++ [k])
| YBarrier w l ls : says w l ls → says (wl_with_barrier w) l ls
| YMerge w o l ls l' ls' : says w l ls → says o l' ls' →
    says (wl_merge w o) [] (nested (l, ls) ++ nested (l', ls'))
| YAppend w o l ls l' ls' : says w l ls → says o l' ls' → says (wl_append w o) l (ls ++ ls')
| YTag n w l ls : says w l ls → says (wl_tag (LName n) w) l ls
| YRename n w l ls : says w l ls → says (wl_rename (LName n) w) l ls
| YBefore n w l ls : says w l ls → says (wl_before (LName n) w) l ls
| YAfter n w l ls : says w l ls → says (wl_after (LName n) w) l ls
| YRunIf n w l ls : says w l ls → says (wl_set_run_if (CBase n) w) (l ++ [RunIf n]) ls
| YSkipIf n w l ls : says w l ls → says (wl_set_run_if (CNot (CBase n)) w) (l ++ [SkipIf n]) ls
| YSingle n s k : asks s k → says (single_workload (LName n) s) [] [k]
| YTuple n ws (f : nat → calls) : (∀ i w, ws !! i = Some w → says w (f i).1 (f i).2) →
    says (tuple_into_workload (LName n) ws) [] (concat (imap (λ i _, nested (f i)) ws))
| YSeq n ws w' (f : nat → calls) : (∀ i w, ws !! i = Some w → says w (f i).1 (f i).2) →
    tuple_into_sequential (LName n) ws = Some w' →
    says w' [] (concat (imap (λ i _, nested (f i)) ws))
| YSeqW w w' l ls : says w l ls → wl_into_sequential w = Some w' → says w' l ls.

Section tests.
Context {V E : Type} (condf : N → prog V (E + bool)).

(** What one call asks for. *)
Definition test1 (t : test) (m : store V) : store V * (E + bool) :=
  match t with
  | RunIf n => exec (condf n) m
  | SkipIf n => let '(m', r) := exec (condf n) m in
      (m', match r with inl e => inl e | inr b => inr (negb b) end)
  end.
(** The calls one after the other, up to the first that fails or says no. *)
Fixpoint tests (l : list test) (m : store V) : store V * (E + bool) :=
  match l with
  | [] => (m, inr true)
  | t :: l => match test1 t m with (m', inr true) => tests l m' | x => x end
  end.

(** * Proofs *)

Lemma tests_app l l' m :
  tests (l ++ l') m = match tests l m with (m', inr true) => tests l' m' | x => x end.
Proof.
  revert m. induction l as [|t l IH]; intros m; [done|]. cbn [app tests].
  destruct (test1 t m) as [m' [e|[]]]; [done|apply IH|done].
Qed.
Lemma tests_one t m : tests [t] m = test1 t m.
Proof. cbn [tests]. destruct (test1 t m) as [m' [e|[]]]; done. Qed.

Definition means (c : option cond) (l : list test) : Prop :=
  match c with None => l = [] | Some c => l ≠ [] ∧ ∀ m, ceval condf c m = tests l m end.

Lemma means_and c l d t :
  means c l → (∀ m, ceval condf d m = test1 t m) → means (cond_and c d) (l ++ [t]).
Proof.
  intros Hc Hd. destruct c as [c|]; cbn in *.
  - destruct Hc as [_ Hc]. split; [by destruct l|]. intros m. rewrite tests_app, Hc.
    destruct (tests l m) as [m' [e|[]]]; [done| |done]. by rewrite tests_one, Hd.
  - subst l. split; [done|]. intros m. cbn [app]. by rewrite tests_one, Hd.
Qed.
Lemma not_test n m : ceval condf (CNot (CBase n)) m = test1 (SkipIf n) m.
Proof. cbn. by destruct (exec (condf n) m). Qed.
Lemma asks_means s l : asks s l → means (w_run_if s) l.
Proof.
  induction 1; try done.
  - by apply means_and.
  - apply means_and; [done|]. apply not_test.
Qed.
Lemma means_prop w s l k :
  means (wl_run_if w) l → means (w_run_if s) k → means (w_run_if (propagate_sys w s)) (l ++ k).
Proof.
  intros Hw Hs. cbn [propagate_sys w_run_if].
  destruct (w_run_if s) as [c|], (wl_run_if w) as [d|]; cbn in *.
  - destruct Hw as [Hl Hw], Hs as [Hk Hs]. split; [by destruct l|]. intros m. rewrite tests_app, Hw.
    destruct (tests l m) as [m' [e|[]]]; [done|by rewrite Hs|done].
  - by subst.
  - subst k. by rewrite app_nil_r.
  - by subst.
Qed.

Definition meant (w : workload) (l : list test) (ls : list (list test)) : Prop :=
  means (wl_run_if w) l ∧ Forall2 (λ s k, means (w_run_if s) k) (wl_systems w) ls.

Lemma meant_shift n ss ls :
  Forall2 (λ s k, means (w_run_if s) k) ss ls →
  Forall2 (λ s k, means (w_run_if s) k) (map (s_shift n) ss) ls.
Proof. intros H. by apply Forall2_fmap_l. Qed.
Lemma meant_nested w l ls :
  meant w l ls →
  Forall2 (λ s k, means (w_run_if s) k) (map (propagate_sys w) (wl_systems w)) (nested (l, ls)).
Proof.
  intros [Hw Hs]. apply Forall2_fmap. cbn. eapply Forall2_impl; [exact Hs|].
  intros s k Hk. by apply means_prop.
Qed.
Lemma meant_merge w o l ls l' ls' :
  meant w l ls → meant o l' ls' → meant (wl_merge w o) [] (nested (l, ls) ++ nested (l', ls')).
Proof.
  intros Hw Ho. split; [done|]. unfold wl_merge, wl_append.
  cbn [wl_set_systems wl_systems wl_propagate]. apply Forall2_app; [by apply meant_nested|].
  apply meant_shift. by apply meant_nested.
Qed.
Lemma nested_nil ls : nested ([], ls) = ls.
Proof. unfold nested. cbn. induction ls as [|k ls IH]; [done|]. cbn. by rewrite IH. Qed.

Lemma tuple_meant ws (f : nat → calls) acc ls :
  meant acc [] ls → (∀ i w, ws !! i = Some w → meant w (f i).1 (f i).2) →
  meant (fold_left wl_merge ws acc) [] (ls ++ concat (imap (λ i _, nested (f i)) ws)).
Proof.
  revert f acc ls. induction ws as [|w ws IH]; intros f acc ls Ha Hf.
  - cbn. by rewrite app_nil_r.
  - cbn [fold_left imap concat]. rewrite app_assoc. apply (IH (f ∘ S)).
    + rewrite <-(nested_nil ls). destruct (f 0) as [l0 ls0] eqn:E0. apply meant_merge; [done|].
      specialize (Hf 0 w eq_refl). by rewrite E0 in Hf.
    + intros i w' Hi. by apply (Hf (S i)).
Qed.
Lemma seq_meant ws (f : nat → calls) acc ls tags :
  meant acc [] ls → (∀ i w, ws !! i = Some w → meant w (f i).1 (f i).2) →
  meant (seq_merge acc ws tags) [] (ls ++ concat (imap (λ i _, nested (f i)) ws)).
Proof.
  revert f acc ls tags. induction ws as [|w ws IH]; intros f acc ls tags Ha Hf.
  - cbn. by rewrite app_nil_r.
  - cbn [seq_merge imap concat]. rewrite app_assoc. apply (IH (f ∘ S)).
    + rewrite <-(nested_nil ls). destruct (f 0) as [l0 ls0] eqn:E0. apply meant_merge; [done|].
      specialize (Hf 0 w eq_refl). rewrite E0 in Hf. by destruct tags.
    + intros i w' Hi. by apply (Hf (S i)).
Qed.
Lemma imap_map_const {A B C} (g : A → B) (h : nat → C) (l : list A) :
  imap (λ i _, h i) (map g l) = imap (λ i _, h i) l.
Proof. revert h. induction l as [|x l IH]; intros h; [done|]. cbn. f_equal. apply (IH (h ∘ S)). Qed.
Lemma seq_systems_meant ss ls :
  Forall2 (λ s k, means (w_run_if s) k) ss ls →
  Forall2 (λ s k, means (w_run_if s) k) (seq_systems ss) ls.
Proof.
  induction 1 as [|s k ss ls H H' IH]; [constructor|]. destruct ss as [|s' ss].
  - by constructor.
  - cbn [seq_systems] in *. constructor; [exact H|exact IH].
Qed.

Lemma says_meant w l ls : says w l ls → meant w l ls.
Proof.
  induction 1 as [n|s w k l ls Hs _ [IH1 IH2]|w l ls _ IH|w o l ls l' ls' _ IHw _ IHo|w o l ls l' ls' _ [IH1 IH2] _ [IH1' IH2']
    |n w l ls _ IH|n w l ls _ IH|n w l ls _ IH|n w l ls _ IH|n w l ls _ [IH1 IH2]|n w l ls _ [IH1 IH2]|n s k Hs
    |n ws f _ IH|n ws w' f _ IH Hq|w w' l ls _ [IH1 IH2] Hq].
  - split; [done|constructor].
  - split; [exact IH1|]. cbn [wl_with_system wl_set_systems wl_systems]. apply Forall2_app; [exact IH2|].
    constructor; [|constructor]. exact (asks_means _ _ Hs).
  - exact IH.
  - by apply meant_merge.
  - split; [exact IH1|]. cbn [wl_append wl_set_systems wl_systems]. apply Forall2_app; [exact IH2|]. by apply meant_shift.
  - exact IH.
  - exact IH.
  - exact IH.
  - exact IH.
  - split; [|exact IH2]. by apply means_and.
  - split; [|exact IH2]. apply means_and; [exact IH1|]. apply not_test.
  - split; [done|]. constructor; [|constructor]. exact (asks_means _ _ Hs).
  - apply (tuple_meant ws f (tuple_start (LName n)) []); [|done]. split; [done|constructor].
  - unfold tuple_into_sequential in Hq. destruct (has_dup _); [done|]. injection Hq as <-.
    rewrite <-(imap_map_const (λ w, wl_tag (LSeq (wl_name w)) w) (λ i, nested (f i))).
    apply (seq_meant _ f (tuple_start (LName n)) []); [split; [done|constructor]|].
    intros i w Hi. rewrite list_lookup_fmap in Hi. destruct (ws !! i) as [w0|] eqn:E0; [|done].
    injection Hi as <-. exact (IH i w0 E0).
  - unfold wl_into_sequential in Hq. destruct (has_dup _); [done|]. injection Hq as <-.
    split; [exact IH1|]. by apply seq_systems_meant.
Qed.

Lemma asks_declared s l : asks s l → declared s.
Proof. induction 1; by constructor. Qed.
Lemma says_built w l ls : says w l ls → built w.
Proof.
  induction 1; try (by econstructor; eauto using asks_declared).
  - apply BTuple. intros w (i & Hi)%elem_of_list_lookup. eauto.
  - eapply BSeq; [|done]. intros w (i & Hi)%elem_of_list_lookup. eauto.
Qed.
End tests.

(** * C70 *)

Section props.
Context {V E : Type} (sysf : N → prog V (option E)) (condf : N → prog V (E + bool)).

(** The condition of every system of a workload, however it was built, does what the calls made
    on the system and on the workloads around it ask for, those of the outermost workload
    first; the condition of the workload does what the calls on itself ask for. *)
Theorem C70_conditions w l ls :
  says w l ls →
  length ls = length (wl_systems w) ∧
  (wl_run_if w = None ↔ l = []) ∧ (∀ c m, wl_run_if w = Some c → ceval condf c m = tests condf l m) ∧
  (∀ i x, wl_systems w !! i = Some x → ∃ k, ls !! i = Some k ∧
     (w_run_if x = None ↔ k = []) ∧ (∀ c m, w_run_if x = Some c → ceval condf c m = tests condf k m)).
Proof.
  intros H. apply (says_meant condf) in H as [Hw Hs].
  assert (Hm : ∀ c k, means condf c k →
    (c = None ↔ k = []) ∧ (∀ d m, c = Some d → ceval condf d m = tests condf k m)).
  { intros c k Hc. destruct c as [c|]; cbn in Hc; [|by subst]. destruct Hc as [Hk Hc].
    split; [by split|]. by intros d m [= <-]. }
  split_and!.
  - symmetry. by eapply Forall2_length.
  - by apply Hm.
  - by apply Hm.
  - intros i x Hx. destruct (Forall2_lookup_l _ _ _ _ _ Hs Hx) as (k & Hk & Hxk).
    exists k. split; [done|]. by apply Hm.
Qed.

(** In a run that succeeds, a system that was asked nothing runs; any other one runs exactly if
    what was asked came out true when it was evaluated. *)
Theorem C70_success w l ls sc sc' info ba order sc2 m tr m' :
  says w l ls → fns_ok (sc_fns sc) → create_workload w sc = Some (sc', inr (info, ba, order)) →
  loaded sc' sc2 (wl_name w) ba → (tests condf l m).2 = inr true →
  run_workload_par sysf condf (wl_name w) sc2 m tr m' None →
  ∀ i k, ls !! i = Some k → ∃ t, runs_as info i t ∧
    (k = [] → t ∈ starts tr) ∧
    (k ≠ [] → ∃ m1 v, EvCond t m1 v ∈ tr ∧ (tests condf k m1).2 = inr v ∧ (v = true ↔ t ∈ starts tr)).
Proof.
  intros Hy Hok Hc Hl Ht Hrun i k Hk.
  destruct (C70_conditions _ _ _ Hy) as (Hlen & W1 & W2 & HS).
  assert (Hen : enabled condf w m).
  { unfold enabled. destruct (wl_run_if w) as [c|]; [|done]. by rewrite (W2 c m eq_refl). }
  pose proof (says_built _ _ _ Hy) as Hb.
  destruct (C36_success _ _ _ _ _ _ _ _ _ _ _ _ Hb Hok Hc Hl Hen Hrun) as (_ & _ & H3).
  destruct (lookup_lt_is_Some_2 (wl_systems w) i) as [x Hx].
  { rewrite <-Hlen. by apply lookup_lt_Some in Hk. }
  destruct (H3 i x Hx) as (t & R1 & R2 & R3). destruct (HS i x Hx) as (k' & Hk' & K1 & K2).
  rewrite Hk in Hk'. injection Hk' as <-.
  exists t. split; [done|]. destruct (w_run_if x) as [c|] eqn:Ex.
  - split; [intros ->; destruct K1 as [_ K1]; by specialize (K1 eq_refl)|]. intros _.
    destruct R3 as (m1 & v & Hev & Hv & Hst). rewrite (K2 c m1 eq_refl) in Hv. eauto.
  - split; [done|]. intros Hne. destruct K1 as [K1 _]. by specialize (K1 eq_refl).
Qed.

(** Whatever the outcome, nothing runs unless what was asked came out true. *)
Theorem C70_only w l ls sc sc' info ba order sc2 m tr m' r :
  says w l ls → fns_ok (sc_fns sc) → create_workload w sc = Some (sc', inr (info, ba, order)) →
  loaded sc' sc2 (wl_name w) ba → run_workload_par sysf condf (wl_name w) sc2 m tr m' r →
  ∀ t, t ∈ starts tr → (tests condf l m).2 = inr true ∧
    ∃ i k, ls !! i = Some k ∧ runs_as info i t ∧
      (k = [] ∨ ∃ m1, EvCond t m1 true ∈ tr ∧ (tests condf k m1).2 = inr true).
Proof.
  intros Hy Hok Hc Hl Hrun t Ht.
  destruct (C70_conditions _ _ _ Hy) as (Hlen & W1 & W2 & HS). pose proof (says_built _ _ _ Hy) as Hb.
  assert (Hen : (tests condf l m).2 = inr true ∧ enabled condf w m).
  { destruct (create_ok _ _ _ _ _ _ Hb Hc) as (segs & _ & _ & Hrif & _).
    unfold enabled, run_workload_par in *. destruct Hl as [Hl _]. rewrite Hl in Hrun.
    unfold run_batches_par, workload_rif in Hrun. rewrite Hrif in Hrun.
    destruct (wl_run_if w) as [c|].
    - rewrite (W2 c m eq_refl) in *. destruct (tests condf l m) as [m1 [e|[]]]; [|done|].
      + destruct Hrun as (-> & _). by apply elem_of_nil in Ht.
      + destruct Hrun as (-> & _). by apply elem_of_nil in Ht.
    - destruct W1 as [W1 _]. by rewrite (W1 eq_refl). }
  destruct Hen as [Hen1 Hen]. split; [done|].
  destruct (C36_only_enabled _ _ _ _ _ _ _ _ _ _ _ _ _ Hb Hok Hc Hl Hen Hrun) as (_ & _ & H4).
  apply elem_of_starts in Ht as [f Hf]. destruct (H4 t f Hf) as (i & x & b & s & Hx & Hr & _ & _ & _ & Hcond).
  destruct (HS i x Hx) as (k & Hk & K1 & K2). exists i, k. split_and!; [done|done|].
  destruct (w_run_if x) as [c|]; [right|left; by apply K1].
  destruct Hcond as (m1 & Hev & Hv). rewrite (K2 c m1 eq_refl) in Hv. eauto.
Qed.

(** What was asked for the workload: when it comes out false nothing runs and the run succeeds,
    when it fails nothing runs and the error is returned. *)
Theorem C70_workload w l ls sc sc' info ba order sc2 m tr m' r :
  says w l ls → create_workload w sc = Some (sc', inr (info, ba, order)) →
  loaded sc' sc2 (wl_name w) ba → run_workload_par sysf condf (wl_name w) sc2 m tr m' r →
  ((tests condf l m).2 = inr false → tr = [] ∧ r = None) ∧
  (∀ e, (tests condf l m).2 = inl e → tr = [] ∧ r = Some (RWorkload e)).
Proof.
  intros Hy Hc [Hl _] Hrun.
  destruct (C70_conditions _ _ _ Hy) as (_ & W1 & W2 & _). pose proof (says_built _ _ _ Hy) as Hb.
  destruct (create_ok _ _ _ _ _ _ Hb Hc) as (segs & _ & _ & Hrif & _).
  destruct (C36_disabled _ _ _ _ ba _ _ _ _ Hrun) as [_ H].
  destruct (wl_run_if w) as [c|] eqn:Ew.
  - destruct (H c Hl Hrif) as [H1 H2]. by rewrite (W2 c m eq_refl) in H1, H2.
  - destruct W1 as [W1 _]. rewrite (W1 eq_refl). by split.
Qed.

(** The same without the feature "parallel". *)
Theorem C70_success_seq w l ls sc sc' info ba order sc2 m tr m' :
  says w l ls → fns_ok (sc_fns sc) → create_workload w sc = Some (sc', inr (info, ba, order)) →
  loaded sc' sc2 (wl_name w) ba → (tests condf l m).2 = inr true →
  run_workload_seq sysf condf (wl_name w) sc2 m = (tr, m', None) →
  ∀ i k, ls !! i = Some k → ∃ t, in_seq order i t ∧
    (k = [] → t ∈ starts tr) ∧
    (k ≠ [] → ∃ m1 v, EvCond t m1 v ∈ tr ∧ (tests condf k m1).2 = inr v ∧ (v = true ↔ t ∈ starts tr)).
Proof.
  intros Hy Hok Hc Hl Ht Hrun i k Hk.
  destruct (C70_conditions _ _ _ Hy) as (Hlen & W1 & W2 & HS).
  assert (Hen : enabled condf w m).
  { unfold enabled. destruct (wl_run_if w) as [c|]; [|done]. by rewrite (W2 c m eq_refl). }
  pose proof (says_built _ _ _ Hy) as Hb.
  destruct (C36_seq_success _ _ _ _ _ _ _ _ _ _ _ _ Hb Hok Hc Hl Hen Hrun) as (_ & _ & H3).
  destruct (lookup_lt_is_Some_2 (wl_systems w) i) as [x Hx].
  { rewrite <-Hlen. by apply lookup_lt_Some in Hk. }
  destruct (H3 i x Hx) as (t & R1 & R2 & R3). destruct (HS i x Hx) as (k' & Hk' & K1 & K2).
  rewrite Hk in Hk'. injection Hk' as <-.
  exists t. split; [done|]. destruct (w_run_if x) as [c|] eqn:Ex.
  - split; [intros ->; destruct K1 as [_ K1]; by specialize (K1 eq_refl)|]. intros _.
    destruct R3 as (m1 & v & Hev & Hv & Hst). rewrite (K2 c m1 eq_refl) in Hv. eauto.
  - split; [done|]. intros Hne. destruct K1 as [K1 _]. by specialize (K1 eq_refl).
Qed.

(** Conditions that only look: all calls have to agree; the first one that does not, decides,
    and no later one is evaluated (so that its error does not matter). *)
Theorem C70_all l m :
  (∀ n m, (exec (condf n) m).1 = m) →
  (tests condf l m).1 = m ∧
  ((tests condf l m).2 = inr true ↔
     ∀ t, t ∈ l → match t with RunIf n => (exec (condf n) m).2 = inr true
                             | SkipIf n => (exec (condf n) m).2 = inr false end) ∧
  (∀ r, r ≠ inr true → (tests condf l m).2 = r ↔
     ∃ l1 t l2, l = l1 ++ t :: l2 ∧ (tests condf l1 m).2 = inr true ∧
       match t with RunIf n => (exec (condf n) m).2 = r
                  | SkipIf n => (exec (condf n) m).2 = match r with inl e => inl e | inr b => inr (negb b) end end).
Proof.
  intros Hp.
  assert (H1 : ∀ t, (test1 condf t m).1 = m).
  { intros [n|n]; cbn; [apply Hp|]. specialize (Hp n m). by destruct (exec (condf n) m). }
  assert (H2 : ∀ t r, (test1 condf t m).2 = r ↔
    match t with RunIf n => (exec (condf n) m).2 = r
               | SkipIf n => (exec (condf n) m).2 = match r with inl e => inl e | inr b => inr (negb b) end end).
  { intros [n|n] r; cbn; [done|]. destruct (exec (condf n) m) as [m' [e|b]]; cbn; destruct r as [e'|b']; try done.
    destruct b, b'; split; done. }
  assert (H3 : ∀ l, (tests condf l m).1 = m).
  { clear l. induction l as [|t l IH]; [done|]. cbn [tests]. specialize (H1 t).
    destruct (test1 condf t m) as [m' [e|[]]]; cbn in *; subst; done. }
  assert (H4 : ∀ t l r, (tests condf (t :: l) m).2 = r ↔
    ((test1 condf t m).2 = inr true ∧ (tests condf l m).2 = r) ∨ ((test1 condf t m).2 = r ∧ r ≠ inr true)).
  { intros t l' r. cbn [tests]. specialize (H1 t). destruct (test1 condf t m) as [m' [e|[]]]; cbn in *; subst m'.
    - split; [intros <-; by right|]. by intros [[[=] _]|[<- _]].
    - split; [intros <-; by left|]. intros [[_ <-]|[<- Hr]]; done.
    - split; [intros <-; by right|]. by intros [[[=] _]|[<- _]]. }
  split; [apply H3|]. split.
  - induction l as [|t l IH].
    + cbn. split; [|done]. intros _ t Ht. by apply elem_of_nil in Ht.
    + rewrite H4, IH. split.
      * intros [[Ht Hl]|[_ H]]; [|done]. intros u [->|Hu]%elem_of_cons; [|by apply Hl].
        apply H2 in Ht. by destruct t.
      * intros H. left. split; [apply H2; specialize (H t); destruct t; apply H; by left|].
        intros u Hu. apply H. by right.
  - intros r Hr. induction l as [|t l IH].
    + cbn. split; [by intros <-|]. intros ([|] & ? & ? & [=] & _).
    + rewrite H4, IH. split.
      * intros [[Ht (l1 & u & l2 & -> & Hl1 & Hu)]|[Ht _]].
        -- exists (t :: l1), u, l2. split; [done|]. split; [|done]. apply H4. by left.
        -- exists [], t, l. split; [done|]. split; [done|]. by apply H2.
      * intros ([|t' l1] & u & l2 & Heq & Hl1 & Hu); injection Heq as -> ->.
        -- right. split; [|done]. by apply H2.
        -- left. apply H4 in Hl1 as [[Ha Hb]|[_ Hb]]; [|done]. split; [done|]. by exists l1, u, l2.
Qed.
End props.

(** * Concrete cases *)

(** A workload with a condition, within one with a condition, within a third one, built with
    all three ways of nesting. *)
Definition exi_inner : workload :=
  wl_set_run_if (CBase 8) (wl_with_system (s_skip_if (CBase 7) (s_run_if (CBase 9) (sy 12 [wr 3])))
    (wl_with_system (sy 13 [wr 4]) (wl_new (LName 2)))).
Definition exi : workload :=
  wl_set_run_if (CNot (CBase 5))
    (wl_merge (wl_set_run_if (CNot (CBase 6)) (tuple_into_workload (LName 1)
       [exi_inner; single_workload (LName 3) (sy 10 [wr 1])])) (wl_new (LName 4))).
Lemma exi_inner_says : says exi_inner [RunIf 8] [[]; [RunIf 9; SkipIf 7]].
Proof.
  unfold exi_inner. apply (YRunIf 8 _ []). apply (YSystem _ _ [RunIf 9; SkipIf 7] [] [[]]).
  - apply (ASkipIf 7 _ [RunIf 9]). apply (ARunIf 9 _ []). constructor.
  - apply (YSystem _ _ [] [] []); constructor.
Qed.
Lemma exi_says :
  says exi [SkipIf 5] [[SkipIf 6; RunIf 8]; [SkipIf 6; RunIf 8; RunIf 9; SkipIf 7]; [SkipIf 6]].
Proof.
  unfold exi. apply (YSkipIf 5 _ []).
  apply (YMerge _ _ [SkipIf 6] [[RunIf 8]; [RunIf 8; RunIf 9; SkipIf 7]; []] [] []); [|constructor].
  apply (YSkipIf 6 _ []).
  apply (YTuple 1 [exi_inner; single_workload (LName 3) (sy 10 [wr 1])]
    (λ i, match i with 0 => ([RunIf 8], [[]; [RunIf 9; SkipIf 7]]) | _ => ([], [[]]) end)).
  intros [|[|i]] w Hi; [injection Hi as <-..|done].
  - apply exi_inner_says.
  - apply YSingle. constructor.
Qed.
Definition exi_m : store N := {[8%N := 1%N; 9%N := 1%N]}.
(** Everything asked holds: the run succeeds and all three systems run; with storage 7 equal to
    1 the second does not. *)
Example C70_case :
  ∃ sc info ba order, create_workload exi sc_new = Some (sc, inr (info, ba, order)) ∧
    loaded sc sc (wl_name exi) ba ∧ (tests run_condf [SkipIf 5] exi_m).2 = inr true ∧
    (∃ tr m' r, run_workload_par run_sysf run_condf (wl_name exi) sc exi_m tr m' r) ∧
    (∃ tr m', run_workload_seq run_sysf run_condf (wl_name exi) sc exi_m = (tr, m', None) ∧ starts tr = [0; 1; 2]) ∧
    (∃ tr m', run_workload_seq run_sysf run_condf (wl_name exi) sc (<[7%N := 1%N]> exi_m) = (tr, m', None) ∧ starts tr = [0; 2]) ∧
    (∃ tr m', run_workload_seq run_sysf run_condf (wl_name exi) sc (<[6%N := 1%N]> exi_m) = (tr, m', None) ∧ starts tr = []).
Proof.
  pose proof (says_built _ _ _ exi_says) as Hb.
  destruct (create_workload exi sc_new) as [[sc [e|[[info ba] order]]]|] eqn:E;
    [vm_compute in E; done| |vm_compute in E; done].
  exists sc, info, ba, order. pose proof (loaded_self _ _ _ _ _ _ Hb E) as Hl.
  assert (Hr : ∃ tr m' r, run_workload_par run_sysf run_condf (wl_name exi) sc exi_m tr m' r)
    by exact (C36_run_exists _ _ _ _ _ _ _ _ _ _ Hb fns_ok_new E Hl).
  split; [reflexivity|]. split; [exact Hl|]. split; [vm_compute; reflexivity|].
  split; [exact Hr|]. clear Hr Hl Hb.
  vm_compute in E. injection E as <- <- <- <-.
  split_and!; (eexists _, _; split; [vm_compute; reflexivity|reflexivity]).
Qed.
Example C70_case_all :
  (∀ n m, (exec (run_condf n) m).1 = m) ∧
  (tests run_condf [SkipIf 6; RunIf 8; RunIf 9; SkipIf 7] exi_m).2 = inr true ∧
  (tests run_condf [SkipIf 6; RunIf 8; RunIf 9; SkipIf 7] ∅).2 = inr false.
Proof. split; [done|]. split; vm_compute; reflexivity. Qed.

(** * What is false *)

(** "Only run the workload if the function evaluates to true" (workload_modificator.rs 19): for a
    workload that is part of another one the function is evaluated for each of its systems; when
    a system changes what it looks at, part of the workload runs and part of it does not. *)
Definition exn_inner : workload := wl_set_run_if (CNot (CBase 1)) (nm 2 [sy 10 [wr 1]; sy 11 [rd 1; wr 2]]).
Definition exn : workload := wl_merge (wl_new (LName 1)) exn_inner.
Definition exn_sysf (f : N) : prog N (option unit) :=
  match f with 10%N => set_prog 1 1 | _ => succ_prog 1 2 end.
Theorem C70_nested_refuted :
  ∃ w inner l ls, w = wl_merge (wl_new (LName 1)) inner ∧ says w [] ls ∧
    says inner l [[]; []] ∧
    ∃ sc info ba order, create_workload w sc_new = Some (sc, inr (info, ba, order)) ∧
      loaded sc sc (wl_name w) ba ∧
      (∀ s x f, s ∈ order → wl_systems w !! pos s = Some x →
         f_systems (sc_fns sc) !! p_index s = Some f → respects (w_borrows x) (exn_sysf f)) ∧
      (∃ tr m', run_workload_seq exn_sysf run_condf (wl_name w) sc ∅ = (tr, m', None) ∧ starts tr = [0]) ∧
      (∃ tr m', run_workload_par exn_sysf run_condf (wl_name w) sc ∅ tr m' None ∧ starts tr = [(0, Par 0)]) ∧
      (** run by itself it runs as a whole *)
      ∃ sc info ba order, create_workload inner sc_new = Some (sc, inr (info, ba, order)) ∧
        ∃ tr m', run_workload_seq exn_sysf run_condf (wl_name inner) sc ∅ = (tr, m', None) ∧ starts tr = [0; 1].
Proof.
  assert (Hy : says exn_inner [SkipIf 1] [[]; []]).
  { apply (YSkipIf 1 _ []). apply (YSystem _ _ [] [] [[]]); [constructor|]. apply (YSystem _ _ [] [] []); constructor. }
  exists exn, exn_inner, [SkipIf 1], [[SkipIf 1]; [SkipIf 1]]. split; [done|].
  assert (Hw : says exn [] [[SkipIf 1]; [SkipIf 1]]) by (apply (YMerge _ _ [] [] [SkipIf 1] [[]; []]); [constructor|done]).
  split; [done|]. split; [done|].
  pose proof (says_built _ _ _ Hw) as Hb.
  destruct (create_workload exn sc_new) as [[sc [e|[[info ba] order]]]|] eqn:E;
    [vm_compute in E; done| |vm_compute in E; done].
  exists sc, info, ba, order. split; [done|]. pose proof (loaded_self _ _ _ _ _ _ Hb E) as Hl.
  split; [done|]. vm_compute in E. injection E as <- <- <- <-. split_and!.
  - intros s x f Hs Hx Hf.
    repeat (apply elem_of_cons in Hs as [->|Hs]); [..|by apply elem_of_nil in Hs];
      (vm_compute in Hx; injection Hx as <-; vm_compute in Hf; injection Hf as <-; cbn).
    + apply set_respects. exists (wr 1). split; [by left|by left].
    + constructor.
      * exists (rd 1). split; [by left|by left].
      * intros v. constructor; [|constructor]. exists (wr 2). split; [right; by left|by left].
  - eexists _, _. split; [vm_compute; reflexivity|reflexivity].
  - eexists _, _. split.
    { unfold run_workload_par. vm_compute (sc_workload _ _). cbv beta iota.
      unfold run_batches_par. vm_compute (workload_rif _ _ _). cbv beta iota. unfold par_run.
      vm_compute (zip _ _). eapply PNext; [vm_compute; reflexivity| |apply BROk|].
      - vm_compute (batch_tasks _ _). vm_compute (f_systems _).
        eapply bsteps_cons; [apply (BStart _ _ _ _ ∅ [] [] (Par 0) 0 10%N [] []); reflexivity|]. cbn [app].
        eapply bsteps_cons; [apply (BWr _ _ _ _ ∅ [] [] [] (Par 0, 0) 1 (Some 1%N) (Ret None) [])|].
        eapply bsteps_cons; [apply (BEnd _ _ _ _ _ [] [] [] (Par 0, 0) None [])|].
        apply bsteps_nil.
      - intros x r Hx. by apply elem_of_list_singleton in Hx as [= -> ->].
      - eapply PNext; [vm_compute; reflexivity| |apply BROk|apply PNil].
        + vm_compute (batch_tasks _ _). apply bsteps_nil.
        + intros x r Hx. by apply elem_of_nil in Hx. }
    vm_compute. reflexivity.
  - destruct (create_workload exn_inner sc_new) as [[sc [e|[[info ba] order]]]|] eqn:E;
      [vm_compute in E; done| |vm_compute in E; done].
    exists sc, info, ba, order. split; [done|].
    vm_compute in E. injection E as <- <- <- <-. eexists _, _. split; [vm_compute; reflexivity|reflexivity].
Qed.

(** "Moves all systems of other into Self" (workload.rs 191): [append] loses the conditions of the
    other workload. *)
Theorem C70_append_refuted :
  ∃ w o l ls, says w [] [] ∧ says o l ls ∧ l ≠ [] ∧ ls ≠ [] ∧ wl_run_if (wl_append w o) = None ∧
    ∀ x, x ∈ wl_systems (wl_append w o) → w_run_if x = None.
Proof.
  exists (wl_new (LName 1)), exn_inner, [SkipIf 1], [[]; []]. split_and!; [constructor| |done|done|done|].
  - apply (YSkipIf 1 _ []). apply (YSystem _ _ [] [] [[]]); [constructor|]. apply (YSystem _ _ [] [] []); constructor.
  - intros x Hx. vm_compute in Hx. repeat (apply elem_of_cons in Hx as [->|Hx]; [done|]). by apply elem_of_nil in Hx.
Qed.

Print Assumptions C70_conditions.
Print Assumptions C70_success.
Print Assumptions C70_only.
Print Assumptions C70_workload.
Print Assumptions C70_success_seq.
Print Assumptions C70_all.
Print Assumptions C70_nested_refuted.
Print Assumptions C70_append_refuted.
