(** Property C61: the [on_insertion] and [on_removal] callbacks of a component storage
    (src/sparse_set/mod.rs:164-186 and the calls at 248-249, 267-268, 291-292, 378-380).  The model
    of a storage records the arguments of the calls, oldest first. *)
From stdpp Require Import prelude list gmap sorting.
From Coq Require Import NArith Lia.
From Verif Require Import EntityId Base SparseSet Track SparseSetSpec SparseSetProofs SparseSetProofs2
  SparseSetHistory PropsSparseSet.
From Verif Require Entities World Bulk.
Open Scope N_scope.

Section props.
Context {T : Type}.
Implicit Types (s : sset T) (h : hist T).

(** * The functions *)
Ltac steps E :=
  repeat match type of E with
  | rbind ?x _ = _ => let y := fresh "y" in destruct x as [y| |] eqn:?; cbn [rbind] in E; [|discriminate E..]
  | (let (_, _) := ?x in _) = _ => destruct x
  | match ?x with _ => _ end = _ => destruct x eqn:?; cbn [rbind] in E; try discriminate E
  end.
Lemma insert_calls s e v t s' r :
  ss_insert s e v t = Ok (s', r) ->
  ss_on_ins s' = ss_on_ins s ++ (if was_inserted r then [(e, v)] else []) ∧ ss_on_rem s' = ss_on_rem s.
Proof.
  unfold ss_insert. intros E. steps E; injection E as <- <-; cbn; by rewrite ?app_nil_r.
Qed.
Lemma actual_remove_calls s e s' r :
  actual_remove s e = Ok (s', r) ->
  ss_on_ins s' = ss_on_ins s ∧
  ss_on_rem s' = ss_on_rem s ++ (match r with Some c => [(e, c)] | None => [] end).
Proof.
  unfold actual_remove. intros E. steps E; injection E as <- <-; cbn; by rewrite ?app_nil_r.
Qed.
Lemma remove_calls s e t s' r :
  dyn_remove s e t = Ok (s', r) ->
  ss_on_ins s' = ss_on_ins s ∧
  ss_on_rem s' = ss_on_rem s ++ (match r with Some c => [(e, c)] | None => [] end).
Proof.
  unfold dyn_remove. intros E. destruct (actual_remove s e) as [[s1 c]| |] eqn:Er; cbn [rbind] in E; [|done..].
  apply actual_remove_calls in Er as [E1 E2].
  destruct c; injection E as <- <-; [destruct (ss_tr s1)|]; cbn; done.
Qed.
Lemma delete_calls s e t s' b :
  dyn_delete s e t = Ok (s', b) ->
  ss_on_ins s' = ss_on_ins s ∧
  ∃ r, ss_on_rem s' = ss_on_rem s ++ (match r with Some c => [(e, c)] | None => [] end) ∧
       b = bool_decide (is_Some r) ∧ rmap snd (actual_remove s e) = Ok r.
Proof.
  unfold dyn_delete. intros E. destruct (actual_remove s e) as [[s1 c]| |] eqn:Er; cbn [rbind] in E; [|done..].
  apply actual_remove_calls in Er as [E1 E2].
  destruct c as [c|]; injection E as <- <-.
  - split; [by destruct (ss_td s1)|]. exists (Some c). split; [by destruct (ss_td s1)|done].
  - split; [done|]. by exists None.
Qed.
Lemma sp_remove_answer s a e t a' r :
  SR s a -> sp_step a (ORemove e t) a' (ERemove r) -> r = r_val <$> sp_map a !! e.
Proof.
  intros HS St. remember (ORemove e t) as o eqn:Eo. remember (ERemove r) as ev eqn:Eev.
  destruct St as [| | |e0 t0 x Hx|e0 t0 Hn Hno|e0 e' t0 Hi Hg He| | | | | | | | | | | | | | | |]; try done; injection Eo as <- <-; injection Eev as <-.
  - by rewrite Hx.
  - by rewrite Hn.
  - destruct (sp_map a !! e0) as [x|] eqn:Ex; [|done]. exfalso.
    assert (e' = e0) as -> by (eapply (SR_one s a); [done|done|by eexists|done]). lia.
Qed.
Lemma sp_delete_map s a e t a' b x :
  SR s a -> sp_map a !! e = Some x -> sp_step a (ODelete e t) a' (EDelete b) -> sp_map a' = delete e (sp_map a).
Proof.
  intros HS Ex St. remember (ODelete e t) as o eqn:Eo. remember (EDelete b) as ev eqn:Eev.
  destruct St as [| | | | | |e0 t0 r Hr|e0 t0 Hn Hno|e0 e' t0 Hi Hg He| | | | | | | | | | | | |]; try done; injection Eo as <- <-; injection Eev as <-.
  - done.
  - congruence.
  - exfalso. assert (e' = e0) as -> by (eapply (SR_one s a); [done|done|by eexists|done]). lia.
Qed.
(** The component [dyn_delete] takes out is the one of the handle. *)
Lemma actual_remove_value s a e r :
  SR s a -> gen e < U16_MAX -> rmap snd (actual_remove s e) = Ok r -> r = r_val <$> sp_map a !! e.
Proof.
  intros HS Hg E. destruct (dyn_remove_SR s a e 0 HS Hg) as (s' & r' & a' & E' & St & _).
  unfold dyn_remove in E'. destruct (actual_remove s e) as [[s1 c]| |]; cbn in *; [|done..].
  injection E as <-.
  assert (c = r') as -> by (destruct c; by injection E' as _ <-).
  by apply (sp_remove_answer s _ _ _ _ _ HS) in St.
Qed.

Lemma retain_calls (f : eid -> T -> bool) t n : ∀ i removed s a s' u,
  SR s a ->
  retain_loop n i removed (λ (_ : unit) e c, ((), f e c)) () t s = Ok (s', u) ->
  ss_on_ins s' = ss_on_ins s ∧
  ∃ l a', SR s' a' ∧ ss_on_rem s' = ss_on_rem s ++ l ∧ vals (sp_map a) ≡ₚ vals (sp_map a') ++ l.
Proof.
  induction n as [|n IH]; intros i removed s a s' u HS E; cbn [retain_loop] in E.
  { injection E as <- _. split; [done|]. exists [], a. rewrite !app_nil_r. done. }
  destruct (i <? removed); [done|].
  destruct (get_unchecked (ss_dense s) (i - removed)) as [e| |] eqn:Ee; cbn [rbind] in E; [|done..].
  destruct (get_unchecked (ss_data s) (i - removed)) as [c| |] eqn:Ec; cbn [rbind] in E; [|done..].
  destruct (f e c) eqn:Ef; [by eapply IH|].
  assert (getN (ss_dense s) (i - removed) = Some e) as Hd.
  { unfold get_unchecked in Ee. destruct (getN (ss_dense s) (i - removed)); [|done]. by injection Ee as ->. }
  destruct (sr_row s _ (sr_rows s a HS) _ _ Hd) as (x & Hx & _).
  assert (gen e < U16_MAX) as Hg by (by destruct (si_dense s (sr_inv s a HS) _ _ Hd) as [_ [_ ?]]).
  destruct (dyn_delete_SR s a e t HS Hg) as (s1 & b & a1 & E1 & St & HS1). rewrite E1 in E. cbn [rbind] in E.
  destruct (delete_calls _ _ _ _ _ E1) as (C1 & r & C2 & _ & C4).
  apply (actual_remove_value s a) in C4; [|done|done]. rewrite Hx in C4. cbn in C4. subst r.
  destruct (IH _ _ _ _ _ _ HS1 E) as (D1 & l & a' & D2 & D3 & D4).
  split; [congruence|]. exists ((e, r_val x) :: l), a'. split; [done|]. split.
  - rewrite D3, C2, <- app_assoc. done.
  - rewrite (vals_delete _ _ _ Hx).
    assert (sp_map a1 = delete e (sp_map a)) as <-.
    { by eapply sp_delete_map. }
    rewrite D4. apply Permutation_middle.
Qed.

Lemma sort_loop_calls n : ∀ tr i s s', sort_loop n tr i s = Ok s' ->
  ss_on_ins s' = ss_on_ins s ∧ ss_on_rem s' = ss_on_rem s.
Proof.
  induction n as [|n IH]; intros tr i s s' E; cbn [sort_loop] in E; [by injection E as <-|].
  destruct (get_unchecked tr i); cbn [rbind] in E; [|done..].
  destruct (sort_follow _ _ _ _) as [pos| |]; cbn [rbind] in E; [|done..].
  destruct (sort_swap s i pos) as [s1| |] eqn:E1; cbn [rbind] in E; [|done..].
  destruct (IH _ _ _ _ E) as [-> ->].
  unfold sort_swap in E1. steps E1; by injection E1 as <-.
Qed.

(** * What has to be called *)
(** One call per insertion that is not refused, with the handle and the component. *)
Definition ins_call (x : sop T * sevent T) : option (eid * T) :=
  match x with
  | (OInsert e v _, EInsert NotInserted) => None
  | (OInsert e v _, EInsert _) => Some (e, v)
  | _ => None
  end.

Lemma step_calls s a o s' ev :
  SR s a -> (match o with ODelete e _ => gen e < U16_MAX | _ => True end) ->
  s_step s o = Ok (s', ev) ->
  ss_on_ins s' = ss_on_ins s ++ option_list (ins_call (o, ev)) ∧
  ∃ l, ss_on_rem s' = ss_on_rem s ++ l ∧
    match o with
    | ORemove e _ => l = match ev with ERemove (Some v) => [(e, v)] | _ => [] end
    | ODelete e _ => l = option_list (pair e <$> (r_val <$> sp_map a !! e))
    | ORetain _ _ => ∃ a', SR s' a' ∧ vals (sp_map a) ≡ₚ vals (sp_map a') ++ l
    | _ => l = []
    end.
Proof.
  intros HS Hg E. destruct o; cbn [s_step] in E.
  all: try (injection E as <- <-; cbn; rewrite app_nil_r; split; [done|]; exists []; by rewrite app_nil_r).
  - destruct (ss_insert s e v t) as [[s1 r]| |] eqn:E1; cbn [rbind] in E; [|done..]. injection E as <- <-.
    destruct (insert_calls _ _ _ _ _ _ E1) as [-> ->]. split; [by destruct r|]. exists []. by rewrite app_nil_r.
  - destruct (dyn_remove s e t) as [[s1 r]| |] eqn:E1; cbn [rbind] in E; [|done..]. injection E as <- <-.
    destruct (remove_calls _ _ _ _ _ E1) as [-> ->]. cbn. rewrite app_nil_r. split; [done|]. by destruct r; eexists.
  - destruct (dyn_delete s e t) as [[s1 r]| |] eqn:E1; cbn [rbind] in E; [|done..]. injection E as <- <-.
    destruct (delete_calls _ _ _ _ _ E1) as (-> & r' & -> & _ & Hr). cbn. rewrite app_nil_r. split; [done|].
    apply (actual_remove_value s a) in Hr; [|done|done]. subst r'. eexists. split; [done|].
    by destruct (sp_map a !! e).
  - destruct (ss_write s e f t) as [[s1 r]| |] eqn:E1; cbn [rbind] in E; [|done..]. injection E as <- <-.
    unfold ss_write in E1. steps E1; injection E1 as <- <-; cbn; rewrite app_nil_r; (split; [done|]); exists []; by rewrite app_nil_r.
  - destruct (ss_clear s t) as [s1| |] eqn:E1; cbn [rbind] in E; [|done..]. injection E as <- <-.
    unfold ss_clear in E1. steps E1; injection E1 as <-; cbn; rewrite app_nil_r; (split; [done|]); exists []; by rewrite app_nil_r.
  - unfold ss_drain in E. destruct (kill_slots (ss_dense s) (ss_sparse s)); cbn [rbind] in E; [|done..].
    destruct (drain_all _ _); cbn [rbind] in E; [|done..].
    injection E as <- <-. cbn. rewrite app_nil_r. split; [done|]. exists []. by rewrite app_nil_r.
  - destruct (ss_retain s _ () t) as [[s1 u]| |] eqn:E1; cbn [rbind] in E; [|done..]. injection E as <- <-.
    unfold ss_retain in E1. destruct (retain_calls _ _ _ _ _ _ _ _ _ HS E1) as (-> & l & a' & ? & ? & ?).
    cbn. rewrite app_nil_r. split; [done|]. exists l. eauto.
  - destruct (ss_sort s order) as [s1| |] eqn:E1; cbn [rbind] in E; [|done..]. injection E as <- <-.
    unfold ss_sort in E1. destruct (sort_loop _ _ _ _) as [s2| |] eqn:E2; cbn [rbind] in E1; [|done..].
    destruct (sort_loop_calls _ _ _ _ _ E2) as [H1 H2].
    destruct (sort_reindex _ _ _); cbn [rbind] in E1; [|done..]. injection E1 as <-.
    cbn. rewrite app_nil_r. split; [done|]. exists []. by rewrite app_nil_r.
  - destruct (ss_apply s _ _ _ t) as [[s1 r]| |] eqn:E1; cbn [rbind] in E; [|done..]. injection E as <- <-.
    unfold ss_apply in E1. steps E1; injection E1 as <- <-; cbn; rewrite app_nil_r; (split; [done|]); exists []; by rewrite app_nil_r.
  - destruct (ss_apply_mut s _ _ _ t) as [[s1 r]| |] eqn:E1; cbn [rbind] in E; [|done..]. injection E as <- <-.
    unfold ss_apply_mut in E1. steps E1; injection E1 as <- <-; cbn; rewrite app_nil_r; (split; [done|]); exists []; by rewrite app_nil_r.
  - injection E as <- <-. unfold enable_tracking, track_removal, track_deletion, track_modification, track_insertion.
    cbn. rewrite app_nil_r.
    split; [|exists []; rewrite app_nil_r; split; [|done]];
      repeat match goal with |- context [if ?b then _ else _] => destruct b; cbn end; done.
Qed.

(** * C61 *)
(** Setting the callback and then doing anything at all with the storage calls it once for every
    insertion that is not refused, in order, with the handle and the component given. *)
Theorem C61_on_insertion ti tm td tr ops s h :
  reaches ti tm td tr ops s h ->
  ∃ evs, s_run (ss_new ti tm td tr) ops = Ok (s, evs) ∧ ss_on_ins s = omap ins_call (zip ops evs).
Proof.
  intros (Hal & evs & E & ->). exists evs. split; [done|].
  assert (∀ s0 h0 a0, SR s0 a0 -> HR h0 a0 -> allowed_history s0 h0 ops -> s_run s0 ops = Ok (s, evs) ->
            ss_on_ins s = ss_on_ins s0 ++ omap ins_call (zip ops evs)) as Hgen.
  2:{ apply (Hgen _ _ _ (ss_new_SR ti tm td tr) (HR_init ti tm td tr) Hal E). }
  clear Hal E. revert evs. induction ops as [|o ops IH]; intros evs s0 h0 a0 HS HH Hal E; cbn [s_run] in E.
  { injection E as -> <-. cbn. by rewrite app_nil_r. }
  destruct (allowed_cons _ _ _ _ Hal) as [Ho Hrest].
  destruct (s_step_ok s0 h0 a0 o HS HH Ho) as (s1 & ev & a1 & E1 & _ & HS1 & HH1).
  rewrite E1 in E. cbn [rbind] in E. destruct (s_run s1 ops) as [[s2 evs2]| |] eqn:E2; cbn [rbind] in E; [|done..].
  injection E as -> <-.
  rewrite (IH evs2 s1 _ a1 HS1 HH1 (Hrest _ _ E1) E2).
  destruct (step_calls s0 a0 o s1 ev HS) as [-> _]; [by destruct o|done|].
  cbn [zip zip_with omap list_omap]. rewrite <- app_assoc. f_equal. by destruct (ins_call (o, ev)).
Qed.

(** The handles that lost their component in a step. *)
Definition left_store h h' (e : eid) (v : T) : Prop := h_val h e = Some v ∧ h_val h' e = None.
(** The ways out the callback is not told about: clear, drain, and a handle that pushes out what an
    older generation of its index left behind. *)
Definition told h (o : sop T) : Prop :=
  match o with
  | OClear _ | ODrain _ => False
  | ORemove e _ | ODelete e _ => ∀ e', idx e' = idx e -> gen e' < gen e -> h_val h e' = None
  | _ => True
  end.

(** In every step the callback is called only for components that leave the storage in that step, at
    most once for each and with the handle and the component; and for all of them unless [told] is
    false (then it can be none, see the refutations). *)
Theorem C61_on_removal_partial ti tm td tr ops s h o s' ev :
  reaches ti tm td tr ops s h -> h_allowed h o -> s_step s o = Ok (s', ev) ->
  ∃ l, ss_on_rem s' = ss_on_rem s ++ l ∧ NoDup l.*1 ∧
    (∀ e v, (e, v) ∈ l -> left_store h (h_step h (o, ev)) e v) ∧
    (told h o -> ∀ e v, left_store h (h_step h (o, ev)) e v -> (e, v) ∈ l).
Proof.
  intros HRe Ho E. destruct (reaches_SR _ _ _ _ _ _ _ HRe) as (a & HS & HH).
  destruct (s_step_ok s h a o HS HH Ho) as (s2 & ev2 & a' & E1 & E2 & HS' & HH').
  rewrite E in E1. injection E1 as <- <-.
  destruct (step_calls s a o s' ev HS) as (_ & l & El & Hl); [by destruct o|done|].
  exists l. split; [done|].
  assert (∀ e v, left_store h (h_step h (o, ev)) e v <-> (∃ r, sp_map a !! e = Some r ∧ r_val r = v) ∧ sp_map a' !! e = None) as Hleft.
  { intros e v. unfold left_store. rewrite (hr_val _ _ HH), (hr_val _ _ HH').
    destruct (sp_map a !! e) as [x|], (sp_map a' !! e); cbn; split; try naive_solver. }
  assert (∀ e v, (e, v) ∈ vals (sp_map a) <-> ∃ r, sp_map a !! e = Some r ∧ r_val r = v) as Hin by apply vals_elem.
  (* nothing leaves *)
  assert ((∀ e, is_Some (sp_map a !! e) -> is_Some (sp_map a' !! e)) -> l = [] ->
    NoDup l.*1 ∧ (∀ e v, (e, v) ∈ l -> left_store h (h_step h (o, ev)) e v) ∧
    (told h o -> ∀ e v, left_store h (h_step h (o, ev)) e v -> (e, v) ∈ l)) as Hsame.
  { intros Hm ->. split; [constructor|]. split; [by intros ? ? ?%elem_of_nil|].
    intros _ e v [(r & Hr & _) Hn]%Hleft. exfalso. destruct (Hm e) as [? H']; [by eexists|]. congruence. }
  (* one component leaves *)
  assert (∀ e r, sp_map a !! e = Some r -> l = [(e, r_val r)] -> sp_map a' = delete e (sp_map a) ->
    NoDup l.*1 ∧ (∀ e v, (e, v) ∈ l -> left_store h (h_step h (o, ev)) e v) ∧
    (told h o -> ∀ e v, left_store h (h_step h (o, ev)) e v -> (e, v) ∈ l)) as Hone.
  { intros e r Hr -> Ha. split; [apply NoDup_singleton|]. split.
    - intros e' v Hev%elem_of_list_singleton. injection Hev as -> ->. apply Hleft. rewrite Ha, lookup_delete. eauto.
    - intros _ e' v [(r' & Hr' & <-) Hn]%Hleft. rewrite Ha in Hn. apply elem_of_list_singleton.
      destruct (decide (e' = e)) as [->|Hne]; [congruence|]. rewrite lookup_delete_ne in Hn by done. congruence. }
  (* a stale one is pushed out without a call *)
  assert (∀ e e', idx e' = idx e -> gen e' < gen e -> is_Some (sp_map a !! e') -> l = [] ->
    (told h o -> ∀ e', idx e' = idx e -> gen e' < gen e -> h_val h e' = None) ->
    NoDup l.*1 ∧ (∀ e v, (e, v) ∈ l -> left_store h (h_step h (o, ev)) e v) ∧
    (told h o -> ∀ e v, left_store h (h_step h (o, ev)) e v -> (e, v) ∈ l)) as Hstale.
  { intros e e' Hi Hge Hs -> Ht. split; [constructor|]. split; [by intros ? ? ?%elem_of_nil|].
    intros Htold. specialize (Ht Htold e' Hi Hge). apply (h_none_iff h a) in Ht; [|done]. rewrite Ht in Hs.
    by destruct Hs. }
  assert (∀ f, (∀ e, is_Some (sp_map a !! e) -> is_Some ((f : gmap eid (row T)) !! e)) -> sp_map a' = f ->
            ∀ e, is_Some (sp_map a !! e) -> is_Some (sp_map a' !! e)) as Hkeep by (by intros f Hf ->).
  destruct E2 as [e v t Hf|e v t r Hr|e e' v t Hi Hg He|e t r Hr|e t Hn Hno|e e' t Hi Hg He
    |e t r Hr|e t Hn Hno|e e' t Hi Hg He|e f t r Hr|e f t Hn|t d Hd|t d Hd|f t d Hd|order
    |x y f t rx ry Hne Hx Hy|x y f t rx ry Hne Hx Hy|ti' tm' td' tr'|t|t| |]; cbn [told h_allowed] in *;
    try (apply Hsame; [|done]; cbn [upd_map upd upd_last upd_flags sp_map]; intros z; rewrite ?lookup_insert_is_Some', ?lookup_fmap, ?fmap_is_Some; tauto).
  - by apply (Hone e r).
  - by apply (Hstale e e').
  - rewrite Hr in Hl. cbn in Hl. by apply (Hone e r).
  - rewrite Hn in Hl. by apply Hsame.
  - apply (Hstale e e'); try done. rewrite Hl. destruct (sp_map a !! e) as [x|] eqn:Ex; [|done]. exfalso.
    assert (e' = e) as -> by (eapply (SR_one s a); [done|done|by eexists|done]). lia.
  - subst l. split; [constructor|]. split; [by intros ? ? ?%elem_of_nil|done].
  - subst l. split; [constructor|]. split; [by intros ? ? ?%elem_of_nil|done].
  - destruct Hl as (a2 & HS2 & Hp).
    assert (vals (sp_map a2) ≡ₚ vals (filter (λ x, f x.1 (r_val x.2) = true) (sp_map a))) as Hv.
    { rewrite <- (rows_vals s' _ (sr_inv _ _ HS2) (sr_rows _ _ HS2)).
      by rewrite (rows_vals s' _ (sr_inv _ _ HS') (sr_rows _ _ HS')). }
    rewrite Hv in Hp.
    assert (NoDup (vals (filter (λ x, f x.1 (r_val x.2) = true) (sp_map a)) ++ l).*1) as Hnd
      by (rewrite <- Hp; apply vals_NoDup_fst).
    rewrite fmap_app in Hnd. apply NoDup_app in Hnd as (_ & Hdis & Hnd).
    split; [done|]. split.
    + intros e v Hev. apply Hleft. cbn. split.
      * apply Hin. rewrite Hp. apply elem_of_app. by right.
      * destruct (filter _ (sp_map a) !! e) as [r|] eqn:Er; [|done]. exfalso. apply (Hdis e).
        -- apply elem_of_list_fmap. exists (e, r_val r). split; [done|]. apply vals_elem. eauto.
        -- apply elem_of_list_fmap. by exists (e, v).
    + intros _ e v [Hev Hn]%Hleft. apply Hin in Hev. rewrite Hp in Hev. apply elem_of_app in Hev as [Hev|]; [|done].
      apply vals_elem in Hev as (r & Hr & _). cbn in Hn. congruence.
Qed.
End props.

(** ** Ways out without a call
    The removal callback is not called for the components that [clear] (src/sparse_set/mod.rs:669-690)
    and [drain] (src/sparse_set/mod.rs:693-710) take out, although the storage loses them like any other. *)
Theorem C61_clear_refuted :
  ∃ (ops : list (sop N)) s h s' ev e v,
    reaches false false true true ops s h ∧ h_allowed h (OClear 7) ∧ s_step s (OClear 7) = Ok (s', ev) ∧
    left_store h (h_step h (OClear 7, ev)) e v ∧ ss_on_rem s' = [].
Proof.
  exists [OInsert (3, 0) 5 1; OInsert (4, 0) 6 2]. eexists _, _, _, _, (3, 0), 5. split.
  { eapply reaches_intro; [concrete_allowed|vm_compute; reflexivity]. }
  split; [done|]. split; [vm_compute; reflexivity|]. by vm_compute.
Qed.
Theorem C61_drain_refuted :
  ∃ (ops : list (sop N)) s h s' ev e v,
    reaches false false true true ops s h ∧ h_allowed h (ODrain 7) ∧ s_step s (ODrain 7) = Ok (s', ev) ∧
    ev = EDrain [((3, 0), 5); ((4, 0), 6)] ∧ left_store h (h_step h (ODrain 7, ev)) e v ∧ ss_on_rem s' = [].
Proof.
  exists [OInsert (3, 0) 5 1; OInsert (4, 0) 6 2]. eexists _, _, _, _, (3, 0), 5. split.
  { eapply reaches_intro; [concrete_allowed|vm_compute; reflexivity]. }
  split; [done|]. split; [vm_compute; reflexivity|]. by vm_compute.
Qed.
(** A remove or delete through a newer handle of the same index drops the component of the older one
    in silence. *)
Theorem C61_stale_refuted :
  ∃ (ops : list (sop N)) s h s' ev e v,
    reaches false false true true ops s h ∧ h_allowed h (ORemove (3, 1) 7) ∧
    s_step s (ORemove (3, 1) 7) = Ok (s', ev) ∧
    left_store h (h_step h (ORemove (3, 1) 7, ev)) e v ∧ ss_on_rem s' = [].
Proof.
  exists [OInsert (3, 0) 5 1]. eexists _, _, _, _, (3, 0), 5. split.
  { eapply reaches_intro; [concrete_allowed|vm_compute; reflexivity]. }
  split; [done|]. split; [vm_compute; reflexivity|]. by vm_compute.
Qed.
(** An insertion for a newer handle of an index that still has a component calls [on_insertion], but
    the component that is dropped leaves without [on_removal]. *)
Theorem C61_replaced_refuted :
  ∃ (ops : list (sop N)) s h s' ev,
    reaches false false true true ops s h ∧ h_val h (3, 0) = Some 5 ∧
    s_step s (OInsert (3, 1) 6 7) = Ok (s', ev) ∧ ss_get s' (3, 0) = Ok None ∧ ss_get s' (3, 1) = Ok (Some 6) ∧
    ss_on_ins s' = [((3, 0), 5); ((3, 1), 6)] ∧ ss_on_rem s' = [].
Proof.
  exists [OInsert (3, 0) 5 1]. eexists _, _, _, _. split.
  { eapply reaches_intro; [concrete_allowed|vm_compute; reflexivity]. }
  split; [done|]. split; [vm_compute; reflexivity|]. by vm_compute.
Qed.
(** A component that is overwritten through its own handle is dropped without a removal call either:
    the two callbacks alone do not tell how many components there are. *)
Theorem C61_overwritten_refuted :
  ∃ (ops : list (sop N)) s h,
    reaches false false true true ops s h ∧ ss_on_ins s = [((3, 0), 5); ((3, 0), 6)] ∧ ss_on_rem s = [] ∧
    ss_len s = 1.
Proof.
  exists [OInsert (3, 0) 5 1; OInsert (3, 0) 6 2]. eexists _, _. split.
  { eapply reaches_intro; [concrete_allowed|vm_compute; reflexivity]. }
  by vm_compute.
Qed.
(** Bulk insertion (src/sparse_set/bulk_add_entity.rs:61-116) never calls [on_insertion]. *)
Theorem C61_bulk_refuted {T : Type} (s : sset T) ids vs ins md s' :
  Bulk.ss_bulk s ids vs ins md = Ok s' -> ss_on_ins s' = ss_on_ins s.
Proof.
  unfold Bulk.ss_bulk. intros E.
  destruct (getN _ _); [|done]. destruct (getN _ _); [|done].
  destruct (sa_bulk_allocate _ _ _); cbn [rbind] in E; [|done..].
  destruct (Bulk.sa_write_all _ _ _); cbn [rbind] in E; [|done..]. by injection E as <-.
Qed.
Example C61_bulk_case :
  ∃ s', Bulk.ss_bulk (ss_new false false false false) [(0, 0); (1, 0)] [5; 6] 1 0 = Ok s' ∧
    ss_get s' (0, 0) = Ok (Some 5) ∧ ss_on_ins s' = [].
Proof. eexists. split; [vm_compute; reflexivity|]. by vm_compute. Qed.

(** ** The hypotheses can be met *)
Definition calls_ops : list (sop N) :=
  [OInsert (3, 0) 5 1; OInsert (4, 0) 6 2; OInsert (3, 0) 7 3; ORemove (4, 0) 4; OInsert (4, 1) 8 5;
   OInsert (4, 0) 9 6; OInsert (5, 2) 1 6; ORetain (λ e v, bool_decide (v = 8)) 7; ODelete (4, 1) 8].
Example C61_case :
  ∃ s h, reaches true true true true calls_ops s h ∧
    ss_on_ins s = [((3, 0), 5); ((4, 0), 6); ((3, 0), 7); ((4, 1), 8); ((5, 2), 1)] ∧
    ss_on_rem s = [((4, 0), 6); ((3, 0), 7); ((5, 2), 1); ((4, 1), 8)].
Proof.
  eexists _, _. split.
  { eapply reaches_intro; [concrete_allowed|vm_compute; reflexivity]. }
  by vm_compute.
Qed.
Example C61_told_case :
  ∃ (ops : list (sop N)) s h s' ev,
    reaches true true true true ops s h ∧ h_allowed h (ORetain (λ e v, bool_decide (v = 6)) 7) ∧
    s_step s (ORetain (λ e v, bool_decide (v = 6)) 7) = Ok (s', ev) ∧
    told h (ORetain (λ e v, bool_decide (v = 6)) 7) ∧ ss_on_rem s' = [((3, 0), 5); ((7, 1), 2)].
Proof.
  exists [OInsert (3, 0) 5 1; OInsert (4, 0) 6 2; OInsert (7, 1) 2 2]. eexists _, _, _, _. split.
  { eapply reaches_intro; [concrete_allowed|vm_compute; reflexivity]. }
  split; [done|]. split; [vm_compute; reflexivity|]. by vm_compute.
Qed.

Print Assumptions C61_on_insertion.
Print Assumptions C61_on_removal_partial.
Print Assumptions C61_clear_refuted.
Print Assumptions C61_drain_refuted.
Print Assumptions C61_stale_refuted.
Print Assumptions C61_replaced_refuted.
Print Assumptions C61_overwritten_refuted.
Print Assumptions C61_bulk_refuted.
