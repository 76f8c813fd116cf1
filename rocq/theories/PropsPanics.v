(** Property C65: storages after panics of user code that were caught. *)
From stdpp Require Import prelude list gmap.
From Coq Require Import NArith Lia.
From Verif Require Import EntityId Base SparseSet Track SparseSetSpec SparseSetProofs SparseSetProofs2
  SparseSetHistory Panics PanicsSpec PanicsProofs.
Open Scope N_scope.

Section props.
Context {T : Type}.
Implicit Types (s : sset T) (a : sspec T).

(** The calls considered, in terms of what the storage answers at that moment: handles are real ones,
    an insertion meets no component of an older generation, a sort permutes, apply has two entities. *)
Definition p_allowed s (o : pop T) : Prop :=
  match o with
  | PDo (OInsert e _ _) =>
      handle_ok e ∧ ∀ e', idx e' = idx e -> gen e' < gen e -> ss_contains s e' = false
  | PInsert e _ _ | PInsertDrop e _ _ => handle_ok e
  | PDo (ORemove e _) | PDo (ODelete e _) | PDo (OWrite e _ _) | PRemove e _ | PDelete e _ => gen e < U16_MAX
  | PDo (OSort order) => order ≡ₚ (N.of_nat <$> seq 0 (N.to_nat (ss_len s)))
  | PDo (OApply x y _ _) | PDo (OApplyMut x y _ _) | PApply x y _ _ | PApplyMut x y _ _ =>
      gen x < U16_MAX ∧ gen y < U16_MAX ∧ x ≠ y ∧ ss_contains s x = true ∧ ss_contains s y = true
  | _ => True
  end.
Fixpoint p_history s (ops : list (pop T)) : Prop :=
  match ops with
  | [] => True
  | o :: ops => p_allowed s o ∧ ∀ s' ev, p_step s o = Ok (s', ev) -> p_history s' ops
  end.
(** A storage some history with panics leads to. *)
Definition p_reaches s : Prop :=
  ∃ ti tm td tr ops evs, p_history (ss_new ti tm td tr) ops ∧ p_run (ss_new ti tm td tr) ops = Ok (s, evs).

Lemma p_allowed_SR s a o :
  SR s a -> p_allowed s o -> pp_allowed (lenN (ss_dense s)) (sp_map a) o.
Proof.
  intros HS.
  assert (∀ x y, gen x < U16_MAX ∧ gen y < U16_MAX ∧ x ≠ y ∧ ss_contains s x = true ∧ ss_contains s y = true ->
    gen x < U16_MAX ∧ gen y < U16_MAX ∧ x ≠ y ∧ is_Some (sp_map a !! x) ∧ is_Some (sp_map a !! y)) as Hxy.
  { intros x y (Hx & Hy & Hn & Cx & Cy). rewrite (ss_contains_SR s a) in Cx by done.
    rewrite (ss_contains_SR s a) in Cy by done.
    apply bool_decide_eq_true in Cx, Cy. done. }
  destruct o as [o| | | | | | | | |]; cbn [pp_allowed p_allowed]; try done; try apply Hxy.
  destruct o; cbn [op_allowed]; try done; try apply Hxy.
  intros [Hok Hno]. split; [done|]. intros e' Hi Hg. specialize (Hno e' Hi Hg).
  rewrite (ss_contains_SR s a) in Hno by (try done; destruct Hok; lia).
  apply bool_decide_eq_false in Hno. by apply eq_None_not_Some.
Qed.

Lemma p_run_SR s a ops :
  SR s a -> p_history s ops ->
  ∃ s' evs a', p_run s ops = Ok (s', evs) ∧ pp_run a ops a' evs ∧ SR s' a'.
Proof.
  revert s a. induction ops as [|o ops IH]; intros s a HS; cbn [p_history p_run].
  - intros _. exists s, [], a. split; [done|]. split; [constructor|done].
  - intros [Hal Hh].
    destruct (p_step_SR s a o HS (p_allowed_SR _ _ _ HS Hal)) as (s1 & ev & a1 & E & St & HS1).
    destruct (IH s1 a1 HS1 (Hh _ _ E)) as (s2 & evs & a2 & E2 & St2 & HS2).
    rewrite E. cbn [rbind]. rewrite E2. cbn [rbind]. eexists _, _, _. split; [done|].
    split; [by eapply PpCons|done].
Qed.
Lemma p_reaches_SR s : p_reaches s -> ∃ a, SR s a.
Proof.
  intros (ti & tm & td & tr & ops & evs & Hh & E).
  destruct (p_run_SR _ _ ops (ss_new_SR ti tm td tr) Hh) as (s' & evs' & a' & E' & _ & HS).
  rewrite E in E'. injection E' as -> ->. by exists a'.
Qed.

(** * C65: a caught panic leaves a storage that is still a map from entities to components *)
(** However user code panics and however often, every later call runs without panic of the crate and
    without undefined behaviour, and everything that can be read afterwards is what PanicsSpec.v
    says. *)
Theorem C65_storage_survives ti tm td tr (ops : list (pop T)) :
  p_history (ss_new ti tm td tr) ops ->
  ∃ s evs a,
    p_run (ss_new ti tm td tr) ops = Ok (s, evs) ∧ pp_run (sp_init ti tm td tr) ops a evs ∧
    (∀ e, gen e < U16_MAX ->
      ss_get s e = Ok (r_val <$> sp_map a !! e) ∧
      ss_contains s e = bool_decide (is_Some (sp_map a !! e)) ∧
      (sp_ti a = true -> ∀ l c, is_inserted s e l c =
         Ok (match sp_map a !! e with Some r => is_within (r_ins r) l c | None => false end)) ∧
      (sp_tm a = true -> ∀ l c, is_modified s e l c =
         Ok (match sp_map a !! e with Some r => is_within (r_mod r) l c | None => false end))) ∧
    zip (ss_dense s) (ss_data s) ≡ₚ vals (sp_map a) ∧
    ss_len s = msize (sp_map a) ∧ ss_del s = sp_del a ∧ ss_rem s = sp_rem a.
Proof.
  intros Hh. destruct (p_run_SR _ _ ops (ss_new_SR ti tm td tr) Hh) as (s & evs & a & E & St & HS).
  exists s, evs, a. split; [done|]. split; [done|]. split; [|split_and!].
  - intros e He. split_and!.
    + by apply ss_get_SR.
    + by apply ss_contains_SR.
    + intros Ht l c. by apply is_inserted_SR.
    + intros Ht l c. by apply is_modified_SR.
  - apply rows_vals; [apply (sr_inv s a HS)|apply (sr_rows s a HS)].
  - apply dense_size; [apply (sr_inv s a HS)|apply (sr_rows s a HS)].
  - apply (sr_del s a HS).
  - apply (sr_rem s a HS).
Qed.

(** An insertion whose callback panicked did nothing that can be read. *)
Theorem C65_insert_did_nothing s s' e v t :
  p_reaches s -> handle_ok e -> p_step s (PInsert e v t) = Ok (s', PBoom) ->
  (∀ x, gen x < U16_MAX ->
    ss_get s' x = ss_get s x ∧
    (ss_ti s = true -> ∀ l c, is_inserted s' x l c = is_inserted s x l c) ∧
    (ss_tm s = true -> ∀ l c, is_modified s' x l c = is_modified s x l c)) ∧
  ss_dense s' = ss_dense s ∧ ss_data s' = ss_data s ∧ ss_del s' = ss_del s ∧ ss_rem s' = ss_rem s.
Proof.
  intros Hre Hok E. destruct (p_reaches_SR s Hre) as [a HS].
  destruct (p_insert_boom s a e v t HS Hok) as (s2 & r & a' & E2 & St & HS').
  cbn [p_step] in E. rewrite E2 in E. cbn [rbind] in E. injection E as -> Hr. rewrite Hr in St.
  assert (a' = a) as -> by (by inversion St).
  split.
  - intros x Hx. rewrite !(ss_get_SR _ a) by done. split; [done|].
    pose proof (sr_ti s a HS) as Et. pose proof (sr_tm s a HS) as Em.
    split; intros Ht l c.
    + by rewrite !(is_inserted_SR _ a) by (try done; congruence).
    + by rewrite !(is_modified_SR _ a) by (try done; congruence).
  - assert (ss_dense s' = ss_dense s ∧ ss_data s' = ss_data s) as [-> ->].
    { unfold p_insert in E2. destruct (sa_allocate_at _ _) as [sp| |]; cbn [rbind] in E2; try done.
      destruct (sa_get_unchecked sp e) as [sl| |]; cbn [rbind] in E2; try done.
      destruct (_ && _); [by injection E2 as <- <-|].
      destruct (ss_insert s e v t) as [[s3 r3]| |]; cbn [rbind] in E2; try done.
      injection E2 as -> <-. done. }
    split_and!; try done.
    + by rewrite (sr_del _ a HS), (sr_del _ a HS').
    + by rewrite (sr_rem _ a HS), (sr_rem _ a HS').
Qed.

(** A removal or deletion whose callback panicked took out the component of that entity, nobody else's,
    and recorded nothing. *)
Theorem C65_removal_done s s' o e t :
  p_reaches s -> gen e < U16_MAX -> o = PRemove e t ∨ o = PDelete e t ->
  p_step s o = Ok (s', PBoom) ->
  ss_contains s e = true ∧
  (∀ x, gen x < U16_MAX -> ss_get s' x = if decide (x = e) then Ok None else ss_get s x) ∧
  ss_del s' = ss_del s ∧ ss_rem s' = ss_rem s.
Proof.
  intros Hre Hg Ho E. destruct (p_reaches_SR s Hre) as [a HS].
  assert (∃ r, sp_map a !! e = Some r ∧ SR s' (upd_map a (delete e (sp_map a)))) as (r & Hr & HS').
  { assert (pp_allowed (lenN (ss_dense s)) (sp_map a) o) as Hal by (destruct Ho as [->| ->]; done).
    destruct (p_step_SR s a o HS Hal) as (s2 & ev & a' & E2 & St & HS').
    rewrite E in E2. injection E2 as <- <-. destruct Ho as [->| ->]; inversion St; subst; eauto. }
  split_and!.
  - rewrite (ss_contains_SR s a) by done. apply bool_decide_eq_true. eauto.
  - intros x Hx. rewrite !(ss_get_SR s' _ x HS'), (ss_get_SR s a) by done. cbn.
    case_decide; [subst; by rewrite lookup_delete|by rewrite lookup_delete_ne].
  - rewrite (sr_del _ _ HS'), (sr_del _ _ HS). done.
  - rewrite (sr_rem _ _ HS'), (sr_rem _ _ HS). done.
Qed.

(** What is left for an entity the closure of a retain was shown. *)
Definition after_call (v : T) (ans : panswer) (w : option T) : option T :=
  match ans with ADrop => None | _ => Some (default v w) end.

Lemma pr_run_calls f cb t seen mu a calls boom a' :
  pr_run f cb t seen mu a calls boom a' -> (∀ e r, mu !! e = Some r -> sp_map a !! e = Some r) ->
  NoDup ((λ c : pcall T, c.1.1.1) <$> calls) ∧
  (∀ e v ans w, (e, v, ans, w) ∈ calls ->
     r_val <$> mu !! e = Some v ∧ r_val <$> sp_map a' !! e = after_call v ans w) ∧
  (∀ e, e ∉ ((λ c : pcall T, c.1.1.1) <$> calls) -> sp_map a' !! e = sp_map a !! e) ∧
  (boom = false -> ∀ e, is_Some (mu !! e) -> e ∈ ((λ c : pcall T, c.1.1.1) <$> calls)) ∧
  (∀ i c, calls !! i = Some c -> c.1.2 = ABoom -> boom = true ∧ length calls = S i).
Proof.
  intros Hr. induction Hr as [seen a|seen mu a e r w calls boom a' He Hf Hr IH
    |seen mu a e r w calls boom a' He Hf Hcb Hr IH|seen mu a e r w He Hf|seen mu a e r w He Hf Hcb]; intros Hsub.
  - split_and!; [constructor|set_solver|done| |done]. intros _ e [? H]. rewrite lookup_empty in H. done.
  - destruct IH as (I1 & I2 & I3 & I4 & I5).
    { intros e2 r2 [Hne H2]%lookup_delete_Some. cbn. rewrite lookup_insert_ne by done. auto. }
    assert (e ∉ ((λ c : pcall T, c.1.1.1) <$> calls)) as Hni.
    { intros ([[[e2 v2] an2] w2] & Ee & Hin)%elem_of_list_fmap. cbn in Ee. subst e2.
      destruct (I2 _ _ _ _ Hin) as [H _]. by rewrite lookup_delete in H. }
    split_and!.
    + cbn. by constructor.
    + intros e2 v2 an2 w2 [Heq|Hin]%elem_of_cons.
      * injection Heq as -> -> -> ->. split; [by rewrite He|].
        rewrite I3 by done. cbn. rewrite lookup_insert. by destruct w.
      * destruct (I2 _ _ _ _ Hin) as [H1 H2].
        assert (e ≠ e2) by (intros <-; by rewrite lookup_delete in H1).
        rewrite lookup_delete_ne in H1 by done. done.
    + cbn. intros e2 [Hne Hn]%not_elem_of_cons. rewrite I3 by done. cbn. by rewrite lookup_insert_ne.
    + intros -> e2 He2. cbn. rewrite elem_of_cons. destruct (decide (e2 = e)) as [->|Hne]; [by left|right].
      apply I4; [done|]. by rewrite lookup_delete_ne.
    + intros [|i] c; cbn; [intros [= <-]; done|]. intros Hc Ha.
      destruct (I5 _ _ Hc Ha) as [-> H]. cbn in *. by rewrite H.
  - destruct IH as (I1 & I2 & I3 & I4 & I5).
    { intros e2 r2 [Hne H2]%lookup_delete_Some. cbn. rewrite lookup_delete_ne by done. auto. }
    assert (e ∉ ((λ c : pcall T, c.1.1.1) <$> calls)) as Hni.
    { intros ([[[e2 v2] an2] w2] & Ee & Hin)%elem_of_list_fmap. cbn in Ee. subst e2.
      destruct (I2 _ _ _ _ Hin) as [H _]. by rewrite lookup_delete in H. }
    split_and!.
    + cbn. by constructor.
    + intros e2 v2 an2 w2 [Heq|Hin]%elem_of_cons.
      * injection Heq as -> -> -> ->. split; [by rewrite He|].
        rewrite I3 by done. cbn. by rewrite lookup_delete.
      * destruct (I2 _ _ _ _ Hin) as [H1 H2].
        assert (e ≠ e2) by (intros <-; by rewrite lookup_delete in H1).
        rewrite lookup_delete_ne in H1 by done. done.
    + cbn. intros e2 [Hne Hn]%not_elem_of_cons. rewrite I3 by done. cbn. by rewrite lookup_delete_ne.
    + intros -> e2 He2. cbn. rewrite elem_of_cons. destruct (decide (e2 = e)) as [->|Hne]; [by left|right].
      apply I4; [done|]. by rewrite lookup_delete_ne.
    + intros [|i] c; cbn; [intros [= <-]; done|]. intros Hc Ha.
      destruct (I5 _ _ Hc Ha) as [-> H]. cbn in *. by rewrite H.
  - split_and!.
    + cbn. apply NoDup_singleton.
    + intros e2 v2 an2 w2 Heq%elem_of_list_singleton. injection Heq as -> -> -> ->.
      split; [by rewrite He|]. cbn. rewrite lookup_insert. by destruct w.
    + cbn. intros e2 Hne%not_elem_of_cons. rewrite lookup_insert_ne; [done|]. intros ->. set_solver.
    + done.
    + intros [|i] c; cbn; done.
  - split_and!.
    + cbn. apply NoDup_singleton.
    + intros e2 v2 an2 w2 Heq%elem_of_list_singleton. injection Heq as -> -> -> ->.
      split; [by rewrite He|]. cbn. by rewrite lookup_delete.
    + cbn. intros e2 Hne%not_elem_of_cons. rewrite lookup_delete_ne; [done|]. intros ->. set_solver.
    + done.
    + intros [|i] c; cbn; [intros [= <-]; done|done].
Qed.

(** A retain, interrupted or not: each entity is shown to the closure at most once, with the component
    it had; what the closure decided for the entities it saw holds; the entities it never saw keep what
    they had; without a panic it saw every entity; a call that panicked was the last. *)
Theorem C65_retain_decided s s' f cb t calls boom :
  p_reaches s -> p_step s (PRetain f cb t) = Ok (s', PCalls calls boom) ->
  NoDup ((λ c : pcall T, c.1.1.1) <$> calls) ∧
  (∀ e v ans w, (e, v, ans, w) ∈ calls ->
     ss_get s e = Ok (Some v) ∧ ss_get s' e = Ok (after_call v ans w)) ∧
  (∀ e, gen e < U16_MAX -> e ∉ ((λ c : pcall T, c.1.1.1) <$> calls) -> ss_get s' e = ss_get s e) ∧
  (boom = false -> ∀ e, gen e < U16_MAX -> ss_contains s e = true ->
     e ∈ ((λ c : pcall T, c.1.1.1) <$> calls)) ∧
  (∀ i c, calls !! i = Some c -> c.1.2 = ABoom -> boom = true ∧ length calls = S i).
Proof.
  intros Hre E. destruct (p_reaches_SR s Hre) as [a HS].
  destruct (p_retain_SR s a f cb t HS) as (s2 & calls2 & boom2 & a' & E2 & Hr & HS').
  cbn [p_step] in E. rewrite E2 in E. cbn [rbind] in E. injection E as -> -> ->. 
  destruct (pr_run_calls _ _ _ _ _ _ _ _ _ Hr) as (I1 & I2 & I3 & I4 & I5); [done|].
  split_and!; [done| | | |done].
  - intros e v ans w Hin. destruct (I2 _ _ _ _ Hin) as [H1 H2].
    assert (gen e < U16_MAX).
    { destruct (sp_map a !! e) as [r|] eqn:Em; [|done].
      destruct (sr_dom s _ (sr_rows s a HS) _ _ Em) as [p Hp].
      by destruct (si_dense s (sr_inv s a HS) _ _ Hp) as [_ [_ ?]]. }
    rewrite (ss_get_SR s a), (ss_get_SR _ a') by done. by rewrite H1, H2.
  - intros e Hg Hn. rewrite (ss_get_SR s a), (ss_get_SR _ a') by done. by rewrite I3.
  - intros Hb e Hg Hc. rewrite (ss_contains_SR s a) in Hc by done. apply bool_decide_eq_true in Hc. auto.
Qed.
End props.

(** ** Concrete histories *)
Ltac p_concrete :=
  repeat match goal with
  | |- p_history _ [] => exact I
  | |- p_history ?s (?o :: ?ops) =>
      let r := eval vm_compute in (p_step s o) in
      match r with
      | Ok (?s1, ?ev1) =>
          let E := fresh "E" in
          assert (E : p_step s o = Ok (s1, ev1)) by (vm_compute; reflexivity);
          split; [cbn [p_allowed]; try done
                 |let s2 := fresh "s" in let ev2 := fresh "ev" in let H := fresh "H" in
                  intros s2 ev2 H; rewrite E in H; injection H as <- <-; clear E]
      end
  end.
Ltac p_fresh :=
  split; [done|]; intros [? ?]; cbn; intros -> ?;
  first [exfalso; lia | unfold ss_contains, sa_get; cbn; try done].

(** Three entities; the callback of an insertion panics, then one of a deletion, then the closure of a
    retain_mut on its second call after it wrote to the component. *)
Definition ex_panics : list (pop N) :=
  [ PDo (OInsert (4, 0) 10 1); PDo (OInsert (2, 0) 20 2); PDo (OInsert (7, 0) 30 3);
    PInsert (9, 0) 40 4; PInsert (2, 0) 21 5; PDelete (4, 0) 6; PDo (OInsert (4, 0) 11 7);
    PRetain (λ seen e v, if bool_decide (length seen = 0%nat) then (ADrop, None) else (ABoom, Some (v + 100)))
      (λ _ _, false) 8;
    PDo (OWrite (4, 0) (λ v, v + 1) 9) ].
Definition ex_panics_end : res (sset N * list (pevent N)) := p_run (ss_new true true true true) ex_panics.
Example ex_C65_storage : p_history (ss_new true true true true) ex_panics.
Proof. unfold ex_panics. p_concrete; p_fresh. Qed.
Example ex_C65_storage_end :
  match ex_panics_end with
  | Ok (s, evs) =>
      evs = [PEv (EInsert Inserted); PEv (EInsert Inserted); PEv (EInsert Inserted);
             PBoom; PBoom; PBoom; PEv (EInsert Inserted);
             PCalls [((7, 0), 30, ADrop, None); ((4, 0), 11, ABoom, Some 111)] true; PEv (EWrite true)] ∧
      zip (ss_dense s) (ss_data s) = [((4, 0), 112); ((2, 0), 20)] ∧
      ss_del s = [((7, 0), 8, 30)] ∧ ss_rem s = []
  | _ => False
  end.
Proof. vm_compute. split_and!; reflexivity. Qed.

(** With the tracking of deletions, a deletion is not always recorded. *)
Theorem C65_recorded_refuted :
  ¬ ∀ (s s' : sset N) (e : eid) (t : N), p_reaches s -> gen e < U16_MAX -> ss_td s = true ->
      ss_contains s e = true -> p_step s (PDelete e t) = Ok (s', PBoom) -> ss_contains s' e = false ->
      e ∈ ((λ x, x.1.1) <$> ss_del s').
Proof.
  intros H.
  destruct (p_run (ss_new false false true false) [PDo (OInsert (4, 0) 10 1)]) as [[s evs]| |] eqn:E;
    [|vm_compute in E; done..].
  destruct (p_step s (PDelete (4, 0) 2)) as [[s' ev]| |] eqn:E2;
    [|vm_compute in E; injection E as <- <-; vm_compute in E2; done..].
  assert (ev = PBoom) as ->.
  { vm_compute in E; injection E as <- <-; vm_compute in E2. by injection E2 as <- <-. }
  specialize (H s s' (4, 0) 2). feed specialize H; try done.
  - exists false, false, true, false, [PDo (OInsert (4, 0) 10 1)], evs. split; [|done].
    p_concrete; p_fresh.
  - vm_compute in E; injection E as <- <-. done.
  - vm_compute in E; injection E as <- <-. done.
  - vm_compute in E; injection E as <- <-. vm_compute in E2. by injection E2 as <-.
  - vm_compute in E; injection E as <- <-. vm_compute in E2. injection E2 as <-. cbn in H. set_solver.
Qed.

(** When the Drop of an older generation's component panics, the new component stays, under the
    handle of the old entity. *)
Theorem C65_drop_refuted :
  ¬ ∀ (s s' : sset N) (e x : eid) (v t : N), p_reaches s -> handle_ok e -> gen x < U16_MAX ->
      p_step s (PInsertDrop e v t) = Ok (s', PBoom) ->
      ss_get s' x = ss_get s x ∨ ss_get s' x = Ok None ∨ x = e.
Proof.
  intros H.
  destruct (p_run (ss_new false false true false) [PDo (OInsert (4, 0) 10 1)]) as [[s evs]| |] eqn:E;
    [|vm_compute in E; done..].
  destruct (p_step s (PInsertDrop (4, 1) 11 2)) as [[s' ev]| |] eqn:E2;
    [|vm_compute in E; injection E as <- <-; vm_compute in E2; done..].
  assert (ev = PBoom) as ->.
  { vm_compute in E; injection E as <- <-; vm_compute in E2. by injection E2 as <- <-. }
  destruct (H s s' (4, 1) (4, 0) 11 2) as [H1|[H1|H1]]; try done.
  - exists false, false, true, false, [PDo (OInsert (4, 0) 10 1)], evs. split; [|done].
    p_concrete; p_fresh.
  - vm_compute in E; injection E as <- <-. vm_compute in E2. injection E2 as <-. vm_compute in H1. done.
  - vm_compute in E; injection E as <- <-. vm_compute in E2. injection E2 as <-. vm_compute in H1. done.
Qed.

(** The hypotheses of the other theorems are met by the storage of the example. *)
Example ex_C65_others :
  match p_run (ss_new true true true true) (take 3 ex_panics) with
  | Ok (s, _) =>
      p_reaches s ∧
      (∃ s', p_step s (PInsert (9, 0) 40 4) = Ok (s', PBoom)) ∧
      (∃ s', p_step s (PDelete (4, 0) 6) = Ok (s', PBoom)) ∧
      (∃ s', p_step s (PRetain (λ seen e v, if bool_decide (length seen = 1%nat) then (ABoom, Some 5) else (ADrop, None))
                         (λ _ _, false) 8) =
             Ok (s', PCalls [((4, 0), 10, ADrop, None); ((7, 0), 30, ABoom, Some 5)] true) ∧
             ss_get s' (7, 0) = Ok (Some 5) ∧ ss_get s' (2, 0) = Ok (Some 20))
  | _ => False
  end.
Proof.
  destruct (p_run (ss_new true true true true) (take 3 ex_panics)) as [[s evs]| |] eqn:E; [|vm_compute in E; done..].
  split.
  { exists true, true, true, true, (take 3 ex_panics), evs. split; [|done]. unfold ex_panics. cbn [take]. p_concrete; p_fresh. }
  vm_compute in E. injection E as <- <-. split_and!.
  - eexists. vm_compute. reflexivity.
  - eexists. vm_compute. reflexivity.
  - eexists. vm_compute. split_and!; reflexivity.
Qed.

Print Assumptions C65_storage_survives.
Print Assumptions C65_insert_did_nothing.
Print Assumptions C65_removal_done.
Print Assumptions C65_retain_decided.
Print Assumptions C65_recorded_refuted.
Print Assumptions C65_drop_refuted.
