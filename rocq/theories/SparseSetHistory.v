(** Histories of storage operations: the model is run on a list of operations, and compared with
    functions that only look at the operations and their answers. *)
From stdpp Require Import prelude list gmap sorting.
From Coq Require Import NArith.
From Verif Require Import EntityId Base SparseSet SparseSetSpec SparseSetProofs SparseSetProofs2.
Open Scope N_scope.

Section hist.
Context {T : Type}.
Implicit Types (s : sset T) (a : sspec T).

(** * Running the model *)
(** One operation on the model (each branch is the function of SparseSet.v of the same name; the
    views of src/views/view_mut.rs:192-235, src/remove.rs:41-48, src/delete.rs:37-44 pass their
    timestamp). *)
Definition s_step s (o : sop T) : res (sset T * sevent T) :=
  match o with
  | OInsert e v t => rlet (s, r) := ss_insert s e v t in Ok (s, EInsert r)
  | ORemove e t => rlet (s, r) := dyn_remove s e t in Ok (s, ERemove r)
  | ODelete e t => rlet (s, r) := dyn_delete s e t in Ok (s, EDelete r)
  | OWrite e f t => rlet (s, r) := ss_write s e f t in Ok (s, EWrite r)
  | OClear t => rlet s := ss_clear s t in Ok (s, EUnit)
  | ODrain t => rlet (s, d) := ss_drain s t in
                rlet l := drain_all (length (dr_data d)) d in Ok (s, EDrain l)
  | ORetain f t => rlet (s, _) := ss_retain s (λ (_ : unit) e c, ((), f e c)) () t in Ok (s, EUnit)
  | OSort tr => rlet s := ss_sort s tr in Ok (s, EUnit)
  | OApply x y f t => rlet (s, _) := ss_apply s x y (λ u v, (f u v, ())) t in Ok (s, EUnit)
  | OApplyMut x y f t => rlet (s, _) := ss_apply_mut s x y (λ u v, (f u v, ())) t in Ok (s, EUnit)
  | OTrack ti tm td tr => Ok (enable_tracking s ti tm td tr, EUnit)
  | OClearInserted t => Ok (private_clear_all_inserted s t, EUnit)
  | OClearModified t => Ok (private_clear_all_modified s t, EUnit)
  | OClearDeleted => Ok (clear_all_deleted s, EUnit)
  | OClearRemoved => Ok (clear_all_removed s, EUnit)
  end.
Fixpoint s_run s (ops : list (sop T)) : res (sset T * list (sevent T)) :=
  match ops with
  | [] => Ok (s, [])
  | o :: ops =>
      rlet (s, ev) := s_step s o in
      rlet (s, evs) := s_run s ops in
      Ok (s, ev :: evs)
  end.

Lemma s_run_app s ops1 ops2 s1 evs1 :
  s_run s ops1 = Ok (s1, evs1) ->
  s_run s (ops1 ++ ops2) = rlet (s2, evs2) := s_run s1 ops2 in Ok (s2, evs1 ++ evs2).
Proof.
  revert s evs1. induction ops1 as [|o ops1 IH]; intros s evs1; cbn [s_run app].
  - intros [= -> <-]. by destruct (s_run s1 ops2) as [[? ?]| |].
  - destruct (s_step s o) as [[s' ev]| |]; cbn [rbind]; [|done..].
    destruct (s_run s' ops1) as [[s2 evs2]| |] eqn:E; cbn [rbind]; [|done..].
    intros [= -> <-]. rewrite (IH _ _ E). by destruct (s_run s1 ops2) as [[? ?]| |].
Qed.
Lemma s_run_length s ops s1 evs : s_run s ops = Ok (s1, evs) -> length evs = length ops.
Proof.
  revert s evs. induction ops as [|o ops IH]; intros s evs; cbn [s_run].
  - by intros [= -> <-].
  - destruct (s_step s o) as [[s' ev]| |]; cbn [rbind]; [|done..].
    destruct (s_run s' ops) as [[s2 evs2]| |] eqn:E; cbn [rbind]; [|done..].
    intros [= -> <-]. cbn. f_equal. by eapply IH.
Qed.

(** * What a history says *)
(** For every handle: the value it should read, the time of the insertion of that component and of
    the last write to it, computed from the operations and the answers alone. *)
Record hist := Hist {
  h_val : eid -> option T;
  h_ins : eid -> N;
  h_mod : eid -> N;
  h_ti : bool; h_tm : bool; h_td : bool; h_tr : bool;
}.
Definition h_init (ti tm td tr : bool) : hist := Hist (λ _, None) (λ _, 0) (λ _, 0) ti tm td tr.
Definition at_ {B} (f : eid -> B) (e : eid) (b : B) : eid -> B := λ x, if decide (x = e) then b else f x.
Definition h_upd (h : hist) v i m : hist := Hist v i m (h_ti h) (h_tm h) (h_td h) (h_tr h).
Definition h_write (h : hist) (e : eid) (v : T) (t : N) : hist :=
  h_upd h (at_ (h_val h) e (Some v)) (h_ins h) (at_ (h_mod h) e t).
Definition h_step (h : hist) (x : sop T * sevent T) : hist :=
  match x with
  | (OInsert e v t, EInsert Inserted) =>
      h_upd h (at_ (h_val h) e (Some v)) (at_ (h_ins h) e t) (at_ (h_mod h) e 0)
  | (OInsert e v t, EInsert (ComponentOverride _)) => h_write h e v t
  | (ORemove e _, _) | (ODelete e _, _) =>
      (* a handle also takes out what an older generation of the same index left *)
      h_upd h (λ x, if decide (idx x = idx e ∧ gen x <= gen e) then None else h_val h x)
        (h_ins h) (h_mod h)
  | (OWrite e f t, _) =>
      match h_val h e with Some v => h_write h e (f v) t | None => h end
  | (OClear _, _) | (ODrain _, _) => h_upd h (λ _, None) (h_ins h) (h_mod h)
  | (ORetain f _, _) =>
      h_upd h (λ e, match h_val h e with
                    | Some v => if f e v then Some v else None | None => None end)
        (h_ins h) (h_mod h)
  | (OApply x y f t, _) =>
      match h_val h x, h_val h y with
      | Some u, Some v => h_write h x (f u v) t
      | _, _ => h
      end
  | (OApplyMut x y f t, _) =>
      match h_val h x, h_val h y with
      | Some u, Some v => h_write (h_write h x (f u v).1 t) y (f u v).2 t
      | _, _ => h
      end
  | (OTrack ti tm td tr, _) =>
      Hist (h_val h) (λ e, if ti && negb (h_ti h) then 0 else h_ins h e)
        (λ e, if tm && negb (h_tm h) then 0 else h_mod h e)
        (h_ti h || ti) (h_tm h || tm) (h_td h || td) (h_tr h || tr)
  | _ => h
  end.
Definition hist_of (h : hist) (l : list (sop T * sevent T)) : hist := foldl h_step h l.

(** The handles that own a component. *)
Definition h_lists (h : hist) (l : list (eid * T)) : Prop :=
  NoDup l.*1 ∧ ∀ e v, (e, v) ∈ l <-> h_val h e = Some v.

(** Operations the theorems are about. *)
Definition h_allowed (h : hist) (o : sop T) : Prop :=
  match o with
  | OInsert e _ _ =>
      handle_ok e ∧ ∀ e', idx e' = idx e -> gen e' < gen e -> h_val h e' = None
  | ORemove e _ | ODelete e _ | OWrite e _ _ => gen e < U16_MAX
  | OSort order => ∀ l, h_lists h l -> order ≡ₚ (N.of_nat <$> seq 0 (length l))
  | OApply x y _ _ | OApplyMut x y _ _ =>
      x ≠ y ∧ is_Some (h_val h x) ∧ is_Some (h_val h y)
  | _ => True
  end.
Definition allowed_history s (h : hist) (ops : list (sop T)) : Prop :=
  ∀ pre o post s1 evs1, ops = pre ++ o :: post -> s_run s pre = Ok (s1, evs1) ->
    h_allowed (hist_of h (zip pre evs1)) o.

(** What the operation must answer. *)
Definition answer_ok (h : hist) (o : sop T) (ev : sevent T) : Prop :=
  match o with
  | OInsert e _ _ =>
      match h_val h e with
      | Some v => ev = EInsert (ComponentOverride v)
      | None => (ev = EInsert Inserted ∧ ∀ e', idx e' = idx e -> h_val h e' = None) ∨
                (ev = EInsert NotInserted ∧
                 ∃ e', idx e' = idx e ∧ gen e < gen e' ∧ is_Some (h_val h e'))
      end
  | ORemove e _ => ev = ERemove (h_val h e)
  | ODelete e _ => ev = EDelete (bool_decide (is_Some (h_val h e)))
  | OWrite e _ _ => ev = EWrite (bool_decide (is_Some (h_val h e)))
  | ODrain _ => ∃ l, ev = EDrain l ∧ h_lists h l
  | _ => ev = EUnit
  end.

(** How the logs must change. *)
Definition del_log_ok (h : hist) (o : sop T) (old new : list (eid * N * T)) : Prop :=
  match o with
  | ODelete e t =>
      new = match h_val h e with
            | Some v => if h_td h then old ++ [(e, t, v)] else old | None => old end
  | OClear t => ∃ l, h_lists h l ∧ new = if h_td h then old ++ ((λ x, (x.1, t, x.2)) <$> l) else old
  | ORetain f t =>
      ∃ l, NoDup l.*1 ∧ (∀ e v, (e, v) ∈ l <-> h_val h e = Some v ∧ f e v = false) ∧
           new = if h_td h then old ++ ((λ x, (x.1, t, x.2)) <$> l) else old
  | OClearDeleted => new = []
  | _ => new = old
  end.
Definition rem_log_ok (h : hist) (o : sop T) (old new : list (eid * N)) : Prop :=
  match o with
  | ORemove e t =>
      new = match h_val h e with
            | Some v => if h_tr h then old ++ [(e, t)] else old | None => old end
  | ODrain t => ∃ l, h_lists h l ∧ new = if h_tr h then old ++ ((λ x, (x.1, t)) <$> l) else old
  | OClearRemoved => new = []
  | _ => new = old
  end.

(** * Link with the specification *)
Record HR (h : hist) a : Prop := {
  hr_val : ∀ e, h_val h e = r_val <$> sp_map a !! e;
  hr_ins : ∀ e r, sp_map a !! e = Some r -> h_ins h e = r_ins r;
  hr_mod : ∀ e r, sp_map a !! e = Some r -> h_mod h e = r_mod r;
  hr_ti : h_ti h = sp_ti a; hr_tm : h_tm h = sp_tm a;
  hr_td : h_td h = sp_td a; hr_tr : h_tr h = sp_tr a;
  hr_one : ∀ e e', is_Some (sp_map a !! e) -> is_Some (sp_map a !! e') -> idx e = idx e' -> e = e';
}.

Lemma HR_init ti tm td tr : HR (h_init ti tm td tr) (sp_init ti tm td tr).
Proof.
  split; cbn [h_init h_val h_ins h_mod h_ti h_tm h_td h_tr sp_init sp_map sp_ti sp_tm sp_td sp_tr];
    try done; intros e.
  intros e' [r H]. exfalso. by rewrite lookup_empty in H.
Qed.
Lemma HR_lists h a l : HR h a -> l ≡ₚ vals (sp_map a) -> h_lists h l.
Proof.
  intros HH Hl. split.
  - rewrite Hl. apply vals_NoDup_fst.
  - intros e v. rewrite Hl, vals_elem, (hr_val h a HH). destruct (sp_map a !! e) as [r|]; cbn; naive_solver.
Qed.
Lemma h_lists_perm h l l' : h_lists h l -> h_lists h l' -> l ≡ₚ l'.
Proof.
  intros [N1 E1] [N2 E2]. apply NoDup_Permutation.
  - by eapply NoDup_fmap_1.
  - by eapply NoDup_fmap_1.
  - intros [e v]. by rewrite E1, E2.
Qed.
Lemma SR_one s a e e' :
  SR s a -> is_Some (sp_map a !! e) -> is_Some (sp_map a !! e') -> idx e = idx e' -> e = e'.
Proof.
  intros H [r Hr] [r' Hr'] Hi.
  destruct (sr_dom s _ (sr_rows s a H) _ _ Hr) as [p Hp].
  destruct (sr_dom s _ (sr_rows s a H) _ _ Hr') as [p' Hp'].
  assert (p = p') as <- by exact (si_inj s _ _ _ _ (sr_inv s a H) Hp Hp' Hi). congruence.
Qed.

Lemma h_none_iff h a e : HR h a -> h_val h e = None <-> sp_map a !! e = None.
Proof. intros H. rewrite (hr_val h a H). by destruct (sp_map a !! e). Qed.
Lemma h_some_iff h a e : HR h a -> is_Some (h_val h e) <-> is_Some (sp_map a !! e).
Proof. intros H. rewrite (hr_val h a H). by rewrite fmap_is_Some. Qed.

Ltac at_tac := unfold at_; repeat (rewrite decide_True by done || rewrite decide_False by done).

(** Rewriting one row. *)
Lemma HR_row h h' a e r :
  HR h a ->
  (∀ x, h_val h' x = if decide (x = e) then Some (r_val r) else h_val h x) ->
  (∀ x, h_ins h' x = if decide (x = e) then r_ins r else h_ins h x) ->
  (∀ x, h_mod h' x = if decide (x = e) then r_mod r else h_mod h x) ->
  h_ti h' = h_ti h -> h_tm h' = h_tm h -> h_td h' = h_td h -> h_tr h' = h_tr h ->
  (is_Some (sp_map a !! e) ∨ index_free (sp_map a) e) ->
  HR h' (upd_map a (<[e := r]> (sp_map a))).
Proof.
  intros [H1 H2 H3 H4 H5 H6 H7 H8] E1 E2 E3 E4 E5 E6 E7 Hf. split; cbn; try congruence.
  - intros x. rewrite E1, H1. destruct (decide (x = e)) as [->|Hn].
    + by rewrite lookup_insert.
    + by rewrite lookup_insert_ne.
  - intros x rx. rewrite E2. destruct (decide (x = e)) as [->|Hn].
    + rewrite lookup_insert. by intros [= <-].
    + rewrite lookup_insert_ne by done. apply H2.
  - intros x rx. rewrite E3. destruct (decide (x = e)) as [->|Hn].
    + rewrite lookup_insert. by intros [= <-].
    + rewrite lookup_insert_ne by done. apply H3.
  - intros x y. rewrite !lookup_insert_is_Some. intros Hx Hy Hxy.
    destruct (decide (x = e)) as [->|Hnx], (decide (y = e)) as [->|Hny]; try done.
    + destruct Hy as [?|[_ Hy]]; [done|]. destruct Hf as [Hf|Hf]; [by apply H8|].
      rewrite Hf in Hy by done. by apply is_Some_None in Hy.
    + destruct Hx as [?|[_ Hx]]; [done|]. destruct Hf as [Hf|Hf]; [by apply H8|].
      rewrite Hf in Hx by done. by apply is_Some_None in Hx.
    + apply H8; naive_solver.
Qed.
(** Dropping rows. *)
Lemma HR_drop h h' a m dl rl :
  HR h a ->
  (∀ x, h_val h' x = r_val <$> m !! x) -> m ⊆ sp_map a ->
  (∀ x, h_ins h' x = h_ins h x) -> (∀ x, h_mod h' x = h_mod h x) ->
  h_ti h' = h_ti h -> h_tm h' = h_tm h -> h_td h' = h_td h -> h_tr h' = h_tr h ->
  HR h' (upd a m dl rl).
Proof.
  intros [H1 H2 H3 H4 H5 H6 H7 H8] E1 Hm E2 E3 E4 E5 E6 E7. split; cbn; try congruence.
  - intros e r Hr. rewrite E2. apply H2. by eapply lookup_weaken.
  - intros e r Hr. rewrite E3. apply H3. by eapply lookup_weaken.
  - intros x y [rx Hx] [ry Hy]. apply H8; eexists; by eapply lookup_weaken.
Qed.

Lemma HR_delete h a e e0 dl rl :
  HR h a -> is_Some (sp_map a !! e0) -> idx e0 = idx e -> gen e0 <= gen e ->
  HR (h_upd h (λ x, if decide (idx x = idx e ∧ gen x <= gen e) then None else h_val h x)
        (h_ins h) (h_mod h))
     (upd a (delete e0 (sp_map a)) dl rl).
Proof.
  intros HH He0 Hi Hg. eapply HR_drop; try done.
  - intros x. cbn. destruct (decide (x = e0)) as [->|Hn].
    + rewrite lookup_delete. by rewrite decide_True.
    + rewrite lookup_delete_ne by done. destruct (decide _) as [[Hx _]|]; [|apply HH].
      destruct (sp_map a !! x) as [r|] eqn:E; [|done]. exfalso. apply Hn.
      apply (hr_one h a HH); [eauto|done|congruence].
  - apply delete_subseteq.
Qed.
Lemma HR_no_delete h a e :
  HR h a -> sp_map a !! e = None -> no_older (sp_map a) e ->
  HR (h_upd h (λ x, if decide (idx x = idx e ∧ gen x <= gen e) then None else h_val h x)
        (h_ins h) (h_mod h)) a.
Proof.
  intros HH Hn Hno. destruct HH as [H1 H2 H3 H4 H5 H6 H7 H8]. split; cbn; try done.
  intros x. destruct (decide _) as [[Hx Hg]|]; [|done].
  by rewrite (none_below _ _ Hn Hno).
Qed.

Ltac row_tac H2 :=
  eapply HR_row; try done; cbn;
  try (let z := fresh in intros z; case_decide; [subst; by apply H2|done]);
  try (left; by eexists); try (by right).
Lemma HR_step h a o a' ev : HR h a -> sp_step a o a' ev -> HR (h_step h (o, ev)) a'.
Proof.
  intros HH Hst. pose proof HH as [H1 H2 H3 H4 H5 H6 H7 H8].
  destruct Hst as [e v t Hf|e v t r Hr|e e' v t Hi Hg He|e t r Hr|e t Hn Hno|e e' t Hi Hg He
    |e t r Hr|e t Hn Hno|e e' t Hi Hg He|e f t r Hr|e f t Hn|t l Hl|t l Hl|f t l Hl|order
    |x y f t rx ry Hne Hx Hy|x y f t rx ry Hne Hx Hy|ti tm td tr|t|t| |]; cbn [h_step].
  - row_tac H2.
  - row_tac H2.
  - done.
  - eapply HR_delete; done.
  - by apply HR_no_delete.
  - eapply (HR_delete h a e e'); try done; lia.
  - eapply HR_delete; done.
  - by apply HR_no_delete.
  - eapply (HR_delete h a e e'); try done; lia.
  - rewrite H1, Hr. cbn. row_tac H2.
  - by rewrite H1, Hn.
  - eapply HR_drop; try done; cbn; apply map_empty_subseteq.
  - eapply HR_drop; try done; cbn; apply map_empty_subseteq.
  - eapply HR_drop; try done; cbn; [|apply map_filter_subseteq].
    intros x. rewrite H1, map_filter_lookup. destruct (sp_map a !! x) as [r|]; [|done]. cbn.
    destruct (f x (r_val r)) eqn:E; [by rewrite option_guard_True|by rewrite option_guard_False by congruence].
  - done.
  - rewrite !H1, Hx, Hy. cbn. row_tac H2.
  - rewrite !H1, Hx, Hy. cbn.
    assert (HR (h_write h x (f (r_val rx) (r_val ry)).1 t)
              (upd_map a (<[x := Row (f (r_val rx) (r_val ry)).1 (r_ins rx) t]> (sp_map a)))) as HH1
      by row_tac H2.
    eapply (HR_row _ _ _ y (Row (f (r_val rx) (r_val ry)).2 (r_ins ry) t) HH1); try done; cbn.
    + intros z. case_decide; [subst; by apply H2|done].
    + left. rewrite lookup_insert_ne by done. by eexists.
  - split; cbn; try congruence.
    + intros e. rewrite lookup_fmap, H1. by destruct (sp_map a !! e).
    + intros e r. rewrite lookup_fmap. destruct (sp_map a !! e) as [r'|] eqn:E; [|done]. cbn.
      intros [= <-]. cbn. rewrite H4. by rewrite (H2 _ _ E).
    + intros e r. rewrite lookup_fmap. destruct (sp_map a !! e) as [r'|] eqn:E; [|done]. cbn.
      intros [= <-]. cbn. rewrite H5. by rewrite (H3 _ _ E).
    + intros e e'. rewrite !lookup_fmap, !fmap_is_Some. apply H8.
  - split; done.
  - split; done.
  - split; done.
  - split; done.
Qed.

Lemma answer_step h a o a' ev : HR h a -> sp_step a o a' ev -> answer_ok h o ev.
Proof.
  intros HH Hst. destruct Hst; cbn [answer_ok]; rewrite ?(hr_val h a HH); try done.
  - rewrite (H e) by done. cbn. left. split; [done|]. intros e' He'.
    by rewrite (hr_val h a HH), H.
  - by rewrite H.
  - destruct (sp_map a !! e) as [r|] eqn:E; cbn.
    + exfalso. assert (e = e') as -> by (apply (hr_one h a HH); [by eexists|done|done]). lia.
    + right. split; [done|]. exists e'. split; [done|]. split; [done|]. by apply (h_some_iff h a).
  - by rewrite H.
  - by rewrite H.
  - destruct (sp_map a !! e) as [r|] eqn:E; [|done].
    exfalso. assert (e = e') as -> by (apply (hr_one h a HH); [by eexists|done|done]). lia.
  - by rewrite H.
  - by rewrite H.
  - destruct (sp_map a !! e) as [r|] eqn:E; [|done].
    exfalso. assert (e = e') as -> by (apply (hr_one h a HH); [by eexists|done|done]). lia.
  - by rewrite H.
  - by rewrite H.
  - exists l. split; [done|]. by eapply HR_lists.
Qed.
Lemma logs_step h a o a' ev :
  HR h a -> sp_step a o a' ev ->
  del_log_ok h o (sp_del a) (sp_del a') ∧ rem_log_ok h o (sp_rem a) (sp_rem a').
Proof.
  intros HH Hst. destruct Hst; cbn; rewrite ?(hr_val h a HH), ?(hr_td h a HH), ?(hr_tr h a HH); try done.
  - by rewrite H.
  - by rewrite H.
  - destruct (sp_map a !! e) as [r|] eqn:E; [|done].
    exfalso. assert (e = e') as -> by (apply (hr_one h a HH); [by eexists|done|done]). lia.
  - by rewrite H.
  - by rewrite H.
  - destruct (sp_map a !! e) as [r|] eqn:E; [|done].
    exfalso. assert (e = e') as -> by (apply (hr_one h a HH); [by eexists|done|done]). lia.
  - split; [|done]. exists l. split; [by eapply HR_lists|done].
  - split; [done|]. exists l. split; [by eapply HR_lists|done].
  - split; [|done]. exists dropped. split; [rewrite H; apply vals_NoDup_fst|]. split; [|done].
    intros e v. rewrite H, vals_elem, (hr_val h a HH).
    split.
    + intros (r & Hr & <-). apply map_filter_lookup_Some in Hr as [-> Hf]. done.
    + destruct (sp_map a !! e) as [r|] eqn:E; cbn; [|naive_solver]. intros [[= <-] Hf].
      exists r. split; [|done]. by apply map_filter_lookup_Some.
Qed.

(** * Simulation *)
Lemma allowed_of h a o s :
  SR s a -> HR h a -> h_allowed h o -> op_allowed (lenN (ss_dense s)) (sp_map a) o.
Proof.
  intros HS HH.
  assert (∀ e, is_Some (h_val h e) -> is_Some (sp_map a !! e) ∧ gen e < U16_MAX) as Hg.
  { intros e He. apply (h_some_iff h a e HH) in He. split; [done|]. destruct He as [r Hr].
    destruct (sr_dom s _ (sr_rows s a HS) _ _ Hr) as [p Hp].
    by destruct (si_dense s (sr_inv s a HS) _ _ Hp) as [_ [_ ?]]. }
  destruct o; cbn; try done.
  - intros [Hok Hno]. split; [done|]. intros e' Hi Hge. apply (h_none_iff h a); auto.
  - intros Hperm.
    assert (h_lists h (zip (ss_dense s) (ss_data s))) as HL.
    { eapply HR_lists; [done|]. apply rows_vals; apply HS. }
    specialize (Hperm _ HL).
    rewrite zip_with_length_l in Hperm
      by (pose proof (si_data s (sr_inv s a HS)); unfold lenN in *; lia).
    unfold lenN. by rewrite Nat2N.id.
  - intros (? & [? ?]%Hg & [? ?]%Hg). done.
  - intros (? & [? ?]%Hg & [? ?]%Hg). done.
Qed.

Lemma s_step_ok s h a o :
  SR s a -> HR h a -> h_allowed h o ->
  ∃ s' ev a', s_step s o = Ok (s', ev) ∧ sp_step a o a' ev ∧ SR s' a' ∧ HR (h_step h (o, ev)) a'.
Proof.
  intros HS HH Hal.
  assert (∃ s' ev a', s_step s o = Ok (s', ev) ∧ sp_step a o a' ev ∧ SR s' a') as
    (s' & ev & a' & E1 & E2 & E3).
  2:{ exists s', ev, a'. split; [done|]. split; [done|]. split; [done|]. by eapply HR_step. }
  pose proof (allowed_of h a o s HS HH Hal) as Hal'.
  destruct o; cbn [s_step]; cbn in Hal, Hal'.
  - destruct Hal' as [Hok Hno].
    destruct (ss_insert_SR s a e v t HS Hok Hno) as (s' & r & a' & -> & ? & ?). eauto 8.
  - destruct (dyn_remove_SR s a e t HS Hal) as (s' & r & a' & -> & ? & ?). eauto 8.
  - destruct (dyn_delete_SR s a e t HS Hal) as (s' & r & a' & -> & ? & ?). eauto 8.
  - destruct (ss_write_SR s a e f t HS Hal) as (s' & r & a' & -> & ? & ?). eauto 8.
  - destruct (ss_clear_SR s a t HS) as (s' & a' & -> & ? & ?). eauto 8.
  - destruct (ss_drain_SR s a t HS) as (s' & d & -> & E & _ & a' & ? & ?). cbn [rbind].
    rewrite E. eauto 8.
  - destruct (ss_retain_pure_SR s a f t HS) as (s' & a' & -> & ? & ?). eauto 8.
  - destruct (ss_sort_SR s a order HS Hal') as (s' & -> & ?). eexists _, _, _. split; [done|].
    split; [constructor|done].
  - destruct Hal' as (_ & _ & Hne & Hx & Hy).
    destruct (ss_apply_SR s a a0 b f t HS Hne Hx Hy) as (s' & a' & -> & ? & ?). eauto 8.
  - destruct Hal' as (_ & _ & Hne & Hx & Hy).
    destruct (ss_apply_mut_SR s a a0 b f t HS Hne Hx Hy) as (s' & a' & -> & ? & ?). eauto 8.
  - destruct (enable_tracking_SR s a ti tm td tr HS) as (a' & ? & ?). eauto 8.
  - eexists _, _, _. split; [done|]. split; [constructor|].
    unfold private_clear_all_inserted. rewrite (sr_lm _ _ HS). by apply SR_with_last.
  - eexists _, _, _. split; [done|]. split; [constructor|].
    unfold private_clear_all_modified. rewrite (sr_li _ _ HS). by apply SR_with_last.
  - eexists _, _, _. split; [done|]. split; [constructor|].
    unfold clear_all_deleted. rewrite (sr_rem _ _ HS). by apply SR_with_logs.
  - eexists _, _, _. split; [done|]. split; [constructor|].
    unfold clear_all_removed. rewrite (sr_del _ _ HS). by apply SR_with_logs.
Qed.

Lemma allowed_cons s h o ops :
  allowed_history s h (o :: ops) ->
  h_allowed h o ∧
  ∀ s' ev, s_step s o = Ok (s', ev) -> allowed_history s' (h_step h (o, ev)) ops.
Proof.
  intros H. split.
  - exact (H [] o ops s [] eq_refl eq_refl).
  - intros s' ev Hst pre o' post s1 evs1 -> Hrun.
    apply (H (o :: pre) o' post s1 (ev :: evs1)); [done|].
    cbn [s_run]. rewrite Hst. cbn [rbind]. by rewrite Hrun.
Qed.
Lemma allowed_nil s h : allowed_history s h [].
Proof. intros pre o post s1 evs1 Heq. by destruct pre. Qed.
Lemma allowed_cons_intro s h o ops s' ev :
  h_allowed h o -> s_step s o = Ok (s', ev) -> allowed_history s' (h_step h (o, ev)) ops ->
  allowed_history s h (o :: ops).
Proof.
  intros Ho Hst Hal pre o' post s1 evs1 Heq Hrun. destruct pre as [|o1 pre].
  - cbn in Heq, Hrun. injection Heq as -> ->. injection Hrun as -> <-. done.
  - cbn in Heq. injection Heq as <- ->. cbn [s_run] in Hrun. rewrite Hst in Hrun. cbn [rbind] in Hrun.
    destruct (s_run s' pre) as [[s2 evs2]| |] eqn:E; cbn [rbind] in Hrun; try done.
    injection Hrun as -> <-. cbn. eapply (Hal pre o' post); done.
Qed.
Lemma s_run_ok ops : ∀ s h a,
  SR s a -> HR h a -> allowed_history s h ops ->
  ∃ s' evs a', s_run s ops = Ok (s', evs) ∧ SR s' a' ∧ HR (hist_of h (zip ops evs)) a'.
Proof.
  induction ops as [|o ops IH]; intros s h a HS HH Hal.
  - exists s, [], a. done.
  - destruct (allowed_cons _ _ _ _ Hal) as [Ho Hrest].
    destruct (s_step_ok s h a o HS HH Ho) as (s1 & ev & a1 & E1 & _ & HS1 & HH1).
    destruct (IH s1 (h_step h (o, ev)) a1 HS1 HH1 (Hrest _ _ E1)) as (s' & evs & a' & E & HS' & HH').
    exists s', (ev :: evs), a'. cbn [s_run]. rewrite E1. cbn [rbind]. rewrite E. done.
Qed.

(** Storages reached from an empty one. *)
Definition reaches (ti tm td tr : bool) (ops : list (sop T)) s (h : hist) : Prop :=
  allowed_history (ss_new ti tm td tr) (h_init ti tm td tr) ops ∧
  ∃ evs, s_run (ss_new ti tm td tr) ops = Ok (s, evs) ∧
         h = hist_of (h_init ti tm td tr) (zip ops evs).
Lemma reaches_SR ti tm td tr ops s h :
  reaches ti tm td tr ops s h -> ∃ a, SR s a ∧ HR h a.
Proof.
  intros (Hal & evs & E & ->).
  destruct (s_run_ok ops _ _ _ (ss_new_SR ti tm td tr) (HR_init ti tm td tr) Hal)
    as (s' & evs' & a & E' & HS & HH).
  rewrite E in E'. injection E' as <- <-. eauto.
Qed.
Lemma reaches_intro ti tm td tr ops s evs :
  allowed_history (ss_new ti tm td tr) (h_init ti tm td tr) ops ->
  s_run (ss_new ti tm td tr) ops = Ok (s, evs) ->
  reaches ti tm td tr ops s (hist_of (h_init ti tm td tr) (zip ops evs)).
Proof. intros H1 H2. split; [done|]. by exists evs. Qed.
(** Allowed histories never panic and never reach undefined behaviour. *)
Lemma reaches_exists ti tm td tr ops :
  allowed_history (ss_new ti tm td tr) (h_init ti tm td tr) ops ->
  ∃ s h, reaches ti tm td tr ops s h.
Proof.
  intros Hal.
  destruct (s_run_ok ops _ _ _ (ss_new_SR ti tm td tr) (HR_init ti tm td tr) Hal)
    as (s' & evs' & a & E' & HS & HH).
  eexists _, _. split; [done|]. eauto.
Qed.
Lemma reaches_step ti tm td tr ops s h o :
  reaches ti tm td tr ops s h -> h_allowed h o ->
  ∃ s' ev, s_step s o = Ok (s', ev) ∧ reaches ti tm td tr (ops ++ [o]) s' (h_step h (o, ev)).
Proof.
  intros HRe Ho. destruct (reaches_SR _ _ _ _ _ _ _ HRe) as (a & HS & HH).
  destruct (s_step_ok s h a o HS HH Ho) as (s' & ev & a' & E1 & E2 & HS' & HH').
  exists s', ev. split; [done|]. destruct HRe as (Hal & evs & E & ->). split.
  - intros pre o' post s1 evs1 Heq Hrun.
    destruct (decide (post = [])) as [->|Hpost].
    + apply app_inj_tail in Heq as [-> ->]. rewrite E in Hrun. by injection Hrun as -> ->.
    + destruct (exists_last Hpost) as (post' & o2 & ->).
      rewrite app_comm_cons, app_assoc in Heq. apply app_inj_tail in Heq as [-> ->].
      by eapply (Hal pre o' post').
  - exists (evs ++ [ev]). split.
    + rewrite (s_run_app _ _ _ _ _ E). cbn [s_run]. rewrite E1. done.
    + rewrite zip_with_app by (symmetry; by eapply s_run_length). unfold hist_of.
      by rewrite foldl_app.
Qed.
End hist.
Arguments hist : clear implicits.
