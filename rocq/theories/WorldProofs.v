(** The world model refines the table of WorldSpec.v: building blocks. *)
From stdpp Require Import prelude list gmap.
From Coq Require Import NArith Lia.
From Verif Require Import EntityId EntityIdProofs Base Entities EntitiesSpec EntitiesProofs EntitiesHistory.
From Verif Require Import SparseSet Track SparseSetSpec SparseSetProofs SparseSetProofs2 SparseSetHistory.
From Verif Require Import World WorldSpec.
Open Scope N_scope.

(** * One storage, seen as a function from handles to cells *)
Section store.
Context {V : Type} {k : tracking} {li lm : N}.
Implicit Types (s : sset V) (c : eid -> option (row V)).

(** What does not change from one operation to the next: the tracking flags and the times of the
    last clear_all_inserted and clear_all_modified. *)
Definition sflags (a : sspec V) : bool * bool * bool * bool * N * N :=
  (sp_ti a, sp_tm a, sp_td a, sp_tr a, sp_last_ins a, sp_last_mod a).
Definition kflags (k : tracking) (li lm : N) : bool * bool * bool * bool * N * N :=
  (k_track_insertion k, k_track_modification k, k_track_deletion k, k_track_removal k, li, lm).

Definition store_rel s c : Prop := ∃ a, SR s a ∧ sflags a = kflags k li lm ∧ ∀ e, sp_map a !! e = c e.

Lemma store_rel_ext s c c' : store_rel s c -> (∀ e, c e = c' e) -> store_rel s c'.
Proof. intros (a & H & Hk & Hc) E. exists a. split_and!; [done..|]. intros e. by rewrite <- E. Qed.

Lemma store_rel_new_inv c : store_rel (ss_new_for k) c -> ∀ e, c e = None.
Proof.
  intros (a & H & _ & Hc) e. rewrite <- Hc. destruct (sp_map a !! e) as [r|] eqn:E; [|done].
  destruct (sr_dom _ _ (sr_rows _ _ H) _ _ E) as [p Hp]. cbn in Hp. by rewrite (@getN_nil eid) in Hp.
Qed.

Lemma at_same {B} (f : eid -> B) e b : at_ f e b e = b.
Proof. unfold at_. by rewrite decide_True. Qed.
Lemma at_other {B} (f : eid -> B) e b e' : e' ≠ e -> at_ f e b e' = f e'.
Proof. intros H. unfold at_. by rewrite decide_False. Qed.

Lemma lookup_upd_at (m : gmap eid (row V)) c e r :
  (∀ x, m !! x = c x) -> ∀ x, <[e := r]> m !! x = at_ c e (Some r) x.
Proof.
  intros H x. destruct (decide (x = e)) as [->|].
  - by rewrite lookup_insert, at_same.
  - by rewrite lookup_insert_ne, at_other.
Qed.
Lemma lookup_del_at (m : gmap eid (row V)) c e :
  (∀ x, m !! x = c x) -> ∀ x, delete e m !! x = at_ c e None x.
Proof.
  intros H x. destruct (decide (x = e)) as [->|].
  - by rewrite lookup_delete, at_same.
  - by rewrite lookup_delete_ne, at_other.
Qed.

Lemma store_insert s c e v t :
  store_rel s c -> handle_ok e -> (∀ e', idx e' = idx e -> e' ≠ e -> c e' = None) ->
  ∃ s' r, ss_insert s e v t = Ok (s', r) ∧ was_inserted r = true ∧
    store_rel s' (at_ c e (Some (match c e with Some o => Row v (r_ins o) t | None => Row v t 0 end))).
Proof.
  intros (a & H & Hk & Hc) Hok Hfree.
  destruct (ss_insert_SR s a e v t H Hok) as (s' & r & a' & E & St & H').
  { intros e' Hi Hg. rewrite Hc. apply Hfree; [done|]. intros ->. lia. }
  exists s', r. split; [done|]. inversion St as [? ? ? Hif|? ? ? r0 Hr0|? e' ? ? Hi Hg Hs| | | | | | | | | | | | | | | | | | | ]; subst.
  - split; [done|]. exists (upd_map a (<[e := Row v t 0]> (sp_map a))). split_and!; [done..|].
    rewrite <- (Hc e), (Hif e eq_refl). by apply lookup_upd_at.
  - split; [done|]. eexists. split_and!; [done..|]. rewrite <- (Hc e), Hr0. by apply lookup_upd_at.
  - exfalso. rewrite Hc, Hfree in Hs; [by destruct Hs|done|]. intros ->. lia.
Qed.

Definition none_older c (e : eid) : Prop := ∀ e', idx e' = idx e -> gen e' < gen e -> c e' = None.

Lemma at_none c e : c e = None -> ∀ x, c x = at_ c e None x.
Proof. intros H x. unfold at_. case_decide; by subst. Qed.

Lemma store_remove s c e t :
  store_rel s c -> gen e < U16_MAX -> none_older c e ->
  ∃ s', dyn_remove s e t = Ok (s', r_val <$> c e) ∧ store_rel s' (at_ c e None).
Proof.
  intros (a & H & Hk & Hc) Hg Hno.
  destruct (dyn_remove_SR s a e t H Hg) as (s' & r & a' & E & St & H').
  exists s'. inversion St as [ | | |? ? r0 Hr0|? ? Hn ?|? e' ? Hi Hlt [x Hs]| | | | | | | | | | | | | | | | ]; subst.
  - rewrite <- (Hc e), Hr0. split; [done|]. eexists. split_and!; [done..|]. by apply lookup_del_at.
  - rewrite <- (Hc e), Hn. split; [done|]. eexists. split_and!; [done..|].
    intros x. rewrite Hc. apply at_none. by rewrite <- Hc.
  - exfalso. rewrite Hc, Hno in Hs; done.
Qed.

Lemma store_dyn_delete s c e t :
  store_rel s c -> gen e < U16_MAX -> none_older c e ->
  ∃ s', dyn_delete s e t = Ok (s', bool_decide (is_Some (c e))) ∧ store_rel s' (at_ c e None).
Proof.
  intros (a & H & Hk & Hc) Hg Hno.
  destruct (dyn_delete_SR s a e t H Hg) as (s' & r & a' & E & St & H').
  exists s'. inversion St as [ | | | | | |? ? r0 Hr0|? ? Hn ?|? e' ? Hi Hlt [x Hs]| | | | | | | | | | | | | ]; subst.
  - rewrite <- (Hc e), Hr0, bool_decide_eq_true_2 by (by eexists).
    split; [done|]. eexists. split_and!; [done..|]. by apply lookup_del_at.
  - rewrite <- (Hc e), Hn, bool_decide_eq_false_2 by (by intros []).
    split; [done|]. eexists. split_and!; [done..|].
    intros x. rewrite Hc. apply at_none. by rewrite <- Hc.
  - exfalso. rewrite Hc, Hno in Hs; done.
Qed.

Lemma store_write s c e f t :
  store_rel s c -> gen e < U16_MAX ->
  ∃ s', ss_write s e f t = Ok (s', bool_decide (is_Some (c e))) ∧
        store_rel s' (at_ c e (write_cell t f <$> c e)).
Proof.
  intros (a & H & Hk & Hc) Hg.
  destruct (ss_write_SR s a e f t H Hg) as (s' & r & a' & E & St & H').
  exists s'. inversion St as [ | | | | | | | | |? ? ? r0 Hr0|? ? ? Hn| | | | | | | | | | | ]; subst.
  - rewrite <- (Hc e), Hr0, bool_decide_eq_true_2 by (by eexists).
    split; [done|]. eexists. split_and!; [done..|]. cbn. by apply lookup_upd_at.
  - rewrite <- (Hc e), Hn, bool_decide_eq_false_2 by (by intros []).
    split; [done|]. eexists. split_and!; [done..|].
    intros x. rewrite Hc. apply at_none. by rewrite <- Hc.
Qed.

Lemma store_get s c e : store_rel s c -> gen e < U16_MAX -> ss_get s e = Ok (r_val <$> c e).
Proof. intros (a & H & Hk & Hc) Hg. by rewrite (ss_get_SR s a e H Hg), Hc. Qed.

Lemma store_contains s c e : store_rel s c -> gen e < U16_MAX -> c e = None -> ss_contains s e = false.
Proof.
  intros (a & H & _ & Hc) Hg Hn. rewrite (ss_contains_SR s a e H Hg), Hc, Hn.
  apply bool_decide_eq_false_2. by intros [].
Qed.

Lemma store_clear s c t :
  store_rel s c -> ∃ s', ss_clear s t = Ok s' ∧ store_rel s' (λ _, None).
Proof.
  intros (a & H & Hk & Hc). destruct (ss_clear_SR s a t H) as (s' & a' & E & St & H').
  exists s'. split; [done|]. exists a'. inversion St; subst. split_and!; [done..|]. intros x. apply lookup_empty.
Qed.

Lemma store_dense s c e : store_rel s c -> e ∈ ss_dense s <-> is_Some (c e).
Proof.
  intros (a & H & Hk & Hc). rewrite <- Hc, getN_elem. split.
  - intros [p Hp]. destruct (sr_row s _ (sr_rows _ _ H) _ _ Hp) as (r & -> & _). by eexists.
  - intros [r Hr]. by apply (sr_dom s _ (sr_rows _ _ H) _ _ Hr).
Qed.

Lemma store_retain s c (f : eid -> V -> bool) t :
  store_rel s c ->
  ∃ s', ss_retain s (λ (_ : unit) e v, (tt, f e v)) tt t = Ok (s', tt) ∧
        store_rel s' (λ e, match c e with Some r => if f e (r_val r) then Some r else None | None => None end).
Proof.
  intros (a & H & Hk & Hc). destruct (ss_retain_pure_SR s a f t H) as (s' & a' & E & St & H').
  exists s'. split; [done|]. exists a'. inversion St; subst. split_and!; [done..|]. intros x. cbn [sp_map upd]. rewrite <- Hc.
  destruct (sp_map a !! x) as [r|] eqn:Hx.
  - destruct (f x (r_val r)) eqn:Hf.
    + by apply map_filter_lookup_Some.
    + apply map_filter_lookup_None. right. intros r' Hr'. rewrite Hx in Hr'. injection Hr' as <-. cbn. congruence.
  - apply map_filter_lookup_None. by left.
Qed.

Lemma store_inserted s c e l u :
  store_rel s c -> gen e < U16_MAX -> k_track_insertion k = true ->
  is_inserted s e l u = Ok (match c e with Some r => is_within (r_ins r) l u | None => false end).
Proof.
  intros (a & H & Hk & Hc) Hg Ht. rewrite (is_inserted_SR s a e l u H Hg), Hc; [done|].
  unfold sflags, kflags in Hk. congruence.
Qed.
Lemma store_modified s c e l u :
  store_rel s c -> gen e < U16_MAX -> k_track_modification k = true ->
  is_modified s e l u = Ok (match c e with Some r => is_within (r_mod r) l u | None => false end).
Proof.
  intros (a & H & Hk & Hc) Hg Ht. rewrite (is_modified_SR s a e l u H Hg), Hc; [done|].
  unfold sflags, kflags in Hk. congruence.
Qed.
Lemma store_last s c : store_rel s c -> ss_last_ins s = li ∧ ss_last_mod s = lm.
Proof.
  intros (a & H & Hk & _). rewrite (sr_li _ _ H), (sr_lm _ _ H). unfold sflags, kflags in Hk.
  split; congruence.
Qed.
End store.
Arguments store_rel {V} k li lm s c.

Lemma store_rel_new {V} k : store_rel (V := V) k 0 0 (ss_new_for k) (λ _, None).
Proof. eexists. split_and!; [apply ss_new_SR|done|]. intros e. apply lookup_empty. Qed.



(** * The entities, seen as a set of live handles *)
Definition ER (es : entities) (P : eid -> Prop) (iss : list eid) : Prop :=
  ∃ a, R es a ∧ fresh_inv a iss ∧ (∀ e, e ∈ a_live a <-> P e) ∧
       (∀ e, e ∈ a_live a -> gen e < U16_MAX) ∧ (∀ e, e ∈ a_ready a -> gen e <= last_gen).

Lemma ER_ext es P Q iss : ER es P iss -> (∀ e, P e <-> Q e) -> ER es Q iss.
Proof.
  intros (a & H1 & H2 & H3 & H4 & H5) E. exists a. split_and!; try done.
  intros e. by rewrite H3.
Qed.
Lemma ER_init : ER e_new (λ _, False) [].
Proof.
  exists a_init. split; [apply init_R|]. split; [apply init_fresh|]. cbn. split_and!; set_solver.
Qed.
Lemma ER_alive es P iss e : ER es P iss -> is_alive es e = true <-> P e.
Proof. intros (a & H1 & H2 & H3 & _). by rewrite (R_is_alive _ _ H1). Qed.
Lemma ER_uniq es P iss e e' : ER es P iss -> P e -> P e' -> idx e = idx e' -> e = e'.
Proof. intros (a & H1 & H2 & H3 & _) H%H3 H'%H3. by apply (f_live_uniq _ _ H2). Qed.
Lemma ER_ok es P iss e : ER es P iss -> P e -> handle_ok e.
Proof.
  intros (a & H1 & H2 & H3 & H4 & _) H%H3. split; [|by apply H4].
  apply (R_live _ _ H1) in H. by apply (R_data_wf_idx _ _ H1) in H.
Qed.
Lemma ER_issued es P iss h e : ER es P iss -> h ∈ iss -> P e -> idx h = idx e -> gen h <= gen e.
Proof. intros (a & H1 & H2 & H3 & _) Hh H%H3 Hi. by apply (f_live _ _ H2). Qed.

Lemma fresh_R s a iss o ev s' a' :
  R s a -> fresh_inv a iss -> a_step a o ev a' -> R s' a' ->
  (∀ h, h ∈ ev_created ev -> h ∉ iss) ∧ fresh_inv a' (iss ++ ev_issued ev).
Proof.
  intros HR HF Hst HR'. destruct (fresh_step _ _ _ _ _ HF Hst) as (Hfr & _ & Hinv).
  destruct (R_fresh_structure _ _ HR') as (_ & _ & Hc & Hu & Hd).
  split; [done|]. apply Hinv; try done. apply HR'.
Qed.

Lemma ER_generate es P iss :
  ER es P iss -> lenN (e_data es) + 1 < max_idx ->
  ∃ es' h, generate es = Ok (es', h) ∧ h ∉ iss ∧ (∀ h', P h' -> idx h' ≠ idx h) ∧
    ER es' (λ e, P e ∨ e = h) (iss ++ [h]).
Proof.
  intros (a & HR & HF & HP & Hl & Hr) Hcap.
  destruct (generate_R es a HR Hcap) as (es' & ev & h & a' & E & -> & St & HR' & _).
  exists es', h. split; [done|].
  destruct (fresh_R _ _ _ _ _ _ _ HR HF St HR') as [Hnew HF'].
  split; [apply Hnew; cbn; set_solver|].
  destruct (R_fresh_structure _ _ HR') as (_ & _ & Hc & Hu & Hd).
  inversion St as [h0 q Hq| | | | | | | | | | |]; subst.
  - split.
    + intros h' Hh'%HP. apply (f_disj _ _ HF); [done|]. rewrite Hq. by left.
    + eexists. split; [exact HR'|]. split; [exact HF'|]. cbn. split_and!.
      * intros e. rewrite <- HP. set_solver.
      * intros e [->%elem_of_singleton|He]%elem_of_union; [|by apply Hl].
        assert (gen h <= last_gen) as Hh by (apply Hr; rewrite Hq; left).
        eapply N.le_lt_trans; [exact Hh|done].
      * intros e He. apply Hr. rewrite Hq. by right.
  - split.
    + intros h' Hh'%HP Hi. pose proof (f_live_lt _ _ HF _ Hh'). cbn in Hi. lia.
    + eexists. split; [exact HR'|]. split; [exact HF'|]. cbn. split_and!.
      * intros e. rewrite <- HP. set_solver.
      * intros e [->%elem_of_singleton|He]%elem_of_union; [done|by apply Hl].
      * set_solver.
Qed.

Lemma ER_delete es P iss e :
  ER es P iss -> P e -> gen e < last_gen ->
  ∃ es', delete_unchecked es e = Ok (es', true) ∧ ER es' (λ x, P x ∧ x ≠ e) iss.
Proof.
  intros (a & HR & HF & HP & Hl & Hr) He Hg.
  destruct (delete_R es a e HR) as (es' & b & a' & E & St & HR' & _).
  exists es'. destruct (fresh_R _ _ _ _ _ _ _ HR HF St HR') as [_ HF'].
  inversion St as [ | | |? He1 Hg1|? He1 Hg1|? He1| | | | | |]; subst; [|lia|by rewrite HP in He1].
  split; [done|]. eexists. split; [exact HR'|]. cbn in HF' |- *. rewrite app_nil_r in HF'.
  split; [exact HF'|]. split_and!.
  - intros x. rewrite <- HP. set_solver.
  - intros x Hx. apply Hl. set_solver.
  - intros x [Hx|Hx]%elem_of_app; [by apply Hr|]. apply elem_of_list_singleton in Hx as ->. cbn. lia.
Qed.
Lemma ER_delete_dead es P iss e :
  ER es P iss -> ¬ P e -> delete_unchecked es e = Ok (es, false).
Proof.
  intros H Hn. unfold delete_unchecked. destruct (is_alive es e) eqn:E; [|done].
  by apply (ER_alive _ _ _ _ H) in E.
Qed.

Lemma ER_clear es P iss :
  ER es P iss -> (∀ i e, getN (e_data es) i = Some e -> gen e < last_gen) ->
  ∃ es', e_clear es = Ok es' ∧ ER es' (λ _, False) iss.
Proof.
  intros (a & HR & HF & HP & Hl & Hr) Hb.
  destruct (clear_R es a HR Hb) as (es' & a' & E & St & HR' & _).
  exists es'. split; [done|]. destruct (fresh_R _ _ _ _ _ _ _ HR HF St HR') as [_ HF'].
  cbn in HF'. rewrite app_nil_r in HF'.
  inversion St as [ | | | | | | | | | | |r' Hlen Hr']; subst. eexists. split; [exact HR'|].
  split; [exact HF'|]. cbn. split_and!; [set_solver|set_solver|].
  intros e (k & Hk)%elem_of_list_lookup.
  destruct (Hr' (N.of_nat k) e) as (_ & h & Hh & Hi & ->); [by rewrite getN_lookup, Nat2N.id|].
  assert (gen h < last_gen); [|lia].
  destruct Hh as [Hh|Hh].
  - apply (R_live _ _ HR) in Hh. by eapply Hb.
  - apply elem_of_list_lookup in Hh as [j Hj]. pose proof (R_chain _ _ HR _ _ Hj) as Hc.
    apply Hb in Hc. done.
Qed.

Lemma ER_spawn es P iss e :
  ER es P iss -> gen e < U16_MAX -> idx e + 1 < max_idx ->
  (∀ h, P h -> idx h = idx e -> gen e < gen h) ->
  ∃ es' b, spawn es e = Ok (es', b) ∧
    if b : bool then (∀ h, P h -> idx h ≠ idx e) ∧ ER es' (λ x, P x ∨ x = e) (iss ++ [e])
    else ER es' P iss.
Proof.
  intros (a & HR & HF & HP & Hl & Hr) Hg Hi Hocc.
  destruct (spawn_R es a e HR Hg Hi) as (es' & b & a' & E & St & HR' & _).
  exists es', b. split; [done|]. destruct (fresh_R _ _ _ _ _ _ _ HR HF St HR') as [_ HF'].
  inversion St as [ | | | | | |? He|? h Hh Hih Hgh|? h Hh Hih Hgh|? h Hh Hih Hgh|? h Hh Hih Hgh|]; subst.
  - split.
    + intros h Hh%HP Hih. pose proof (f_live_lt _ _ HF _ Hh). lia.
    + eexists. split; [exact HR'|]. split; [exact HF'|]. cbn. split_and!.
      * intros x. rewrite <- HP. set_solver.
      * intros x [->%elem_of_singleton|Hx]%elem_of_union; [done|by apply Hl].
      * intros x [Hx|Hx]%elem_of_app; [by apply Hr|].
        apply a_fresh_elem in Hx. destruct Hx as [_ ->]. unfold last_gen. lia.
  - exfalso. specialize (Hocc h). rewrite <- HP in Hocc. specialize (Hocc Hh Hih). lia.
  - cbn in HF'. rewrite app_nil_r in HF'. eexists. split; [exact HR'|]. split; [exact HF'|]. done.
  - split.
    + intros h' Hh'%HP Hi'. apply (f_disj _ _ HF _ _ Hh' Hh). congruence.
    + eexists. split; [exact HR'|]. split; [exact HF'|]. cbn. split_and!.
      * intros x. rewrite <- HP. set_solver.
      * intros x [->%elem_of_singleton|Hx]%elem_of_union; [done|by apply Hl].
      * intros x [_ Hx]%elem_of_list_filter. by apply Hr.
  - cbn in HF'. rewrite app_nil_r in HF'. eexists. split; [exact HR'|]. split; [exact HF'|]. done.
Qed.
