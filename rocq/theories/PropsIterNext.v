(** C86, continued: what the next system sees of a loop over mutable views. *)
From stdpp Require Import prelude list gmap.
From Coq Require Import NArith Lia.
From Verif Require Import EntityId EntityIdProofs Base Entities EntitiesSpec EntitiesProofs.
From Verif Require Import SparseSet Track SparseSetSpec SparseSetProofs SparseSetHistory.
From Verif Require Import World WorldSpec WorldProofs WorldProofs2 PropsWorld.
From Verif Require Import Iter IterSpec IterFloat IterProofs IterProofs2 IterAlias IterOwned PropsIter.
From Verif Require Import IterWrite IterWriteSpec PropsIterWrite.
Open Scope N_scope.

Section claim.
Context {V : Type} (kind : N -> tracking).
Implicit Types (w : world V) (t : table V).
Local Notation store m i := (store_or_new kind m i).

Lemma WR_visits w t times q :
  WR kind (λ _, 0) (λ _, 0) w t -> allowed kind q -> stocked (nonempty t) q ->
  ∃ it L, shiperator (views kind w times) q = Ok it ∧ visits it L ∧ exactly (meant t times q) L.
Proof.
  intros HW (Hu & Hc & Hsz) Hst. pose proof (wr_stores _ _ _ _ _ HW) as HS.
  destruct (q_iter_ok f32_id f32_half f32_not f32_track (views kind w times) (t_cell t)) with (q := q)
    as (it & l & ls & E & HT & (Y1 & Y2 & Y3) & H1 & H2 & H3).
  - intros i. split; [done|]. destruct (HS i) as (a & Ha & _ & Hca). eapply win_ok_SR; [done|apply Ha|apply Ha|done].
  - exact f32_id_le.
  - exact f32_half_le.
  - exact f32_not_le.
  - exact f32_track_le.
  - eapply usable_ext; [..|exact Hu]; intros i; symmetry; destruct (HS i) as (a & Ha & Hk & _); cbn;
      rewrite ?(sr_ti _ _ Ha), ?(sr_tm _ _ Ha); unfold sflags, kflags in Hk; congruence.
  - done.
  - done.
  - exists it, (items (mjoin (l :: ls))). split_and!; [done|split_and!|split_and!; [done|done|]].
    + apply wi_collects; [done|by apply H2].
    + apply it_collects; [done|by apply H2].
    + by apply it_fold_tour.
    + intros e o Hin. by apply (Y3 e o Hin).
Qed.

(** Any expression walked after the loop yields what it should on the table the loop leaves. *)
Theorem C86_next ops w evs t times q muts body n times2 q2 :
  reach kind ops w evs t -> allowed kind q -> stocked (nonempty t) q ->
  NoDup (filter (.∈ muts) (storages q)) ->
  let now i := (times i).2 in
  let t1 := t_loop t q (meant t times q) muts now body (N.of_nat n) in
  allowed kind q2 -> stocked (nonempty t1) q2 ->
  ∃ it L w1 it2 L2, shiperator (views kind w times) q = Ok it ∧ visits it L ∧
    w_loop kind muts now body w n L = Ok w1 ∧
    shiperator (views kind w1 times2) q2 = Ok it2 ∧ visits it2 L2 ∧ exactly (meant t1 times2 q2) L2.
Proof.
  intros HR HA Hst Hex now t1 HA2 Hst2.
  destruct (loop_WR kind ops w evs t times q muts body n HR HA Hst Hex) as (it & L & w1 & E & HV & _ & EL & _ & _ & HW1).
  destruct (WR_visits w1 t1 times2 q2 HW1 HA2 Hst2) as (it2 & L2 & E2 & HV2 & HE2).
  by exists it, L, w1, it2, L2.
Qed.

(** In particular [modified()], in a view that last ran after every earlier modification and before the
    loop: the components the body asked to write, no other, each with what the body left there. *)
Theorem C86_next_modified ops w evs t times q muts body n times2 i :
  reach kind ops w evs t -> allowed kind q -> stocked (nonempty t) q ->
  NoDup (filter (.∈ muts) (storages q)) -> k_track_modification (kind i) = true ->
  let now i := (times i).2 in
  (∀ e r, t_cell t e i = Some r -> r_mod r <= (times2 i).1.2) ->
  (times2 i).1.2 < now i -> now i <= (times2 i).2 ->
  ∃ it L w1 it2 L2, shiperator (views kind w times) q = Ok it ∧ visits it L ∧
    w_loop kind muts now body w n L = Ok w1 ∧
    shiperator (views kind w1 times2) (QTrack false MMod i) = Ok it2 ∧ visits it2 L2 ∧ NoDup L2.*1 ∧
    (∀ e, e ∈ L2.*1 <-> ∃ x, meant t times q e = Some x ∧ i ∈ muts ∧ i ∈ offered q x ∧
                         is_Some (t_cell t e i) ∧ existsb asks_mut (body e x i) = true) ∧
    (∀ e o, (e, o) ∈ L2 -> ∃ x r, meant t times q e = Some x ∧ t_cell t e i = Some r ∧
              erase o = IVal (foldl (λ v a, change a v) (r_val r) (body e x i))).
Proof.
  intros HR HA Hst Hex Hk now Hold Hlo Hhi.
  destruct (C86_next ops w evs t times q muts body n times2 (QTrack false MMod i) HR HA Hst Hex)
    as (it & L & w1 & it2 & L2 & E & HV & EL & E2 & HV2 & (D1 & D2 & D3)).
  { split_and!; [exact Hk|done|done]. }
  { by apply or_free_stocked. }
  exists it, L, w1, it2, L2.
  split; [done|]. split; [done|]. split; [done|]. split; [done|]. split; [done|]. split; [done|].
  assert (∀ e y, meant (t_loop t q (meant t times q) muts now body (N.of_nat n)) times2 (QTrack false MMod i) e = Some y <->
    ∃ x r, meant t times q e = Some x ∧ i ∈ muts ∧ i ∈ offered q x ∧ t_cell t e i = Some r ∧
      existsb asks_mut (body e x i) = true ∧ y = IVal (foldl (λ v a, change a v) (r_val r) (body e x i))) as HM.
  { intros e y. unfold meant at 1. cbn [denote]. rewrite t_loop_cell.
    assert (∀ r, t_cell t e i = Some r -> in_window (r_mod r) (times2 i).1.2 (times2 i).2 = false) as Hno.
    { intros r Hr. specialize (Hold e r Hr). unfold in_window. apply bool_decide_eq_false_2. lia. }
    destruct (meant t times q e) as [x|].
    - unfold upd_at. destruct (t_cell t e i) as [r|] eqn:Er.
      + specialize (Hno r eq_refl). case_decide as Hd; cbn.
        * destruct (existsb asks_mut (body e x i)) eqn:Ea.
          -- assert (in_window (now i) (times2 i).1.2 (times2 i).2 = true) as -> by (apply bool_decide_eq_true_2; lia).
             split.
             ++ intros [= <-]. exists x, r. naive_solver.
             ++ intros (x' & r' & [= <-] & _ & _ & [= <-] & _ & ->). done.
          -- rewrite Hno. split; [done|]. intros (x' & r' & [= <-] & _ & _ & _ & ? & _). congruence.
        * rewrite Hno. split; [done|]. intros (x' & r' & [= <-] & ? & ? & _). tauto.
      + case_decide; cbn; (split; [done|]); intros (? & ? & _ & _ & _ & ? & _); congruence.
    - destruct (t_cell t e i) as [r|] eqn:Er; cbn.
      + rewrite (Hno r eq_refl). split; [done|]. intros (? & ? & ? & _). congruence.
      + split; [done|]. intros (? & ? & ? & _). congruence. }
  split.
  - intros e. rewrite D2. split.
    + intros [y Hy]. apply HM in Hy as (x & r & ? & ? & ? & Hr & ? & _). exists x. rewrite Hr. split_and!; try done.
    + intros (x & ? & ? & ? & [r Hr] & ?). eexists. apply HM. exists x, r. by split_and!.
  - intros e o Hin. specialize (D3 e o Hin). apply HM in D3 as (x & r & ? & _ & _ & ? & _ & ?). by exists x, r.
Qed.
End claim.

(** The loop of C86_case, then [modified()] of component 0 by a system that last ran at 8: entity 0, whose
    component was written through [&mut]; not entity 2, whose component was changed through [map]. *)
Example C86_next_case :
  (∃ t, reach it_kind it_ops it_world (answers_of it_kind it_ops) t) ∧
  k_track_modification (it_kind 0) = true ∧
  (rlet w1 := lw_run lw_q [0; 1] lw_body in
   rlet it2 := shiperator (views it_kind w1 (λ _, (8, 8, 12))) (QTrack false MMod 0) in
   it_fold it2) = Ok [ORef 0 0 22].
Proof. split; [exact it_reach|]. split; [done|]. by vm_compute. Qed.

Print Assumptions C86_next.
Print Assumptions C86_next_modified.
