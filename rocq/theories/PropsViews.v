(** Properties C19, C24 (component storages) and C45. *)
From stdpp Require Import prelude list gmap.
From Coq Require Import NArith Lia.
From Verif Require Import EntityId EntityIdProofs Base Entities EntitiesSpec EntitiesProofs EntitiesHistory.
From Verif Require Import SparseSet Track SparseSetSpec SparseSetProofs SparseSetProofs2 SparseSetHistory.
From Verif Require Import World WorldSpec WorldProofs WorldProofs2 PropsWorld Views ViewsProofs.
Open Scope N_scope.

(** ** C19: the windows *)

(** For every strictly increasing sequence of run times, every time up to the last run is in exactly
    one window. *)
Theorem C19_exactly_one (last : N) (cs : list N) (t : N) :
  (∀ k a b, (last :: cs) !! k = Some a -> (last :: cs) !! S k = Some b -> a < b) ->
  last < t -> (∃ c, c ∈ cs ∧ t <= c) ->
  ∃ k a b, windows last cs !! k = Some (a, b) ∧ is_within t a b = true ∧
    ∀ k' a' b', windows last cs !! k' = Some (a', b') -> is_within t a' b' = true -> k' = k.
Proof.
  revert last. induction cs as [|c cs IH]; intros last Hs Hl (x & Hx & Hle); [by apply elem_of_nil in Hx|].
  assert (last < c) as Hlc by exact (Hs 0%nat last c eq_refl eq_refl).
  assert (∀ k a b, (c :: cs) !! k = Some a -> (c :: cs) !! S k = Some b -> a < b) as Hs'.
  { intros k a b Ha Hb. exact (Hs (S k) a b Ha Hb). }
  (* the later windows start at c or after it *)
  assert (∀ k a b, windows c cs !! k = Some (a, b) -> c <= a) as Hlater.
  { clear -Hs'. revert c Hs'. induction cs as [|d cs IH]; intros c Hs' k a b; [done|].
    destruct k as [|k]; cbn; [intros [= -> ->]; done|]. intros E.
    pose proof (Hs' 0%nat c d eq_refl eq_refl).
    enough (d <= a) by lia. eapply IH; [|exact E]. intros k' a' b' Ha Hb. exact (Hs' (S k') a' b' Ha Hb). }
  unfold is_within. destruct (decide (t <= c)) as [Htc|Htc].
  - exists 0%nat, last, c. split; [done|]. split.
    { apply andb_true_iff. split; [by apply N.ltb_lt|by apply N.leb_le]. }
    intros [|k'] a' b'; [done|]. cbn. intros E%Hlater [A%N.ltb_lt B%N.leb_le]%andb_true_iff. lia.
  - destruct (IH c Hs') as (k & a & b & E & W & U); [lia| |].
    { exists x. split; [|done]. apply elem_of_cons in Hx as [->|Hx]; [lia|done]. }
    exists (S k), a, b. split; [done|]. split; [done|].
    intros [|k'] a' b'; cbn.
    + intros [= <- <-] [A%N.ltb_lt B%N.leb_le]%andb_true_iff. lia.
    + intros E' W'. f_equal. by eapply U.
Qed.

Section props.
Context {V : Type} (kind : N -> tracking).
Implicit Types (w : world V) (t : table V).

(** ** Histories with views and clears *)
Inductive xop :=
| XOp (o : wop V)
| XBorrow (i : N)                            (* borrow a view *)
| XViewClear (i : N) (ins md : bool)         (* clear_all_inserted / _modified / both of a ViewMut *)
| XClearAll (ins md : bool) (order : list N). (* of the world *)

(** What happens to the world, and to the table: borrows and clears of views only tick the clock, the
    clears of the world do nothing to it. *)
Inductive x_run : world V -> table V -> list xop -> world V -> table V -> Prop :=
| XNil w t : x_run w t [] w t
| XCOp w t o w1 ev t1 xs w2 t2 :
    w_allowed w o -> w_step kind w o = Ok (w1, ev) -> t_step t o ev t1 ->
    x_run w1 t1 xs w2 t2 -> x_run w t (XOp o :: xs) w2 t2
| XCBorrow w t i xs w2 t2 :
    x_run (w_borrow kind w i) (set_rows t (t_rows t)) xs w2 t2 -> x_run w t (XBorrow i :: xs) w2 t2
| XCViewClear w t i ins md xs w2 t2 :
    x_run (w_view_clear kind w i ins md) (set_rows t (t_rows t)) xs w2 t2 ->
    x_run w t (XViewClear i ins md :: xs) w2 t2
| XCClearAll w t ins md order w1 xs w2 t2 :
    any_order w order -> w_clear_all w ins md order = Ok w1 -> x_run w1 t xs w2 t2 ->
    x_run w t (XClearAll ins md order :: xs) w2 t2.

Definition is_clear (x : xop) : bool :=
  match x with XViewClear _ _ _ | XClearAll _ _ _ => true | _ => false end.

Lemma x_run_WR xs : ∀ w t li lm w2 t2,
  WR kind li lm w t -> stamps_ok t -> x_run w t xs w2 t2 ->
  ∃ li' lm', WR kind li' lm' w2 t2 ∧ stamps_ok t2 ∧ t_now t <= t_now t2 ∧
    (Forall (λ x, is_clear x = false) xs -> li' = li ∧ lm' = lm) ∧
    ∀ e i r, t_cell t2 e i = Some r -> cell_step (t_now t) (t_now t2) (t_cell t e i) r.
Proof.
  assert (∀ t : table V, stamps_ok t -> stamps_ok (t_tick t)) as Htick.
  { intros t [A B]. split; cbn; [lia|]. intros e i r Hc. specialize (B e i r Hc). lia. }
  induction xs as [|x xs IH]; intros w t li lm w2 t2 H Hs R.
  { inversion R; subst. exists li, lm. split_and!; try done. intros e i r ->. apply cell_step_same. }
  assert (∀ w1 t1 li1 lm1, WR kind li1 lm1 w1 t1 -> stamps_ok t1 -> t_now t <= t_now t1 ->
    (∀ e i r, t_cell t1 e i = Some r -> cell_step (t_now t) (t_now t1) (t_cell t e i) r) ->
    (is_clear x = false -> li1 = li ∧ lm1 = lm) ->
    x_run w1 t1 xs w2 t2 ->
    ∃ li' lm', WR kind li' lm' w2 t2 ∧ stamps_ok t2 ∧ t_now t <= t_now t2 ∧
    (Forall (λ x, is_clear x = false) (x :: xs) -> li' = li ∧ lm' = lm) ∧
    ∀ e i r, t_cell t2 e i = Some r -> cell_step (t_now t) (t_now t2) (t_cell t e i) r) as Hgo.
  { intros w1 t1 li1 lm1 H1 Hs1 L Hc Hl R1.
    destruct (IH _ _ _ _ _ _ H1 Hs1 R1) as (li' & lm' & A & B & C & D & E).
    exists li', lm'. split_and!; try done; [lia| |].
    - intros [F1 F2]%Forall_cons. destruct (D F2) as [-> ->]. by apply Hl.
    - intros e i r Hr. specialize (E e i r Hr). destruct (t_cell t1 e i) as [r1|] eqn:E1.
      + eapply cell_step_trans; [exact L|exact C| |exact E]. by apply Hc.
      + revert E. unfold cell_step, stamp_step. cbn. intros [[|A1] A2]; [done|]. split; [right; lia|].
        destruct A2 as [A2|[|A2]]; [by left|done|right; right; lia]. }
  inversion R; subst.
  - match goal with A : w_allowed _ _, E : w_step _ _ _ = _, St : t_step _ _ _ _ |- _ =>
      destruct (step_WR kind li lm w t o H A) as (w1' & ev' & t1' & E' & St' & H1);
      rewrite E in E'; injection E' as <- <-; rewrite <- (t_step_det _ _ _ _ _ St St') in H1;
      eapply Hgo; [exact H1|by eapply stamps_step|by eapply t_step_now| |done|done];
      intros e i r Hr; by eapply t_step_stamps
    end.
  - eapply Hgo; [by apply borrow_WR| by apply Htick|cbn; lia| |done|done].
    intros e' i' r Hr. change (t_cell t e' i' = Some r) in Hr. rewrite Hr. apply cell_step_same.
  - eapply Hgo; [by apply view_clear_WR|by apply Htick|cbn; lia| |done|done].
    intros e' i' r Hr. change (t_cell t e' i' = Some r) in Hr. rewrite Hr. apply cell_step_same.
  - match goal with A : any_order _ _, E : w_clear_all _ _ _ _ = _ |- _ =>
      destruct (clear_all_WR kind li lm w t ins md order H A) as (w1' & E' & H1 & _);
      rewrite E in E'; injection E' as <- end.
    eapply Hgo; [exact H1|done|done| |done|done].
    intros e i r Hr. rewrite Hr. apply cell_step_same.
Qed.

(** A world reached by any history of operations, borrows and clears. *)
Definition x_reach (xs : list xop) w t : Prop := x_run w_new t_init xs w t.
Lemma x_reach_WR xs w t : x_reach xs w t -> ∃ li lm, WR kind li lm w t ∧ stamps_ok t.
Proof.
  intros R. destruct (x_run_WR xs _ _ _ _ _ _ (WR_init kind) stamps_init R) as (li & lm & A & B & _).
  by exists li, lm.
Qed.

(** ** C24 *)

(** World::clear_all_inserted / _modified / both, after any history and followed by any history
    without another clear.  [w_counter w] is the time of the call: everything stamped before it is
    hidden, everything stamped after it is reported.  Missing: the one operation that comes right
    after the call gets the same time stamp (C24_next_operation_refuted). *)
Theorem C24_clear_all_partial xs w t ins md order :
  x_reach xs w t -> any_order w order ->
  ∃ w1, w_clear_all w ins md order = Ok w1 ∧
  ∀ ys w2 t2, x_run w1 t ys w2 t2 -> Forall (λ x, is_clear x = false) ys ->
  ∀ e i, gen e < U16_MAX ->
    (k_track_insertion (kind i) = true -> ins = true ->
     ∃ b, view_inserted kind w2 e i None = Ok b ∧
       match t_cell t2 e i with
       | Some r => (r_ins r < t_now t -> b = false) ∧ (t_now t < r_ins r -> b = true)
       | None => b = false
       end) ∧
    (k_track_modification (kind i) = true -> md = true ->
     ∃ b, view_modified kind w2 e i None = Ok b ∧
       match t_cell t2 e i with
       | Some r => (r_mod r < t_now t -> b = false) ∧ (t_now t < r_mod r -> b = true)
       | None => b = false
       end).
Proof.
  intros (li & lm & H & Hs)%x_reach_WR Ho.
  destruct (clear_all_WR kind li lm w t ins md order H Ho) as (w1 & E & H1 & _).
  exists w1. split; [done|]. intros ys w2 t2 R Hn e i Hg.
  destruct (x_run_WR ys _ _ _ _ _ _ H1 Hs R) as (li' & lm' & H2 & Hs2 & L & Hl & Hc).
  destruct (Hl Hn) as [-> ->]. clear Hl.
  pose proof (wr_now _ _ _ _ _ H) as En. split; intros Hk ->.
  - eexists. split; [by apply (view_inserted_WR kind _ _ _ _ _ _ None H2 Hs2 Hg Hk)|].
    destruct (t_cell t2 e i) as [r|] eqn:Er; [|done]. cbn.
    case_decide as Hw.
    + rewrite En. split; intros Hx; [apply N.ltb_ge; lia|by apply N.ltb_lt].
    + destruct (Hc e i r Er) as [[A|A] _].
      * exfalso. assert (w_stores w !! i = None) as Hm.
        { destruct (w_stores w !! i); [exfalso; apply Hw; by eexists|done]. }
        pose proof (stores_missing kind li lm _ _ _ e (wr_stores _ _ _ _ _ H) Hm) as Hx.
        by rewrite Hx in A.
      * split; [lia|]. intros _. apply N.ltb_lt.
        assert (li i = 0) as ->; [|destruct Hs; lia].
        pose proof (wr_stores _ _ _ _ _ H i) as Hi. unfold World.store_or_new in Hi.
        destruct (w_stores w !! i); [exfalso; apply Hw; by eexists|]. cbn in Hi.
        by destruct (store_last _ _ Hi) as [<- _].
  - eexists. split; [by apply (view_modified_WR kind _ _ _ _ _ _ None H2 Hs2 Hg Hk)|].
    destruct (t_cell t2 e i) as [r|] eqn:Er; [|done]. cbn.
    case_decide as Hw.
    + rewrite En. split; intros Hx; [apply N.ltb_ge; lia|by apply N.ltb_lt].
    + assert (lm i = 0) as ->.
      { pose proof (wr_stores _ _ _ _ _ H i) as Hi. unfold World.store_or_new in Hi.
        destruct (w_stores w !! i); [exfalso; apply Hw; by eexists|]. cbn in Hi.
        by destruct (store_last _ _ Hi) as [_ <-]. }
      destruct (Hc e i r Er) as [_ [A|[A|A]]].
      * rewrite A. split; [by intros _|]. destruct Hs. lia.
      * exfalso. assert (w_stores w !! i = None) as Hm.
        { destruct (w_stores w !! i); [exfalso; apply Hw; by eexists|done]. }
        pose proof (stores_missing kind li lm _ _ _ e (wr_stores _ _ _ _ _ H) Hm) as Hx.
        by rewrite Hx in A.
      * split; [lia|]. intros _. apply N.ltb_lt. destruct Hs. lia.
Qed.

(** Nothing else is affected: what is not cleared is reported as before. *)
Theorem C24_clear_all_frame xs w t ins md order w1 e i :
  x_reach xs w t -> any_order w order -> w_clear_all w ins md order = Ok w1 -> gen e < U16_MAX ->
  same_for kind w w1 e ∧
  (k_track_insertion (kind i) = true -> ins = false -> view_inserted kind w1 e i None = view_inserted kind w e i None) ∧
  (k_track_modification (kind i) = true -> md = false -> view_modified kind w1 e i None = view_modified kind w e i None).
Proof.
  intros (li & lm & H & Hs)%x_reach_WR Ho E Hg.
  destruct (clear_all_WR kind li lm w t ins md order H Ho) as (w1' & E' & H1 & _).
  rewrite E in E'. injection E' as <-. split; [|split].
  - by eapply WR_same.
  - intros Hk ->. rewrite (view_inserted_WR kind _ _ _ _ _ _ None H1 Hs Hg Hk).
    rewrite (view_inserted_WR kind _ _ _ _ _ _ None H Hs Hg Hk). cbn. by case_decide.
  - intros Hk ->. rewrite (view_modified_WR kind _ _ _ _ _ _ None H1 Hs Hg Hk).
    rewrite (view_modified_WR kind _ _ _ _ _ _ None H Hs Hg Hk). cbn. by case_decide.
Qed.

(** The clearing functions of a view are exact: what happened before is hidden, whatever comes
    after is reported. *)
Theorem C24_view_clear xs w t i ins md ys w2 t2 e :
  x_reach xs w t -> gen e < U16_MAX ->
  x_run (w_view_clear kind w i ins md) (set_rows t (t_rows t)) ys w2 t2 -> Forall (λ x, is_clear x = false) ys ->
  (k_track_insertion (kind i) = true -> ins = true ->
   ∃ b, view_inserted kind w2 e i None = Ok b ∧
     (b = true <-> ∃ r, t_cell t2 e i = Some r ∧ t_now t <= r_ins r)) ∧
  (k_track_modification (kind i) = true -> md = true ->
   ∃ b, view_modified kind w2 e i None = Ok b ∧
     (b = true <-> ∃ r, t_cell t2 e i = Some r ∧ t_now t <= r_mod r)).
Proof.
  intros (li & lm & H & Hs)%x_reach_WR Hg R Hn.
  pose proof (view_clear_WR kind li lm w t i ins md H) as H1.
  assert (stamps_ok (set_rows t (t_rows t))) as Hs1.
  { destruct Hs as [A B]. split; cbn; [lia|]. intros e' i' r' Hc. specialize (B e' i' r' Hc). lia. }
  destruct (x_run_WR ys _ _ _ _ _ _ H1 Hs1 R) as (li' & lm' & H2 & Hs2 & L & Hl & Hc).
  destruct (Hl Hn) as [-> ->]. clear Hl.
  pose proof (wr_now _ _ _ _ _ H) as En. unfold cell_step, stamp_step in Hc. cbn [t_now set_rows t_tick] in *. split; intros Hk ->.
  - eexists. split; [by apply (view_inserted_WR kind _ _ _ _ _ _ None H2 Hs2 Hg Hk)|].
    destruct (t_cell t2 e i) as [r|] eqn:Er; [|naive_solver]. cbn.
    rewrite decide_True by done. rewrite N.ltb_lt. rewrite En. split; [intros Hx|intros (r' & [= <-] & Hx)].
    + exists r. split; [done|lia].
    + destruct (Hc e i r Er) as [[A|A] _]; [|lia].
      change (r_ins <$> t_cell t e i = Some (r_ins r)) in A.
      destruct (t_cell t e i) as [r0|] eqn:E0; [|done]. injection A as A.
      pose proof (proj2 Hs e i r0 E0). lia.
  - eexists. split; [by apply (view_modified_WR kind _ _ _ _ _ _ None H2 Hs2 Hg Hk)|].
    destruct (t_cell t2 e i) as [r|] eqn:Er; [|naive_solver]. cbn.
    rewrite decide_True by done. rewrite N.ltb_lt. rewrite En. split; [intros Hx|intros (r' & [= <-] & Hx)].
    + exists r. split; [done|lia].
    + destruct (Hc e i r Er) as [_ [A|[A|A]]]; [destruct Hs; lia| |lia].
      change (r_mod <$> t_cell t e i = Some (r_mod r)) in A.
      destruct (t_cell t e i) as [r0|] eqn:E0; [|done]. injection A as A.
      pose proof (proj2 Hs e i r0 E0). lia.
Qed.

(** ** C19: a system and the changes of one component *)

(** The runs of a system that asks about component [i] of [e], with arbitrary histories in between.
    Each run is recorded with the stamps of the component at that time and the answers. *)
Inductive sys_trace (e : eid) (i : N) : world V -> table V -> N -> list (option (row V) * bool * bool) -> Prop :=
| SysNil w t last : sys_trace e i w t last []
| SysRun w t last xs w1 t1 bi bm w2 last' l :
    x_run w t xs w1 t1 ->
    sys_run kind w1 last e i = Ok (bi, bm, w2, last') ->
    sys_trace e i w2 (set_rows t1 (t_rows t1)) last' l ->
    sys_trace e i w t last ((t_cell t1 e i, bi, bm) :: l).

Lemma sys_trace_facts e i l : ∀ w t last li lm,
  WR kind li lm w t -> stamps_ok t -> gen e < U16_MAX -> last < t_now t ->
  k_track_insertion (kind i) = true -> k_track_modification (kind i) = true ->
  sys_trace e i w t last l ->
  ∀ k r bi bm, l !! k = Some (Some r, bi, bm) ->
    cell_step (t_now t) (r_ins r + r_mod r + 1 + t_now t) (t_cell t e i) r ∧
    (last < r_ins r -> bi = true <-> ∀ j r' b b', (j < k)%nat -> l !! j = Some (Some r', b, b') -> r_ins r' ≠ r_ins r) ∧
    (last < r_mod r -> bm = true <-> ∀ j r' b b', (j < k)%nat -> l !! j = Some (Some r', b, b') -> r_mod r' ≠ r_mod r) ∧
    (r_ins r <= last -> bi = false) ∧ (r_mod r <= last -> bm = false).
Proof.
  induction l as [|x l IH]; intros w t last li lm H Hs Hg Hlast Hki Hkm R; [by intros []|].
  inversion R as [|? ? ? xs w1 t1 bi0 bm0 w2 last' ? Rx E Rl]; subst.
  destruct (x_run_WR xs _ _ _ _ _ _ H Hs Rx) as (li1 & lm1 & H1 & Hs1 & L & _ & Hc).
  unfold sys_run in E.
  rewrite (view_inserted_WR kind _ _ _ _ _ _ (Some last) H1 Hs1 Hg Hki) in E.
  rewrite (view_modified_WR kind _ _ _ _ _ _ (Some last) H1 Hs1 Hg Hkm) in E. cbn in E.
  injection E as Ei Em <- <-.
  pose proof (borrow_WR kind _ _ _ _ i H1) as H2. pose proof (wr_now _ _ _ _ _ H1) as En.
  assert (stamps_ok (t_tick t1)) as Hs2.
  { destruct Hs1 as [A B]. split; cbn; [lia|]. intros e' i' r' Hc'. specialize (B e' i' r' Hc'). lia. }
  assert (w_counter w1 < t_now (t_tick t1)) as Hlt by (cbn; lia).
  specialize (IH _ _ _ _ _ H2 Hs2 Hg Hlt Hki Hkm Rl).
  intros [|k] r bi bm Hl.
  - cbn in Hl. injection Hl as Er <- <-. rewrite Er in Ei, Em. split_and!.
    + specialize (Hc e i r Er). destruct Hc as [[A|A] B]; (split; [|destruct B as [B|[B|B]]]);
        unfold stamp_step; first [by left|by (right; left)|right; lia|right; right; lia].
    + intros Hx. rewrite <- Ei. split; [intros _ j r' b b' Hj; lia|]. intros _. by apply N.ltb_lt.
    + intros Hx. rewrite <- Em. split; [intros _ j r' b b' Hj; lia|]. intros _. by apply N.ltb_lt.
    + intros Hx. rewrite <- Ei. apply N.ltb_ge. lia.
    + intros Hx. rewrite <- Em. apply N.ltb_ge. lia.
  - cbn in Hl. destruct (IH k r bi bm Hl) as (IC & I1 & I2 & I3 & I4).
    change (t_cell (t_tick t1) e i) with (t_cell t1 e i) in IC. cbn [t_now t_tick set_rows] in *.
    destruct Hs1 as [Hn1 Hs1]. clear IH H H1 H2 Hs Hs2 Rl Rx R Ei Em Hki Hkm.
    assert (stamp_step (t_now t1 + 1) (r_ins r + r_mod r + 1 + (t_now t1 + 1)) (r_ins <$> t_cell t1 e i) (r_ins r)) as IA
      by apply IC.
    split_and!.
    + destruct (t_cell t1 e i) as [r1|] eqn:E1.
      * specialize (Hc e i r1 E1). pose proof (Hs1 e i r1 E1) as B1.
        destruct IC as [C1 C2], Hc as [D1 D2]. unfold cell_step, stamp_step in *. cbn in *. split.
        -- destruct C1 as [[= C1]|C1]; [|right; lia]. rewrite C1 in D1. destruct D1 as [D1|D1]; [by left|right; lia].
        -- destruct C2 as [C2|[[= C2]|C2]]; [by left| |right; right; lia]. rewrite C2 in D2.
           destruct D2 as [D2|[D2|D2]]; [by left|right; by left|right; right; lia].
      * destruct IC as [[|C1] C2]; [done|]. unfold stamp_step in *. split; [right; lia|].
        destruct C2 as [C2|[|C2]]; [by left|done|right; right; lia].
    + intros Hx. destruct (decide (w_counter w1 < r_ins r)) as [Hy|Hy].
      * rewrite (I1 Hy). split; intros Hz.
        -- intros [|j] r' b b' Hj Hlj; cbn in Hlj.
           ++ injection Hlj as Er' <- <-. pose proof (Hs1 e i r' Er'). lia.
           ++ eapply Hz; [|exact Hlj]. lia.
        -- intros j r' b b' Hj Hlj. eapply (Hz (S j)); [lia|exact Hlj].
      * rewrite (I3 ltac:(lia)). split; [done|]. intros Hz. exfalso.
        destruct IA as [A|A]; [|lia]. destruct (t_cell t1 e i) as [r1|] eqn:E1; [|done]. injection A as A.
        refine (Hz 0%nat r1 _ _ _ eq_refl A). lia.
    + intros Hx. destruct (decide (w_counter w1 < r_mod r)) as [Hy|Hy].
      * rewrite (I2 Hy). split; intros Hz.
        -- intros [|j] r' b b' Hj Hlj; cbn in Hlj.
           ++ injection Hlj as Er' <- <-. pose proof (Hs1 e i r' Er'). lia.
           ++ eapply Hz; [|exact Hlj]. lia.
        -- intros j r' b b' Hj Hlj. eapply (Hz (S j)); [lia|exact Hlj].
      * rewrite (I4 ltac:(lia)). split; [done|]. intros Hz. exfalso.
        destruct IC as [_ [A|[A|A]]]; [lia| |lia].
        destruct (t_cell t1 e i) as [r1|] eqn:E1; [|done]. injection A as A.
        refine (Hz 0%nat r1 _ _ _ eq_refl A). lia.
    + intros Hx. apply I3. lia.
    + intros Hx. apply I4. lia.
Qed.

(** Each insertion and each write is reported by the first run that finds it and by no later one;
    what is older than the system's last run is never reported. *)
Theorem C19_reported_once xs w t last e i l :
  x_reach xs w t -> last < t_now t -> gen e < U16_MAX ->
  k_track_insertion (kind i) = true -> k_track_modification (kind i) = true ->
  sys_trace e i w t last l ->
  ∀ k r bi bm, l !! k = Some (Some r, bi, bm) ->
    (bi = true <-> last < r_ins r ∧ ∀ j r' b b', (j < k)%nat -> l !! j = Some (Some r', b, b') -> r_ins r' ≠ r_ins r) ∧
    (bm = true <-> last < r_mod r ∧ ∀ j r' b b', (j < k)%nat -> l !! j = Some (Some r', b, b') -> r_mod r' ≠ r_mod r).
Proof.
  intros (li & lm & H & Hs)%x_reach_WR Hl Hg Hki Hkm R k r bi bm E.
  destruct (sys_trace_facts e i l w t last li lm H Hs Hg Hl Hki Hkm R k r bi bm E) as (_ & A1 & A2 & A3 & A4).
  split.
  - destruct (decide (last < r_ins r)) as [Hx|Hx]; [rewrite (A1 Hx); tauto|].
    rewrite (A3 ltac:(lia)). split; [done|]. intros [? _]. lia.
  - destruct (decide (last < r_mod r)) as [Hx|Hx]; [rewrite (A2 Hx); tauto|].
    rewrite (A4 ltac:(lia)). split; [done|]. intros [? _]. lia.
Qed.

(** Histories without views and clears are among them. *)
Lemma x_run_ops ops : ∀ w w' evs t t',
  w_history kind w ops -> w_run kind w ops = Ok (w', evs) -> t_run t ops evs t' -> x_run w t (XOp <$> ops) w' t'.
Proof.
  induction ops as [|o ops IH]; intros w w' evs t t' Hh E R; cbn [w_run w_history fmap list_fmap] in *.
  { injection E as <- <-. inversion R; subst. constructor. }
  destruct Hh as [A Hh]. destruct (w_step kind w o) as [[w1 ev]| |] eqn:E1; [|done|done]. cbn [rbind] in E.
  destruct (w_run kind w1 ops) as [[w2 evs']| |] eqn:E2; [|done|done]. cbn [rbind] in E.
  injection E as <- <-. inversion R; subst. econstructor; [done|done|done|]. eapply IH; [|done|done]. by eapply Hh.
Qed.
Lemma reach_x ops w evs t : reach kind ops w evs t -> x_reach (XOp <$> ops) w t.
Proof. intros (Hh & E & R). by eapply x_run_ops. Qed.

(** ** C45 *)
Context `{!EqDecision V}.
Notation store w i := (store_or_new kind (w_stores w) i).

(** The row after add_distinct_component: the first component that differs is stored. *)
Fixpoint distinct_first (now : N) (r : gmap N (row V)) (cs : list (N * V)) : gmap N (row V) :=
  match cs with
  | [] => r
  | c :: cs => if decide (r_val <$> r !! c.1 = Some c.2) then distinct_first now r cs else put_cell now r c
  end.

Lemma add_distinct_tuple_ok li lm e cs now : ∀ m c r,
  stores_rel kind li lm m (at_row c e r) -> handle_ok e -> others_free c e ->
  ∃ m', add_distinct_tuple kind m e cs now = Ok (m', bool_decide (Exists (λ c : N * V, r_val <$> r !! c.1 ≠ Some c.2) cs)) ∧
        stores_rel kind li lm m' (at_row c e (distinct_first now r cs)).
Proof.
  induction cs as [|[i v] cs IH]; intros m c r H Hok Hfree; cbn [add_distinct_tuple distinct_first fst snd].
  { exists m. rewrite bool_decide_eq_false_2; [done|]. by intros ?%Exists_nil. }
  pose proof (store_get (k := kind i) (li := li i) (lm := lm i) _ _ e (H i) (proj2 Hok)) as Eg.
  cbn beta in Eg. rewrite at_row_same in Eg. unfold add_distinct_one. rewrite Eg. cbn [rbind].
  destruct (store_insert _ _ e v now (H i) Hok) as (s' & x & Ei & Hx & Hs).
  { intros e' Hi Hne. rewrite at_row_other by done. by apply Hfree. }
  assert (stores_rel kind li lm (<[i := s']> m) (at_row c e (put_cell now r (i, v)))) as H'.
  { eapply stores_row; [exact H| |].
    + unfold put_cell. cbn. rewrite lookup_insert. rewrite at_row_same in Hs. exact Hs.
    + intros j Hj. unfold put_cell. cbn. by rewrite lookup_insert_ne. }
  destruct (r !! i) as [o|] eqn:Er; cbn [fmap option_fmap option_map].
  - case_decide as D; cbn [rbind].
    + subst v. rewrite decide_True by done.
      destruct (IH (<[i := store_or_new kind m i]> m) c r) as (m' & -> & Hm); [by apply stores_touch|done|done|].
      exists m'. split; [|done]. do 2 f_equal. apply bool_decide_ext. rewrite Exists_cons. cbn. rewrite Er. cbn.
      split; [by right|]. intros [|]; done.
    + rewrite Ei. cbn [rbind]. rewrite Hx. rewrite decide_False by congruence.
      eexists. split; [|exact H']. rewrite bool_decide_eq_true_2; [done|]. left. cbn. rewrite Er. cbn. congruence.
  - rewrite Ei. cbn [rbind]. rewrite Hx. rewrite decide_False by done.
    eexists. split; [|exact H']. rewrite bool_decide_eq_true_2; [done|]. left. cbn. by rewrite Er.
Qed.

(** What a tuple does: it answers whether some component differs.  Either no component differs and
    nothing changes for any view, or the first one that differs is stored, stamped as inserted if
    there was none and as modified if there was one, and nothing else changes.
    Missing: the components after the first that differs are dropped (C45_tuple_refuted). *)
Theorem C45_tuple_partial xs w t e cs :
  x_reach xs w t -> is_alive (w_ents w) e = true ->
  let now := w_counter w in
  let equal c := ss_get (store w c.1) e = Ok (Some c.2) in
  ∃ w' b, w_add_distinct kind w e cs = Ok (w', b) ∧
    (∀ e', e' ≠ e -> gen e' < U16_MAX -> same_for kind w w' e') ∧
    ((b = false ∧ (∀ c : N * V, c ∈ cs -> equal c) ∧ same_for kind w w' e) ∨
     (b = true ∧ ∃ cs1 i v cs2, cs = cs1 ++ (i, v) :: cs2 ∧ (∀ c : N * V, c ∈ cs1 -> equal c) ∧ ¬ equal (i, v) ∧
        shows kind w' e (λ j, if decide (j = i)
                              then Some (match t_cell t e i with Some o => Row v (r_ins o) now | None => Row v now 0 end)
                              else t_cell t e j))).
Proof.
  intros (li & lm & H & _)%x_reach_WR He. intros now equal. unfold w_add_distinct.
  cbn [w_tick w_ents w_stores w_counter]. rewrite He.
  apply (WR_live kind _ _ _ H) in He as [r Hr].
  assert (handle_ok e) as Hok by (eapply (ER_ok _ _ _ _ (wr_ents _ _ _ _ _ H)); by eexists).
  destruct (add_distinct_tuple_ok li lm e cs now (w_stores w) (t_cell t) r) as (m' & E & Hm).
  { eapply stores_ext; [apply H|]. apply row_id. by left. }
  { done. }
  { eapply WR_others; [done|]. by eexists. }
  fold now. rewrite E. cbn [rbind]. eexists _, _. split; [done|].
  pose proof (WR_alter kind li lm w t (λ r, distinct_first now r cs) e m' H) as H'.
  rewrite Hr in H'. cbn in H'. specialize (H' Hm).
  change (with_stores (w_tick w) m') with (with_stores (World (w_ents w) (w_stores w) (now + 1)) m') in *.
  assert (∀ c : N * V, equal c <-> r_val <$> r !! c.1 = Some c.2) as Heq.
  { intros c. unfold equal. destruct (WR_shows kind w t e H (proj2 Hok) c.1) as (-> & _).
    rewrite (cell_row t e c.1 r Hr). split; congruence. }
  split.
  { intros e' Hne Hg. eapply WR_same; [exact H|exact H'|done|]. cbn. by rewrite lookup_alter_ne. }
  assert (∀ cs, (¬ Exists (λ c : N * V, r_val <$> r !! c.1 ≠ Some c.2) cs ∧ (∀ c : N * V, c ∈ cs -> equal c) ∧
                 distinct_first now r cs = r) ∨
    (Exists (λ c : N * V, r_val <$> r !! c.1 ≠ Some c.2) cs ∧ ∃ cs1 i v cs2, cs = cs1 ++ (i, v) :: cs2 ∧ (∀ c : N * V, c ∈ cs1 -> equal c) ∧
        ¬ equal (i, v) ∧ distinct_first now r cs = put_cell now r (i, v))) as Hsplit.
  { clear -Heq. intros cs. induction cs as [|[i v] cs IH]; cbn [distinct_first].
    - left. split; [by intros ?%Exists_nil|]. split; [|done]. by intros c ?%elem_of_nil.
    - case_decide as D.
      + destruct IH as [(A & B & C)|(A & cs1 & j & u & cs2 & -> & B & C & D')].
        * left. split; [intros [?|?]%Exists_cons; [|done]; by cbn in *|]. split; [|done].
          intros c [->|Hc]%elem_of_cons; [by apply Heq|by apply B].
        * right. split; [by right|]. exists ((i, v) :: cs1), j, u, cs2. split; [done|]. split; [|done].
          intros c [->|Hc]%elem_of_cons; [by apply Heq|by apply B].
      + right. split; [by left|]. exists [], i, v, cs. split; [done|]. split; [by intros c ?%elem_of_nil|].
        split; [|done]. by rewrite Heq. }
  destruct (Hsplit cs) as [(A & B & C)|(A & cs1 & i & v & cs2 & Ecs & B & C & D)].
  - left. split; [by apply bool_decide_eq_false_2|]. split; [done|].
    eapply WR_same; [exact H|exact H'|by apply Hok|]. cbn. rewrite lookup_alter, Hr. cbn. by rewrite C.
  - right. split; [by apply bool_decide_eq_true_2|]. exists cs1, i, v, cs2. split; [done|]. split; [done|]. split; [done|].
    intros j. destruct (WR_shows kind _ _ e H' (proj2 Hok) j) as (X1 & X2 & X3).
    assert (t_cell (set_rows t (alter (λ r, distinct_first now r cs) e (t_rows t))) e j =
      (if decide (j = i)
       then Some (match t_cell t e i with Some o => Row v (r_ins o) now | None => Row v now 0 end)
       else t_cell t e j)) as Ej.
    { unfold t_cell. cbn. rewrite lookup_alter, Hr. cbn. rewrite D. unfold put_cell. cbn.
      case_decide as Dj; [subst; by rewrite lookup_insert|by rewrite lookup_insert_ne]. }
    rewrite Ej in X1, X2, X3. split; [exact X1|]. split; [exact X2|exact X3].
Qed.

(** One component: exact. *)
Theorem C45_single xs w t e i v :
  x_reach xs w t -> is_alive (w_ents w) e = true ->
  ∃ w' b, w_add_distinct kind w e [(i, v)] = Ok (w', b) ∧
    ss_get (store w' i) e = Ok (Some v) ∧
    (b = true <-> ss_get (store w i) e ≠ Ok (Some v)) ∧
    (b = false -> same_for kind w w' e) ∧
    (∀ e', e' ≠ e -> gen e' < U16_MAX -> same_for kind w w' e') ∧
    (∀ j, j ≠ i -> ss_get (store w' j) e = ss_get (store w j) e).
Proof.
  intros R He. destruct (C45_tuple_partial xs w t e [(i, v)] R He) as (w' & b & E & Ho & Hb).
  exists w', b. split; [done|].
  destruct (x_reach_WR _ _ _ R) as (li & lm & H & _).
  assert (gen e < U16_MAX) as Hg.
  { eapply WR_row_gen; [exact H|]. by apply (WR_live kind _ _ _ H). }
  destruct Hb as [(-> & A & B)|(-> & cs1 & j & u & cs2 & Ecs & A & C & D)].
  - assert (ss_get (store w i) e = Ok (Some v)) as Ei by exact (A (i, v) (elem_of_list_here _ _)).
    destruct (proj2 B i) as [Bi _]. split; [by rewrite Bi|]. split; [by split|]. split; [done|]. split; [done|].
    intros j _. apply (proj2 B j).
  - destruct cs1 as [|? [|]]; [|discriminate|discriminate]. injection Ecs as <- <- <-.
    split.
    { destruct (D i) as [-> _]. rewrite decide_True by done. cbn. by destruct (t_cell t e i). }
    split; [by split|]. split; [done|]. split; [done|].
    intros j Hj. destruct (D j) as [-> _]. rewrite decide_False by done.
    by destruct (WR_shows kind w t e H Hg j) as (-> & _).
Qed.

(** A dead entity: panic, as documented. *)
Theorem C45_dead w e cs : is_alive (w_ents w) e = false -> w_add_distinct kind w e cs = Panic.
Proof. intros He. unfold w_add_distinct. cbn. by rewrite He. Qed.
End props.

(** * Where the properties fail *)

(** Both components differ, the second one is dropped (finding 20). *)
Theorem C45_tuple_refuted :
  let ops := [WAddEntity [(0, 10); (1, 11)]] in
  let w := world_of (λ _, TAll) ops in
  (∃ t, x_reach (λ _, TAll) (XOp <$> ops) w t) ∧ is_alive (w_ents w) (0, 0) = true ∧
  match w_add_distinct (λ _, TAll) w (0, 0) [(0, 20); (1, 21)] with
  | Ok (w', b) => b = true ∧ ss_get (store_or_new (λ _, TAll) (w_stores w') 0) (0, 0) = Ok (Some 20) ∧
                  ss_get (store_or_new (λ _, TAll) (w_stores w') 1) (0, 0) = Ok (Some 11)
  | _ => False
  end.
Proof.
  cbn zeta. split.
  { destruct (reach_concrete (λ _, TAll) [WAddEntity [(0, 10); (1, 11)]]) as (t & H & _); [vm_compute; reflexivity|].
    exists t. eapply reach_x. exact H. }
  split; [vm_compute; reflexivity|]. vm_compute. split_and!; reflexivity.
Qed.

(** The operation that comes right after World::clear_all_inserted is not reported: the insertion of
    a component whose storage exists (finding 22).  The same for a write after clear_all_modified. *)
Theorem C24_next_operation_refuted :
  let k := λ _ : N, TAll in
  let w := world_of k [WAddEntity [(0, 10)]] in
  (∃ t, x_reach k [XOp (WAddEntity [(0, 10)])] w t) ∧ any_order w [0] ∧
  match w_clear_all w true false [0] with
  | Ok w1 => match w_add_entity k w1 [(0, 20)] with
             | Ok (w2, e) => e = (1, 0) ∧ view_inserted k w2 (1, 0) 0 None = Ok false
             | _ => False
             end
  | _ => False
  end ∧
  match w_clear_all w false true [0] with
  | Ok w1 => match w_write k w1 (0, 0) 0 (λ v, v + 1) with
             | Ok (w2, b) => b = true ∧ view_modified k w2 (0, 0) 0 None = Ok false
             | _ => False
             end
  | _ => False
  end.
Proof.
  cbn zeta. split.
  { destruct (reach_concrete (λ _, TAll) [WAddEntity [(0, 10)]]) as (t & H & _); [vm_compute; reflexivity|].
    exists t. apply reach_x in H. exact H. }
  split; [apply order_b_ok; vm_compute; reflexivity|].
  split; vm_compute; split; reflexivity.
Qed.

(** * Histories that meet the hypotheses *)

(** C24: an insertion before and one after the clear (with a borrow in between). *)
Example ex_C24 :
  let k := λ _ : N, TAll in
  let w := world_of k [WAddEntity [(0, 10)]; WWrite (0, 0) 0 (λ v, v + 1)] in
  (∃ t, x_reach k [XOp (WAddEntity [(0, 10)]); XOp (WWrite (0, 0) 0 (λ v, v + 1))] w t) ∧ any_order w [0] ∧
  view_inserted k w (0, 0) 0 None = Ok true ∧ view_modified k w (0, 0) 0 None = Ok true ∧
  match w_clear_all w true true [0] with
  | Ok w1 =>
      view_inserted k w1 (0, 0) 0 None = Ok false ∧ view_modified k w1 (0, 0) 0 None = Ok false ∧
      match w_add_entity k (w_borrow k w1 0) [(0, 20)] with
      | Ok (w2, e) => e = (1, 0) ∧ view_inserted k w2 (1, 0) 0 None = Ok true ∧ view_inserted k w2 (0, 0) 0 None = Ok false
      | _ => False
      end
  | _ => False
  end ∧
  match w_add_entity k (w_view_clear k w 0 true false) [(0, 20)] with
  | Ok (w2, e) => view_inserted k w2 (1, 0) 0 None = Ok true ∧ view_inserted k w2 (0, 0) 0 None = Ok false ∧
                  view_modified k w2 (0, 0) 0 None = Ok true
  | _ => False
  end.
Proof.
  cbn zeta. split.
  { destruct (reach_concrete (λ _, TAll) [WAddEntity [(0, 10)]; WWrite (0, 0) 0 (λ v, v + 1)]) as (t & H & _);
      [vm_compute; reflexivity|].
    exists t. apply reach_x in H. exact H. }
  split; [apply order_b_ok; vm_compute; reflexivity|].
  split; [vm_compute; reflexivity|]. split; [vm_compute; reflexivity|].
  split; vm_compute; split_and!; reflexivity.
Qed.

(** C19: a system that runs three times; the component is written to between the first two. *)
Example ex_C19_windows : windows 0 [3; 4; 9] = [(0, 3); (3, 4); (4, 9)] ∧ is_within 4 3 4 = true.
Proof. done. Qed.
Example ex_C19 :
  let k := λ _ : N, TAll in
  let w := world_of k [WAddEntity [(0, 10)]] in
  ∃ t, x_reach k [XOp (WAddEntity [(0, 10)])] w t ∧ 0 < t_now t ∧
  sys_trace k (0, 0) 0 w t 0
    [(Some (Row 10 1 0), true, false); (Some (Row 11 1 3), false, true); (Some (Row 11 1 3), false, false)].
Proof.
  cbn zeta. set (k := λ _ : N, TAll).
  destruct (reach_concrete k [WAddEntity [(0, 10)]]) as (t & H & _); [vm_compute; reflexivity|].
  apply reach_x in H. change (x_reach k [XOp (WAddEntity [(0, 10)])] (world_of k [WAddEntity [(0, 10)]]) t) in H.
  exists t. split; [exact H|].
  set (w := world_of k [WAddEntity [(0, 10)]]) in *.
  inversion H; subst.
  match goal with St' : t_step _ _ _ _, E' : w_step _ _ _ = _, R' : x_run _ _ _ [] _ _ |- _ =>
    rename St' into St; rename E' into E; inversion R'; subst; clear R' end.
  inversion St as [? h Hh| | | | | | | | | | | | | | | |]; subst.
  assert (h = (0, 0)) as ->.
  { assert (w_step k w_new (WAddEntity [(0, 10)]) = Ok (w, WId (0, 0))) as E0 by (vm_compute; reflexivity). congruence. }
  cbn [t_now t_init t_rows t_issued app] in *. clear E.
  split; [done|].
  assert (∀ l l', sys_trace k (0, 0) 0 w (Table (<[(0, 0) := put_cells 1 ∅ [(0, 10)]]> ∅) [(0, 0)] (1 + 1)) 0 l -> l = l' ->
                  sys_trace k (0, 0) 0 w (Table (<[(0, 0) := put_cells 1 ∅ [(0, 10)]]> ∅) [(0, 0)] (1 + 1)) 0 l') as Hl
    by (by intros l l' ? <-).
  eapply Hl; clear Hl.
  { eapply (SysRun k _ _ _ _ _ []); [constructor|vm_compute; reflexivity|].
    eapply (SysRun k _ _ _ _ _ [XOp (WWrite (0, 0) 0 (λ v, v + 1))]).
    { eapply XCOp; [apply allowed_b_ok; vm_compute; reflexivity|vm_compute; reflexivity| |constructor].
      match goal with |- t_step ?t _ _ _ => pose proof (TWrite t (0, 0) 0 (λ v, v + 1)) as St' end.
      rewrite bool_decide_eq_true_2 in St'; [exact St'|]. vm_compute. by eexists. }
    { vm_compute; reflexivity. }
    eapply (SysRun k _ _ _ _ _ []); [constructor|vm_compute; reflexivity|]. constructor. }
  vm_compute. reflexivity.
Qed.

(** C45: an equal, then a different component *)
Example ex_C45 :
  let k := λ _ : N, TAll in
  let w := world_of k [WAddEntity [(0, 10); (1, 11)]] in
  (∃ t, x_reach k [XOp (WAddEntity [(0, 10); (1, 11)])] w t) ∧ is_alive (w_ents w) (0, 0) = true ∧
  match w_add_distinct k w (0, 0) [(0, 10); (1, 21)] with
  | Ok (w', b) => b = true ∧ view_modified k w' (0, 0) 0 None = Ok false ∧
                  view_modified k w' (0, 0) 1 None = Ok true ∧
                  ss_get (store_or_new k (w_stores w') 1) (0, 0) = Ok (Some 21)
  | _ => False
  end.
Proof.
  cbn zeta. split.
  { destruct (reach_concrete (λ _, TAll) [WAddEntity [(0, 10); (1, 11)]]) as (t & H & _); [vm_compute; reflexivity|].
    exists t. apply reach_x in H. exact H. }
  split; [vm_compute; reflexivity|]. vm_compute. split_and!; reflexivity.
Qed.

Print Assumptions C19_exactly_one.
Print Assumptions C19_reported_once.
Print Assumptions C24_clear_all_partial.
Print Assumptions C24_clear_all_frame.
Print Assumptions C24_view_clear.
Print Assumptions C24_next_operation_refuted.
Print Assumptions C45_tuple_partial.
Print Assumptions C45_single.
Print Assumptions C45_dead.
Print Assumptions C45_tuple_refuted.
