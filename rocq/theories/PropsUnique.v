(** Properties C53 and C24 (unique storages). *)
From stdpp Require Import prelude list gmap.
From Coq Require Import NArith Lia.
From Verif Require Import EntityId Base SparseSet Unique UniqueSpec.
Open Scope N_scope.

Section props.
Context {V : Type}.
Implicit Types (s : ustore V) (x : ufact V) (w : uworld V) (t : utable V).

(** A storage and what is known about it at time [now]. *)
Record UR (now : N) s x : Prop := {
  ur_val : u_val s = x_val x;
  ur_ins : u_ins s = x_ins x;
  ur_mod : u_mod s = default 0 (x_mod x);
  ur_pos : 1 <= x_ins x ∧ from_option (λ m, 1 <= m) True (x_mod x);
  ur_past : x_ins x <= now ∧ u_mod s < now ∧ u_last_ins s < now ∧ u_last_mod s < now;
  ur_ins_cleared : x_ins_cleared x = true <-> u_ins s <= u_last_ins s;
  ur_mod_cleared : is_Some (x_mod x) -> x_mod_cleared x = true <-> u_mod s <= u_last_mod s;
}.
Lemma UR_later now now' s x : UR now s x -> now <= now' -> UR now' s x.
Proof. intros [] ?. split; try done. lia. Qed.

Lemma UR_seen now s x last : UR now s x ->
  (u_val s, uv_is_inserted s last now, uv_is_modified s last now) = (x_val x, sees_ins x last, sees_mod x last).
Proof.
  intros [Hv Hi Hm [Hp1 Hp2] (Q1 & Q2 & Q3 & Q4) Ci Cm].
  unfold uv_is_inserted, uv_is_modified, sees_ins, sees_mod, is_within. f_equal; [f_equal|].
  - done.
  - replace (u_ins s <=? now) with true by (symmetry; apply N.leb_le; lia). rewrite andb_true_r.
    destruct last as [l|]; cbn; [by rewrite Hi|].
    destruct (x_ins_cleared x); cbn.
    + apply N.ltb_ge. by apply Ci.
    + apply N.ltb_lt. destruct (decide (u_ins s <= u_last_ins s)) as [D|D]; [by apply Ci in D|lia].
  - replace (u_mod s <=? now) with true by (symmetry; apply N.leb_le; lia). rewrite andb_true_r.
    destruct (x_mod x) as [m|] eqn:Em; cbn in *.
    + specialize (Cm ltac:(by eexists)). destruct last as [l|]; cbn; [by rewrite Hm|].
      destruct (x_mod_cleared x); cbn.
      * apply N.ltb_ge. by apply Cm.
      * apply N.ltb_lt. destruct (decide (u_mod s <= u_last_mod s)) as [D|D]; [by apply Cm in D|lia].
    + rewrite Hm. apply N.ltb_ge. lia.
Qed.

Definition WUR w t : Prop :=
  uw_counter w = ut_now t ∧ 1 <= ut_now t ∧
  ∀ i, match uw_stores w !! i, ut_facts t !! i with
       | Some s, Some x => UR (ut_now t) s x
       | None, None => True
       | _, _ => False
       end.

Lemma WUR_set w t i s x now' :
  WUR w t -> ut_now t <= now' -> UR now' s x ->
  WUR (UWorld (<[i := s]> (uw_stores w)) now') (UTable (<[i := x]> (ut_facts t)) now').
Proof.
  intros (E & L & H) Hn Hr. split; [done|]. split; [cbn; lia|]. intros j. cbn.
  destruct (decide (i = j)) as [->|Hj]; [by rewrite !lookup_insert|].
  rewrite !lookup_insert_ne by done. specialize (H j).
  destruct (uw_stores w !! j), (ut_facts t !! j); try done. by eapply UR_later.
Qed.
Lemma WUR_later w t : WUR w t -> WUR (uw_tick w) (UTable (ut_facts t) (ut_now t + 1)).
Proof.
  intros (E & L & H). split; [cbn; lia|]. split; [cbn; lia|]. intros j. cbn. specialize (H j).
  destruct (uw_stores w !! j), (ut_facts t !! j); try done. eapply UR_later; [done|]. lia.
Qed.

Lemma u_step_WUR w t o :
  WUR w t -> no_clear_all o = true ->
  WUR (u_step w o).1 (ut_step t o).1 ∧ (u_step w o).2 = (ut_step t o).2.
Proof.
  intros HW Hn. pose proof HW as (E & L & H).
  assert (∀ s' x', ∀ i, ut_facts t !! i = Some x' -> ∀ f, UR (ut_now t + 1) s' (f x') ->
    WUR (uw_tick (uw_set w i s')) (UTable (alter f i (ut_facts t)) (ut_now t + 1))) as Halt.
  { intros s' x' i Hx f Hr. assert (alter f i (ut_facts t) = <[i := f x']> (ut_facts t)) as ->.
    { apply map_eq. intros j. destruct (decide (i = j)) as [->|Hj].
      - by rewrite lookup_alter, lookup_insert, Hx.
      - by rewrite lookup_alter_ne, lookup_insert_ne. }
    unfold uw_tick, uw_set. cbn. rewrite E. apply WUR_set; [done|lia|done]. }
  destruct o as [i v|i|i last|i f|i ins md|i last v| |ins md]; cbn [u_step ut_step fst snd].
  - split; [|done]. unfold uw_set. rewrite E. apply WUR_set; [done|lia|].
    split; cbn; try done; try lia. by intros [].
  - split.
    + split; [done|]. split; [done|]. intros j. cbn. destruct (decide (i = j)) as [->|Hj].
      * by rewrite !lookup_delete.
      * rewrite !lookup_delete_ne by done. apply H.
    + f_equal. specialize (H i). destruct (uw_stores w !! i), (ut_facts t !! i); try done.
      cbn. f_equal. apply H.
  - split; [by apply WUR_later|]. f_equal. specialize (H i).
    destruct (uw_stores w !! i) as [s|], (ut_facts t !! i) as [x|]; try done. cbn. f_equal.
    rewrite E. by apply UR_seen.
  - pose proof (H i) as Hi. destruct (uw_stores w !! i) as [s|] eqn:Es, (ut_facts t !! i) as [x|] eqn:Ex; try done; cbn [fst snd].
    + split; [|by rewrite bool_decide_eq_true_2 by by eexists].
      apply (Halt _ x); [done|]. destruct Hi as [Hv Hii Hm Hp Hq Ci Cm].
      split; cbn; try done; try lia. by rewrite Hv.
    + split; [|by rewrite bool_decide_eq_false_2 by by intros []].
      pose proof (WUR_later _ _ HW) as H'. destruct H' as (E' & L' & H'). split; [done|]. split; [done|].
      intros j. specialize (H' j). cbn in *. destruct (decide (i = j)) as [<-|Hj].
      * rewrite lookup_alter, Ex. cbn. by rewrite Es.
      * by rewrite lookup_alter_ne.
  - pose proof (H i) as Hi. destruct (uw_stores w !! i) as [s|] eqn:Es, (ut_facts t !! i) as [x|] eqn:Ex; try done; cbn [fst snd].
    + split; [|by rewrite bool_decide_eq_true_2 by by eexists].
      apply (Halt _ x); [done|]. destruct Hi as [Hv Hii Hm [Hp1 Hp2] (Hq1 & Hq2 & Hq3 & Hq4) Ci Cm].
      destruct ins, md; (split; cbn; [done|done|done|done|lia| |]); try done;
        try (split; [lia|done]); try (intros _; split; [lia|done]).
    + split; [|by rewrite bool_decide_eq_false_2 by by intros []].
      pose proof (WUR_later _ _ HW) as H'. destruct H' as (E' & L' & H'). split; [done|]. split; [done|].
      intros j. specialize (H' j). cbn in *. destruct (decide (i = j)) as [<-|Hj].
      * rewrite lookup_alter, Ex. cbn. by rewrite Es.
      * by rewrite lookup_alter_ne.
  - cbn [uw_tick uw_stores uw_counter]. pose proof (H i) as Hi. destruct (uw_stores w !! i) as [s|] eqn:Es, (ut_facts t !! i) as [x|] eqn:Ex; try done; cbn [fst snd default].
    + split.
      * pose proof (WUR_later _ _ HW) as H'. unfold uw_set. cbn. rewrite (insert_id (uw_stores w) i s Es).
        exact H'.
      * do 2 f_equal. rewrite E. by apply UR_seen.
    + split.
      * unfold uw_set. cbn. rewrite E. apply WUR_set; [done|lia|].
        split; cbn; try done; try lia. by intros [].
      * do 2 f_equal. unfold uv_is_inserted, uv_is_modified, is_within. cbn.
        replace (uw_counter w + 1 <=? uw_counter w) with false by (symmetry; apply N.leb_gt; lia).
        rewrite andb_false_r. replace (default 0 last <? 0) with false by (symmetry; apply N.ltb_ge; lia). done.
  - split; [by apply WUR_later|done].
  - done.
Qed.

(** ** C53 *)

(** Every history of unique operations without World::clear_all_inserted/modified: each answer is the
    one of the specification.  In particular is_inserted (is_modified) outside of workloads is true
    iff the unique was inserted (written to) and not cleared since, and in a system iff this happened
    after its last run.  Missing: histories with the clear_all of the world (C53_clear_all_refuted). *)
Theorem C53_reports_partial ops :
  Forall (λ o, no_clear_all o = true) ops ->
  (u_run uw_new ops).2 = (ut_run (V := V) ut_init ops).2.
Proof.
  assert (∀ ops w t, WUR w t -> Forall (λ o, no_clear_all o = true) ops -> (u_run w ops).2 = (ut_run t ops).2) as Hgen.
  { clear ops. induction ops as [|o ops IH]; intros w t H Hf; [done|].
    apply Forall_cons in Hf as [Ho Hf]. cbn [u_run ut_run fst snd].
    destruct (u_step_WUR w t o H Ho) as [H' ->]. f_equal. by apply IH. }
  apply Hgen. split; [done|]. split; [done|]. intros i. cbn. by rewrite !lookup_empty.
Qed.

(** The same in terms of the operations: after [UClear i true md] the insertion is no longer
    reported, until the unique is added again. *)
Definition adds (i : N) (o : uop V) : bool :=
  match o with UAdd j _ | UGetOrInit j _ _ | URemove j => j =? i | _ => false end.
Definition writes (i : N) (o : uop V) : bool := match o with UWrite j _ => j =? i | _ => adds i o end.

Lemma ut_run_app ops1 : ∀ ops2 t, ut_run t (ops1 ++ ops2) =
  ((ut_run (ut_run (V := V) t ops1).1 ops2).1, (ut_run t ops1).2 ++ (ut_run (ut_run t ops1).1 ops2).2).
Proof.
  induction ops1 as [|o ops1 IH]; intros ops2 t; cbn; [by destruct (ut_run t ops2)|].
  rewrite IH. done.
Qed.
Lemma ut_step_hidden i o t (P : ufact V -> Prop) :
  adds i o = false ->
  (∀ x f now, P x -> writes i o = true -> P (UFact (f (x_val x)) (x_ins x) (x_ins_cleared x) (Some now) false)) ->
  (∀ x b b', P x -> P (UFact (x_val x) (x_ins x) (b || x_ins_cleared x) (x_mod x) (b' || x_mod_cleared x))) ->
  from_option P True (ut_facts t !! i) -> from_option P True (ut_facts (ut_step t o).1 !! i).
Proof.
  intros Ha Hw Hc Hp. destruct o as [j v|j|j last|j f|j ins md|j last v| |ins md]; cbn [ut_step fst ut_facts adds writes] in *;
    try apply N.eqb_neq in Ha; try done.
  - by rewrite lookup_insert_ne.
  - by rewrite lookup_delete_ne.
  - destruct (decide (j = i)) as [->|].
    + rewrite lookup_alter. destruct (ut_facts t !! i) as [x|]; [|done]. cbn in *. apply Hw; [done|]. by apply N.eqb_eq.
    + by rewrite lookup_alter_ne.
  - destruct (decide (j = i)) as [->|].
    + rewrite lookup_alter. destruct (ut_facts t !! i) as [x|]; [|done]. cbn in *. by apply Hc.
    + by rewrite lookup_alter_ne.
  - destruct (ut_facts t !! j) as [x|] eqn:Ej; cbn; [done|]. by rewrite lookup_insert_ne.
  - rewrite lookup_fmap. destruct (ut_facts t !! i) as [x|]; [|done]. cbn in *. by apply Hc.
Qed.

Theorem C53_cleared ops i md ops' :
  Forall (λ o, no_clear_all o = true) (ops ++ ops') ->
  Forall (λ o, adds i o = false) ops' ->
  ∀ v b b' evs, (u_run uw_new (ops ++ UClear i true md :: ops' ++ [UView i None])).2 = evs ++ [USeen (Some (v, b, b'))] ->
  b = false.
Proof.
  intros Hn Ha v b b' evs E. rewrite C53_reports_partial in E.
  2: { apply Forall_app in Hn as [? ?]. apply Forall_app. split; [done|]. apply Forall_cons. split; [done|].
       apply Forall_app. split; [done|]. by apply Forall_cons. }
  rewrite ut_run_app in E. cbn [snd] in E. set (t := (ut_run ut_init ops).1) in E.
  cbn [ut_run snd] in E. rewrite ut_run_app in E. cbn [snd ut_run ut_step] in E.
  set (t1 := (ut_step t (UClear i true md)).1) in E.
  assert (from_option (λ x, x_ins_cleared x = true) True (ut_facts (ut_run t1 ops').1 !! i)) as Hc.
  { assert (from_option (λ x, x_ins_cleared x = true) True (ut_facts t1 !! i)) as H1.
    { subst t1. cbn. rewrite lookup_alter. by destruct (ut_facts t !! i). }
    clearbody t1. clear -Ha H1. revert t1 H1. induction ops' as [|o ops' IH]; intros t1 H1; [done|].
    apply Forall_cons in Ha as [Ho Ha]. cbn [ut_run fst]. apply IH; [done|].
    apply ut_step_hidden; [done|by intros|by intros x [] c ?; cbn|done]. }
  rewrite app_comm_cons, app_assoc in E. apply app_inj_tail in E as [_ E]. change (USeen ((λ x, (x_val x, sees_ins x None, sees_mod x None)) <$> ut_facts (ut_run t1 ops').1 !! i) = USeen (Some (v, b, b'))) in E. clearbody t1.
  destruct (ut_facts (ut_run t1 ops').1 !! i) as [x|]; [|discriminate E]. cbn in *.
  injection E as _ <- _. unfold sees_ins. by rewrite Hc.
Qed.
End props.

(** ** Where the properties fail *)

(** World::clear_all_inserted (clear_all_modified) makes uniques look inserted (modified) that were not
    reported before: it overwrites the time of the change instead of the start of the window
    (finding 23). *)
Theorem C53_clear_all_refuted :
  (u_run uw_new [UAdd 0 5; UClear 0 true false; UView 0 None; UClearAll true true; UView 0 None]).2 =
    [UUnit; UDone true; USeen (Some (5, false, false)); UUnit; USeen (Some (5, true, true))].
Proof. done. Qed.
(** The specification (and the documentation) answer [false, false]; what was reported before is still
    reported after the clear. *)
Theorem C24_unique_refuted :
  (u_run uw_new [UAdd 0 5; UView 0 None; UClearAll true false; UView 0 None]).2 =
    [UUnit; USeen (Some (5, true, false)); UUnit; USeen (Some (5, true, false))] ∧
  (ut_run ut_init [UAdd 0 5; UView 0 None; UClearAll true false; UView 0 None]).2 =
    [UUnit; USeen (Some (5, true, false)); UUnit; USeen (Some (5, false, false))].
Proof. done. Qed.

(** * Histories that meet the hypotheses *)
Example ex_C53 :
  let ops := [UAdd 0 5; UView 0 None; UWrite 0 (λ v, v + 1); UView 0 (Some 1); UView 0 (Some 2); UClear 0 true true;
              UView 0 None; UWrite 0 (λ v, v + 1); UView 0 None; URemove 0; UView 0 None;
              UGetOrInit 0 None 7; UView 0 None] in
  Forall (λ o, no_clear_all o = true) ops ∧
  (u_run uw_new ops).2 =
    [UUnit; USeen (Some (5, true, false)); UDone true; USeen (Some (6, false, true)); USeen (Some (6, false, false)); UDone true;
     USeen (Some (6, false, false)); UDone true; USeen (Some (7, false, true)); UGone (Some 7); USeen None;
     USeen (Some (7, false, false)); USeen (Some (7, true, false))].
Proof. split; [|vm_compute; reflexivity]. repeat (apply Forall_cons; split; [done|]). done. Qed.
Example ex_C53_cleared :
  let ops' := [UWrite 0 (λ v, v + 1); UAdd 1 3] in
  Forall (λ o, no_clear_all o = true) ([UAdd 0 5] ++ ops') ∧ Forall (λ o, adds 0 o = false) ops' ∧
  (u_run uw_new ([UAdd 0 5] ++ UClear 0 true false :: ops' ++ [UView 0 None])).2 =
    [UUnit; UDone true; UDone true; UUnit] ++ [USeen (Some (6, false, true))].
Proof. cbn zeta. split_and!; [repeat (apply Forall_cons; split; [done|]); done..|done]. Qed.

Print Assumptions C53_reports_partial.
Print Assumptions C53_cleared.
Print Assumptions C53_clear_all_refuted.
Print Assumptions C24_unique_refuted.
