(** Properties of the runtime borrow checker (C25, C26, C57). *)
From stdpp Require Import prelude list gmap.
From Coq Require Import NArith.
From Verif Require Import EntityId MapSum Borrow BorrowSpec BorrowProofs.
Open Scope N_scope.

(** ** Link between the model state and the observations *)
Definition kind_of (o : bobj) : lkind :=
  match o with BShared _ false => LShared | BShared r true => LFrom r | BExcl => LExcl end.
Definition req_ok (p : pc) (r : request) : Prop :=
  match p with
  | ReadGot _ | ReadSub | XReadGot _ => r = RShared
  | CloneGot b _ _ _ | CloneSub b => r = RFrom b
  | WriteGot _ => r = RExcl
  | DropS _ false => r = RDrop LShared
  | DropS x true => r = RDrop (LFrom x)
  | DropX => r = RDrop LExcl
  end.
Record OL (s : bst) (o : obs) : Prop := {
  ol_alive : forall b, alive o !! b = kind_of <$> pool s !! b;
  ol_wait : forall t p, calls s !! t = Some p -> exists r, waiting o !! t = Some r /\ req_ok p r;
  ol_idle : forall t, calls s !! t = None -> waiting o !! t = None
}.

Lemma observe_app tr e : observe (tr ++ [e]) = obs_step (observe tr) e.
Proof. unfold observe. by rewrite fold_left_app. Qed.

Lemma OL_set_call s o t p w r :
  OL s o -> req_ok p r ->
  OL (set_call t p w s) {| alive := alive o; waiting := <[t := r]> (waiting o) |}.
Proof.
  intros [Ha Hw Hi] Hr. split.
  - exact Ha.
  - intros t' p' Hp'. cbn [set_call calls waiting] in *. destruct (decide (t' = t)) as [->|].
    + rewrite lookup_insert in Hp'. rewrite lookup_insert. injection Hp' as <-. by exists r.
    + rewrite lookup_insert_ne in Hp' by done. rewrite lookup_insert_ne by done. by apply Hw.
  - intros t' Ht'. cbn [set_call calls waiting] in *. destruct (decide (t' = t)) as [->|].
    + by rewrite lookup_insert in Ht'.
    + rewrite lookup_insert_ne in Ht' by done. rewrite lookup_insert_ne by done. by apply Hi.
Qed.
Lemma OL_end_call s o t w :
  OL s o -> OL (end_call t w s) {| alive := alive o; waiting := delete t (waiting o) |}.
Proof.
  intros [Ha Hw Hi]. split.
  - exact Ha.
  - intros t' p' Hp'. cbn [end_call calls waiting] in *. apply lookup_delete_Some in Hp' as [? Hp'].
    rewrite lookup_delete_ne by done. by apply Hw.
  - intros t' Ht'. cbn [end_call calls waiting] in *. destruct (decide (t' = t)) as [->|].
    + apply lookup_delete.
    + rewrite lookup_delete_ne in Ht' by done. rewrite lookup_delete_ne by done. by apply Hi.
Qed.
Lemma OL_ret s o t ob k :
  OL s o -> kind_of ob = k ->
  OL (ret_borrow t ob s) {| alive := <[next_id s := k]> (alive o); waiting := delete t (waiting o) |}.
Proof.
  intros [Ha Hw Hi] <-. split.
  - intros b. cbn [ret_borrow pool alive]. destruct (decide (b = next_id s)) as [->|].
    + by rewrite !lookup_insert.
    + rewrite !lookup_insert_ne by done. apply Ha.
  - intros t' p' Hp'. cbn [ret_borrow calls waiting] in *. apply lookup_delete_Some in Hp' as [? Hp'].
    rewrite lookup_delete_ne by done. by apply Hw.
  - intros t' Ht'. cbn [ret_borrow calls waiting] in *. destruct (decide (t' = t)) as [->|].
    + apply lookup_delete.
    + rewrite lookup_delete_ne in Ht' by done. rewrite lookup_delete_ne by done. by apply Hi.
Qed.

Lemma OL_step c s o l s' ev :
  BI s -> OL s o -> b_step c s l = Some (s', ev) -> OL s' (obs_step o (l, ev)).
Proof.
  intros HI HO Hst. destruct l as [t a]. unfold b_step in Hst.
  destruct (aborted s); [done|].
  destruct a as [| |b|b|]; destruct (calls s !! t) as [p|] eqn:Ht; try done.
  - injection Hst as Hst. unfold borrow_start in Hst.
    assert ((s', ev) = read_start t s \/ (s', ev) = xread_start t s \/
            (s', ev) = (s, EvErr ErrWrongThread)) as [Hc|[Hc|Hc]].
    { destruct (c_sync c); [by left|]. destruct (c_send c) as [h|]; [|by right; left].
      destruct (h =? t); [by left|]. right; right. congruence. }
    + injection Hc as -> ->. cbn [obs_step]. by apply OL_set_call.
    + injection Hc as -> ->. cbn [obs_step]. by apply OL_set_call.
    + injection Hc as -> ->. cbn [obs_step]. destruct HO as [Ha Hw Hi].
      rewrite (delete_notin (waiting o) t) by (by apply Hi). by split.
  - injection Hst as Hst. unfold borrow_mut_start in Hst.
    assert ((s', ev) = write_start t s \/ (s', ev) = (s, EvErr ErrWrongThread)) as [Hc|Hc].
    { destruct (c_send c) as [h|]; [|by left].
      destruct (h =? t); [by left|]. right. congruence. }
    + injection Hc as -> ->. cbn [obs_step]. by apply OL_set_call.
    + injection Hc as -> ->. cbn [obs_step]. destruct HO as [Ha Hw Hi].
      rewrite (delete_notin (waiting o) t) by (by apply Hi). by split.
  - destruct (pool s !! b) as [ob|] eqn:Hb; [|done]. injection Hst as Hst.
    unfold clone_start in Hst. destruct (root_of b ob) as [r u]. injection Hst as <- <-.
    cbn [obs_step]. by apply OL_set_call.
  - destruct (pool s !! b) as [ob|] eqn:Hb; [|done].
    destruct (may_drop b ob s); [|done]. injection Hst as <- <-. cbn [obs_step].
    destruct HO as [Ha Hw Hi]. rewrite (Ha b), Hb. cbn [fmap option_fmap option_map].
    split.
    + intros b'. cbn [pool alive]. destruct (decide (b' = b)) as [->|].
      * by rewrite !lookup_delete.
      * rewrite !lookup_delete_ne by done. apply Ha.
    + intros t' p' Hp'. cbn [calls waiting] in *. destruct (decide (t' = t)) as [->|].
      * rewrite lookup_insert in Hp'. rewrite lookup_insert. injection Hp' as <-. eexists. split; [done|].
        by destruct ob as [r []|].
      * rewrite lookup_insert_ne in Hp' by done. rewrite lookup_insert_ne by done. by apply Hw.
    + intros t' Ht'. cbn [calls waiting] in *. destruct (decide (t' = t)) as [->|].
      * by rewrite lookup_insert in Ht'.
      * rewrite lookup_insert_ne in Ht' by done. rewrite lookup_insert_ne by done. by apply Hi.
  - injection Hst as Hst.
    destruct (ol_wait s o HO t p Ht) as (r & Hr & Hrq).
    pose proof (bi_pc s HI t p Ht) as Hok.
    destruct p as [new| |old|b rt u new|b|old|rt u|]; cbn [continue pc_ok req_ok] in *; try done.
    + destruct (high new); [|].
      * destruct (new =? HIGH_BIT) eqn:Hn.
        { apply N.eqb_eq in Hn. naive_solver. }
        destruct (MAX_FAILED_BORROWS <=? new).
        -- injection Hst as <- <-. cbn [obs_step]. destruct HO. by split.
        -- injection Hst as <- <-. cbn [obs_step]. by apply OL_end_call.
      * injection Hst as <- <-. cbn [obs_step]. rewrite Hr. subst r. by apply OL_ret.
    + destruct (old =? 0).
      * injection Hst as <- <-. cbn [obs_step]. rewrite Hr. subst r. by apply OL_ret.
      * injection Hst as <- <-. cbn [obs_step]. by apply OL_end_call.
    + destruct Hok as (? & Hnh & ob & Hob & Hroot).
      rewrite (proj2 (N.eqb_neq _ _) Hnh) in Hst.
      destruct (MAX_FAILED_BORROWS <=? new).
      * injection Hst as <- <-. cbn [obs_step]. destruct HO. by split.
      * injection Hst as <- <-. cbn [obs_step]. rewrite Hr. subst r. apply OL_ret; [done|].
        cbn [granted]. rewrite (ol_alive s o HO b), Hob. cbn [fmap option_fmap option_map].
        destruct ob as [r' u'|]; cbn [root_of kind_of] in *; injection Hroot as <- <-;
          [by destruct u'|done].
    + destruct (old =? 0).
      * injection Hst as <- <-. cbn [obs_step]. rewrite Hr. subst r. by apply OL_ret.
      * injection Hst as <- <-. cbn [obs_step]. by apply OL_end_call.
    + injection Hst as <- <-. cbn [obs_step]. by apply OL_end_call.
    + injection Hst as <- <-. cbn [obs_step]. by apply OL_end_call.
Qed.

Lemma reach_OL c tr s : b_reach c tr s -> OL s (observe tr).
Proof.
  induction 1 as [|tr s l s' ev Hr IH Hst Hl].
  - split.
    + intros b. cbn [observe fold_left obs_init alive b_init pool]. by rewrite !lookup_empty.
    + intros t p Hp. cbn [b_init calls] in Hp. by rewrite lookup_empty in Hp.
    + intros t Ht. apply lookup_empty.
  - rewrite observe_app. exact (OL_step c s _ l s' ev (b_reach_BI _ _ _ Hr) IH Hst).
Qed.

Lemma reach_app_inv c tr1 tr2 s :
  b_reach c (tr1 ++ tr2) s -> exists s1, b_reach c tr1 s1.
Proof.
  revert s. induction tr2 as [|e tr2 IH] using rev_ind; intros s Hr.
  - rewrite app_nil_r in Hr. by exists s.
  - rewrite app_assoc in Hr. inversion Hr as [Hn|tr' s' l s'' ev Hr' Hst Hl Heq].
    + by destruct (app_cons_not_nil (tr1 ++ tr2) [] e).
    + apply app_inj_tail in Heq as [-> _]. by apply (IH s').
Qed.

(** Steps of other threads do not change the call of [t]. *)
Lemma step_other c s l s' ev t :
  b_step c s l = Some (s', ev) -> l.1 <> t -> calls s' !! t = calls s !! t.
Proof.
  intros Hst Hne. destruct l as [t' a]. cbn [fst] in Hne. unfold b_step in Hst.
  destruct (aborted s); [done|].
  destruct a as [| |b|b|]; destruct (calls s !! t') as [p|] eqn:Ht; try done.
  - injection Hst as Hst. unfold borrow_start, read_start, xread_start in Hst.
    repeat case_match; injection Hst as <- _; cbn [set_call calls]; try done;
      by rewrite lookup_insert_ne.
  - injection Hst as Hst. unfold borrow_mut_start, write_start in Hst.
    repeat case_match; injection Hst as <- _; cbn [set_call calls]; try done;
      by rewrite lookup_insert_ne.
  - destruct (pool s !! b) as [ob|]; [|done]. injection Hst as Hst.
    unfold clone_start in Hst. destruct (root_of b ob). injection Hst as <- _.
    cbn [set_call calls]. by rewrite lookup_insert_ne.
  - destruct (pool s !! b) as [ob|]; [|done]. destruct (may_drop b ob s); [|done].
    injection Hst as <- _. cbn [calls]. by rewrite lookup_insert_ne.
  - injection Hst as Hst. unfold continue in Hst.
    repeat case_match; injection Hst as <- _; cbn [set_call end_call ret_borrow abort calls];
      first [done|by rewrite lookup_insert_ne|by rewrite lookup_delete_ne].
Qed.

(** Decomposition of a trace around the two ends of one call of thread [t]. *)
Lemma call_split c tr1 t a ev0 tr2 ev s' :
  b_reach c (tr1 ++ (t, a, ev0) :: tr2 ++ [(t, AStep, ev)]) s' -> silent t tr2 ->
  exists s1 s2 p s3, b_reach c tr1 s1 /\ b_step c s1 (t, a) = Some (s2, ev0) /\
    calls s2 !! t = Some p /\ calls s3 !! t = Some p /\
    BI s3 /\ (continue t p s3).2 = ev.
Proof.
  intros Hr Hs.
  assert (forall tr2 s3, silent t tr2 -> b_reach c (tr1 ++ (t, a, ev0) :: tr2) s3 ->
    exists s1 s2, b_reach c tr1 s1 /\ b_step c s1 (t, a) = Some (s2, ev0) /\
      calls s3 !! t = calls s2 !! t) as Hgen.
  { clear. intros tr2. induction tr2 as [|e tr2 IH] using rev_ind; intros s3 Hs Hr.
    - inversion Hr as [Hn|tr' s' l s'' ev1 Hr' Hst Hl Heq].
      + by destruct (app_cons_not_nil tr1 [] (t, a, ev0)).
      + apply app_inj_tail in Heq as [-> [= -> ->]]. exists s', s3. done.
    - rewrite app_comm_cons, app_assoc in Hr.
      inversion Hr as [Hn|tr' s' l s'' ev1 Hr' Hst Hl Heq].
      + by destruct (app_cons_not_nil (tr1 ++ (t, a, ev0) :: tr2) [] e).
      + apply app_inj_tail in Heq as [-> <-].
        destruct (IH s') as (s1 & s2 & H1 & H2 & H3); [|done|].
        { intros e' He'. apply Hs. set_solver. }
        exists s1, s2. split_and!; try done. rewrite <- H3.
        apply (step_other c s' l s3 ev1); [done|].
        apply (Hs (l, ev1)). set_solver. }
  rewrite app_comm_cons, app_assoc in Hr.
  inversion Hr as [Hn|tr' s3 l s'' ev1 Hr' Hst Hl Heq].
  { by destruct (app_cons_not_nil (tr1 ++ (t, a, ev0) :: tr2) [] (t, AStep, ev)). }
  apply app_inj_tail in Heq as [-> [= -> ->]].
  destruct (Hgen tr2 s3 Hs Hr') as (s1 & s2 & H1 & H2 & H3).
  unfold b_step in Hst. destruct (aborted s3); [done|].
  destruct (calls s3 !! t) as [p|] eqn:Hp; [|done]. injection Hst as Hst.
  exists s1, s2, p, s3. split_and!; try done.
  - exact (b_reach_BI _ _ _ Hr').
  - by rewrite Hst.
Qed.

(** ** C25 *)

(** An exclusive borrow never coexists with any other borrow, except read-only reborrows of itself. *)
Theorem C25_exclusive_alone c tr s b1 b2 k :
  b_reach c tr s -> alive (observe tr) !! b1 = Some LExcl -> alive (observe tr) !! b2 = Some k ->
  b1 <> b2 -> k = LFrom b1.
Proof.
  intros Hr H1 H2 Hne. pose proof (reach_OL c tr s Hr) as HO. pose proof (b_reach_BI c tr s Hr) as HI.
  rewrite (ol_alive s _ HO) in H1, H2.
  destruct (pool s !! b1) as [o1|] eqn:E1; [|done]. destruct (pool s !! b2) as [o2|] eqn:E2; [|done].
  injection H1 as H1. injection H2 as <-. destruct o1 as [? []|]; try done.
  pose proof (msum_ge wx _ _ _ E1) as W1. cbn [wx] in W1.
  pose proof (bi_x s HI) as Hx. unfold Sx in Hx. assert (Sx s = 1) as Hx1 by (unfold Sx; lia).
  destruct o2 as [r []|]; cbn [kind_of].
  - pose proof (bi_root s HI b2 r E2) as Hroot. f_equal.
    destruct (decide (b1 = r)) as [|Hd]; [done|].
    pose proof (msum_ge2 wx _ _ _ _ _ Hd E1 Hroot) as W2. cbn [wx] in W2. lia.
  - destruct (bi_held s HI Hx1) as (H0 & _). pose proof (msum_ge wn _ _ _ E2) as W2.
    cbn [wn] in W2. unfold Sn in H0. lia.
  - pose proof (msum_ge2 wx _ _ _ _ _ Hne E1 E2) as W2. cbn [wx] in W2. lia.
Qed.

Lemma excl_held s b : BI s -> pool s !! b = Some BExcl -> Sx s = 1 /\ HIGH_BIT <= word s.
Proof.
  intros HI Hb. pose proof (msum_ge wx _ _ _ Hb) as W. cbn [wx] in W.
  pose proof (bi_x s HI) as Hx. assert (Sx s = 1) as H1 by (unfold Sx in *; lia).
  split; [done|]. destruct (bi_held s HI H1) as (_ & ? & _). lia.
Qed.

(** A request made while an exclusive borrow is alive never succeeds. *)
Theorem C25_refused_while_exclusive c tr1 t a ev0 tr2 ev s b :
  b_reach c (tr1 ++ (t, a, ev0) :: tr2 ++ [(t, AStep, ev)]) s -> silent t tr2 ->
  alive (observe tr1) !! b = Some LExcl -> a = ABorrow \/ a = ABorrowMut ->
  ev = EvErr ErrShared \/ ev = EvErr ErrUnique \/ ev = EvAbort.
Proof.
  intros Hr Hs Hb Ha.
  destruct (call_split c tr1 t a ev0 tr2 ev s Hr Hs) as (s1 & s2 & p & s3 & Hr1 & Hst & Hp & Hp3 & HI3 & He).
  pose proof (reach_OL c tr1 s1 Hr1) as HO. pose proof (b_reach_BI c tr1 s1 Hr1) as HI.
  rewrite (ol_alive s1 _ HO) in Hb. destruct (pool s1 !! b) as [o|] eqn:Eb; [|done].
  destruct o as [? []|]; try done. destruct (excl_held s1 b HI Eb) as [_ Hw].
  pose proof (BI_word s1 HI) as Hov.
  assert (0 < word s1) as Hpos by (nums; lia).
  unfold b_step in Hst. destruct (aborted s1); [done|].
  destruct (calls s1 !! t) eqn:Hc1; [by destruct Ha as [-> | ->]|].
  assert (p = ReadGot (word s1 + 1) \/ p = XReadGot (word s1) \/ p = WriteGot (word s1)) as Hcases.
  { destruct Ha as [-> | ->]; injection Hst as Hst.
    - unfold borrow_start, read_start, xread_start in Hst. rewrite fetch_add1_small in Hst by done.
      repeat case_match; injection Hst as <- _; cbn [set_call calls] in Hp;
        rewrite ?lookup_insert in Hp; naive_solver.
    - unfold borrow_mut_start, write_start in Hst.
      repeat case_match; injection Hst as <- _; cbn [set_call calls] in Hp;
        rewrite ?lookup_insert in Hp; naive_solver. }
  destruct Hcases as [-> |[-> | ->]]; cbn [continue] in He.
  - rewrite high_spec in He by done.
    rewrite (proj2 (N.leb_le HIGH_BIT (word s1 + 1))) in He by lia.
    destruct (N.eqb_spec (word s1 + 1) HIGH_BIT); [lia|].
    destruct (MAX_FAILED_BORROWS <=? word s1 + 1); cbn [snd] in He; subst; naive_solver.
  - rewrite (proj2 (N.eqb_neq (word s1) 0)) in He by lia. cbn [snd] in He. subst. naive_solver.
  - rewrite (proj2 (N.eqb_neq (word s1) 0)) in He by lia. cbn [snd] in He. subst. naive_solver.
Qed.

(** No request for an exclusive borrow succeeds while any other borrow is alive. *)
Theorem C25_exclusive_refused_while_borrowed c tr1 t ev0 tr2 ev s b k :
  b_reach c (tr1 ++ (t, ABorrowMut, ev0) :: tr2 ++ [(t, AStep, ev)]) s -> silent t tr2 ->
  alive (observe tr1) !! b = Some k -> ev = EvErr ErrUnique.
Proof.
  intros Hr Hs Hb.
  destruct (call_split c tr1 t _ ev0 tr2 ev s Hr Hs) as (s1 & s2 & p & s3 & Hr1 & Hst & Hp & Hp3 & HI3 & He).
  pose proof (reach_OL c tr1 s1 Hr1) as HO. pose proof (b_reach_BI c tr1 s1 Hr1) as HI.
  rewrite (ol_alive s1 _ HO) in Hb. destruct (pool s1 !! b) as [o|] eqn:Eb; [|done].
  assert (word s1 <> 0) as Hw.
  { destruct (bi_x s1 HI) as [Hx|Hx].
    - destruct (bi_free s1 HI Hx) as [Hw Hu]. unfold Sn, Su, Sx in *.
      pose proof (msum_ge wn _ _ _ Eb). pose proof (msum_ge wu _ _ _ Eb).
      pose proof (msum_ge wx _ _ _ Eb). destruct o as [? []|]; cbn [wn wu wx] in *; lia.
    - destruct (bi_held s1 HI Hx) as (_ & Hw & _). nums. lia. }
  unfold b_step in Hst. destruct (aborted s1); [done|].
  destruct (calls s1 !! t) eqn:Hc1; [done|]. injection Hst as Hst.
  assert (p = WriteGot (word s1)) as ->.
  { unfold borrow_mut_start, write_start in Hst.
    repeat case_match; injection Hst as <- _; cbn [set_call calls] in Hp;
        rewrite ?lookup_insert in Hp; naive_solver. }
  cbn [continue] in He. rewrite (proj2 (N.eqb_neq (word s1) 0)) in He by done. by subst.
Qed.

(** ** C26 *)

(** Something holds the cell after [tr]: a live borrow, a request that is going to succeed or a drop
    that is not over. *)
Definition held (s : bst) (o : obs) : Prop :=
  (exists b k, alive o !! b = Some k) \/
  (exists t r p, waiting o !! t = Some r /\ calls s !! t = Some p /\
     ((exists k, r = RDrop k) \/ exists b, (continue t p s).2 = EvOk b)).
(** The same for exclusive access. *)
Definition held_exclusively (s : bst) (o : obs) : Prop :=
  (exists b, alive o !! b = Some LExcl) \/
  (exists t p, waiting o !! t = Some (RDrop LExcl) /\ calls s !! t = Some p) \/
  (exists t p, waiting o !! t = Some RExcl /\ calls s !! t = Some p /\
     exists b, (continue t p s).2 = EvOk b).

Lemma held_x s o : BI s -> OL s o -> Sx s = 1 -> held_exclusively s o.
Proof.
  intros HI HO Hx. unfold Sx in Hx.
  destruct (decide (0 < msum wx (pool s))) as [Hp|Hp].
  - apply msum_pos in Hp as (b & ob & Hb & Hw). destruct ob as [r []|]; cbn [wx] in Hw; try lia.
    left. exists b. by rewrite (ol_alive s o HO), Hb.
  - assert (0 < msum cx (calls s)) as Hc by lia.
    apply msum_pos in Hc as (t & p & Ht & Hw).
    destruct (ol_wait s o HO t p Ht) as (r & Hr & Hrq).
    destruct p as [| | | | |old| |]; cbn [cx req_ok] in *; try lia; subst r.
    + right; right. exists t, (WriteGot old). split_and!; try done. exists (next_id s).
      cbn [continue]. by destruct (old =? 0).
    + right; left. by exists t, DropX.
Qed.
Lemma held_x_held s o : held_exclusively s o -> held s o.
Proof.
  intros [[b Hb]|[(t & p & Hw & Hc)|(t & p & Hw & Hc & b & He)]].
  - left. by exists b, LExcl.
  - right. exists t, (RDrop LExcl), p. split_and!; try done. left. by exists LExcl.
  - right. exists t, RExcl, p. split_and!; try done. right. by exists b.
Qed.
Lemma held_word s o : BI s -> OL s o -> word s <> 0 -> held s o.
Proof.
  intros HI HO Hw. destruct (bi_x s HI) as [Hx|Hx]; [|by apply held_x_held, held_x].
  destruct (bi_free s HI Hx) as [Hn _]. unfold Sn in Hn.
  destruct (decide (0 < msum wn (pool s))) as [Hp|Hp].
  - apply msum_pos in Hp as (b & ob & Hb & _). left. exists b, (kind_of ob).
    by rewrite (ol_alive s o HO), Hb.
  - assert (0 < msum cn (calls s)) as Hc by lia.
    apply msum_pos in Hc as (t & p & Ht & Hwt).
    destruct (ol_wait s o HO t p Ht) as (r & Hr & Hrq).
    pose proof (bi_pc s HI t p Ht) as Hok.
    destruct p as [new| |old|b rt u new|b|old|rt u|]; cbn [cn req_ok pc_ok] in *; try lia.
    + right. exists t, r, (ReadGot new). split_and!; try done. right. exists (next_id s).
      destruct Hok as [Hlt _]. cbn [continue]. rewrite high_spec by done.
      destruct (N.ltb_spec new HIGH_BIT); [|lia]. by rewrite (proj2 (N.leb_gt _ _)).
    + right. exists t, r, (XReadGot old). split_and!; try done. right. exists (next_id s).
      cbn [continue]. by destruct (old =? 0).
    + destruct Hok as (_ & _ & ob & Hob & _). left. exists b, (kind_of ob).
      by rewrite (ol_alive s o HO), Hob.
    + right. exists t, r, (DropS rt u). split_and!; try done. left. destruct u; eauto.
Qed.

(** An exclusive request fails only if the cell was held by someone when it was made. *)
Theorem C26_exclusive_error_justified c tr1 t ev0 tr2 s :
  b_reach c (tr1 ++ (t, ABorrowMut, ev0) :: tr2 ++ [(t, AStep, EvErr ErrUnique)]) s -> silent t tr2 ->
  exists s1, b_reach c tr1 s1 /\ held s1 (observe tr1).
Proof.
  intros Hr Hs.
  destruct (call_split c tr1 t _ ev0 tr2 _ s Hr Hs) as (s1 & s2 & p & s3 & Hr1 & Hst & Hp & Hp3 & HI3 & He).
  exists s1. split; [done|].
  pose proof (reach_OL c tr1 s1 Hr1) as HO. pose proof (b_reach_BI c tr1 s1 Hr1) as HI.
  apply held_word; try done. intros H0.
  unfold b_step in Hst. destruct (aborted s1); [done|].
  destruct (calls s1 !! t) eqn:Hc1; [done|]. injection Hst as Hst.
  assert (p = WriteGot (word s1)) as ->.
  { unfold borrow_mut_start, write_start in Hst.
    repeat case_match; injection Hst as <- _; cbn [set_call calls] in Hp;
        rewrite ?lookup_insert in Hp; naive_solver. }
  cbn [continue] in He. by rewrite H0 in He.
Qed.

(** A shared request (of a cell that is not restricted to one borrower at a time) fails only if the
    cell was held exclusively when it was made. *)
Theorem C26_shared_error_justified c tr1 t ev0 tr2 s :
  ~ (c_sync c = false /\ c_send c = None) ->
  b_reach c (tr1 ++ (t, ABorrow, ev0) :: tr2 ++ [(t, AStep, EvErr ErrShared)]) s -> silent t tr2 ->
  exists s1, b_reach c tr1 s1 /\ held_exclusively s1 (observe tr1).
Proof.
  intros Hcfg Hr Hs.
  destruct (call_split c tr1 t _ ev0 tr2 _ s Hr Hs) as (s1 & s2 & p & s3 & Hr1 & Hst & Hp & Hp3 & HI3 & He).
  exists s1. split; [done|].
  pose proof (reach_OL c tr1 s1 Hr1) as HO. pose proof (b_reach_BI c tr1 s1 Hr1) as HI.
  apply held_x; try done. destruct (bi_x s1 HI) as [Hx|]; [exfalso|done].
  destruct (bi_free s1 HI Hx) as [Hw _]. pose proof (load_bounds s1) as [Hlb _].
  pose proof (bi_load s1 HI) as Hl.
  unfold b_step in Hst. destruct (aborted s1); [done|].
  destruct (calls s1 !! t) eqn:Hc1; [done|]. injection Hst as Hst.
  assert (p = ReadGot (word s1 + 1)) as ->.
  { unfold borrow_start, read_start in Hst. rewrite fetch_add1_small in Hst by (by apply BI_word).
    destruct (c_sync c) eqn:E1; [|destruct (c_send c) as [h|] eqn:E2; [|naive_solver]].
    - injection Hst as <- _; cbn [set_call calls] in Hp;
        rewrite ?lookup_insert in Hp; naive_solver.
    - destruct (h =? t); injection Hst as <- _; cbn [set_call calls] in Hp;
        rewrite ?lookup_insert in Hp; naive_solver. }
  cbn [continue] in He. rewrite high_spec in He by (nums; lia).
  rewrite (proj2 (N.leb_gt HIGH_BIT (word s1 + 1))) in He by (nums; lia). done.
Qed.

(** No request panics, whatever the number of failed requests before. *)
Theorem C26_no_panic c tr t a ev s : b_reach c (tr ++ [(t, a, ev)]) s -> ev <> EvPanic.
Proof.
  intros Hr. inversion Hr as [Hn|tr' s' l s'' ev1 Hr' Hst Hl Heq].
  { by destruct (app_cons_not_nil tr [] (t, a, ev)). }
  apply app_inj_tail in Heq as [-> [= -> ->]]. pose proof (b_reach_BI c tr s' Hr') as HI.
  unfold b_step in Hst. destruct (aborted s'); [done|].
  destruct a as [| |b|b|]; destruct (calls s' !! t) as [p|] eqn:Ht; try done.
  - injection Hst as Hst. unfold borrow_start, read_start, xread_start in Hst.
    repeat case_match; naive_solver.
  - injection Hst as Hst. unfold borrow_mut_start, write_start in Hst.
    repeat case_match; naive_solver.
  - destruct (pool s' !! b) as [ob|]; [|done]. unfold clone_start in Hst.
    destruct (root_of b ob). naive_solver.
  - destruct (pool s' !! b) as [ob|]; [|done]. destruct (may_drop b ob s'); [|done].
    unfold drop_start in Hst. naive_solver.
  - injection Hst as Hst. pose proof (bi_pc s' HI t p Ht) as Hok.
    destruct p; cbn [pc_ok continue] in *; try done; repeat case_match; naive_solver.
Qed.

(** May thread [t] make request [a]? *)
Definition allowed_thread (c : cell_cfg) (a : action) (t : N) : Prop :=
  match a with
  | ABorrow => c_sync c = true \/ c_send c = None \/ c_send c = Some t
  | ABorrowMut => c_send c = None \/ c_send c = Some t
  | _ => False
  end.

(** Once every borrow is dropped and no call is running, the next request of either kind (from a
    thread that may access the cell) succeeds. *)
Theorem C26_free_again c tr s t a :
  b_reach c tr s -> aborted s = false -> alive (observe tr) = ∅ -> waiting (observe tr) = ∅ ->
  allowed_thread c a t ->
  exists s1 s2 b, b_step c s (t, a) = Some (s1, EvTau) /\ b_step c s1 (t, AStep) = Some (s2, EvOk b).
Proof.
  intros Hr Hab Ha Hw Hal. pose proof (reach_OL c tr s Hr) as HO.
  pose proof (b_reach_BI c tr s Hr) as HI.
  assert (pool s = ∅) as Hp.
  { apply map_eq. intros b. pose proof (ol_alive s _ HO b) as H. rewrite Ha in H.
    rewrite lookup_empty in *. by destruct (pool s !! b). }
  assert (calls s = ∅) as Hc.
  { apply map_eq. intros t'. rewrite lookup_empty. destruct (calls s !! t') as [p|] eqn:Ht; [|done].
    destruct (ol_wait s _ HO t' p Ht) as (r & Hr' & _). by rewrite Hw, lookup_empty in Hr'. }
  assert (word s = 0) as H0.
  { assert (Sx s = 0) as Hx by (unfold Sx; by rewrite Hp, Hc, !msum_empty).
    destruct (bi_free s HI Hx) as [-> _]. unfold Sn. by rewrite Hp, Hc, !msum_empty. }
  assert (calls s !! t = None) as Ht by (by rewrite Hc, lookup_empty).
  assert (forall p w, b_step c (set_call t p w s) (t, AStep) = Some (continue t p (set_call t p w s)))
    as Hcont.
  { intros p w. unfold b_step. cbn [set_call aborted calls]. by rewrite Hab, lookup_insert. }
  destruct a as [| |b|b|]; cbn [allowed_thread] in Hal; try done; unfold b_step at 1;
    rewrite Hab, Ht.
  - assert (borrow_start c t s = read_start t s \/ borrow_start c t s = xread_start t s) as Hs.
    { unfold borrow_start. destruct (c_sync c); [by left|].
      destruct (c_send c) as [h|]; [|by right]. left.
      destruct Hal as [|[|[= ->]]]; try done. by rewrite N.eqb_refl. }
    destruct Hs as [-> | ->].
    + unfold read_start. rewrite fetch_add1_small by (rewrite H0; done). rewrite H0.
      eexists _, _, _. split; [done|]. rewrite Hcont. cbn. done.
    + unfold xread_start. rewrite H0. eexists _, _, _. split; [done|]. rewrite Hcont. cbn. done.
  - assert (borrow_mut_start c t s = write_start t s) as ->.
    { unfold borrow_mut_start. destruct (c_send c) as [h|]; [|done].
      destruct Hal as [|[= ->]]; try done. by rewrite N.eqb_refl. }
    unfold write_start. rewrite H0. eexists _, _, _. split; [done|]. rewrite Hcont. cbn. done.
Qed.

(** ** C57: cells whose content is not Sync or not Send *)

(** Content that is Send but not Sync: a request of either kind is refused while any borrow is alive,
    so all live borrows descend from a single successful request. *)
Theorem C57_not_sync_one_borrower c tr1 t a ev0 tr2 ev s b k :
  c_sync c = false -> c_send c = None -> a = ABorrow \/ a = ABorrowMut ->
  b_reach c (tr1 ++ (t, a, ev0) :: tr2 ++ [(t, AStep, ev)]) s -> silent t tr2 ->
  alive (observe tr1) !! b = Some k -> exists e, ev = EvErr e.
Proof.
  intros Hsy Hse Ha Hr Hs Hb.
  destruct Ha as [-> | ->].
  2: { exists ErrUnique. exact (C25_exclusive_refused_while_borrowed c tr1 t ev0 tr2 ev s b k Hr Hs Hb). }
  destruct (call_split c tr1 t _ ev0 tr2 ev s Hr Hs) as (s1 & s2 & p & s3 & Hr1 & Hst & Hp & Hp3 & HI3 & He).
  pose proof (reach_OL c tr1 s1 Hr1) as HO. pose proof (b_reach_BI c tr1 s1 Hr1) as HI.
  rewrite (ol_alive s1 _ HO) in Hb. destruct (pool s1 !! b) as [o|] eqn:Eb; [|done].
  assert (word s1 <> 0) as Hw.
  { destruct (bi_x s1 HI) as [Hx|Hx].
    - destruct (bi_free s1 HI Hx) as [Hw Hu]. unfold Sn, Su, Sx in *.
      pose proof (msum_ge wn _ _ _ Eb). pose proof (msum_ge wu _ _ _ Eb).
      pose proof (msum_ge wx _ _ _ Eb). destruct o as [? []|]; cbn [wn wu wx] in *; lia.
    - destruct (bi_held s1 HI Hx) as (_ & Hw & _). nums. lia. }
  unfold b_step in Hst. destruct (aborted s1); [done|].
  destruct (calls s1 !! t) eqn:Hc1; [done|]. injection Hst as Hst.
  unfold borrow_start, xread_start in Hst. rewrite Hsy, Hse in Hst. injection Hst as <- _.
  cbn [set_call calls] in Hp. rewrite lookup_insert in Hp. injection Hp as <-.
  cbn [continue] in He. rewrite (proj2 (N.eqb_neq (word s1) 0)) in He by done.
  by exists ErrShared.
Qed.

(** Content that is not Send: no thread but its own ever obtains an exclusive borrow from the cell; if
    it is not Sync either, it obtains no borrow at all. *)
Theorem C57_not_send_home_thread c tr t a ev s home :
  c_send c = Some home -> t <> home -> a = ABorrowMut \/ (a = ABorrow /\ c_sync c = false) ->
  b_reach c (tr ++ [(t, a, ev)]) s ->
  ev = EvErr ErrWrongThread /\ alive (observe (tr ++ [(t, a, ev)])) = alive (observe tr) /\
  exists s0, b_reach c tr s0 /\ s = s0.
Proof.
  intros Hse Hne Ha Hr. inversion Hr as [Hn|tr' s' l s'' ev1 Hr' Hst Hl Heq].
  { by destruct (app_cons_not_nil tr [] (t, a, ev)). }
  apply app_inj_tail in Heq as [-> [= -> ->]].
  assert (s = s' /\ ev = EvErr ErrWrongThread) as [-> ->].
  { unfold b_step in Hst. destruct (aborted s'); [done|].
    destruct Ha as [-> | [-> Hsy]]; destruct (calls s' !! t); try done; injection Hst as Hst.
    - unfold borrow_mut_start in Hst. rewrite Hse in Hst.
      rewrite (proj2 (N.eqb_neq home t)) in Hst by congruence. naive_solver.
    - unfold borrow_start in Hst. rewrite Hse, Hsy in Hst.
      rewrite (proj2 (N.eqb_neq home t)) in Hst by congruence. naive_solver. }
  split_and!; [done| |].
  - rewrite observe_app. cbn [obs_step alive]. done.
  - by exists s'.
Qed.

(** ** Examples: the hypotheses can be met *)
Lemma b_run_reach c ls : forall tr0 s0 s tr,
  b_reach c tr0 s0 -> b_run c s0 ls = Some (s, tr) -> b_reach c (tr0 ++ tr) s.
Proof.
  induction ls as [|l ls IH]; intros tr0 s0 s tr Hr Hrun; cbn [b_run] in Hrun.
  - injection Hrun as <- <-. by rewrite app_nil_r.
  - destruct (b_step c s0 l) as [[s1 ev]|] eqn:Hst; [|done].
    destruct (N.ltb_spec (load s1) (2 ^ 62)) as [Hl|]; [|done].
    destruct (b_run c s1 ls) as [[s2 tr2]|] eqn:Hrun2; [|done]. injection Hrun as <- <-.
    replace (tr0 ++ (l, ev) :: tr2) with ((tr0 ++ [(l, ev)]) ++ tr2) by (by rewrite <- app_assoc).
    apply (IH _ s1); [|done]. by apply (b_reach_step c tr0 s0).
Qed.

Lemma b_run_reach0 c ls r : b_run c b_init ls = Some r -> b_reach c r.2 r.1.
Proof.
  destruct r as [s tr]. intros Hrun. exact (b_run_reach c ls [] b_init s tr (b_reach_init c) Hrun).
Qed.

Definition ex_cfg : cell_cfg := {| c_send := None; c_sync := true |}.
(** Thread 1 takes an exclusive borrow, makes a read-only view of it and clones the view; threads 2
    and 3 are refused meanwhile; everything is dropped and thread 2 is served. *)
Definition ex_labels : list (N * action) :=
  [ (1, ABorrowMut); (1, AStep); (2, ABorrow); (1, AClone 0); (3, ABorrowMut); (1, AStep);
    (2, AStep); (1, AClone 1); (3, AStep); (1, AStep); (1, ADrop 1); (2, ABorrow); (1, AStep);
    (1, ADrop 2); (1, AStep); (1, ADrop 0); (2, AStep); (1, AStep);
    (2, ABorrow); (2, AStep) ].
Definition ex_final : bst * list (N * action * event) :=
  default (b_init, []) (b_run ex_cfg b_init ex_labels).
Example ex_borrow_events :
  ex_final.2.*2 = [ EvTau; EvOk 0; EvTau; EvTau; EvTau; EvOk 1; EvErr ErrShared; EvTau;
    EvErr ErrUnique; EvOk 2; EvTau; EvTau; EvDropped; EvTau; EvDropped; EvTau; EvErr ErrShared;
    EvDropped; EvTau; EvOk 3 ].
Proof. vm_compute. reflexivity. Qed.
Example ex_borrow_reach : b_reach ex_cfg ex_final.2 ex_final.1.
Proof.
  assert (b_run ex_cfg b_init ex_labels = Some ex_final) as H by (vm_compute; reflexivity).
  exact (b_run_reach0 ex_cfg ex_labels ex_final H).
Qed.
(** After ten steps the exclusive borrow 0 is alive together with two read-only views of it. *)
Example ex_C25 :
  let o := observe (take 10 ex_final.2) in
  alive o !! 0 = Some LExcl /\ alive o !! 1 = Some (LFrom 0) /\ alive o !! 2 = Some (LFrom 0).
Proof. vm_compute. done. Qed.
(** Hypotheses of C26_free_again: after the last drop nothing is alive and no call is running. *)
Example ex_C26 :
  let o := observe (take 18 ex_final.2) in alive o = ∅ /\ waiting o = ∅.
Proof. split; apply map_to_list_empty_iff; vm_compute; reflexivity. Qed.
Example ex_C57 :
  let c := {| c_send := None; c_sync := false |} in
  exists s tr, b_run c b_init [(1, ABorrow); (1, AStep); (1, AClone 0); (1, AStep); (1, ADrop 0);
    (1, AStep); (2, ABorrow); (2, AStep)] = Some (s, tr) /\ tr.*2 !! 7%nat = Some (EvErr ErrShared).
Proof. eexists _, _. split; vm_compute; reflexivity. Qed.

Print Assumptions C25_exclusive_alone.
Print Assumptions C25_refused_while_exclusive.
Print Assumptions C25_exclusive_refused_while_borrowed.
Print Assumptions C26_exclusive_error_justified.
Print Assumptions C26_shared_error_justified.
Print Assumptions C26_no_panic.
Print Assumptions C26_free_again.
Print Assumptions C57_not_sync_one_borrower.
Print Assumptions C57_not_send_home_thread.
