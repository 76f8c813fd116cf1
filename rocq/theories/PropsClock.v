(** Properties of timestamps in concurrent executions (C54, C58). *)
From stdpp Require Import prelude list gmap.
From Coq Require Import NArith.
From Verif Require Import EntityId Base SparseSet Clock ClockSpec.
Open Scope N_scope.

(** ** Invariant *)
Definition k_current (ph : phase) : option N :=
  match ph with KStarted => None | KStamped c | KSwapped _ c | KHolding _ c => Some c end.
Definition k_last (ph : phase) : option N :=
  match ph with KStarted | KStamped _ => None | KSwapped l _ | KHolding l _ => Some l end.

Record KI (tr : ktrace) (s : kst) : Prop := {
  ki_clock : forall o t, stamped tr o t -> 1 <= t /\ t < clock s /\ o < next_op s;
  ki_op : forall o p, ops s !! o = Some p ->
    o < next_op s /\ (KStart (op_sys p) (op_excl p), KeStarted o) ∈ tr /\
    match k_current (op_phase p) with Some c => stamped tr o c | None => forall t, ~ stamped tr o t end;
  ki_start : forall a o, (a, KeStarted o) ∈ tr -> o < next_op s;
  ki_fun : forall o t t', stamped tr o t -> stamped tr o t' -> t = t';
  ki_last : forall j, last_run s j = 0 \/
    exists r, run_of tr r j /\ stamped tr r (last_run s j) /\
      forall p, ops s !! r = Some p -> is_Some (k_last (op_phase p));
  ki_l : forall o p l j, ops s !! o = Some p -> k_last (op_phase p) = Some l -> op_sys p = Some j ->
    l = 0 \/ exists r, r <> o /\ run_of tr r j /\ stamped tr r l;
  ki_stamps : forall e t, stamps s !! e = Some t -> t < clock s;
  ki_pos : 1 <= clock s
}.

Lemma stamped_app tr x o t :
  stamped (tr ++ [x]) o t <-> stamped tr o t \/ x = (KNext o, KeStamp t).
Proof. unfold stamped. rewrite elem_of_app, elem_of_list_singleton. naive_solver. Qed.
Lemma run_of_app tr x o j : run_of tr o j -> run_of (tr ++ [x]) o j.
Proof. intros [ex H]. exists ex. apply elem_of_app. by left. Qed.
Lemma started_app tr x (a : kaction) o : (a, KeStarted o) ∈ tr -> (a, KeStarted o) ∈ tr ++ [x].
Proof. intros H. apply elem_of_app. by left. Qed.

(** Steps that do not stamp or start. *)
Lemma KI_quiet tr s x s' :
  KI tr s -> (forall o t, x <> (KNext o, KeStamp t)) -> (forall a o, x <> (a, KeStarted o)) ->
  clock s' = clock s -> next_op s' = next_op s ->
  (forall o p', ops s' !! o = Some p' -> exists p, ops s !! o = Some p /\ op_sys p' = op_sys p /\
     op_excl p' = op_excl p /\ k_current (op_phase p') = k_current (op_phase p) /\
     (is_Some (k_last (op_phase p)) -> is_Some (k_last (op_phase p'))) /\
     forall l, k_last (op_phase p') = Some l -> k_last (op_phase p) = Some l \/
       op_sys p = None \/ exists j, op_sys p = Some j /\ l = last_run s j /\ k_last (op_phase p) = None) ->
  (forall j, last_run s' j = last_run s j \/
     exists r p, ops s !! r = Some p /\ op_sys p = Some j /\ k_current (op_phase p) = Some (last_run s' j) /\
       forall p', ops s' !! r = Some p' -> is_Some (k_last (op_phase p'))) ->
  (forall e t, stamps s' !! e = Some t -> stamps s !! e = Some t \/
     exists r p, ops s !! r = Some p /\ k_current (op_phase p) = Some t) ->
  KI (tr ++ [x]) s'.
Proof.
  intros HI Hns Hnst Ec En Hops Hlr Hst.
  assert (forall o t, stamped (tr ++ [x]) o t <-> stamped tr o t) as Hs.
  { intros o t. rewrite stamped_app. split; [|by left]. intros [|H]; [done|]. by destruct (Hns o t). }
  split; rewrite ?Ec, ?En.
  - intros o t. rewrite Hs. apply (ki_clock tr s HI).
  - intros o p' Hp'. destruct (Hops o p' Hp') as (p & Hp & E1 & E2 & E3 & _).
    destruct (ki_op tr s HI o p Hp) as (H1 & H2 & H3). rewrite E1, E2, E3. split_and!; [done|by apply started_app|].
    destruct (k_current (op_phase p)); [by rewrite Hs|]. intros t. by rewrite Hs.
  - intros a o Hin. apply elem_of_app in Hin as [Hin|Hin]; [by apply (ki_start tr s HI a)|].
    apply elem_of_list_singleton in Hin. by destruct (Hnst a o).
  - intros o t t'. rewrite !Hs. apply (ki_fun tr s HI).
  - intros j. destruct (Hlr j) as [->|(r & p & Hp & Hj & Hc & Hl)].
    + destruct (ki_last tr s HI j) as [|(r & H1 & H2 & H3)]; [by left|right].
      exists r. split_and!; [by apply run_of_app|by rewrite Hs|].
      intros p' Hp'. destruct (Hops r p' Hp') as (p & Hp & _ & _ & _ & E & _). apply E. by apply H3.
    + right. exists r. destruct (ki_op tr s HI r p Hp) as (H1 & H2 & H3). rewrite Hc in H3. rewrite Hj in H2.
      split_and!; [|by rewrite Hs|done]. apply run_of_app. by eexists.
  - intros o p' l j Hp' Hl Hj. destruct (Hops o p' Hp') as (p & Hp & E1 & E2 & E3 & E4 & E5).
    rewrite E1 in Hj. destruct (E5 l Hl) as [H|[H|(j' & H1 & H2 & H3)]]; [| congruence |].
    + destruct (ki_l tr s HI o p l j Hp H Hj) as [|(r & H1 & H2 & H3)]; [by left|right].
      exists r. split_and!; [done|by apply run_of_app|by rewrite Hs].
    + assert (j' = j) as -> by congruence. subst l.
      destruct (ki_last tr s HI j) as [|(r & H4 & H5 & H6)]; [by left|right].
      exists r. split_and!; [|by apply run_of_app|by rewrite Hs].
      intros ->. destruct (H6 p Hp) as [? ?]. congruence.
  - intros e t Ht. destruct (Hst e t Ht) as [H|(r & p & Hp & Hc)]; [by apply (ki_stamps tr s HI e)|].
    destruct (ki_op tr s HI r p Hp) as (_ & _ & H3). rewrite Hc in H3.
    by destruct (ki_clock tr s HI r t H3) as (_ & ? & _).
  - apply (ki_pos tr s HI).
Qed.

Lemma KI_del tr s x o :
  KI tr s -> (forall o t, x <> (KNext o, KeStamp t)) -> (forall a o, x <> (a, KeStarted o)) ->
  KI (tr ++ [x]) (del_op o s).
Proof.
  intros HI H1 H2. apply (KI_quiet tr s); try done.
  - intros o' p' Hp'. cbn [del_op ops] in Hp'. apply lookup_delete_Some in Hp' as [_ Hp'].
    exists p'. split_and!; try done. by left.
  - by left.
  - by left.
Qed.

Lemma KI_borrow tr s x o p ph l c :
  KI tr s -> (forall o t, x <> (KNext o, KeStamp t)) -> (forall a o, x <> (a, KeStarted o)) ->
  ops s !! o = Some p -> op_phase p = ph -> k_current ph = Some c ->
  (k_last ph = Some l \/ op_sys p = None) ->
  KI (tr ++ [x]) (k_borrow o p l c s).1.
Proof.
  intros HI H1 H2 Hp Hph Hc Hl. unfold k_borrow.
  destruct (k_can_borrow (op_excl p) s); cbn [fst]; [|by apply KI_del].
  apply (KI_quiet tr s); try done.
  - intros o' p' Hp'. cbn [set_op ops] in Hp'. destruct (decide (o' = o)) as [->|Hne].
    + rewrite lookup_insert in Hp'. injection Hp' as <-. exists p. cbn [with_phase op_sys op_excl op_phase].
      split_and!; try done.
      * by rewrite Hph, Hc.
      * intros l' [= <-]. rewrite Hph. destruct Hl as [->|Hl]; [by left|by right; left].
    + rewrite lookup_insert_ne in Hp' by done. exists p'. split_and!; try done. by left.
  - by left.
  - by left.
Qed.

Lemma KI_step tr s a s' ev :
  KI tr s -> clock s + 1 < 2 ^ 64 -> k_step s a = Some (s', ev) -> KI (tr ++ [(a, ev)]) s'.
Proof.
  intros HI Hc Hst. destruct a as [sys excl|o|o e|o e|o]; cbn [k_step] in Hst.
  - injection Hst as <- <-.
    assert (forall o t, stamped (tr ++ [(KStart sys excl, KeStarted (next_op s))]) o t <-> stamped tr o t) as Hs.
    { intros o t. rewrite stamped_app. naive_solver. }
    split; cbn [clock next_op ops stamps].
    + intros o t. rewrite Hs. intros H. destruct (ki_clock tr s HI o t H) as (? & ? & ?). lia.
    + intros o p Hp. destruct (decide (o = next_op s)) as [->|Hne].
      * rewrite lookup_insert in Hp. injection Hp as <-. cbn [op_sys op_excl op_phase k_current]. split_and!.
        -- lia.
        -- apply elem_of_app. right. by apply elem_of_list_singleton.
        -- intros t. rewrite Hs. intros H. destruct (ki_clock tr s HI _ t H) as (_ & _ & ?). lia.
      * rewrite lookup_insert_ne in Hp by done. destruct (ki_op tr s HI o p Hp) as (H1 & H2 & H3).
        split_and!; [lia|by apply started_app|]. destruct (k_current (op_phase p)); [by rewrite Hs|].
        intros t. by rewrite Hs.
    + intros a o Hin. apply elem_of_app in Hin as [Hin|Hin].
      * pose proof (ki_start tr s HI a o Hin). lia.
      * apply elem_of_list_singleton in Hin. injection Hin as _ ->. lia.
    + intros o t t'. rewrite !Hs. apply (ki_fun tr s HI).
    + intros j. destruct (ki_last tr s HI j) as [H|(r & H1 & H2 & H3)]; [by left|right].
      exists r. split_and!; [by apply run_of_app|by rewrite Hs|].
      intros p Hp. destruct (decide (r = next_op s)) as [->|Hne].
      * destruct (ki_clock tr s HI _ _ H2) as (_ & _ & ?). lia.
      * rewrite lookup_insert_ne in Hp by done. by apply H3.
    + intros o p l j Hp Hl Hj. destruct (decide (o = next_op s)) as [->|Hne].
      * rewrite lookup_insert in Hp. by injection Hp as <-.
      * rewrite lookup_insert_ne in Hp by done.
        destruct (ki_l tr s HI o p l j Hp Hl Hj) as [|(r & H1 & H2 & H3)]; [by left|right].
        exists r. split_and!; [done|by apply run_of_app|by rewrite Hs].
    + apply (ki_stamps tr s HI).
    + apply (ki_pos tr s HI).
  - destruct (ops s !! o) as [p|] eqn:Hp; [|done]. unfold k_next in Hst.
    destruct (op_phase p) as [|c|l c|l c] eqn:Hph.
    + injection Hst as <- <-. rename Hc into Hck.
      destruct (ki_op tr s HI o p Hp) as (Ho & Hos & Hns). rewrite Hph in Hns. cbn [k_current] in Hns.
      pose proof (ki_pos tr s HI) as Hpos.
      assert ((clock s + 1) mod 2 ^ 64 = clock s + 1) as Em by (by apply N.mod_small).
      split; cbn [set_op tick clock next_op ops stamps]; rewrite ?Em.
      * intros o' t. rewrite stamped_app. intros [H|[= <- <-]]; [|lia].
        destruct (ki_clock tr s HI o' t H) as (? & ? & ?). lia.
      * intros o' p' Hp'. destruct (decide (o' = o)) as [->|Hne].
        -- rewrite lookup_insert in Hp'. injection Hp' as <-.
           cbn [with_phase op_sys op_excl op_phase k_current]. split_and!; [done|by apply started_app|].
           apply stamped_app. by right.
        -- rewrite lookup_insert_ne in Hp' by done. destruct (ki_op tr s HI o' p' Hp') as (H1 & H2 & H3).
           split_and!; [done|by apply started_app|].
           destruct (k_current (op_phase p')); [apply stamped_app; by left|].
           intros t. rewrite stamped_app. intros [H|[= E _]]; [by apply (H3 t)|]. by symmetry in E.
      * intros a o' Hin. apply elem_of_app in Hin as [Hin|Hin]; [by apply (ki_start tr s HI a)|].
        by apply elem_of_list_singleton in Hin.
      * intros o' t t'. rewrite !stamped_app. intros [H|[= E1 E2]] [H'|[= E3 E4]].
        -- by apply (ki_fun tr s HI o').
        -- subst o'. by destruct (Hns t).
        -- subst o'. by destruct (Hns t').
        -- congruence.
      * intros j. change (last_run _ j) with (last_run s j).
        destruct (ki_last tr s HI j) as [H|(r & H1 & H2 & H3)]; [by left|right].
        exists r. split_and!; [by apply run_of_app|apply stamped_app; by left|].
        intros p' Hp'. destruct (decide (r = o)) as [->|Hne]; [by destruct (Hns _ H2)|].
        rewrite lookup_insert_ne in Hp' by done. by apply H3.
      * intros o' p' l j Hp' Hl Hj. destruct (decide (o' = o)) as [->|Hne].
        { rewrite lookup_insert in Hp'. by injection Hp' as <-. }
        rewrite lookup_insert_ne in Hp' by done.
        destruct (ki_l tr s HI o' p' l j Hp' Hl Hj) as [|(r & H1 & H2 & H3)]; [by left|right].
        exists r. split_and!; [done|by apply run_of_app|apply stamped_app; by left].
      * intros e t Ht. pose proof (ki_stamps tr s HI e t Ht). lia.
      * lia.
    + destruct (op_sys p) as [j|] eqn:Hj.
      * injection Hst as <- <-. apply (KI_quiet tr s); try done.
        -- intros o' p' Hp'. cbn [set_op swap ops] in Hp'. destruct (decide (o' = o)) as [->|Hne].
           ++ rewrite lookup_insert in Hp'. injection Hp' as <-. exists p.
              cbn [with_phase op_sys op_excl op_phase k_current k_last]. rewrite Hph. split_and!; try done.
              intros l [= <-]. right; right. by exists j.
           ++ rewrite lookup_insert_ne in Hp' by done. exists p'. split_and!; try done. by left.
        -- intros j'. destruct (decide (j' = j)) as [->|Hne].
           ++ right. exists o, p. unfold last_run. cbn [set_op swap last_runs ops]. rewrite lookup_insert.
              cbn [default from_option id]. rewrite Hph. split_and!; try done.
              intros p'. rewrite lookup_insert. intros [= <-]. by eexists.
           ++ left. unfold last_run. cbn [set_op swap last_runs]. by rewrite lookup_insert_ne.
        -- by left.
      * injection Hst as E. pose proof (KI_borrow tr s (KNext o, ev) o p (KStamped c) 0 c HI) as HB.
        replace s' with (k_borrow o p 0 c s).1 by (by rewrite E).
        assert (ev = (k_borrow o p 0 c s).2) as Eev by (by rewrite E).
        assert (forall t, ev <> KeStamp t) as He1.
        { intros t. rewrite Eev. unfold k_borrow. by destruct (k_can_borrow _ _). }
        assert (forall t, ev <> KeStarted t) as He2.
        { intros t. rewrite Eev. unfold k_borrow. by destruct (k_can_borrow _ _). }
        apply HB; try done; [naive_solver|naive_solver|by right].
    + injection Hst as E. pose proof (KI_borrow tr s (KNext o, ev) o p (KSwapped l c) l c HI) as HB.
      replace s' with (k_borrow o p l c s).1 by (by rewrite E).
      assert (ev = (k_borrow o p l c s).2) as Eev by (by rewrite E).
      assert (forall t, ev <> KeStamp t) as He1.
      { intros t. rewrite Eev. unfold k_borrow. by destruct (k_can_borrow _ _). }
      assert (forall t, ev <> KeStarted t) as He2.
      { intros t. rewrite Eev. unfold k_borrow. by destruct (k_can_borrow _ _). }
      apply HB; try done; [naive_solver|naive_solver|by left].
    + done.
  - destruct (ops s !! o) as [p|] eqn:Hp; [|done]. destruct (op_excl p); [|done].
    destruct (op_phase p) as [|c|l c|l c] eqn:Hph; try done. injection Hst as <- <-.
    apply (KI_quiet tr s); try done.
    + intros o' p' Hp'. exists p'. split_and!; try done. by left.
    + by left.
    + intros e' t Ht. cbn [stamp stamps] in Ht. destruct (decide (e' = e)) as [->|Hne].
      * rewrite lookup_insert in Ht. injection Ht as <-. right. exists o, p. by rewrite Hph.
      * rewrite lookup_insert_ne in Ht by done. by left.
  - destruct (ops s !! o) as [p|] eqn:Hp; [|done]. destruct (op_sys p); [|done].
    destruct (op_phase p) as [|c|l c|l c] eqn:Hph; try done. injection Hst as <- <-.
    apply (KI_quiet tr s); try done.
    + intros o' p' Hp'. exists p'. split_and!; try done. by left.
    + by left.
    + by left.
  - destruct (ops s !! o) as [p|] eqn:Hp; [|done].
    destruct (op_phase p) as [|c|l c|l c] eqn:Hph; try done. injection Hst as <- <-. by apply KI_del.
Qed.

Lemma KI_init : KI [] k_init.
Proof.
  split; cbn; try done.
  - intros o t H. by apply elem_of_nil in H.
  - intros a o H. by apply elem_of_nil in H.
  - intros o t t' H. by apply elem_of_nil in H.
  - by left.
Qed.
Lemma k_reach_KI tr s : k_reach tr s -> KI tr s.
Proof. induction 1; [apply KI_init|by apply (KI_step tr s)]. Qed.

(** ** C54 *)
Lemma k_reach_split tr1 tr2 s : k_reach (tr1 ++ tr2) s ->
  exists s1, k_reach tr1 s1 /\ forall o t, stamped tr2 o t -> clock s1 <= t.
Proof.
  remember (tr1 ++ tr2) as tr eqn:E. intros Hr. revert tr1 tr2 E.
  induction Hr as [|tr s a s' ev Hr IH Hc Hst]; intros tr1 tr2 E.
  - symmetry in E. apply app_nil in E as [-> ->]. exists k_init. split; [constructor|].
    intros o t H. by apply elem_of_nil in H.
  - destruct tr2 as [|x tr2 _] using rev_ind.
    + rewrite app_nil_r in E. subst tr1. exists s'. split; [by apply (k_reach_step tr s)|].
      intros o t H. by apply elem_of_nil in H.
    + rewrite app_assoc in E. apply app_inj_tail in E as [E <-].
      destruct (IH tr1 tr2 E) as (s1 & Hs1 & Hlt). exists s1. split; [done|].
      assert (clock s1 <= clock s) as Hmono.
      { (* the clock does not go back along a run *)
        clear Hst Hlt IH. subst tr. clear Hc. revert s1 Hs1.
        remember (tr1 ++ tr2) as tr eqn:E. revert tr1 tr2 E.
        induction Hr as [|tr s b s2 ev2 Hr IH Hc Hst]; intros tr1 tr2 E s1 Hs1.
        - symmetry in E. apply app_nil in E as [-> ->]. inversion Hs1; [done|]. by destruct tr.
        - destruct tr2 as [|x tr2 _] using rev_ind.
          + rewrite app_nil_r in E. subst tr1.
            assert (s1 = s2) as ->; [|done].
            assert (forall tr s s', k_reach tr s -> k_reach tr s' -> s = s') as Hdet.
            { clear. intros tr s s' Hr. revert s'. induction Hr as [|tr s a s2 ev Hr IH Hc Hst]; intros s' Hr'.
              - inversion Hr'; [done|]. by destruct tr.
              - inversion Hr' as [|tr' s0 a' s0' ev' Hr0 Hc0 Hst0 E]; [by destruct tr|].
                apply app_inj_tail in E as [-> [= -> ->]].
                rewrite (IH s0 Hr0) in Hst. congruence. }
            apply (Hdet _ _ _ Hs1). by apply (k_reach_step tr s).
          + rewrite app_assoc in E. apply app_inj_tail in E as [E _].
            pose proof (IH tr1 tr2 E s1 Hs1) as Hle. etrans; [exact Hle|]. clear -Hst Hc.
            assert ((clock s + 1) mod 2 ^ 64 = clock s + 1) as Em by (by apply N.mod_small).
            destruct b as [sys ex|o|o e|o e|o]; cbn [k_step] in Hst.
            * by injection Hst as <- _.
            * destruct (ops s !! o) as [p|]; [|done]. unfold k_next, k_borrow in Hst.
              destruct (op_phase p); try done; try (destruct (op_sys p));
                try (destruct (k_can_borrow _ _)); injection Hst as <- _; cbn [set_op del_op swap tick clock];
                try done; rewrite Em; lia.
            * destruct (ops s !! o) as [p|]; [|done]. destruct (op_excl p), (op_phase p); try done.
              by injection Hst as <- _.
            * destruct (ops s !! o) as [p|]; [|done]. destruct (op_sys p), (op_phase p); try done.
              by injection Hst as <- _.
            * destruct (ops s !! o) as [p|]; [|done]. destruct (op_phase p); try done.
              by injection Hst as <- _. }
      intros o t. rewrite stamped_app. intros [H|[= -> ->]]; [by apply (Hlt o)|].
      cbn [k_step] in Hst. destruct (ops s !! o) as [p|]; [|done]. unfold k_next, k_borrow in Hst.
      destruct (op_phase p); try done; try (destruct (op_sys p));
        try (destruct (k_can_borrow _ _)); try done; injection Hst as _ <-; exact Hmono.
Qed.

(** If an operation has its timestamp (in particular if it is over) when another one starts, then its
    timestamp is smaller. *)
Theorem C54_timestamps_ordered tr1 tr2 sys excl s x y tx ty :
  k_reach (tr1 ++ (KStart sys excl, KeStarted y) :: tr2) s ->
  stamped tr1 x tx -> stamped (tr1 ++ (KStart sys excl, KeStarted y) :: tr2) y ty -> tx < ty.
Proof.
  intros Hr Hx Hy. destruct (k_reach_split tr1 _ s Hr) as (s1 & Hr1 & Hge).
  pose proof (k_reach_KI tr1 s1 Hr1) as HI.
  destruct (ki_clock tr1 s1 HI x tx Hx) as (_ & Hlt & _).
  assert (ty >= clock s1); [|lia].
  apply elem_of_app in Hy as [Hy|Hy]; [|pose proof (Hge y ty Hy); lia].
  (* [y] cannot be stamped before it starts *)
  exfalso.
  assert (k_reach ((tr1 ++ [(KStart sys excl, KeStarted y)]) ++ tr2) s) as Hr' by (by rewrite <- app_assoc).
  destruct (k_reach_split _ tr2 s Hr') as (s2 & Hr2 & _).
  inversion Hr2 as [|tr' s0 a s0' ev Hr0 Hc0 Hst0 E]; [by destruct tr1|].
  apply app_inj_tail in E as [-> [= -> ->]]. cbn [k_step] in Hst0. injection Hst0 as _ E.
  pose proof (k_reach_KI _ _ Hr0) as HI0.
  destruct (ki_clock _ _ HI0 y ty Hy) as (_ & _ & ?). lia.
Qed.

Lemma stamps_kept tr1 tr2 s1 s e :
  k_reach tr1 s1 -> k_reach (tr1 ++ tr2) s -> Forall (fun x => changes e x.1 = false) tr2 ->
  stamps s !! e = stamps s1 !! e.
Proof.
  intros H1. revert s. induction tr2 as [|x tr2 IH] using rev_ind; intros s Hr Hf.
  - rewrite app_nil_r in Hr. f_equal. f_equal. clear -H1 Hr. revert s1 H1.
    induction Hr as [|tr s a s2 ev Hr IH Hc Hst]; intros s1 H1.
    + inversion H1; [done|]. by destruct tr.
    + inversion H1 as [|tr' s0 a' s0' ev' Hr0 Hc0 Hst0 E]; [by destruct tr|].
      apply app_inj_tail in E as [-> [= -> ->]]. rewrite <- (IH s0 Hr0) in Hst0. congruence.
  - rewrite app_assoc in Hr. inversion Hr as [|tr' s0 a s0' ev Hr0 Hc0 Hst E]; [by destruct tr1, tr2|].
    apply app_inj_tail in E as [-> <-]. apply Forall_app in Hf as [Hf Hx]. rewrite <- (IH s0 Hr0 Hf).
    apply Forall_cons_1 in Hx as [Hx _]. cbn [fst] in Hx. clear -Hst Hx.
    destruct a as [sys ex|o|o e'|o e'|o]; cbn [k_step] in Hst.
    + by injection Hst as <- _.
    + destruct (ops s0 !! o) as [p|]; [|done]. unfold k_next, k_borrow in Hst.
      destruct (op_phase p); try done; try (destruct (op_sys p));
        try (destruct (k_can_borrow _ _)); by injection Hst as <- _.
    + destruct (ops s0 !! o) as [p|]; [|done]. destruct (op_excl p), (op_phase p); try done.
      injection Hst as <- _. cbn [changes] in Hx. apply N.eqb_neq in Hx. cbn [stamp stamps].
      by rewrite lookup_insert_ne.
    + destruct (ops s0 !! o) as [p|]; [|done]. destruct (op_sys p), (op_phase p); try done.
      by injection Hst as <- _.
    + destruct (ops s0 !! o) as [p|]; [|done]. destruct (op_phase p); try done.
      by injection Hst as <- _.
Qed.

(** Start events are unique. *)
Lemma started_unique tr s : k_reach tr s ->
  forall a1 a2 o, (a1, KeStarted o) ∈ tr -> (a2, KeStarted o) ∈ tr -> a1 = a2.
Proof.
  intros Hr. induction Hr as [|tr s a s' ev Hr IH Hc Hst]; intros a1 a2 o H1 H2.
      - by apply elem_of_nil in H1.
      - pose proof (k_reach_KI _ _ Hr) as HI.
        assert (forall a0 o0, (a0, KeStarted o0) ∈ tr -> (a, ev) <> (a, KeStarted o0)) as Hnew.
        { intros a0 o0 Hin [= ->]. pose proof (ki_start _ _ HI _ _ Hin).
          destruct a as [sys ex|o'|o' e|o' e|o']; cbn [k_step] in Hst.
          - injection Hst as _ <-. lia.
          - destruct (ops s !! o') as [p|]; [|done]. unfold k_next, k_borrow in Hst.
            destruct (op_phase p); try done; try (destruct (op_sys p)); try (destruct (k_can_borrow _ _)); done.
          - destruct (ops s !! o') as [p|]; [|done]. destruct (op_excl p), (op_phase p); done.
          - destruct (ops s !! o') as [p|]; [|done]. destruct (op_sys p), (op_phase p); done.
          - destruct (ops s !! o') as [p|]; [|done]. destruct (op_phase p); done. }
        apply elem_of_app in H1 as [H1|H1]; apply elem_of_app in H2 as [H2|H2].
        + by apply (IH a1 a2 o).
        + apply elem_of_list_singleton in H2. injection H2 as -> <-. by destruct (Hnew a1 o H1).
        + apply elem_of_list_singleton in H1. injection H1 as -> <-. by destruct (Hnew a2 o H2).
        + apply elem_of_list_singleton in H1. apply elem_of_list_singleton in H2. congruence.
Qed.

(** A run [y] of a system that starts after [x] changed [e] reports the change, as long as no other run of
    that system got a timestamp larger than the one of [x] and [e] was not changed again. *)
Theorem C54_later_reader_sees tr1 tr2 tr3 s x y j excl e tx s' ev :
  k_reach (tr1 ++ (KChange x e, KeTau) :: tr2 ++ (KStart (Some j) excl, KeStarted y) :: tr3) s ->
  stamped tr1 x tx ->
  Forall (fun z => changes e z.1 = false) (tr2 ++ tr3) ->
  (forall r t, r <> y -> run_of (tr1 ++ tr2 ++ tr3) r j -> stamped (tr1 ++ tr2 ++ tr3) r t -> t < tx) ->
  k_step s (KQuery y e) = Some (s', ev) -> ev = KeAnswer true.
Proof.
  intros Hr Hx Hf Hpast Hst.
  set (start := (KStart (Some j) excl, KeStarted y)) in *.
  set (chg := (KChange x e, KeTau)) in *.
  set (tr := tr1 ++ chg :: tr2 ++ start :: tr3) in *.
  pose proof (k_reach_KI _ _ Hr) as HI.
  (* the timestamp recorded for [e] *)
  assert (stamps s !! e = Some tx) as Hse.
  { assert (k_reach ((tr1 ++ [chg]) ++ (tr2 ++ start :: tr3)) s) as Hr' by (by rewrite <- app_assoc).
    destruct (k_reach_split _ _ _ Hr') as (s1 & Hr1 & _).
    rewrite (stamps_kept (tr1 ++ [chg]) (tr2 ++ start :: tr3) s1 s e); try done.
    - inversion Hr1 as [|tr' s0 a s0' ev' Hr0 Hc0 Hst0 E]; [by destruct tr1|].
      apply app_inj_tail in E as [-> E]. unfold chg in E. injection E as -> ->.
      cbn [k_step] in Hst0. destruct (ops s0 !! x) as [p|] eqn:Hp; [|done].
      destruct (op_excl p); [|done]. destruct (op_phase p) as [|c|l c|l c] eqn:Hph; try done.
      injection Hst0 as <-. cbn [stamp stamps]. rewrite lookup_insert. f_equal.
      pose proof (k_reach_KI _ _ Hr0) as HI0. destruct (ki_op _ _ HI0 x p Hp) as (_ & _ & H3).
      rewrite Hph in H3. cbn [k_current] in H3. by apply (ki_fun _ _ HI0 x).
    - apply Forall_app in Hf as [Hf2 Hf3]. apply Forall_app. split; [done|]. by constructor. }
  cbn [k_step] in Hst. destruct (ops s !! y) as [p|] eqn:Hp; [|done].
  destruct (op_sys p) as [j'|] eqn:Hj; [|done].
  destruct (op_phase p) as [|c|l c|l c] eqn:Hph; try done. injection Hst as _ <-. rewrite Hse. f_equal.
  destruct (ki_op _ _ HI y p Hp) as (_ & H2 & H3). rewrite Hph in H3. cbn [k_current] in H3.
  assert (j' = j) as ->.
  { rewrite Hj in H2.
    assert (start ∈ tr) as Hin.
    { unfold tr. apply elem_of_app. right. right. apply elem_of_app. right. left. }
    pose proof (started_unique _ _ Hr _ _ _ H2 Hin) as E. by injection E. }
  unfold is_within. apply andb_true_iff. split.
  - apply N.ltb_lt. destruct (ki_l _ _ HI y p l j Hp) as [->|(r & Hry & Hrun & Hrt)].
    + by rewrite Hph.
    + done.
    + assert (stamped tr x tx) as Hx' by (unfold tr, stamped; apply elem_of_app; by left).
      destruct (ki_clock _ _ HI x tx Hx') as (? & _). lia.
    + assert (forall z : kaction * kevent, z <> chg -> z <> start -> z ∈ tr -> z ∈ tr1 ++ tr2 ++ tr3) as Hdrop.
      { intros z Hz1 Hz2 Hz. unfold tr in Hz. rewrite elem_of_app, elem_of_cons, elem_of_app, elem_of_cons in Hz.
        rewrite !elem_of_app. naive_solver. }
      apply (Hpast r l Hry).
      * destruct Hrun as [ex Hrun]. exists ex. apply Hdrop; [done| |done].
        unfold start. intros [= _ E]. done.
      * apply Hdrop; done.
  - apply N.leb_le. apply N.lt_le_incl.
    apply (C54_timestamps_ordered (tr1 ++ chg :: tr2) tr3 (Some j) excl s x y tx c).
    + by rewrite <- app_assoc.
    + apply elem_of_app. by left.
    + by rewrite <- app_assoc.
Qed.

(** ** C58 *)
Record MI (j : N) (m : mon) (s : kst) : Prop := {
  mi_run : forall o, m_run m !! o = (fun p => (op_sys p, op_excl p)) <$> ops s !! o;
  mi_alone : forall o p o' p', ops s !! o = Some p -> op_sys p = Some j -> ops s !! o' = Some p' -> o' <> o ->
    op_excl p' = false /\ op_sys p' <> Some j;
  mi_idle : (forall o p, ops s !! o = Some p -> op_sys p <> Some j) ->
    (forall e, e ∈ m_dirty m <-> exists t, stamps s !! e = Some t /\ last_run s j < t) /\
    (forall o p c, ops s !! o = Some p -> op_excl p = true -> k_current (op_phase p) = Some c -> last_run s j < c);
  mi_busy : forall o p, ops s !! o = Some p -> op_sys p = Some j ->
    m_dirty m = ∅ /\
    match op_phase p with
    | KStarted => forall e, e ∈ m_window m <-> exists t, stamps s !! e = Some t /\ last_run s j < t
    | KStamped c =>
        (forall e, e ∈ m_window m <-> exists t, stamps s !! e = Some t /\ last_run s j < t) /\
        last_run s j < c /\ forall e t, stamps s !! e = Some t -> t <= c
    | KSwapped l c | KHolding l c =>
        (forall e, e ∈ m_window m <-> exists t, stamps s !! e = Some t /\ l < t) /\
        last_run s j = c /\ l < c /\ forall e t, stamps s !! e = Some t -> t <= c
    end
}.

Lemma k_serial_reach j tr s : k_serial j tr s -> k_reach tr s.
Proof. induction 1; [constructor|by apply (k_reach_step tr s)]. Qed.
Lemma monitor_app j tr x : monitor j (tr ++ [x]) = mon_step j (monitor j tr) x.
Proof. unfold monitor. by rewrite fold_left_app. Qed.
Lemma last_run_lt tr s j : KI tr s -> last_run s j < clock s.
Proof.
  intros HI. destruct (ki_last tr s HI j) as [->|(r & _ & H & _)].
  - pose proof (ki_pos tr s HI). lia.
  - by destruct (ki_clock tr s HI r _ H) as (_ & ? & _).
Qed.

Lemma MI_init j : MI j m_init k_init.
Proof.
  split; cbn [m_init k_init m_run ops m_dirty stamps]; try done.
  intros _. split; [|done]. intros e. split; [set_solver|]. by intros (t & H & _).
Qed.

(** The operation [o] is over. *)
Lemma MI_del j m s o : MI j m s ->
  (forall p, ops s !! o = Some p -> op_sys p = Some j -> is_Some (k_last (op_phase p))) ->
  MI j {| m_run := delete o (m_run m); m_dirty := m_dirty m; m_window := m_window m |} (del_op o s).
Proof.
  intros HM Hend. split; cbn [del_op m_run ops m_dirty m_window stamps].
  - intros o'. destruct (decide (o' = o)) as [->|Hne]; [by rewrite !lookup_delete|].
    rewrite !lookup_delete_ne by done. apply (mi_run j m s HM).
  - intros o1 p1 o2 p2 H1 Hj H2. apply lookup_delete_Some in H1 as [_ H1]. apply lookup_delete_Some in H2 as [_ H2].
    by apply (mi_alone j m s HM o1 p1 o2).
  - intros Hno. change (last_run (del_op o s) j) with (last_run s j).
    destruct (ops s !! o) as [p|] eqn:Hp.
    2: { destruct (mi_idle j m s HM) as [H1 H2].
         - intros o' p' Hp'. apply (Hno o'). rewrite lookup_delete_ne; [done|congruence].
         - split; [done|]. intros o' p' c Hp'. apply lookup_delete_Some in Hp' as [_ Hp']. by apply (H2 o'). }
    destruct (decide (op_sys p = Some j)) as [Hj|Hj].
    + destruct (mi_busy j m s HM o p Hp Hj) as [-> Hb]. destruct (Hend p eq_refl Hj) as [l Hl]. split.
      * intros e. split; [set_solver|]. intros (t & Ht & Hlt). exfalso.
        destruct (op_phase p); cbn [k_last] in Hl; try done;
          destruct Hb as (_ & E & _ & Hle); specialize (Hle e t Ht); lia.
      * intros o' p' c Hp' Hex. apply lookup_delete_Some in Hp' as [Hne Hp'].
        destruct (mi_alone j m s HM o p o' p' Hp Hj Hp') as [H _]; congruence.
    + destruct (mi_idle j m s HM) as [H1 H2].
      { intros o' p' Hp'. destruct (decide (o' = o)) as [->|Hne]; [congruence|].
        apply (Hno o'). by rewrite lookup_delete_ne. }
      split; [done|]. intros o' p' c Hp'. apply lookup_delete_Some in Hp' as [_ Hp']. by apply (H2 o').
  - intros o' p' Hp' Hj. apply lookup_delete_Some in Hp' as [_ Hp'].
    exact (mi_busy j m s HM o' p' Hp' Hj).
Qed.

Lemma MI_step j tr s a s' ev :
  KI tr s -> MI j (monitor j tr) s -> clock s + 1 < 2 ^ 64 -> serial_start j (monitor j tr) a ->
  k_step s a = Some (s', ev) -> MI j (mon_step j (monitor j tr) (a, ev)) s'.
Proof.
  intros HI HM Hck Hser Hst. set (m := monitor j tr) in *.
  pose proof (last_run_lt tr s j HI) as Hlr.
  destruct a as [sys excl|o|o e|o e|o]; cbn [k_step] in Hst.
  - injection Hst as <- <-. destruct Hser as [Hs1 Hs2].
    assert (ops s !! next_op s = None) as Hfresh.
    { destruct (ops s !! next_op s) as [p|] eqn:E; [|done].
      destruct (ki_op tr s HI _ p E) as (? & _). lia. }
    assert (forall o p, ops s !! o = Some p -> m_run m !! o = Some (op_sys p, op_excl p)) as Hmr.
    { intros o p Hp. by rewrite (mi_run j m s HM), Hp. }
    cbn [mon_step]. split; cbn [m_run ops m_dirty m_window stamps].
    + intros o. destruct (decide (o = next_op s)) as [->|Hne]; [by rewrite !lookup_insert|].
      rewrite !lookup_insert_ne by done. apply (mi_run j m s HM).
    + intros o1 p1 o2 p2 H1 Hj H2 Hne.
      destruct (decide (o1 = next_op s)) as [->|Hn1].
      * rewrite lookup_insert in H1. injection H1 as <-. cbn [op_sys] in Hj.
        rewrite lookup_insert_ne in H2 by done. by apply (Hs1 Hj o2), Hmr.
      * rewrite lookup_insert_ne in H1 by done. destruct (decide (o2 = next_op s)) as [->|Hn2].
        -- rewrite lookup_insert in H2. injection H2 as <-. cbn [op_sys op_excl]. split.
           ++ destruct excl; [|done]. by destruct (Hs2 eq_refl o1 _ _ (Hmr o1 p1 H1)).
           ++ intros Hj2. by destruct (Hs1 Hj2 o1 _ _ (Hmr o1 p1 H1)).
        -- rewrite lookup_insert_ne in H2 by done. by apply (mi_alone j m s HM o1 p1 o2).
    + intros Hno. assert (sys <> Some j) as Hsj.
      { intros ->. apply (Hno (next_op s) {| op_sys := Some j; op_excl := excl; op_phase := KStarted |}); [|done].
        by rewrite lookup_insert. }
      rewrite decide_False by done. destruct (mi_idle j m s HM) as [H1 H2].
      { intros o p Hp. apply (Hno o). rewrite lookup_insert_ne; [done|congruence]. }
      split; [done|]. intros o p c Hp Hex Hc. destruct (decide (o = next_op s)) as [->|Hne].
      * rewrite lookup_insert in Hp. by injection Hp as <-.
      * rewrite lookup_insert_ne in Hp by done. by apply (H2 o p).
    + intros o p Hp Hj. destruct (decide (o = next_op s)) as [->|Hne].
      * rewrite lookup_insert in Hp. injection Hp as <-. cbn [op_sys op_phase] in *.
        rewrite !decide_True by done. split; [done|].
        apply (mi_idle j m s HM). intros o' p' Hp' Hj'. by destruct (Hs1 Hj o' _ _ (Hmr o' p' Hp')).
      * rewrite lookup_insert_ne in Hp by done.
        assert (sys <> Some j) as Hsj. { intros Hj'. by destruct (Hs1 Hj' o _ _ (Hmr o p Hp)). }
        rewrite !decide_False by done. exact (mi_busy j m s HM o p Hp Hj).
  - destruct (ops s !! o) as [p|] eqn:Hp; [|done]. unfold k_next in Hst.
    (* a move of [o] that keeps everything else *)
    assert (forall q s0 m0, m_run m0 = m_run m -> m_dirty m0 = m_dirty m -> m_window m0 = m_window m ->
      op_sys q = op_sys p -> op_excl q = op_excl p -> ops s0 = <[o := q]> (ops s) -> stamps s0 = stamps s ->
      (op_sys p <> Some j -> last_run s0 j = last_run s j /\
         ((forall o' p', ops s !! o' = Some p' -> op_sys p' <> Some j) -> op_excl p = true ->
          forall c, k_current (op_phase q) = Some c -> last_run s j < c)) ->
      (op_sys p = Some j ->
        match op_phase q with
        | KStarted => forall e, e ∈ m_window m <-> exists t, stamps s !! e = Some t /\ last_run s0 j < t
        | KStamped c =>
            (forall e, e ∈ m_window m <-> exists t, stamps s !! e = Some t /\ last_run s0 j < t) /\
            last_run s0 j < c /\ forall e t, stamps s !! e = Some t -> t <= c
        | KSwapped l c | KHolding l c =>
            (forall e, e ∈ m_window m <-> exists t, stamps s !! e = Some t /\ l < t) /\
            last_run s0 j = c /\ l < c /\ forall e t, stamps s !! e = Some t -> t <= c
        end) -> MI j m0 s0) as Hmv.
    { intros q s0 m0 Em1 Em2 Em3 E1 E2 E3 E4 Hnj Hbj. split; rewrite ?Em1, ?Em2, ?Em3, ?E3, ?E4.
      - intros o'. destruct (decide (o' = o)) as [->|Hne].
        + rewrite lookup_insert, (mi_run j m s HM), Hp. cbn. by rewrite E1, E2.
        + rewrite lookup_insert_ne by done. apply (mi_run j m s HM).
      - intros o1 p1 o2 p2 H1 Hj H2 Hne.
        destruct (decide (o1 = o)) as [->|Hn1].
        + rewrite lookup_insert in H1. injection H1 as <-. rewrite E1 in Hj.
          rewrite lookup_insert_ne in H2 by done. by apply (mi_alone j m s HM o p o2).
        + rewrite lookup_insert_ne in H1 by done. destruct (decide (o2 = o)) as [->|Hn2].
          * rewrite lookup_insert in H2. injection H2 as <-. rewrite E1, E2.
            by apply (mi_alone j m s HM o1 p1 o).
          * rewrite lookup_insert_ne in H2 by done. by apply (mi_alone j m s HM o1 p1 o2).
      - intros Hno. assert (op_sys p <> Some j) as Hj.
        { rewrite <- E1. apply (Hno o). by rewrite lookup_insert. }
        destruct (Hnj Hj) as [-> Hnew].
        assert (forall o' p', ops s !! o' = Some p' -> op_sys p' <> Some j) as Hno'.
        { intros o' p' Hp'. destruct (decide (o' = o)) as [->|Hne]; [congruence|].
          apply (Hno o'). by rewrite lookup_insert_ne. }
        destruct (mi_idle j m s HM Hno') as [H1 H2]. split; [done|].
        intros o' p' c Hp' Hex Hc. destruct (decide (o' = o)) as [->|Hne].
        + rewrite lookup_insert in Hp'. injection Hp' as <-. rewrite E2 in Hex. by apply Hnew.
        + rewrite lookup_insert_ne in Hp' by done. by apply (H2 o' p').
      - intros o' p' Hp' Hj. destruct (decide (o' = o)) as [->|Hne].
        + rewrite lookup_insert in Hp'. injection Hp' as <-. rewrite E1 in Hj.
          split; [by apply (mi_busy j m s HM o p)|]. by apply Hbj.
        + rewrite lookup_insert_ne in Hp' by done.
          assert (op_sys p <> Some j) as Hpj.
          { intros Hpj. by destruct (mi_alone j m s HM o p o' p' Hp Hpj Hp' Hne). }
          destruct (Hnj Hpj) as [-> _]. exact (mi_busy j m s HM o' p' Hp' Hj). }
    (* the borrow attempt *)
    assert (forall l c, k_current (op_phase p) = Some c ->
      (op_sys p = Some j -> k_last (op_phase p) = Some l) ->
      k_borrow o p l c s = (s', ev) -> MI j (mon_step j m (KNext o, ev)) s') as Hbw.
    { intros l c Hc Hl E. unfold k_borrow in E.
      destruct (k_can_borrow (op_excl p) s); injection E as <- <-.
      - cbn [mon_step]. apply (Hmv (with_phase p (KHolding l c))); try done.
        + intros Hj. split; [done|]. intros Hno Hex c' [= <-].
          by apply (mi_idle j m s HM Hno) with (o := o) (p := p).
        + intros Hj. cbn [with_phase op_phase]. specialize (Hl Hj).
          destruct (mi_busy j m s HM o p Hp Hj) as [_ Hb].
          destruct (op_phase p) as [|c0|l0 c0|l0 c0]; cbn [k_last k_current] in *; try done; injection Hl as ->; injection Hc as ->; exact Hb.
      - cbn [mon_step]. apply MI_del; [done|]. intros p' Hp' Hj. assert (p' = p) as -> by congruence.
        rewrite (Hl Hj). by eexists. }
    destruct (op_phase p) as [|c|l c|l c] eqn:Hph.
    + injection Hst as <- <-. cbn [mon_step]. apply (Hmv (with_phase p (KStamped (clock s)))); try done.
      * intros Hj. split; [done|]. intros _ _ c [= <-]. done.
      * intros Hj. cbn [with_phase op_phase]. change (last_run _ j) with (last_run s j).
        destruct (mi_busy j m s HM o p Hp Hj) as [_ Hb]. rewrite Hph in Hb. split_and!; [done|done|].
        intros e t Ht. pose proof (ki_stamps tr s HI e t Ht). lia.
    + destruct (op_sys p) as [j'|] eqn:Hj.
      * injection Hst as <- <-. cbn [mon_step].
        apply (Hmv (with_phase p (KSwapped (last_run s j') c))); try done.
        -- intros Hjj. split.
           ++ unfold last_run. cbn [set_op swap last_runs]. rewrite lookup_insert_ne; [done|congruence].
           ++ intros Hno Hex c' [= <-].
              apply (mi_idle j m s HM Hno) with (o := o) (p := p); [done|done|]. by rewrite Hph.
        -- intros Hjj. injection Hjj as ->. cbn [with_phase op_phase].
           destruct (mi_busy j m s HM o p Hp Hj) as [_ Hb]. rewrite Hph in Hb.
           destruct Hb as (H1 & H2 & H3). split_and!; try done.
           unfold last_run. cbn [set_op swap last_runs]. by rewrite lookup_insert.
      * injection Hst as E. by apply (Hbw 0 c).
    + injection Hst as E. by apply (Hbw l c).
    + done.
  - destruct (ops s !! o) as [p|] eqn:Hp; [|done]. destruct (op_excl p) eqn:Hex; [|done].
    destruct (op_phase p) as [|c|l c|l c] eqn:Hph; try done. injection Hst as <- <-.
    cbn [mon_step]. rewrite (mi_run j m s HM), Hp. cbn [fmap option_fmap option_map].
    change (last_run (stamp e c s) j) with (last_run s j).
    destruct (decide (op_sys p = Some j)) as [Hj|Hj].
    + destruct (mi_busy j m s HM o p Hp Hj) as [Hd Hb]. rewrite Hph in Hb.
      destruct Hb as (H1 & H2 & H3 & H4).
      assert (forall o' p', ops s !! o' = Some p' -> op_sys p' = Some j -> o' = o) as Honly.
      { intros o' p' Hp' Hj'. destruct (decide (o' = o)) as [|Hne]; [done|].
        by destruct (mi_alone j m s HM o p o' p' Hp Hj Hp' Hne). }
      split; cbn [m_run m_dirty m_window stamp ops stamps].
      * apply (mi_run j m s HM).
      * apply (mi_alone j m s HM).
      * intros Hno. by destruct (Hno o p Hp).
      * intros o' p' Hp' Hj'. pose proof (Honly o' p' Hp' Hj') as ->.
        assert (p' = p) as -> by congruence. split; [done|]. rewrite Hph.
        change (last_run (stamp e c s) j) with (last_run s j). split_and!; try done.
        -- intros e'. destruct (decide (e' = e)) as [->|Hne].
           ++ rewrite lookup_insert. split; [|set_solver]. intros _. by exists c.
           ++ rewrite lookup_insert_ne by done. rewrite <- H1. set_solver.
        -- intros e' t Ht. destruct (decide (e' = e)) as [->|Hne].
           ++ rewrite lookup_insert in Ht. by injection Ht as <-.
           ++ rewrite lookup_insert_ne in Ht by done. by apply (H4 e').
    + assert (forall o' p', ops s !! o' = Some p' -> op_sys p' <> Some j) as Hno.
      { intros o' p' Hp' Hj'. destruct (decide (o' = o)) as [->|Hne]; [congruence|].
        destruct (mi_alone j m s HM o' p' o p Hp' Hj' Hp) as [H _]; congruence. }
      destruct (mi_idle j m s HM Hno) as [H1 H2].
      split; cbn [m_run m_dirty m_window stamp ops stamps].
      * apply (mi_run j m s HM).
      * apply (mi_alone j m s HM).
      * intros _. change (last_run (stamp e c s) j) with (last_run s j). split; [|done].
        intros e'. destruct (decide (e' = e)) as [->|Hne].
        -- rewrite lookup_insert. split; [|set_solver]. intros _. exists c. split; [done|].
           apply (H2 o p c Hp Hex). by rewrite Hph.
        -- rewrite lookup_insert_ne by done. rewrite <- H1. set_solver.
      * intros o' p' Hp' Hj'. by destruct (Hno o' p' Hp').
  - destruct (ops s !! o) as [p|] eqn:Hp; [|done]. destruct (op_sys p); [|done].
    destruct (op_phase p) as [|c|l c|l c] eqn:Hph; try done. injection Hst as <- <-. exact HM.
  - destruct (ops s !! o) as [p|] eqn:Hp; [|done].
    destruct (op_phase p) as [|c|l c|l c] eqn:Hph; try done. injection Hst as <- <-.
    cbn [mon_step]. apply MI_del; [done|]. intros p' Hp' Hj. assert (p' = p) as -> by congruence.
    rewrite Hph. by eexists.
Qed.

Lemma k_serial_MI j tr s : k_serial j tr s -> MI j (monitor j tr) s.
Proof.
  induction 1 as [|tr s a s' ev Hr IH Hc Hs Hst]; [apply MI_init|].
  rewrite monitor_app. apply (MI_step j tr s); try done.
  by apply k_reach_KI, (k_serial_reach j).
Qed.

(** Wanted: in every concurrent execution each run of a system reports exactly the entities changed since
    its previous run, hence every change exactly once (what the monitor says). This holds as long as the
    runs of the system overlap neither each other nor operations that may change the storage. *)
Theorem C58_exactly_once_partial j tr s o e s' b :
  k_serial j tr s -> run_of tr o j -> k_step s (KQuery o e) = Some (s', KeAnswer b) ->
  b = bool_decide (e ∈ m_window (monitor j tr)).
Proof.
  intros Hr [ex Hrun] Hst. pose proof (k_serial_MI j tr s Hr) as HM.
  pose proof (k_reach_KI tr s (k_serial_reach j tr s Hr)) as HI.
  cbn [k_step] in Hst. destruct (ops s !! o) as [p|] eqn:Hp; [|done].
  destruct (op_sys p) as [j'|] eqn:Hj; [|done].
  destruct (op_phase p) as [|c|l c|l c] eqn:Hph; try done. injection Hst as _ <-.
  destruct (ki_op tr s HI o p Hp) as (_ & H2 & _).
  assert (j' = j) as ->.
  { assert (forall tr s, k_reach tr s -> forall a1 a2 o, (a1, KeStarted o) ∈ tr -> (a2, KeStarted o) ∈ tr -> a1 = a2)
      as Huniq by exact started_unique.
    pose proof (started_unique _ _ (k_serial_reach j tr s Hr) _ _ _ H2 Hrun) as E. rewrite Hj in E. by injection E. }
  destruct (mi_busy j _ s HM o p Hp Hj) as [_ Hb]. rewrite Hph in Hb. destruct Hb as (H1 & H3 & H4 & H5).
  symmetry. destruct (stamps s !! e) as [t|] eqn:Ht.
  - destruct (is_within t l c) eqn:Hw.
    + apply bool_decide_eq_true_2. apply H1. exists t. split; [done|].
      unfold is_within in Hw. apply andb_true_iff in Hw as [Hw _]. by apply N.ltb_lt.
    + apply bool_decide_eq_false_2. rewrite H1. intros (t' & Ht' & Hlt).
      assert (t' = t) as -> by congruence. unfold is_within in Hw.
      apply andb_false_iff in Hw as [Hw|Hw]; [apply N.ltb_ge in Hw; lia|].
      apply N.leb_gt in Hw. pose proof (H5 e t Ht). lia.
  - apply bool_decide_eq_false_2. rewrite H1. intros (t' & Ht' & _). congruence.
Qed.

(** Continuations of a run in which [e] is not changed (any number of other operations). *)
Inductive k_later (e : N) : kst -> kst -> Prop :=
| k_later_refl s : k_later e s s
| k_later_step s s1 a s2 ev :
    k_later e s s1 -> clock s1 + 1 < 2 ^ 64 -> k_step s1 a = Some (s2, ev) -> changes e a = false -> k_later e s s2.

(** Once a system has taken timestamp [t] or a later one and nothing started before is left of it, it never
    reports a change stamped [t] or earlier. *)
Lemma never_again tr s e j t s2 o p l c :
  k_reach tr s -> stamps s !! e = Some t -> t <= last_run s j ->
  (forall o p, ops s !! o = Some p -> op_sys p <> Some j) ->
  k_later e s s2 -> ops s2 !! o = Some p -> op_sys p = Some j -> op_phase p = KHolding l c ->
  stamps s2 !! e = Some t /\ t <= l.
Proof.
  intros Hr Ht Hle Hno Hl.
  assert (stamps s2 !! e = Some t /\ t <= last_run s2 j /\ t < clock s2 /\
    forall o p, ops s2 !! o = Some p -> op_sys p = Some j ->
      match op_phase p with KStarted => True | KStamped c => t <= c | KSwapped l c | KHolding l c => t <= l /\ t <= c end)
    as (H1 & H2 & _ & H3).
  { pose proof (k_reach_KI tr s Hr) as HI. induction Hl as [s|s s1 a s2 ev Hl IH Hck Hst Hch].
    - split_and!; try done; [by apply (ki_stamps tr s HI e)|].
      intros o' p' Hp' Hj'. by destruct (Hno o' p' Hp').
    - destruct (IH Hr Ht Hle Hno HI) as (H1 & H2 & H3 & H4).
      assert ((clock s1 + 1) mod 2 ^ 64 = clock s1 + 1) as Em by (by apply N.mod_small).
      clear IH Hr HI Ht Hle Hno Hl.
      destruct a as [sys ex|o'|o' e'|o' e'|o']; cbn [k_step] in Hst.
      + injection Hst as <- _. split_and!; try done. cbn [ops]. intros o1 p1 Hp1 Hj1.
        destruct (decide (o1 = next_op s1)) as [->|Hne].
        * rewrite lookup_insert in Hp1. by injection Hp1 as <-.
        * rewrite lookup_insert_ne in Hp1 by done. by apply (H4 o1).
      + destruct (ops s1 !! o') as [p'|] eqn:Hp'; [|done]. unfold k_next, k_borrow in Hst.
        pose proof (H4 o' p' Hp') as H4'.
        assert (forall q : op, op_sys q = op_sys p' ->
          (op_sys q = Some j -> match op_phase q with KStarted => True | KStamped c => t <= c
             | KSwapped l c | KHolding l c => t <= l /\ t <= c end) ->
          forall o1 p1, <[o' := q]> (ops s1) !! o1 = Some p1 -> op_sys p1 = Some j ->
            match op_phase p1 with KStarted => True | KStamped c => t <= c
             | KSwapped l c | KHolding l c => t <= l /\ t <= c end) as Hins.
        { intros q Eq Hq o1 p1 Hp1 Hj1. destruct (decide (o1 = o')) as [->|Hne].
          - rewrite lookup_insert in Hp1. injection Hp1 as <-. by apply Hq.
          - rewrite lookup_insert_ne in Hp1 by done. by apply (H4 o1). }
        assert (forall o1 p1, delete o' (ops s1) !! o1 = Some p1 -> op_sys p1 = Some j ->
            match op_phase p1 with KStarted => True | KStamped c => t <= c
             | KSwapped l c | KHolding l c => t <= l /\ t <= c end) as Hdel.
        { intros o1 p1 Hp1. apply lookup_delete_Some in Hp1 as [_ Hp1]. by apply (H4 o1). }
        destruct (op_phase p') as [|c1|l1 c1|l1 c1] eqn:Hph; try done.
        * injection Hst as <- _. cbn [set_op tick stamps clock ops]. rewrite Em. split_and!; try done; [lia|].
          apply Hins; [done|]. cbn [with_phase op_phase]. intros _. lia.
        * destruct (op_sys p') as [j1|] eqn:Hj1.
          -- injection Hst as <- _. cbn [set_op swap stamps clock ops].
             split_and!; try done.
             ++ unfold last_run. cbn [set_op swap last_runs]. destruct (decide (j1 = j)) as [->|Hne].
                ** rewrite lookup_insert. cbn. by apply H4'.
                ** by rewrite lookup_insert_ne.
             ++ apply Hins; [done|]. cbn [with_phase op_phase op_sys]. rewrite Hj1. intros [= ->].
                split; [done|by apply H4'].
          -- destruct (k_can_borrow _ _); injection Hst as <- _; split_and!; try done.
             apply Hins; [done|]. cbn [with_phase op_sys]. congruence.
        * destruct (k_can_borrow _ _); injection Hst as <- _; split_and!; try done.
          apply Hins; [done|]. cbn [with_phase op_sys op_phase]. done.
      + destruct (ops s1 !! o') as [p'|]; [|done]. destruct (op_excl p'); [|done].
        destruct (op_phase p'); try done. injection Hst as <- _. cbn [stamp stamps clock ops].
        cbn [changes] in Hch. apply N.eqb_neq in Hch. rewrite lookup_insert_ne by done.
        by split_and!.
      + destruct (ops s1 !! o') as [p'|]; [|done]. destruct (op_sys p'); [|done].
        destruct (op_phase p'); try done. by injection Hst as <- _.
      + destruct (ops s1 !! o') as [p'|]; [|done].
        destruct (op_phase p'); try done. injection Hst as <- _. split_and!; try done.
        cbn [del_op ops]. intros o1 p1 Hp1. apply lookup_delete_Some in Hp1 as [_ Hp1]. by apply (H4 o1). }
  intros Hp Hj Hph. split; [done|]. specialize (H3 o p Hp Hj). rewrite Hph in H3. by destruct H3.
Qed.

Fixpoint k_run (s : kst) (ls : list kaction) : option (kst * ktrace) :=
  match ls with
  | [] => Some (s, [])
  | a :: ls =>
      if clock s + 1 <? 2 ^ 64
      then match k_step s a with
           | None => None
           | Some (s1, ev) =>
               match k_run s1 ls with None => None | Some (s2, tr) => Some (s2, (a, ev) :: tr) end
           end
      else None
  end.
Lemma k_run_reach ls : forall tr s s' tr',
  k_reach tr s -> k_run s ls = Some (s', tr') -> k_reach (tr ++ tr') s'.
Proof.
  induction ls as [|a ls IH]; intros tr s s' tr' Hr H; cbn [k_run] in H.
  - injection H as <- <-. by rewrite app_nil_r.
  - destruct (clock s + 1 <? 2 ^ 64) eqn:Hc; [|done]. apply N.ltb_lt in Hc.
    destruct (k_step s a) as [[s1 ev]|] eqn:Hst; [|done].
    destruct (k_run s1 ls) as [[s2 tr2]|] eqn:Hrn; [|done]. injection H as <- <-.
    rewrite cons_middle, app_assoc. apply (IH _ s1); [|done]. by apply (k_reach_step tr s).
Qed.

(** A writer takes its timestamp, system 5 runs, then the writer borrows and changes entity 9. *)
Definition ex_overlap : list kaction :=
  [KStart None true; KNext 0;
   KStart (Some 5) false; KNext 1; KNext 1; KNext 1; KQuery 1 9; KEnd 1;
   KNext 0; KChange 0 9; KEnd 0].
(** The change was made, it is over, no run of the system reported it, and none ever will. *)
Theorem C58_overlap_refuted :
  exists tr s, k_reach tr s /\ (KChange 0 9, KeTau) ∈ tr /\
    ~ (exists o, (KQuery o 9, KeAnswer true) ∈ tr) /\ (forall o, ops s !! o = None) /\
    forall s2 o p s3 b, k_later 9 s s2 -> ops s2 !! o = Some p -> op_sys p = Some 5 ->
      k_step s2 (KQuery o 9) = Some (s3, KeAnswer b) -> b = false.
Proof.
  destruct (k_run k_init ex_overlap) as [[s tr]|] eqn:E; [|vm_compute in E; done].
  assert (k_reach tr s) as Hr by (apply (k_run_reach ex_overlap [] k_init s tr); [constructor|done]).
  vm_compute in E. injection E as <- <-.
  assert (forall o : N, (∅ : gmap N op) !! o = None) as Hno by (intros; apply lookup_empty).
  eexists _, _. split; [exact Hr|]. split_and!.
  - repeat (first [apply elem_of_list_here | apply elem_of_list_further]).
  - intros [o Ho]. repeat (apply elem_of_cons in Ho as [Ho|Ho]; [discriminate Ho|]). by apply elem_of_nil in Ho.
  - exact Hno.
  - intros s2 o p s3 b Hl Hp Hj Hst. cbn [k_step] in Hst. rewrite Hp, Hj in Hst.
    destruct (op_phase p) as [|c|l c|l c] eqn:Hph; try done. injection Hst as _ <-.
    destruct (never_again _ _ 9 5 1 s2 o p l c Hr) as [H1 H2]; try done.
    + rewrite H1. unfold is_within. by rewrite (proj2 (N.ltb_ge l 1) H2).
Qed.

(** The window is also lost when the borrow of a run fails: entity 9 is changed, system 5 tries to run while
    another operation holds the storage, then runs normally. No two operations overlap otherwise. *)
Definition ex_failed : list kaction :=
  [KStart None true; KNext 0; KNext 0; KChange 0 9; KEnd 0;
   KStart None false; KNext 1; KNext 1;
   KStart (Some 5) true; KNext 2; KNext 2; KNext 2;
   KEnd 1].
Theorem C58_failed_borrow_refuted :
  exists tr s, k_reach tr s /\ (KChange 0 9, KeTau) ∈ tr /\ (KNext 2, KeFailed) ∈ tr /\
    ~ (exists o, (KQuery o 9, KeAnswer true) ∈ tr) /\ (forall o, ops s !! o = None) /\
    forall s2 o p s3 b, k_later 9 s s2 -> ops s2 !! o = Some p -> op_sys p = Some 5 ->
      k_step s2 (KQuery o 9) = Some (s3, KeAnswer b) -> b = false.
Proof.
  destruct (k_run k_init ex_failed) as [[s tr]|] eqn:E; [|vm_compute in E; done].
  assert (k_reach tr s) as Hr by (apply (k_run_reach ex_failed [] k_init s tr); [constructor|done]).
  vm_compute in E. injection E as <- <-.
  assert (forall o : N, (∅ : gmap N op) !! o = None) as Hno by (intros; apply lookup_empty).
  eexists _, _. split; [exact Hr|]. split_and!.
  - repeat (first [apply elem_of_list_here | apply elem_of_list_further]).
  - repeat (first [apply elem_of_list_here | apply elem_of_list_further]).
  - intros [o Ho]. repeat (apply elem_of_cons in Ho as [Ho|Ho]; [discriminate Ho|]). by apply elem_of_nil in Ho.
  - exact Hno.
  - intros s2 o p s3 b Hl Hp Hj Hst. cbn [k_step] in Hst. rewrite Hp, Hj in Hst.
    destruct (op_phase p) as [|c|l c|l c] eqn:Hph; try done. injection Hst as _ <-.
    destruct (never_again _ _ 9 5 1 s2 o p l c Hr) as [H1 H2]; try done.
    + rewrite H1. unfold is_within. by rewrite (proj2 (N.ltb_ge l 1) H2).
Qed.

(** ** Non-vacuity *)
(** Two writers overlap (the one with the older timestamp changes entity 9 last), then a run of system 5. *)
Definition ex_clock : list kaction :=
  [KStart None true; KNext 0; KStart None true; KNext 1; KNext 1; KChange 1 8; KEnd 1; KNext 0].
Example ex_C54 : exists tr1 tr3 s s',
  k_reach (tr1 ++ (KChange 0 9, KeTau) :: [(KEnd 0, KeTau)] ++ (KStart (Some 5) false, KeStarted 2) :: tr3) s /\
  stamped tr1 0 1 /\ stamped tr1 1 2 /\ stamped tr3 2 3 /\
  (forall r t, r <> 2 -> run_of (tr1 ++ [(KEnd 0, KeTau)] ++ tr3) r 5 -> stamped (tr1 ++ [(KEnd 0, KeTau)] ++ tr3) r t -> t < 1) /\
  Forall (fun z => changes 9 z.1 = false) ([(KEnd 0, KeTau)] ++ tr3) /\
  k_step s (KQuery 2 9) = Some (s', KeAnswer true).
Proof.
  destruct (k_run k_init (ex_clock ++ [KChange 0 9; KEnd 0; KStart (Some 5) false; KNext 2; KNext 2; KNext 2]))
    as [[s tr]|] eqn:E; [|vm_compute in E; done].
  assert (k_reach tr s) as Hr by (apply (k_run_reach (ex_clock ++ [KChange 0 9; KEnd 0; KStart (Some 5) false; KNext 2; KNext 2; KNext 2]) [] k_init s tr); [constructor|exact E]).
  exists (take 8 tr), (drop 11 tr), s, s. vm_compute in E. injection E as <- <-.
  split_and!.
  - exact Hr.
  - repeat (first [apply elem_of_list_here | apply elem_of_list_further]).
  - repeat (first [apply elem_of_list_here | apply elem_of_list_further]).
  - repeat (first [apply elem_of_list_here | apply elem_of_list_further]).
  - intros r t _ [ex H] _. exfalso. cbn in H.
    repeat (apply elem_of_cons in H as [H|H]; [discriminate H|]). by apply elem_of_nil in H.
  - repeat constructor.
  - vm_compute. reflexivity.
Qed.

Definition serial_ok (j : N) (m : mon) (a : kaction) : bool :=
  match a with
  | KStart sys excl =>
      (negb (bool_decide (sys = Some j)) ||
       forallb (fun kv => negb kv.2.2 && negb (bool_decide (kv.2.1 = Some j))) (map_to_list (m_run m))) &&
      (negb excl || forallb (fun kv => negb (bool_decide (kv.2.1 = Some j))) (map_to_list (m_run m)))
  | _ => true
  end.
Lemma serial_ok_start j m a : serial_ok j m a = true -> serial_start j m a.
Proof.
  destruct a as [sys excl| | | |]; try done. cbn [serial_ok serial_start]. intros H.
  apply andb_true_iff in H as [H1 H2]. split.
  - intros Hj o sys' excl' Ho. rewrite bool_decide_eq_true_2 in H1 by done. cbn [negb orb] in H1.
    rewrite forallb_forall in H1. specialize (H1 (o, (sys', excl'))). cbn [snd fst] in H1.
    apply andb_true_iff in H1 as [H1 H3]; [|by apply elem_of_list_In, elem_of_map_to_list].
    split; [by destruct excl'|]. intros E. by rewrite bool_decide_eq_true_2 in H3.
  - intros -> o sys' excl' Ho E. cbn [negb orb] in H2.
    rewrite forallb_forall in H2. specialize (H2 (o, (sys', excl'))). cbn [snd fst] in H2.
    rewrite bool_decide_eq_true_2 in H2 by done. discriminate H2.
    by apply elem_of_list_In, elem_of_map_to_list.
Qed.
Fixpoint k_run_serial (j : N) (m : mon) (s : kst) (ls : list kaction) : option (kst * ktrace) :=
  match ls with
  | [] => Some (s, [])
  | a :: ls =>
      if (clock s + 1 <? 2 ^ 64) && serial_ok j m a
      then match k_step s a with
           | None => None
           | Some (s1, ev) =>
               match k_run_serial j (mon_step j m (a, ev)) s1 ls with
               | None => None | Some (s2, tr) => Some (s2, (a, ev) :: tr)
               end
           end
      else None
  end.
Lemma k_run_serial_reach j ls : forall tr s s' tr',
  k_serial j tr s -> k_run_serial j (monitor j tr) s ls = Some (s', tr') -> k_serial j (tr ++ tr') s'.
Proof.
  induction ls as [|a ls IH]; intros tr s s' tr' Hr H; cbn [k_run_serial] in H.
  - injection H as <- <-. by rewrite app_nil_r.
  - destruct (clock s + 1 <? 2 ^ 64) eqn:Hc; [|done]. apply N.ltb_lt in Hc. cbn [andb] in H.
    destruct (serial_ok j (monitor j tr) a) eqn:Hs; [|done].
    destruct (k_step s a) as [[s1 ev]|] eqn:Hst; [|done].
    destruct (k_run_serial j _ s1 ls) as [[s2 tr2]|] eqn:Hrn; [|done]. injection H as <- <-.
    rewrite cons_middle, app_assoc. apply (IH _ s1); [|by rewrite monitor_app].
    apply (k_serial_step j tr s); try done. by apply serial_ok_start.
Qed.
(** Overlapping writers change entities 8 and 9; system 5 runs twice; another system (6) runs in between and
    overlaps with the second run of system 5. *)
Definition ex_serial : list kaction :=
  ex_clock ++ [KChange 0 9; KEnd 0;
    KStart (Some 5) false; KNext 2; KNext 2; KNext 2; KQuery 2 8; KQuery 2 9; KEnd 2;
    KStart (Some 6) true; KNext 3; KNext 3; KNext 3; KQuery 3 9; KChange 3 8; KEnd 3;
    KStart (Some 6) false; KNext 4; KStart (Some 5) false; KNext 5; KNext 5; KNext 5; KNext 4; KNext 4;
    KQuery 4 9; KQuery 5 9].
Example ex_C58 : exists tr s s', k_serial 5 tr s /\ run_of tr 5 5 /\
  (KQuery 2 8, KeAnswer true) ∈ tr /\ (KQuery 2 9, KeAnswer true) ∈ tr /\ (KQuery 5 9, KeAnswer false) ∈ tr /\
  k_step s (KQuery 5 8) = Some (s', KeAnswer true) /\ 8 ∈ m_window (monitor 5 tr).
Proof.
  destruct (k_run_serial 5 m_init k_init ex_serial) as [[s tr]|] eqn:E; [|vm_compute in E; done].
  assert (k_serial 5 tr s) as Hr by (apply (k_run_serial_reach 5 ex_serial [] k_init s tr); [constructor|exact E]).
  exists tr, s, s. vm_compute in E. injection E as <- <-.
  split_and!.
  - exact Hr.
  - exists false. repeat (first [apply elem_of_list_here | apply elem_of_list_further]).
  - repeat (first [apply elem_of_list_here | apply elem_of_list_further]).
  - repeat (first [apply elem_of_list_here | apply elem_of_list_further]).
  - repeat (first [apply elem_of_list_here | apply elem_of_list_further]).
  - vm_compute. reflexivity.
  - apply (bool_decide_eq_true_1 _). vm_compute. reflexivity.
Qed.

Print Assumptions C54_timestamps_ordered.
Print Assumptions C54_later_reader_sees.
Print Assumptions C58_exactly_once_partial.
Print Assumptions C58_overlap_refuted.
Print Assumptions C58_failed_borrow_refuted.
