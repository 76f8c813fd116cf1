(** Proofs about running workloads: programs that do not conflict can be reordered, and a run
    of a batch is any of their orders. *)
From stdpp Require Import prelude countable list gmap.
From Verif Require Import Sched SchedSpec Run RunSpec RunProofs RunProofs2.
Local Open Scope nat_scope.

Section commute.
Context {V E : Type}.
Notation prg := (prog V (option E)).

Lemma may_write_read bs s : may_write bs s → may_read bs s.
Proof. intros (t & Ht & [[H _]|H]); exists t; eauto. Qed.
Lemma rw_clash bs bs' s : may_read bs s → may_write bs' s → clash bs bs'.
Proof.
  intros (t & Ht & H) (t' & Ht' & H'). exists t, t'. split_and!; [done..|]. unfold borrow_clash.
  destruct H as [H|H], H' as [[H' Hx]|H']; rewrite ?H, ?H'; auto.
Qed.
Lemma noclash_sym bs bs' : ¬ clash bs bs' → ¬ clash bs' bs.
Proof.
  intros H (a & b & Ha & Hb & Hc). apply H. exists b, a. split_and!; [done..|].
  clear -Hc. unfold borrow_clash in *. destruct Hc as [[H [?|?]]|[[? ?]|[?|?]]]; eauto 6.
Qed.

Lemma put_comm (s s' : N) (v v' : option V) (m : store V) :
  s ≠ s' → put s v (put s' v' m) = put s' v' (put s v m).
Proof. intros H. unfold put. apply partial_alter_commute. done. Qed.

Lemma exec_put {A} bs (q : prog V A) s v m :
  respects bs q → ¬ may_read bs s → exec q (put s v m) = (put s v (exec q m).1, (exec q m).2).
Proof.
  intros Hq Hs. revert m. induction Hq as [a|s' k Hr Hk IH|s' v' q Hw Hq IH]; intros m; cbn [exec].
  - done.
  - assert (s ≠ s') by (by intros ->). unfold put at 1. rewrite lookup_partial_alter_ne by done. by rewrite IH.
  - assert (s ≠ s') by (by intros ->; apply may_write_read in Hw). by rewrite put_comm, IH by done.
Qed.
Lemma exec_frame {A} bs (q : prog V A) s m :
  respects bs q → ¬ may_write bs s → (exec q m).1 !! s = m !! s.
Proof.
  intros Hq Hs. revert m. induction Hq as [a|s' k Hr Hk IH|s' v' q Hw Hq IH]; intros m; cbn [exec].
  - done.
  - by rewrite IH.
  - assert (s ≠ s') by (by intros ->). rewrite IH. unfold put. by rewrite lookup_partial_alter_ne.
Qed.

(** Two programs whose borrows do not conflict commute. *)
Lemma exec_comm {A B} bs bs' (p : prog V A) (q : prog V B) m :
  respects bs p → respects bs' q → ¬ clash bs bs' →
  (exec q (exec p m).1).1 = (exec p (exec q m).1).1 ∧
  (exec q (exec p m).1).2 = (exec q m).2 ∧ (exec p (exec q m).1).2 = (exec p m).2.
Proof.
  intros Hp Hq Hc. revert m. induction Hp as [a|s k Hr Hk IH|s v p Hw Hp IH]; intros m; cbn [exec].
  - done.
  - rewrite (exec_frame bs' q s m) by (done || (intros H; eauto using rw_clash)). apply IH.
  - destruct (IH (put s v m)) as (I1 & I2 & I3).
    rewrite (exec_put bs' q s v m) in I1, I2, I3
      by (done || (intros H; apply noclash_sym in Hc; eauto using rw_clash)). done.
Qed.

(** Programs with the borrows they declared. *)
Notation item := (list tinfo * prg)%type.
(** Running them one after the other; [None] when one fails. *)
Fixpoint outp (l : list item) (m : store V) : option (store V) :=
  match l with
  | [] => Some m
  | (_, p) :: l => match exec p m with (m1, None) => outp l m1 | (_, Some _) => None end
  end.
Definition ok_items (l : list item) : Prop :=
  Forall (λ x, respects x.1 x.2) l ∧ ForallOrdPairs (λ x y, ¬ clash x.1 y.1) l.

Lemma fop_perm {A} (R : A → A → Prop) l l' :
  (∀ x y, R x y → R y x) → l ≡ₚ l' → ForallOrdPairs R l → ForallOrdPairs R l'.
Proof.
  intros HR Hp. induction Hp as [|x l l' Hp IH|x y l|l1 l2 l3 _ IH1 _ IH2]; intros H.
  - done.
  - inversion H as [|? ? H1 H2]; subst. constructor; [by rewrite <-Hp|by apply IH].
  - inversion H as [|? ? H1 H2]; subst. inversion H2 as [|? ? H3 H4]; subst.
    apply Forall_cons in H1 as [H0 H1]. constructor; [constructor; [by apply HR|done]|]. by constructor.
  - auto.
Qed.
Lemma ok_items_perm l l' : l ≡ₚ l' → ok_items l → ok_items l'.
Proof.
  intros Hp [H1 H2]. split; [by rewrite <-Hp|].
  eapply fop_perm; [|done|done]. intros x y. apply noclash_sym.
Qed.
Lemma outp_perm l l' m : l ≡ₚ l' → ok_items l → outp l m = outp l' m.
Proof.
  intros Hp. revert m. induction Hp as [|[bs p] l l' Hp IH|[bs' q] [bs p] l|l1 l2 l3 Hp1 IH1 Hp2 IH2]; intros m Hok.
  - done.
  - cbn [outp]. destruct (exec p m) as [m1 [e|]]; [done|]. apply IH. destruct Hok as [H1 H2].
    apply Forall_cons in H1 as [_ H1]. inversion H2; subst. done.
  - destruct Hok as [H1 H2]. apply Forall_cons in H1 as [Hp H1]. apply Forall_cons in H1 as [Hq H1].
    inversion H2 as [|? ? H3 H4]; subst. apply Forall_cons in H3 as [H3 _]. cbn [fst snd] in *.
    destruct (exec_comm bs bs' p q m Hp Hq H3) as (C1 & C2 & C3). cbn [outp].
    destruct (exec p m) as [m1 r1] eqn:E1, (exec q m) as [m2 r2] eqn:E2. cbn [fst snd] in *.
    destruct (exec q m1) as [m3 r3] eqn:E3, (exec p m2) as [m4 r4] eqn:E4. cbn [fst snd] in *. subst.
    by destruct r1, r2.
  - rewrite IH1 by done. apply IH2. by eapply ok_items_perm.
Qed.

Context (sysf : N → prg).

(** The items of a batch being run; [bor] gives the declared borrows of a task. *)
Section batch.
Context (fs : list N) (k : nat) (own : option slot) (bor : slot * nat → list tinfo).
Definition pitem (x : slot * nat) : item :=
  (bor x, match fs !! x.2 with Some f => sysf f | None => Ret None end).
Definition left_items (c : bcfg V E) : list item :=
  map pitem (b_pend c) ++ map (λ y, (bor y.1, y.2)) (b_run c).

Lemma ok_items_app_r l x l' : ok_items (l ++ x :: l') → ok_items (x :: l ++ l').
Proof. apply ok_items_perm. by rewrite Permutation_middle. Qed.
Lemma ok_items_cons x l : ok_items (x :: l) → ok_items l.
Proof.
  intros [H1 H2]. apply Forall_cons in H1 as [_ H1]. inversion H2; subst. done.
Qed.
Lemma ok_items_change bs p p' l :
  respects bs p' → ok_items ((bs, p) :: l) → ok_items ((bs, p') :: l).
Proof.
  intros Hr [H1 H2]. apply Forall_cons in H1 as [_ H1]. split; [by constructor|].
  inversion H2; subst. by constructor.
Qed.

Lemma bstep_outp c tr c' :
  bstep sysf fs k own c tr c' → ok_items (left_items c) →
  ok_items (left_items c') ∧ (∀ y, y ∈ b_done c → y ∈ b_done c') ∧
  ((∀ y e, (y, Some e) ∉ b_done c') → (∀ y e, (y, Some e) ∉ b_done c) ∧
     outp (left_items c') (b_store c') = outp (left_items c) (b_store c)) ∧
  ((∀ y e, (y, Some e) ∉ b_done c) → (∃ y e, (y, Some e) ∈ b_done c') →
     outp (left_items c) (b_store c) = None).
Proof.
  intros H Hok.
  destruct H as [m p1 p2 sl ix f run fin Hf|m pend r1 r2 x s kont fin|m pend r1 r2 x s v p fin|
    m pend r1 r2 x r fin|m p1 p2 sl ix run fin x e Ho Hin Hx];
    unfold left_items in *; cbn [b_pend b_run b_done b_store] in *.
  - assert (Hperm : map pitem (p1 ++ (sl, ix) :: p2) ++ map (λ y, (bor y.1, y.2)) run ≡ₚ
      map pitem (p1 ++ p2) ++ map (λ y, (bor y.1, y.2)) (run ++ [((sl, ix), sysf f)])).
    { rewrite !map_app. cbn [map fst snd]. unfold pitem at 2. cbn [snd]. rewrite Hf.
      rewrite <-Permutation_middle. cbn [app].
      rewrite (app_assoc _ _ [(bor (sl, ix), sysf f)]), (Permutation_app_comm _ [(bor (sl, ix), sysf f)]). done. }
    split_and!; [by eapply ok_items_perm|done| |].
    + intros Hd. split; [done|]. symmetry. by apply outp_perm.
    + intros Hd (y & e & Hy). by apply Hd in Hy.
  - rewrite !map_app in *. cbn [map fst snd] in *. rewrite !app_assoc in *.
    set (l1 := map pitem pend ++ map (λ y, (bor y.1, y.2)) r1) in *.
    set (l2 := map (λ y, (bor y.1, y.2)) r2) in *.
    pose proof (ok_items_app_r _ _ _ Hok) as Hok'.
    assert (Hr : respects (bor x) (kont (m !! s))).
    { destruct Hok' as [H1 _]. apply Forall_cons in H1 as [H1 _]. cbn in H1. by inversion H1; subst. }
    pose proof (ok_items_change _ _ _ _ Hr Hok') as Hok2.
    split_and!; [|done| |].
    + eapply ok_items_perm; [|exact Hok2]. by rewrite Permutation_middle.
    + intros Hd. split; [done|].
      rewrite <-(outp_perm _ _ m (Permutation_middle l1 l2 (bor x, kont (m !! s))) Hok2).
      rewrite <-(outp_perm _ _ m (Permutation_middle l1 l2 (bor x, Rd s kont)) Hok'). done.
    + intros Hd (y & e & Hy). by apply Hd in Hy.
  - rewrite !map_app in *. cbn [map fst snd] in *. rewrite !app_assoc in *.
    set (l1 := map pitem pend ++ map (λ y, (bor y.1, y.2)) r1) in *.
    set (l2 := map (λ y, (bor y.1, y.2)) r2) in *.
    pose proof (ok_items_app_r _ _ _ Hok) as Hok'.
    assert (Hr : respects (bor x) p).
    { destruct Hok' as [H1 _]. apply Forall_cons in H1 as [H1 _]. cbn in H1. by inversion H1; subst. }
    pose proof (ok_items_change _ _ _ _ Hr Hok') as Hok2.
    split_and!; [|done| |].
    + eapply ok_items_perm; [|exact Hok2]. by rewrite Permutation_middle.
    + intros Hd. split; [done|].
      rewrite <-(outp_perm _ _ (put s v m) (Permutation_middle l1 l2 (bor x, p)) Hok2).
      rewrite <-(outp_perm _ _ m (Permutation_middle l1 l2 (bor x, Wr s v p)) Hok'). done.
    + intros Hd (y & e & Hy). by apply Hd in Hy.
  - rewrite !map_app in *. cbn [map fst snd] in *. rewrite !app_assoc in *.
    set (l1 := map pitem pend ++ map (λ y, (bor y.1, y.2)) r1) in *.
    set (l2 := map (λ y, (bor y.1, y.2)) r2) in *.
    pose proof (ok_items_app_r _ _ _ Hok) as Hok'.
    rewrite <-(outp_perm _ _ m (Permutation_middle l1 l2 (bor x, Ret r)) Hok').
    split_and!.
    + by eapply ok_items_cons.
    + intros y Hy. apply elem_of_app. by left.
    + intros Hd. split.
      * intros y e Hy. apply (Hd y e), elem_of_app. by left.
      * destruct r as [e|]; [|done]. destruct (Hd x e). apply elem_of_app. right. by left.
    + intros Hd (y & e & Hy). apply elem_of_app in Hy as [Hy|Hy]; [by apply Hd in Hy|].
      apply elem_of_list_singleton in Hy. injection Hy as <- <-. done.
  - split_and!.
    + rewrite !map_app in *. cbn [map] in *. rewrite <-!app_assoc in *. cbn [app] in Hok.
      apply ok_items_app_r in Hok. by apply ok_items_cons in Hok.
    + done.
    + intros Hd. by apply Hd in Hin.
    + intros Hd. by apply Hd in Hin.
Qed.

Lemma bsteps_outp c tr c' :
  bsteps sysf fs k own c tr c' → ok_items (left_items c) → (∀ y e, (y, Some e) ∉ b_done c) →
  ((∀ y e, (y, Some e) ∉ b_done c') →
     outp (left_items c') (b_store c') = outp (left_items c) (b_store c)) ∧
  ((∃ y e, (y, Some e) ∈ b_done c') → outp (left_items c) (b_store c) = None).
Proof.
  intros H. induction H as [c|c1 tr1 c2 tr2 c3 H1 H2 IH]; intros Hok Hd.
  { split; [done|]. intros (y & e & Hy). by apply Hd in Hy. }
  destruct (bstep_outp _ _ _ H1 Hok) as (S1 & S2 & S3 & S4).
  assert (Hmono : ∀ y, y ∈ b_done c2 → y ∈ b_done c3).
  { destruct (bsteps_facts _ _ _ _ _ _ _ H2) as (st & sk & fin & [_ F _ _ _ _ _ _ _ _]).
    rewrite F. intros y Hy. apply elem_of_app. by left. }
  assert (Hdec : (∃ y e, (y, Some e) ∈ b_done c2) ∨ (∀ y e, (y, Some e) ∉ b_done c2)).
  { destruct (decide (Exists (λ y, is_Some y.2) (b_done c2))) as [Hx|Hx].
    - left. apply Exists_exists in Hx as ([y o] & Hy & [e He]). cbn in He. subst o. eauto.
    - right. intros y e Hy. apply Hx, Exists_exists. eexists. split; [done|]. by eexists. }
  destruct Hdec as [(y & e & Hy)|Hd2].
  - split; [|intros _; apply S4; eauto]. intros Hd3. exfalso. eapply Hd3. by apply Hmono.
  - destruct (IH S1 Hd2) as [I1 I2]. destruct (S3 Hd2) as [_ S5]. rewrite <-S5. done.
Qed.

(** A complete run of a batch succeeds exactly if the tasks, run one after the other, do; and
    it leaves the same storages. *)
Lemma batch_outp pend m tr m' fin res :
  bsteps sysf fs k own
    {| b_store := m; b_pend := pend; b_run := []; b_done := [] |} tr
    {| b_store := m'; b_pend := []; b_run := []; b_done := fin |} →
  batch_result own fin res → ok_items (map pitem pend) →
  outp (map pitem pend) m = match res with None => Some m' | Some _ => None end.
Proof.
  intros H Hres Hok.
  destruct (bsteps_outp _ _ _ H) as [H1 H2].
  { unfold left_items. cbn. by rewrite app_nil_r. }
  { intros y e Hy. by apply elem_of_nil in Hy. }
  unfold left_items in *. cbn [b_pend b_run b_done b_store map app] in *.
  rewrite app_nil_r in *.
  destruct Hres as [x e Hx _|x e Hx _ _|Hall].
  - rewrite H2; eauto.
  - rewrite H2; eauto.
  - rewrite <-H1; [done|]. intros y e Hy. by apply Hall in Hy.
Qed.
End batch.
End commute.
