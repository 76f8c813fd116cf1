(** Vocabulary and proofs: every run of a workload, failed or not, is a run of the systems it
    started, one at a time. *)
From stdpp Require Import prelude countable list gmap.
From Verif Require Import Sched SchedSpec SchedProofs SchedProofs2 SchedProofs3 PropsSched PropsSched3.
From Verif Require Import Run RunSpec RunProofs RunProofs2 RunProofs3 RunProofs4 PropsRun PropsRun2.
Local Open Scope nat_scope.

Section spec.
Context {V E T : Type} (sysf : N → prog V (option E)) (condf : N → prog V (E + bool)).

(** Reading the events of a run from left to right, starting with the storages [m]: each
    condition is evaluated in the storages at hand, and each system is run alone, from its
    beginning to its end, where it was started.  It then gives the result it gave in the run,
    whose events are [all].  [cnd t c]: the condition of [t] is [c]. *)
Inductive serial (cnd : T → cond → Prop) (all : list (event V E T)) :
    list (event V E T) → store V → store V → Prop :=
| SerNil m : serial cnd all [] m m
| SerCond t c b l m m1 m' :
    cnd t c → ceval condf c m = (m1, inr b) → serial cnd all l m1 m' →
    serial cnd all (EvCond t m b :: l) m m'
| SerCondErr t c e l m m1 m' :
    cnd t c → ceval condf c m = (m1, inl e) → serial cnd all l m1 m' →
    serial cnd all (EvCondErr t m e :: l) m m'
| SerStart t f r l m m1 m' :
    exec (sysf f) m = (m1, r) → EvEnd t r ∈ all → serial cnd all l m1 m' →
    serial cnd all (EvStart t f :: l) m m'
| SerEnd t r l m m' : serial cnd all l m m' → serial cnd all (EvEnd t r :: l) m m'.
End spec.

(** The condition declared for the system run as [t]. *)
Definition cond_at (w : workload) (info : list binfo) (t : task) (c : cond) : Prop :=
  ∃ i x, wl_systems w !! i = Some x ∧ runs_as info i t ∧ w_run_if x = Some c.
(** The same for the sequential order. *)
Definition cond_nth (w : workload) (order : list psys) (k : nat) (c : cond) : Prop :=
  ∃ s x, order !! k = Some s ∧ wl_systems w !! pos s = Some x ∧ w_run_if x = Some c.
(** The storages after the condition of the workload itself. *)
Definition after_rif {V E} (condf : N → prog V (E + bool)) (w : workload) (m : store V) : store V :=
  match wl_run_if w with None => m | Some c => (ceval condf c m).1 end.

Section proofs.
Context {V E : Type} (sysf : N → prog V (option E)) (condf : N → prog V (E + bool)).
Notation event := (event V E).
Notation ritem := (slot * nat * prog V (option E))%type.

Lemma serial_app {T} (cnd : T → cond → Prop) all l1 l2 m1 m2 m3 :
  serial sysf condf cnd all l1 m1 m2 → serial sysf condf cnd all l2 m2 m3 →
  serial sysf condf cnd all (l1 ++ l2) m1 m3.
Proof. induction 1; intros; cbn [app]; [done|by econstructor; eauto..]. Qed.
Lemma serial_mono {T} (cnd cnd' : T → cond → Prop) all all' l m m' :
  (∀ t c, cnd t c → cnd' t c) → (∀ t r, EvEnd t r ∈ all → EvEnd t r ∈ all') →
  serial sysf condf cnd all l m m' → serial sysf condf cnd' all' l m m'.
Proof. intros H1 H2. induction 1; econstructor; eauto. Qed.

(** * The systems of a batch *)

Fixpoint exec_items (l : list ritem) (m : store V) : store V * list (slot * nat * option E) :=
  match l with
  | [] => (m, [])
  | (x, p) :: l =>
      let '(m1, r) := exec p m in let '(m2, rs) := exec_items l m1 in (m2, (x, r) :: rs)
  end.
Lemma exec_items_app l1 l2 m :
  exec_items (l1 ++ l2) m =
  let '(m1, rs1) := exec_items l1 m in let '(m2, rs2) := exec_items l2 m1 in (m2, rs1 ++ rs2).
Proof.
  revert m. induction l1 as [|[x p] l1 IH]; intros m; cbn [exec_items app].
  { by destruct (exec_items l2 m). }
  destruct (exec p m) as [m1 r]. rewrite IH. destruct (exec_items l1 m1) as [m2 rs1].
  by destruct (exec_items l2 m2).
Qed.

Context (bor : slot * nat → list tinfo).
Definition with_bor (l : list ritem) : list (list tinfo * prog V (option E)) :=
  map (λ y, (bor y.1, y.2)) l.

Lemma exec_items_frame l s m :
  Forall (λ x, respects x.1 x.2 ∧ ¬ may_write x.1 s) (with_bor l) → (exec_items l m).1 !! s = m !! s.
Proof.
  revert m. induction l as [|[x p] l IH]; intros m HF; [done|]. cbn [with_bor map] in HF.
  apply Forall_cons in HF as [[H1 H2] HF]. cbn [exec_items fst snd] in *.
  pose proof (exec_frame _ p s m H1 H2) as Hf. destruct (exec p m) as [m1 r].
  specialize (IH m1 HF). destruct (exec_items l m1) as [m2 rs]. cbn in *. by rewrite IH.
Qed.
Lemma exec_items_put l s v m :
  Forall (λ x, respects x.1 x.2 ∧ ¬ may_read x.1 s) (with_bor l) →
  exec_items l (put s v m) = (put s v (exec_items l m).1, (exec_items l m).2).
Proof.
  revert m. induction l as [|[x p] l IH]; intros m HF; [done|]. cbn [with_bor map] in HF.
  apply Forall_cons in HF as [[H1 H2] HF]. cbn [exec_items fst snd] in *.
  rewrite (exec_put _ p s v m H1 H2). destruct (exec p m) as [m1 r]. cbn [fst snd].
  rewrite (IH m1 HF). by destruct (exec_items l m1).
Qed.

(** The order of the items does not matter. *)
Lemma exec_items_perm l l' m :
  l ≡ₚ l' → ok_items (with_bor l) →
  (exec_items l m).1 = (exec_items l' m).1 ∧ (exec_items l m).2 ≡ₚ (exec_items l' m).2.
Proof.
  intros Hp. revert m. induction Hp as [|[x p] l l' Hp IH|[y q] [x p] l|l1 l2 l3 Hp1 IH1 Hp2 IH2]; intros m Hok.
  - done.
  - cbn [exec_items]. destruct (exec p m) as [m1 r]. cbn [with_bor map] in Hok.
    apply ok_items_cons in Hok. destruct (IH m1 Hok) as [I1 I2].
    destruct (exec_items l m1), (exec_items l' m1). cbn in *. split; [done|]. by rewrite I2.
  - cbn [with_bor map] in Hok. destruct Hok as [H1 H2].
    apply Forall_cons in H1 as [Hq H1]. apply Forall_cons in H1 as [Hp H1].
    inversion H2 as [|? ? H3 H4]; subst. apply Forall_cons in H3 as [H3 _]. cbn [fst snd] in *.
    destruct (exec_comm _ _ p q m Hq Hp H3) as (C1 & C2 & C3). cbn [exec_items].
    destruct (exec p m) as [m1 r1], (exec q m) as [m2 r2]. cbn [fst snd] in *.
    destruct (exec q m1) as [m3 r3] eqn:E3, (exec p m2) as [m4 r4] eqn:E4. cbn [fst snd] in *. subst.
    destruct (exec_items l m4). cbn. split; [done|]. by constructor.
  - destruct (IH1 m Hok) as [A1 A2]. destruct (IH2 m) as [B1 B2].
    { eapply ok_items_perm; [|exact Hok]. unfold with_bor. by rewrite Hp1. }
    split; [congruence|]. by rewrite A2.
Qed.

(** The systems started, with their programs. *)
Fixpoint started (tr : list (event task)) : list (task * prog V (option E)) :=
  match tr with
  | [] => []
  | EvStart t f :: tr => (t, sysf f) :: started tr
  | _ :: tr => started tr
  end.
Lemma started_app tr1 tr2 : started (tr1 ++ tr2) = started tr1 ++ started tr2.
Proof. induction tr1 as [|[] tr1 IH]; cbn [started app]; rewrite ?IH; done. Qed.
Lemma started_starts tr : (started tr).*1 = starts tr.
Proof. induction tr as [|[] tr IH]; [done|..]; cbn; rewrite ?IH; try done. Qed.

Section batch.
Context (fs : list N) (k : nat) (own : option slot).

(** A batch run to its end is a run of the systems it started, in the order of their starts. *)
Lemma bsteps_items c tr c' :
  bsteps sysf fs k own c tr c' → b_run c' = [] → ok_items (left_items sysf fs bor c) →
  ∃ st rs, exec_items (b_run c ++ st) (b_store c) = (b_store c', rs) ∧
    b_done c' ≡ₚ b_done c ++ rs ∧ map (λ y, ((k, y.1.1), y.2)) st = started tr ∧
    (∀ y, y ∈ st → y.1 ∈ b_pend c ∧ ∃ f, fs !! y.1.2 = Some f ∧ y.2 = sysf f).
Proof.
  intros H Hrun. induction H as [c|c1 tr1 c2 tr2 c3 H1 H2 IH]; intros Hok.
  { exists [], []. rewrite Hrun. cbn. rewrite app_nil_r. split_and!; try done. intros y Hy. by apply elem_of_nil in Hy. }
  specialize (IH Hrun). destruct (bstep_outp _ _ _ _ _ _ _ _ H1 Hok) as [Hok' _].
  destruct (IH Hok') as (st & rs & X1 & X2 & X3 & X4). clear IH. rewrite started_app.
  destruct H1 as [m p1 p2 sl ix f run fin Hf|m pend r1 r2 x s kont fin|m pend r1 r2 x s v p fin|
    m pend r1 r2 x r0 fin|m p1 p2 sl ix run fin x e Hs1 Hs2 Hs3]; cbn [b_pend b_run b_done b_store] in *.
  - exists ((sl, ix, sysf f) :: st), rs. rewrite <-app_assoc in X1. cbn [app] in *.
    split_and!; [done|done|cbn; by rewrite X3|]. intros y [->|Hy]%elem_of_cons.
    + cbn. split; [|by eauto]. apply elem_of_app. right. by left.
    + destruct (X4 y Hy) as [A B]. split; [|done]. apply elem_of_app in A as [A|A]; apply elem_of_app; [by left|].
      right. by right.
  - exists st, rs. split_and!; try done. rewrite <-X1, <-!app_assoc. cbn [app]. rewrite !exec_items_app.
    assert (Hs : (exec_items r1 m).1 !! s = m !! s).
    { apply exec_items_frame. destruct Hok as [O1 O2]. unfold left_items in O1, O2. cbn [b_pend b_run] in O1, O2.
      rewrite map_app in O1, O2. cbn [map] in O1, O2.
      apply Forall_app in O1 as [_ O1]. apply Forall_app in O1 as [O1 O3]. apply Forall_cons in O3 as [O3 _].
      inversion O3 as [|? ? Hr _|]; subst.
      apply Forall_forall. intros z Hz. split; [by eapply Forall_forall in O1|]. intros Hw.
      assert (Hc : ¬ clash z.1 (bor x)).
      { clear -O2 Hz. apply elem_of_list_split in Hz as (la & lb & Hz). unfold with_bor in Hz.
        rewrite Hz in O2. clear Hz. induction (map (pitem sysf fs bor) pend) as [|a l IHl].
        - cbn [app] in O2. induction la as [|a la IHa].
          + cbn [app] in O2. inversion O2 as [|? ? O3 O4]; subst. apply Forall_app in O3 as [_ O3].
            by apply Forall_cons in O3 as [O3 _].
          + cbn [app] in O2. inversion O2; subst. by apply IHa.
        - cbn [app] in O2. inversion O2; subst. by apply IHl. }
      apply noclash_sym in Hc. by apply Hc, (rw_clash _ _ s). }
    destruct (exec_items r1 m) as [m1 rs1]. cbn [fst] in Hs. cbn [exec_items exec]. by rewrite Hs.
  - exists st, rs. split_and!; try done. rewrite <-X1, <-!app_assoc. cbn [app]. rewrite !exec_items_app.
    rewrite (exec_items_put r1 s v m).
    { destruct (exec_items r1 m) as [m1 rs1]. cbn [exec_items exec fst snd]. done. }
    destruct Hok as [O1 O2]. unfold left_items in O1, O2. cbn [b_pend b_run] in O1, O2.
    rewrite map_app in O1, O2. cbn [map] in O1, O2.
    apply Forall_app in O1 as [_ O1]. apply Forall_app in O1 as [O1 O3]. apply Forall_cons in O3 as [O3 _].
    inversion O3 as [| |? ? ? Hw _]; subst.
    apply Forall_forall. intros z Hz. split; [by eapply Forall_forall in O1|]. intros Hr.
    assert (Hc : ¬ clash z.1 (bor x)).
    { clear -O2 Hz. apply elem_of_list_split in Hz as (la & lb & Hz). unfold with_bor in Hz.
      rewrite Hz in O2. clear Hz. induction (map (pitem sysf fs bor) pend) as [|a l IHl].
      - cbn [app] in O2. induction la as [|a la IHa].
        + cbn [app] in O2. inversion O2 as [|? ? O3 O4]; subst. apply Forall_app in O3 as [_ O3].
          by apply Forall_cons in O3 as [O3 _].
        + cbn [app] in O2. inversion O2; subst. by apply IHa.
      - cbn [app] in O2. inversion O2; subst. by apply IHl. }
    by apply Hc, (rw_clash _ _ s).
  - rewrite <-app_assoc, exec_items_app in X1. destruct (exec_items r1 m) as [m1 rs1] eqn:E1.
    destruct (exec_items (r2 ++ st) m1) as [m2 rs2] eqn:E2. injection X1 as Hm <-.
    exists st, (rs1 ++ (x, r0) :: rs2). split_and!; [|..|done|done].
    + rewrite <-app_assoc, exec_items_app, E1. cbn [app exec_items exec]. by rewrite E2, Hm.
    + rewrite X2, <-app_assoc. cbn [app]. by rewrite Permutation_middle.
  - exists st, rs. split_and!; [done|done|done|]. intros y Hy. destruct (X4 y Hy) as [A B]. split; [|done].
    apply elem_of_app in A as [A|A]; apply elem_of_app; [by left|]. right. by right.
Qed.

(** From the items to [serial]. *)
Lemma items_serial all tr st m m' rs :
  conds tr = [] → map (λ y, ((k, y.1.1), y.2)) st = started tr → exec_items st m = (m', rs) →
  (∀ x r, (x, r) ∈ rs → EvEnd (k, x.1) r ∈ all) → ∀ cnd : task → cond → Prop,
  serial sysf condf cnd all tr m m'.
Proof.
  intros Hc Hst He Hend cnd. revert st m rs Hc Hst He Hend.
  induction tr as [|ev tr IH]; intros st m rs Hc Hst He Hend.
  { destruct st; [|done]. injection He as <- <-. constructor. }
  destruct ev as [t m0 b|t m0 e|t f|t r]; [done|done|..].
  - cbn [started] in Hst. destruct st as [|[[sl ix] p] st]; [done|]. cbn in Hst. injection Hst as <- -> Hst.
    cbn [exec_items] in He. destruct (exec (sysf f) m) as [m1 r] eqn:Ee.
    destruct (exec_items st m1) as [m2 rs2] eqn:E2. injection He as <- <-.
    eapply SerStart; [done| |].
    + apply (Hend (sl, ix)). by left.
    + eapply IH; [done|done|done|]. intros x r' Hx. apply Hend. by right.
  - apply SerEnd. by eapply IH.
Qed.
End batch.

(** The run conditions of a batch. *)
Lemma eval_rif_serial {T} (cnd : T → cond → Prop) all ba (t : T) nm r m m1 evs c :
  (∀ ci cd, r = Some ci → ba_sys_rif ba !! ci = Some cd → cnd t cd) →
  eval_rif condf ba t nm r m = (m1, evs, c) → serial sysf condf cnd all evs m m1.
Proof.
  intros Hc. unfold eval_rif. destruct r as [ci|]; [|intros [= <- <- <-]; constructor].
  destruct (ba_sys_rif ba !! ci) as [cd|] eqn:Ecd; [|intros [= <- <- <-]; constructor].
  destruct (ceval condf cd m) as [m2 [e|b]] eqn:Ece; intros [= <- <- <-].
  - eapply SerCondErr; [by eapply Hc|done|constructor].
  - eapply SerCond; [by eapply Hc|done|constructor].
Qed.
Lemma eval_list_serial (cnd : task → cond → Prop) all ba l m m1 evs c :
  (∀ t nm ci cd, (t, nm, Some ci) ∈ l → ba_sys_rif ba !! ci = Some cd → cnd t cd) →
  eval_list condf ba l m = (m1, evs, c) → serial sysf condf cnd all evs m m1.
Proof.
  revert m m1 evs c. induction l as [|[[t nm] r] l IH]; intros m m1 evs c Hc; cbn [eval_list].
  { intros [= <- <- <-]. constructor. }
  destruct (eval_rif condf ba t nm r m) as [[m2 evs1] c1] eqn:E1.
  assert (S1 : serial sysf condf cnd all evs1 m m2).
  { eapply eval_rif_serial; [|exact E1]. intros ci cd -> Hcd. eapply Hc; [by left|done]. }
  destruct c1 as [e|b]; [by intros [= <- <- <-]|].
  destruct (eval_list condf ba l m2) as [[m3 evs2] c2] eqn:E2. intros [= <- <- <-].
  eapply serial_app; [exact S1|]. eapply IH; [|exact E2]. intros t' nm' ci cd Hin. eapply Hc. by right.
Qed.
Lemma eval_batch_serial (cnd : task → cond → Prop) all fs ba k b r m m1 evs c :
  wf_batch fs ba b r →
  (∀ sl ix ci cd, job b r sl = Some (ix, Some ci) → ba_sys_rif ba !! ci = Some cd → cnd (k, sl) cd) →
  eval_batch condf ba k b r m = (m1, evs, c) → serial sysf condf cnd all evs m m1.
Proof.
  intros (W1 & _) Hc. rewrite eval_batch_list.
  destruct (eval_list condf ba (jobs k b r) m) as [[m2 evs2] c2] eqn:El. intros [= <- <- _].
  eapply eval_list_serial; [|exact El]. intros t nm ci cd Hin Hcd.
  assert (∃ sl, t = (k, sl)) as [sl ->].
  { apply jobs_elem in Hin as [(-> & _)|(j & i & -> & _)]; eauto. }
  destruct (jobs_job _ _ _ _ _ _ Hin W1) as (ix & _ & Hj). by eapply Hc.
Qed.
End proofs.
