(** C81: the lock around the table of storages is used without races, misuse or deadlock; what breaks it is
    user code that calls back, and a panic while std's lock is held for writing. *)
From stdpp Require Import prelude list gmap.
From Coq Require Import NArith.
From Verif Require Import TableLock TableLockSpec.

(** * Guards *)

(** How many guards of a kind a thread still has to drop. *)
Fixpoint nrel (m : lmode) (code : list instr) : nat :=
  match code with
  | [] => 0
  | IRel m' :: k => (if decide (m' = m) then 1 else 0) + nrel m k
  | _ :: k => nrel m k
  end.
Lemma nrel_app m l1 l2 : nrel m (l1 ++ l2) = nrel m l1 + nrel m l2.
Proof. induction l1 as [|x l1 IH]; simpl; [done|]. destruct x; simpl; rewrite ?IH; lia. Qed.

Fixpoint occ (t : nat) (l : list nat) : nat :=
  match l with [] => 0 | x :: l => (if decide (x = t) then 1 else 0) + occ t l end.
Lemma occ_pos t l : t ∈ l ↔ 0 < occ t l.
Proof.
  induction l as [|x l IH]; simpl; [split; [by intros ?%elem_of_nil|lia]|].
  rewrite elem_of_cons, IH. case_decide; split; intros; subst; try lia; auto.
Qed.
Lemma occ_remove1 t t' l :
  occ t' (remove1 t l) = if decide (t = t') then occ t' l - 1 else occ t' l.
Proof.
  induction l as [|x l IH]; simpl; [by case_decide|].
  repeat case_decide; subst; simpl; rewrite ?IH; repeat case_decide; subst; try congruence; lia.
Qed.
Lemma remove1_sub t l x : x ∈ remove1 t l → x ∈ l.
Proof.
  induction l as [|y l IH]; simpl; [done|]. case_decide; [by right|].
  rewrite !elem_of_cons. intros [?|?]; auto.
Qed.

(** The lock knows who holds it. *)
Record lkinv (c : conf) : Prop := {
  lk_ub : c_ub c = false;
  lk_rd : ∀ t th, c_ths c !! t = Some th → occ t (c_rd c) = nrel LR (th_code th);
  lk_wr : ∀ t th, c_ths c !! t = Some th →
    nrel LW (th_code th) = if decide (c_wr c = Some t) then 1 else 0;
  lk_rd_in : ∀ t, t ∈ c_rd c → is_Some (c_ths c !! t);
  lk_wr_in : ∀ t, c_wr c = Some t → is_Some (c_ths c !! t);
  lk_excl : c_wr c ≠ None → c_rd c = [];
}.

Definition same_lock (c c' : conf) : Prop :=
  c_rd c' = c_rd c ∧ c_wr c' = c_wr c ∧ c_ub c' = c_ub c.

Lemma is_Some_insert (l : list thr) t th i : is_Some (l !! i) → is_Some (<[t := th]> l !! i).
Proof. intros Hx%lookup_lt_is_Some. apply lookup_lt_is_Some. by rewrite insert_length. Qed.

Lemma lk_same c c' t th th' :
  lkinv c → c_ths c !! t = Some th → same_lock c c' → c_ths c' = <[t := th']> (c_ths c) →
  (∀ m, nrel m (th_code th') = nrel m (th_code th)) → lkinv c'.
Proof.
  intros [H1 H2 H3 H4 H5 H6] Ht (E1 & E2 & E3) E4 Hn.
  split; rewrite ?E1, ?E2, ?E3, ?E4; try done.
  - intros t' th''. destruct (decide (t = t')) as [<-|].
    + rewrite list_lookup_insert by (by eapply lookup_lt_Some). intros [= <-]. rewrite Hn. auto.
    + rewrite list_lookup_insert_ne by done. auto.
  - intros t' th''. destruct (decide (t = t')) as [<-|].
    + rewrite list_lookup_insert by (by eapply lookup_lt_Some). intros [= <-]. rewrite Hn. auto.
    + rewrite list_lookup_insert_ne by done. auto.
  - intros t' Ht'. by apply is_Some_insert, H4.
  - intros t' Ht'. by apply is_Some_insert, H5.
Qed.

Lemma lk_acq pref c t th m body k out :
  lkinv c → c_ths c !! t = Some th → th_code th = IAcq m body :: k →
  (∀ m', nrel m' body = 0) → granted pref c m = true →
  lkinv (with_th (lock c t m) t (Thr (body ++ IRel m :: k) false out)).
Proof.
  intros [H1 H2 H3 H4 H5 H6] Ht Hc Hb Hg.
  assert (Hw : c_wr c = None) by (unfold granted in Hg; by destruct (c_wr c)).
  pose proof (lookup_lt_Some _ _ _ Ht) as Hlt.
  assert (Hn : ∀ m', nrel m' (body ++ IRel m :: k) = (if decide (m = m') then 1 else 0) + nrel m' (th_code th)).
  { intros m'. rewrite nrel_app, Hb, Hc. simpl. by destruct (decide (m = m')). }
  destruct m; split; simpl; try done.
  - intros t' th'. destruct (decide (t = t')) as [<-|].
    + rewrite list_lookup_insert by done. intros [= <-]. simpl. rewrite Hn. rewrite (H2 t th) by done.
      rewrite decide_True by done. done.
    + rewrite list_lookup_insert_ne by done. simpl. auto.
  - intros t' th'. destruct (decide (t = t')) as [<-|].
    + rewrite list_lookup_insert by done. intros [= <-]. simpl. rewrite Hn. simpl. auto.
    + rewrite list_lookup_insert_ne by done. auto.
  - intros t' [->|Ht']%elem_of_cons; apply is_Some_insert; [by rewrite Ht|auto].
  - intros t' Ht'. by apply is_Some_insert, H5.
  - unfold granted in Hg. rewrite Hw in Hg. destruct (c_rd c) eqn:Er; [|done].
    intros t' th'. destruct (decide (t = t')) as [<-|].
    + rewrite list_lookup_insert by done. intros [= <-]. simpl. rewrite Hn. simpl. apply (H2 t th Ht).
    + rewrite list_lookup_insert_ne by done. apply H2.
  - intros t' th'. destruct (decide (t = t')) as [<-|].
    + rewrite list_lookup_insert by done. intros [= <-]. simpl. rewrite Hn. rewrite (H3 t th) by done.
      rewrite Hw. repeat case_decide; try done.
    + rewrite list_lookup_insert_ne by done. intros Ht'. rewrite (H3 _ _ Ht'), Hw.
      rewrite !decide_False by congruence. done.
  - intros t' Ht'. by apply is_Some_insert, H4.
  - intros t' [= <-]. apply is_Some_insert. by rewrite Ht.
  - intros _. unfold granted in Hg. rewrite Hw in Hg. by destruct (c_rd c).
Qed.

Lemma lk_rel std c t th m k unw unw' out :
  lkinv c → c_ths c !! t = Some th → th_code th = IRel m :: k →
  lkinv (with_th (unlock std c t m unw) t (Thr k unw' out)).
Proof.
  intros [H1 H2 H3 H4 H5 H6] Ht Hc.
  pose proof (lookup_lt_Some _ _ _ Ht) as Hlt.
  assert (Hn : ∀ m', nrel m' (th_code th) = (if decide (m = m') then 1 else 0) + nrel m' k) by (by intros; rewrite Hc).
  pose proof (H2 t th Ht) as R. pose proof (H3 t th Ht) as W. rewrite Hn in R, W.
  destruct m; simpl in R, W; split; simpl; try done.
  - rewrite H1. simpl. rewrite bool_decide_eq_true_2; [done|]. apply occ_pos. lia.
  - intros t' th'. rewrite occ_remove1. destruct (decide (t = t')) as [<-|].
    + rewrite list_lookup_insert by done. intros [= <-]. simpl. lia.
    + rewrite list_lookup_insert_ne by done. auto.
  - intros t' th'. destruct (decide (t = t')) as [<-|].
    + rewrite list_lookup_insert by done. by intros [= <-].
    + rewrite list_lookup_insert_ne by done. auto.
  - intros t' Ht'. apply is_Some_insert, H4. by eapply remove1_sub.
  - intros t' Ht'. by apply is_Some_insert, H5.
  - intros Hw. by rewrite (H6 Hw).
  - rewrite H1. simpl. case_decide as D; [|lia]. by rewrite bool_decide_eq_true_2.
  - intros t' th'. destruct (decide (t = t')) as [<-|].
    + rewrite list_lookup_insert by done. intros [= <-]. simpl. done.
    + rewrite list_lookup_insert_ne by done. auto.
  - intros t' th'. case_decide as D; [|lia]. destruct (decide (t = t')) as [<-|].
    + rewrite list_lookup_insert by done. intros [= <-]. simpl. lia.
    + rewrite list_lookup_insert_ne by done. intros Ht'. rewrite (H3 _ _ Ht').
      rewrite decide_False by congruence. done.
  - intros t' Ht'. by apply is_Some_insert, H4.
Qed.

(** * What touches the table is done under a guard *)

(** What is done with a guard: the table is touched in the way of the guard, or user code is run. *)
Definition in_body (m : lmode) (y : instr) : Prop :=
  touches y = Some m ∨ ∃ u, y = IUser u.
Fixpoint gd (code : list instr) : Prop :=
  match code with
  | [] => True
  | x :: k =>
      (∀ m, touches x = Some m → 0 < nrel m k) ∧
      (match x with IAcq m body => Forall (in_body m) body | _ => True end) ∧ gd k
  end.

Lemma in_body_nrel m m' body : Forall (in_body m) body → nrel m' body = 0.
Proof.
  induction 1 as [|y l Hy _ IH]; [done|]. simpl. destruct Hy as [Hy|[u ->]]; [|done].
  by destruct y.
Qed.
Lemma gd_body m body k : Forall (in_body m) body → gd k → gd (body ++ IRel m :: k).
Proof.
  intros Hb Hk. induction Hb as [|y l Hy _ IH]; [done|]. cbn [app gd].
  split; [|split; [|done]].
  - intros m' Hm'. rewrite nrel_app. cbn [nrel]. destruct Hy as [Hy|[u ->]]; [|done].
    rewrite Hy in Hm'. simplify_eq. rewrite decide_True by done. lia.
  - destruct Hy as [Hy|[u ->]]; [|done]. by destruct y.
Qed.
Lemma gd_compile cl k : gd k → gd (compile cl ++ k).
Proof.
  intros Hk. destruct cl; simpl; (split; [done|]); (split; [|done]); try done.
  1-5: apply Forall_singleton; by left.
  constructor; [by left|]. apply Forall_fmap, Forall_true. intros u. right. by exists u.
Qed.
Lemma nrel_compile cl m k : nrel m (compile cl ++ k) = nrel m k.
Proof. by destruct cl. Qed.
Lemma gd_calls cs k : gd k → gd ((ICall <$> cs) ++ k).
Proof. intros Hk. induction cs as [|c cs IH]; [done|]. simpl. split; [done|]. by split. Qed.
Lemma nrel_calls cs m k : nrel m ((ICall <$> cs) ++ k) = nrel m k.
Proof. by induction cs. Qed.

Record inv (c : conf) : Prop := {
  i_lk : lkinv c;
  i_gd : ∀ t th, c_ths c !! t = Some th → gd (th_code th);
}.

(** Steps that leave the lock alone. *)
Lemma inv_go c c' t th th' :
  inv c → c_ths c !! t = Some th → same_lock c c' → c_ths c' = <[t := th']> (c_ths c) →
  (∀ m, nrel m (th_code th') = nrel m (th_code th)) → gd (th_code th') → inv c'.
Proof.
  intros [H1 H2] Ht Hs E Hn Hg. split; [by eapply lk_same|].
  rewrite E. intros t' th''. destruct (decide (t = t')) as [<-|].
  - rewrite list_lookup_insert by (by eapply lookup_lt_Some). by intros [= <-].
  - rewrite list_lookup_insert_ne by done. apply H2.
Qed.

Lemma inv_step std pref c t c' : inv c → lstep std pref c t = Some c' → inv c'.
Proof.
  intros H E. unfold lstep in E. destruct (c_ths c !! t) as [[code unw out]|] eqn:Ht; [|done].
  pose proof (i_gd _ H _ _ Ht) as G. cbn [th_code] in G.
  destruct code as [|x k]; [done|]. cbn [gd] in G. destruct G as (G1 & G2 & G3).
  assert (Rest : ∀ th', th_code th' = k → (∀ m, x ≠ IRel m) → inv (with_th c t th')).
  { intros th' Ec Hx. eapply inv_go; [done|done|done|done|..]; rewrite Ec; [|done].
    intros m. cbn [th_code]. destruct x; try done. by destruct (Hx m0). }
  assert (Drop : ∀ m unw' u2 out', x = IRel m → inv (with_th (unlock std c t m unw') t (Thr k u2 out'))).
  { intros m unw' u2 out' ->. split; [eapply lk_rel; [apply H|done|done]|].
    replace (c_ths (with_th (unlock std c t m unw') t (Thr k u2 out'))) with (<[t := Thr k u2 out']> (c_ths c))
      by (by destruct m).
    intros t' th''. destruct (decide (t = t')) as [<-|].
    - rewrite list_lookup_insert by (by eapply lookup_lt_Some). by intros [= <-].
    - rewrite list_lookup_insert_ne by done. apply H. }
  destruct unw.
  { destruct x; simplify_eq; try (by apply Rest). by apply Drop. }
  destruct x; simplify_eq.
  - (* IAcq *)
    destruct (granted pref c m) eqn:Hg; [|done]. destruct (std && c_poi c); simplify_eq.
    { by apply Rest. }
    split.
    + eapply lk_acq; [apply H|done|done| |done]. intros m'. by eapply in_body_nrel.
    + replace (c_ths (with_th (lock c t m) t (Thr (body ++ IRel m :: k) false out)))
        with (<[t := Thr (body ++ IRel m :: k) false out]> (c_ths c)) by (by destruct m).
      intros t' th''. destruct (decide (t = t')) as [<-|].
      * rewrite list_lookup_insert by (by eapply lookup_lt_Some). intros [= <-]. by apply gd_body.
      * rewrite list_lookup_insert_ne by done. apply H.
  - by apply Drop.
  - by apply Rest.
  - (* IFind *)
    destruct k as [|[| []| | | | | | | | | | | |] k]; simplify_eq; try (by apply Rest).
    eapply inv_go; [done|done|done|done|..]; cbn [th_code].
    + intros m. simpl. by repeat case_decide.
    + simpl in *. case_decide; simpl; [naive_solver|]. split; [done|]. split; [done|].
      split; [done|]. split; [|naive_solver]. apply Forall_singleton. by left.
  - eapply inv_go; [done|done|done|done|..]; cbn [th_code].
    + intros m. by case_decide.
    + case_decide; [done|]. simpl. split; [done|]. split; [done|]. split; [|done].
      intros m [= <-]. by apply G1.
  - eapply inv_go; [done|done|done|done|..]; cbn [th_code].
    + intros m. by case_decide.
    + case_decide; simpl; (split; [intros m [= <-]; by apply G1|]); (split; [done|]); try done.
  - eapply inv_go; [done|done|done|done|..]; cbn [th_code].
    + intros m. by case_decide.
    + case_decide; simpl; [done|]. split; [intros m [= <-]; by apply G1|done].
  - by eapply inv_go.
  - by eapply inv_go.
  - destruct u as [cs p]. simplify_eq. eapply inv_go; [done|done|done|done|..]; cbn [th_code].
    + intros m. rewrite nrel_calls, nrel_app. by destruct p.
    + apply gd_calls. by destruct p; simpl.
  - eapply inv_go; [done|done|done|done|..]; cbn [th_code].
    + intros m. by rewrite nrel_compile.
    + by apply gd_compile.
  - destruct (std && c_poi c); simplify_eq; by apply Rest.
  - by apply Rest.
  - by apply Rest.
Qed.

Lemma start_rels prog m : nrel m (start prog) = 0.
Proof. by induction prog. Qed.
Lemma start_gd prog : gd (start prog).
Proof. by induction prog. Qed.
Lemma init_lookup progs tab t th : c_ths (init progs tab) !! t = Some th →
  ∃ p, p ∈ progs ∧ th = Thr (start p) false [].
Proof.
  simpl. rewrite list_lookup_fmap. intros (p & Hp & ->)%fmap_Some. exists p. split; [|done].
  by eapply elem_of_list_lookup_2.
Qed.
Lemma init_inv progs tab : inv (init progs tab).
Proof.
  split; [split|]; try done; simpl.
  - intros t th (p & _ & ->)%(init_lookup progs tab). simpl. by rewrite start_rels.
  - intros t th (p & _ & ->)%(init_lookup progs tab). simpl. by rewrite start_rels.
  - by intros t ?%elem_of_nil.
  - intros t th (p & _ & ->)%(init_lookup progs tab). apply start_gd.
Qed.
Lemma runs_ind std pref (P : conf → Prop) c0 c :
  P c0 → (∀ c t c', P c → lstep std pref c t = Some c' → P c') → lruns std pref c0 c → P c.
Proof. intros H0 Hs Hr. induction Hr; eauto. Qed.
Lemma reach_inv std pref progs tab c : lruns std pref (init progs tab) c → inv c.
Proof.
  apply runs_ind; [apply init_inv|]. intros c1 t c2. apply inv_step.
Qed.

(** Whatever the threads do and whatever user code does (calls, panics), with either lock: the table is
    never changed while another thread reads or changes it.. *)
Theorem C81_race_free std pref progs tab c :
  lruns std pref (init progs tab) c → race_free c.
Proof.
  intros [L G]%reach_inv t t' th th' m Hne Ht Ht' (_ & x & k & Ex & Hx) (_ & x' & k' & Ex' & Hx').
  pose proof (G _ _ Ht) as Gx. pose proof (G _ _ Ht') as Gx'. rewrite Ex in Gx. rewrite Ex' in Gx'.
  destruct Gx as [Gx _]. destruct Gx' as [Gx' _]. specialize (Gx _ Hx). specialize (Gx' _ Hx').
  assert (W : c_wr c = Some t).
  { pose proof (lk_wr _ L _ _ Ht) as W. rewrite Ex in W. simpl in W.
    assert (nrel LW (x :: k) = nrel LW k) as E by (by destruct x). simpl in E. rewrite E in W.
    case_decide; [done|lia]. }
  destruct m.
  - pose proof (lk_rd _ L _ _ Ht') as R. rewrite Ex' in R.
    rewrite (lk_excl _ L) in R by congruence. simpl in R.
    assert (nrel LR (x' :: k') = nrel LR k') as E by (by destruct x'). simpl in E. rewrite E in R. lia.
  - pose proof (lk_wr _ L _ _ Ht') as R. rewrite Ex' in R.
    assert (nrel LW (x' :: k') = nrel LW k') as E by (by destruct x'). simpl in E, R. rewrite E, W in R.
    rewrite decide_False in R by congruence. lia.
Qed.
(** .. and no guard is dropped by a thread that does not hold the lock in that way. *)
Theorem C81_no_misuse std pref progs tab c :
  lruns std pref (init progs tab) c → c_ub c = false.
Proof. intros [L _]%reach_inv. apply L. Qed.

(** * One step, seen from its thread *)
Inductive tstep (std poi : bool) : thr → thr → Prop :=
| TSkip x k out : (∀ cl, x ≠ ICatch cl) → tstep std poi (Thr (x :: k) true out) (Thr k true out)
| TCatch cl k unw out : tstep std poi (Thr (ICatch cl :: k) unw out) (Thr k false (out ++ [(cl, unw)]))
| TAcq m body k out : tstep std poi (Thr (IAcq m body :: k) false out) (Thr (body ++ IRel m :: k) false out)
| TPoi x k out : std && poi = true → (x = IMut ∨ ∃ m b, x = IAcq m b) →
    tstep std poi (Thr (x :: k) false out) (Thr k true out)
| TGo x k out :
    match x with IRel _ | IPeek | IStore _ | ITake _ | IMut | IFind _ _ | IEntry _ _ => True | _ => False end →
    tstep std poi (Thr (x :: k) false out) (Thr k false out)
| TFind i f k out : tstep std poi (Thr (IFind i f :: IRel LR :: k) false out)
    (Thr (IRel LR :: IAcq LW [IEntry i f] :: k) false out)
| TEntry i f k out : tstep std poi (Thr (IEntry i f :: k) false out) (Thr (IUser f :: IStore i :: k) false out)
| TPut i d k out : tstep std poi (Thr (IPut i d :: k) false out) (Thr (IStore i :: IUser d :: k) false out)
| TPutNew i d k out : tstep std poi (Thr (IPutNew i d :: k) false out) (Thr (IUser d :: k) false out)
| TStore x i k out : match x with IPut _ _ | IPutNew _ _ => True | _ => False end →
    tstep std poi (Thr (x :: k) false out) (Thr (IStore i :: k) false out)
| TUser cs (p : bool) k out : tstep std poi (Thr (IUser (U cs p) :: k) false out)
    (Thr ((ICall <$> cs) ++ (if p then [IPanic] else []) ++ k) false out)
| TCall cl k out : tstep std poi (Thr (ICall cl :: k) false out) (Thr (compile cl ++ k) false out)
| TPanic k out : tstep std poi (Thr (IPanic :: k) false out) (Thr k true out).

Lemma lstep_tstep std pref c t c' : lstep std pref c t = Some c' →
  ∃ th th', c_ths c !! t = Some th ∧ tstep std (c_poi c) th th' ∧ c_ths c' = <[t := th']> (c_ths c) ∧
    (c_poi c' = c_poi c ∨ std = true ∧ th_unw th = true ∧ ∃ k, th_code th = IRel LW :: k).
Proof.
  intros E. unfold lstep in E. destruct (c_ths c !! t) as [[code unw out]|] eqn:Ht; [|done].
  destruct code as [|x k]; [done|]. exists (Thr (x :: k) unw out).
  destruct unw.
  { destruct x as [m body|m| | | | | | | | | | | |]; simplify_eq;
      try (eexists; split; [done|]; split; [by constructor|]; split; [done|]; by left).
    destruct m; (eexists; split; [done|]; split; [by constructor|]; split; [done|]).
    - by left.
    - destruct std; [right; eauto|left; simpl; by rewrite orb_false_r]. }
  destruct x as [m body|m| | | | | | | |[cs p]| | | |]; simplify_eq;
    try (eexists; split; [done|]; split; [by constructor|]; split; [done|]; by left).
  - destruct (granted pref c m); [|done]. destruct (std && c_poi c) eqn:Ep; simplify_eq.
    + eexists; split; [done|]. split; [apply TPoi; [done|eauto]|]. split; [done|by left].
    + eexists; split; [done|]. split; [apply TAcq|]. destruct m; (split; [done|by left]).
  - eexists; split; [done|]. split; [by apply TGo|]. destruct m; simpl; (split; [done|left]); [done|].
    by rewrite andb_false_r, orb_false_r.
  - destruct k as [|[| []| | | | | | | | | | | |] k]; simplify_eq;
      try (eexists; split; [done|]; split; [by apply TGo|]; split; [done|]; by left).
    case_decide; (eexists; split; [done|]; split; [|split; [done|by left]]); [by apply TGo|apply TFind].
  - case_decide; (eexists; split; [done|]; split; [|split; [done|by left]]); [by apply TGo|apply TEntry].
  - case_decide; (eexists; split; [done|]; split; [|split; [done|by left]]); [apply TPut|by apply TStore].
  - case_decide; (eexists; split; [done|]; split; [|split; [done|by left]]); [apply TPutNew|by apply TStore].
  - destruct (std && c_poi c) eqn:Ep; simplify_eq; (eexists; split; [done|]; split; [|split; [done|by left]]);
      [apply TPoi; auto|by apply TGo].
Qed.

(** A property of threads kept by their steps is kept. *)
Lemma threads_step std pref c t c' (P : thr → Prop) :
  (∀ th th', tstep std (c_poi c) th th' → P th → P th') →
  (∀ t th, c_ths c !! t = Some th → P th) → lstep std pref c t = Some c' →
  ∀ t th, c_ths c' !! t = Some th → P th.
Proof.
  intros Hs HP (th & th' & Ht & Hst & E & _)%lstep_tstep t' th''. rewrite E.
  destruct (decide (t = t')) as [<-|].
  - rewrite list_lookup_insert by (by eapply lookup_lt_Some). intros [= <-]. eauto.
  - rewrite list_lookup_insert_ne by done. apply HP.
Qed.

(** * User code that makes no calls *)
Definition norel (k : list instr) : Prop := nrel LR k = 0 ∧ nrel LW k = 0.
Definition qbody (y : instr) : Prop :=
  match y with
  | IPeek | IStore _ | ITake _ => True
  | IFind _ f | IEntry _ f | IPut _ f | IPutNew _ f | IUser f => quiet f = true
  | _ => False
  end.
Definition qx (x : instr) (k : list instr) : Prop :=
  match x with
  | IAcq m body => norel k ∧ Forall qbody body
  | IRel _ => norel k
  | ICall cl => norel k ∧ quiet_call cl = true
  | IMut | IPanic | ICatch _ => True
  | y => qbody y
  end.
Fixpoint qd (code : list instr) : Prop := match code with [] => True | x :: k => qx x k ∧ qd k end.

Lemma qbody_qx y k : qbody y → qx y k.
Proof. by destruct y. Qed.
Lemma qd_body body m k : Forall qbody body → norel k → qd k → qd (body ++ IRel m :: k).
Proof. intros Hb Hn Hk. induction Hb as [|y l Hy _ IH]; simpl; [done|]. split; [by apply qbody_qx|done]. Qed.
Lemma qd_compile cl k : quiet_call cl = true → norel k → qd k → qd (compile cl ++ k).
Proof.
  intros Hq Hn Hk. destruct cl; simpl in *; (split; [|done]); try (split; [done|]); try done;
    try (by apply Forall_singleton).
  constructor; [done|]. apply Forall_fmap, Forall_forall. intros u Hu.
  by apply forallb_forall with (x := u) in Hq; [|apply elem_of_list_In].
Qed.
Lemma qd_step std poi th th' : tstep std poi th th' → qd (th_code th) → qd (th_code th').
Proof.
  destruct 1; cbn [th_code]; try (by intros [_ Hq]).
  - intros [[? ?] ?]. by apply qd_body.
  - simpl. intros (Hq & [? ?] & ?). split; [by split|]. split; [|done].
    split; [by split|]. by apply Forall_singleton.
  - simpl. intros (? & ?). done.
  - simpl. intros (? & ?). done.
  - simpl. intros (? & ?). done.
  - destruct cs as [|]; [|intros [[=] _]]. simpl. intros [_ ?]. by destruct p.
  - intros [[? ?] ?]. by apply qd_compile.
Qed.
Lemma qd_start p : (∀ cl, cl ∈ p → quiet_call cl = true) → qd (start p).
Proof.
  induction p as [|cl p IH]; [done|]. intros Hp. simpl.
  change (norel (ICatch cl :: start p)) with (norel (start p)).
  split; [split|split; [done|]].
  - split; apply start_rels.
  - apply Hp. by left.
  - apply IH. intros cl' ?. apply Hp. by right.
Qed.
Lemma reach_qd std pref progs tab c : quiet_progs progs → lruns std pref (init progs tab) c →
  ∀ t th, c_ths c !! t = Some th → qd (th_code th).
Proof.
  intros Hq. apply (runs_ind std pref (λ c, ∀ t th, c_ths c !! t = Some th → qd (th_code th))).
  - intros t th (p & Hp & ->)%init_lookup. apply qd_start. eauto.
  - intros c1 t c2 H. apply (threads_step std pref c1 t c2 (λ th, qd (th_code th))); [|done].
    intros th th'. apply qd_step.
Qed.

Lemma step_some std pref c t x k unw out :
  c_ths c !! t = Some (Thr (x :: k) unw out) →
  (∀ m body, x = IAcq m body → unw = false → granted pref c m = true) → lstep std pref c t ≠ None.
Proof.
  intros Ht Hg. unfold lstep. rewrite Ht. destruct unw; [by destruct x|].
  destruct x as [m body|m| | | | | | | |[cs p]| | | |]; try done.
  - rewrite (Hg m body) by done. by destruct (std && c_poi c).
  - by destruct k as [|[| []| | | | | | | | | | | |] k].
  - by destruct (std && c_poi c).
Qed.

(** If user code run under a guard makes no calls on the same world, no set of threads ever waits for the
    lock for ever: as long as a call has not ended, some thread can go on. With std's lock and with a
    custom one, with a lock that prefers writers and with one that does not, and when user code panics. *)
Theorem C81_no_deadlock std pref progs tab c :
  quiet_progs progs → lruns std pref (init progs tab) c → ¬ ended c → ¬ stuck std pref c.
Proof.
  intros Hq Hr Hne Hst. pose proof (reach_inv _ _ _ _ _ Hr) as [L _].
  pose proof (reach_qd _ _ _ _ _ Hq Hr) as Q.
  (* nobody holds the lock *)
  assert (NR : ∀ t th, c_ths c !! t = Some th → norel (th_code th)).
  { intros t [code unw out] Ht. cbn [th_code]. destruct code as [|x k]; [done|].
    pose proof (Q _ _ Ht) as [Qx _].
    destruct x as [m body| | | | | | | | | | | | |];
      try (destruct (step_some std pref c t _ _ _ _ Ht ltac:(done) (Hst t))).
    by destruct Qx. }
  assert (W : c_wr c = None).
  { destruct (c_wr c) as [t|] eqn:E; [|done]. destruct (lk_wr_in _ L _ E) as [th Ht].
    pose proof (lk_wr _ L _ _ Ht) as A. destruct (NR _ _ Ht) as [_ B]. rewrite B, decide_True in A by done. done. }
  assert (R : c_rd c = []).
  { destruct (c_rd c) as [|t l] eqn:E; [done|]. destruct (lk_rd_in _ L t) as [th Ht]; [rewrite E; by left|].
    pose proof (lk_rd _ L _ _ Ht) as A. destruct (NR _ _ Ht) as [B _]. rewrite B, E in A. simpl in A.
    rewrite decide_True in A by done. done. }
  destruct (existsb waits_w (c_ths c)) eqn:Ew.
  - apply existsb_exists in Ew as ([code unw out] & Hin & Hw). apply elem_of_list_In, elem_of_list_lookup in Hin as [t Ht].
    unfold waits_w in Hw. cbn [th_code th_unw] in Hw. destruct code as [|[[] body| | | | | | | | | | | | |] k]; try done.
    eapply (step_some std pref c t); [done| |apply Hst]. intros m b [= <- <-] _. unfold granted. by rewrite W, R.
  - apply Hne. intros t [code unw out] Ht. cbn [th_code]. destruct code as [|x k]; [done|]. exfalso.
    eapply (step_some std pref c t); [done| |apply Hst]. intros m b -> ->. unfold granted.
    rewrite W, R, Ew. destruct m; [by rewrite andb_false_r|done].
Qed.

(** * Panics *)

(** A custom lock is never poisoned. *)
Theorem C81_custom_not_poisoned pref progs tab c :
  lruns false pref (init progs tab) c → c_poi c = false.
Proof.
  apply (runs_ind false pref (λ c, c_poi c = false)); [done|].
  intros c1 t c2 H (? & ? & _ & _ & _ & [-> |[[=] _]])%lstep_tstep. done.
Qed.

(** Panics that can happen while the table is being changed. *)
Definition bp (m : lmode) (y : instr) : Prop :=
  match y with
  | IFind _ f | IEntry _ f | IPut _ f | IPutNew _ f => u_panics f = false
  | IUser u => m = LR ∨ u_panics u = false
  | _ => True
  end.
Definition pwx (x : instr) (k : list instr) : Prop :=
  match x with
  | IFind _ f | IEntry _ f | IPut _ f | IPutNew _ f => u_panics f = false
  | IUser u => u_panics u = true → nrel LW k = 0
  | IPanic => nrel LW k = 0
  | IAcq m body => Forall (bp m) body
  | ICall cl => may_panic_w cl = false
  | _ => True
  end.
Fixpoint pw (code : list instr) : Prop := match code with [] => True | x :: k => pwx x k ∧ pw k end.
Definition pwt (th : thr) : Prop :=
  qd (th_code th) ∧ pw (th_code th) ∧ (th_unw th = true → nrel LW (th_code th) = 0).

Lemma pw_body m body k :
  Forall qbody body → Forall (bp m) body → norel k → pw k → pw (body ++ IRel m :: k).
Proof.
  intros Hq Hb [_ Hn] Hk. induction Hb as [|y l Hy Hl IH]; [done|]. apply Forall_cons in Hq as [Hy' Hq].
  cbn [app pw]. split; [|auto]. destruct y; try done. simpl in *. intros Hu.
  destruct Hy as [-> |Hy]; [|congruence]. rewrite nrel_app. simpl.
  assert (nrel LW l = 0) as ->; [|lia]. clear -Hq. induction Hq as [|y l Hy _ IH]; [done|]. by destruct y.
Qed.
Lemma pw_step std th th' : tstep std false th th' → pwt th → pwt th'.
Proof.
  intros Hs (Q & H & U). split; [by eapply qd_step|].
  destruct Hs; cbn [th_code th_unw pw pwx] in *; try (destruct H as [Hx Hk]); try (split; [done|]); try done.
  - intros _. specialize (U eq_refl). destruct x; simpl in U; try done. lia.
  - split; [|done]. destruct Q as [[Q1 Q2] Q3]. by apply pw_body.
  - by rewrite andb_false_r in H0.
  - split; [|done]. destruct Hk as [_ Hk]. split; [done|]. split; [by apply Forall_singleton|done].
  - split; [|done]. split; [by rewrite Hx|done].
  - split; [|done]. split; [done|]. split; [by rewrite Hx|done].
  - split; [|done]. split; [by rewrite Hx|done].
  - destruct cs as [|]; [|by destruct Q as [[=] _]]. simpl. split; [|done]. destruct p; simpl; [|done].
    split; [by apply Hx|done].
  - split; [|done]. destruct Q as [[Qn Qc] Q2]. destruct cl; simpl in *; (split; [|done]); try done;
      try (by apply Forall_singleton).
    constructor; [done|]. apply Forall_fmap, Forall_true. intros u. by left.
Qed.

(** std's lock is not poisoned when no user code panics while the table is being changed; a panic of a
    Clone under the read guard does not count. *)
Theorem C81_std_not_poisoned std pref progs tab c :
  quiet_progs progs → (∀ p cl, p ∈ progs → cl ∈ p → may_panic_w cl = false) →
  lruns std pref (init progs tab) c → c_poi c = false.
Proof.
  intros Hq Hp Hr.
  assert (H : c_poi c = false ∧ ∀ t th, c_ths c !! t = Some th → pwt th); [|apply H].
  revert Hr. apply (runs_ind std pref (λ c, c_poi c = false ∧ ∀ t th, c_ths c !! t = Some th → pwt th)).
  - split; [done|]. intros t th (p & Hin & ->)%init_lookup. cbn [th_code]. split; [apply qd_start; eauto|].
    split; [|done]. cbn [th_code].
    assert (∀ cl, cl ∈ p → may_panic_w cl = false) as Hp' by eauto. clear Hin. induction p as [|cl p IH]; [done|].
    simpl. split; [apply Hp'; by left|]. split; [done|]. apply IH. intros ? ?. apply Hp'. by right.
  - intros c1 t c2 [H1 H2] E. split.
    + apply lstep_tstep in E as (th & th' & Ht & _ & _ & [-> |(_ & Hu & k & Hk)]); [done|].
      destruct (H2 _ _ Ht) as (_ & _ & U). specialize (U Hu). rewrite Hk in U. done.
    + eapply threads_step; [|done|done]. rewrite H1. apply pw_step.
Qed.

(** Whose panic it is. *)
Fixpoint pan (x : instr) : bool :=
  match x with
  | IPanic => true
  | IFind _ f | IEntry _ f | IPut _ f | IPutNew _ f | IUser f => u_panics f
  | ICall cl => may_panic cl
  | IAcq _ body => existsb pan body
  | _ => false
  end.
Fixpoint fc (code : list instr) : option call :=
  match code with [] => None | ICatch cl :: _ => Some cl | _ :: k => fc k end.
Definition okc (code : list instr) : Prop := ∃ cl, fc code = Some cl ∧ may_panic cl = true.
Fixpoint bl (code : list instr) : Prop :=
  match code with [] => True | x :: k => (pan x = true → okc k) ∧ bl k end.
Definition blt (th : thr) : Prop :=
  qd (th_code th) ∧ bl (th_code th) ∧ (th_unw th = true → okc (th_code th)) ∧
  ∀ cl, (cl, true) ∈ th_out th → may_panic cl = true.

Lemma fc_body body k : Forall qbody body → fc (body ++ k) = fc k.
Proof. induction 1 as [|y l Hy _ IH]; [done|]. by destruct y. Qed.
Lemma bl_body m body k :
  Forall qbody body → (existsb pan body = true → okc k) → bl k → bl (body ++ IRel m :: k).
Proof.
  intros Hq. induction Hq as [|y l Hy Hl IH]; intros Ho Hk; [done|]. cbn [app bl]. split.
  - intros Hp. unfold okc. rewrite fc_body by done. simpl. apply Ho. simpl. by rewrite Hp.
  - apply IH; [|done]. intros Hp. apply Ho. simpl. rewrite Hp. by rewrite orb_true_r.
Qed.
Lemma pan_compile cl : existsb pan (compile cl) = may_panic cl.
Proof.
  destruct cl; simpl; rewrite ?orb_false_r; try done. induction us as [|u us IH]; [done|]. simpl in *. by f_equal.
Qed.
Lemma bl_step std poi th th' : std && poi = false → tstep std poi th th' → blt th → blt th'.
Proof.
  intros Hnp Hs (Q & H & U & O). split; [by eapply qd_step|].
  destruct Hs; cbn [th_code th_unw th_out bl pan] in *; try (destruct H as [Hx Hk]).
  - split; [done|]. split; [|done]. intros _. specialize (U eq_refl). destruct x; try done. by destruct (H0 c).
  - split; [done|]. split; [done|]. intros cl'. rewrite elem_of_app, elem_of_list_singleton.
    intros [?|[= -> <-]]; [auto|]. destruct (U eq_refl) as (cl'' & [= <-] & ?). done.
  - destruct Q as [[Q1 Q2] Q3]. split; [by apply bl_body|done].
  - congruence.
  - done.
  - split; [|done]. destruct Hk as [_ Hk]. split; [done|]. split; [|done]. simpl. rewrite orb_false_r. done.
  - done.
  - done.
  - done.
  - done.
  - destruct cs as [|]; [|by destruct Q as [[=] _]]. simpl. split; [|done]. destruct p; simpl; [|done].
    split; [by intros _; apply Hx|done].
  - split; [|done]. destruct Q as [[Qn Qc] Q2]. rewrite <- pan_compile in Hx.
    destruct cl; (split; [|done]); simpl in Hx |- *; rewrite ?orb_false_r in *; done.
  - split; [done|]. split; [|done]. intros _. by apply Hx.
Qed.

Lemma blame_gen std pref progs tab c0 c :
  c0 = init progs tab → quiet_progs progs →
  (∀ c, lruns std pref c0 c → std && c_poi c = false) →
  lruns std pref c0 c →
  ∀ t th, c_ths c !! t = Some th → blt th.
Proof.
  intros -> Hq Hp Hr. remember (init progs tab) as c0 eqn:E0.
  induction Hr as [c|c1 c2 t c3 Hr IH E].
  - subst c. intros t th (p & Hin & ->)%init_lookup. split; [apply qd_start; eauto|]. cbn [th_code th_unw th_out].
    split; [|split; [done|by intros ? ?%elem_of_nil]]. clear Hin. induction p as [|cl p IH]; [done|].
    cbn [start bl]. simpl. split; [|done]. intros Hc. by exists cl.
  - eapply threads_step; [|by apply IH|done]. intros th th'. apply bl_step. by apply Hp.
Qed.
(** Then a call panics only when its own user code does: with a custom lock always, .. *)
Theorem C81_own_panic_custom pref progs tab c t th cl :
  quiet_progs progs → lruns false pref (init progs tab) c →
  c_ths c !! t = Some th → (cl, true) ∈ th_out th → may_panic cl = true.
Proof. intros Hq Hr Ht. by eapply (blame_gen false pref progs tab) in Ht as (_ & _ & _ & O); eauto. Qed.
(** .. with std's when no user code panics while the table is being changed. *)
Theorem C81_own_panic_std std pref progs tab c t th cl :
  quiet_progs progs → (∀ p cl, p ∈ progs → cl ∈ p → may_panic_w cl = false) →
  lruns std pref (init progs tab) c →
  c_ths c !! t = Some th → (cl, true) ∈ th_out th → may_panic cl = true.
Proof.
  intros Hq Hp Hr Ht. eapply (blame_gen std pref progs tab) in Ht as (_ & _ & _ & O); eauto.
  intros c' Hr'. rewrite (C81_std_not_poisoned _ _ _ _ _ Hq Hp Hr'). apply andb_false_r.
Qed.

(** * A poisoned lock *)

(** Threads between two calls, with what they have still to do. *)
Definition between (c : conf) : Prop :=
  ∀ t th, c_ths c !! t = Some th → th_unw th = false ∧ ∃ p, th_code th = start p.
(** In a poisoned world: between two calls, at the start of a call, or leaving it by a panic. *)
Definition doomed (o : list (call * bool)) (th : thr) : Prop :=
  (∃ new, th_out th = o ++ new ∧ Forall (λ x, x.2 = true) new) ∧
  ∃ p, th_unw th = false ∧ th_code th = start p ∨
    (∃ cl, th_unw th = false ∧ th_code th = compile cl ++ ICatch cl :: start p) ∨
    (∃ cl, th_unw th = true ∧ th_code th = ICatch cl :: start p).

(** Once std's lock is poisoned, every call on the world panics — the lookups, and also those with
    exclusive access — and the table never changes again, whatever calls are made from then on. *)
Theorem C81_poisoned_refuted pref c c' :
  c_poi c = true → between c → c_rd c = [] → c_wr c = None → lruns true pref c c' →
  c_tab c' = c_tab c ∧
  ∀ t th th', c_ths c !! t = Some th → c_ths c' !! t = Some th' →
    ∃ new, th_out th' = th_out th ++ new ∧ Forall (λ x, x.2 = true) new.
Proof.
  intros Hp Hb Hrd Hwr Hr.
  assert (H : c_poi c' = true ∧ c_tab c' = c_tab c ∧
    ∀ t th', c_ths c' !! t = Some th' → ∃ th, c_ths c !! t = Some th ∧ doomed (th_out th) th').
  { induction Hr as [c|c1 c2 t c3 Hr IH E].
    - split; [done|]. split; [done|]. intros t th Ht. exists th. split; [done|]. split.
      + exists []. by rewrite app_nil_r.
      + destruct (Hb _ _ Ht) as [? [p ?]]. exists p. by left.
    - destruct (IH Hp Hb Hrd Hwr) as (P & T & D). clear IH. unfold lstep in E.
      destruct (c_ths c2 !! t) as [[code unw out]|] eqn:Ht; [|done].
      destruct (D _ _ Ht) as (th0 & Ht0 & (new & En & Fn) & p & Hc). cbn [th_code th_unw th_out] in *.
      assert (Upd : ∀ th', doomed (th_out th0) th' → c3 = with_th c2 t th' →
        c_poi c3 = true ∧ c_tab c3 = c_tab c1 ∧
        ∀ t th', c_ths c3 !! t = Some th' → ∃ th, c_ths c1 !! t = Some th ∧ doomed (th_out th) th').
      { intros th' Hd ->. split; [done|]. split; [done|]. simpl. intros t' th''.
        destruct (decide (t = t')) as [<-|].
        - rewrite list_lookup_insert by (by eapply lookup_lt_Some). intros [= <-]. eauto.
        - rewrite list_lookup_insert_ne by done. apply D. }
      destruct Hc as [[-> ->]|[[cl [-> ->]]|[cl [-> ->]]]].
      + destruct p as [|cl p]; [done|]. simpl in E. injection E as <-. eapply Upd; [|done].
        split; [by exists new|]. exists p. right. left. by exists cl.
      + rewrite P in E. assert (c3 = with_th c2 t (Thr (ICatch cl :: start p) true out)) as E3.
        { destruct cl; simpl in E; repeat case_match; simplify_eq; done. }
        eapply Upd; [|exact E3]. split; [by exists new|]. exists p. right. right. by exists cl.
      + injection E as <-. eapply Upd; [|done]. split.
        * exists (new ++ [(cl, true)]). cbn [th_out]. rewrite En, <- app_assoc. split; [done|].
          apply Forall_app. split; [done|]. by apply Forall_singleton.
        * exists p. by left. }
  destruct H as (_ & T & D). split; [done|]. intros t th th' Ht Ht'.
  destruct (D _ _ Ht') as (th0 & Ht0 & (new & ? & ?) & _). simplify_eq. eauto.
Qed.

(** * Cases *)

(** Running the threads in a given order. *)
Fixpoint sched (std pref : bool) (c : conf) (l : list nat) : option conf :=
  match l with [] => Some c | t :: l => c' ← lstep std pref c t; sched std pref c' l end.
Lemma sched_runs std pref l c c' c0 :
  lruns std pref c0 c → sched std pref c l = Some c' → lruns std pref c0 c'.
Proof.
  revert c. induction l as [|t l IH]; intros c Hr E; [by injection E as <-|]. cbn [sched] in E.
  destruct (lstep std pref c t) as [c1|] eqn:Et; [|done]. eapply IH; [|exact E]. by eapply LStep.
Qed.

Definition run_of (std pref : bool) (c : conf) (l : list nat) : conf := default c (sched std pref c l).
Lemma run_of_runs std pref c l :
  is_Some (sched std pref c l) → lruns std pref c (run_of std pref c l).
Proof.
  intros [c' E]. unfold run_of. rewrite E. eapply sched_runs; [apply LRefl|exact E].
Qed.

(** A closure that panics poisons std's lock; a lookup and an exclusive access that follow panic. With a
    custom lock they do not. *)
Definition po_progs : list (list call) := [[KOrInsert 1%N (U [] true); KLook 2%N; KMut]].
Definition po_init : conf := init po_progs {[2%N]}.
Definition po_mid (std : bool) : conf := run_of std false po_init (replicate 11 0).
Definition po_end (std : bool) : conf :=
  run_of std false (po_mid std) (replicate (if std then 6 else 8) 0).
Lemma po_runs std :
  lruns std false po_init (po_mid std) ∧ lruns std false (po_mid std) (po_end std).
Proof. split; apply run_of_runs; destruct std; vm_compute; eauto. Qed.
Theorem C81_poison_refuted :
  (lruns true false po_init (po_mid true) ∧
   c_poi (po_mid true) = true ∧ between (po_mid true) ∧ c_rd (po_mid true) = [] ∧ c_wr (po_mid true) = None) ∧
  lruns true false (po_mid true) (po_end true) ∧ ended (po_end true) ∧
  (th_out <$> c_ths (po_end true) = [[(KOrInsert 1%N (U [] true), true); (KLook 2%N, true); (KMut, true)]]) ∧
  lruns false false po_init (po_end false) ∧ ended (po_end false) ∧
  (th_out <$> c_ths (po_end false) = [[(KOrInsert 1%N (U [] true), true); (KLook 2%N, false); (KMut, false)]]).
Proof.
  split; [|split; [apply po_runs|split; [|split; [by vm_compute|split; [|split; [|by vm_compute]]]]]].
  - split; [apply po_runs|]. split; [by vm_compute|]. split; [|by vm_compute].
    intros [|t] th E; vm_compute in E; [|by destruct t]. injection E as <-. split; [done|].
    by exists [KLook 2%N; KMut].
  - intros [|t] th E; vm_compute in E; [by injection E as <-|by destruct t].
  - apply (sched_runs false false (replicate 19 0) po_init); [apply LRefl|]. by vm_compute.
  - intros [|t] th E; vm_compute in E; [by injection E as <-|by destruct t].
Qed.

(** User code that calls back into the world.  A closure of custom_storage_or_insert (or the Drop of a
    unique that add_unique replaces) that makes any other call waits for its own thread; so does a Clone,
    run by clone_entity_to under the read guard, that makes a call that adds a storage; and a Clone that
    only looks a storage up waits for ever when another thread waits to write and the lock prefers
    writers, though not when it does not. *)
Definition nest_w : list (list call) := [[KOrInsert 1%N (U [KLook 2%N] false)]].
Definition nest_p : list (list call) := [[KPut 2%N (U [KLook 2%N] false)]].
Definition nest_r : list (list call) := [[KEach [U [KOrInsert 1%N (U [] false)] false]]].
Definition nest_q : list (list call) := [[KEach [U [KLook 2%N] false]]; [KTake 2%N]].
Definition nest_w_c std pref : conf := run_of std pref (init nest_w {[2%N]}) (replicate 8 0).
Definition nest_p_c std pref : conf := run_of std pref (init nest_p {[2%N]}) (replicate 6 0).
Definition nest_r_c std pref : conf := run_of std pref (init nest_r {[2%N]}) (replicate 8 0).
Definition nest_q_c std pref : conf := run_of std pref (init nest_q {[2%N]}) (replicate 4 0 ++ [1] ++ [0]).
Theorem C81_nested_refuted std pref :
  (lruns std pref (init nest_w {[2%N]}) (nest_w_c std pref) ∧
   stuck std pref (nest_w_c std pref) ∧ ¬ ended (nest_w_c std pref)) ∧
  (lruns std pref (init nest_p {[2%N]}) (nest_p_c std pref) ∧
   stuck std pref (nest_p_c std pref) ∧ ¬ ended (nest_p_c std pref)) ∧
  (lruns std pref (init nest_r {[2%N]}) (nest_r_c std pref) ∧
   stuck std pref (nest_r_c std pref) ∧ ¬ ended (nest_r_c std pref)) ∧
  lruns std pref (init nest_q {[2%N]}) (nest_q_c std pref) ∧ ¬ ended (nest_q_c std pref) ∧
  (stuck std pref (nest_q_c std pref) ↔ pref = true).
Proof.
  assert (NE : ∀ c x k unw out, c_ths c !! 0 = Some (Thr (x :: k) unw out) → ¬ ended c).
  { intros c x k unw out E He. by specialize (He _ _ E). }
  split; [|split; [|split; [|split; [|split]]]].
  - split; [apply run_of_runs; destruct std, pref; vm_compute; eauto|].
    split; [intros [|[|t]]; destruct std, pref; by vm_compute|]. eapply NE. destruct std, pref; vm_compute; reflexivity.
  - split; [apply run_of_runs; destruct std, pref; vm_compute; eauto|].
    split; [intros [|[|t]]; destruct std, pref; by vm_compute|]. eapply NE. destruct std, pref; vm_compute; reflexivity.
  - split; [apply run_of_runs; destruct std, pref; vm_compute; eauto|].
    split; [intros [|[|t]]; destruct std, pref; by vm_compute|]. eapply NE. destruct std, pref; vm_compute; reflexivity.
  - apply run_of_runs; destruct std, pref; vm_compute; eauto.
  - eapply NE. destruct std, pref; vm_compute; reflexivity.
  - split.
    + intros Hs. specialize (Hs 0). destruct pref; [done|]. destruct std; vm_compute in Hs; done.
    + intros ->. intros [|[|[|t]]]; destruct std; by vm_compute.
Qed.

(** The hypotheses of the positive theorems: three threads, one reading (its Clone panics), one waiting to
    add a storage, one with exclusive use of an existing one. *)
Definition ok_progs : list (list call) :=
  [[KEach [U [] false; U [] true]; KLook 1%N]; [KOrInsert 1%N (U [] false); KPut 2%N (U [] false)]; [KTake 2%N; KPutNew 2%N (U [] false)]].
Definition ok_mid : conf := run_of true true (init ok_progs {[2%N]}) [0; 1; 0; 1; 1; 1; 2; 0].
Example C81_case :
  quiet_progs ok_progs ∧ (∀ p cl, p ∈ ok_progs → cl ∈ p → may_panic_w cl = false) ∧
  lruns true true (init ok_progs {[2%N]}) ok_mid ∧ ¬ ended ok_mid ∧
  c_rd ok_mid = [0] ∧ (waits_w <$> c_ths ok_mid) = [false; true; true] ∧
  (∃ c, lruns true true (init ok_progs {[2%N]}) c ∧ ended c ∧
     th_out <$> c_ths c =
       [[(KEach [U [] false; U [] true], true); (KLook 1%N, false)];
        [(KOrInsert 1%N (U [] false), false); (KPut 2%N (U [] false), false)];
        [(KTake 2%N, false); (KPutNew 2%N (U [] false), false)]]).
Proof.
  split; [|split; [|split; [|split; [|split; [|split]]]]].
  - intros p cl Hp Hc. apply elem_of_list_In in Hp, Hc. unfold ok_progs in Hp. simpl in Hp.
    destruct Hp as [<-|[<-|[<-|[]]]]; simpl in Hc; by destruct Hc as [<-|[<-|[]]].
  - intros p cl Hp Hc. apply elem_of_list_In in Hp, Hc. unfold ok_progs in Hp. simpl in Hp.
    destruct Hp as [<-|[<-|[<-|[]]]]; simpl in Hc; by destruct Hc as [<-|[<-|[]]].
  - apply run_of_runs. vm_compute. eauto.
  - intros He. specialize (He 1). vm_compute in He. by specialize (He _ eq_refl).
  - by vm_compute.
  - by vm_compute.
  - exists (run_of true true (init ok_progs {[2%N]}) (replicate 13 0 ++ replicate 17 1 ++ replicate 11 2)).
    split; [apply run_of_runs; vm_compute; eauto|]. split; [|by vm_compute].
    intros [|[|[|t]]] th E; vm_compute in E; [by injection E as <-..|by destruct t].
Qed.

Print Assumptions C81_race_free.
Print Assumptions C81_no_misuse.
Print Assumptions C81_no_deadlock.
Print Assumptions C81_custom_not_poisoned.
Print Assumptions C81_std_not_poisoned.
Print Assumptions C81_own_panic_custom.
Print Assumptions C81_own_panic_std.
Print Assumptions C81_poisoned_refuted.
Print Assumptions C81_poison_refuted.
Print Assumptions C81_nested_refuted.
