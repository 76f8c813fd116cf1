(** C78: storages are found by their id and handed out as the type they have, on the threads that may
    touch them. *)
From stdpp Require Import prelude list gmap.
From Coq Require Import NArith.
From Verif Require Import StorageTypes StorageTypesSpec.
Local Open Scope N_scope.

(** * Invariant *)

Record cok (tl : bool) (p : prog_types) (w : swld) (i : sid) (c : scell) : Prop := {
  ck_uniq : ∀ T, i = IdOf (TyUniq MPlain T) → ∃ md, c_ty c = TyUniq md T;
  ck_send : c_send c = None → ty_send p (c_ty c) = true;
  ck_sync : c_sync c = true → ty_sync p (c_ty c) = true;
  ck_home : ∀ h, c_send c = Some h → tl = true ∧ h = w_main w ∧ c_real c = w_real w;
}.
Record wok (tl : bool) (p : prog_types) (w : swld) : Prop := {
  wk_gen : ∀ t, w_gen w t = w_main w → t = w_real w;
  wk_tab : ∀ i c, w_tab w !! i = Some c → cok tl p w i c;
}.

Lemma cok_home tl p w i c t h :
  wok tl p w → cok tl p w i c → c_send c = Some h → h = w_gen w t → t = c_real c.
Proof.
  intros Hw Hc Hs ->. destruct (ck_home _ _ _ _ _ Hc _ Hs) as (_ & E & ->). by apply (wk_gen _ _ _ Hw).
Qed.

Lemma hand_out_sound tl p w i c t m free X :
  wok tl p w → cok tl p w i c → Forall (sound p) (hand_out (w_gen w) t m free c X).
Proof.
  intros Hw Hc. unfold hand_out, cell_acc.
  destruct m.
  - destruct (c_send c) as [h|] eqn:Es.
    + destruct (decide (h = w_gen w t)); [|by repeat constructor].
      destruct free; [|by repeat constructor].
      destruct (decide (c_ty c = X)) as [EX|]; [|by repeat constructor].
      apply Forall_singleton. split; [exact EX|]. left. by eapply cok_home.
    + destruct free; [|by repeat constructor].
      destruct (decide (c_ty c = X)) as [EX|]; [|by repeat constructor].
      apply Forall_singleton. split; [exact EX|].
      right. by apply (ck_send _ _ _ _ _ Hc).
  - destruct (c_send c) as [h|] eqn:Es, (c_sync c) eqn:Ey.
    + destruct free; [|by repeat constructor].
      destruct (decide (c_ty c = X)) as [EX|]; [|by repeat constructor].
      apply Forall_singleton. split; [exact EX|].
      right. by apply (ck_sync _ _ _ _ _ Hc).
    + destruct (decide (h = w_gen w t)); [|by repeat constructor].
      destruct free; [|by repeat constructor].
      destruct (decide (c_ty c = X)) as [EX|]; [|by repeat constructor].
      apply Forall_singleton. split; [exact EX|]. left. by eapply cok_home.
    + destruct free; [|by repeat constructor].
      destruct (decide (c_ty c = X)) as [EX|]; [|by repeat constructor].
      apply Forall_singleton. split; [exact EX|].
      right. by apply (ck_sync _ _ _ _ _ Hc).
    + destruct free; [|by repeat constructor].
      destruct (decide (c_ty c = X)) as [EX|]; [|by repeat constructor].
      apply Forall_singleton. split; [exact EX|].
      right. by apply (ck_send _ _ _ _ _ Hc).
Qed.

Lemma hand_out_mut_sound tl p w i c t X :
  wok tl p w → cok tl p w i c → Forall (sound p) (hand_out_mut (w_gen w) t c X).
Proof.
  intros Hw Hc. unfold hand_out_mut.
  destruct (c_send c) as [h|] eqn:Es.
  - destruct (decide (h = w_gen w t)); [|by repeat constructor].
    destruct (decide (c_ty c = X)) as [EX|]; [|by repeat constructor].
      apply Forall_singleton. split; [exact EX|]. left. by eapply cok_home.
  - destruct (decide (c_ty c = X)) as [EX|]; [|by repeat constructor].
      apply Forall_singleton. split; [exact EX|].
    right. by apply (ck_send _ _ _ _ _ Hc).
Qed.

Lemma cok_drop tl p w i c t :
  wok tl p w → cok tl p w i c → (tl = true → t = w_real w) → sound p (EDrop t c).
Proof.
  intros Hw Hc Ht. cbn. destruct (c_send c) as [h|] eqn:Es.
  - left. destruct (ck_home _ _ _ _ _ Hc _ Es) as (E & _ & ->). auto.
  - right. by apply (ck_send _ _ _ _ _ Hc).
Qed.

(** A new cell of a kind the compiler accepts, on a thread the call was not refused on. *)
Definition home_only (md : mode) : bool := match md with MNonSend | MNonBoth => true | _ => false end.
Lemma new_cell_ok tl p w i md t X :
  wok tl p w → bound p md X = true → (tl = false → md = MPlain) →
  (home_only md = true → w_gen w t = w_main w) →
  (∀ T, i = IdOf (TyUniq MPlain T) → ∃ md', X = TyUniq md' T) →
  cok tl p w i (new_cell (w_gen w) md t X).
Proof.
  intros Hw Hb Htl Hh Hu.
  assert (tl = true ∨ md = MPlain) as Hm by (destruct tl; auto).
  destruct md; cbn in Hb.
  - apply andb_true_iff in Hb as [Hb1 Hb2]. split; cbn; auto. done.
  - split; cbn; [auto|done|auto|]. intros h [= <-].
    split_and!; [naive_solver|by apply Hh|apply (wk_gen _ _ _ Hw); by apply Hh].
  - split; cbn; [auto|auto|done|done].
  - split; cbn; [auto|done|done|]. intros h [= <-].
    split_and!; [naive_solver|by apply Hh|apply (wk_gen _ _ _ Hw); by apply Hh].
Qed.

Lemma cok_upd tl p w tab i c : cok tl p w i c → cok tl p (w_upd w tab) i c.
Proof. intros []. by split. Qed.
Lemma wok_insert tl p w i c : wok tl p w → cok tl p w i c → wok tl p (w_upd w (<[i := c]> (w_tab w))).
Proof.
  intros [Hg Ht] Hc. split; [exact Hg|]. intros j d.
  cbn. rewrite lookup_insert_Some. intros [[<- <-]|[_ Hd]]; apply cok_upd; eauto.
Qed.
Lemma wok_delete tl p w i : wok tl p w → wok tl p (w_upd w (delete i (w_tab w))).
Proof.
  intros [Hg Ht]. split; [exact Hg|]. intros j d.
  cbn. rewrite lookup_delete_Some. intros [_ Hd]; apply cok_upd; eauto.
Qed.

(** * Steps keep the invariant and do nothing unsound *)

Ltac triv := first [split; [assumption || done|cbn; by repeat constructor]|by repeat constructor].

Definition fine (tl : bool) (p : prog_types) (r : swld * list sev) : Prop :=
  wok tl p r.1 ∧ Forall (sound p) r.2.

Lemma on_world_fine tl p ws k f :
  Forall (wok tl p) ws → (∀ w, ws !! k = Some w → wok tl p w → fine tl p (f w)) →
  Forall (wok tl p) (on_world ws k f).1 ∧ Forall (sound p) (on_world ws k f).2.
Proof.
  intros Hws Hf. unfold on_world. destruct (ws !! k) as [w|] eqn:Hk; [|triv].
  assert (wok tl p w) as Hw by (by eapply Forall_lookup_1).
  specialize (Hf w eq_refl Hw). destruct (f w) as [w' ev]. destruct Hf as [H1 H2]. cbn in *.
  split; [|done]. by apply Forall_insert.
Qed.

Lemma get_or_insert_fine tl p w t md m free i X :
  wok tl p w → bound p md X = true → (tl = false → md = MPlain) →
  (∀ T, i = IdOf (TyUniq MPlain T) → ∃ md', X = TyUniq md' T) →
  fine tl p (get_or_insert w t md m free i X).
Proof.
  intros Hw Hb Htl Hu. unfold get_or_insert. destruct (w_tab w !! i) as [c|] eqn:Hi.
  - split; [done|]. eapply hand_out_sound; [done|]. by eapply wk_tab.
  - change (match md with MNonSend | MNonBoth => true | _ => false end) with (home_only md).
    destruct (home_only md && negb (w_gen w t =? w_main w)) eqn:Eh; [triv|].
    assert (cok tl p w i (new_cell (w_gen w) md t X)) as Hc.
    { apply new_cell_ok; auto. intros E. rewrite E in Eh. cbn in Eh.
      apply negb_false_iff in Eh. by apply N.eqb_eq. }
    split; cbn; [by apply wok_insert|]. constructor; [done|]. by eapply hand_out_sound.
Qed.

Lemma excl_or_insert_fine tl p w t md i X :
  wok tl p w → bound p md X = true → (tl = false → md = MPlain) →
  (tl = true → w_gen w t = w_main w) →
  (∀ T, i = IdOf (TyUniq MPlain T) → ∃ md', X = TyUniq md' T) →
  fine tl p (excl_or_insert w t md i X).
Proof.
  intros Hw Hb Htl Hh Hu. unfold excl_or_insert. destruct (w_tab w !! i) as [c|] eqn:Hi.
  - split; [done|]. eapply hand_out_mut_sound; [done|]. by eapply wk_tab.
  - assert (cok tl p w i (new_cell (w_gen w) md t X)) as Hc.
    { apply new_cell_ok; auto. intros E. destruct tl; [auto|]. rewrite (Htl eq_refl) in E. done. }
    split; cbn; [by apply wok_insert|]. constructor; [done|]. by eapply hand_out_mut_sound.
Qed.

Lemma add_unique_fine tl p w t md T :
  wok tl p w → bound p md (TyUniq md T) = true → (tl = false → md = MPlain) →
  fine tl p (add_unique w t md T).
Proof.
  intros Hw Hb Htl. unfold add_unique.
  assert ((home_only md = true → w_gen w t = w_main w) →
          cok tl p w (IdOf (TyUniq MPlain T)) (new_cell (w_gen w) md t (TyUniq md T))) as Hc.
  { intros Hh. apply new_cell_ok; auto. intros T' E. simplify_eq. eauto. }
  destruct md; cbn [home_only andb] in *.
  - split; cbn; [by apply wok_insert, Hc|]. constructor; [done|].
    destruct (w_tab w !! _) as [c'|] eqn:Hi; [|constructor]. constructor; [|constructor].
    pose proof (wk_tab _ _ _ Hw _ _ Hi) as Hc'.
    destruct (ck_uniq _ _ _ _ _ Hc' T eq_refl) as [md' E]. cbn. right. rewrite E. cbn.
    cbn in Hb. apply andb_true_iff in Hb as [Hb _]. done.
  - destruct (N.eqb_spec (w_gen w t) (w_main w)); cbn; [|triv].
    destruct (w_tab w !! _); [triv|]. split; cbn; [by apply wok_insert, Hc|by repeat constructor].
  - destruct (w_tab w !! _); [triv|]. split; cbn; [by apply wok_insert, Hc|by repeat constructor].
  - destruct (N.eqb_spec (w_gen w t) (w_main w)); cbn; [|triv].
    destruct (w_tab w !! _); [triv|]. split; cbn; [by apply wok_insert, Hc|by repeat constructor].
Qed.

Lemma remove_unique_fine tl p w t free T : wok tl p w → fine tl p (remove_unique w t free T).
Proof.
  intros Hw. unfold remove_unique. destruct (w_tab w !! _) as [c|] eqn:Hi; [|triv].
  pose proof (wk_tab _ _ _ Hw _ _ Hi) as Hc.
  destruct (ck_uniq _ _ _ _ _ Hc T eq_refl) as [md E].
  unfold cell_acc. destruct (c_send c) as [h|] eqn:Es.
  - destruct (decide (h = w_gen w t)) as [Eh|]; [|triv].
    destruct free; [|triv]. split; cbn; [by apply wok_delete|].
    constructor; [|constructor]. cbn. split; [right; eauto 6|]. left. by eapply cok_home.
  - destruct free; [|triv]. split; cbn; [by apply wok_delete|].
    constructor; [|constructor]. cbn. split; [right; eauto 6|]. right. by apply (ck_send _ _ _ _ _ Hc).
Qed.

Lemma clone_one_fine tl p a b t free i r :
  any_ok p → wok tl p a → wok tl p b →
  (tl = true → w_gen b t = w_main b) →
  (∀ c X, w_tab a !! i = Some c → r = Some X →
     ((∀ n, c_ty c ≠ TyUser n) → X = c_ty c) ∧ (tl = false → bound p MPlain X = true)) →
  fine tl p (clone_one tl p a b t free i r).
Proof.
  intros Hany Ha Hb Hh Hr. unfold clone_one.
  destruct (w_tab a !! i) as [c|] eqn:Hi; [|triv].
  pose proof (wk_tab _ _ _ Ha _ _ Hi) as Hc.
  destruct (tl && _ && _); [triv|].
  destruct (tl && _ && _); [triv|].
  destruct (cell_acc (w_gen a) t false c) as [ac|] eqn:Eac; [|triv].
  destruct free; [|triv].
  assert (sound p (EGot t ac c (c_ty c))) as Hgot.
  { pose proof (hand_out_sound tl p a i c t false true (c_ty c) Ha Hc) as H.
    unfold hand_out in H. rewrite Eac, decide_True in H by done. apply Forall_inv in H. exact H. }
  destruct r as [X|]; [|split; [done|cbn; constructor; [exact Hgot|by repeat constructor]]].
  destruct (Hr c X eq_refl eq_refl) as [Hlib Hbd].
  destruct (tl && negb (bool_decide (ty_any p (c_ty c) = ty_any p X))) eqn:Eany;
    [split; [done|cbn; constructor; [exact Hgot|by repeat constructor]]|].
  assert (tl = true → X = c_ty c) as HX.
  { intros ->. cbn in Eany. apply negb_false_iff, bool_decide_eq_true in Eany.
    destruct (c_ty c) eqn:Ec; try (apply Hlib; done).
    cbn in Eany. rewrite Hany in Eany. destruct X; cbn in Eany; rewrite ?Hany in Eany; congruence. }
  assert (∀ T, i = IdOf (TyUniq MPlain T) → ∃ md, X = TyUniq md T) as HU.
  { intros T E. destruct (ck_uniq _ _ _ _ _ Hc T E) as [md Em]. exists md. rewrite <- Em.
    apply Hlib. intros n. by rewrite Em. }
  split; cbn.
  - apply wok_insert; [done|]. destruct tl.
    + rewrite (HX eq_refl) in *. destruct (bool_decide (c_send c = None)) eqn:Es.
      * apply bool_decide_eq_true in Es. split; cbn; intros; try done.
        -- by apply (ck_uniq _ _ _ _ _ Hc).
        -- by apply (ck_send _ _ _ _ _ Hc).
        -- by apply (ck_sync _ _ _ _ _ Hc).
      * split; cbn; intros; simplify_eq.
        -- by apply (ck_uniq _ _ _ _ _ Hc).
        -- by apply (ck_sync _ _ _ _ _ Hc).
        -- split_and!; [done|by apply Hh|apply (wk_gen _ _ _ Hb); by apply Hh].
    + apply (new_cell_ok false p b i MPlain t X); auto.
  - constructor; [done|]. constructor; [done|].
    destruct (w_tab b !! i) as [c0|] eqn:H0; [|constructor]. constructor; [|constructor].
    eapply cok_drop; [done|by eapply wk_tab|]. intros E. apply (wk_gen _ _ _ Hb). by apply Hh.
Qed.

Lemma exclusively_fine tl p t f w :
  wok tl p w → ((tl = true → w_gen w t = w_main w) → fine tl p (f w)) → fine tl p (exclusively tl t f w).
Proof.
  intros Hw Hf. unfold exclusively. destruct tl; cbn in *.
  - destruct (N.eqb_spec (w_gen w t) (w_main w)); [by apply Hf|]. split; [done|by repeat constructor].
  - by apply Hf.
Qed.

Lemma s_step_fine tl p ws t o :
  any_ok p → Forall (wok tl p) ws → typed tl p ws t o → gen_ok o → no_squat o →
  Forall (wok tl p) (s_step tl p ws t o).1 ∧ Forall (sound p) (s_step tl p ws t o).2.
Proof.
  intros Hany Hws Ht Hg Hs. destruct o; cbn [s_step typed gen_ok no_squat] in *.
  - split; cbn; [|triv]. apply Forall_app_2; [done|]. constructor; [|constructor].
    split; cbn; [by intros t' E; apply Hg|]. intros i c. rewrite lookup_singleton_Some. intros [<- <-].
    split; cbn; intros; simplify_eq; done.
  - apply on_world_fine; [done|]. intros ? _ Hw. destruct Ht. by apply get_or_insert_fine.
  - apply on_world_fine; [done|]. intros w0 _ Hw. split; [done|]. cbn.
    destruct (w_tab w0 !! _) eqn:Hi; [|triv].
    eapply hand_out_sound; [done|by eapply wk_tab].
  - apply on_world_fine; [done|]. intros w0 _ Hw. split; [done|]. cbn.
    destruct (w_tab w0 !! _) eqn:Hi; [|triv].
    eapply hand_out_sound; [done|by eapply wk_tab].
  - apply on_world_fine; [done|]. intros w0 _ Hw. split; [done|]. cbn.
    destruct (w_tab w0 !! _) eqn:Hi; [|triv].
    eapply hand_out_sound; [done|by eapply wk_tab].
  - apply on_world_fine; [done|]. intros w0 _ Hw.
    pose proof (get_or_insert_fine tl p w0 t MPlain false free i X Hw Ht (λ _, eq_refl) Hs) as H.
    destruct (get_or_insert w0 t MPlain false free i X) as [w' ev]. destruct H as [H1 H2].
    split; cbn in *; [done|]. apply Forall_app_2; [done|]. destruct (existsb _ ev); by repeat constructor.
  - apply on_world_fine; [done|]. intros ? _ Hw. destruct Ht. by apply add_unique_fine.
  - apply on_world_fine; [done|]. intros ? _ Hw. by apply remove_unique_fine.
  - apply on_world_fine; [done|]. intros ? _ Hw. destruct Ht as (? & ? & ? & ? & ->).
    apply exclusively_fine; [done|]. intros Hh. by apply excl_or_insert_fine.
  - apply on_world_fine; [done|]. intros w0 _ Hw. apply exclusively_fine; [done|]. intros Hh.
    split; [done|]. cbn. destruct (w_tab w0 !! i) eqn:Hi; [|triv].
    eapply hand_out_mut_sound; [done|by eapply wk_tab].
  - destruct (ws !! a) as [wa|] eqn:Ea; [|triv].
    assert (wok tl p wa) as Hwa by (by eapply Forall_lookup_1).
    apply on_world_fine; [done|]. intros ? _ Hw. apply exclusively_fine; [done|]. intros Hh.
    apply clone_one_fine; try done. intros c X Hi Hr. by eapply Ht.
  - apply on_world_fine; [done|]. intros w0 Hk Hw. split; cbn.
    + split; [by apply Hw|]. intros i c. cbn. by rewrite lookup_empty.
    + apply Forall_fmap, Forall_forall. intros [i c] Hin. apply elem_of_map_to_list in Hin.
      cbn. eapply cok_drop; [done|by eapply wk_tab|]. by apply Ht.
Qed.

Lemma s_run_fine tl p ws h :
  any_ok p → Forall (wok tl p) ws → along (typed tl p) tl p ws h →
  Forall (λ to, gen_ok to.2 ∧ no_squat to.2) h →
  Forall (wok tl p) (s_run tl p ws h).1 ∧ Forall (sound p) (s_run tl p ws h).2.
Proof.
  intros Hany. revert ws. induction h as [|[t o] h IH]; intros ws Hws Ht Hh; [triv|].
  cbn [s_run]. destruct Ht as [Ht Hts]. apply Forall_cons in Hh as [[Hg Hs] Hh]. cbn in Hg, Hs.
  destruct (s_step_fine tl p ws t o Hany Hws Ht Hg Hs) as [H1 H2].
  destruct (s_step tl p ws t o) as [ws1 e1]. cbn in H1, H2, Hts.
  specialize (IH ws1 H1 Hts Hh). destruct (s_run tl p ws1 h) as [ws2 e2]. cbn in *.
  destruct IH as [IH1 IH2]. split; [done|]. by apply Forall_app_2.
Qed.

(** * Lookups by type *)

Definition lok (w : swld) : Prop :=
  ∀ X c, w_tab w !! IdOf X = Some c →
    c_ty c = X ∨ ∃ md T, X = TyUniq MPlain T ∧ c_ty c = TyUniq md T.

Lemma lok_insert w i c :
  lok w → (∀ X, i = IdOf X → c_ty c = X ∨ ∃ md T, X = TyUniq MPlain T ∧ c_ty c = TyUniq md T) →
  lok (w_upd w (<[i := c]> (w_tab w))).
Proof. intros Hw Hc X d. cbn. rewrite lookup_insert_Some. intros [[E <-]|[_ Hd]]; auto. Qed.
Lemma lok_delete w i : lok w → lok (w_upd w (delete i (w_tab w))).
Proof. intros Hw X d. cbn. rewrite lookup_delete_Some. intros [_ Hd]; auto. Qed.
Lemma new_cell_ty gen md t X : c_ty (new_cell gen md t X) = X.
Proof. by destruct md. Qed.

Lemma on_world_lok ws k f :
  Forall lok ws → (∀ w, ws !! k = Some w → lok w → lok (f w).1) → Forall lok (on_world ws k f).1.
Proof.
  intros Hws Hf. unfold on_world. destruct (ws !! k) as [w|] eqn:Hk; [|done].
  assert (lok w) as Hw by (by eapply (Forall_lookup_1 lok)).
  specialize (Hf w eq_refl Hw). destruct (f w) as [w' ev]. by apply Forall_insert.
Qed.
Lemma get_or_insert_lok w t md m free i X :
  lok w → (i = IdOf X ∨ ∃ n, i = IdNum n) → lok (get_or_insert w t md m free i X).1.
Proof.
  intros Hw Hi. unfold get_or_insert. destruct (w_tab w !! i); [done|].
  destruct (_ && _); [done|]. cbn. apply lok_insert; [done|]. intros Y ->.
  rewrite new_cell_ty. naive_solver.
Qed.
Lemma exclusively_lok tl t f w : lok w → lok (f w).1 → lok (exclusively tl t f w).1.
Proof. intros. unfold exclusively. by destruct (negb tl || _). Qed.

Lemma s_step_lok tl p ws t o :
  Forall lok ws → own_id o → honest ws t o → Forall lok (s_step tl p ws t o).1.
Proof.
  intros Hws Ho Hh. destruct o; cbn [s_step own_id honest] in *.
  - cbn. apply Forall_app_2; [done|]. constructor; [|constructor].
    intros X c. cbn. rewrite lookup_singleton_Some. intros [E <-]. left. cbn. congruence.
  - apply on_world_lok; [done|]. intros. by apply get_or_insert_lok.
  - by apply on_world_lok.
  - by apply on_world_lok.
  - by apply on_world_lok.
  - apply on_world_lok; [done|]. intros w0 _ Hw.
    pose proof (get_or_insert_lok w0 t MPlain false free i X Hw Ho) as H.
    by destruct (get_or_insert w0 t MPlain false free i X).
  - apply on_world_lok; [done|]. intros w0 _ Hw. unfold add_unique.
    assert (lok (w_upd w0 (<[IdOf (TyUniq MPlain T) := new_cell (w_gen w0) md t (TyUniq md T)]> (w_tab w0))))
      as Hins.
    { apply lok_insert; [done|]. intros Y [= <-]. rewrite new_cell_ty. eauto. }
    destruct md; [exact Hins|..]; (destruct (_ && _); [done|]); (destruct (w_tab w0 !! _); [done|exact Hins]).
  - apply on_world_lok; [done|]. intros w0 _ Hw. unfold remove_unique.
    destruct (w_tab w0 !! _); [|done]. destruct (cell_acc _ _ _ _); [|done].
    destruct free; [|done]. by apply lok_delete.
  - apply on_world_lok; [done|]. intros w0 _ Hw. apply exclusively_lok; [done|].
    unfold excl_or_insert. destruct (w_tab w0 !! _); [done|]. cbn. apply lok_insert; [done|].
    intros Y [= <-]. rewrite new_cell_ty. auto.
  - apply on_world_lok; [done|]. intros w0 _ Hw. by apply exclusively_lok.
  - destruct (ws !! a) as [wa|] eqn:Ea; [|done].
    assert (lok wa) as Hwa by (by eapply (Forall_lookup_1 lok)).
    apply on_world_lok; [done|]. intros w0 _ Hw. apply exclusively_lok; [done|].
    unfold clone_one. destruct (w_tab wa !! i) as [c|] eqn:Hi; [|done].
    destruct (tl && _ && _); [done|]. destruct (tl && _ && _); [done|].
    destruct (cell_acc _ _ _ _); [|done]. destruct free; [|done]. destruct r as [X|]; [|done].
    destruct (tl && _); [done|]. cbn. apply lok_insert; [done|]. intros Y ->.
    assert (X = c_ty c) as -> by (by eapply Hh).
    specialize (Hwa _ _ Hi). by destruct tl.
  - apply on_world_lok; [done|]. intros w0 _ Hw X c. cbn. by rewrite lookup_empty.
Qed.
Lemma s_run_lok tl p ws h :
  Forall lok ws → Forall (λ to, own_id to.2) h → along honest tl p ws h → Forall lok (s_run tl p ws h).1.
Proof.
  revert ws. induction h as [|[t o] h IH]; intros ws Hws Ho Hh; [done|].
  cbn [s_run]. destruct Hh as [Hh Hhs]. apply Forall_cons in Ho as [Ho Hos].
  pose proof (s_step_lok tl p ws t o Hws Ho Hh) as H1.
  destruct (s_step tl p ws t o) as [ws1 e1]. cbn in H1, Hhs.
  specialize (IH ws1 H1 Hos Hhs). by destruct (s_run tl p ws1 h).
Qed.

(** Entries that stay. *)
Definition may_take (o : scall) (k : nat) : bool :=
  match o with SClone _ b _ _ _ => bool_decide (b = k) | SDrop b => bool_decide (b = k) | _ => false end.
Definition holds (ws : list swld) (k : nat) (i : sid) (c : scell) : Prop :=
  ∃ w, ws !! k = Some w ∧ w_tab w !! i = Some c.

Lemma on_world_holds ws j f k i c :
  holds ws k i c → (∀ w, ws !! j = Some w → j = k → w_tab w !! i = Some c → w_tab (f w).1 !! i = Some c) →
  holds (on_world ws j f).1 k i c.
Proof.
  intros (w & Hk & Hc) Hf. unfold on_world. destruct (ws !! j) as [w'|] eqn:Hj; [|by exists w].
  specialize (Hf w' eq_refl). destruct (f w') as [w'' ev]. cbn in *.
  destruct (decide (j = k)) as [->|Hne].
  - rewrite Hk in Hj. simplify_eq. exists w''. split; [|by apply Hf].
    apply list_lookup_insert. by eapply lookup_lt_Some.
  - exists w. by rewrite list_lookup_insert_ne.
Qed.
Lemma insert_holds (tab : gmap sid scell) j i c d :
  tab !! j = None → tab !! i = Some c → <[j := d]> tab !! i = Some c.
Proof. intros Hj Hi. rewrite lookup_insert_ne; [done|]. intros ->. congruence. Qed.
Lemma get_or_insert_holds w t md m free j X i c :
  w_tab w !! i = Some c → w_tab (get_or_insert w t md m free j X).1 !! i = Some c.
Proof.
  intros Hi. unfold get_or_insert. destruct (w_tab w !! j) eqn:Hj; [done|].
  destruct (_ && _); [done|]. by apply insert_holds.
Qed.
Lemma exclusively_holds tl t f w i c :
  w_tab w !! i = Some c → w_tab (f w).1 !! i = Some c → w_tab (exclusively tl t f w).1 !! i = Some c.
Proof. intros. unfold exclusively. by destruct (negb tl || _). Qed.

Lemma s_step_holds tl p ws t o k i c :
  holds ws k i c → may_take o k = false → (∀ T, i ≠ IdOf (TyUniq MPlain T)) →
  holds (s_step tl p ws t o).1 k i c.
Proof.
  intros Hh Hm Hi. destruct o; cbn [s_step may_take] in *.
  - destruct Hh as (w & Hk & Hc). exists w. split; [|done]. cbn. by apply lookup_app_l_Some.
  - apply on_world_holds; [done|]. intros. by apply get_or_insert_holds.
  - by apply on_world_holds.
  - by apply on_world_holds.
  - by apply on_world_holds.
  - apply on_world_holds; [done|]. intros w0 _ _ Hc.
    pose proof (get_or_insert_holds w0 t MPlain false free i0 X i c Hc) as H.
    by destruct (get_or_insert w0 t MPlain false free i0 X).
  - apply on_world_holds; [done|]. intros w0 _ _ Hc. unfold add_unique.
    assert (∀ d, <[IdOf (TyUniq MPlain T) := d]> (w_tab w0) !! i = Some c) as Hins.
    { intros d. rewrite lookup_insert_ne; [done|]. intros E. by apply (Hi T). }
    destruct md; [apply Hins|..]; (destruct (_ && _); [done|]); (destruct (w_tab w0 !! IdOf (TyUniq MPlain T)); [done|apply Hins]).
  - apply on_world_holds; [done|]. intros w0 _ _ Hc. unfold remove_unique.
    destruct (w_tab w0 !! IdOf (TyUniq MPlain T)); [|done]. destruct (cell_acc _ _ _ _); [|done].
    destruct free; [|done]. cbn. rewrite lookup_delete_ne; [done|]. intros E. by apply (Hi T).
  - apply on_world_holds; [done|]. intros w0 _ _ Hc. apply exclusively_holds; [done|].
    unfold excl_or_insert. destruct (w_tab w0 !! IdOf X) eqn:Hj; [done|]. by apply insert_holds.
  - apply on_world_holds; [done|]. intros w0 _ _ Hc. by apply exclusively_holds.
  - destruct (ws !! a); [|done]. apply on_world_holds; [done|]. intros w0 _ -> _.
    by rewrite bool_decide_eq_true_2 in Hm.
  - apply on_world_holds; [done|]. intros w0 _ -> _. by rewrite bool_decide_eq_true_2 in Hm.
Qed.

(** * C78 *)

(** Storages are only handed out as what they are, on threads that may touch them, and dropped where
    they may be: in every run of calls the compiler accepts, on any number of worlds and threads, if
    generators of thread ids tell threads apart, [Storage::any] is not overridden to lie, and nothing but a
    unique is put under the id of a unique. Partial: it is false without any one of the three, and all
    three are open to safe code (the theorems below). *)
Theorem C78_sound_partial tl p h :
  any_ok p → along (typed tl p) tl p [] h → Forall (λ to, gen_ok to.2 ∧ no_squat to.2) h →
  Forall (sound p) (s_run tl p [] h).2.
Proof. intros Ha Ht Hh. by apply (s_run_fine tl p [] h Ha (Forall_nil_2 _) Ht Hh). Qed.

(** If storages are put under their own id or under a number and clones have the type of the original,
    then looking up a storage by its type never fails on the type. *)
Theorem C78_lookup tl p h t k m free X md :
  Forall (λ to, own_id to.2) h → along honest tl p [] h → (∀ T, X ≠ TyUniq MPlain T) →
  EPanic ∉ (s_step tl p (s_run tl p [] h).1 t (SGet k m free X)).2 ∧
  EPanic ∉ (s_step tl p (s_run tl p [] h).1 t (SInsert k md m free (IdOf X) X)).2.
Proof.
  intros Ho Hh HX. pose proof (s_run_lok tl p [] h (Forall_nil_2 _) Ho Hh) as Hl.
  set (ws := (s_run tl p [] h).1) in *. clearbody ws.
  assert (∀ gen c, c_ty c = X → EPanic ∉ hand_out gen t m free c X) as Hho.
  { intros gen c E. unfold hand_out. destruct (cell_acc _ _ _ _); [|set_solver].
    destruct free; [|set_solver].
    rewrite decide_True by done. set_solver. }
  cbn [s_step]. unfold on_world. destruct (ws !! k) as [w|] eqn:Hk; [|split; cbn; set_solver].
  assert (lok w) as Hw by (by eapply (Forall_lookup_1 lok)).
  assert (∀ c, w_tab w !! IdOf X = Some c → c_ty c = X) as Hty.
  { intros c Hc. destruct (Hw _ _ Hc) as [?|(? & T & -> & _)]; [done|]. by destruct (HX T). }
  split.
  - cbn. destruct (w_tab w !! IdOf X) as [c|] eqn:Hc; [by apply Hho, Hty|set_solver].
  - unfold get_or_insert. destruct (w_tab w !! IdOf X) as [c|] eqn:Hc; [by apply Hho, Hty|].
    destruct (_ && _); [cbn; set_solver|]. cbn.
    apply not_elem_of_cons. split; [done|]. apply Hho. apply new_cell_ty.
Qed.

(** A view of a unique panics exactly when the unique was added under another wrapper (and the cell
    could be borrowed). *)
Theorem C78_unique_views tl p h t k md m free T :
  Forall (λ to, own_id to.2) h → along honest tl p [] h →
  EPanic ∈ (s_step tl p (s_run tl p [] h).1 t (SUniq k md m free T)).2 ↔
  ∃ w c md', (s_run tl p [] h).1 !! k = Some w ∧ w_tab w !! IdOf (TyUniq MPlain T) = Some c ∧
    c_ty c = TyUniq md' T ∧ md' ≠ md ∧ free = true ∧ cell_acc (w_gen w) t m c ≠ None.
Proof.
  intros Ho Hh. pose proof (s_run_lok tl p [] h (Forall_nil_2 _) Ho Hh) as Hl.
  set (ws := (s_run tl p [] h).1) in *. clearbody ws.
  cbn [s_step]. unfold on_world. destruct (ws !! k) as [w|] eqn:Hk; cycle 1.
  { cbn. rewrite elem_of_nil. naive_solver. }
  assert (lok w) as Hw by (by eapply (Forall_lookup_1 lok)). cbn.
  destruct (w_tab w !! IdOf (TyUniq MPlain T)) as [c|] eqn:Hc; cycle 1.
  { rewrite elem_of_list_singleton. naive_solver. }
  assert (∃ md', c_ty c = TyUniq md' T) as [md' Ec].
  { destruct (Hw _ _ Hc) as [E|(md' & T' & [= <-] & E)]; eauto. }
  unfold hand_out. destruct (cell_acc (w_gen w) t m c) as [a|] eqn:Ea; cycle 1.
  { rewrite elem_of_list_singleton. naive_solver. }
  destruct free; [|rewrite elem_of_list_singleton; naive_solver].
  destruct (decide (c_ty c = TyUniq md T)) as [E|E].
  - rewrite elem_of_list_singleton. split; [done|]. intros (w' & c' & md'' & [= <-] & ? & ? & ? & _).
    congruence.
  - split; [|by intros; constructor]. intros _. exists w, c, md'.
    repeat split; try done; [|by rewrite Ea]. intros ->. by apply E.
Qed.

(** A storage that is not a unique stays where it was put, with its type and the threads it may be touched
    on, until another storage is cloned into its world or the world is dropped. *)
Theorem C78_stays tl p ws h k i c :
  holds ws k i c → (∀ T, i ≠ IdOf (TyUniq MPlain T)) → Forall (λ to, may_take to.2 k = false) h →
  holds (s_run tl p ws h).1 k i c.
Proof.
  intros Hh Hi. revert ws Hh. induction h as [|[t o] h IH]; intros ws Hh Hm; [done|].
  apply Forall_cons in Hm as [Hm Hms]. cbn [s_run].
  pose proof (s_step_holds tl p ws t o k i c Hh Hm Hi) as H1.
  destruct (s_step tl p ws t o) as [ws1 e1]. specialize (IH ws1 H1 Hms). by destruct (s_run tl p ws1 h).
Qed.

(** * A concrete case *)

(** Unique and component type 9 and the user's storage 9 are not [Send], type 8 and storage 8 not
    [Sync]. *)
Definition ex_pt : prog_types :=
  PT (λ T, negb (T =? 9)) (λ T, negb (T =? 8)) (λ n, negb (n =? 9)) (λ n, negb (n =? 8)) TyUser.
Definition ex_gen (t : N) : N := t + 100.
(** Two worlds on thread 0; a unique that is not Send, a component storage that is not Sync and a plain
    one; thread 1 reads, borrows, adds and removes; the storages are cloned; the worlds are dropped. *)
Definition ex_h : list (N * scall) :=
  [ (0, SNew ex_gen); (0, SNew ex_gen);
    (0, SAddUnique 0 MNonSend 9);
    (0, SInsert 0 MNonSync true true (IdOf (TySet MNonSync 8)) (TySet MNonSync 8));
    (0, SExcl 0 MPlain (TySet MPlain 1));
    (1, SUniq 0 MNonSend false true 9);
    (1, SUniq 0 MNonSend true true 9);
    (1, SGet 0 false true (TySet MNonSync 8));
    (1, SRemUnique 0 true 9);
    (1, SAddUnique 0 MNonSync 1);
    (1, SAddUnique 0 MPlain 1);
    (1, SAddCustom 0 true (IdNum 3) (TyUser 1));
    (0, SClone 0 1 true (IdOf (TySet MNonSync 8)) (Some (TySet MNonSync 8)));
    (0, SClone 0 1 true (IdOf (TyUniq MPlain 9)) (Some (TyUniq MNonSend 9)));
    (1, SGet 1 true true (TySet MNonSync 8));
    (1, SUniq 1 MNonSend true true 9);
    (0, SRemUnique 0 true 9);
    (0, SDrop 0); (0, SDrop 1) ].

(** Deciding the conditions, for the examples. *)
Definition typedb (tl : bool) (p : prog_types) (ws : list swld) (t : N) (o : scall) : bool :=
  match o with
  | SInsert _ md _ _ _ X => bound p md X && (tl || bool_decide (md = MPlain))
  | SUniq _ md _ _ T | SAddUnique _ md T => bound p md (TyUniq md T) && (tl || bool_decide (md = MPlain))
  | SAddCustom _ _ _ X => bound p MPlain X
  | SExcl _ md X =>
      bound p md X && (tl || bool_decide (md = MPlain)) && match X with TySet _ _ => true | _ => false end
  | SExclGet _ i X => bool_decide (i = IdOf X)
  | SClone a _ _ i (Some X) =>
      match ws !! a with
      | Some wa => match w_tab wa !! i with
                   | Some c => match c_ty c with TyUser _ => true | Y => bool_decide (X = Y) end
                               && (tl || bound p MPlain X)
                   | None => true
                   end
      | None => true
      end
  | SDrop k => match ws !! k with Some w => negb tl || (t =? w_real w) | None => true end
  | _ => true
  end.
Definition honestb (ws : list swld) (t : N) (o : scall) : bool :=
  match o with
  | SClone a _ _ i (Some X) =>
      match ws !! a with
      | Some wa => match w_tab wa !! i with Some c => bool_decide (X = c_ty c) | None => true end
      | None => true
      end
  | _ => true
  end.
Fixpoint alongb (P : list swld → N → scall → bool) (tl : bool) (p : prog_types) (ws : list swld)
    (h : list (N * scall)) : bool :=
  match h with
  | [] => true
  | (t, o) :: h => P ws t o && alongb P tl p (s_step tl p ws t o).1 h
  end.
Lemma typedb_ok tl p ws t o : typedb tl p ws t o = true → typed tl p ws t o.
Proof.
  assert (∀ md, tl || bool_decide (md = MPlain) = true → tl = false → md = MPlain) as Hmd.
  { intros md E ->. by apply bool_decide_eq_true in E. }
  destruct o; cbn; rewrite ?andb_true_iff; try done.
  - intros [? ?]. auto.
  - intros [? ?]. auto.
  - intros [? ?]. auto.
  - intros [[? ?] E]. destruct X; try done. eauto 6.
  - intros E. apply bool_decide_eq_true in E. auto.
  - intros E wa c X Ha Hc ->. rewrite Ha, Hc in E. apply andb_true_iff in E as [E1 E2]. split.
    + intros Hn. destruct (c_ty c) eqn:Ec; try (by apply bool_decide_eq_true in E1). by destruct (Hn n).
    + intros ->. done.
  - intros E w0 Hw ->. rewrite Hw in E. by apply N.eqb_eq.
Qed.
Lemma honestb_ok ws t o : honestb ws t o = true → honest ws t o.
Proof.
  destruct o; cbn; try done. intros E wa c X Ha Hc ->. rewrite Ha, Hc in E. by apply bool_decide_eq_true in E.
Qed.
Lemma alongb_ok Pb (P : list swld → N → scall → Prop) tl p ws h :
  (∀ ws t o, Pb ws t o = true → P ws t o) → alongb Pb tl p ws h = true → along P tl p ws h.
Proof.
  intros HP. revert ws. induction h as [|[t o] h IH]; intros ws; [done|].
  cbn [alongb along]. rewrite andb_true_iff. intros [? ?]. auto.
Qed.
Ltac typ_run := apply (alongb_ok _ _ _ _ _ _ (typedb_ok _ _)); vm_compute; reflexivity.
Ltac honest_run := apply (alongb_ok _ _ _ _ _ _ honestb_ok); vm_compute; reflexivity.

Example ex_C78_meets :
  any_ok ex_pt ∧ along (typed true ex_pt) true ex_pt [] ex_h ∧
  Forall (λ to, gen_ok to.2 ∧ no_squat to.2) ex_h ∧
  Forall (λ to, own_id to.2) ex_h ∧ along honest true ex_pt [] ex_h.
Proof.
  split; [|split; [|split; [|split]]].
  - intros n. reflexivity.
  - typ_run.
  - unfold ex_h. repeat (apply Forall_cons; split;
      [split; cbn; first [exact I|intros ? ? E; unfold ex_gen in E; lia|intros ? [=]]|]). constructor.
  - unfold ex_h. repeat (apply Forall_cons; split; [cbn; eauto|]). constructor.
  - honest_run.
Qed.

(** Made, got, dropped, moved out, Ok, error, panic, with the thread. Thread 1 may read the unique that is
    not Send but gets an error when it asks for it exclusively or wants to remove it, in the clone too. *)
Definition ev_short (e : sev) : N * N :=
  match e with
  | EMade t _ => (0, t) | EGot t _ _ _ => (1, t) | EDrop t _ => (2, t) | EMoved t _ _ => (3, t)
  | EOk => (4, 0) | EErr => (5, 0) | EPanic => (6, 0)
  end.
Example ex_C78_outcome :
  ev_short <$> (s_run true ex_pt [] ex_h).2 =
  [(0, 0); (0, 0); (0, 0); (0, 0); (1, 0); (0, 0); (1, 0);
   (1, 1); (5, 0); (1, 1); (5, 0);
   (0, 1); (0, 1); (2, 1); (0, 1); (1, 1); (4, 0);
   (1, 0); (0, 0); (1, 0); (0, 0);
   (1, 1); (5, 0); (3, 0);
   (2, 0); (2, 0); (2, 0); (2, 0); (2, 0);
   (2, 0); (2, 0); (2, 0)].
Proof. vm_compute. reflexivity. Qed.

(** * What is false *)

(** [add_custom_storage] and the functions with [by_id] take any id: a storage put under the id of a unique
    is opened as that unique by remove_unique, which does not look at its type. No feature is needed. *)
Definition ex_squat : list (N * scall) :=
  [ (0, SNew ex_gen); (0, SAddCustom 0 true (IdOf (TyUniq MPlain 1)) (TyUser 1)); (0, SRemUnique 0 true 1) ].
Theorem C78_any_id_refuted :
  ∃ p h, any_ok p ∧ along (typed false p) false p [] h ∧ along honest false p [] h ∧
    Forall (λ to, gen_ok to.2) h ∧
    ∃ t c X, EMoved t c X ∈ (s_run false p [] h).2 ∧ ¬ same_storage (c_ty c) X.
Proof.
  exists ex_pt, ex_squat. split; [intros n; reflexivity|].
  split; [typ_run|].
  split; [honest_run|].
  split.
  { unfold ex_squat. repeat (apply Forall_cons; split;
      [cbn; first [exact I|intros ? ? E; unfold ex_gen in E; lia]|]). constructor. }
  exists 0, (SCell (TyUser 1) None true 0), (TyUniq MPlain 1). split.
  - replace ((s_run false ex_pt [] ex_squat).2) with
      [EMade 0 TyEnt; EMade 0 (TyUser 1); EGot 0 AShared (SCell (TyUser 1) None true 0) (TyUser 1); EOk;
       EMoved 0 (SCell (TyUser 1) None true 0) (TyUniq MPlain 1)] by (vm_compute; reflexivity).
    set_solver.
  - intros [[=]|(? & ? & ? & [=] & _)].
Qed.

(** With a storage that is not Send put under the id of a unique, [add_unique] on another thread drops it
    there. *)
Definition ex_squat_drop : list (N * scall) :=
  [ (0, SNew ex_gen); (0, SInsert 0 MNonSend false true (IdOf (TyUniq MPlain 1)) (TyUser 9));
    (1, SAddUnique 0 MPlain 1) ].
Theorem C78_dropped_elsewhere_refuted :
  ∃ p h, any_ok p ∧ along (typed true p) true p [] h ∧ along honest true p [] h ∧
    Forall (λ to, gen_ok to.2) h ∧
    ∃ t c, EDrop t c ∈ (s_run true p [] h).2 ∧ t ≠ c_real c ∧ ty_send p (c_ty c) = false.
Proof.
  exists ex_pt, ex_squat_drop. split; [intros n; reflexivity|].
  split; [typ_run|].
  split; [honest_run|].
  split.
  { unfold ex_squat_drop. repeat (apply Forall_cons; split;
      [cbn; first [exact I|intros ? ? E; unfold ex_gen in E; lia]|]). constructor. }
  exists 1, (SCell (TyUser 9) (Some 100) true 0). split; [|split; [discriminate|reflexivity]].
  replace ((s_run true ex_pt [] ex_squat_drop).2) with
    [EMade 0 TyEnt; EMade 0 (TyUser 9); EGot 0 AShared (SCell (TyUser 9) (Some 100) true 0) (TyUser 9);
     EMade 1 (TyUniq MPlain 1); EDrop 1 (SCell (TyUser 9) (Some 100) true 0)] by (vm_compute; reflexivity).
  set_solver.
Qed.

(** [with_custom_thread_id(|| 0)] is the example of its documentation (src/world/builder.rs 75): every
    thread is then the home thread, and gets a value that is not Send exclusively. *)
Definition ex_thread_id : list (N * scall) :=
  [ (0, SNew (λ _, 0)); (0, SAddUnique 0 MNonSend 9); (1, SUniq 0 MNonSend true true 9) ].
Theorem C78_thread_id_refuted :
  ∃ p h, any_ok p ∧ along (typed true p) true p [] h ∧ along honest true p [] h ∧
    Forall (λ to, no_squat to.2 ∧ own_id to.2) h ∧
    ∃ t c X, EGot t AMut c X ∈ (s_run true p [] h).2 ∧ t ≠ c_real c ∧ ty_send p (c_ty c) = false.
Proof.
  exists ex_pt, ex_thread_id. split; [intros n; reflexivity|].
  split; [typ_run|].
  split; [honest_run|].
  split.
  { unfold ex_thread_id. repeat (apply Forall_cons; split; [split; exact I|]). constructor. }
  exists 1, (SCell (TyUniq MNonSend 9) (Some 0) true 0), (TyUniq MNonSend 9).
  split; [|split; [discriminate|reflexivity]].
  replace ((s_run true ex_pt [] ex_thread_id).2) with
    [EMade 0 TyEnt; EMade 0 (TyUniq MNonSend 9);
     EGot 1 AMut (SCell (TyUniq MNonSend 9) (Some 0) true 0) (TyUniq MNonSend 9)] by (vm_compute; reflexivity).
  set_solver.
Qed.

(** clone_storages_to compares what [Storage::any] of the original and of the clone show. Both are user
    code: a storage that is Send can be cloned to one that is not, which is then handed out on any thread. *)
Definition ex_pt_lie : prog_types :=
  PT (λ T, negb (T =? 9)) (λ T, negb (T =? 8)) (λ n, negb (n =? 9)) (λ n, negb (n =? 8)) (λ _, TyEnt).
Definition ex_lie : list (N * scall) :=
  [ (0, SNew ex_gen); (0, SNew ex_gen); (0, SAddCustom 0 true (IdOf (TyUser 1)) (TyUser 1));
    (0, SClone 0 1 true (IdOf (TyUser 1)) (Some (TyUser 9)));
    (1, SGetDyn 1 true true (IdOf (TyUser 1))) ].
Theorem C78_any_refuted :
  ∃ p h, along (typed true p) true p [] h ∧ Forall (λ to, gen_ok to.2 ∧ no_squat to.2 ∧ own_id to.2) h ∧
    ∃ t c X, EGot t AMut c X ∈ (s_run true p [] h).2 ∧ t ≠ c_real c ∧ ty_send p (c_ty c) = false.
Proof.
  exists ex_pt_lie, ex_lie. split; [typ_run|].
  split.
  { unfold ex_lie. repeat (apply Forall_cons; split;
      [split; [cbn; first [exact I|intros ? ? E; unfold ex_gen in E; lia]|
               split; cbn; first [exact I|intros ? [=]|eauto]]|]). constructor. }
  exists 1, (SCell (TyUser 9) None true 0), (TyUser 9).
  split; [|split; [discriminate|reflexivity]].
  replace ((s_run true ex_pt_lie [] ex_lie).2) with
    [EMade 0 TyEnt; EMade 0 TyEnt; EMade 0 (TyUser 1);
     EGot 0 AShared (SCell (TyUser 1) None true 0) (TyUser 1); EOk;
     EGot 0 AShared (SCell (TyUser 1) None true 0) (TyUser 1); EMade 0 (TyUser 9);
     EGot 1 AMut (SCell (TyUser 9) None true 0) (TyUser 9)] by (vm_compute; reflexivity).
  set_solver.
Qed.

(** [add_custom_storage] answers Ok although a storage of another type is there and stays. *)
Definition ex_custom : list (N * scall) :=
  [ (0, SNew ex_gen); (0, SAddCustom 0 true (IdNum 3) (TyUser 1)) ].
Theorem C78_add_custom_refuted :
  ∃ p h k i X w c, any_ok p ∧ along (typed false p) false p [] h ∧ along honest false p [] h ∧
    Forall (λ to, gen_ok to.2 ∧ no_squat to.2 ∧ own_id to.2) h ∧
    EOk ∈ (s_step false p (s_run false p [] h).1 0 (SAddCustom k false i X)).2 ∧
    (s_step false p (s_run false p [] h).1 0 (SAddCustom k false i X)).1 !! k = Some w ∧
    w_tab w !! i = Some c ∧ c_ty c ≠ X.
Proof.
  exists ex_pt, ex_custom, 0%nat, (IdNum 3), (TyUser 2),
    (SWld ex_gen (ex_gen 0) 0
       (<[IdNum 3 := SCell (TyUser 1) None true 0]> {[IdOf TyEnt := SCell TyEnt None true 0]})),
    (SCell (TyUser 1) None true 0).
  split; [intros n; reflexivity|].
  split; [typ_run|].
  split; [honest_run|].
  split.
  { unfold ex_custom. repeat (apply Forall_cons; split;
      [split; [cbn; first [exact I|intros ? ? E; unfold ex_gen in E; lia]|
               split; cbn; first [exact I|intros ? [=]|eauto]]|]). constructor. }
  split; [|split; [vm_compute; reflexivity|split; [vm_compute; reflexivity|discriminate]]].
  replace ((s_step false ex_pt (s_run false ex_pt [] ex_custom).1 0
              (SAddCustom 0 false (IdNum 3) (TyUser 2))).2)
    with [EErr; EOk] by (vm_compute; reflexivity).
  set_solver.
Qed.

Print Assumptions C78_sound_partial.
Print Assumptions C78_lookup.
Print Assumptions C78_unique_views.
Print Assumptions C78_stays.
Print Assumptions C78_any_id_refuted.
Print Assumptions C78_dropped_elsewhere_refuted.
Print Assumptions C78_thread_id_refuted.
Print Assumptions C78_any_refuted.
Print Assumptions C78_add_custom_refuted.
