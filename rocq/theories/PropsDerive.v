(** Property C75: derived traits. A struct of views declares and borrows what its fields declare and
    borrow; derive(Component) tracks what is listed. *)
From stdpp Require Import prelude list gmap.
From Coq Require Import NArith.
From Verif Require Import Base SparseSet Track.
From Verif Require Import Sched SchedSpec ViewTypes PropsSched PropsParams Derive.
Local Open Scope nat_scope.

(** * Induction over the types *)

Section dview_ind.
  Context (P : dview → Prop)
    (H1 : ∀ v, P (DLeaf v)) (H2 : ∀ d, P d → P (DOption d)) (H3 : ∀ ds, Forall P ds → P (DTuple ds))
    (H4 : ∀ named fs, Forall (λ f, P f.2) fs → P (DStruct named fs)).
  Fixpoint dview_ind' (d : dview) : P d :=
    match d with
    | DLeaf v => H1 v
    | DOption d => H2 d (dview_ind' d)
    | DTuple ds => H3 ds ((fix go (ds : list dview) : Forall P ds :=
        match ds with [] => Forall_nil_2 P | d :: ds => Forall_cons_2 P d ds (dview_ind' d) (go ds) end) ds)
    | DStruct named fs => H4 named fs ((fix go (fs : list (list attr * dview)) : Forall (λ f, P f.2) fs :=
        match fs with
        | [] => Forall_nil_2 _
        | f :: fs => Forall_cons_2 (λ f, P f.2) f fs (dview_ind' f.2) (go fs)
        end) fs)
    end.
End dview_ind.
Section dparam_ind.
  Context (P : dparam → Prop)
    (H1 : ∀ d, P (DPView d)) (H2 : ∀ p, P (DPOther p))
    (H3 : ∀ named fs, Forall (λ f, P f.2) fs → P (DPStruct named fs)).
  Fixpoint dparam_ind' (q : dparam) : P q :=
    match q with
    | DPView d => H1 d
    | DPOther p => H2 p
    | DPStruct named fs => H3 named fs ((fix go (fs : list (list attr * dparam)) : Forall (λ f, P f.2) fs :=
        match fs with
        | [] => Forall_nil_2 _
        | f :: fs => Forall_cons_2 (λ f, P f.2) f fs (dparam_ind' f.2) (go fs)
        end) fs)
    end.
End dparam_ind.

(** * Which fields are skipped *)

(** [default] is listed in one of the shipyard attributes of the field, and no item before it has a
    value. *)
Definition marked_default (attrs : list attr) : Prop :=
  ∃ a pre i post, a ∈ attrs ∧ a_shipyard a = true ∧ a_items a = pre ++ i :: post ∧ i_default i = true ∧
    Forall (λ j, i_value j = false) pre.

Lemma scan_spec items : ∀ b, scan_items b items = true ↔
  b = true ∨ ∃ pre i post, items = pre ++ i :: post ∧ i_default i = true ∧ Forall (λ j, i_value j = false) pre.
Proof.
  induction items as [|i items IH]; intros b; cbn [scan_items].
  { split; [by left|]. intros [?|(pre & i & post & H & _)]; [done|]. by destruct pre. }
  destruct (i_value i) eqn:Ev.
  - rewrite orb_true_iff. split.
    + intros [?|Hd]; [by left|]. right. exists [], i, items. by split_and!.
    + intros [?|(pre & j & post & H & Hd & Hp)]; [by left|]. right. destruct pre as [|x pre].
      * injection H as <- <-. done.
      * injection H as <- ->. apply Forall_cons in Hp as [Hp _]. congruence.
  - rewrite IH, orb_true_iff. split.
    + intros [[?|Hd]|(pre & j & post & -> & Hd & Hp)]; [by left| |]; right.
      * exists [], i, items. by split_and!.
      * exists (i :: pre), j, post. split_and!; [done..|]. by constructor.
    + intros [?|(pre & j & post & H & Hd & Hp)]; [by left; left|]. destruct pre as [|x pre].
      * injection H as <- <-. left. by right.
      * injection H as <- ->. apply Forall_cons in Hp as [_ Hp]. right. by exists pre, j, post.
Qed.

(** The three macros agree on which fields are not borrowed: those of structs with named fields that
    are marked. *)
Theorem C75_skipped_fields named attrs :
  skipped named attrs = true ↔ named = true ∧ marked_default attrs.
Proof.
  unfold skipped, field_is_default. rewrite andb_true_iff, existsb_exists. split.
  - intros [Hn (a & Ha & Hs)]. split; [done|]. apply andb_true_iff in Hs as [Hs1 Hs2].
    apply scan_spec in Hs2 as [?|(pre & i & post & ? & ? & ?)]; [done|].
    exists a, pre, i, post. split_and!; [by apply elem_of_list_In|done..].
  - intros [Hn (a & pre & i & post & Ha & Hs & He & Hd & Hp)]. split; [done|]. exists a.
    split; [by apply elem_of_list_In|]. rewrite Hs. cbn [andb]. apply scan_spec. right. by exists pre, i, post.
Qed.

(** * What is declared *)

(** The views inside of a type. *)
Inductive inside : view → dview → Prop :=
| in_leaf v : inside v (DLeaf v)
| in_option v d : inside v d → inside v (DOption d)
| in_tuple v d ds : d ∈ ds → inside v d → inside v (DTuple ds)
| in_struct v named attrs d fs :
    (attrs, d) ∈ fs → ¬ (named = true ∧ marked_default attrs) → inside v d → inside v (DStruct named fs).
(** .. and the parameters inside of a parameter. *)
Inductive pinside : param → dparam → Prop :=
| pin_view v d : inside v d → pinside (PView v) (DPView d)
| pin_other p : pinside p (DPOther p)
| pin_struct p named attrs q fs :
    (attrs, q) ∈ fs → ¬ (named = true ∧ marked_default attrs) → pinside p q → pinside p (DPStruct named fs).

Lemma not_skipped named attrs : skipped named attrs = false ↔ ¬ (named = true ∧ marked_default attrs).
Proof. rewrite <-C75_skipped_fields. by destruct (skipped named attrs). Qed.

Lemma dview_info_inside d t : t ∈ dview_info d ↔ ∃ v, inside v d ∧ t ∈ view_info v.
Proof.
  induction d as [v|d IH|ds IH|named fs IH] using dview_ind'; cbn [dview_info].
  - split; [intros H; exists v; split; [constructor|done]|]. intros (v' & Hi & H). by inversion Hi; subst.
  - rewrite IH. split; intros (v & Hi & H); exists v; split; try done; [by constructor|by inversion Hi].
  - rewrite elem_of_list_In, in_flat_map. split.
    + intros (d & Hd & Ht). apply elem_of_list_In in Hd, Ht. eapply Forall_forall in IH as IHd; [|exact Hd].
      apply IHd in Ht as (v & Hi & H). exists v. split; [by econstructor|done].
    + intros (v & Hi & H). inversion Hi as [| |? d ? Hd Hi'|]; subst. exists d. split; [by apply elem_of_list_In|].
      apply elem_of_list_In. eapply Forall_forall in IH as IHd; [|exact Hd]. apply IHd. by exists v.
  - rewrite elem_of_list_In, in_flat_map. split.
    + intros ([attrs d] & Hd & Ht). cbn [fst snd] in Ht. apply elem_of_list_In in Hd, Ht.
      destruct (skipped named attrs) eqn:Es; [by apply elem_of_nil in Ht|]. apply not_skipped in Es.
      eapply Forall_forall in IH as IHd; [|exact Hd]. apply IHd in Ht as (v & Hi & H).
      exists v. split; [by econstructor|done].
    + intros (v & Hi & H). inversion Hi as [| | |? ? attrs d ? Hd Hs Hi']; subst. exists (attrs, d).
      split; [by apply elem_of_list_In|]. cbn [fst snd]. apply not_skipped in Hs. rewrite Hs.
      apply elem_of_list_In. eapply Forall_forall in IH as IHd; [|exact Hd]. apply IHd. by exists v.
Qed.

Lemma dparam_info_inside tl q t : t ∈ dparam_info tl q ↔ ∃ p, pinside p q ∧ t ∈ param_info tl p.
Proof.
  induction q as [d|p|named fs IH] using dparam_ind'; cbn [dparam_info].
  - rewrite dview_info_inside. split.
    + intros (v & Hi & H). exists (PView v). split; [by constructor|done].
    + intros (p & Hi & H). inversion Hi; subst. eauto.
  - split; [intros H; exists p; split; [constructor|done]|]. intros (p' & Hi & H). by inversion Hi; subst.
  - rewrite elem_of_list_In, in_flat_map. split.
    + intros ([attrs q] & Hq & Ht). cbn [fst snd] in Ht. apply elem_of_list_In in Hq, Ht.
      destruct (skipped named attrs) eqn:Es; [by apply elem_of_nil in Ht|]. apply not_skipped in Es.
      eapply Forall_forall in IH as IHq; [|exact Hq]. apply IHq in Ht as (p & Hi & H).
      exists p. split; [by econstructor|done].
    + intros (p & Hi & H). inversion Hi as [| |? ? attrs q ? Hq Hs Hi']; subst. exists (attrs, q).
      split; [by apply elem_of_list_In|]. cbn [fst snd]. apply not_skipped in Hs. rewrite Hs.
      apply elem_of_list_In. eapply Forall_forall in IH as IHq; [|exact Hq]. apply IHq. by exists p.
Qed.

(** A system declares what the views inside of its parameters declare, and nothing else, however they are nested. *)
Theorem C75_declares tl x t :
  t ∈ dsys_info tl x ↔ ∃ q p, q ∈ d_params x ∧ pinside p q ∧ t ∈ param_info tl p.
Proof.
  unfold dsys_info. rewrite elem_of_list_In, in_flat_map. split.
  - intros (q & Hq & Ht). apply elem_of_list_In in Hq, Ht. apply dparam_info_inside in Ht as (p & ? & ?). eauto.
  - intros (q & p & Hq & Hp & Ht). exists q. split; apply elem_of_list_In; [done|].
    apply dparam_info_inside. eauto.
Qed.

(** * Structs behave like tuples and like separate parameters *)

(** The system with its structs taken apart. *)
Definition apart (x : dsys) : sys := {| s_params := flat_map dparam_flat (d_params x); s_acts := d_acts x |}.

Lemma flat_map_flat_map {A B C} (f : A → list B) (g : B → list C) l :
  flat_map g (flat_map f l) = flat_map (λ a, flat_map g (f a)) l.
Proof. induction l as [|a l IH]; [done|]. cbn [flat_map]. by rewrite flat_map_app, IH. Qed.
Lemma flat_map_map' {A B C} (f : A → B) (g : B → list C) l : flat_map g (map f l) = flat_map (λ a, g (f a)) l.
Proof. induction l as [|a l IH]; [done|]. cbn [flat_map map]. by rewrite IH. Qed.

Lemma dview_info_flat d : dview_info d = view_info (dview_flat d).
Proof.
  induction d as [v|d IH|ds IH|named fs IH] using dview_ind'; cbn [dview_info dview_flat view_info]; [done..| |].
  - rewrite flat_map_map'. by apply flat_map_eq.
  - rewrite flat_map_flat_map. apply flat_map_eq. eapply Forall_impl; [exact IH|]. intros f Hf; cbn beta in Hf |- *.
    destruct (skipped named f.1); [done|]. cbn [flat_map]. by rewrite app_nil_r.
Qed.
Lemma dview_tracking_flat d : dview_tracking d = view_tracking (dview_flat d).
Proof.
  induction d as [v|d IH|ds IH|named fs IH] using dview_ind'; cbn [dview_tracking dview_flat view_tracking]; [done..| |].
  - rewrite flat_map_map'. by apply flat_map_eq.
  - rewrite flat_map_flat_map. apply flat_map_eq. eapply Forall_impl; [exact IH|]. intros f Hf; cbn beta in Hf |- *.
    destruct (skipped named f.1); [done|]. cbn [flat_map]. by rewrite app_nil_r.
Qed.
Lemma dparam_info_flat tl q : dparam_info tl q = sys_info tl (dparam_flat q).
Proof.
  unfold sys_info. induction q as [d|p|named fs IH] using dparam_ind'; cbn [dparam_info dparam_flat].
  - cbn [flat_map param_info]. by rewrite app_nil_r, dview_info_flat.
  - cbn [flat_map]. by rewrite app_nil_r.
  - rewrite flat_map_flat_map. apply flat_map_eq. eapply Forall_impl; [exact IH|]. intros f Hf; cbn beta in Hf |- *.
    by destruct (skipped named f.1).
Qed.
Lemma dparam_tracking_flat q : dparam_tracking q = sys_tracking (dparam_flat q).
Proof.
  unfold sys_tracking. induction q as [d|p|named fs IH] using dparam_ind'; cbn [dparam_tracking dparam_flat].
  - cbn [flat_map param_tracking]. by rewrite app_nil_r, dview_tracking_flat.
  - cbn [flat_map]. by rewrite app_nil_r.
  - rewrite flat_map_flat_map. apply flat_map_eq. eapply Forall_impl; [exact IH|]. intros f Hf; cbn beta in Hf |- *.
    by destruct (skipped named f.1).
Qed.

(** The declarations and the tracking functions are those of the parameters taken apart, in the same
    order. *)
Theorem C75_declares_apart tl x :
  dsys_info tl x = sys_info tl (s_params (apart x)) ∧ dsys_tracking x = sys_tracking (s_params (apart x)).
Proof.
  unfold dsys_info, dsys_tracking, sys_info, sys_tracking, apart. cbn [s_params].
  rewrite !flat_map_flat_map. split; apply flat_map_eq, Forall_forall; intros q _.
  - apply dparam_info_flat.
  - apply dparam_tracking_flat.
Qed.

(** ** The same steps *)

(** Programs that cannot be told apart by running them. *)
Fixpoint peq (p q : prog) : Prop :=
  match p, q with
  | IDone, IDone => True
  | IFail e, IFail e' => e = e'
  | IPanicked, IPanicked => True
  | ITry r ok err, ITry r' ok' err' => r = r' ∧ peq ok ok' ∧ ∀ e, peq (err e) (err' e)
  | IClone k, IClone k' => peq k k'
  | IPopTo n k, IPopTo n' k' => n = n' ∧ peq k k'
  | IPopAt n k, IPopAt n' k' => n = n' ∧ peq k k'
  | IAdd T k, IAdd T' k' => T = T' ∧ peq k k'
  | IBody k, IBody k' => peq k k'
  | _, _ => False
  end.
Lemma peq_refl p : peq p p.
Proof. induction p; cbn [peq]; auto. Qed.

Lemma cview_peq v : ∀ n ok ok' err err',
  (∀ m, peq (ok m) (ok' m)) → (∀ e, peq (err e) (err' e)) → peq (cview v n ok err) (cview v n ok' err').
Proof.
  induction v as [|m|w m T tr|w m T|v IH|vs IH] using view_ind'; intros n ok ok' err err' Hok Herr;
    cbn [cview leaf peq]; unfold leaf; cbn [peq]; auto.
  assert (∀ vs', Forall (λ v, ∀ n ok ok' err err', (∀ m, peq (ok m) (ok' m)) → (∀ e, peq (err e) (err' e)) →
      peq (cview v n ok err) (cview v n ok' err')) vs' → ∀ m,
    peq (foldr (λ v (rest : nat → prog) (m : nat), IClone (cview v m rest (λ e, IPopTo n (err e))))
           (λ m, IPopAt n (ok (m - 1))) vs' m)
        (foldr (λ v (rest : nat → prog) (m : nat), IClone (cview v m rest (λ e, IPopTo n (err' e))))
           (λ m, IPopAt n (ok' (m - 1))) vs' m)) as H; [|by apply H].
  intros vs' H. induction H as [|v vs' Hv _ IHvs]; intros m; cbn [foldr peq]; [auto|].
  apply Hv; [done|]. intros e. cbn [peq]. auto.
Qed.

Lemma dborrow_peq d : ∀ n ok ok' err err',
  (∀ m, peq (ok m) (ok' m)) → (∀ e, peq (err e) (err' e)) →
  peq (dborrow d n ok err) (cview (dview_flat d) n ok' err').
Proof.
  induction d as [v|d IH|ds IH|named fs IH] using dview_ind'; intros n ok ok' err err' Hok Herr;
    cbn [dborrow dview_flat cview].
  - by apply cview_peq.
  - apply IH; auto.
  - generalize (n + 1). induction IH as [|d ds Hd _ IHds]; intros m; cbn [map foldr peq]; [auto|].
    apply Hd; [done|]. intros e. cbn [peq]. auto.
  - generalize (n + 1). induction IH as [|[attrs d] fs Hd _ IHfs]; intros m; cbn [flat_map foldr peq fst snd]; [auto|].
    destruct (skipped named attrs); cbn [app foldr peq]; [apply IHfs|].
    apply Hd; [done|]. intros e. cbn [peq]. auto.
Qed.

(** One parameter, then [k]. *)
Lemma cparams_step ps acts p qs i full n :
  cparams ps (p :: qs) acts i full n = dworld_borrow (DPOther p) i full n (cparams ps qs acts).
Proof. by destruct p. Qed.

Lemma dworld_peq ps acts q : ∀ qs i full n k,
  (∀ i full n, peq (k i full n) (cparams ps qs acts i full n)) →
  peq (dworld_borrow q i full n k) (cparams ps (dparam_flat q ++ qs) acts i full n).
Proof.
  induction q as [d|p|named fs IH] using dparam_ind'; intros qs i full n k Hk.
  - cbn [dworld_borrow dparam_flat app cparams peq]. split_and!; [done| |intros; apply peq_refl].
    apply dborrow_peq; [auto|intros; apply peq_refl].
  - cbn [dparam_flat app]. destruct p as [v|m|m T|m T]; cbn [dworld_borrow cparams peq].
    + split_and!; [done| |intros; apply peq_refl]. apply cview_peq; [auto|intros; apply peq_refl].
    + split_and!; [done|auto|intros; apply peq_refl].
    + split_and!; [done..| | |intros; apply peq_refl].
      * apply cview_peq; [auto|intros; apply peq_refl].
      * intros []; try apply peq_refl. cbn [peq]. split; [done|]. apply cview_peq; [auto|intros; apply peq_refl].
    + split_and!; [done| |intros; apply peq_refl]. apply cview_peq; [auto|].
      intros []; try apply peq_refl. auto.
  - cbn [dworld_borrow dparam_flat]. revert i full n.
    induction IH as [|[attrs q] fs Hq _ IHfs]; intros i full n; cbn [flat_map foldr fst snd app]; [apply Hk|].
    destruct (skipped named attrs); cbn [app]; [apply IHfs|]. rewrite <-app_assoc. cbn [snd] in Hq. apply Hq.
    intros. apply IHfs.
Qed.

Lemma dprog_peq x : peq (dprog x) (csys (apart x)).
Proof.
  unfold dprog, csys, apart. cbn [s_params s_acts]. generalize (flat_map dparam_flat (d_params x)) at 1 2 as ps.
  intros ps. generalize 0 at 1 3 as i. generalize (@nil nat) as full. generalize 0 as n. revert ps.
  induction (d_params x) as [|q qs IH]; intros ps n full i; cbn [foldr flat_map].
  - cbn [cparams peq]. apply peq_refl.
  - apply dworld_peq. intros. apply IH.
Qed.

(** States that cannot be told apart. *)
Definition alike (s s' : bst) : Prop :=
  b_world s = b_world s' ∧
  Forall2 (λ r r', peq (r_prog r) (r_prog r') ∧ r_guards r = r_guards r') (b_runs s) (b_runs s').

Lemma alike_guards s s' : alike s s' → all_guards s = all_guards s'.
Proof. unfold all_guards. intros [_ H]. induction H as [|r r' l l' [_ Hg] _ IH]; [done|]. cbn [flat_map]. by rewrite Hg, IH. Qed.

Lemma run_step_alike home gs w p p' G :
  peq p p' →
  match run_step home gs w {| r_prog := p; r_guards := G |}, run_step home gs w {| r_prog := p'; r_guards := G |} with
  | Some (w1, r, ev), Some (w1', r', ev') =>
      w1 = w1' ∧ ev = ev' ∧ peq (r_prog r) (r_prog r') ∧ r_guards r = r_guards r'
  | None, None => True
  | _, _ => False
  end.
Proof.
  intros Hp. unfold run_step. cbn [r_prog r_guards].
  destruct p as [|e| |q ok err|k|n k|n k|T k|k], p' as [|e'| |q' ok' err'|k'|n' k'|n' k'|T' k'|k']; cbn [peq] in Hp;
    try done.
  - destruct Hp as (-> & Hok & Herr). destruct (attempt home gs w q') as [w' []]; cbn [r_prog r_guards]; split_and!; done || apply Herr || apply peq_refl.
  - destruct Hp as [-> Hp]. destruct (n' <? length G); cbn [r_prog r_guards peq]; by split_and!.
  - destruct Hp as [-> Hp]. by split_and!.
  - destruct Hp as [-> Hp]. by split_and!.
Qed.

Lemma b_step_alike thr s1 s2 i : alike s1 s2 →
  match b_step thr s1 i, b_step thr s2 i with
  | Some (s1', ev), Some (s2', ev') => ev = ev' ∧ alike s1' s2'
  | None, None => True
  | _, _ => False
  end.
Proof.
  intros Ha. pose proof (alike_guards _ _ Ha) as Hg. destruct Ha as [Hw Hr]. unfold b_step. rewrite Hg, Hw.
  destruct (b_runs s1 !! i) as [r|] eqn:E1.
  - destruct (Forall2_lookup_l _ _ _ _ _ Hr E1) as ([p' G'] & E2 & Hp & HG). rewrite E2. destruct r as [p G].
    cbn [r_prog r_guards] in Hp, HG. subst G'.
    pose proof (run_step_alike (thr i) (all_guards s2) (b_world s2) p p' G Hp) as H.
    destruct (run_step _ _ _ {| r_prog := p; r_guards := G |}) as [[[w1 r1] ev1]|],
      (run_step _ _ _ {| r_prog := p'; r_guards := G |}) as [[[w2 r2] ev2]|]; try done.
    destruct H as (-> & -> & ? & ?). split; [done|]. split; [done|]. cbn [b_runs].
    apply Forall2_insert; [done|]. done.
  - destruct (b_runs s2 !! i) as [r2|] eqn:E2; [|done].
    destruct (Forall2_lookup_r _ _ _ _ _ Hr E2) as (? & ? & _). congruence.
Qed.

Lemma alike_reach thr s1 s2 tr s : alike s1 s2 → b_reach thr s1 tr s → ∃ s', b_reach thr s2 tr s' ∧ alike s s'.
Proof.
  intros Ha Hr. induction Hr as [|tr s i s1' ev _ (s' & Hr' & Ha') Hs]; [exists s2; split; [constructor|done]|].
  pose proof (b_step_alike thr s s' i Ha') as H. rewrite Hs in H.
  destruct (b_step thr s' i) as [[s2' ev']|] eqn:E; [|done]. destruct H as [<- H].
  exists s2'. split; [by econstructor|done].
Qed.
Lemma peq_sym p : ∀ q, peq p q → peq q p.
Proof.
  induction p; intros [] Hpq; cbn [peq] in *; try done; try tauto; naive_solver.
Qed.
Lemma alike_sym s s' : alike s s' → alike s' s.
Proof.
  intros [Hw H]. split; [done|]. induction H as [|? ? ? ? [? ?]]; constructor; [|done]. split; [by apply peq_sym|done].
Qed.

Lemma start_alike w xs : alike (d_start w xs) (b_start w (map apart xs)).
Proof.
  split; [done|]. cbn [d_start b_start b_runs]. induction xs as [|x xs IH]; cbn [map]; constructor; [|done].
  cbn [r_prog r_guards]. split; [apply dprog_peq|done].
Qed.

(** What systems do next to each other, step by step (borrows, errors, guards dropped, uniques added), is the same whether
    their views are in derived structs or are separate parameters. *)
Theorem C75_runs_apart thr w xs tr :
  (∀ s, b_reach thr (d_start w xs) tr s →
     ∃ s', b_reach thr (b_start w (map apart xs)) tr s' ∧ b_world s = b_world s' ∧
       map r_guards (b_runs s) = map r_guards (b_runs s')) ∧
  (∀ s', b_reach thr (b_start w (map apart xs)) tr s' →
     ∃ s, b_reach thr (d_start w xs) tr s ∧ b_world s = b_world s' ∧
       map r_guards (b_runs s) = map r_guards (b_runs s')).
Proof.
  assert (∀ s s', alike s s' → b_world s = b_world s' ∧ map r_guards (b_runs s) = map r_guards (b_runs s')) as Hal.
  { intros s s' [Hw H]. split; [done|]. induction H as [|? ? ? ? [_ Hg] _ IH]; [done|]. cbn [map]. by rewrite Hg, IH. }
  split.
  - intros s Hr. destruct (alike_reach _ _ _ _ _ (start_alike w xs) Hr) as (s' & Hr' & Ha). exists s'.
    split; [done|]. by apply Hal.
  - intros s' Hr. destruct (alike_reach _ _ _ _ _ (alike_sym _ _ (start_alike w xs)) Hr) as (s & Hr' & Ha). exists s.
    split; [done|]. by apply Hal, alike_sym.
Qed.

(** * What this gives for systems with derived structs *)

Lemma derived_reach thr w xs tr s : b_reach thr (d_start w xs) tr s →
  ∃ s', b_reach thr (b_start w (map apart xs)) tr s' ∧ alike s s'.
Proof. intros Hr. exact (alike_reach _ _ _ _ _ (start_alike w xs) Hr). Qed.
Lemma alike_run s s' i r : alike s s' → b_runs s !! i = Some r →
  ∃ r', b_runs s' !! i = Some r' ∧ peq (r_prog r) (r_prog r') ∧ r_guards r = r_guards r'.
Proof. intros [_ H] Hi. destruct (Forall2_lookup_l _ _ _ _ _ H Hi) as (r' & ? & ? & ?). eauto. Qed.
Lemma peq_finished p q : peq p q → finished p → finished q.
Proof. by destruct p, q. Qed.

(** A system only ever holds what it declared, besides shared borrows of all storages. *)
Theorem C75_held_is_declared tl thr w xs tr s i x r g :
  b_reach thr (d_start w xs) tr s → xs !! i = Some x → b_runs s !! i = Some r →
  g ∈ r_guards r → g ≠ (CAll, false) → announced (dsys_info tl x) g.
Proof.
  intros Hr Hx Hi Hg Hne. destruct (derived_reach _ _ _ _ _ Hr) as (s' & Hr' & Ha).
  destruct (alike_run _ _ _ _ Ha Hi) as (r' & Hi' & _ & HG). rewrite HG in Hg.
  destruct (C75_declares_apart tl x) as [-> _].
  eapply C63_held_is_declared; [exact Hr'| |exact Hi'|exact Hg|exact Hne].
  change (map apart xs) with (apart <$> xs). by rewrite list_lookup_fmap, Hx.
Qed.

(** A system that is over holds nothing: when a field of a struct is refused, the fields before it are
    released. *)
Theorem C75_finished_holds_nothing thr w xs tr s i r :
  b_reach thr (d_start w xs) tr s → b_runs s !! i = Some r → finished (r_prog r) → r_guards r = [].
Proof.
  intros Hr Hi Hf. destruct (derived_reach _ _ _ _ _ Hr) as (s' & Hr' & Ha).
  destruct (alike_run _ _ _ _ Ha Hi) as (r' & Hi' & Hp & ->).
  eapply C63_finished_holds_nothing; [exact Hr'|exact Hi'|by eapply peq_finished].
Qed.

(** The systems of one batch are never refused a view, inside of structs or not. As for C63:
    not covered are parameters that declare nothing, two views of the same content that is not Sync in
    one system, missing uniques. *)
Theorem C75_batch_never_refused_partial wl sc sc' info ba order k b tl sysof thr is w0 w tr s :
  built wl → create_workload wl sc = Some (sc', inr (info, ba, order)) → info !! k = Some b →
  (∀ i x, wl_systems wl !! i = Some x →
     w_borrows x = dsys_info tl (sysof i) ∧ system_valid (w_borrows x) = true ∧
     (∀ q p, q ∈ d_params (sysof i) → p ∈ dparam_flat q → param_info tl p ≠ []) ∧
     NoDup (sys_xreads (s_params (apart (sysof i)))) ∧
     ∀ T v, (T, v) ∈ sys_uniqs (s_params (apart (sysof i))) → ∃ n, b_uniqs w0 !! T = Some (n, v)) →
  apply_tracking true w0
    (flat_map (λ i, dsys_tracking (sysof i)) (seq 0 (length (wl_systems wl)))) = inl w →
  NoDup is → (∀ i, i ∈ is → in_batch info i k) →
  (∀ p q, bi_single b = Some q → is !! p = Some (pos q) → thr p = true) →
  b_reach thr (d_start w (map sysof is)) tr s →
  (∀ p ev, (p, ev) ∈ tr →
     (∀ e, ev ≠ EvErr e) ∧ ev ≠ EvPanic ∧ ev ≠ EvAdd ∧
     ∀ gs i, ev = EvBody gs → is !! p = Some i → held gs = declares (dsys_info tl (sysof i))) ∧
  (∀ p r, b_runs s !! p = Some r → finished (r_prog r) → r_prog r = IDone) ∧
  (∀ g, g ∈ all_guards s → ¬ dangling (b_world s) g).
Proof.
  intros Hb Hc Hk Hsys Htrk Hnd Hin Hthr Hr. destruct (derived_reach _ _ _ _ _ Hr) as (s' & Hr' & Ha).
  rewrite map_map in Hr'.
  destruct (C63_batch_never_refused_partial wl sc sc' info ba order k b tl (λ i, apart (sysof i)) thr is w0 w tr s')
    as (H1 & H2 & H3); try done.
  - intros i x Hx. destruct (Hsys i x Hx) as (HB & Hv & Hp & Hxr & Hu). split_and!; [|done| |done..].
    + rewrite HB. by destruct (C75_declares_apart tl (sysof i)).
    + apply Forall_forall. intros p Hpi. unfold apart in Hpi. cbn [s_params] in Hpi.
      apply elem_of_list_In, in_flat_map in Hpi as (q & Hq & Hpi). apply elem_of_list_In in Hq, Hpi. eauto.
  - rewrite <-Htrk. f_equal. apply flat_map_eq, Forall_forall. intros i _.
    by destruct (C75_declares_apart tl (sysof i)).
  - split_and!.
    + intros p ev Hp. destruct (H1 p ev Hp) as (? & ? & ? & H4). split_and!; [done..|].
      intros gs i He Hi. rewrite (H4 gs i He Hi). by destruct (C75_declares_apart tl (sysof i)) as [-> _].
    + intros p r Hp Hf. destruct (alike_run _ _ _ _ Ha Hp) as (r' & Hp' & Hpe & _).
      pose proof (H2 p r' Hp' (peq_finished _ _ Hpe Hf)) as Hd. rewrite Hd in Hpe. by destruct (r_prog r).
    + destruct Ha as [Hw HF]. rewrite (alike_guards s s'), Hw; [done|by split].
Qed.

(** * derive(Component) *)

(** The first track attribute lists [ts]. *)
Definition first_track (attrs : list cattr) (ts : list ttoken) : Prop :=
  ∃ pre post, attrs = pre ++ CTrack ts :: post ∧ Forall (λ a, a = CAttr) pre.
(** What a list of tokens asks for. *)
Definition asks (t : ttoken) (ts : list ttoken) : Prop := t ∈ ts ∨ TkAll ∈ ts.
Definition tracks (k : tracking) (t : ttoken) : Prop :=
  match t with
  | TkInsertion => k_track_insertion k = true
  | TkModification => k_track_modification k = true
  | TkDeletion => k_track_deletion k = true
  | TkRemoval => k_track_removal k = true
  | _ => False
  end.
Definition kinds : list ttoken := [TkInsertion; TkModification; TkDeletion; TkRemoval].

Lemma track_tokens_spec ts : ∀ i m d r,
  (track_tokens (i, m, d, r) ts = None ∧ TkOther ∈ ts) ∨
  (TkOther ∉ ts ∧ ∃ i' m' d' r', track_tokens (i, m, d, r) ts = Some (i', m', d', r') ∧
     (i' = true ↔ i = true ∨ asks TkInsertion ts) ∧ (m' = true ↔ m = true ∨ asks TkModification ts) ∧
     (d' = true ↔ d = true ∨ asks TkDeletion ts) ∧ (r' = true ↔ r = true ∨ asks TkRemoval ts)).
Proof.
  unfold asks. induction ts as [|t ts IH]; intros i m d r; cbn [track_tokens].
  { right. split; [apply not_elem_of_nil|]. exists i, m, d, r. split; [done|].
    pose proof (not_elem_of_nil (A := ttoken)) as Hn. split_and!; (split; [by left|]); intros [?|[?|?]]; try done; by exfalso; eapply Hn. }
  setoid_rewrite elem_of_cons.
  destruct t; try (match goal with |- context [track_tokens ?f ts] =>
    destruct f as [[[i1 m1] d1] r1] eqn:Ef; injection Ef as <- <- <- <- end).
  - destruct (IH true m d r) as [[? ?]|(? & i' & m' & d' & r' & ? & ? & ? & ? & ?)]; [left; tauto|right].
    split; [naive_solver|]. exists i', m', d', r'. split; [done|]. split_and!; naive_solver.
  - destruct (IH i true d r) as [[? ?]|(? & i' & m' & d' & r' & ? & ? & ? & ? & ?)]; [left; tauto|right].
    split; [naive_solver|]. exists i', m', d', r'. split; [done|]. split_and!; naive_solver.
  - destruct (IH i m true r) as [[? ?]|(? & i' & m' & d' & r' & ? & ? & ? & ? & ?)]; [left; tauto|right].
    split; [naive_solver|]. exists i', m', d', r'. split; [done|]. split_and!; naive_solver.
  - destruct (IH i m d true) as [[? ?]|(? & i' & m' & d' & r' & ? & ? & ? & ? & ?)]; [left; tauto|right].
    split; [naive_solver|]. exists i', m', d', r'. split; [done|]. split_and!; naive_solver.
  - destruct (IH true true true true) as [[? ?]|(? & i' & m' & d' & r' & ? & ? & ? & ? & ?)]; [left; tauto|right].
    split; [naive_solver|]. exists i', m', d', r'. split; [done|]. split_and!; naive_solver.
  - left. tauto.
  - destruct (IH i m d r) as [[? ?]|(? & i' & m' & d' & r' & ? & ? & ? & ? & ?)]; [left; tauto|right].
    split; [naive_solver|]. exists i', m', d', r'. split; [done|]. split_and!; naive_solver.
Qed.

Lemma expand_first attrs ts : first_track attrs ts →
  expand_component attrs = track_type <$> track_tokens (false, false, false, false) ts.
Proof. intros (pre & post & -> & Hp). induction Hp as [|a pre -> _ IH]; [done|]. exact IH. Qed.

(** A component tracks exactly what its track attribute lists. Not covered: modification and removal
    without the others (C75_modification_and_removal_refuted), attributes behind the first
    (C75_second_attribute_refuted). *)
Theorem C75_component_partial attrs ts k :
  first_track attrs ts → expand_component attrs = Some k →
  ¬ (asks TkModification ts ∧ asks TkRemoval ts ∧ ¬ asks TkInsertion ts ∧ ¬ asks TkDeletion ts) →
  ∀ t, t ∈ kinds → tracks k t ↔ asks t ts.
Proof.
  intros Hf Hk Hn t Ht. rewrite (expand_first _ _ Hf) in Hk.
  destruct (track_tokens_spec ts false false false false) as [[E _]|(_ & i & m & d & r & E & Hi & Hm & Hd & Hr)];
    rewrite E in Hk; [done|]. injection Hk as <-.
  assert (∀ b (P : Prop), (b = true ↔ false = true ∨ P) → (b = true ↔ P)) as Hx by naive_solver.
  apply Hx in Hi, Hm, Hd, Hr. rewrite <-Hi, <-Hm, <-Hd, <-Hr in Hn.
  unfold kinds in Ht. rewrite !elem_of_cons, elem_of_nil in Ht.
  destruct Ht as [->|[->|[->|[->|[]]]]]; cbn [tracks]; rewrite <-?Hi, <-?Hm, <-?Hd, <-?Hr;
    destruct i, m, d, r; cbn [track_type]; try (vm_compute; split; congruence);
    exfalso; apply Hn; split_and!; congruence.
Qed.

(** When the macro reports an error; without a track attribute nothing is tracked. *)
Theorem C75_component_errors attrs :
  (expand_component attrs = None ↔
     (∃ ts, first_track attrs ts ∧ TkOther ∈ ts) ∨
     ∃ pre post, attrs = pre ++ CTrackNoList :: post ∧ Forall (λ a, a = CAttr) pre) ∧
  (Forall (λ a, a = CAttr) attrs → ∃ k, expand_component attrs = Some k ∧ ∀ t, ¬ tracks k t).
Proof.
  split; [split|].
  - induction attrs as [|a attrs IH]; [done|]. destruct a as [ts| |]; cbn [expand_component].
    + intros H. left. exists ts. split; [by exists [], attrs|].
      destruct (track_tokens_spec ts false false false false) as [[_ ?]|(_ & ? & ? & ? & ? & E & _)]; [done|].
      by rewrite E in H.
    + intros _. right. by exists [], attrs.
    + intros H. destruct (IH H) as [(ts & (pre & post & -> & Hp) & Ht)|(pre & post & -> & Hp)].
      * left. exists ts. split; [|done]. exists (CAttr :: pre), post. split; [done|]. by constructor.
      * right. exists (CAttr :: pre), post. split; [done|]. by constructor.
  - intros [(ts & Hf & Ht)|(pre & post & -> & Hp)].
    + rewrite (expand_first _ _ Hf).
      by destruct (track_tokens_spec ts false false false false) as [[-> _]|[? _]].
    + induction Hp as [|a pre -> _ IH]; [done|exact IH].
  - intros H. exists Nothing. split; [|intros t Ht; destruct t; vm_compute in Ht; congruence].
    induction H as [|a attrs -> _ IH]; [done|exact IH].
Qed.

(** The macro gives [#[track(Modification, Removal)]] the type ModificationAndRemoval, which does not track
    removals (C23). *)
Theorem C75_modification_and_removal_refuted :
  ∃ attrs ts k, first_track attrs ts ∧ expand_component attrs = Some k ∧ asks TkRemoval ts ∧ ¬ tracks k TkRemoval.
Proof.
  exists [CTrack [TkModification; TkPunct; TkRemoval]], [TkModification; TkPunct; TkRemoval], ModificationAndRemoval.
  split_and!; [by exists [], []|done|left; repeat constructor|]. cbn [tracks]. by vm_compute.
Qed.

(** A second track attribute is accepted and has no effect. *)
Theorem C75_second_attribute_refuted :
  ∃ attrs ts k, CTrack ts ∈ attrs ∧ asks TkDeletion ts ∧ expand_component attrs = Some k ∧ ¬ tracks k TkDeletion.
Proof.
  exists [CTrack [TkInsertion]; CTrack [TkDeletion]], [TkDeletion], TInsertion.
  split_and!; [repeat constructor|left; repeat constructor|done|]. cbn [tracks]. by vm_compute.
Qed.

(** A field of a tuple struct that is marked as default is borrowed all the same. *)
Theorem C75_tuple_default_refuted :
  ∃ attrs d T, marked_default attrs ∧ d = DStruct false [(attrs, DLeaf (VComp WNone true T no_trk))] ∧
    dview_info d ≠ [].
Proof.
  exists [{| a_shipyard := true; a_items := [{| i_default := true; i_value := false |}] |}]. eexists _, 0%N.
  split_and!; [|done|done]. eexists _, [], _, []. split_and!; [by left|done|done|done|constructor].
Qed.

(** * A concrete case *)

(** [#[shipyard(default)]] *)
Definition mark : list attr := [{| a_shipyard := true; a_items := [{| i_default := true; i_value := false |}] |}].
(** struct Inner { pos: ViewMut<T0>, #[shipyard(default)] cache: .. } with derive(Borrow);
    struct Outer { all: Option<Inner>, time: UniqueOrDefaultView<T7> } with derive(WorldBorrow);
    fn system(_: Outer, _: View<T1>). *)
Definition inner : dview :=
  DStruct true [([], DLeaf (VComp WNone true 0 no_trk)); (mark, DLeaf (VComp WNone true 5 no_trk))].
Definition outer : dparam :=
  DPStruct true [([], DPView (DOption inner)); ([], DPOther (POrDefault false 7))].
Definition sys_a : dsys := {| d_params := [outer; DPView (DLeaf (VComp WNone false 1 no_trk))]; d_acts := [] |}.
(** A system that reads the component of [inner]. *)
Definition sys_b : dsys := {| d_params := [DPView (DLeaf (VComp WNone false 0 no_trk))]; d_acts := [] |}.
Definition w7 : bw := add_uniq {| b_comps := ∅; b_uniqs := ∅; b_next := 0%N |} 7.

Example C75_example :
  dsys_info false sys_a =
    [{| t_storage := sid_comp 0; t_excl := true; t_safe := true |};
     {| t_storage := sid_uniq 7; t_excl := false; t_safe := true |};
     {| t_storage := sid_comp 1; t_excl := false; t_safe := true |}] ∧
  (∃ tr s r g, b_reach (λ _, true) (d_start w7 [sys_a; sys_b]) tr s ∧ b_runs s !! 0 = Some r ∧
     g ∈ r_guards r ∧ g = (CComp WNone 0, true)) ∧
  (* [sys_b] comes first and holds the component: the option in [outer] is None *)
  (∃ tr s r, b_reach (λ _, true) (d_start w7 [sys_a; sys_b]) tr s ∧ b_runs s !! 0 = Some r ∧
     (0, EvErr EBorrow) ∈ tr ∧ finished (r_prog r)) ∧
  marked_default mark ∧ inside (VComp WNone true 0 no_trk) inner ∧
  first_track [CAttr; CTrack [TkInsertion; TkPunct; TkAll]] [TkInsertion; TkPunct; TkAll] ∧
  expand_component [CAttr; CTrack [TkInsertion; TkPunct; TkAll]] = Some TAll.
Proof.
  assert (marked_default mark) as Hm.
  { eexists _, [], _, []. split_and!; [by left|done|done|done|constructor]. }
  split_and!; [vm_compute; reflexivity| | |done| |by exists [CAttr], []; split; [|repeat constructor]|done].
  - set (is := replicate 8 0).
    eexists (exec_trace (λ _, true) (d_start w7 [sys_a; sys_b]) is),
      (exec_state (λ _, true) (d_start w7 [sys_a; sys_b]) is), _, _.
    split; [apply exec_reach; vm_compute; reflexivity|]. split; [vm_compute; reflexivity|].
    split; [|reflexivity]. cbn [r_guards]. apply elem_of_list_In. vm_compute. tauto.
  - set (is := replicate 3 1 ++ replicate 20 0).
    exists (exec_trace (λ _, true) (d_start w7 [sys_a; sys_b]) is),
      (exec_state (λ _, true) (d_start w7 [sys_a; sys_b]) is). eexists.
    split; [apply exec_reach; vm_compute; reflexivity|]. split; [vm_compute; reflexivity|].
    split; [|exact I]. apply elem_of_list_In. vm_compute. tauto.
  - eapply in_struct; [by left| |constructor]. intros [_ (? & ? & ? & ? & H & _)]. by apply elem_of_nil in H.
Qed.

(** The workload of C63's example with parameters in structs. *)
Definition dvs0 : dsys :=
  {| d_params := [DPView (DStruct true [([], DLeaf (VComp WNone false 1 track_ins));
                                        (mark, DLeaf (VComp WNone true 1 no_trk));
                                        ([], DOption (DLeaf (VUniq WNone false 5)))]);
                  DPView (DLeaf (VEnt false))];
     d_acts := [] |}.
Definition dvs1 : dsys :=
  {| d_params := [DPStruct false [([], DPView (DLeaf (VComp WNone false 1 no_trk)));
                                  (mark, DPStruct true [([], DPView (DLeaf (VComp WNone true 2 track_mod)))]);
                                  ([], DPOther (POrInit false 5))]];
     d_acts := [BInit 2; BSet 2] |}.
Definition dvs2 : dsys := {| d_params := [DPView (DLeaf (VComp WSend true 3 no_trk))]; d_acts := [] |}.
Definition dvsys (i : nat) : dsys := match i with 0 => dvs0 | 1 => dvs1 | _ => dvs2 end.
Lemma dvsys_apart i : apart (dvsys i) = vsys i.
Proof. by destruct i as [|[|i]]. Qed.

(** The conditions of C75_batch_never_refused_partial are met (those that do not mention the systems
    are in C63_case). *)
Example C75_case :
  (∀ i x, wl_systems vex !! i = Some x →
     w_borrows x = dsys_info true (dvsys i) ∧ system_valid (w_borrows x) = true ∧
     (∀ q p, q ∈ d_params (dvsys i) → p ∈ dparam_flat q → param_info true p ≠ []) ∧
     NoDup (sys_xreads (s_params (apart (dvsys i)))) ∧
     ∀ T v, (T, v) ∈ sys_uniqs (s_params (apart (dvsys i))) → ∃ n, b_uniqs w5 !! T = Some (n, v)) ∧
  apply_tracking true w5
    (flat_map (λ i, dsys_tracking (dvsys i)) (seq 0 (length (wl_systems vex)))) = inl w5t ∧
  (∃ tr s, b_reach on_main (d_start w5t (map dvsys [0; 1; 2])) tr s ∧
     map r_prog (b_runs s) = [IDone; IDone; IDone]).
Proof.
  destruct C63_case as (_ & _ & _ & Hs & Ht & _). split_and!.
  - intros i x Hx. destruct (Hs i x Hx) as (HB & Hv & Hp & Hxr & Hu). rewrite dvsys_apart.
    split_and!; [|done| |done|done].
    + rewrite HB, <-dvsys_apart. by destruct (C75_declares_apart true (dvsys i)) as [-> _].
    + intros q p Hq Hpq. refine (proj1 (Forall_forall _ _) Hp p _). rewrite <-dvsys_apart. unfold apart. cbn [s_params].
      apply elem_of_list_In, in_flat_map. exists q. split; by apply elem_of_list_In.
  - exact Ht.
  - exists (exec_trace on_main (d_start w5t (map dvsys [0; 1; 2])) vex_schedule),
      (exec_state on_main (d_start w5t (map dvsys [0; 1; 2])) vex_schedule).
    split; [apply exec_reach; vm_compute; reflexivity|vm_compute; reflexivity].
Qed.

Print Assumptions C75_skipped_fields.
Print Assumptions C75_declares.
Print Assumptions C75_declares_apart.
Print Assumptions C75_runs_apart.
Print Assumptions C75_held_is_declared.
Print Assumptions C75_finished_holds_nothing.
Print Assumptions C75_batch_never_refused_partial.
Print Assumptions C75_component_partial.
Print Assumptions C75_component_errors.
Print Assumptions C75_modification_and_removal_refuted.
Print Assumptions C75_second_attribute_refuted.
Print Assumptions C75_tuple_default_refuted.
