(** C77: a workload that was added has the tracking its systems need for as long as the world lives, and
    adding is all or nothing. *)
From stdpp Require Import prelude list gmap.
From Coq Require Import NArith.
From Verif Require Import Sched SchedSpec ViewTypes PropsSched2 PropsSched3 PropsParams AddWorkload.
Local Open Scope nat_scope.

(** * The terms of the claims *)

(** The four things a storage may track. *)
Inductive what := Insertion | Modification | Deletion | Removal.
Definition flag (i : what) (t : trk) : bool :=
  let '(a, b, c, d) := t in
  match i with Insertion => a | Modification => b | Deletion => c | Removal => d end.

(** The storage exists and tracks [i]. *)
Definition tracks (s : bw) (v : wrap) (T : N) (i : what) : Prop :=
  ∃ t, b_comps s !! (v, T) = Some t ∧ flag i t = true.

(** A view among the parameters of a system, in tuples and options too. *)
Inductive within (u : view) : view → Prop :=
| W_here : within u u
| W_option w : within u w → within u (VOption w)
| W_tuple w ws : w ∈ ws → within u w → within u (VTuple ws).

(** A view of the components [T] asks for [i]. *)
Definition wants (ps : list param) (v : wrap) (T : N) (i : what) : Prop :=
  ∃ p m tr, PView p ∈ ps ∧ within (VComp v m T tr) p ∧ flag i tr = true.
Definition needs (par : N → list param) (wl : workload) (v : wrap) (T : N) (i : what) : Prop :=
  ∃ x, x ∈ wl_systems wl ∧ wants (par (w_type x)) v T i.

(** The component storages of these types are replaced. *)
Definition replaces (o : aop) (v : wrap) (T : N) : Prop :=
  match o with OCloneOver ts => ∃ tr, (v, T, tr) ∈ ts | _ => False end.

(** * Lemmas *)

Lemma within_tracking v T tr p :
  (v, T, tr) ∈ view_tracking p ↔ ∃ m, within (VComp v m T tr) p.
Proof.
  split.
  - induction p as [|m|w m T' tr'|w m T'|p IH|ps IH] using view_ind'; cbn [view_tracking]; intros H.
    + by apply elem_of_nil in H.
    + by apply elem_of_nil in H.
    + apply elem_of_list_singleton in H as [= -> -> ->]. exists m. constructor.
    + by apply elem_of_nil in H.
    + destruct (IH H) as [m Hm]. exists m. by constructor.
    + apply elem_of_list_In, in_flat_map in H as (p & Hp & H). apply elem_of_list_In in Hp, H.
      rewrite Forall_forall in IH. destruct (IH p Hp H) as [m Hm]. exists m. by eapply W_tuple.
  - intros [m H]. induction H as [|w H IH|w ws Hw H IH]; cbn [view_tracking].
    + by apply elem_of_list_singleton.
    + done.
    + apply elem_of_list_In, in_flat_map. exists w. split; by apply elem_of_list_In.
Qed.
Lemma wants_tracking ps v T i :
  wants ps v T i ↔ ∃ tr, (v, T, tr) ∈ sys_tracking ps ∧ flag i tr = true.
Proof.
  unfold wants, sys_tracking. split.
  - intros (p & m & tr & Hp & Hw & Hf). exists tr. split; [|done].
    apply elem_of_list_In, in_flat_map. exists (PView p). split; [by apply elem_of_list_In|].
    apply elem_of_list_In. cbn [param_tracking]. apply within_tracking. by exists m.
  - intros (tr & H & Hf). apply elem_of_list_In, in_flat_map in H as ([p|m|m T'|m T'] & Hp & H); [|done..].
    apply elem_of_list_In in Hp, H. cbn [param_tracking] in H. apply within_tracking in H as [m H].
    by exists p, m, tr.
Qed.
Lemma needs_tracking par wl v T i :
  needs par wl v T i ↔ ∃ tr, (v, T, tr) ∈ wl_tracking par wl ∧ flag i tr = true.
Proof.
  unfold needs, wl_tracking. split.
  - intros (x & Hx & Hw). apply wants_tracking in Hw as (tr & Ht & Hf). exists tr. split; [|done].
    apply elem_of_list_In, in_flat_map. exists x. split; by apply elem_of_list_In.
  - intros (tr & H & Hf). apply elem_of_list_In, in_flat_map in H as (x & Hx & H).
    exists x. split; [by apply elem_of_list_In|]. apply wants_tracking. exists tr. split; [by apply elem_of_list_In|done].
Qed.

Lemma flag_or i a b : flag i (trk_or a b) = flag i a || flag i b.
Proof. by destruct a as [[[]]], b as [[[]]], i. Qed.
Lemma flag_no i : flag i no_trk = false.
Proof. by destruct i. Qed.
Lemma trk_le_flags a b : trk_le a b = true ↔ ∀ i, flag i a = true → flag i b = true.
Proof.
  destruct a as [[[a1 a2] a3] a4], b as [[[b1 b2] b3] b4]. split.
  - intros H i. unfold trk_le in H. rewrite !andb_true_iff in H. destruct H as [[[H1 H2] H3] H4].
    destruct i; cbn [flag]; [by destruct a1, b1|by destruct a2, b2|by destruct a3, b3|by destruct a4, b4].
  - intros H. pose proof (H Insertion). pose proof (H Modification). pose proof (H Deletion).
    pose proof (H Removal). cbn [flag] in *. unfold trk_le.
    destruct a1, a2, a3, a4, b1, b2, b3, b4; cbn; try done; naive_solver.
Qed.

(** Borrowing a view changes no flag. *)
Lemma attempt_comps home gs s r k t :
  b_comps s !! k = Some t → b_comps (attempt home gs s r).1 !! k = Some t.
Proof.
  intros H. destruct r as [m|m|v m T tr|v m T]; cbn [attempt]; try done.
  - destruct (b_comps s !! (v, T)) as [t'|] eqn:E; [done|]. destruct (negb home && _); [done|].
    cbn [fst b_comps]. rewrite lookup_insert_ne; [done|congruence].
  - by destruct (b_uniqs s !! T) as [[g w]|].
Qed.
Lemma attempt_tracks home gs s r v T i : tracks (attempt home gs s r).1 v T i ↔ tracks s v T i.
Proof.
  split; [|intros (t & Ht & Hf); exists t; split; [by apply attempt_comps|done]].
  intros (t & Ht & Hf). destruct r as [m|m|u m U tr|u m U]; cbn [attempt] in Ht; try by exists t.
  - destruct (b_comps s !! (u, U)) as [t'|] eqn:E; [by exists t|].
    destruct (negb home && _); [by exists t|]. cbn [fst b_comps] in Ht.
    destruct (decide ((u, U) = (v, T))) as [He|He].
    + rewrite He, lookup_insert in Ht. injection Ht as <-. by rewrite flag_no in Hf.
    + rewrite lookup_insert_ne in Ht by done. by exists t.
  - destruct (b_uniqs s !! U) as [[g w]|]; by exists t.
Qed.
Lemma enable_tracks s u U tr v T i :
  tracks (enable s u U tr) v T i ↔ tracks s v T i ∨ ((u, U) = (v, T) ∧ flag i tr = true).
Proof.
  unfold tracks, enable. cbn [b_comps]. destruct (decide ((u, U) = (v, T))) as [He|He].
  - injection He as -> ->. rewrite lookup_insert. split.
    + intros (t & [= <-] & Hf). rewrite flag_or, orb_true_iff in Hf. destruct Hf as [Hf|Hf]; [|by right].
      left. destruct (b_comps s !! (v, T)) as [t|]; [by exists t|]. by destruct i.
    + intros H. eexists. split; [done|]. rewrite flag_or, orb_true_iff.
      destruct H as [(t & -> & Hf)|[_ Hf]]; [by left|by right].
  - rewrite lookup_insert_ne by done. naive_solver.
Qed.

Lemma enable_one_tracks home gs s u U tr s' e v T i :
  enable_one home gs s (u, U, tr) = (s', e) →
  tracks s' v T i ↔ tracks s v T i ∨ (e = None ∧ (u, U) = (v, T) ∧ flag i tr = true).
Proof.
  unfold enable_one. pose proof (attempt_tracks home gs s (RComp u true U no_trk) v T i) as Ha.
  destruct (attempt _ _ _ _) as [s1 [g|e1|]]; cbn [fst] in Ha; intros [= <- <-].
  - rewrite enable_tracks, Ha. naive_solver.
  - rewrite Ha. naive_solver.
  - rewrite Ha. naive_solver.
Qed.
Lemma enable_all_grows home gs fs : ∀ s s' e v T i,
  enable_all home gs s fs = (s', e) → tracks s v T i → tracks s' v T i.
Proof.
  induction fs as [|[[u U] tr] fs IH]; intros s s' e v T i; cbn [enable_all]; [by intros [= <- _]|].
  destruct (enable_one home gs s (u, U, tr)) as [s1 [e1|]] eqn:E;
    pose proof (enable_one_tracks _ _ _ _ _ _ _ _ v T i E) as H1.
  - intros [= <- <-] H. apply H1. by left.
  - intros Ha H. eapply IH; [exact Ha|]. apply H1. by left.
Qed.
(** A flag that is set was set before or was asked for. *)
Lemma enable_all_sound home gs fs : ∀ s s' e v T i,
  enable_all home gs s fs = (s', e) → tracks s' v T i →
  tracks s v T i ∨ ∃ tr, (v, T, tr) ∈ fs ∧ flag i tr = true.
Proof.
  induction fs as [|[[u U] tr] fs IH]; intros s s' e v T i; cbn [enable_all]; [intros [= <- _]; by left|].
  destruct (enable_one home gs s (u, U, tr)) as [s1 [e1|]] eqn:E;
    pose proof (enable_one_tracks _ _ _ _ _ _ _ _ v T i E) as H1.
  - intros [= <- <-] H. apply H1 in H as [H|(? & _)]; [by left|done].
  - intros Ha H. destruct (IH _ _ _ _ _ _ Ha H) as [H2|(tr' & Hi & Hf)].
    + apply H1 in H2 as [H2|(_ & He & Hf)]; [by left|]. injection He as -> ->. right.
      exists tr. split; [constructor|done].
    + right. exists tr'. split; [by constructor|done].
Qed.
Lemma enable_all_complete home gs fs : ∀ s s' v T tr i,
  enable_all home gs s fs = (s', None) → (v, T, tr) ∈ fs → flag i tr = true → tracks s' v T i.
Proof.
  induction fs as [|[[u U] tr'] fs IH]; intros s s' v T tr i; cbn [enable_all].
  { intros _ H. by apply elem_of_nil in H. }
  destruct (enable_one home gs s (u, U, tr')) as [s1 [e1|]] eqn:E; [done|].
  pose proof (enable_one_tracks _ _ _ _ _ _ _ _ v T i E) as H1. intros Ha Hi Hf.
  apply elem_of_cons in Hi as [He|Hi]; [|by eapply IH].
  injection He as -> -> ->. eapply enable_all_grows; [exact Ha|]. apply H1. by right.
Qed.
(** Also with nothing to track, the storages of the views are there. *)
Lemma enable_all_there home gs fs : ∀ s s' e k,
  enable_all home gs s fs = (s', e) → is_Some (b_comps s !! k) → is_Some (b_comps s' !! k).
Proof.
  induction fs as [|[[u U] tr] fs IH]; intros s s' e k; cbn [enable_all]; [by intros [= <- _]|].
  assert (∀ s1 e1, enable_one home gs s (u, U, tr) = (s1, e1) → is_Some (b_comps s !! k) →
    is_Some (b_comps s1 !! k)) as Hone.
  { intros s1 e1. unfold enable_one. pose proof (attempt_comps home gs s (RComp u true U no_trk) k) as Ha.
    destruct (attempt _ _ _ _) as [s2 [g|e2|]]; cbn [fst] in Ha; intros [= <- <-] [t Ht]; apply Ha in Ht; [|by exists t..].
    unfold enable. cbn [b_comps]. destruct (decide ((u, U) = k)) as [->|Hne].
    - rewrite lookup_insert. by eexists.
    - rewrite lookup_insert_ne by done. by exists t. }
  destruct (enable_one home gs s (u, U, tr)) as [s1 [e1|]] eqn:E.
  - intros [= <- <-]. by eapply Hone.
  - intros Ha H. eapply IH; [exact Ha|]. by eapply Hone.
Qed.

(** The borrow of a component storage without tracking fails as borrowed or on the wrong thread only. *)
Lemma enable_one_err home gs s f s' e : enable_one home gs s f = (s', Some e) → e = EBorrow ∨ e = EThread.
Proof.
  destruct f as [[u U] tr]. unfold enable_one. cbn [attempt]. unfold try_cell.
  assert (trk_le no_trk no_trk = true) as Hn by done.
  assert (∀ t, trk_le no_trk t = true) as Ht by (by intros [[[]]]).
  destruct (b_comps s !! (u, U)) as [t|].
  - destruct (access_of u true home) as [a|]; [|intros [= <- <-]; by right].
    destruct (blocked gs (CComp u U) a); [intros [= <- <-]; by left|]. by rewrite Ht.
  - destruct (negb home && _); [intros [= <- <-]; by right|].
    destruct (access_of u true home) as [a|]; [|intros [= <- <-]; by right].
    destruct (blocked gs (CComp u U) a); [intros [= <- <-]; by left|]. by rewrite Hn.
Qed.
Lemma enable_all_err home gs fs : ∀ s s' e, enable_all home gs s fs = (s', Some e) → e = EBorrow ∨ e = EThread.
Proof.
  induction fs as [|f fs IH]; intros s s' e; cbn [enable_all]; [done|].
  destruct (enable_one home gs s f) as [s1 [e1|]] eqn:E.
  - intros [= <- <-]. by eapply enable_one_err.
  - apply IH.
Qed.

(** * Adding *)

Theorem C77_added par home sb gs wl st st' :
  add_to_world par home sb gs wl st = Some (st', Added) →
  sc_workload (wl_name wl) (a_sched st) = None ∧
  is_Some (sc_workload (wl_name wl) (a_sched st')) ∧ is_Some (a_infos st' !! wl_name wl) ∧
  (∀ l, l ≠ wl_name wl →
     sc_workload l (a_sched st') = sc_workload l (a_sched st) ∧ a_infos st' !! l = a_infos st !! l) ∧
  (∀ v T i, tracks (a_world st') v T i ↔ tracks (a_world st) v T i ∨ needs par wl v T i) ∧
  b_uniqs (a_world st') = b_uniqs (a_world st).
Proof.
  unfold add_to_world, sc_workload. destruct sb; [done|].
  destruct (create_workload wl (a_sched st)) as [[sc [e|[[info ba] order]]]|] eqn:Ec; [done| |done].
  destruct (try_cell gs CAll WNone false home) as [g|e|]; [|done..].
  destruct (enable_all _ _ _ _) as [w [e|]] eqn:Ee; [by destruct e|]. intros [= <-].
  destruct (create_workloads _ _ _ _ Ec) as [(_ & _ & Hx)|(x & [= <-] & Hn & Hw & _)]; [by destruct (Hx (info, ba, order))|].
  cbn [a_sched a_infos a_world]. rewrite Hw. split_and!.
  - done.
  - rewrite lookup_insert. by eexists.
  - rewrite lookup_insert. by eexists.
  - intros l Hl. by rewrite !lookup_insert_ne.
  - intros v T i. rewrite needs_tracking. split.
    + intros H. by eapply enable_all_sound.
    + intros [H|(tr & H & Hf)]; [by eapply enable_all_grows|by eapply enable_all_complete].
  - clear -Ee. revert Ee. generalize (a_world st) as s. induction (wl_tracking par wl) as [|f fs IH]; intros s.
    + by intros [= <-].
    + cbn [enable_all]. destruct (enable_one home (gs ++ [g]) s f) as [s1 [e1|]] eqn:E; [done|].
      intros Ha. rewrite (IH _ Ha). destruct f as [[u U] tr]. unfold enable_one in E. cbn [attempt] in E.
      destruct (b_comps s !! (u, U)) as [t|].
      * destruct (try_cell _ _ _ _ _); [|done..]. destruct (trk_le no_trk t); [|done]. by injection E as <-.
      * destruct (negb home && _); [done|]. destruct (try_cell _ _ _ _ _); [|done..].
        destruct (trk_le no_trk no_trk); [|done]. by injection E as <-.
Qed.

(** The branch that is thought to be unreachable is. *)
Theorem C77_never_unreachable par home sb gs wl st st' out :
  add_to_world par home sb gs wl st = Some (st', out) → out ≠ Unreachable.
Proof.
  unfold add_to_world. destruct sb; [by intros [= <- <-]|].
  destruct (create_workload wl (a_sched st)) as [[sc [e|[[info ba] order]]]|]; [by intros [= <- <-]| |done].
  destruct (try_cell gs CAll WNone false home) as [g|e|]; [|by intros [= <- <-]..].
  destruct (enable_all _ _ _ _) as [w [e|]] eqn:Ee; [|by intros [= <- <-]].
  intros [= <- <-]. by destruct (enable_all_err _ _ _ _ _ _ Ee) as [-> | ->].
Qed.

(** The table of functions only grows: the systems of a workload that was refused stay in it. *)
Lemma insert_systems_grows ss : ∀ f f' ps, insert_systems ss f = (f', ps) →
  f_systems f `prefix_of` f_systems f' ∧ (∀ ty i, f_lookup f !! ty = Some i → f_lookup f' !! ty = Some i).
Proof.
  induction ss as [|s ss IH]; intros f f' ps; cbn [insert_systems]; [by intros [= <- _]|].
  destruct (place_sys s f) as [f1 p] eqn:E. destruct (insert_systems ss f1) as [f2 ps'] eqn:E2.
  intros [= <- <-]. destruct (IH _ _ _ E2) as [Hp Hl].
  unfold place_sys, fn_index in E. destruct (f_lookup f !! w_type s) eqn:El; injection E as <- _; [done|].
  cbn [f_systems f_lookup] in *. split.
  - etrans; [|exact Hp]. by apply prefix_app_r.
  - intros ty i Hi. apply Hl. rewrite lookup_insert_ne; [done|congruence].
Qed.

(** A refused workload leaves nothing but its systems in the table of functions, which is not observable.
    Missing: the workloads that are refused because tracking cannot be enabled, see
    [C77_half_added_refuted]. *)
Theorem C77_refused_unchanged_partial par home sb gs wl st st' e :
  add_to_world par home sb gs wl st = Some (st', Refused e) →
  e = ABorrow ∨ (∃ c, e = ACreate c) →
  sc_workloads (a_sched st') = sc_workloads (a_sched st) ∧ sc_default (a_sched st') = sc_default (a_sched st) ∧
  a_infos st' = a_infos st ∧ a_world st' = a_world st ∧
  f_systems (sc_fns (a_sched st)) `prefix_of` f_systems (sc_fns (a_sched st')) ∧
  (∀ ty i, f_lookup (sc_fns (a_sched st)) !! ty = Some i → f_lookup (sc_fns (a_sched st')) !! ty = Some i).
Proof.
  unfold add_to_world. destruct sb; [by intros [= <- <-]|].
  destruct (create_workload wl (a_sched st)) as [[sc [e1|[[info ba] order]]]|] eqn:Ec; [| |done].
  - intros [= <- <-] _. cbn [a_sched a_infos a_world].
    destruct (create_workloads _ _ _ _ Ec) as [(H1 & H2 & _)|(x & ? & _)]; [|done].
    split_and!; [done..| |]; unfold create_workload in Ec;
      (destruct (sc_workloads (a_sched st) !! wl_name wl); [by injection Ec as <- _|]);
      destruct (insert_systems (wl_systems wl) (sc_fns (a_sched st))) as [f ps] eqn:Ei;
      apply insert_systems_grows in Ei as [Hp Hl];
      (destruct (check_in ps) as [[]|]; [by injection Ec as <- _|]);
      (destruct (check_before _) as [[]|]; [by injection Ec as <- _|]);
      (destruct (check_after _) as [[]|]; [by injection Ec as <- _|]);
      (destruct (order_systems _ _) as [[e2|x]|]; [by injection Ec as <- _|done|done]).
  - destruct (try_cell gs CAll WNone false home) as [g|e1|].
    + destruct (enable_all _ _ _ _) as [w [e1|]]; [|done].
      destruct e1; intros [= <- <-]; naive_solver.
    + intros [= <- <-]; naive_solver.
    + intros [= <- <-]; naive_solver.
Qed.

(** Whatever comes of it: no tracking is lost, nothing is tracked that no system asked for. *)
Theorem C77_tracking_bounds par home sb gs wl st st' out v T i :
  add_to_world par home sb gs wl st = Some (st', out) →
  (tracks (a_world st) v T i → tracks (a_world st') v T i) ∧
  (tracks (a_world st') v T i → tracks (a_world st) v T i ∨ needs par wl v T i).
Proof.
  unfold add_to_world. destruct sb; [intros [= <- <-]; by split; [|left]|].
  destruct (create_workload wl (a_sched st)) as [[sc [e1|[[info ba] order]]]|]; [intros [= <- <-]; by split; [|left]| |done].
  destruct (try_cell gs CAll WNone false home) as [g|e1|]; [|intros [= <- <-]; by split; [|left]..].
  destruct (enable_all _ _ _ _) as [w e] eqn:Ee. intros H. assert (a_world st' = w) as ->.
  { destruct e; by injection H as <- _. }
  rewrite needs_tracking. split; [by eapply enable_all_grows|by eapply enable_all_sound].
Qed.

(** * Afterwards *)

Lemma a_step_tracks par st o v T i :
  ¬ replaces o v T → tracks (a_world st) v T i → tracks (a_world (a_step par st o)) v T i.
Proof.
  intros Hr H. destruct o as [home sb gs wl|l|old new|home gs r|U|U|U tr|home gs sw|ts]; cbn [a_step a_world a_sc a_with]; try done.
  - destruct (add_to_world par home sb gs wl st) as [[st' out]|] eqn:E; [|done].
    by apply (C77_tracking_bounds _ _ _ _ _ _ _ _ v T i E).
  - by apply attempt_tracks.
  - apply enable_tracks. by left.
  - unfold sw_apply. destruct (try_cell gs CAll WNone false home) as [g|e|]; [|done..].
    destruct (enable_all _ _ _ _) as [w e] eqn:Ee. by eapply enable_all_grows.
  - cbn [replaces] in Hr. revert H. generalize (a_world st) as s.
    assert (∀ tr, (v, T, tr) ∉ ts) as Hts by (intros tr Hi; apply Hr; by exists tr). clear Hr.
    induction ts as [|[[u U] tr] ts IH]; intros s H; [done|]. cbn [fold_left]. apply IH.
    + intros tr' Hi. apply (Hts tr'). by constructor.
    + destruct H as (t & Ht & Hf). exists t. split; [|done]. cbn [b_comps fst snd]. rewrite lookup_insert_ne; [done|].
      intros [= -> ->]. apply (Hts tr). constructor.
Qed.
Lemma a_run_tracks par os : ∀ st v T i,
  Forall (λ o, ¬ replaces o v T) os → tracks (a_world st) v T i → tracks (a_world (a_run par st os)) v T i.
Proof.
  induction os as [|o os IH]; intros st v T i HF H; [done|]. apply Forall_cons in HF as [H1 H2].
  cbn [a_run fold_left]. apply IH; [done|]. by apply a_step_tracks.
Qed.

(** ** While systems run *)

(** Every request of the instructions satisfies [P]. *)
Fixpoint prog_all (P : req → Prop) (p : prog) : Prop :=
  match p with
  | IDone | IFail _ | IPanicked => True
  | ITry r ok err => P r ∧ prog_all P ok ∧ ∀ e, prog_all P (err e)
  | IClone k | IPopTo _ k | IPopAt _ k | IAdd _ k | IBody k => prog_all P k
  end.

(** A request for components that tracks what the storage tracks. *)
Definition served (D : list (wrap * N * trk)) (r : req) : Prop :=
  match r with RComp v _ T tr => (v, T, tr) ∈ D | _ => True end.

Lemma cview_all (P : req → Prop) v : ∀ n ok err,
  (∀ D, D = view_tracking v → ∀ r, served D r → P r) →
  (∀ n, prog_all P (ok n)) → (∀ e, prog_all P (err e)) → prog_all P (cview v n ok err).
Proof.
  induction v as [|m|w m T tr|w m T|v IH|vs IH] using view_ind'; intros n ok err HP Hok Herr; cbn [cview leaf prog_all].
  - done.
  - split_and!; [by eapply HP|done|done].
  - split_and!; [|done|done]. eapply HP; [done|]. cbn. by apply elem_of_list_singleton.
  - split_and!; [by eapply HP|done|done].
  - apply IH; [done..|]. intros _. done.
  - assert (∀ D, D = flat_map view_tracking vs → ∀ r, served D r → P r) as HP' by exact HP. clear HP.
    generalize (n + 1) as k. revert HP'. induction IH as [|v vs Hv _ IHvs]; intros HP' k; cbn [foldr prog_all]; [done|].
    apply Hv.
    + intros D -> r Hr. eapply HP'; [done|]. destruct r as [| |u m U tr|]; try done. cbn [served flat_map] in *.
      apply elem_of_app. by left.
    + intros k'. apply IHvs. intros D -> r Hr. eapply HP'; [done|]. destruct r as [| |u m U tr|]; try done.
      cbn [served flat_map] in *. apply elem_of_app. by right.
    + intros e. cbn [prog_all]. apply Herr.
Qed.

Lemma cbody_all D ps acts : ∀ full n, prog_all (served D) (cbody ps acts full n).
Proof.
  induction acts as [|a acts IH]; intros full n; cbn [cbody]; [done|].
  destruct (ps !! bact_ix a) as [[v|m|m T|m T]|]; try apply IH.
  case_bool_decide; [apply IH|].
  destruct a; cbn [prog_all cview leaf]; repeat (split || intros []); try done; apply IH.
Qed.
Lemma cparams_all D ps acts qs : ∀ i full n,
  (∀ f, f ∈ sys_tracking qs → f ∈ D) → prog_all (served D) (cparams ps qs acts i full n).
Proof.
  induction qs as [|q qs IH]; intros i full n HD; cbn [cparams]; [apply cbody_all|].
  assert (∀ i full n, prog_all (served D) (cparams ps qs acts i full n)) as Hqs.
  { intros i' full' n'. apply IH. intros f Hf. apply HD. cbn [sys_tracking flat_map]. apply elem_of_app. by right. }
  destruct q as [v|m|m T|m T].
  - cbn [prog_all]. split_and!; [done| |done]. apply cview_all; [|done|done].
    intros D' -> r Hr. destruct r as [| |u m U tr|]; try done. cbn [served] in *. apply HD.
    cbn [sys_tracking flat_map param_tracking]. apply elem_of_app. by left.
  - cbn [prog_all]. split_and!; [done| |done]. apply Hqs.
  - cbn [prog_all cview leaf]. repeat (split || intros []); try done; try apply Hqs.
  - cbn [prog_all cview leaf]. repeat (split || intros []); try done; try apply Hqs.
Qed.

Lemma run_step_tracks home gs s r s' r' ev v T i :
  run_step home gs s r = Some (s', r', ev) → tracks s v T i → tracks s' v T i.
Proof.
  unfold run_step. intros E H. destruct (r_prog r) as [|e| |q ok err|k|n k|n k|U k|k]; try done.
  - pose proof (attempt_tracks home gs s q v T i) as Ha.
    destruct (attempt home gs s q) as [s1 a]. cbn [fst] in Ha. apply Ha in H.
    injection E as E. by destruct a; injection E as <- _ _.
  - by injection E as <- _ _.
  - by injection E as <- _ _.
  - by injection E as <- _ _.
  - by injection E as <- _ _.
  - by injection E as <- _ _.
Qed.

(** In a world that tracks what the views of system [p] ask for, whatever else is running, [p] is never
    told that tracking is not enabled. *)
Lemma never_etrack thr w0 ss p x tr s :
  ss !! p = Some x → (∀ v T i, wants (s_params x) v T i → tracks w0 v T i) →
  b_reach thr (b_start w0 ss) tr s → (p, EvErr ETrack) ∉ tr.
Proof.
  intros Hp Hw Hr. set (D := sys_tracking (s_params x)).
  assert ((∀ v T i, wants (s_params x) v T i → tracks (b_world s) v T i) ∧
    (∀ r, b_runs s !! p = Some r → prog_all (served D) (r_prog r)) ∧ (p, EvErr ETrack) ∉ tr) as (_ & _ & H); [|done].
  induction Hr as [|tr s i s' ev Hr IH Hs].
  - split_and!; [done| |by apply not_elem_of_nil]. intros r Hr. cbn [b_start b_runs] in Hr.
    change (map ?f ss) with (f <$> ss) in Hr. rewrite list_lookup_fmap, Hp in Hr. injection Hr as <-.
    cbn [r_prog]. by apply cparams_all.
  - destruct IH as (IHw & IHp & IHt). unfold b_step in Hs.
    destruct (b_runs s !! i) as [r|] eqn:Ei; [|done].
    destruct (run_step (thr i) (all_guards s) (b_world s) r) as [[[w' r'] ev']|] eqn:E; [|done].
    injection Hs as <- <-. cbn [b_world b_runs]. split_and!.
    + intros v T j Hj. eapply run_step_tracks; [exact E|]. by apply IHw.
    + intros r1 Hr1. destruct (decide (i = p)) as [->|Hne].
      * rewrite list_lookup_insert in Hr1 by (by eapply lookup_lt_Some). injection Hr1 as <-.
        specialize (IHp _ Ei). unfold run_step in E.
        destruct (r_prog r) as [|e| |q ok err|k|n k|n k|U k|k] eqn:Epr; try done; cbn [prog_all] in IHp.
        -- destruct IHp as (Hq & Hok & Herr). destruct (attempt _ _ _ _) as [s1 a]. injection E as E.
           by destruct a; injection E as _ <- _; cbn [r_prog prog_all].
        -- by injection E as _ <- _.
        -- injection E as _ <- _. by destruct (n <? _).
        -- by injection E as _ <- _.
        -- by injection E as _ <- _.
        -- by injection E as _ <- _.
      * rewrite list_lookup_insert_ne in Hr1 by done. by apply IHp.
    + intros Hin. apply elem_of_app in Hin as [Hin|Hin]; [done|]. apply elem_of_list_singleton in Hin as [= <- <-].
      specialize (IHp _ Ei). unfold run_step in E.
      destruct (r_prog r) as [|e| |q ok err|k|n k|n k|U k|k] eqn:Epr; try done; cbn [prog_all] in IHp.
      destruct IHp as (Hq & _). destruct (attempt (thr p) (all_guards s) (b_world s) q) as [s1 a] eqn:Ea.
      injection E as E. destruct a as [g|e|]; [done| |done]; injection E as _ _ ->.
      destruct q as [m|m|v m T tr'|v m T]; cbn [attempt] in Ea.
      * injection Ea as _ Ea. unfold try_cell in Ea. destruct (access_of _ _ _); [|done]. by destruct (blocked _ _ _).
      * injection Ea as _ Ea. unfold try_cell in Ea. destruct (access_of _ _ _); [|done]. by destruct (blocked _ _ _).
      * cbn [served] in Hq. assert (∀ j, flag j tr' = true → tracks (b_world s) v T j) as Htr.
        { intros j Hj. apply IHw, wants_tracking. by exists tr'. }
        assert (∀ t, b_comps (b_world s) !! (v, T) = Some t → trk_le tr' t = true) as Hle.
        { intros t Ht. apply trk_le_flags. intros j Hj. destruct (Htr j Hj) as (t' & Ht' & Hf). congruence. }
        destruct (b_comps (b_world s) !! (v, T)) as [t|] eqn:Ec.
        -- rewrite (Hle t eq_refl) in Ea. injection Ea as _ Ea. unfold try_cell in Ea.
           destruct (access_of _ _ _); [|done]. by destruct (blocked _ _ _).
        -- assert (trk_le tr' no_trk = true) as Hn.
           { apply trk_le_flags. intros j Hj. destruct (Htr j Hj) as (t' & Ht' & _). congruence. }
           rewrite Hn in Ea. destruct (negb (thr p) && _); [by injection Ea as _ Ea|]. injection Ea as _ Ea.
           unfold try_cell in Ea. destruct (access_of _ _ _); [|done]. by destruct (blocked _ _ _).
      * destruct (b_uniqs (b_world s) !! T) as [[g u]|]; [|by injection Ea as _ Ea]. injection Ea as _ Ea.
        unfold try_cell in Ea. destruct (access_of _ _ _); [|done]. destruct (blocked _ _ _); [done|].
        by case_bool_decide.
Qed.

(** From the moment the workload was added: whatever was done to the world since, whatever runs besides,
    no view of its systems is refused for a lack of tracking. Missing: conditions
    ([C77_condition_refuted]) and storages that were replaced ([C77_clone_over_refuted]). *)
Theorem C77_tracking_stays_partial par home sb gs wl st st' os x y thr ss p tr s :
  add_to_world par home sb gs wl st = Some (st', Added) →
  x ∈ wl_systems wl → s_params y = par (w_type x) →
  (∀ v T i, wants (par (w_type x)) v T i → Forall (λ o, ¬ replaces o v T) os) →
  ss !! p = Some y →
  b_reach thr (b_start (a_world (a_run par st' os)) ss) tr s →
  (p, EvErr ETrack) ∉ tr.
Proof.
  intros Ha Hx Hy Hos Hp. destruct (C77_added _ _ _ _ _ _ _ Ha) as (_ & _ & _ & _ & Ht & _).
  apply never_etrack with (x := y); [done|]. rewrite Hy. intros v T i Hw. apply a_run_tracks; [by eapply Hos|].
  apply Ht. right. by exists x.
Qed.

(** The same of [Workload::build] and [apply_tracking]. *)
Theorem C77_scheduled_partial par wl sw info home gs w w' st os x y thr ss p tr s :
  build par wl = Some (inr (sw, info)) →
  sw_apply home gs sw w = (w', None) →
  a_world st = w' →
  x ∈ wl_systems wl → s_params y = par (w_type x) →
  (∀ v T i, wants (par (w_type x)) v T i → Forall (λ o, ¬ replaces o v T) os) →
  ss !! p = Some y →
  b_reach thr (b_start (a_world (a_run par st os)) ss) tr s →
  (p, EvErr ETrack) ∉ tr.
Proof.
  intros Hb Ha Hst Hx Hy Hos Hp. apply never_etrack with (x := y); [done|]. rewrite Hy. intros v T i Hw.
  apply a_run_tracks; [by eapply Hos|]. rewrite Hst.
  unfold build in Hb. destruct (create_workload wl sc_new) as [[sc [e|[[i1 ba] o1]]]|]; [done| |done].
  injection Hb as <- _. unfold sw_apply in Ha. cbn [sw_tracking] in Ha.
  destruct (try_cell gs CAll WNone false home) as [g|e|]; [|done..].
  assert (needs par wl v T i) as Hn by (by exists x). apply needs_tracking in Hn as (tr' & Hin & Hf).
  by eapply enable_all_complete.
Qed.

(** Building is adding to a world that has no workload: the same error or the same batches. *)
Theorem C77_build_as_added par home wl w out :
  build par wl = Some out →
  match out with
  | inl e => ∃ st, add_to_world par home false [] wl {| a_sched := sc_new; a_infos := ∅; a_world := w |} =
               Some (st, Refused (ACreate e))
  | inr (sw, info) =>
      ∃ st r, add_to_world par home false [] wl {| a_sched := sc_new; a_infos := ∅; a_world := w |} = Some (st, r) ∧
        sc_fns (a_sched st) = sw_fns sw ∧ sc_workload (wl_name wl) (a_sched st) = Some (sw_batches sw) ∧
        a_world st = (sw_apply home [] sw w).1 ∧
        (r = Added ↔ (sw_apply home [] sw w).2 = None) ∧ (r = Added → a_infos st = {[ wl_name wl := info ]})
  end.
Proof.
  unfold build, add_to_world. cbn [a_sched a_infos a_world].
  destruct (create_workload wl sc_new) as [[sc [e|[[info ba] order]]]|] eqn:Ec; [| |done]; intros [= <-].
  - by eexists.
  - destruct (create_workloads _ _ _ _ Ec) as [(_ & _ & Hx)|(x & [= <-] & Hn & Hw & _)]; [by destruct (Hx (info, ba, order))|].
    unfold sw_apply. cbn [sw_fns sw_batches sw_tracking].
    change (try_cell [] CAll WNone false home) with (AGot (CAll, false)). cbv beta iota. cbn [app].
    destruct (enable_all home [(CAll, false)] w (wl_tracking par wl)) as [w1 [e|]] eqn:Ee.
    + eexists _, _. split; [done|]. cbn [a_sched a_world fst snd]. unfold sc_workload. rewrite Hw, lookup_insert.
      split_and!; try done; destruct (enable_all_err _ _ _ _ _ _ Ee) as [-> | ->]; naive_solver.
    + eexists _, _. split; [done|]. cbn [a_sched a_world a_infos fst snd]. unfold sc_workload.
      rewrite Hw, lookup_insert. split_and!; try done.
Qed.

(** * What is listed *)

(** [World::workloads_info] lists the workloads of the world: as long as none is renamed and none is
    refused because tracking cannot be enabled. *)
Definition half_added (par : N → list param) (st : aw) (o : aop) : Prop :=
  match o with
  | OAdd home sb gs wl =>
      ∃ st' e, add_to_world par home sb gs wl st = Some (st', Refused e) ∧ (e = ATrackAll ∨ ∃ b, e = ATrack b)
  | ORename _ _ => True
  | _ => False
  end.
Fixpoint clean (par : N → list param) (st : aw) (os : list aop) : Prop :=
  match os with [] => True | o :: os => ¬ half_added par st o ∧ clean par (a_step par st o) os end.

Lemma listed_step par st o :
  (∀ l, is_Some (a_infos st !! l) ↔ is_Some (sc_workload l (a_sched st))) → ¬ half_added par st o →
  ∀ l, is_Some (a_infos (a_step par st o) !! l) ↔ is_Some (sc_workload l (a_sched (a_step par st o))).
Proof.
  intros H Hn l. destruct o as [home sb gs wl|d|old new|home gs r|U|U|U tr|home gs sw|ts]; cbn [a_step a_sched a_infos a_sc a_with];
    try apply H.
  - destruct (add_to_world par home sb gs wl st) as [[st' out]|] eqn:E; [|apply H]. destruct out as [|e|].
    + destruct (C77_added _ _ _ _ _ _ _ E) as (_ & H1 & H2 & H3 & _).
      destruct (decide (l = wl_name wl)) as [->|Hl]; [done|]. destruct (H3 l Hl) as [-> ->]. apply H.
    + destruct (C77_refused_unchanged_partial _ _ _ _ _ _ _ _ E) as (H1 & _ & H2 & _).
      * destruct e as [|c| |b]; [by left|right; by exists c|..]; exfalso; apply Hn; cbn [half_added];
          eexists _, _; (split; [exact E|]); [by left|right; by exists b].
      * unfold sc_workload. rewrite H1, H2. apply H.
    + by destruct (C77_never_unreachable _ _ _ _ _ _ _ _ E).
  - unfold sc_workload, set_default. destruct (sc_workloads (a_sched st) !! d); apply H.
  - by destruct Hn.
Qed.
Theorem C77_infos_list_workloads_partial par os :
  clean par aw_new os →
  ∀ l, is_Some (a_infos (a_run par aw_new os) !! l) ↔ is_Some (sc_workload l (a_sched (a_run par aw_new os))).
Proof.
  assert (∀ l, is_Some (a_infos aw_new !! l) ↔ is_Some (sc_workload l (a_sched aw_new))) as H.
  { intros l. unfold sc_workload. cbn [aw_new a_infos a_sched sc_new sc_workloads]. rewrite !lookup_empty. split; by intros [? ?]. }
  revert H. generalize aw_new as st. induction os as [|o os IH]; intros st H; [done|]. cbn [clean a_run fold_left].
  intros [H1 H2]. apply IH; [|done]. by apply listed_step.
Qed.

(** * Concrete cases *)

(** System 10: View<A, track::Insertion>. System 11: an option of a view in a tuple and a ViewMut<B,
    track::Modification>. Condition: View<C, track::Insertion>. *)
Definition p10 : list param := [PView (VComp WNone false 1 track_ins)].
Definition p11 : list param :=
  [PView (VTuple [VOption (VComp WNone false 1 no_trk); VComp WSend true 3 track_ins]); PView (VComp WNone true 2 track_mod)].
Definition par (ty : N) : list param := if bool_decide (ty = 10%N) then p10 else p11.
Definition wA : workload := nm 1 [sy 10 (sys_info true p10); sy 11 (sys_info true p11)].
Definition wB : workload := nm 2 [sy 10 (sys_info true p10)].
Definition out_of (r : option (aw * aout)) : option aout := snd <$> r.
Definition state_of (r : option (aw * aout)) : aw := match r with Some (st, _) => st | None => aw_new end.
Definition stA : aw := state_of (add_to_world par true false [] wA aw_new).

Lemma stA_out : out_of (add_to_world par true false [] wA aw_new) = Some Added.
Proof. vm_compute. reflexivity. Qed.
Lemma stA_added : add_to_world par true false [] wA aw_new = Some (stA, Added).
Proof.
  pose proof stA_out as H. unfold stA. unfold out_of in H. destruct (add_to_world par true false [] wA aw_new) as [[st out]|]; [|done].
  cbn in H. injection H as ->. reflexivity.
Qed.

(** The hypotheses of [C77_added] and [C77_tracking_stays_partial] are met; the claim is not vacuous: A and
    B are tracked now and were not. *)
Definition later : list aop :=
  [OBorrow false [] (RComp WNone false 1 no_trk); OAdd true false [(CComp WNone 1, false)] wB; OAddUnique 5;
   ORename (LName 1) (LName 3); OTrack 1 track_mod; OCloneOver [(WNone, 7%N, no_trk)]].
Example ex_C77_added :
  add_to_world par true false [] wA aw_new = Some (stA, Added) ∧
  tracks (a_world stA) WNone 1 Insertion ∧ tracks (a_world stA) WSend 3 Insertion ∧
  tracks (a_world stA) WNone 2 Modification ∧ ¬ tracks (a_world stA) WNone 2 Insertion ∧
  ¬ tracks (a_world aw_new) WNone 1 Insertion ∧
  (∀ v T i, wants (par 11) v T i → Forall (λ o, ¬ replaces o v T) later) ∧
  (∃ tr s, b_reach (λ _, true) (b_start (a_world (a_run par stA later)) [{| s_params := par 11; s_acts := [] |}]) tr s ∧
     map r_prog (b_runs s) = [IDone] ∧
     (0, EvBody [(CAll, false); (CComp WNone 1, false); (CAll, false); (CComp WSend 3, true); (CAll, false); (CComp WNone 2, true)]) ∈ tr).
Proof.
  split; [exact stA_added|]. split; [eexists; split; [vm_compute; reflexivity|reflexivity]|].
  split; [eexists; split; [vm_compute; reflexivity|reflexivity]|].
  split; [eexists; split; [vm_compute; reflexivity|reflexivity]|].
  assert (∀ T t, b_comps (a_world stA) !! (WNone, 2%N) = Some t → flag T t = flag T track_mod) as H2.
  { assert (b_comps (a_world stA) !! (WNone, 2%N) = Some track_mod) as E by (vm_compute; reflexivity).
    rewrite E. by intros T t [= <-]. }
  split; [intros (t & Ht & Hf); rewrite (H2 Insertion _ Ht) in Hf; discriminate|].
  split; [intros (t & Ht & Hf); discriminate|].
  split.
  { intros v T i (p & m & tr & Hp & Hw & Hf).
    assert ((v, T, tr) ∈ sys_tracking p11) as Hin.
    { assert (wants p11 v T i) as Hx by (by exists p, m, tr). unfold sys_tracking.
      apply elem_of_list_In, in_flat_map. exists (PView p). split; [by apply elem_of_list_In|].
      apply elem_of_list_In. cbn [param_tracking]. apply within_tracking. by exists m. }
    assert (T ≠ 7%N) as HT.
    { intros ->. cbn in Hin. repeat (apply elem_of_cons in Hin as [Hin|Hin]; [discriminate|]). by apply elem_of_nil in Hin. }
    repeat (apply Forall_cons; split); try (by intros []); [|apply Forall_nil_2]. cbn [replaces]. intros [t Ht].
    apply elem_of_list_singleton in Ht. congruence. }
  set (sx := b_start (a_world (a_run par stA later)) [{| s_params := par 11; s_acts := [] |}]).
  exists (exec_trace (λ _, true) sx (replicate 16 0)), (exec_state (λ _, true) sx (replicate 16 0)).
  split; [apply exec_reach; vm_compute; reflexivity|]. split; [vm_compute; reflexivity|].
  vm_compute. repeat (first [apply elem_of_list_here|apply elem_of_list_further]).
Qed.

(** Refusals, with nothing left behind: the name is taken, the scheduler is borrowed. *)
Example ex_C77_refused :
  out_of (add_to_world par true false [] wA stA) = Some (Refused (ACreate EExists)) ∧
  out_of (add_to_world par true true [] wB stA) = Some (Refused ABorrow) ∧
  out_of (add_to_world par true false [(CAll, true)] wB stA) = Some (Refused ATrackAll) ∧
  out_of (add_to_world par false false [] wA aw_new) = Some (Refused (ATrack EThread)).
Proof. split_and!; vm_compute; reflexivity. Qed.
(** Histories that are clean. *)
Example ex_C77_clean : clean par aw_new [OAdd true false [] wA; OAdd true true [] wB; OAdd true false [] wA; OSetDefault (LName 1)].
Proof.
  assert (a_step par aw_new (OAdd true false [] wA) = stA) as H1.
  { unfold a_step. rewrite stA_added. reflexivity. }
  assert (a_step par stA (OAdd true true [] wB) = stA) as H2 by reflexivity.
  unfold clean. rewrite H1, H2. split; [|split; [|split; [|split; [intros []|exact I]]]]; unfold half_added.
  - intros (st' & e & H & _). pose proof stA_out as Hx. rewrite H in Hx. discriminate Hx.
  - intros (st' & e & H & He).
    assert (out_of (add_to_world par true true [] wB stA) = Some (Refused ABorrow)) as Hx by reflexivity.
    rewrite H in Hx. injection Hx as ->. destruct He as [He|[b He]]; discriminate He.
  - intros (st' & e & H & He).
    assert (out_of (add_to_world par true false [] wA stA) = Some (Refused (ACreate EExists))) as Hx
      by (vm_compute; reflexivity).
    rewrite H in Hx. injection Hx as ->. destruct He as [He|[b He]]; discriminate He.
Qed.

(** Adding is not all or nothing: a view is alive while the workload is added. It is refused, because
    tracking cannot be enabled. Once the view is gone it cannot be added again, since it is there (it even
    is the default workload), it is not listed, and its system can never run: tracking is not enabled. *)
Theorem C77_half_added_refuted :
  ∃ st1 st2,
    add_to_world par true false [(CAll, false); (CComp WNone 1, false)] wB aw_new = Some (st1, Refused (ATrack EBorrow)) ∧
    is_Some (sc_workload (LName 2) (a_sched st1)) ∧ sc_default (a_sched st1) = LName 2 ∧
    a_infos st1 !! LName 2 = None ∧
    add_to_world par true false [] wB st1 = Some (st2, Refused (ACreate EExists)) ∧
    needs par wB WNone 1 Insertion ∧ ¬ tracks (a_world st2) WNone 1 Insertion ∧
    ∃ tr s, b_reach (λ _, true) (b_start (a_world st2) [{| s_params := par 10; s_acts := [] |}]) tr s ∧
      (0, EvErr ETrack) ∈ tr ∧ map r_prog (b_runs s) = [IFail ETrack].
Proof.
  set (gs := [(CAll, false); (CComp WNone 1, false)]).
  exists (state_of (add_to_world par true false gs wB aw_new)),
    (state_of (add_to_world par true false [] wB (state_of (add_to_world par true false gs wB aw_new)))).
  split; [vm_compute; reflexivity|]. split; [eexists; vm_compute; reflexivity|].
  split; [vm_compute; reflexivity|]. split; [vm_compute; reflexivity|]. split; [vm_compute; reflexivity|].
  split.
  { eexists. split; [vm_compute; apply elem_of_list_here|].
    eexists _, _, _. split; [vm_compute; apply elem_of_list_here|]. split; [apply W_here|reflexivity]. }
  split; [intros (t & Ht & Hf); vm_compute in Ht; injection Ht as <-; discriminate|].
  set (sx := b_start _ _).
  exists (exec_trace (λ _, true) sx (replicate 5 0)), (exec_state (λ _, true) sx (replicate 5 0)).
  split; [apply exec_reach; vm_compute; reflexivity|].
  split; [vm_compute; repeat (first [apply elem_of_list_here|apply elem_of_list_further])|vm_compute; reflexivity].
Qed.

(** The conditions of a workload: their tracking is not enabled. Here the world has added the workload, the
    condition of which is View<C, track::Insertion>, and nothing else was done. *)
Theorem C77_condition_refuted :
  ∃ wl cpar st, wl_run_if wl = Some (CBase 4) ∧ cpar = [PView (VComp WNone false 4 track_ins)] ∧
    add_to_world par true false [] wl aw_new = Some (st, Added) ∧
    ∃ tr s, b_reach (λ _, true) (b_start (a_world st) [{| s_params := cpar; s_acts := [] |}]) tr s ∧
      (0, EvErr ETrack) ∈ tr ∧ map r_prog (b_runs s) = [IFail ETrack].
Proof.
  set (wl := {| wl_name := LName 2; wl_tags := wl_tags wB; wl_systems := wl_systems wB; wl_run_if := Some (CBase 4);
                wl_before_all := []; wl_after_all := []; wl_overwritten := false; wl_req_before := [];
                wl_req_after := []; wl_barriers := [] |}).
  exists wl, [PView (VComp WNone false 4 track_ins)], (state_of (add_to_world par true false [] wl aw_new)).
  split; [reflexivity|]. split; [reflexivity|]. split; [vm_compute; reflexivity|].
  set (sx := b_start _ _).
  exists (exec_trace (λ _, true) sx (replicate 5 0)), (exec_state (λ _, true) sx (replicate 5 0)).
  split; [apply exec_reach; vm_compute; reflexivity|].
  split; [vm_compute; repeat (first [apply elem_of_list_here|apply elem_of_list_further])|vm_compute; reflexivity].
Qed.

(** The storages of another world are cloned over those of this one: the system of a workload that was
    added fails from then on. The storages of components that are not Send keep the tracking of their
    source. *)
Theorem C77_clone_over_refuted :
  ∃ st, add_to_world par true false [] wB aw_new = Some (st, Added) ∧
    (let st' := a_run par st [OCloneOver [(WNone, 1%N, track_ins); (WSend, 1%N, track_ins)]] in
     ¬ tracks (a_world st') WNone 1 Insertion ∧ tracks (a_world st') WSend 1 Insertion ∧
     ∃ tr s, b_reach (λ _, true) (b_start (a_world st') [{| s_params := par 10; s_acts := [] |}]) tr s ∧
       (0, EvErr ETrack) ∈ tr ∧ map r_prog (b_runs s) = [IFail ETrack]).
Proof.
  exists (state_of (add_to_world par true false [] wB aw_new)).
  split; [vm_compute; reflexivity|].
  split; [intros (t & Ht & Hf); vm_compute in Ht; injection Ht as <-; discriminate|].
  split; [eexists; split; [vm_compute; reflexivity|reflexivity]|].
  set (sx := b_start _ _).
  exists (exec_trace (λ _, true) sx (replicate 5 0)), (exec_state (λ _, true) sx (replicate 5 0)).
  split; [apply exec_reach; vm_compute; reflexivity|].
  split; [vm_compute; repeat (first [apply elem_of_list_here|apply elem_of_list_further])|vm_compute; reflexivity].
Qed.

(** A workload that was built fails without [apply_tracking]; with it, it runs, in another world too. *)
Example ex_C77_scheduled :
  ∃ sw info w', build par wB = Some (inr (sw, info)) ∧
    sw_apply true [] sw (a_world aw_new) = (w', None) ∧
    (∃ tr s, b_reach (λ _, true) (b_start (a_world aw_new) [{| s_params := par 10; s_acts := [] |}]) tr s ∧
       (0, EvErr ETrack) ∈ tr) ∧
    (∃ tr s, b_reach (λ _, true) (b_start w' [{| s_params := par 10; s_acts := [] |}]) tr s ∧
       map r_prog (b_runs s) = [IDone]).
Proof.
  destruct (build par wB) as [[e|[sw info]]|] eqn:Eb; [vm_compute in Eb; discriminate| |vm_compute in Eb; discriminate].
  assert (sw_tracking sw = [(WNone, 1%N, track_ins)]) as Hsw.
  { unfold build in Eb. destruct (create_workload wB sc_new) as [[sc [e|[[i1 ba] o1]]]|]; [done| |done].
    injection Eb as <- _. vm_compute. reflexivity. }
  exists sw, info, (sw_apply true [] sw (a_world aw_new)).1.
  assert (sw_apply true [] sw (a_world aw_new) =
    enable_all true [(CAll, false)] (a_world aw_new) [(WNone, 1%N, track_ins)]) as ->.
  { unfold sw_apply. by rewrite Hsw. }
  split; [reflexivity|]. split; [vm_compute; reflexivity|]. split.
  - set (sx := b_start _ _).
    exists (exec_trace (λ _, true) sx (replicate 3 0)), (exec_state (λ _, true) sx (replicate 3 0)).
    split; [apply exec_reach; vm_compute; reflexivity|].
    vm_compute; repeat (first [apply elem_of_list_here|apply elem_of_list_further]).
  - set (sx := b_start _ _).
    exists (exec_trace (λ _, true) sx (replicate 6 0)), (exec_state (λ _, true) sx (replicate 6 0)).
    split; [apply exec_reach; vm_compute; reflexivity|vm_compute; reflexivity].
Qed.

(** Renaming a workload does not rename what is listed. *)
Theorem C77_rename_infos_refuted :
  let st := a_run par aw_new [OAdd true false [] wB; ORename (LName 2) (LName 3)] in
  sc_workload (LName 2) (a_sched st) = None ∧ is_Some (a_infos st !! LName 2) ∧
  is_Some (sc_workload (LName 3) (a_sched st)) ∧ a_infos st !! LName 3 = None.
Proof.
  split; [vm_compute; reflexivity|]. split; [eexists; vm_compute; reflexivity|].
  split; [eexists; vm_compute; reflexivity|vm_compute; reflexivity].
Qed.

Print Assumptions C77_added.
Print Assumptions C77_never_unreachable.
Print Assumptions C77_refused_unchanged_partial.
Print Assumptions C77_tracking_bounds.
Print Assumptions C77_tracking_stays_partial.
Print Assumptions C77_scheduled_partial.
Print Assumptions C77_build_as_added.
Print Assumptions C77_infos_list_workloads_partial.
Print Assumptions C77_half_added_refuted.
Print Assumptions C77_condition_refuted.
Print Assumptions C77_clone_over_refuted.
Print Assumptions C77_rename_infos_refuted.
