(** Properties of the parameters of systems (C63): what a system borrows is what it declared, and the
    systems of a batch never refuse each other a borrow. *)
From stdpp Require Import prelude list gmap.
From Coq Require Import NArith.
From Verif Require Import Sched SchedSpec ViewTypes PropsSched PropsSched2 PropsSched3.
Local Open Scope nat_scope.

(** * Spec *)

(** The storage a cell belongs to. *)
Definition csid (c : cell) : storage :=
  match c with
  | CAll => SAll
  | CEnt => sid_ent
  | CComp _ T => sid_comp T
  | CUniq T _ => sid_uniq T
  end.

(** The guard is announced by the declaration [I]. *)
Definition announced (I : list tinfo) (g : cell * bool) : Prop :=
  ∃ t, t ∈ I ∧ t_storage t = csid g.1 ∧ t_excl t = g.2.

Definition finished (p : prog) : Prop :=
  match p with IDone | IFail _ | IPanicked => True | _ => False end.

(** What is held and what is declared, storage by storage; the shared borrow of all storages that
    comes with every view is not declared. *)
Definition held (gs : list (cell * bool)) : list (storage * bool) :=
  map (λ g, (csid g.1, g.2)) (filter (λ g, g ≠ (CAll, false)) gs).
Definition declares (I : list tinfo) : list (storage * bool) :=
  map (λ t, (t_storage t, t_excl t)) (filter (λ t, t_storage t ≠ SAll ∨ t_excl t = true) I).

(** The views that need the only guard of their cell even for shared access: those of the
    content that is not Sync. *)
Fixpoint view_xreads (v : view) : list (bool * N) :=
  match v with
  | VComp WSync false T _ => [(false, T)]
  | VUniq WSync false T => [(true, T)]
  | VOption v => view_xreads v
  | VTuple vs => flat_map view_xreads vs
  | _ => []
  end.
Definition param_xreads (p : param) : list (bool * N) :=
  match p with PView v => view_xreads v | _ => [] end.
Definition sys_xreads (ps : list param) : list (bool * N) := flat_map param_xreads ps.

(** The uniques a system needs, and how they have to be added. *)
Fixpoint view_uniqs (v : view) : list (N * wrap) :=
  match v with
  | VUniq w _ T => [(T, w)]
  | VOption v => view_uniqs v
  | VTuple vs => flat_map view_uniqs vs
  | _ => []
  end.
Definition param_uniqs (p : param) : list (N * wrap) :=
  match p with
  | PView v => view_uniqs v
  | PAll _ => []
  | POrDefault _ T => [(T, WNone)]
  | POrInit _ T => [(T, WNone)]
  end.
Definition sys_uniqs (ps : list param) : list (N * wrap) := flat_map param_uniqs ps.

(** * Induction over views *)

Section view_ind.
  Context (P : view → Prop)
    (H1 : P VNothing) (H2 : ∀ m, P (VEnt m)) (H3 : ∀ w m T tr, P (VComp w m T tr))
    (H4 : ∀ w m T, P (VUniq w m T)) (H5 : ∀ v, P v → P (VOption v))
    (H6 : ∀ vs, Forall P vs → P (VTuple vs)).
  Fixpoint view_ind' (v : view) : P v :=
    match v with
    | VNothing => H1
    | VEnt m => H2 m
    | VComp w m T tr => H3 w m T tr
    | VUniq w m T => H4 w m T
    | VOption v => H5 v (view_ind' v)
    | VTuple vs => H6 vs ((fix go (vs : list view) : Forall P vs :=
        match vs with [] => Forall_nil_2 P | v :: vs => Forall_cons_2 P v vs (view_ind' v) (go vs) end) vs)
    end.
End view_ind.


(** * What holds whatever happens *)

(** The number of guards a program counts on. *)
Fixpoint wf_prog (n : nat) (p : prog) : Prop :=
  match p with
  | IDone | IFail _ | IPanicked => n = 0
  | ITry _ ok err => wf_prog (n + 1) ok ∧ ∀ e, wf_prog n (err e)
  | IClone k => wf_prog (n + 1) k
  | IPopTo m k => m ≤ n ∧ wf_prog m k
  | IPopAt m k => m < n ∧ wf_prog (n - 1) k
  | IAdd _ k | IBody k => wf_prog n k
  end.

Lemma cview_wf v : ∀ n ok err,
  (∀ m, n ≤ m → wf_prog m (ok m)) → (∀ e, wf_prog n (err e)) → wf_prog (n + 1) (cview v n ok err).
Proof.
  induction v as [|m|w m T tr|w m T|v IH|vs IH] using view_ind'; intros n ok err Hok Herr;
    cbn [cview leaf wf_prog].
  1: split; [lia|]. 1: by apply Hok.
  1-3: split; [replace (n + 1 + 1) with (n + 2) by lia; apply Hok; lia|intros e; split; [lia|done]].
  - apply IH; [done|]. intros _. by apply Hok.
  - assert (∀ m, n < m → wf_prog m (foldr (λ v (rest : nat → prog) m,
      IClone (cview v m rest (λ e, IPopTo n (err e)))) (λ m, IPopAt n (ok (m - 1))) vs m)) as H.
    { induction IH as [|v vs Hv _ IHvs]; intros m Hm; cbn [foldr wf_prog].
      - split; [lia|]. apply Hok. lia.
      - apply Hv; [intros m' Hm'; apply IHvs; lia|]. intros e. cbn [wf_prog]. split; [lia|done]. }
    apply H. lia.
Qed.

Lemma give_up_wf n e : wf_prog n (give_up e).
Proof. cbn. split; [lia|done]. Qed.

Lemma cbody_wf ps acts : ∀ full n, wf_prog n (cbody ps acts full n).
Proof.
  induction acts as [|a acts IH]; intros full n; cbn [cbody wf_prog]; [split; [lia|done]|].
  destruct (ps !! bact_ix a) as [[v|m|m T|m T]|]; try apply IH.
  case_bool_decide; [apply IH|].
  assert (∀ missing, wf_prog n missing → wf_prog n (IClone (cview (VUniq WNone m T) n
    (λ n', cbody ps acts (bact_ix a :: full) n')
    (λ e, match e with EMissing => missing | _ => cbody ps acts full n end)))) as Hb.
  { intros missing Hm. cbn [wf_prog]. apply cview_wf; [intros; apply IH|]. intros []; (apply IH || done). }
  destruct a; cbn [wf_prog]; repeat (apply Hb || apply IH || cbn [wf_prog]).
Qed.

Lemma cparams_wf ps acts qs : ∀ i full n, wf_prog n (cparams ps qs acts i full n).
Proof.
  induction qs as [|q qs IH]; intros i full n; cbn [cparams]; [apply cbody_wf|].
  destruct q as [v|m|m T|m T]; cbn [wf_prog].
  - split; [|intros; apply give_up_wf]. apply cview_wf; [intros; apply IH|intros; apply give_up_wf].
  - split; [apply IH|intros; apply give_up_wf].
  - assert (wf_prog (n + 1) (cview (VUniq WNone m T) n (cparams ps qs acts (S i) full) give_up)) as Ha.
    { apply cview_wf; [intros; apply IH|intros; apply give_up_wf]. }
    split_and!; [lia|done| |intros; apply give_up_wf].
    intros []; try apply give_up_wf. exact Ha.
  - split; [|intros; apply give_up_wf].
    apply cview_wf; [intros; apply IH|]. intros []; try apply give_up_wf. apply IH.
Qed.

(** All requests of a program are for what is declared; [A]: the uniques it may add. *)
Definition req_ok (I : list tinfo) (r : req) : Prop :=
  match r with
  | RAll m => m = true → ∃ t, t ∈ I ∧ t_storage t = SAll ∧ t_excl t = true
  | REnt m => ∃ t, t ∈ I ∧ t_storage t = sid_ent ∧ t_excl t = m
  | RComp _ m T _ => ∃ t, t ∈ I ∧ t_storage t = sid_comp T ∧ t_excl t = m
  | RUniq _ m T => ∃ t, t ∈ I ∧ t_storage t = sid_uniq T ∧ t_excl t = m
  end.
Fixpoint req_prog (I : list tinfo) (p : prog) : Prop :=
  match p with
  | IDone | IFail _ | IPanicked => True
  | ITry r ok err => req_ok I r ∧ req_prog I ok ∧ ∀ e, req_prog I (err e)
  | IClone k | IPopTo _ k | IPopAt _ k | IAdd _ k | IBody k => req_prog I k
  end.

Lemma cview_req I v : ∀ n ok err,
  view_info v ⊆ I → (∀ m, req_prog I (ok m)) → (∀ e, req_prog I (err e)) → req_prog I (cview v n ok err).
Proof.
  induction v as [|m|w m T tr|w m T|v IH|vs IH] using view_ind'; intros n ok err HI Hok Herr;
    cbn [cview leaf req_prog req_ok]; try done.
  1-3: split_and!; [|apply Hok|done]; eexists; (split; [apply HI; by left|done]).
  - by apply IH.
  - cbn [view_info] in HI. generalize (n + 1) as m.
    induction IH as [|v vs Hv _ IHvs]; intros m; cbn [foldr req_prog]; [apply Hok|].
    cbn [flat_map] in HI. apply Hv; [set_solver|apply IHvs; set_solver|done].
Qed.

Lemma elem_of_sys_info tl ps p : p ∈ ps → param_info tl p ⊆ sys_info tl ps.
Proof.
  intros Hp t Ht. unfold sys_info. apply elem_of_list_In, in_flat_map.
  exists p. split; by apply elem_of_list_In.
Qed.

Lemma cbody_req tl ps acts : ∀ full n, req_prog (sys_info tl ps) (cbody ps acts full n).
Proof.
  induction acts as [|a acts IH]; intros full n; cbn [cbody req_prog]; [done|].
  destruct (ps !! bact_ix a) as [[v|m|m T|m T]|] eqn:E; try apply IH.
  case_bool_decide; [apply IH|].
  assert (∀ missing, req_prog (sys_info tl ps) missing → req_prog (sys_info tl ps)
    (IClone (cview (VUniq WNone m T) n (λ n', cbody ps acts (bact_ix a :: full) n')
    (λ e, match e with EMissing => missing | _ => cbody ps acts full n end)))) as Hb.
  { intros missing Hm. cbn [req_prog]. apply cview_req; [|intros; apply IH|intros []; (apply IH || done)].
    apply (elem_of_sys_info tl ps (POrInit m T)). by eapply elem_of_list_lookup_2. }
  destruct a; repeat (apply Hb || apply IH || cbn [req_prog]).
Qed.

Lemma cparams_req tl ps acts qs : ∀ i full n, qs ⊆ ps →
  req_prog (sys_info tl ps) (cparams ps qs acts i full n).
Proof.
  induction qs as [|q qs IH]; intros i full n Hq; cbn [cparams]; [apply cbody_req|].
  assert (q ∈ ps) as Hqp by (apply Hq; by left).
  pose proof (elem_of_sys_info tl ps q Hqp) as HI.
  assert (qs ⊆ ps) as Hqs by set_solver.
  destruct q as [v|m|m T|m T]; cbn [req_prog param_info req_ok] in *.
  - split_and!; [done| |done]. apply cview_req; [done|intros; by apply IH|done].
  - split_and!; [|by apply IH|done]. intros ->. eexists. split; [apply HI; by left|done].
  - assert (req_prog (sys_info tl ps)
      (cview (VUniq WNone m T) n (cparams ps qs acts (S i) full) give_up)) as Ha.
    { apply cview_req; [done|intros; by apply IH|done]. }
    split_and!; [done| |done|intros []; done|done].
    eexists; (split; [apply HI; by left|done]).
  - split_and!; [done| |done]. apply cview_req; [done|intros; by apply IH|].
    intros []; try done. by apply IH.
Qed.

(** What the answer to a request is about. *)
Lemma attempt_guard home gs w r w' g :
  attempt home gs w r = (w', AGot g) →
  match r with
  | RAll m => g = (CAll, m)
  | REnt m => g = (CEnt, m)
  | RComp v m T _ => g = (CComp v T, m)
  | RUniq v m T => ∃ n, b_uniqs w !! T = Some (n, v) ∧ g = (CUniq T n, m)
  end.
Proof.
  assert (∀ c v m a, try_cell gs c v m home = AGot a → a = (c, m)) as Ht.
  { intros c v m a. unfold try_cell, access_of.
    destruct v, m, home; try done; destruct (blocked _ _ _); try done; by intros [= <-]. }
  destruct r as [m|m|v m T tr|v m T]; cbn [attempt].
  - intros [= _ E]. by eapply Ht.
  - intros [= _ E]. by eapply Ht.
  - destruct (b_comps w !! (v, T)) as [t|].
    + intros [= _ E]. destruct (try_cell gs (CComp v T) v m home) eqn:E1; try done.
      destruct (trk_le tr t); [|done]. injection E as <-. by eapply Ht.
    + destruct (negb home && _); [done|]. intros [= _ E].
      destruct (try_cell gs (CComp v T) v m home) eqn:E1; try done.
      destruct (trk_le tr no_trk); [|done]. injection E as <-. by eapply Ht.
  - destruct (b_uniqs w !! T) as [[n v']|]; [|done]. intros [= _ E].
    destruct (try_cell gs (CUniq T n) v' m home) eqn:E1; try done.
    case_bool_decide; [|done]. injection E as <-. subst v'. exists n. split; [done|]. by eapply Ht.
Qed.

(** The guards of a run are announced, but for the shared borrow of all storages. *)
Definition guards_ok (I : list tinfo) (G : list (cell * bool)) : Prop :=
  ∀ g, g ∈ G → g ≠ (CAll, false) → announced I g.

Definition run_inv (I : list tinfo) (r : run) : Prop :=
  wf_prog (length (r_guards r)) (r_prog r) ∧ req_prog I (r_prog r) ∧ guards_ok I (r_guards r).

Lemma guards_ok_sub I G G' : G' ⊆ G → guards_ok I G → guards_ok I G'.
Proof. unfold guards_ok. set_solver. Qed.
Lemma take_sub {A} n (l : list A) : take n l ⊆ l.
Proof. intros x Hx. rewrite <-(take_drop n l). set_solver. Qed.
Lemma drop_sub {A} n (l : list A) : drop n l ⊆ l.
Proof. intros x Hx. rewrite <-(take_drop n l). set_solver. Qed.

Lemma run_step_inv I home gs w r w' r' ev :
  run_inv I r → run_step home gs w r = Some (w', r', ev) → run_inv I r'.
Proof.
  intros (Hwf & Hrq & HG) Hs. unfold run_step in Hs.
  destruct r as [p G]; cbn [r_prog r_guards] in *.
  destruct p as [|e| |q ok err|k|n k|n k|T k|k]; cbn [wf_prog req_prog] in *; try done.
  - destruct (attempt home gs w q) as [w1 a] eqn:E. destruct Hwf as [Hw1 Hw2], Hrq as (Hr1 & Hr2 & Hr3).
    injection Hs as Hs. destruct a as [g|e|]; injection Hs as <- <- <-; unfold run_inv; cbn [r_prog r_guards].
    + rewrite app_length. cbn [length]. split_and!; [done..|].
      intros g' Hg' Hne. apply elem_of_app in Hg' as [Hg'|Hg']; [by apply HG|].
      apply elem_of_list_singleton in Hg' as ->. apply attempt_guard in E.
      destruct q as [m|m|v m T tr|v m T]; cbn [req_ok] in Hr1; unfold announced.
      * subst g. destruct m; [|done]. destruct Hr1 as (t & ? & ? & ?); [done|]. by exists t.
      * subst g. by destruct Hr1 as (t & ? & ? & ?); exists t.
      * subst g. by destruct Hr1 as (t & ? & ? & ?); exists t.
      * destruct E as (n & _ & ->). by destruct Hr1 as (t & ? & ? & ?); exists t.
    + split_and!; [apply Hw2|apply Hr3|done].
    + cbn [wf_prog req_prog]. split_and!; [lia|done..].
  - injection Hs as <- <- <-. unfold run_inv; cbn [r_prog r_guards]. rewrite app_length. cbn [length].
    split_and!; [done..|]. intros g Hg Hne. apply elem_of_app in Hg as [Hg|Hg]; [by apply HG|].
    apply elem_of_list_singleton in Hg as ->. done.
  - destruct Hwf as [Hle Hwf]. destruct (n <? length G) eqn:E; injection Hs as <- <- <-; unfold run_inv;
      cbn [r_prog r_guards wf_prog req_prog].
    + apply Nat.ltb_lt in E. rewrite take_length. split_and!; [lia|done..|].
      eapply guards_ok_sub; [apply take_sub|done].
    + apply Nat.ltb_ge in E. replace (length G) with n by lia. done.
  - destruct Hwf as [Hlt Hwf]. injection Hs as <- <- <-. unfold run_inv; cbn [r_prog r_guards].
    rewrite app_length, take_length, drop_length. split_and!; [|done|].
    + by replace (n `min` length G + (length G - S n)) with (length G - 1) by lia.
    + eapply guards_ok_sub; [|done]. intros g Hg.
      apply elem_of_app in Hg as [Hg|Hg]; [by eapply take_sub|by eapply drop_sub].
  - injection Hs as <- <- <-. done.
  - injection Hs as <- <- <-. done.
Qed.

Lemma reach_length thr s0 tr s : b_reach thr s0 tr s → length (b_runs s) = length (b_runs s0).
Proof.
  induction 1 as [|tr s i s' ev _ IH Hs]; [done|]. unfold b_step in Hs.
  destruct (b_runs s !! i); [|done]. destruct (run_step _ _ _ _) as [[[w' r'] ev']|]; [|done].
  injection Hs as <- <-. cbn [b_runs]. by rewrite insert_length.
Qed.

Lemma reach_inv tl thr w ss tr s : b_reach thr (b_start w ss) tr s →
  ∀ i x r, ss !! i = Some x → b_runs s !! i = Some r → run_inv (sys_info tl (s_params x)) r.
Proof.
  induction 1 as [|tr s i s' ev _ IH Hs]; intros j x r Hx Hr.
  - cbn [b_start b_runs] in Hr. rewrite list_lookup_fmap, Hx in Hr. injection Hr as <-.
    unfold run_inv, csys. cbn [r_prog r_guards length]. split_and!.
    + apply cparams_wf.
    + by apply cparams_req.
    + intros g Hg. by apply elem_of_nil in Hg.
  - unfold b_step in Hs. destruct (b_runs s !! i) as [ri|] eqn:Ei; [|done].
    destruct (run_step _ _ _ _) as [[[w' r'] ev']|] eqn:E; [|done]. injection Hs as <- <-.
    cbn [b_runs] in Hr. destruct (decide (i = j)) as [->|Hne].
    + rewrite list_lookup_insert in Hr by (by apply lookup_lt_Some in Ei). injection Hr as <-.
      eapply run_step_inv; [by eapply IH|done].
    + rewrite list_lookup_insert_ne in Hr by done. by eapply IH.
Qed.

(** Whatever the world and the other systems: a system only ever holds what it declared, besides shared
    borrows of all storages. *)
Theorem C63_held_is_declared tl thr w ss tr s i x r g :
  b_reach thr (b_start w ss) tr s → ss !! i = Some x → b_runs s !! i = Some r →
  g ∈ r_guards r → g ≠ (CAll, false) → announced (sys_info tl (s_params x)) g.
Proof. intros Hr Hx Hi Hg Hne. destruct (reach_inv tl _ _ _ _ _ Hr _ _ _ Hx Hi) as (_ & _ & H). by apply H. Qed.

(** .. and a system that returned, an error or not, or panicked, holds nothing: a refused parameter
    leaves none of the earlier ones borrowed. *)
Theorem C63_finished_holds_nothing thr w ss tr s i r :
  b_reach thr (b_start w ss) tr s → b_runs s !! i = Some r → finished (r_prog r) → r_guards r = [].
Proof.
  intros Hr Hi Hf. pose proof (reach_length _ _ _ _ Hr) as Hl.
  destruct (lookup_lt_is_Some_2 ss i) as [x Hx].
  { apply lookup_lt_Some in Hi. rewrite Hl in Hi. cbn [b_start b_runs] in Hi. by rewrite map_length in Hi. }
  destruct (reach_inv true _ _ _ _ _ Hr _ _ _ Hx Hi) as (H & _).
  apply nil_length_inv. by destruct (r_prog r).
Qed.

(** * Systems that are accepted *)

(** What the parameters of a system need, by their types: all storages, the entities, the components of
    a type, the unique of a type; [true]: exclusively. *)
Inductive what := WhAll | WhEnt | WhComp (T : N) | WhUniq (T : N).
Fixpoint view_needs (v : view) : list (what * bool) :=
  match v with
  | VNothing => []
  | VEnt m => [(WhEnt, m)]
  | VComp _ m T _ => [(WhComp T, m)]
  | VUniq _ m T => [(WhUniq T, m)]
  | VOption v => view_needs v
  | VTuple vs => flat_map view_needs vs
  end.
Definition param_needs (p : param) : list (what * bool) :=
  match p with
  | PView v => view_needs v
  | PAll m => [(WhAll, m)]
  | POrDefault m T | POrInit m T => [(WhUniq T, m)]
  end.
Definition sys_needs (ps : list param) : list (what * bool) := flat_map param_needs ps.

Definition wsid (x : what) : storage :=
  match x with WhAll => SAll | WhEnt => sid_ent | WhComp T => sid_comp T | WhUniq T => sid_uniq T end.
Lemma wsid_inj x y : wsid x = wsid y → x = y.
Proof.
  assert (∀ a b : N, SId a = SId b → a = b) as Hi by (by intros a b [= ->]).
  destruct x, y; unfold wsid, sid_ent, sid_comp, sid_uniq; intros H; try done;
    apply Hi in H; first [exfalso; lia | f_equal; lia].
Qed.
Lemma info_needs tl ps :
  map (λ t, (t_storage t, t_excl t)) (sys_info tl ps) = map (λ x, (wsid x.1, x.2)) (sys_needs ps).
Proof.
  assert (∀ v, map (λ t, (t_storage t, t_excl t)) (view_info v) = map (λ x, (wsid x.1, x.2)) (view_needs v)) as Hv.
  { intros v. induction v as [|m|w m T tr|w m T|v IH|vs IH] using view_ind'; cbn [view_info view_needs]; try done.
    induction IH as [|v vs Hv _ IHvs]; cbn [flat_map]; [done|]. by rewrite !map_app, Hv, IHvs. }
  unfold sys_info, sys_needs. induction ps as [|p ps IH]; cbn [flat_map]; [done|]. rewrite !map_app, IH. f_equal.
  destruct p; cbn [param_info param_needs]; try done; apply Hv.
Qed.
Lemma info_at tl ps i :
  (λ t, (t_storage t, t_excl t)) <$> sys_info tl ps !! i = (λ x, (wsid x.1, x.2)) <$> sys_needs ps !! i.
Proof. rewrite <-!list_lookup_fmap. f_equal. apply info_needs. Qed.

(** A system is accepted exactly when no two of its parameters need the same thing, one of them
    exclusively, and none needs all storages exclusively besides another parameter.  A component and a
    unique of the same type are different things, NonSend and the others make no difference. *)
Theorem C63_accepted tl ps :
  system_valid (sys_info tl ps) = true ↔
  ∀ i j a b, i ≠ j → sys_needs ps !! i = Some a → sys_needs ps !! j = Some b →
    a ≠ (WhAll, true) ∧ (a.1 = b.1 → a.2 = false ∧ b.2 = false).
Proof.
  rewrite C39_system_valid_iff. split.
  - intros Hn i j a b Hij Ha Hb.
    pose proof (info_at tl ps i) as Ei. pose proof (info_at tl ps j) as Ej. rewrite Ha in Ei. rewrite Hb in Ej.
    cbn in Ei, Ej. apply fmap_Some in Ei as (ta & Ta & Ea). apply fmap_Some in Ej as (tb & Tb & Eb).
    injection Ea as Sa Xa. injection Eb as Sb Xb. split.
    + intros ->. apply Hn. exists i, j, ta, tb. do 3 (split; [done|]). right. by rewrite <-Sa, <-Xa.
    + intros E. rewrite Xa, Xb. destruct (t_excl ta) eqn:E1, (t_excl tb) eqn:E2; try done;
        exfalso; apply Hn; exists i, j, ta, tb; do 3 (split; [done|]); left; (split; [congruence|tauto]).
  - intros H (i & j & ta & tb & Hij & Ta & Tb & Hc).
    pose proof (info_at tl ps i) as Ei. pose proof (info_at tl ps j) as Ej. rewrite Ta in Ei. rewrite Tb in Ej.
    cbn in Ei, Ej. symmetry in Ei, Ej. apply fmap_Some in Ei as (a & Ha & Ea). apply fmap_Some in Ej as (b & Hb & Eb).
    injection Ea as Sa Xa. injection Eb as Sb Xb.
    destruct (H i j a b Hij Ha Hb) as [H1 H2]. destruct Hc as [[Es Hx]|[Es Hx]].
    + destruct H2 as [H3 H4]; [apply wsid_inj; congruence|]. destruct Hx; congruence.
    + apply H1. destruct a as [x m]. cbn [fst snd] in *. f_equal; [|congruence]. apply wsid_inj. by rewrite <-Sa.
Qed.
Example C63_accepted_case :
  system_valid (sys_info true [PView (VTuple [VComp WNone true 3 no_trk; VUniq WNone true 3]); PAll false]) = true ∧
  system_valid (sys_info true [PView (VComp WNone true 3 no_trk); PView (VOption (VComp WSend false 3 no_trk))]) = false ∧
  system_valid (sys_info true [PView (VEnt false); PAll true]) = false.
Proof. vm_compute. done. Qed.

(** * The systems of a batch *)

(** The requests of the leaves, in order; one per declaration. *)
Fixpoint lreqs (v : view) : list req :=
  match v with
  | VNothing => []
  | VEnt m => [REnt m]
  | VComp w m T tr => [RComp w m T tr]
  | VUniq w m T => [RUniq w m T]
  | VOption v => lreqs v
  | VTuple vs => flat_map lreqs vs
  end.
Definition preqs (p : param) : list req :=
  match p with
  | PView v => lreqs v
  | PAll m => [RAll m]
  | POrDefault m T => [RUniq WNone m T]
  | POrInit m T => [RUniq WNone m T]
  end.
Definition rinfo (tl : bool) (r : req) : tinfo :=
  match r with
  | RAll m => {| t_storage := SAll; t_excl := m; t_safe := negb tl |}
  | REnt m => {| t_storage := sid_ent; t_excl := m; t_safe := true |}
  | RComp w m T _ => {| t_storage := sid_comp T; t_excl := m; t_safe := leaf_safe w m |}
  | RUniq w m T => {| t_storage := sid_uniq T; t_excl := m; t_safe := leaf_safe w m |}
  end.

Lemma flat_map_map {A B C} (f : A → list B) (g : B → C) l :
  map g (flat_map f l) = flat_map (λ x, map g (f x)) l.
Proof. induction l as [|x l IH]; cbn [flat_map map]; [done|]. by rewrite map_app, IH. Qed.

Lemma view_info_reqs tl v : view_info v = map (rinfo tl) (lreqs v).
Proof.
  induction v as [|m|w m T tr|w m T|v IH|vs IH] using view_ind'; cbn [view_info lreqs]; try done.
  induction IH as [|v vs Hv _ IHvs]; cbn [flat_map]; [done|]. by rewrite map_app, Hv, IHvs.
Qed.
Lemma param_info_reqs tl p : param_info tl p = map (rinfo tl) (preqs p).
Proof. destruct p; cbn [param_info preqs]; try done. apply view_info_reqs. Qed.
Lemma sys_info_reqs tl ps : sys_info tl ps = map (rinfo tl) (flat_map preqs ps).
Proof.
  unfold sys_info. induction ps as [|p ps IH]; cbn [flat_map]; [done|].
  by rewrite map_app, IH, param_info_reqs.
Qed.

(** The cell and the access a request ends with if nobody is in the way. *)
Definition rgrant (home : bool) (w : bw) (r : req) : option (cell * access) :=
  match r with
  | RAll m => Some (CAll, if m then AWrite else ARead)
  | REnt m => Some (CEnt, if m then AWrite else ARead)
  | RComp v m T tr =>
      match b_comps w !! (v, T), access_of v m home with
      | Some t, Some a => if trk_le tr t then Some (CComp v T, a) else None
      | _, _ => None
      end
  | RUniq v m T =>
      match b_uniqs w !! T, access_of v m home with
      | Some (n, v'), Some a => if bool_decide (v = v') then Some (CUniq T n, a) else None
      | _, _ => None
      end
  end.

Lemma rgrant_attempt home w r c a gs : rgrant home w r = Some (c, a) → blocked gs c a = false →
  attempt home gs w r = (w, AGot (c, acc_excl a)).
Proof.
  intros Hg Hb. destruct r as [m|m|v m T tr|v m T]; cbn [rgrant attempt] in *.
  - injection Hg as <- <-. unfold try_cell, access_of. destruct m; by rewrite Hb.
  - injection Hg as <- <-. unfold try_cell, access_of. destruct m; by rewrite Hb.
  - destruct (b_comps w !! (v, T)) as [t|]; [|done]. unfold try_cell.
    destruct (access_of v m home) as [a'|]; [|done]. destruct (trk_le tr t); [|done].
    injection Hg as <- <-. by rewrite Hb.
  - destruct (b_uniqs w !! T) as [[n v']|]; [|done]. unfold try_cell.
    destruct (access_of v m home) as [a'|] eqn:E; [|done]. case_bool_decide; [|done]. subst v'.
    injection Hg as <- <-. by rewrite E, Hb.
Qed.

Lemma rgrant_info tl home w r c a : rgrant home w r = Some (c, a) →
  csid c = t_storage (rinfo tl r) ∧ acc_excl a = t_excl (rinfo tl r).
Proof.
  destruct r as [m|m|v m T tr|v m T]; cbn [rgrant].
  - intros [= <- <-]. by destruct m.
  - intros [= <- <-]. by destruct m.
  - destruct (b_comps w !! (v, T)); [|done]. destruct (access_of v m home) as [a'|] eqn:E; [|done].
    destruct (trk_le _ _); [|done]. intros [= <- <-]. split; [done|]. destruct v, m, home; by simplify_eq/=.
  - destruct (b_uniqs w !! T) as [[n v']|]; [|done]. destruct (access_of v m home) as [a'|] eqn:E; [|done].
    case_bool_decide; [|done]. intros [= <- <-]. split; [done|]. destruct v, m, home; by simplify_eq/=.
Qed.

(** The cells of content that is not Sync. *)
Definition xcell (w : bw) (c : cell) : Prop :=
  match c with
  | CComp v _ => v = WSync
  | CUniq T n => b_uniqs w !! T = Some (n, WSync)
  | _ => False
  end.

Definition cov (w : bw) (I : list tinfo) (c : cell) (e : bool) : Prop :=
  match c with
  | CAll => I ≠ [] ∧ (e = true → ∃ t, t ∈ I ∧ t_storage t = SAll)
  | _ => ∃ t, t ∈ I ∧ t_storage t = csid c ∧ t_excl t = e ∧ (xcell w c → e = false → t_safe t = false)
  end.

Lemma cov_no_clash w I J c a g :
  cov w I c (acc_excl a) → (a = AXRead → xcell w c) → cov w J g.1 g.2 → ¬ clash I J → blocks c a g = false.
Proof.
  intros Hc Hx Hg Hn. unfold blocks. case_bool_decide as Hgc; [|done]. cbn [andb]. destruct g as [c' e].
  cbn [fst snd] in *. subst c'.
  destruct (match a with ARead => e | _ => true end) eqn:Eb; [|done]. exfalso. apply Hn.
  destruct c as [| |v T|T n]; cbn [cov xcell] in *.
  { destruct Hc as [HI HI'], Hg as [HJ HJ'].
    assert (∃ t, t ∈ I) as [t Ht] by (destruct I as [|t I']; [done|exists t; by left]).
    assert (∃ u, u ∈ J) as [u Hu] by (destruct J as [|u J']; [done|exists u; by left]).
    destruct a; [|by destruct (Hx eq_refl)|].
    - subst e. destruct HJ' as (u' & Hu' & HS); [done|]. exists t, u'. unfold borrow_clash. eauto 6.
    - destruct HI' as (t' & Ht' & HS); [done|]. exists t', u. unfold borrow_clash. eauto 6. }
  all: destruct Hc as (t & Ht & Hst & Het & Hxt), Hg as (u & Hu & Hsu & Heu & Hxu); exists t, u;
    (split_and!; [done..|]); unfold borrow_clash; destruct a; cbn [acc_excl] in *.
  all: try (left; split; [congruence|]; (left; congruence) || (right; congruence)).
  all: destruct e; [left; split; [congruence|right; congruence]|].
  all: right; left; split; [by apply Hxt; [apply Hx|]|by apply Hxu; [apply Hx|]].
Qed.

(** A program that obtains everything it asks for, its own guards being [G]. *)
Fixpoint ok_prog (home : bool) (w : bw) (I : list tinfo) (B G : list (cell * bool)) (p : prog) : Prop :=
  match p with
  | IDone => G = []
  | IFail _ | IPanicked | IAdd _ _ => False
  | ITry r ok _ => ∃ c a, rgrant home w r = Some (c, a) ∧ blocked G c a = false ∧
      cov w I c (acc_excl a) ∧ (a = AXRead → xcell w c) ∧
      ok_prog home w I B (G ++ [(c, acc_excl a)]) ok
  | IClone k => I ≠ [] ∧ ok_prog home w I B (G ++ [(CAll, false)]) k
  | IPopTo n k => ok_prog home w I B (take n G) k
  | IPopAt n k => ok_prog home w I B (take n G ++ drop (S n) G) k
  | IBody k => G = B ∧ ok_prog home w I B G k
  end.

Section system.
  Context (home : bool) (w : bw) (tl : bool) (I : list tinfo) (B : list (cell * bool)).
  Hypothesis HI : I ≠ [].

  Definition rg (r : req) : cell * bool :=
    match rgrant home w r with Some (c, a) => (c, acc_excl a) | None => (CAll, false) end.
  (** A request that is granted if nobody is in the way, and covered by the declaration. *)
  Definition rready (r : req) : Prop :=
    ∃ c a, rgrant home w r = Some (c, a) ∧ cov w I c (acc_excl a) ∧ (a = AXRead → xcell w c) ∧ c ≠ CAll.
  (** The guard is not in the way of the request. *)
  Definition clear_of (r : req) (g : cell * bool) : Prop :=
    ∀ c a, rgrant home w r = Some (c, a) → blocks c a g = false.

  Definition vguards (v : view) : list (cell * bool) := flat_map (λ r, [(CAll, false); rg r]) (lreqs v).

  Lemma blocked_clear G r c a : rgrant home w r = Some (c, a) → Forall (clear_of r) G → blocked G c a = false.
  Proof.
    intros Hr HG. unfold blocked. induction HG as [|g G Hg _ IH]; cbn [existsb]; [done|].
    by rewrite (Hg _ _ Hr), IH.
  Qed.

  Lemma all_clear r : rready r → clear_of r (CAll, false).
  Proof.
    intros (c & a & Hg & _ & _ & Hne) c' a' Hg'. rewrite Hg in Hg'. injection Hg' as <- <-.
    unfold blocks. by rewrite bool_decide_eq_false_2 by (intros [=]; congruence).
  Qed.

  (** The requests of a list do not get in each other's way, nor the guards [G] in theirs. *)
  Fixpoint fits (G : list (cell * bool)) (rs : list req) : Prop :=
    match rs with
    | [] => True
    | r :: rs => rready r ∧ Forall (clear_of r) G ∧ fits (G ++ [(CAll, false); rg r]) rs
    end.

  Lemma fits_app rs1 : ∀ G rs2, fits G (rs1 ++ rs2) ↔
    fits G rs1 ∧ fits (G ++ flat_map (λ r, [(CAll, false); rg r]) rs1) rs2.
  Proof.
    induction rs1 as [|r rs1 IH]; intros G rs2; cbn [app fits flat_map].
    - rewrite app_nil_r. tauto.
    - rewrite IH, <-app_assoc. cbn [app]. tauto.
  Qed.
  (** Extra shared guards of all storages do no harm. *)
  Lemma fits_mono rs : ∀ G G', (∀ g, g ∈ G' → g = (CAll, false) ∨ g ∈ G) → fits G rs → fits G' rs.
  Proof.
    induction rs as [|r rs IH]; intros G G' Hs; cbn [fits]; [done|]. intros (Hr & HG & Hf). split_and!; [done| |].
    - apply Forall_forall. intros g Hg. destruct (Hs g Hg) as [->|Hg']; [by apply all_clear|].
      by eapply Forall_forall in HG.
    - eapply IH; [|exact Hf]. intros g Hg. rewrite elem_of_app in Hg |- *.
      destruct Hg as [Hg|Hg]; [|by right; right]. destruct (Hs g Hg); eauto.
  Qed.

  Lemma leaf_ok r G0 ok err : fits G0 [r] →
    ok_prog home w I B (G0 ++ [(CAll, false); rg r]) (ok (length (G0 ++ [(CAll, false); rg r]))) →
    ok_prog home w I B (G0 ++ [(CAll, false)]) (leaf r (length G0) ok err).
  Proof.
    intros (Hr & HG & _) Hok. pose proof (all_clear r Hr) as Ha.
    destruct Hr as (c & a & Hg & Hcov & Hx & Hne). cbn [leaf ok_prog]. exists c, a.
    split_and!; [done| |done..|].
    - eapply blocked_clear; [done|]. apply Forall_app. split; [done|]. by apply Forall_singleton.
    - unfold rg in Hok. rewrite Hg in Hok. rewrite app_length in Hok. cbn [length] in Hok.
      by rewrite <-app_assoc.
  Qed.

  Lemma cview_ok v : ∀ G0 ok err, fits G0 (lreqs v) →
    ok_prog home w I B (G0 ++ vguards v) (ok (length (G0 ++ vguards v))) →
    ok_prog home w I B (G0 ++ [(CAll, false)]) (cview v (length G0) ok err).
  Proof.
    induction v as [|m|v m T tr|v m T|v IH|vs IH] using view_ind'; intros G0 ok err Hf Hok.
    - cbn [cview ok_prog]. rewrite take_app. unfold vguards in Hok. cbn [lreqs flat_map] in Hok.
      by rewrite app_nil_r in Hok.
    - by apply leaf_ok.
    - by apply leaf_ok.
    - by apply leaf_ok.
    - cbn [cview]. by apply IH.
    - cbn [cview].
      set (go := foldr (λ (v : view) (rest : nat → prog) (m : nat),
        IClone (cview v m rest (λ e, IPopTo (length G0) (err e))))
        (λ m, IPopAt (length G0) (ok (m - 1)))).
      assert (∀ us ts, vs = us ++ ts →
        ok_prog home w I B ((G0 ++ [(CAll, false)]) ++ vguards (VTuple us))
          (go ts (length ((G0 ++ [(CAll, false)]) ++ vguards (VTuple us))))) as H.
      { intros us ts. revert us. induction ts as [|t ts IHt]; intros us Hvs.
        - rewrite app_nil_r in Hvs. subst us. unfold go. cbn [foldr ok_prog].
          rewrite <-app_assoc, take_app. cbn [app].
          replace (S (length G0)) with (length (G0 ++ [(CAll, false)])) by (rewrite app_length; cbn; lia).
          change ((CAll, false) :: vguards (VTuple vs)) with ([(CAll, false)] ++ vguards (VTuple vs)).
          rewrite (app_assoc G0 [_]), drop_app.
          replace (length ((G0 ++ [(CAll, false)]) ++ vguards (VTuple vs)) - 1)
            with (length (G0 ++ vguards (VTuple vs))); [done|].
          rewrite !app_length. cbn [length]. lia.
        - unfold go. cbn [foldr]. fold go. cbn [ok_prog]. split; [done|].
          assert (P : t ∈ vs) by (subst vs; set_solver).
          eapply Forall_forall in P; [|exact IH]. apply P.
          + cbn [lreqs] in Hf. subst vs. rewrite flat_map_app in Hf. apply fits_app in Hf as [_ Hf].
            cbn [flat_map] in Hf. apply fits_app in Hf as [Hf _].
            eapply fits_mono; [|exact Hf]. intros g Hg. unfold vguards in Hg. cbn [lreqs] in Hg.
            rewrite !elem_of_app, elem_of_list_singleton in Hg. rewrite elem_of_app. tauto.
          + specialize (IHt (us ++ [t])). rewrite <-app_assoc in IHt. specialize (IHt Hvs).
            assert (vguards (VTuple (us ++ [t])) = vguards (VTuple us) ++ vguards t) as Hv.
            { unfold vguards. cbn [lreqs]. rewrite flat_map_app. cbn [flat_map].
              by rewrite app_nil_r, flat_map_app. }
            rewrite Hv, app_assoc in IHt. exact IHt. }
      specialize (H [] vs eq_refl). unfold vguards in H. cbn [lreqs flat_map] in H.
      rewrite app_nil_r, app_length in H. exact H.
  Qed.

  Definition pguards (p : param) : list (cell * bool) :=
    match p with
    | PView v => vguards v
    | PAll m => [(CAll, m)]
    | POrDefault m T => [(CAll, false); rg (RUniq WNone m T)]
    | POrInit m T => [(CAll, false); (CAll, false); rg (RUniq WNone m T)]
    end.

  Lemma cbody_full ps acts : ∀ full n, (∀ j m T, ps !! j = Some (POrInit m T) → j ∈ full) →
    cbody ps acts full n = IPopTo 0 IDone.
  Proof.
    induction acts as [|a acts IH]; intros full n Hf; cbn [cbody]; [done|].
    destruct (ps !! bact_ix a) as [[v|m|m T|m T]|] eqn:E; try by apply IH.
    rewrite bool_decide_eq_true_2 by (by eapply Hf). by apply IH.
  Qed.

  Definition preqs0 (p : param) : list req := match p with PAll _ => [] | _ => preqs p end.
  Definition shared_all (G : list (cell * bool)) : Prop := ∀ e, (CAll, e) ∈ G → e = false.

  Lemma shared_all_blocked G : shared_all G → blocked G CAll ARead = false.
  Proof.
    intros HG. unfold blocked. apply not_true_is_false. rewrite existsb_exists. intros ([c e] & Hg & Hb).
    unfold blocks in Hb. apply andb_prop in Hb as [Hc He]. apply bool_decide_eq_true in Hc.
    cbn [fst snd] in *. subst c e. apply elem_of_list_In, HG in Hg. done.
  Qed.
  Lemma vguards_shared rs G : fits G rs → shared_all (flat_map (λ r, [(CAll, false); rg r]) rs).
  Proof.
    intros Hf e He. apply elem_of_list_In, in_flat_map in He as (r & Hr & He).
    apply elem_of_list_In in Hr. revert G Hf. induction rs as [|r' rs IH]; intros G Hf; [by apply elem_of_nil in Hr|].
    destruct Hf as (Hrd & _ & Hf). apply elem_of_cons in Hr as [->|Hr]; [|by eapply IH].
    destruct He as [He|[He|[]]]; [by injection He as <-|]. unfold rg in He.
    destruct Hrd as (c & a & Hg & _ & _ & Hne). rewrite Hg in He. by injection He as -> _.
  Qed.

  Lemma all_ok G k err : shared_all G → ok_prog home w I B (G ++ [(CAll, false)]) k →
    ok_prog home w I B G (ITry (RAll false) k err).
  Proof.
    intros HG Hk. cbn [ok_prog]. exists CAll, ARead. split_and!; [done|by apply shared_all_blocked| |done|done].
    split; done.
  Qed.

  Lemma pguards_fits p G : p ≠ PAll true → fits G (preqs0 p) → shared_all (pguards p).
  Proof.
    intros Hp Hf. destruct p as [v|m|m T|m T]; cbn [pguards preqs0] in *.
    - by eapply vguards_shared.
    - destruct m; [done|]. intros e He. apply elem_of_list_singleton in He. by injection He.
    - by apply (vguards_shared [RUniq WNone m T] G).
    - pose proof (vguards_shared [RUniq WNone m T] G Hf) as H. intros e He.
      apply elem_of_cons in He as [He|He]; [by injection He|]. by apply H.
  Qed.

  Lemma flat_pguards_fits p G : p ≠ PAll true → ∀ rs, fits G (preqs0 p ++ rs) → fits (G ++ pguards p) rs.
  Proof.
    intros Hp rs Hf. apply fits_app in Hf as [_ Hf]. eapply fits_mono; [|exact Hf].
    intros g Hg. destruct p as [v|m|m T|m T]; cbn [pguards preqs0 preqs vguards flat_map app] in *.
    - by right.
    - destruct m; [done|set_solver].
    - set_solver.
    - set_solver.
  Qed.

  Lemma cparams_ok ps acts qs : ∀ G0 i full,
    Forall (λ p, p ≠ PAll true) qs → fits G0 (flat_map preqs0 qs) → shared_all G0 →
    (∀ j, ps !! (i + j) = qs !! j) →
    (∀ j m T, j < i → ps !! j = Some (POrInit m T) → j ∈ full) →
    G0 ++ flat_map pguards qs = B →
    ok_prog home w I B G0 (cparams ps qs acts i full (length G0)).
  Proof.
    induction qs as [|q qs IH]; intros G0 i full Hna Hf HG Hps Hfull HB; cbn [cparams].
    { cbn [flat_map] in HB. rewrite app_nil_r in HB. cbn [ok_prog]. split; [done|].
      rewrite cbody_full; [done|]. intros j m T Hj. eapply Hfull; [|done].
      destruct (decide (j < i)); [done|]. specialize (Hps (j - i)). cbn in Hps.
      rewrite lookup_nil in Hps. replace (i + (j - i)) with j in Hps by lia. congruence. }
    apply Forall_cons in Hna as [Hq Hna]. cbn [flat_map] in Hf, HB.
    pose proof (pguards_fits q G0 Hq) as Hsh. pose proof (proj1 (fits_app _ _ _) Hf) as [Hfq _].
    specialize (Hsh Hfq).
    assert (∀ j, ps !! (S i + j) = qs !! j) as Hps'.
    { intros j. specialize (Hps (S j)). by replace (i + S j) with (S i + j) in Hps by lia. }
    assert (ps !! i = Some q) as Hpi by (specialize (Hps 0); by rewrite Nat.add_0_r in Hps).
    rewrite app_assoc in HB.
    assert (shared_all (G0 ++ pguards q)) as HG'.
    { intros e He. apply elem_of_app in He as [He|He]; [by apply HG|by apply Hsh]. }
    assert (fits (G0 ++ pguards q) (flat_map preqs0 qs)) as Hf'.
    { by apply flat_pguards_fits. }
    assert (∀ full', (∀ j m T, j < S i → ps !! j = Some (POrInit m T) → j ∈ full') →
      ok_prog home w I B (G0 ++ pguards q) (cparams ps qs acts (S i) full' (length (G0 ++ pguards q)))) as Hk.
    { intros full' Hfull'. by apply IH. }
    assert (∀ full', full ⊆ full' → (∀ m T, q = POrInit m T → i ∈ full') →
      (∀ j m T, j < S i → ps !! j = Some (POrInit m T) → j ∈ full')) as Hfs.
    { intros full' Hsub Hi j m T Hj Hpj. destruct (decide (j = i)) as [->|].
      - eapply Hi. rewrite Hpi in Hpj. by injection Hpj.
      - apply Hsub. eapply Hfull; [lia|done]. }
    destruct q as [v|m|m T|m T].
    - apply all_ok; [done|]. apply cview_ok; [done|]. apply Hk, Hfs; [done|]. by intros.
    - destruct m; [done|]. apply all_ok; [done|].
      replace (length G0 + 1) with (length (G0 ++ pguards (PAll false))) by (rewrite app_length; cbn; lia).
      apply Hk, Hfs; [done|]. by intros.
    - apply all_ok; [done|].
      assert (ok_prog home w I B (G0 ++ [(CAll, false)])
        (cview (VUniq WNone m T) (length G0) (cparams ps qs acts (S i) full) give_up)) as Ha.
      { apply cview_ok; [done|]. apply Hk, Hfs; [done|]. by intros. }
      cbn [ok_prog]. cbn [preqs0 preqs fits] in Hfq. destruct Hfq as (Hr & Hcl & _).
      pose proof (all_clear _ Hr) as Hac. destruct Hr as (c & a & Hg & Hcov & Hx & Hne).
      exists c, a. split_and!; [done| |done..|].
      + eapply blocked_clear; [done|]. apply Forall_app. split; [done|]. by apply Forall_singleton.
      + replace (length G0 + 1) with (length (G0 ++ [(CAll, false)])) by (rewrite app_length; cbn; lia).
        by rewrite take_app.
    - apply all_ok; [done|]. cbn [ok_prog]. split; [done|].
      replace (length G0 + 1) with (length (G0 ++ [(CAll, false)])) by (rewrite app_length; cbn; lia).
      apply cview_ok.
      + eapply fits_mono; [|exact Hfq]. set_solver.
      + change (vguards (VUniq WNone m T)) with [(CAll, false); rg (RUniq WNone m T)].
        rewrite <-app_assoc. apply Hk, Hfs; [set_solver|]. intros. by left.
  Qed.
End system.

(** ** From the declaration to the requests *)

Definition xkey (r : req) : option (bool * N) :=
  match r with
  | RComp WSync false T _ => Some (false, T)
  | RUniq WSync false T => Some (true, T)
  | _ => None
  end.
Definition ukey (r : req) : option (N * wrap) := match r with RUniq w _ T => Some (T, w) | _ => None end.
Definition tkey (r : req) : option (wrap * N * trk) :=
  match r with RComp w _ T tr => Some (w, T, tr) | _ => None end.

Lemma omap_flat {A C} (f : A → list req) (k : req → option C) (l : list A) :
  omap k (flat_map f l) = flat_map (λ x, omap k (f x)) l.
Proof. induction l as [|x l IH]; [done|]. cbn [flat_map]. by rewrite omap_app, IH. Qed.
Lemma flat_map_eq {A C} (f g : A → list C) l : Forall (λ x, f x = g x) l → flat_map f l = flat_map g l.
Proof. induction 1 as [|x l Hx _ IH]; [done|]. cbn [flat_map]. by rewrite Hx, IH. Qed.

Lemma xreads_reqs ps : sys_xreads ps = omap xkey (flat_map preqs ps).
Proof.
  assert (∀ v, view_xreads v = omap xkey (lreqs v)) as Hv.
  { intros v. induction v as [|m|w m T tr|w m T|v IH|vs IH] using view_ind'; cbn [view_xreads lreqs]; try done.
    - by destruct w, m.
    - by destruct w, m.
    - rewrite omap_flat. by apply flat_map_eq. }
  unfold sys_xreads. rewrite omap_flat. apply flat_map_eq, Forall_true. intros [v|m|m T|m T]; try done. apply Hv.
Qed.
Lemma uniqs_reqs ps : sys_uniqs ps = omap ukey (flat_map preqs ps).
Proof.
  assert (∀ v, view_uniqs v = omap ukey (lreqs v)) as Hv.
  { intros v. induction v as [|m|w m T tr|w m T|v IH|vs IH] using view_ind'; cbn [view_uniqs lreqs]; try done.
    rewrite omap_flat. by apply flat_map_eq. }
  unfold sys_uniqs. rewrite omap_flat. apply flat_map_eq, Forall_true. intros [v|m|m T|m T]; try done. apply Hv.
Qed.
Lemma tracking_reqs ps : sys_tracking ps = omap tkey (flat_map preqs ps).
Proof.
  assert (∀ v, view_tracking v = omap tkey (lreqs v)) as Hv.
  { intros v. induction v as [|m|w m T tr|w m T|v IH|vs IH] using view_ind'; cbn [view_tracking lreqs]; try done.
    rewrite omap_flat. by apply flat_map_eq. }
  unfold sys_tracking. rewrite omap_flat. apply flat_map_eq, Forall_true. intros [v|m|m T|m T]; try done. apply Hv.
Qed.

(** Everything a system needs of the world. *)
Definition provided (tl home : bool) (w : bw) (ps : list param) : Prop :=
  (∀ T v, (T, v) ∈ sys_uniqs ps → ∃ n, b_uniqs w !! T = Some (n, v)) ∧
  (∀ v T tr, (v, T, tr) ∈ sys_tracking ps → ∃ t, b_comps w !! (v, T) = Some t ∧ trk_le tr t = true) ∧
  (∀ t, t ∈ sys_info tl ps → t_safe t = false → home = true ∨ t_storage t = SAll).

Definition notall (r : req) : Prop := match r with RAll _ => False | _ => True end.
Lemma lreqs_notall v : Forall notall (lreqs v).
Proof.
  induction v as [|m|w m T tr|w m T|v IH|vs IH] using view_ind'; cbn [lreqs]; try done; try by repeat constructor.
  induction IH as [|v vs Hv _ IHvs]; cbn [flat_map]; [done|]. by apply Forall_app.
Qed.
Lemma preqs0_notall ps : Forall notall (flat_map preqs0 ps).
Proof.
  induction ps as [|p ps IH]; cbn [flat_map]; [done|]. apply Forall_app. split; [|done].
  destruct p; cbn [preqs0 preqs]; try by repeat constructor. apply lreqs_notall.
Qed.

Section ready.
  Context (home : bool) (w : bw) (tl : bool) (ps : list param).
  Hypothesis Hp : provided tl home w ps.
  Let I := sys_info tl ps.

  Lemma reqs_ready r : r ∈ flat_map preqs ps → notall r → rready home w I r.
  Proof.
    intros Hr Hna. destruct Hp as (Hu & Ht & Hs).
    assert (rinfo tl r ∈ I) as Hin.
    { unfold I. rewrite sys_info_reqs. by apply (elem_of_list_fmap_1 (rinfo tl)). }
    assert (t_safe (rinfo tl r) = false → home = true) as Hh.
    { intros Hsf. destruct (Hs _ Hin Hsf) as [?|Hst]; [done|]. by destruct r. }
    destruct r as [m|m|v m T tr|v m T]; [done|..]; unfold rready; cbn [rgrant rinfo t_safe] in *.
    - eexists _, _. split; [done|]. split_and!; [|by destruct m|done]. cbn [cov].
      eexists. split; [exact Hin|]. cbn. split_and!; [done|by destruct m|done].
    - destruct (Ht v T tr) as (t & Hbt & Htr).
      { rewrite tracking_reqs. apply elem_of_list_omap. eexists. split; [exact Hr|done]. }
      rewrite Hbt, Htr.
      destruct (access_of v m home) as [a|] eqn:Ea.
      2: { exfalso. destruct v, m, home; cbn in *; try done; by specialize (Hh eq_refl). }
      eexists _, _. split; [done|]. split_and!; [|by destruct v, m, home; simplify_eq/=|done].
      cbn [cov]. eexists. split; [exact Hin|]. cbn [t_storage t_excl t_safe csid xcell].
      split_and!; [done|by destruct v, m, home; simplify_eq/=|].
      intros -> Hex. by destruct m, home; simplify_eq/=.
    - destruct (Hu T v) as (n & Hn).
      { rewrite uniqs_reqs. apply elem_of_list_omap. eexists. split; [exact Hr|done]. }
      rewrite Hn. rewrite bool_decide_eq_true_2 by done.
      destruct (access_of v m home) as [a|] eqn:Ea.
      2: { exfalso. destruct v, m, home; cbn in *; try done; by specialize (Hh eq_refl). }
      eexists _, _. split; [done|]. split_and!; [|by destruct v, m, home; simplify_eq/=|done].
      cbn [cov]. eexists. split; [exact Hin|]. cbn [t_storage t_excl t_safe csid xcell].
      split_and!; [done|by destruct v, m, home; simplify_eq/=|].
      rewrite Hn. intros [= ->] Hex. by destruct m, home; simplify_eq/=.
  Qed.

  Lemma pair_clear r1 r2 : same_excl (rinfo tl r1) (rinfo tl r2) = false →
    (∀ k, xkey r1 = Some k → xkey r2 ≠ Some k) → rready home w I r1 → clear_of home w r2 (rg home w r1).
  Proof.
    intros Hse Hx (c1 & a1 & Hg1 & _) c2 a2 Hg2. unfold rg. rewrite Hg1. unfold blocks. cbn [fst snd].
    case_bool_decide as Hc; [|done]. subst c2. cbn [andb].
    destruct (rgrant_info tl _ _ _ _ _ Hg1) as [Hs1 He1]. destruct (rgrant_info tl _ _ _ _ _ Hg2) as [Hs2 He2].
    unfold same_excl in Hse. rewrite bool_decide_eq_true_2 in Hse by congruence. cbn [andb] in Hse.
    apply orb_false_elim in Hse as [Hf1 Hf2]. rewrite Hf1 in He1. rewrite Hf2 in He2.
    destruct a2; [by rewrite He1| |done]. exfalso.
    destruct r2 as [m|m|v m T tr|v m T]; cbn [rgrant] in Hg2; [by destruct m|by destruct m|..].
    - destruct (b_comps w !! (v, T)) as [t|]; [|done].
      destruct (access_of v m home) as [a|] eqn:Ea; [|done]. destruct (trk_le tr t); [|done].
      injection Hg2 as <- ->. assert (v = WSync ∧ m = false) as [-> ->] by (by destruct v, m, home).
      destruct r1 as [m1|m1|v1 m1 T1 tr1|v1 m1 T1]; cbn [rgrant] in Hg1; [done..| |].
      + destruct (b_comps w !! (v1, T1)) as [t1|]; [|done].
        destruct (access_of v1 m1 home) as [b|] eqn:Eb; [|done]. destruct (trk_le tr1 t1); [|done].
        injection Hg1 as -> -> <-. cbn [rinfo t_excl] in Hf1. subst m1. by eapply Hx.
      + destruct (b_uniqs w !! T1) as [[n1 v1']|]; [|done].
        destruct (access_of v1 m1 home) as [b|]; [|done]. by case_bool_decide.
    - destruct (b_uniqs w !! T) as [[n v']|] eqn:En; [|done].
      destruct (access_of v m home) as [a|] eqn:Ea; [|done]. case_bool_decide; [|done]. subst v'.
      injection Hg2 as <- ->. assert (v = WSync ∧ m = false) as [-> ->] by (by destruct v, m, home).
      destruct r1 as [m1|m1|v1 m1 T1 tr1|v1 m1 T1]; cbn [rgrant] in Hg1; [done..| |].
      + destruct (b_comps w !! (v1, T1)) as [t1|]; [|done].
        destruct (access_of v1 m1 home) as [b|]; [|done]. by destruct (trk_le tr1 t1).
      + destruct (b_uniqs w !! T1) as [[n1 v1']|] eqn:En1; [|done].
        destruct (access_of v1 m1 home) as [b|] eqn:Eb; [|done]. case_bool_decide; [|done]. subst v1'.
        injection Hg1 as -> -> <-. cbn [rinfo t_excl] in Hf1. subst m1.
        rewrite En in En1. injection En1 as <-. by eapply Hx.
  Qed.

  Lemma fits_pairs rs : ∀ G, Forall (rready home w I) rs → (∀ r, r ∈ rs → Forall (clear_of home w r) G) →
    pair_conflict (map (rinfo tl) rs) = false → NoDup (omap xkey rs) → fits home w I G rs.
  Proof.
    induction rs as [|r rs IH]; intros G Hrd HG Hpc Hnd; cbn [fits]; [done|].
    apply Forall_cons in Hrd as [Hr Hrd]. cbn [map pair_conflict] in Hpc. apply orb_false_elim in Hpc as [Hpc1 Hpc].
    assert (NoDup (omap xkey rs)) as Hnd'.
    { cbn [omap list_omap] in Hnd. destruct (xkey r); [by apply NoDup_cons in Hnd as [_ ?]|done]. }
    split_and!; [done|apply HG; by left|]. apply IH; [done| |done|done].
    intros r2 Hr2. apply Forall_app. split; [apply HG; by right|]. apply Forall_cons. split.
    { eapply all_clear. by eapply Forall_forall in Hrd. }
    apply Forall_singleton. apply pair_clear; [| |done].
    - apply not_true_is_false. intros Hse. rewrite <-not_true_iff_false in Hpc1. apply Hpc1.
      apply existsb_exists. exists (rinfo tl r2). split; [|done]. apply in_map. by apply elem_of_list_In.
    - intros k Hk Hk2. cbn [omap list_omap] in Hnd. rewrite Hk in Hnd. apply NoDup_cons in Hnd as [Hnd _].
      apply Hnd, elem_of_list_omap. by exists r2.
  Qed.
End ready.

Lemma pair_conflict_sub rs1 : ∀ rs2, sublist rs1 rs2 → pair_conflict rs2 = false → pair_conflict rs1 = false.
Proof.
  induction 1 as [|x l1 l2 Hs IH|x l1 l2 Hs IH]; [done|..]; cbn [pair_conflict]; intros H;
    apply orb_false_elim in H as [H1 H2]; [|by apply IH].
  apply orb_false_intro; [|by apply IH]. apply not_true_is_false. intros He.
  rewrite <-not_true_iff_false in H1. apply H1. apply existsb_exists in He as (y & Hy & He).
  apply existsb_exists. exists y. split; [|done]. apply elem_of_list_In in Hy. apply elem_of_list_In.
  by eapply elem_of_submseteq; [|apply sublist_submseteq].
Qed.
Lemma sublist_map {A C} (f : A → C) l1 l2 : sublist l1 l2 → sublist (map f l1) (map f l2).
Proof. induction 1; cbn [map]; by constructor. Qed.
Lemma preqs0_sub ps : sublist (flat_map preqs0 ps) (flat_map preqs ps).
Proof.
  induction ps as [|p ps IH]; cbn [flat_map]; [constructor|]. apply sublist_app; [|done].
  destruct p; cbn [preqs0 preqs]; (done || by constructor; constructor).
Qed.

Lemma preqs0_xkeys ps : omap xkey (flat_map preqs0 ps) = omap xkey (flat_map preqs ps).
Proof. induction ps as [|[v|m|m T|m T] ps IH]; cbn [flat_map]; [done|..]; by rewrite !omap_app, IH. Qed.

(** A system accepted by the scheduler, each parameter of which declares something, gets everything it
    asks for when alone. *)
Lemma csys_ok home w tl x :
  system_valid (sys_info tl (s_params x)) = true →
  Forall (λ p, param_info tl p ≠ []) (s_params x) → NoDup (sys_xreads (s_params x)) →
  provided tl home w (s_params x) →
  ok_prog home w (sys_info tl (s_params x)) (flat_map (pguards home w) (s_params x)) [] (csys x).
Proof.
  intros Hv Hne Hnd Hp. unfold csys. set (ps := s_params x) in *.
  unfold system_valid in Hv. apply andb_prop in Hv as [Hv1 Hv2].
  apply negb_true_iff in Hv1, Hv2.
  destruct (decide (ps = [])) as [E|Eps].
  { rewrite E. cbn [cparams flat_map ok_prog]. split; [done|]. rewrite cbody_full; [done|]. intros j m T. by rewrite lookup_nil. }
  assert (sys_info tl ps ≠ []) as HI.
  { destruct ps as [|p ps']; [done|]. apply Forall_cons in Hne as [Hp1 _]. unfold sys_info. cbn [flat_map].
    by destruct (param_info tl p). }
  assert (PAll true ∈ ps ∨ PAll true ∉ ps) as [Hall|Hall].
  { clear. induction ps as [|p ps IH]; [right; apply not_elem_of_nil|].
    destruct p as [v|[]|m T|m T]; set_solver. }
  - assert (ps = [PAll true]) as ->.
    { assert (length (sys_info tl ps) ≤ 1) as Hl.
      { unfold all_with_others in Hv1. apply andb_false_iff in Hv1 as [Hv1|Hv1]; [|by apply Nat.ltb_ge in Hv1].
        exfalso. rewrite <-not_true_iff_false in Hv1. apply Hv1, existsb_exists.
        exists {| t_storage := SAll; t_excl := true; t_safe := negb tl |}. split.
        - apply elem_of_list_In. apply (elem_of_sys_info tl ps (PAll true) Hall). by left.
        - by rewrite bool_decide_eq_true_2. }
      assert (length ps ≤ length (sys_info tl ps)) as Hl2.
      { clear -Hne. unfold sys_info. induction Hne as [|p ps Hp _ IH]; [done|]. cbn [flat_map length].
        rewrite app_length. destruct (param_info tl p); [done|]. cbn [length]. lia. }
      clear -Hall Hl Hl2. destruct ps as [|p ps']; [by apply elem_of_nil in Hall|].
      destruct ps' as [|q ps']; [by apply elem_of_list_singleton in Hall as ->|]. cbn [length] in *. lia. }
    cbn [cparams ok_prog]. exists CAll, AWrite. split; [done|]. split; [done|]. split; [|split; [done|]].
    + cbn [cov]. split; [done|]. intros _. eexists. split; [by left|done].
    + split; [done|]. rewrite cbody_full; [done|]. intros [|j] m T Hj; done.
  - apply cparams_ok; try done.
    + apply Forall_forall. intros p Hpp ->. done.
    + eapply fits_pairs; [exact Hp|..].
      * apply Forall_forall. intros r Hr. apply reqs_ready; [done| |].
        -- by eapply elem_of_submseteq; [|apply sublist_submseteq, preqs0_sub].
        -- by eapply Forall_forall in Hr; [|apply preqs0_notall].
      * intros. apply Forall_nil_2.
      * eapply pair_conflict_sub; [|exact Hv2]. rewrite sys_info_reqs. apply sublist_map, preqs0_sub.
      * by rewrite preqs0_xkeys, <-xreads_reqs.
    + intros e He. by apply elem_of_nil in He.
    + intros j m T Hj. lia.
Qed.

(** ** Running them at the same time *)

Lemma ok_prog_pop home w I B G n k : n < length G →
  ok_prog home w I B G (IPopTo n k) → ok_prog home w I B (take (length G - 1) G) (IPopTo n k).
Proof. intros Hn. cbn [ok_prog]. rewrite take_take. by replace (n `min` (length G - 1)) with n by lia. Qed.

Lemma rgrant_live home w r c a e : rgrant home w r = Some (c, a) → ¬ dangling w (c, e).
Proof.
  destruct r as [m|m|v m T tr|v m T]; cbn [rgrant].
  - intros [= <- _] [].
  - intros [= <- _] [].
  - destruct (b_comps w !! (v, T)); [|done]. destruct (access_of v m home); [|done].
    destruct (trk_le _ _); [|done]. intros [= <- _] [].
  - destruct (b_uniqs w !! T) as [[n v']|] eqn:E; [|done]. destruct (access_of v m home); [|done].
    case_bool_decide; [|done]. intros [= <- _] Hd. by apply (Hd v').
Qed.

Section batch.
  Context (tl : bool) (thr : nat → bool) (w : bw) (ss : list sys).
  Notation info x := (sys_info tl (s_params x)).

  (** Accepted by the scheduler, each parameter declares something, no content that is not Sync is
      viewed twice by one system; the uniques are there, tracking is enabled, the systems that need it
      run on the main thread. *)
  Hypothesis Hsys : ∀ i x, ss !! i = Some x →
    system_valid (info x) = true ∧ Forall (λ p, param_info tl p ≠ []) (s_params x) ∧
    NoDup (sys_xreads (s_params x)) ∧ provided tl (thr i) w (s_params x).
  Hypothesis Hdis : ∀ i j x y, i ≠ j → ss !! i = Some x → ss !! j = Some y → ¬ clash (info x) (info y).

  Record ginv (s : bst) : Prop := {
    g_world : b_world s = w;
    g_len : length (b_runs s) = length ss;
    g_run : ∀ i x r, ss !! i = Some x → b_runs s !! i = Some r →
      ok_prog (thr i) w (info x) (flat_map (pguards (thr i) w) (s_params x)) (r_guards r) (r_prog r) ∧
      Forall (λ g, cov w (info x) g.1 g.2 ∧ ¬ dangling w g) (r_guards r)
  }.

  Definition good (i : nat) (ev : bevent) : Prop :=
    match ev with
    | EvTau => True
    | EvBody gs => ∃ x, ss !! i = Some x ∧ gs = flat_map (pguards (thr i) w) (s_params x)
    | _ => False
    end.

  Lemma others_clear s i x r c a : ginv s → ss !! i = Some x → b_runs s !! i = Some r →
    blocked (r_guards r) c a = false → cov w (info x) c (acc_excl a) → (a = AXRead → xcell w c) →
    blocked (all_guards s) c a = false.
  Proof.
    intros HI Hx Hr Hb Hc Hxr. unfold blocked. apply not_true_is_false. rewrite existsb_exists.
    intros (g & Hg & Hbl). unfold all_guards in Hg. apply in_flat_map in Hg as (rj & Hrj & Hg).
    apply elem_of_list_In, elem_of_list_lookup in Hrj as (j & Hrj). apply elem_of_list_In in Hg.
    destruct (decide (i = j)) as [<-|Hne].
    - rewrite Hr in Hrj. injection Hrj as <-. rewrite <-not_true_iff_false in Hb. apply Hb.
      apply existsb_exists. exists g. split; [by apply elem_of_list_In|done].
    - destruct (lookup_lt_is_Some_2 ss j) as [y Hy].
      { rewrite <-(g_len s HI). by apply lookup_lt_Some in Hrj. }
      destruct (g_run s HI j y rj Hy Hrj) as [_ HF]. eapply Forall_forall in HF as [HF _]; [|exact Hg].
      rewrite (cov_no_clash w (info x) (info y) c a g) in Hbl; try done. by eapply Hdis.
  Qed.

  Lemma ginv_step s i s' ev : ginv s → b_step thr s i = Some (s', ev) → ginv s' ∧ good i ev.
  Proof.
    intros HI Hs. unfold b_step in Hs. destruct (b_runs s !! i) as [r|] eqn:Er; [|done].
    destruct (run_step (thr i) (all_guards s) (b_world s) r) as [[[w' r'] ev']|] eqn:E; [|done].
    injection Hs as <- <-.
    destruct (lookup_lt_is_Some_2 ss i) as [x Hx].
    { rewrite <-(g_len s HI). by apply lookup_lt_Some in Er. }
    destruct (g_run s HI i x r Hx Er) as [Hok HF].
    assert (w' = w ∧ good i ev' ∧
      ok_prog (thr i) w (info x) (flat_map (pguards (thr i) w) (s_params x)) (r_guards r') (r_prog r') ∧
      Forall (λ g, cov w (info x) g.1 g.2 ∧ ¬ dangling w g) (r_guards r')) as (-> & Hgood & Hok' & HF').
    { unfold run_step in E. destruct r as [p G]; cbn [r_prog r_guards] in *.
      rewrite (g_world s HI) in E.
      destruct p as [|e| |q ok err|k|n k|n k|T k|k]; cbn [ok_prog] in Hok; try done.
      - destruct Hok as (c & a & Hg & Hb & Hcov & Hxr & Hok).
        rewrite (rgrant_attempt _ _ _ c a _ Hg) in E by (eapply (others_clear s i x); done).
        injection E as <- <- <-. cbn [r_prog r_guards]. split_and!; [done..|].
        apply Forall_app. split; [done|]. apply Forall_singleton. split; [done|]. by eapply rgrant_live.
      - injection E as <- <- <-. destruct Hok as [HIn Hok]. cbn [r_prog r_guards]. split_and!; [done..|].
        apply Forall_app. split; [done|]. apply Forall_singleton. cbn. split; [by split|intros []].
      - destruct (n <? length G) eqn:En; injection E as <- <- <-; cbn [r_prog r_guards].
        + apply Nat.ltb_lt in En. split_and!; [done|done| |by apply Forall_take]. by apply ok_prog_pop.
        + apply Nat.ltb_ge in En. rewrite take_ge in Hok by lia. done.
      - injection E as <- <- <-. cbn [r_prog r_guards]. split_and!; [done..|].
        apply Forall_app. split; [by apply Forall_take|by apply Forall_drop].
      - injection E as <- <- <-. destruct Hok as [-> Hok]. cbn [r_prog r_guards good].
        split_and!; [done|by exists x|done..]. }
    split; [|done]. split; cbn [b_world b_runs].
    - done.
    - rewrite insert_length. by apply g_len.
    - intros j y rj Hy Hj. destruct (decide (i = j)) as [<-|Hne].
      + rewrite list_lookup_insert in Hj by (by apply lookup_lt_Some in Er). injection Hj as <-.
        rewrite Hx in Hy. by injection Hy as <-.
      + rewrite list_lookup_insert_ne in Hj by done. by eapply g_run.
  Qed.

  Lemma ginv_start : ginv (b_start w ss).
  Proof.
    split; cbn [b_start b_world b_runs]; [done|by rewrite map_length|].
    intros i x r Hx Hr. rewrite list_lookup_fmap, Hx in Hr. injection Hr as <-. cbn [r_prog r_guards].
    destruct (Hsys i x Hx) as (H1 & H2 & H3 & H4). split; [|by apply Forall_nil_2]. by apply csys_ok.
  Qed.

  Lemma batch_reach tr s : b_reach thr (b_start w ss) tr s → ginv s ∧ ∀ i ev, (i, ev) ∈ tr → good i ev.
  Proof.
    induction 1 as [|tr s i s' ev _ [HI IH] Hs].
    - split; [apply ginv_start|]. intros i ev Hi. by apply elem_of_nil in Hi.
    - destruct (ginv_step _ _ _ _ HI Hs) as [HI' Hg]. split; [done|].
      intros j ev' Hj. apply elem_of_app in Hj as [Hj|Hj]; [by apply IH|].
      apply elem_of_list_singleton in Hj. by injection Hj as -> ->.
  Qed.
End batch.

(** The guards of the parameters are what was declared. *)
Lemma pguards_held home w tl ps : provided tl home w ps →
  held (flat_map (pguards home w) ps) = declares (sys_info tl ps).
Proof.
  intros Hp.
  assert (∀ r, r ∈ flat_map preqs ps → notall r → ∃ c, c ≠ CAll ∧ rg home w r = (c, t_excl (rinfo tl r)) ∧
    csid c = t_storage (rinfo tl r) ∧ t_storage (rinfo tl r) ≠ SAll) as Hr.
  { intros r Hr Hn. destruct (reqs_ready home w tl ps Hp r Hr Hn) as (c & a & Hg & _ & _ & Hne).
    destruct (rgrant_info tl _ _ _ _ _ Hg) as [H1 H2]. exists c. unfold rg. rewrite Hg, <-H2.
    split_and!; try done. rewrite <-H1. by destruct c. }
  assert (∀ rs, rs ⊆ flat_map preqs ps → Forall notall rs →
    held (flat_map (λ r, [(CAll, false); rg home w r]) rs) = declares (map (rinfo tl) rs)) as Hrs.
  { intros rs. induction rs as [|r rs IH]; intros Hsub Hn; [done|]. apply Forall_cons in Hn as [Hn Hns].
    destruct (Hr r) as (c & Hc & Hg & Hs & Hsa); [apply Hsub; by left|done|].
    unfold held, declares in *. cbn [flat_map app map].
    rewrite (filter_cons_False _ (CAll, false)) by (intros H; by apply H).
    rewrite filter_cons_True by (rewrite Hg; congruence). rewrite filter_cons_True by (by left).
    cbn [map]. rewrite IH by (done || set_solver). f_equal. by rewrite Hg, <-Hs. }
  assert (∀ ps', ps' ⊆ ps → held (flat_map (pguards home w) ps') = declares (sys_info tl ps')) as H; [|by apply H].
  assert (∀ a b, held (a ++ b) = held a ++ held b) as Hh.
  { intros a b. unfold held. by rewrite filter_app, map_app. }
  assert (∀ a b, declares (a ++ b) = declares a ++ declares b) as Hd.
  { intros a b. unfold declares. by rewrite filter_app, map_app. }
  induction ps' as [|p ps' IH]; intros Hsub; [done|].
  unfold sys_info in *. cbn [flat_map]. rewrite Hh, Hd, IH by set_solver. f_equal.
  assert (preqs p ⊆ flat_map preqs ps) as Hq.
  { intros r Hin. apply elem_of_list_In, in_flat_map. exists p. split; [|by apply elem_of_list_In].
    apply elem_of_list_In, Hsub. by left. }
  rewrite param_info_reqs. destruct p as [v|m|m T|m T]; cbn [pguards preqs] in *.
  - apply Hrs; [done|apply lreqs_notall].
  - destruct m; [done|]. unfold held, declares. cbn [map rinfo].
    rewrite filter_cons_False by (intros H; by apply H). rewrite filter_cons_False; [done|].
    cbn. intros [?|?]; done.
  - apply (Hrs [RUniq WNone m T]); [done|by repeat constructor].
  - rewrite <-(Hrs [RUniq WNone m T]) by (done || by repeat constructor).
    unfold held. cbn [flat_map app]. rewrite filter_cons_False by (intros H; by apply H). done.
Qed.

(** * C63 *)


Lemma trk_le_refl a : trk_le a a = true.
Proof. destruct a as [[[[] []] []] []]; done. Qed.
Lemma trk_le_or a b c : trk_le a b = true → trk_le a (trk_or b c) = true.
Proof.
  destruct a as [[[a1 a2] a3] a4], b as [[[b1 b2] b3] b4], c as [[[c1 c2] c3] c4]. cbn.
  destruct a1, a2, a3, a4, b1, b2, b3, b4; cbn; done || (intros _; by destruct c1, c2, c3, c4).
Qed.
Lemma trk_or_r a b : trk_le b (trk_or a b) = true.
Proof.
  destruct a as [[[a1 a2] a3] a4], b as [[[b1 b2] b3] b4]. cbn.
  by destruct b1, b2, b3, b4; cbn; destruct a1, a2, a3, a4.
Qed.

(** After the tracking of a workload was enabled, its component storages exist and track what its views
    ask for; the uniques are as before. *)
Lemma apply_tracking_ok home fs : ∀ w0 w, apply_tracking home w0 fs = inl w →
  b_uniqs w = b_uniqs w0 ∧
  (∀ k t, b_comps w0 !! k = Some t → ∃ t', b_comps w !! k = Some t' ∧ ∀ a, trk_le a t = true → trk_le a t' = true) ∧
  (∀ v T tr, (v, T, tr) ∈ fs → ∃ t, b_comps w !! (v, T) = Some t ∧ trk_le tr t = true).
Proof.
  induction fs as [|[[v T] tr] fs IH]; intros w0 w; cbn [apply_tracking].
  { intros [= <-]. split_and!; [done| |].
    - intros k t Hk. by exists t.
    - intros v T tr Hi. by apply elem_of_nil in Hi. }
  destruct (track_one home w0 (v, T, tr)) as [w1|e] eqn:E; [|done]. intros Ha.
  destruct (IH _ _ Ha) as (Hu & Hm & Ht).
  assert (b_uniqs w1 = b_uniqs w0 ∧
    (∀ k t, b_comps w0 !! k = Some t → ∃ t', b_comps w1 !! k = Some t' ∧ ∀ a, trk_le a t = true → trk_le a t' = true) ∧
    ∃ t, b_comps w1 !! (v, T) = Some t ∧ trk_le tr t = true) as (Hu1 & Hm1 & t1 & Ht1 & Htr1).
  { unfold track_one in E. destruct (attempt home [(CAll, false)] w0 (RComp v true T no_trk)) as [w2 a] eqn:Ea.
    destruct a as [g|e|]; [|done..]. injection E as <-. cbn [b_uniqs b_comps].
    assert (b_uniqs w2 = b_uniqs w0 ∧ ∀ k t, b_comps w0 !! k = Some t → b_comps w2 !! k = Some t) as [H1 H2].
    { cbn [attempt] in Ea. destruct (b_comps w0 !! (v, T)) as [t|] eqn:Et.
      - injection Ea as <- _. done.
      - destruct (negb home && _); [done|]. injection Ea as <- _. cbn [b_uniqs b_comps]. split; [done|].
        intros k t Hk. rewrite lookup_insert_ne; [done|]. intros <-. congruence. }
    split_and!; [done| |].
    - intros k t Hk. destruct (decide (k = (v, T))) as [->|Hne].
      + rewrite lookup_insert, (H2 _ _ Hk). cbn [default from_option]. eexists. split; [done|].
        intros b Hb. by apply trk_le_or.
      + rewrite lookup_insert_ne by done. exists t. split; [by apply H2|done].
    - rewrite lookup_insert. eexists. split; [done|]. apply trk_or_r. }
  split_and!; [congruence| |].
  - intros k t Hk. destruct (Hm1 k t Hk) as (t2 & Hk2 & Hle). destruct (Hm k t2 Hk2) as (t3 & Hk3 & Hle3).
    exists t3. split; [done|]. auto.
  - intros v' T' tr' Hi. apply elem_of_cons in Hi as [Hi|Hi]; [|by apply Ht].
    injection Hi as -> -> ->. destruct (Hm _ _ Ht1) as (t3 & Hk3 & Hle3). exists t3. split; [done|]. auto.
Qed.

(** The systems of one batch, each any interleaving of its steps with those of the others: no borrow is
    refused, nothing panics, when a system starts it holds what it declared, when it is over it
    returned Ok. [is]: the systems of the batch that run, [thr]: which of them are on the main thread.
    Not covered: parameters that declare nothing, two views of the same content that is not Sync in one
    system, missing uniques (see the refuted claims below). *)
Theorem C63_batch_never_refused_partial wl sc sc' info ba order k b tl sysof thr is w0 w tr s :
  built wl → create_workload wl sc = Some (sc', inr (info, ba, order)) → info !! k = Some b →
  (∀ i x, wl_systems wl !! i = Some x →
     w_borrows x = sys_info tl (s_params (sysof i)) ∧ system_valid (w_borrows x) = true ∧
     Forall (λ p, param_info tl p ≠ []) (s_params (sysof i)) ∧ NoDup (sys_xreads (s_params (sysof i))) ∧
     ∀ T v, (T, v) ∈ sys_uniqs (s_params (sysof i)) → ∃ n, b_uniqs w0 !! T = Some (n, v)) →
  apply_tracking true w0
    (flat_map (λ i, sys_tracking (s_params (sysof i))) (seq 0 (length (wl_systems wl)))) = inl w →
  NoDup is → (∀ i, i ∈ is → in_batch info i k) →
  (∀ p q, bi_single b = Some q → is !! p = Some (pos q) → thr p = true) →
  b_reach thr (b_start w (map sysof is)) tr s →
  (∀ p ev, (p, ev) ∈ tr →
     (∀ e, ev ≠ EvErr e) ∧ ev ≠ EvPanic ∧ ev ≠ EvAdd ∧
     ∀ gs i, ev = EvBody gs → is !! p = Some i →
       held gs = declares (sys_info tl (s_params (sysof i)))) ∧
  (∀ p r, b_runs s !! p = Some r → finished (r_prog r) → r_prog r = IDone) ∧
  (∀ g, g ∈ all_guards s → ¬ dangling (b_world s) g).
Proof.
  intros Hb Hc Hk Hsys Htrk Hnd Hin Hthr Hr.
  destruct (apply_tracking_ok _ _ _ _ Htrk) as (Hu & _ & Ht).
  assert (∀ i, i ∈ is → ∃ x, wl_systems wl !! i = Some x) as Hwl.
  { intros i Hi. destruct (Hin i Hi) as (b' & q & Hb' & Hq & <-).
    destruct (create_ok _ _ _ _ _ _ Hb Hc) as (segs & HP & _).
    destruct (member_sys wl sc info order segs k b' q Hb HP Hb' Hq) as (y & Hy & _). by exists y. }
  assert (∀ p x, map sysof is !! p = Some x →
    system_valid (sys_info tl (s_params x)) = true ∧ Forall (λ q, param_info tl q ≠ []) (s_params x) ∧
    NoDup (sys_xreads (s_params x)) ∧ provided tl (thr p) w (s_params x)) as H1.
  { intros p x Hp. rewrite list_lookup_fmap in Hp. apply fmap_Some in Hp as (i & Hp & ->).
    assert (i ∈ is) as Hi by (by eapply elem_of_list_lookup_2).
    destruct (Hwl i Hi) as [x Hx]. destruct (Hsys i x Hx) as (HB & Hv & Hne & Hxr & Huq). rewrite HB in Hv.
    split_and!; [done..|]. unfold provided. rewrite Hu. split; [done|]. split.
    - intros v T tr' Hf. apply Ht. apply elem_of_list_In, in_flat_map. exists i. split; [|by apply elem_of_list_In].
      apply List.in_seq. apply lookup_lt_Some in Hx. lia.
    - intros t Hti Hs. left. destruct (Hin i Hi) as (b' & q & Hb' & Hq & Hpos).
      rewrite Hk in Hb'. injection Hb' as <-. unfold members in Hq. apply elem_of_app in Hq as [Hq|Hq].
      + destruct (bi_single b) as [q'|] eqn:Es; [|by apply elem_of_nil in Hq].
        apply elem_of_list_singleton in Hq as ->. eapply Hthr; [done|]. by rewrite Hpos.
      + exfalso. rewrite <-HB in Hti. rewrite <-Hpos in Hx.
        destruct (C29_workers_only_get_safe_systems wl sc sc' info ba order k b q x t) as [H _]; congruence. }
  assert (∀ p q x y, p ≠ q → map sysof is !! p = Some x → map sysof is !! q = Some y →
    ¬ clash (sys_info tl (s_params x)) (sys_info tl (s_params y))) as H2.
  { intros p q x y Hne Hp Hq. rewrite list_lookup_fmap in Hp, Hq.
    apply fmap_Some in Hp as (i & Hp & ->). apply fmap_Some in Hq as (j & Hq & ->).
    assert (i ≠ j) by (intros ->; apply Hne; by eapply NoDup_lookup).
    assert (i ∈ is) as Hi by (by eapply elem_of_list_lookup_2).
    assert (j ∈ is) as Hj by (by eapply elem_of_list_lookup_2).
    destruct (Hwl i Hi) as [x Hx], (Hwl j Hj) as [y Hy].
    destruct (Hsys i x Hx) as [<- _]. destruct (Hsys j y Hy) as [<- _].
    apply (C29_batch_conflict_free wl sc sc' info ba order k i j x y); auto. }
  destruct (batch_reach tl thr w (map sysof is) H1 H2 tr s Hr) as [HI Hev].
  assert (∀ p r, b_runs s !! p = Some r → ∃ x, map sysof is !! p = Some x) as Hrun.
  { intros p r Hp. apply lookup_lt_is_Some_2. rewrite <-(g_len _ _ _ _ _ HI). by apply lookup_lt_Some in Hp. }
  split_and!.
  - intros p ev Hp. apply Hev in Hp. split_and!; [by destruct ev..|].
    intros gs i -> Hpi. destruct Hp as (x & Hx & ->). rewrite list_lookup_fmap, Hpi in Hx. injection Hx as <-.
    apply pguards_held. apply (H1 p). by rewrite list_lookup_fmap, Hpi.
  - intros p r Hp Hf. destruct (Hrun p r Hp) as [x Hx]. destruct (g_run _ _ _ _ _ HI p x r Hx Hp) as [Hok _].
    by destruct (r_prog r).
  - intros g Hg. unfold all_guards in Hg. apply elem_of_list_In, in_flat_map in Hg as (r & Hr' & Hg).
    apply elem_of_list_In, elem_of_list_lookup in Hr' as (p & Hp). apply elem_of_list_In in Hg.
    destruct (Hrun p r Hp) as [x Hx]. destruct (g_run _ _ _ _ _ HI p x r Hx Hp) as [_ HF].
    rewrite (g_world _ _ _ _ _ HI). eapply Forall_forall in HF as [_ HF]; [|exact Hg]. done.
Qed.

(** ** Every schedule ends *)

Fixpoint psize (p : prog) : nat :=
  match p with
  | IDone | IFail _ | IPanicked => 0
  | ITry _ ok err =>
      3 + psize ok + psize (err EBorrow) + psize (err EMissing) + psize (err EThread) + psize (err ETrack)
  | IClone k | IPopTo _ k | IPopAt _ k | IAdd _ k | IBody k => 1 + psize k
  end.
Definition potential (r : run) : nat := 2 * psize (r_prog r) + length (r_guards r).

Lemma run_step_potential home gs w r w' r' ev :
  run_step home gs w r = Some (w', r', ev) → potential r' < potential r.
Proof.
  unfold run_step, potential. destruct r as [p G]; cbn [r_prog r_guards].
  destruct p as [|e| |q ok err|k|n k|n k|T k|k]; cbn [psize]; try done.
  - destruct (attempt home gs w q) as [w1 a]. intros [= Hs].
    destruct a as [g|e|]; injection Hs as <- <- <-; cbn [r_prog r_guards psize].
    + rewrite app_length. cbn [length]. lia.
    + destruct e; lia.
    + lia.
  - intros [= <- <- <-]. cbn [r_prog r_guards]. rewrite app_length. cbn [length]. lia.
  - destruct (n <? length G) eqn:E; intros [= <- <- <-]; cbn [r_prog r_guards psize]; [|lia].
    apply Nat.ltb_lt in E. rewrite take_length. lia.
  - intros [= <- <- <-]. cbn [r_prog r_guards]. rewrite app_length, take_length, drop_length. lia.
  - intros [= <- <- <-]. cbn [r_prog r_guards]. lia.
  - intros [= <- <- <-]. cbn [r_prog r_guards]. lia.
Qed.

Lemma sum_insert (l : list run) : ∀ i r r', l !! i = Some r → potential r' < potential r →
  S (sum_list_with potential (<[i := r']> l)) ≤ sum_list_with potential l.
Proof.
  induction l as [|x l IH]; intros [|i] r r' Hi Hp; [done..| |].
  - injection Hi as ->. change (<[0 := r']> (r :: l)) with (r' :: l). cbn [sum_list_with]. lia.
  - change (<[S i := r']> (x :: l)) with (x :: <[i := r']> l). cbn [sum_list_with].
    specialize (IH i r r' Hi Hp). lia.
Qed.

(** Whatever the systems and the world: no schedule is longer than a bound that depends on the systems
    only, and when no system can go on, all of them are over. *)
Theorem C63_every_schedule_ends ss :
  ∃ bound, ∀ thr w tr s, b_reach thr (b_start w ss) tr s →
    length tr ≤ bound ∧
    ((∀ i, b_step thr s i = None) →
     ∀ i r, b_runs s !! i = Some r → finished (r_prog r) ∧ r_guards r = []).
Proof.
  exists (sum_list_with potential (b_runs (b_start (Build_bw ∅ ∅ 0%N) ss))). intros thr w tr s Hr. split.
  - assert (length tr + sum_list_with potential (b_runs s) ≤ sum_list_with potential (b_runs (b_start w ss)))
      as H; [|cbn [b_start b_runs] in *; lia].
    induction Hr as [|tr s i s' ev _ IH Hs]; [done|]. unfold b_step in Hs.
    destruct (b_runs s !! i) as [r|] eqn:Ei; [|done].
    destruct (run_step _ _ _ _) as [[[w' r'] ev']|] eqn:E; [|done]. injection Hs as <- <-.
    apply run_step_potential in E. pose proof (sum_insert _ _ _ _ Ei E). cbn [b_runs].
    rewrite app_length. cbn [length]. lia.
  - intros Hst i r Hi.
    assert (finished (r_prog r)) as Hf; [|split; [done|by eapply C63_finished_holds_nothing]].
    specialize (Hst i). unfold b_step in Hst. rewrite Hi in Hst.
    destruct (run_step _ _ _ _) as [[[w' r'] ev]|] eqn:E; [done|]. unfold run_step in E.
    destruct (r_prog r); try done. by destruct (attempt _ _ _ _) as [? []].
Qed.

(** * Concrete cases *)

Lemma b_exec_reach thr s0 is : ∀ tr s s' tr', b_reach thr s0 tr s → b_exec thr s is = Some (s', tr') →
  b_reach thr s0 (tr ++ tr') s'.
Proof.
  induction is as [|i is IH]; intros tr s s' tr' Hr; cbn [b_exec].
  - intros [= <- <-]. by rewrite app_nil_r.
  - destruct (b_step thr s i) as [[s1 ev]|] eqn:E; [|done].
    destruct (b_exec thr s1 is) as [[s2 tr2]|] eqn:E2; [|done]. intros [= <- <-].
    change (tr ++ (i, ev) :: tr2) with (tr ++ [(i, ev)] ++ tr2). rewrite app_assoc.
    eapply IH; [by econstructor|done].
Qed.
Definition exec_state thr s is : bst := match b_exec thr s is with Some (s, _) => s | None => s end.
Definition exec_trace thr s is : list (nat * bevent) := match b_exec thr s is with Some (_, t) => t | None => [] end.
Definition exec_ok thr s is : bool := match b_exec thr s is with Some _ => true | None => false end.
Lemma exec_reach thr s is : exec_ok thr s is = true →
  b_reach thr s (exec_trace thr s is) (exec_state thr s is).
Proof.
  unfold exec_ok, exec_trace, exec_state. destruct (b_exec thr s is) as [[s' tr]|] eqn:E; [|done]. intros _.
  by apply (b_exec_reach thr s is [] s s' tr (BR_init thr s) E).
Qed.

(** A world with one unique of type 5, added with add_unique. *)
Definition w5 : bw := {| b_comps := ∅; b_uniqs := {[ 5%N := (0%N, WNone) ]}; b_next := 1 |}.
Definition track_ins : trk := (true, false, false, false).
Definition track_mod : trk := (false, true, false, false).
(** Three systems: a tuple with an optional view and the entities; two views and a UniqueOrInitView the
    body of which calls get_or_init and set; a view of components that are not Send. *)
Definition vs0 : sys :=
  {| s_params := [PView (VTuple [VComp WNone false 1 track_ins; VOption (VUniq WNone false 5)]); PView (VEnt false)];
     s_acts := [] |}.
Definition vs1 : sys :=
  {| s_params := [PView (VComp WNone false 1 no_trk); PView (VComp WNone true 2 track_mod); POrInit false 5];
     s_acts := [BInit 2; BSet 2] |}.
Definition vs2 : sys := {| s_params := [PView (VComp WSend true 3 no_trk)]; s_acts := [] |}.
Definition vsys (i : nat) : sys := match i with 0 => vs0 | 1 => vs1 | _ => vs2 end.
Definition wsys_of (tl : bool) (n : N) (x : sys) : wsys := sy n (sys_info tl (s_params x)).

Definition vex : workload := nm 1 [wsys_of true 10 vs0; wsys_of true 11 vs1; wsys_of true 12 vs2].
Example vex_shape : shape vex = Some ([(Some 2, [0; 1])], [0; 1; 2]).
Proof. vm_compute. reflexivity. Qed.
Definition vex_result := Eval vm_compute in create_workload vex sc_new.
Definition vex_info : list binfo :=
  Eval vm_compute in match vex_result with Some (_, inr (i, _, _)) => i | _ => [] end.
Definition vex_ba : batches :=
  Eval vm_compute in match vex_result with Some (_, inr (_, b, _)) => b | _ => ba_new None end.
Definition vex_order : list psys :=
  Eval vm_compute in match vex_result with Some (_, inr (_, _, o)) => o | _ => [] end.
Definition vex_sc : sched := Eval vm_compute in match vex_result with Some (sc, _) => sc | _ => sc_new end.
Example vex_create : create_workload vex sc_new = Some (vex_sc, inr (vex_info, vex_ba, vex_order)).
Proof. vm_compute. reflexivity. Qed.
Definition vex_systems := Eval vm_compute in wl_systems vex.
Lemma vex_systems_eq : wl_systems vex = vex_systems.
Proof. vm_compute. reflexivity. Qed.

Definition w5t : bw :=
  match apply_tracking true w5 (flat_map (λ i, sys_tracking (s_params (vsys i))) (seq 0 3)) with
  | inl w => w | inr _ => w5
  end.
Definition on_main (i : nat) : bool := bool_decide (i = 2).
Definition vex_start : bst := b_start w5t (map vsys [0; 1; 2]).
Definition vex_schedule : list nat :=
  concat (replicate 6 [0; 1; 2]) ++ concat (replicate 10 [0; 1]).

(** The conditions of [C63_batch_never_refused_partial] are met by the batch; in the schedule all three
    systems start, two of them while the others hold their guards, and return. *)
Example C63_case :
  (∃ tr s,
    b_reach on_main vex_start tr s ∧
    (∀ g, g ∈ [(0, EvBody [(CAll, false); (CComp WNone 1, false); (CAll, false); (CUniq 5 0, false);
                          (CAll, false); (CEnt, false)]);
               (1, EvBody [(CAll, false); (CComp WNone 1, false); (CAll, false); (CComp WNone 2, true);
                          (CAll, false); (CAll, false); (CUniq 5 0, false)]);
               (2, EvBody [(CAll, false); (CComp WSend 3, true)])] → g ∈ tr) ∧
    map r_prog (b_runs s) = [IDone; IDone; IDone]) ∧
  built vex ∧ vex_info !! 0 = Some (hd bi_empty vex_info) ∧
  (∀ i x, wl_systems vex !! i = Some x →
     w_borrows x = sys_info true (s_params (vsys i)) ∧ system_valid (w_borrows x) = true ∧
     Forall (λ p, param_info true p ≠ []) (s_params (vsys i)) ∧ NoDup (sys_xreads (s_params (vsys i))) ∧
     ∀ T v, (T, v) ∈ sys_uniqs (s_params (vsys i)) → ∃ n, b_uniqs w5 !! T = Some (n, v)) ∧
  apply_tracking true w5
    (flat_map (λ i, sys_tracking (s_params (vsys i))) (seq 0 (length (wl_systems vex)))) = inl w5t ∧
  NoDup [0; 1; 2] ∧ (∀ i, i ∈ [0; 1; 2] → in_batch vex_info i 0) ∧
  (∀ p q, bi_single (hd bi_empty vex_info) = Some q → [0; 1; 2] !! p = Some (pos q) → on_main p = true).
Proof.
  split_and!.
  - exists (exec_trace on_main vex_start vex_schedule), (exec_state on_main vex_start vex_schedule).
    split_and!; [apply exec_reach; vm_compute; reflexivity| |vm_compute; reflexivity].
    intros g Hg. set_unfold in Hg. destruct Hg as [->|[->|[->|[]]]]; vm_compute;
      repeat (first [apply elem_of_list_here|apply elem_of_list_further]).
  - repeat constructor.
  - reflexivity.
  - intros i x Hx. rewrite vex_systems_eq in Hx.
    destruct i as [|[|[|i]]]; [injection Hx as <-..|done]; (split_and!;
      [vm_compute; reflexivity|vm_compute; reflexivity|by repeat constructor|by constructor|]);
      intros T v Hu; cbn in Hu; set_unfold in Hu; try done; destruct Hu as [[= -> ->]|[]]; by exists 0%N.
  - vm_compute. reflexivity.
  - repeat constructor; set_solver.
  - intros i Hi. set_unfold in Hi. destruct Hi as [->|[->|[->|[]]]];
      (eexists _, _; split; [reflexivity|]); cbn [members].
    + split; [apply elem_of_list_further, elem_of_list_here|reflexivity].
    + split; [apply elem_of_list_further, elem_of_list_further, elem_of_list_here|reflexivity].
    + split; [apply elem_of_list_here|reflexivity].
  - intros p q Hq Hp. injection Hq as <-. change (pos _) with 2 in Hp.
    by destruct p as [|[|[|p]]].
Qed.

(** The unconditional theorems: a system that is refused its last parameter gives back the others. *)
Definition vs3 : sys := {| s_params := [PView (VComp WNone true 1 no_trk); PView (VUniq WNone false 6)]; s_acts := [] |}.
Example C63_case_refused :
  ∃ tr s, b_reach on_main (b_start w5 [vs3]) tr s ∧ (0, EvErr EMissing) ∈ tr ∧
    map (λ r, (r_prog r, r_guards r)) (b_runs s) = [(IFail EMissing, [])] ∧
    ∃ tr' s', b_reach on_main (b_start w5 [vs3]) tr' s' ∧
      map r_guards (b_runs s') = [[(CAll, false); (CComp WNone 1, true); (CAll, false)]].
Proof.
  exists (exec_trace on_main (b_start w5 [vs3]) (replicate 9 0)),
    (exec_state on_main (b_start w5 [vs3]) (replicate 9 0)).
  split_and!; [apply exec_reach; vm_compute; reflexivity| |vm_compute; reflexivity|].
  { vm_compute. repeat (first [apply elem_of_list_here|apply elem_of_list_further]). }
  exists (exec_trace on_main (b_start w5 [vs3]) (replicate 3 0)),
    (exec_state on_main (b_start w5 [vs3]) (replicate 3 0)).
  split; [apply exec_reach; vm_compute; reflexivity|vm_compute; reflexivity].
Qed.

(** * What is false *)

(** The systems [xs] of a workload that the scheduler accepts one by one and puts in one batch. *)
Definition one_batch (tl : bool) (xs : list sys) (wl : workload) : Prop :=
  built wl ∧ (∀ i x, xs !! i = Some x → ∃ y, wl_systems wl !! i = Some y ∧ w_borrows y = sys_info tl (s_params x) ∧
    system_valid (w_borrows y) = true) ∧
  ∃ sc' info ba order, create_workload wl sc_new = Some (sc', inr (info, ba, order)) ∧
    ∀ i, i < length xs → in_batch info i 0.

Definition wl2 (tl : bool) (x y : sys) : workload := nm 1 [wsys_of tl 10 x; wsys_of tl 11 y].
Definition batch2_b (tl : bool) (x y : sys) : bool :=
  system_valid (sys_info tl (s_params x)) && system_valid (sys_info tl (s_params y)) &&
  match create_workload (wl2 tl x y) sc_new with
  | Some (_, inr (b :: _, _, _)) => bool_decide (0 ∈ map pos (members b)) && bool_decide (1 ∈ map pos (members b))
  | _ => false
  end.
Lemma batch2_b_ok tl x y : batch2_b tl x y = true → one_batch tl [x; y] (wl2 tl x y).
Proof.
  unfold batch2_b. intros H. apply andb_prop in H as [Hv H]. apply andb_prop in Hv as [Hv1 Hv2].
  split; [apply built_nm; repeat constructor|]. split.
  - intros i z Hz. destruct i as [|[|i]]; [injection Hz as <-..|done]; eexists; (split; [reflexivity|]); done.
  - destruct (create_workload (wl2 tl x y) sc_new) as [[sc' [e|[[[|b info] ba] order]]]|]; try done.
    exists sc', (b :: info), ba, order. split; [done|]. apply andb_prop in H as [H1 H2].
    apply bool_decide_eq_true in H1, H2. intros i Hi. cbn [length] in Hi.
    assert (i ∈ map pos (members b)) as Hm by (by destruct i as [|[|i]]; [done..|lia]).
    apply elem_of_list_fmap in Hm as (q & -> & Hq). by exists b, q.
Qed.

(** Wanted: the systems of a batch never refuse each other a borrow. A parameter that declares nothing, [()],
    borrows all storages for a moment: its system is put in the batch of one that uses all storages
    exclusively and one of the two fails. *)
Definition e_all : sys := {| s_params := [PAll true]; s_acts := [] |}.
Definition e_unit : sys := {| s_params := [PView VNothing]; s_acts := [] |}.
Theorem C63_declares_nothing_refuted :
  one_batch true [e_all; e_unit] (wl2 true e_all e_unit) ∧
  (∃ tr s, b_reach (λ i, i =? 0) (b_start w5 [e_all; e_unit]) tr s ∧
     map r_prog (b_runs s) = [IDone; IFail EBorrow]) ∧
  (∃ tr s, b_reach (λ i, i =? 0) (b_start w5 [e_all; e_unit]) tr s ∧
     map r_prog (b_runs s) = [IFail EBorrow; IDone]) ∧
  (** .. and one system with both is accepted, but can never run. *)
  let x := {| s_params := s_params e_all ++ s_params e_unit; s_acts := [] |} in
  system_valid (sys_info true (s_params x)) = true ∧
  ∃ tr s, b_reach (λ _, true) (b_start w5 [x]) tr s ∧ map r_prog (b_runs s) = [IFail EBorrow].
Proof.
  cbv zeta. split_and!.
  - apply batch2_b_ok. vm_compute. reflexivity.
  - eexists _, _. split; [apply (exec_reach _ _ [0; 1; 1; 0; 0; 0]); vm_compute; reflexivity|vm_compute; reflexivity].
  - eexists _, _. split; [apply (exec_reach _ _ [1; 0; 0; 1; 1; 1; 1]); vm_compute; reflexivity|vm_compute; reflexivity].
  - vm_compute. reflexivity.
  - eexists _, _. split; [apply (exec_reach _ _ [0; 0; 0; 0]); vm_compute; reflexivity|vm_compute; reflexivity].
Qed.

(** Wanted: a system the scheduler accepts gets its views when it runs alone. Two shared views of
    the same components that are not Sync are accepted, the second one is always refused. *)
Definition e_twice : sys :=
  {| s_params := [PView (VComp WSync false 1 no_trk); PView (VComp WSync false 1 no_trk)]; s_acts := [] |}.
Theorem C63_not_sync_twice_refuted :
  system_valid (sys_info true (s_params e_twice)) = true ∧
  ∃ tr s, b_reach (λ _, true) (b_start w5 [e_twice]) tr s ∧ map r_prog (b_runs s) = [IFail EBorrow].
Proof.
  split; [vm_compute; reflexivity|].
  eexists _, _. split; [apply (exec_reach _ _ (replicate 9 0)); vm_compute; reflexivity|vm_compute; reflexivity].
Qed.

(** Wanted: views of the systems of a batch stay valid. Two UniqueOrDefaultView of the same unique are
    both declared as shared and put in one batch. When the unique is missing both add it; the second
    one frees the storage the first one is looking at. *)
Definition e_default : sys := {| s_params := [POrDefault false 7]; s_acts := [] |}.
Theorem C63_or_default_refuted :
  one_batch true [e_default; e_default] (wl2 true e_default e_default) ∧
  ∃ tr s r g, b_reach (λ _, false) (b_start w5 [e_default; e_default]) tr s ∧
    (∀ i e, (i, EvErr e) ∈ tr → e = EMissing) ∧
    b_runs s !! 0 = Some r ∧ (∃ gs, (0, EvBody gs) ∈ tr) ∧ g ∈ r_guards r ∧ dangling (b_world s) g.
Proof.
  split; [apply batch2_b_ok; vm_compute; reflexivity|].
  set (is := [0; 0; 1; 1; 0; 0; 0; 1]).
  exists (exec_trace (λ _, false) (b_start w5 [e_default; e_default]) is),
    (exec_state (λ _, false) (b_start w5 [e_default; e_default]) is),
    {| r_prog := IPopTo 0 IDone; r_guards := [(CAll, false); (CUniq 7 1, false)] |}, (CUniq 7 1, false).
  split_and!; [apply exec_reach; vm_compute; reflexivity| |vm_compute; reflexivity| | |].
  - intros i e Hi. vm_compute in Hi. set_unfold in Hi. naive_solver.
  - eexists. vm_compute. repeat (first [apply elem_of_list_here|apply elem_of_list_further]).
  - cbn [r_guards]. repeat (first [apply elem_of_list_here|apply elem_of_list_further]).
  - intros v Hv. vm_compute in Hv. done.
Qed.

(** The same with UniqueOrInitView: both bodies call set. *)
Definition e_init : sys := {| s_params := [POrInit false 7]; s_acts := [BSet 0] |}.
Theorem C63_or_init_refuted :
  one_batch true [e_init; e_init] (wl2 true e_init e_init) ∧
  ∃ tr s r g, b_reach (λ _, false) (b_start w5 [e_init; e_init]) tr s ∧
    b_runs s !! 0 = Some r ∧ ¬ finished (r_prog r) ∧ g ∈ r_guards r ∧ dangling (b_world s) g.
Proof.
  split; [apply batch2_b_ok; vm_compute; reflexivity|].
  set (is := replicate 6 0 ++ replicate 6 1 ++ [0; 0; 0; 1]).
  exists (exec_trace (λ _, false) (b_start w5 [e_init; e_init]) is),
    (exec_state (λ _, false) (b_start w5 [e_init; e_init]) is),
    {| r_prog := IPopTo 0 IDone; r_guards := [(CAll, false); (CAll, false); (CUniq 7 1, false)] |}, (CUniq 7 1, false).
  split_and!; [apply exec_reach; vm_compute; reflexivity|vm_compute; reflexivity| | |].
  - cbn. tauto.
  - cbn [r_guards]. repeat (first [apply elem_of_list_here|apply elem_of_list_further]).
  - intros v Hv. vm_compute in Hv. done.
Qed.

(** Wanted: an optional view is None when it cannot be had. The view of a unique with the
    wrong wrapper panics. *)
Definition e_wrong : sys := {| s_params := [PView (VOption (VUniq WSend false 5))]; s_acts := [] |}.
Theorem C63_option_refuted :
  ∃ tr s, b_reach (λ _, true) (b_start w5 [e_wrong]) tr s ∧ (0, EvPanic) ∈ tr ∧
    map r_prog (b_runs s) = [IPanicked].
Proof.
  exists (exec_trace (λ _, true) (b_start w5 [e_wrong]) (replicate 4 0)),
    (exec_state (λ _, true) (b_start w5 [e_wrong]) (replicate 4 0)).
  split_and!; [apply exec_reach; vm_compute; reflexivity| |vm_compute; reflexivity].
  vm_compute. repeat (first [apply elem_of_list_here|apply elem_of_list_further]).
Qed.

Print Assumptions C63_held_is_declared.
Print Assumptions C63_accepted.
Print Assumptions C63_finished_holds_nothing.
Print Assumptions C63_every_schedule_ends.
Print Assumptions C63_batch_never_refused_partial.
Print Assumptions C63_declares_nothing_refuted.
Print Assumptions C63_not_sync_twice_refuted.
Print Assumptions C63_or_default_refuted.
Print Assumptions C63_or_init_refuted.
Print Assumptions C63_option_refuted.
