(** Properties of [Workload::are_all_uniques_present_in_world] (C67). *)
From stdpp Require Import prelude list gmap.
From Coq Require Import NArith.
From Verif Require Import Sched SchedSpec ViewTypes UniqueCheck PropsSched PropsSched2 PropsSched3 PropsParams.
Local Open Scope nat_scope.

(** * Spec *)

(** The unique was added. *)
Definition there (w : bw) (T : N) : Prop := is_Some (b_uniqs w !! T).
(** What the systems need, in order; [what] and [sys_needs]: PropsParams.v. *)
Definition all_needs (ss : list usys) : list (what * bool) := flat_map (λ x, sys_needs (s_params (u_sys x))) ss.

(** The uniques a view cannot do without. *)
Fixpoint view_must (v : view) : list N :=
  match v with
  | VUniq _ _ T => [T]
  | VTuple vs => flat_map view_must vs
  | _ => []
  end.
Definition param_must (p : param) : list N := match p with PView v => view_must v | _ => [] end.
(** The uniques a parameter may add. *)
Definition param_adds (p : param) : list N :=
  match p with POrDefault _ T | POrInit _ T => [T] | _ => [] end.

(** * The answer *)

Lemma check_one tl ps w :
  match check_uniques_in_systems w (sys_info tl ps) with
  | None => ∀ T m, (WhUniq T, m) ∈ sys_needs ps → there w T
  | Some t => ∃ l1 l2 T, sys_needs ps = l1 ++ (WhUniq T, t_excl t) :: l2 ∧ t_storage t = sid_uniq T ∧
      ¬ there w T ∧ ∀ T' m, (WhUniq T', m) ∈ l1 → there w T'
  end.
Proof.
  pose proof (info_needs tl ps) as E. revert E. generalize (sys_info tl ps) as bs, (sys_needs ps) as ns.
  induction bs as [|t bs IH]; intros ns E; cbn [check_uniques_in_systems].
  - destruct ns; [|done]. intros T m H. by apply elem_of_nil in H.
  - destruct ns as [|[x m] ns]; [done|]. injection E as Es Em E. specialize (IH ns E).
    assert (uniq_of t = match x with WhUniq T => Some T | _ => None end) as ->.
    { unfold uniq_of. cbn [fst] in Es. rewrite Es. destruct x; cbn [wsid]; unfold sid_ent, sid_comp, sid_uniq; [done|done| |].
      - rewrite (proj2 (N.eqb_neq _ _)) by lia. by rewrite N.add_1_r, N.even_succ, N.odd_mul.
      - rewrite (proj2 (N.eqb_neq _ _)) by lia.
        replace (N.even (2 * T + 2)) with true by (rewrite N.even_add, N.even_mul; done).
        f_equal. replace (2 * T + 2)%N with ((T + 1) * 2)%N by lia. rewrite N.div_mul by lia. lia. }
    cbn [snd] in Em. subst m.
    destruct (match x with WhUniq T => Some T | _ => None end) as [T|] eqn:Ex.
    + destruct x; try done. injection Ex as ->. destruct (b_uniqs w !! T) as [u|] eqn:Eu.
      * destruct (check_uniques_in_systems w bs) as [t'|].
        { destruct IH as (l1 & l2 & T' & -> & ? & ? & H). exists ((WhUniq T, t_excl t) :: l1), l2, T'.
          split_and!; [done..|]. intros T2 m [[= -> ->]|H2]%elem_of_cons; [by exists u|by eapply H]. }
        { intros T2 m [[= -> ->]|H2]%elem_of_cons; [by exists u|by eapply IH]. }
      * exists [], ns, T. split_and!; [done|done| |].
        { unfold there. rewrite Eu. by intros [? ?]. }
        { intros T' m H. by apply elem_of_nil in H. }
    + destruct (check_uniques_in_systems w bs) as [t'|].
      * destruct IH as (l1 & l2 & T' & -> & ? & ? & H). exists ((x, t_excl t) :: l1), l2, T'.
        split_and!; [done..|]. intros T2 m [[= <- ->]|H2]%elem_of_cons; [done|by eapply H].
      * intros T2 m [[= <- ->]|H2]%elem_of_cons; [done|by eapply IH].
Qed.

(** The check fails as a whole exactly when all storages are exclusively borrowed.  Otherwise it names
    the first missing unique, in the order of the systems and their parameters, and is Ok exactly when there
    is none. *)
Theorem C67_answer tl gs w ss :
  match are_all_uniques_present tl gs w ss with
  | UPOk => (CAll, true) ∉ gs ∧ ∀ T m, (WhUniq T, m) ∈ all_needs ss → there w T
  | UPUnique t => (CAll, true) ∉ gs ∧
      ∃ l1 l2 T, all_needs ss = l1 ++ (WhUniq T, t_excl t) :: l2 ∧ t_storage t = sid_uniq T ∧
        ¬ there w T ∧ ∀ T' m, (WhUniq T', m) ∈ l1 → there w T'
  | UPAllStorages => (CAll, true) ∈ gs
  end.
Proof.
  unfold are_all_uniques_present, try_cell, access_of.
  assert (blocked gs CAll ARead = true ↔ (CAll, true) ∈ gs) as Hb.
  { unfold blocked. rewrite existsb_exists. setoid_rewrite <-elem_of_list_In. unfold blocks. split.
    - intros ([c m] & Hg & E). apply andb_prop in E as [E1 E2]. apply bool_decide_eq_true in E1.
      cbn [fst snd] in *. by subst.
    - intros H. eexists. split; [done|]. by vm_compute. }
  destruct (blocked gs CAll ARead) eqn:Eb; [by apply Hb|].
  assert ((CAll, true) ∉ gs) as Hn by (by intros ?%Hb).
  assert (match check_systems w (map (constraints tl) ss) with
    | UPOk => ∀ T m, (WhUniq T, m) ∈ all_needs ss → there w T
    | UPUnique t => ∃ l1 l2 T, all_needs ss = l1 ++ (WhUniq T, t_excl t) :: l2 ∧ t_storage t = sid_uniq T ∧
        ¬ there w T ∧ ∀ T' m, (WhUniq T', m) ∈ l1 → there w T'
    | UPAllStorages => False
    end) as H.
  { clear -ss. induction ss as [|x ss IH]; cbn [map check_systems all_needs flat_map].
    - intros T m H. by apply elem_of_nil in H.
    - unfold constraints at 1. pose proof (check_one tl (s_params (u_sys x)) w) as H1.
      destruct (check_uniques_in_systems w _) as [t|].
      + destruct H1 as (l1 & l2 & T & -> & ? & ? & H). eexists l1, _, T. rewrite <-app_assoc. by split_and!.
      + destruct (check_systems _ _) as [|t|]; [| |done].
        * intros T m [H|H]%elem_of_app; [by eapply H1|by eapply IH].
        * destruct IH as (l1 & l2 & T & E & ? & ? & H). unfold all_needs in E. rewrite E.
          eexists (_ ++ l1), l2, T. rewrite <-app_assoc. split_and!; [done..|].
          intros T' m [H'|H']%elem_of_app; [by eapply H1|by eapply H]. }
  by destruct (check_systems _ _).
Qed.

(** * What Ok means *)

Lemma attempt_uniqs home gs w r w' a : attempt home gs w r = (w', a) → b_uniqs w' = b_uniqs w.
Proof.
  destruct r as [m|m|v m T tr|v m T]; cbn [attempt]; try by intros [= <- _].
  - destruct (b_comps w !! (v, T)); [by intros [= <- _]|]. destruct (negb home && _); by intros [= <- _].
  - destruct (b_uniqs w !! T) as [[n v']|]; by intros [= <- _].
Qed.
Lemma run_step_there home gs w r w' r' ev T :
  run_step home gs w r = Some (w', r', ev) → there w T → there w' T.
Proof.
  unfold run_step. destruct (r_prog r) as [|e| |q ok err|k|n k|n k|T' k|k]; try done.
  - destruct (attempt home gs w q) as [w1 a] eqn:E. apply attempt_uniqs in E. unfold there.
    destruct a; intros [= <- _ _]; by rewrite E.
  - by intros [= <- _ _].
  - by intros [= <- _ _].
  - by intros [= <- _ _].
  - intros [= <- _ _] [u Hu]. unfold there. cbn [add_uniq b_uniqs].
    destruct (decide (T = T')) as [->|Hne]; [rewrite lookup_insert|rewrite lookup_insert_ne by done]; eauto.
  - by intros [= <- _ _].
Qed.
Lemma attempt_missing home gs w r w' : attempt home gs w r = (w', AErr EMissing) →
  ∃ v m T, r = RUniq v m T ∧ ¬ there w T.
Proof.
  assert (∀ c v m, try_cell gs c v m home ≠ AErr EMissing) as Ht.
  { intros c v m. unfold try_cell. destruct (access_of _ _ _); [|done]. by destruct (blocked _ _ _). }
  destruct r as [m|m|v m T tr|v m T]; cbn [attempt].
  - intros [= _ E]. by apply Ht in E.
  - intros [= _ E]. by apply Ht in E.
  - destruct (b_comps w !! (v, T)).
    + intros [= _ E]. destruct (try_cell _ _ _ _ _) as [|e|] eqn:E1; [by destruct (trk_le _ _)| |done].
      injection E as ->. by apply Ht in E1.
    + destruct (negb home && _); [done|]. intros [= _ E].
      destruct (try_cell _ _ _ _ _) as [|e|] eqn:E1; [by destruct (trk_le _ _)| |done].
      injection E as ->. by apply Ht in E1.
  - destruct (b_uniqs w !! T) as [[n v']|] eqn:Eu.
    + intros [= _ E]. destruct (try_cell _ _ _ _ _) as [|e|] eqn:E1; [by case_bool_decide| |done].
      injection E as ->. by apply Ht in E1.
    + intros _. exists v, m, T. split; [done|]. unfold there. rewrite Eu. by intros [? ?].
Qed.
Lemma req_needs tl ps v m T : req_ok (sys_info tl ps) (RUniq v m T) → ∃ m, (WhUniq T, m) ∈ sys_needs ps.
Proof.
  intros (t & Ht & Es & _). exists (t_excl t).
  apply elem_of_list_lookup in Ht as [i Hi]. pose proof (info_at tl ps i) as E. rewrite Hi in E. cbn in E.
  symmetry in E. apply fmap_Some in E as ([x m'] & Hx & E). injection E as E1 E2. cbn [fst snd] in *.
  rewrite Es in E1. assert (x = WhUniq T) as -> by (apply wsid_inj; by rewrite <-E1).
  rewrite E2. by eapply elem_of_list_lookup_2.
Qed.
Lemma batch_present thr w ss tr s :
  (∀ x T m, x ∈ ss → (WhUniq T, m) ∈ sys_needs (s_params x) → there w T) →
  b_reach thr (b_start w ss) tr s →
  (∀ T, there w T → there (b_world s) T) ∧ ∀ i, (i, EvErr EMissing) ∉ tr.
Proof.
  intros Hp. induction 1 as [|tr s i s' ev Hr [IH1 IH2] Hs]; [split; [done|intros i; apply not_elem_of_nil]|].
  unfold b_step in Hs. destruct (b_runs s !! i) as [r|] eqn:Ei; [|done].
  destruct (run_step _ _ _ _) as [[[w' r'] ev']|] eqn:E; [|done]. injection Hs as <- <-. cbn [b_world].
  split; [intros T HT; eapply run_step_there; [done|by apply IH1]|].
  intros j [Hj|Hj]%elem_of_app; [by eapply IH2|]. apply elem_of_list_singleton in Hj as [= -> <-].
  pose proof (reach_length _ _ _ _ Hr) as Hl. cbn [b_start b_runs] in Hl. rewrite map_length in Hl.
  destruct (lookup_lt_is_Some_2 ss i) as [x Hx]; [apply lookup_lt_Some in Ei; lia|].
  destruct (reach_inv true _ _ _ _ _ Hr _ _ _ Hx Ei) as (_ & Hq & _).
  unfold run_step in E. destruct (r_prog r) as [|e| |q ok err|k|n k|n k|T' k|k]; try done.
  destruct (attempt _ _ _ q) as [w1 a] eqn:Ea. destruct a as [g|e|]; injection E as _ _ E; try done. subst e.
  destruct (attempt_missing _ _ _ _ _ Ea) as (v & m & T & -> & Hn). destruct Hq as (Hq & _).
  apply req_needs in Hq as [m' Hm]. apply Hn, IH1. eapply Hp; [by eapply elem_of_list_lookup_2|done].
Qed.

(** When the answer is Ok, no system of the workload is refused a unique because it is missing: not in
    the first batch nor in the later ones, whatever the batches, the threads and the interleaving. *)
Theorem C67_never_missing tl gs w ss sss trs thr w' :
  are_all_uniques_present tl gs w ss = UPOk →
  (∀ b x, b ∈ sss → x ∈ b → x ∈ map u_sys ss) →
  chain thr w sss trs w' →
  ∀ tr i, tr ∈ trs → (i, EvErr EMissing) ∉ tr.
Proof.
  intros Ha Hs. pose proof (C67_answer tl gs w ss) as H. rewrite Ha in H. destruct H as [_ H].
  intros Hc. assert (∀ b x T m, b ∈ sss → x ∈ b → (WhUniq T, m) ∈ sys_needs (s_params x) → there w T) as Hp.
  { intros b x T m Hb Hx Hm. apply (H T m). unfold all_needs. apply elem_of_list_In, in_flat_map.
    pose proof (Hs _ _ Hb Hx) as (y & -> & Hy)%elem_of_list_fmap. exists y. by split; apply elem_of_list_In. }
  clear H Ha Hs ss. induction Hc as [w|w ss sss tr trs s w' Hr Hc IH]; intros tr' i Ht; [by apply elem_of_nil in Ht|].
  destruct (batch_present _ _ _ _ _ (λ x T m, Hp ss x T m (elem_of_list_here _ _)) Hr) as [H1 H2].
  apply elem_of_cons in Ht as [->|Ht]; [apply H2|]. apply IH; [|done].
  intros b x T m Hb Hx Hm. apply H1. eapply Hp; [by right|done..].
Qed.

(** * What an error means *)

(** A program that does not reach its body without the unique [T]. *)
Fixpoint stuck (T : N) (p : prog) : Prop :=
  match p with
  | IDone | IFail _ | IPanicked => True
  | ITry r ok err => (match r with RUniq _ _ T' => T' = T | _ => False end ∨ stuck T ok) ∧ ∀ e, stuck T (err e)
  | IClone k | IPopTo _ k | IPopAt _ k | IAdd _ k => stuck T k
  | IBody _ => False
  end.
Lemma cview_stuck T v : ∀ n ok err,
  (∀ e, stuck T (err e)) → T ∈ view_must v ∨ (∀ m, stuck T (ok m)) → stuck T (cview v n ok err).
Proof.
  induction v as [|m|w m T' tr|w m T'|v IH|vs IH] using view_ind'; intros n ok err Herr Hok;
    cbn [cview leaf stuck view_must] in *.
  - destruct Hok as [H|H]; [by apply elem_of_nil in H|apply H].
  - split; [right|done]. destruct Hok as [H|H]; [by apply elem_of_nil in H|apply H].
  - split; [right|done]. destruct Hok as [H|H]; [by apply elem_of_nil in H|apply H].
  - split; [|done]. destruct Hok as [H|H]; [left; by apply elem_of_list_singleton in H|right; apply H].
  - destruct Hok as [H|H]; [by apply elem_of_nil in H|]. apply IH; [intros; apply H|by right].
  - generalize (n + 1) as m. induction IH as [|v vs Hv _ IHvs]; intros m; cbn [foldr stuck].
    + destruct Hok as [H|H]; [by apply elem_of_nil in H|apply H].
    + cbn [flat_map] in Hok. apply Hv; [done|]. destruct Hok as [[H|H]%elem_of_app|H]; [by left|right..].
      * apply IHvs. by left.
      * apply IHvs. by right.
Qed.
Lemma cparams_stuck T ps acts qs : ∀ i full n, T ∈ flat_map param_must qs →
  stuck T (cparams ps qs acts i full n).
Proof.
  induction qs as [|q qs IH]; intros i full n HT; cbn [cparams flat_map] in *; [by apply elem_of_nil in HT|].
  destruct q as [v|m|m T'|m T']; cbn [stuck param_must] in *.
  - split; [right|done]. apply cview_stuck; [done|]. apply elem_of_app in HT as [?|?]; [by left|right; intros; by apply IH].
  - split; [right; by apply IH|done].
  - assert (stuck T (cview (VUniq WNone m T') n (cparams ps qs acts (S i) full) give_up)) as Ha.
    { apply cview_stuck; [done|right; intros; by apply IH]. }
    split; [right|done]. split; [by right|]. intros []; done.
  - split; [right|done]. apply (cview_stuck T (VUniq WNone m T')); [|right; intros; by apply IH].
    intros []; try done. by apply IH.
Qed.

(** Only the uniques of these parameters are added. *)
Fixpoint adds_prog (A : list N) (p : prog) : Prop :=
  match p with
  | IDone | IFail _ | IPanicked => True
  | ITry r ok err => adds_prog A ok ∧ ∀ e, adds_prog A (err e)
  | IAdd T k => T ∈ A ∧ adds_prog A k
  | IClone k | IPopTo _ k | IPopAt _ k | IBody k => adds_prog A k
  end.
Lemma cview_adds A v : ∀ n ok err,
  (∀ m, adds_prog A (ok m)) → (∀ e, adds_prog A (err e)) → adds_prog A (cview v n ok err).
Proof.
  induction v as [|m|w m T tr|w m T|v IH|vs IH] using view_ind'; intros n ok err Hok Herr;
    cbn [cview leaf adds_prog]; try done.
  - by apply IH.
  - generalize (n + 1) as m. induction IH as [|v vs Hv _ IHvs]; intros m; cbn [foldr adds_prog]; [apply Hok|].
    by apply Hv.
Qed.
Lemma cbody_adds ps acts : ∀ full n, adds_prog (flat_map param_adds ps) (cbody ps acts full n).
Proof.
  induction acts as [|a acts IH]; intros full n; cbn [cbody adds_prog]; [done|].
  destruct (ps !! bact_ix a) as [[v|m|m T|m T]|] eqn:E; try apply IH. case_bool_decide; [apply IH|].
  assert (T ∈ flat_map param_adds ps) as HT.
  { apply elem_of_list_In, in_flat_map. exists (POrInit m T).
    split; [apply elem_of_list_In; by eapply elem_of_list_lookup_2|by left]. }
  assert (∀ missing, adds_prog (flat_map param_adds ps) missing → adds_prog (flat_map param_adds ps)
    (IClone (cview (VUniq WNone m T) n (λ n', cbody ps acts (bact_ix a :: full) n')
    (λ e, match e with EMissing => missing | _ => cbody ps acts full n end)))) as Hb.
  { intros missing Hm. cbn [adds_prog]. apply cview_adds; [intros; apply IH|intros []; (apply IH || done)]. }
  destruct a; repeat (apply Hb || apply IH || (split; [done|]) || cbn [adds_prog]).
Qed.
Lemma cparams_adds ps acts qs : ∀ i full n, qs ⊆ ps →
  adds_prog (flat_map param_adds ps) (cparams ps qs acts i full n).
Proof.
  induction qs as [|q qs IH]; intros i full n Hq; cbn [cparams]; [apply cbody_adds|].
  assert (q ∈ ps) as Hqp by (apply Hq; by left). assert (qs ⊆ ps) as Hqs by set_solver.
  destruct q as [v|m|m T|m T]; cbn [adds_prog].
  - split; [|done]. apply cview_adds; [intros; by apply IH|done].
  - split; [by apply IH|done].
  - assert (T ∈ flat_map param_adds ps) as HT.
    { apply elem_of_list_In, in_flat_map. exists (POrDefault m T). split; [by apply elem_of_list_In|by left]. }
    assert (adds_prog (flat_map param_adds ps)
      (cview (VUniq WNone m T) n (cparams ps qs acts (S i) full) give_up)) as Ha.
    { apply cview_adds; [intros; by apply IH|done]. }
    split; [|done]. split; [done|]. intros []; done.
  - split; [|done]. apply (cview_adds _ (VUniq WNone m T)); [intros; by apply IH|]. intros []; try done. by apply IH.
Qed.

Lemma run_step_adds A home gs w r w' r' ev T :
  T ∉ A → adds_prog A (r_prog r) → ¬ there w T → run_step home gs w r = Some (w', r', ev) →
  ¬ there w' T ∧ adds_prog A (r_prog r') ∧
  (stuck T (r_prog r) → stuck T (r_prog r') ∧ ∀ gs', ev ≠ EvBody gs').
Proof.
  intros HA Hp Hn. unfold run_step. destruct (r_prog r) as [|e| |q ok err|k|n k|n k|T' k|k]; cbn [adds_prog stuck] in *; try done.
  - destruct (attempt home gs w q) as [w1 a] eqn:E. pose proof (attempt_uniqs _ _ _ _ _ _ E) as Eu.
    assert (¬ there w1 T) as Hn1 by (unfold there; by rewrite Eu). destruct Hp as [H1 H2].
    destruct a as [g|e|]; intros [= <- <- <-]; cbn [r_prog adds_prog stuck]; split_and!; try done.
    + intros [[Hq|H] _]; [|done]. exfalso. destruct q as [| | |v m T']; try done. subst T'.
      apply attempt_guard in E as (n & Hu & _). apply Hn. by exists (n, v).
    + intros [_ H]. split; [apply H|done].
  - intros [= <- <- <-]. cbn [r_prog]. done.
  - destruct (n <? length _); intros [= <- <- <-]; cbn [r_prog adds_prog stuck]; done.
  - intros [= <- <- <-]. cbn [r_prog]. done.
  - intros [= <- <- <-]. cbn [r_prog]. destruct Hp as [H1 H2]. split_and!; [|done|done].
    unfold there. cbn [add_uniq b_uniqs]. rewrite lookup_insert_ne by (by intros ->). done.
  - intros [= <- <- <-]. cbn [r_prog]. done.
Qed.

(** When a unique is named, every system with a parameter that cannot do without it is refused: as long as nothing
    that runs with it can add the unique, its body is never reached. *)
Theorem C67_named_never_runs tl gs w ss t T :
  are_all_uniques_present tl gs w ss = UPUnique t → t_storage t = sid_uniq T →
  ∀ thr xs tr s i x, b_reach thr (b_start w xs) tr s → xs !! i = Some x →
    T ∈ flat_map param_must (s_params x) → (∀ y, y ∈ xs → T ∉ flat_map param_adds (s_params y)) →
    ∀ gs', (i, EvBody gs') ∉ tr.
Proof.
  intros Ha Et. pose proof (C67_answer tl gs w ss) as H. rewrite Ha in H.
  destruct H as (_ & l1 & l2 & T' & _ & Et' & Hn & _).
  assert (T' = T) as ->. { rewrite Et in Et'. by injection (wsid_inj (WhUniq T) (WhUniq T') Et') as ->. }
  intros thr xs tr s i x Hr Hx HT HA.
  assert (¬ there (b_world s) T ∧
    (∀ j y r, xs !! j = Some y → b_runs s !! j = Some r → adds_prog (flat_map param_adds (s_params y)) (r_prog r)) ∧
    (∀ r, b_runs s !! i = Some r → stuck T (r_prog r)) ∧ ∀ gs', (i, EvBody gs') ∉ tr) as (_ & _ & _ & ?); [|done].
  induction Hr as [|tr s j s' ev Hr (IH1 & IH2 & IH3 & IH4) Hs].
  - split_and!; [done| | |intros ?; apply not_elem_of_nil].
    + intros j y r Hy Hj. cbn [b_start b_runs] in Hj. rewrite list_lookup_fmap, Hy in Hj. injection Hj as <-.
      by apply cparams_adds.
    + intros r Hj. cbn [b_start b_runs] in Hj. rewrite list_lookup_fmap, Hx in Hj. injection Hj as <-.
      by apply cparams_stuck.
  - unfold b_step in Hs. destruct (b_runs s !! j) as [r|] eqn:Ej; [|done].
    destruct (run_step _ _ _ _) as [[[w' r'] ev']|] eqn:E; [|done]. injection Hs as <- <-. cbn [b_world b_runs].
    pose proof (reach_length _ _ _ _ Hr) as Hl. cbn [b_start b_runs] in Hl. rewrite map_length in Hl.
    destruct (lookup_lt_is_Some_2 xs j) as [y Hy]; [apply lookup_lt_Some in Ej; lia|].
    destruct (run_step_adds _ _ _ _ _ _ _ _ T (HA y (elem_of_list_lookup_2 _ _ _ Hy)) (IH2 _ _ _ Hy Ej) IH1 E) as (H1 & H2 & H3).
    pose proof (lookup_lt_Some _ _ _ Ej) as Hlt. split_and!; [done| | |].
    + intros k z r2 Hz Hk. destruct (decide (j = k)) as [->|Hne].
      * rewrite list_lookup_insert in Hk by done. injection Hk as <-. rewrite Hy in Hz. by injection Hz as <-.
      * rewrite list_lookup_insert_ne in Hk by done. by eapply IH2.
    + intros r2 Hk. destruct (decide (j = i)) as [->|Hne].
      * rewrite list_lookup_insert in Hk by done. injection Hk as <-. apply H3. by apply IH3.
      * rewrite list_lookup_insert_ne in Hk by done. by apply IH3.
    + intros gs' [Hg|Hg]%elem_of_app; [by eapply IH4|]. apply elem_of_list_singleton in Hg as [= -> <-].
      by eapply H3; [apply IH3|].
Qed.

(** * Cases *)

(** The first system cannot do without the unique 5, the second one not without 5 and 6. *)
Definition uq0 : usys :=
  {| u_sys := {| s_params := [PView (VTuple [VComp WNone true 1 no_trk; VUniq WNone false 5])]; s_acts := [] |};
     u_cond := None |}.
Definition uq1 : usys :=
  {| u_sys := {| s_params := [PView (VEnt false); PView (VTuple [VUniq WNone false 5; VUniq WNone true 6])]; s_acts := [] |};
     u_cond := None |}.
Definition w56 : bw :=
  {| b_comps := ∅; b_uniqs := {[ 5%N := (0%N, WNone); 6%N := (1%N, WNone) ]}; b_next := 2 |}.
Definition uq_missing : tinfo := {| t_storage := sid_uniq 6; t_excl := true; t_safe := true |}.

(** Both uniques are there: the answer is Ok and both systems reach their bodies, in two batches. *)
Example C67_case_ok :
  are_all_uniques_present true [] w56 [uq0; uq1] = UPOk ∧
  ∃ trs w', chain (λ _, true) w56 [[u_sys uq0]; [u_sys uq1]] trs w' ∧
    Forall (λ tr, existsb (λ e, match e.2 with EvBody _ => true | _ => false end) tr = true) trs.
Proof.
  split; [vm_compute; reflexivity|].
  set (is := replicate 12 0). set (js := replicate 16 0).
  set (s1 := exec_state (λ _, true) (b_start w56 [u_sys uq0]) is).
  eexists [exec_trace (λ _, true) (b_start w56 [u_sys uq0]) is; exec_trace (λ _, true) (b_start (b_world s1) [u_sys uq1]) js], _.
  split.
  - econstructor; [apply exec_reach; vm_compute; reflexivity|].
    econstructor; [apply exec_reach; vm_compute; reflexivity|constructor].
  - apply Forall_cons; split; [vm_compute; reflexivity|].
    apply Forall_cons; split; [vm_compute; reflexivity|done].
Qed.

(** The unique 6 is missing: it is named, the second system is refused, the first one runs. *)
Example C67_case_missing :
  are_all_uniques_present true [(CAll, false)] w5 [uq0; uq1] = UPUnique uq_missing ∧
  t_storage uq_missing = sid_uniq 6 ∧
  6%N ∈ flat_map param_must (s_params (u_sys uq1)) ∧
  (∀ y, y ∈ [u_sys uq0; u_sys uq1] → 6%N ∉ flat_map param_adds (s_params y)) ∧
  ∃ tr s, b_reach (λ _, true) (b_start w5 [u_sys uq0; u_sys uq1]) tr s ∧ (1, EvErr EMissing) ∈ tr ∧
    map r_prog (b_runs s) = [IDone; IFail EMissing].
Proof.
  split_and!; [vm_compute; reflexivity..| | |].
  - cbn. set_solver.
  - intros y Hy. set_unfold in Hy. destruct Hy as [->|[->|[]]]; cbn; set_solver.
  - set (is := replicate 12 0 ++ replicate 16 1).
    exists (exec_trace (λ _, true) (b_start w5 [u_sys uq0; u_sys uq1]) is), (exec_state (λ _, true) (b_start w5 [u_sys uq0; u_sys uq1]) is).
    split_and!; [apply exec_reach; vm_compute; reflexivity| |vm_compute; reflexivity].
    vm_compute. repeat (first [apply elem_of_list_here|apply elem_of_list_further]).
Qed.
Example C67_case_borrowed :
  are_all_uniques_present true [(CEnt, false); (CAll, true)] w56 [uq0; uq1] = UPAllStorages.
Proof. vm_compute. reflexivity. Qed.

(** * What is false *)

(** Wanted: a unique that is named makes the workload fail.  A unique that is only borrowed through an Option, or that the
    view itself adds when it is missing, is named too; the systems run. *)
Definition uq_opt : usys :=
  {| u_sys := {| s_params := [PView (VOption (VUniq WNone false 6))]; s_acts := [] |}; u_cond := None |}.
Definition uq_default : usys := {| u_sys := {| s_params := [POrDefault true 6]; s_acts := [] |}; u_cond := None |}.
Theorem C67_named_refuted :
  ∀ x, x ∈ [uq_opt; uq_default] →
  (∃ t, are_all_uniques_present true [] w5 [x] = UPUnique t ∧ t_storage t = sid_uniq 6) ∧
  ∃ tr s gs, b_reach (λ _, true) (b_start w5 [u_sys x]) tr s ∧ (0, EvBody gs) ∈ tr ∧ map r_prog (b_runs s) = [IDone].
Proof.
  intros x Hx. set_unfold in Hx. destruct Hx as [->|[->|[]]].
  - split; [eexists; split; vm_compute; reflexivity|]. set (is := replicate 6 0).
    eexists (exec_trace (λ _, true) (b_start w5 [u_sys uq_opt]) is),
      (exec_state (λ _, true) (b_start w5 [u_sys uq_opt]) is), _.
    split_and!; [apply exec_reach; vm_compute; reflexivity| |vm_compute; reflexivity].
    vm_compute. repeat (first [apply elem_of_list_here|apply elem_of_list_further]).
  - split; [eexists; split; vm_compute; reflexivity|]. set (is := replicate 8 0).
    eexists (exec_trace (λ _, true) (b_start w5 [u_sys uq_default]) is),
      (exec_state (λ _, true) (b_start w5 [u_sys uq_default]) is), _.
    split_and!; [apply exec_reach; vm_compute; reflexivity| |vm_compute; reflexivity].
    vm_compute. repeat (first [apply elem_of_list_here|apply elem_of_list_further]).
Qed.

(** Wanted: when the answer is Ok, running the workload does not fail for a missing unique.  The run
    conditions are not looked at. *)
Definition uq_cond : usys :=
  {| u_sys := {| s_params := [PView (VUniq WNone false 5)]; s_acts := [] |}; u_cond := Some [PView (VUniq WNone false 6)] |}.
Theorem C67_run_if_refuted :
  are_all_uniques_present true [] w5 [uq_cond] = UPOk ∧
  ∃ ps, u_cond uq_cond = Some ps ∧
  ∃ tr s, b_reach (λ _, true) {| b_world := w5; b_runs := [{| r_prog := ccond ps; r_guards := [] |}] |} tr s ∧
    map r_prog (b_runs s) = [IFail EMissing].
Proof.
  split; [vm_compute; reflexivity|]. eexists. split; [reflexivity|].
  eexists _, _. split; [apply (exec_reach _ _ (replicate 5 0)); vm_compute; reflexivity|vm_compute; reflexivity].
Qed.

Print Assumptions C67_answer.
Print Assumptions C67_never_missing.
Print Assumptions C67_named_never_runs.
Print Assumptions C67_named_refuted.
Print Assumptions C67_run_if_refuted.
