(** Property C76: timestamps follow happens-before under weak memory, and a system that runs
    repeatedly sees each change in exactly one of its runs. *)
From stdpp Require Import prelude list gmap.
From Coq Require Import NArith.
From Verif Require Import EntityId Base SparseSet WeakClock.
Open Scope N_scope.

(** * Happens-before, from the trace alone *)

(** An event continues thread [inn] and is continued by thread [out]. *)
Definition inn (e : cevent) : N := match e with ERmw t _ _ _ _ => t | ELoad t _ _ _ => t | ESync a _ => a end.
Definition out (e : cevent) : N := match e with ERmw t _ _ _ _ => t | ELoad t _ _ _ => t | ESync _ b => b end.
Definition edge (tr : list cevent) (i j : nat) : Prop :=
  (i < j)%nat ∧ ∃ e e', tr !! i = Some e ∧ tr !! j = Some e' ∧ out e = inn e'.
Inductive hb (tr : list cevent) (i : nat) : nat → Prop :=
| hb_edge j : edge tr i j → hb tr i j
| hb_trans j k : hb tr i j → edge tr j k → hb tr i k.

(** Event [i] handed out the timestamp [c]: get_current, get_tracking_timestamp. *)
Definition fetched (tr : list cevent) (i : nat) (c : N) : Prop := ∃ t τ v', tr !! i = Some (ERmw t 0 τ c v').
Definition loaded (tr : list cevent) (i : nat) (c : N) : Prop := ∃ t τ, tr !! i = Some (ELoad t 0 τ c).
Definition stamped (tr : list cevent) (i : nat) (c : N) : Prop := fetched tr i c ∨ loaded tr i c.

(** A run of system [j]: [f] is its get_current, [k] its swap of last_run; it sees the changes with a
    timestamp within [last] and [cur]. *)
Definition sys_run (tr : list cevent) (j : N) (f k : nat) (last cur : N) : Prop :=
  ∃ t τ v' τ', tr !! f = Some (ERmw t 0 τ cur v') ∧ tr !! k = Some (ERmw t (j + 1) τ' last cur) ∧ (f < k)%nat.

(** ** Lemmas about happens-before *)

Lemma hb_lt tr i j : hb tr i j → (i < j < length tr)%nat.
Proof.
  assert (∀ i j, edge tr i j → (i < j < length tr)%nat) as He.
  { intros a b (H & e & e' & _ & Hb & _). split; [done|]. by apply lookup_lt_Some in Hb. }
  induction 1 as [j H|j k _ IH H]; apply He in H; lia.
Qed.
Lemma edge_app tr e i j : edge (tr ++ [e]) i j →
  edge tr i j ∨ (j = length tr ∧ ∃ ei, tr !! i = Some ei ∧ out ei = inn e).
Proof.
  intros (Hlt & ei & ej & Hi & Hj & Ho).
  pose proof (lookup_lt_Some _ _ _ Hj) as Hl. rewrite app_length in Hl. cbn [length] in Hl.
  rewrite lookup_app_l in Hi by lia. destruct (decide (j = length tr)) as [->|Hne].
  - right. split; [done|]. exists ei. split; [done|]. rewrite list_lookup_middle in Hj by done. congruence.
  - left. rewrite lookup_app_l in Hj by lia. split; [done|]. by exists ei, ej.
Qed.
Lemma edge_mono tr e i j : edge tr i j → edge (tr ++ [e]) i j.
Proof.
  intros (Hlt & ei & ej & Hi & Hj & Ho). split; [done|]. exists ei, ej.
  split_and!; [by apply lookup_app_l_Some..|done].
Qed.
Lemma hb_mono tr e i j : hb tr i j → hb (tr ++ [e]) i j.
Proof.
  induction 1 as [j H|j k _ IH H]; [by apply hb_edge, edge_mono|]. eapply hb_trans; [exact IH|by apply edge_mono].
Qed.
(** Event [i] happens before whatever thread [t] does next. *)
Definition knows (tr : list cevent) (i : nat) (t : N) : Prop :=
  ∃ k e, (i = k ∨ hb tr i k) ∧ tr !! k = Some e ∧ out e = t.
Lemma hb_app tr e i j : hb (tr ++ [e]) i j → hb tr i j ∨ (j = length tr ∧ knows tr i (inn e)).
Proof.
  induction 1 as [j H|j k Hij IH H].
  - apply edge_app in H as [H|(-> & ei & Hi & Ho)]; [left; by apply hb_edge|].
    right. split; [done|]. exists i, ei. auto.
  - pose proof (hb_lt _ _ _ Hij) as Hl. apply edge_app in H as [H|(-> & ej & Hj & Ho)].
    + destruct IH as [IH|[-> _]]; [left; by eapply hb_trans|].
      destruct H as (_ & ? & ? & H & _). apply lookup_lt_Some in H. lia.
    + destruct IH as [IH|[-> _]].
      * right. split; [done|]. exists j, ej. auto.
      * apply lookup_lt_Some in Hj. lia.
Qed.
Lemma knows_app tr e i t : knows (tr ++ [e]) i t → (i < length tr)%nat →
  knows tr i t ∨ (t = out e ∧ knows tr i (inn e)).
Proof.
  intros (k & ek & Hik & Hk & Ho) Hi. pose proof (lookup_lt_Some _ _ _ Hk) as Hl.
  rewrite app_length in Hl. cbn [length] in Hl. destruct (decide (k = length tr)) as [->|Hne].
  - rewrite list_lookup_middle in Hk by done. injection Hk as <-. right. split; [done|].
    destruct Hik as [->|Hik]; [lia|]. apply hb_app in Hik as [Hik|[_ ?]]; [|done].
    apply hb_lt in Hik. lia.
  - rewrite lookup_app_l in Hk by lia. left. exists k, ek. split_and!; [|done..].
    destruct Hik as [?|Hik]; [by left|right]. apply hb_app in Hik as [?|[-> _]]; [done|lia].
Qed.
Lemma hb_hb tr i j k : hb tr i j → hb tr j k → hb tr i k.
Proof. intros Hij. induction 1 as [k H|k m _ IH H]; by eapply hb_trans. Qed.
Lemma hb_asym tr i j : hb tr i j → hb tr j i → False.
Proof. intros H1%hb_lt H2%hb_lt. lia. Qed.

(** * The invariant *)

(** The message a thread has seen after an event, and the message an event reads. *)
Definition upto (e : cevent) (l τ : N) : Prop :=
  match e with ERmw _ l' τ' _ _ => l = l' ∧ τ = τ' + 1 | ELoad _ l' τ' _ => l = l' ∧ τ = τ' | ESync _ _ => False end.
Definition from (e : cevent) (l τ : N) : Prop :=
  match e with ERmw _ l' τ' _ _ => l = l' ∧ τ = τ' | ELoad _ l' τ' _ => l = l' ∧ τ = τ' | ESync _ _ => False end.

Record cinv (tr : list cevent) (s : cst) : Prop := {
  i_len : ∀ l, ∃ n, (∀ τ, is_Some (c_mem s l τ) ↔ τ ≤ n) ∧ (∀ t, c_seen s t l ≤ n) ∧ n ≤ N.of_nat (length tr);
  i_rmw : ∀ i t l τ v v', tr !! i = Some (ERmw t l τ v v') → c_mem s l τ = Some v ∧ c_mem s l (τ + 1) = Some v';
  i_load : ∀ i t l τ v, tr !! i = Some (ELoad t l τ v) → l = 0 ∧ c_mem s l τ = Some v;
  i_src : ∀ l τ v, c_mem s l (τ + 1) = Some v → ∃ i t w, tr !! i = Some (ERmw t l τ w v);
  i_zero : ∀ l, c_mem s l 0 = Some (if l =? 0 then 1 else 0);
  i_ctr : ∀ τ v, c_mem s 0 τ = Some v → v = (τ + 1) mod 2 ^ 64;
  i_know : ∀ i e l τ t, tr !! i = Some e → upto e l τ → knows tr i t → τ ≤ c_seen s t l;
  i_hb : ∀ i j e e' l τ τ', tr !! i = Some e → tr !! j = Some e' → hb tr i j → upto e l τ → from e' l τ' → τ ≤ τ';
  i_ord : ∀ i j t t' l τ τ' v v' w w', (i < j)%nat → tr !! i = Some (ERmw t l τ v v') →
            tr !! j = Some (ERmw t' l τ' w w') → τ + 1 ≤ τ';
  i_cur : ∀ t c, c_cur s t = Some c → ∃ i τ v', tr !! i = Some (ERmw t 0 τ c v');
  i_swap : ∀ k t j τ v c, tr !! k = Some (ERmw t (j + 1) τ v c) →
             ∃ f τ' v', (f < k)%nat ∧ tr !! f = Some (ERmw t 0 τ' c v')
}.

Lemma upd2_eq {A} (f : N → N → A) a b x : upd2 f a b x a b = x.
Proof. unfold upd2. by rewrite !N.eqb_refl. Qed.
Lemma upd2_ne {A} (f : N → N → A) a b x a' b' : (a', b') ≠ (a, b) → upd2 f a b x a' b' = f a' b'.
Proof.
  intros H. unfold upd2. destruct (N.eqb_spec a' a) as [->|]; [|done].
  destruct (N.eqb_spec b' b) as [->|]; [|done]. done.
Qed.

Lemma snoc_lookup (tr : list cevent) e i x : (tr ++ [e]) !! i = Some x →
  tr !! i = Some x ∨ (i = length tr ∧ x = e).
Proof.
  intros H. pose proof (lookup_lt_Some _ _ _ H) as Hl. rewrite app_length in Hl. cbn [length] in Hl.
  destruct (decide (i = length tr)) as [->|Hne].
  - rewrite list_lookup_middle in H by done. injection H as ->. by right.
  - rewrite lookup_app_l in H by lia. by left.
Qed.

Lemma cinv_init : cinv [] c_init.
Proof.
  split; try (intros; done).
  - intros l. exists 0. cbn [c_init c_mem c_seen]. split_and!; [|done|done]. intros τ.
    destruct (N.eqb_spec τ 0) as [->|]; split; [done|by eexists|by intros []|lia].
  - intros l τ v H. cbn [c_init c_mem] in H. destruct (N.eqb_spec (τ + 1) 0); [lia|done].
  - intros τ v H. cbn [c_init c_mem] in H. destruct (N.eqb_spec τ 0) as [->|]; [|done]. by injection H as <-.
Qed.

(** The history parts that only grow. *)
Lemma rmw_inv tr s t l τ f s' v v' :
  cinv tr s → c_rmw t l τ f s = Some (s', v, v') →
  v' = f v ∧ c_mem s l τ = Some v ∧ c_mem s l (τ + 1) = None ∧ c_seen s t l ≤ τ ∧
  c_mem s' = upd2 (c_mem s) l (τ + 1) (Some v') ∧ c_seen s' = upd2 (c_seen s) t l (τ + 1) ∧ c_cur s' = c_cur s ∧
  (∀ τ' w, c_mem s l τ' = Some w → τ' ≤ τ).
Proof.
  intros Hi. unfold c_rmw. destruct (c_mem s l τ) as [x|] eqn:E1; [|done].
  destruct (c_mem s l (τ + 1)) eqn:E2; [done|]. destruct (c_seen s t l <=? τ) eqn:E3; [|done].
  intros [= <- <- <-]. apply N.leb_le in E3. split_and!; try done. intros τ' w Hw.
  destruct (i_len _ _ Hi l) as (n & Hn & _).
  assert (¬ is_Some (c_mem s l (τ + 1))) as H1 by (rewrite E2; by intros [? [=]]).
  assert (τ' ≤ n) by (apply Hn; by eexists). rewrite Hn in H1. lia.
Qed.

(** A read-modify-write, whatever becomes of [c_cur]. *)
Lemma step_rmw tr s t l τ f s' v v' s2 :
  cinv tr s → c_rmw t l τ f s = Some (s', v, v') →
  c_mem s2 = c_mem s' → c_seen s2 = c_seen s' →
  (l = 0 → v' = (v + 1) mod 2 ^ 64) →
  (∀ t' c, c_cur s2 t' = Some c → c_cur s t' = Some c ∨ (t' = t ∧ l = 0 ∧ c = v)) →
  (l ≠ 0 → c_cur s t = Some v') →
  cinv (tr ++ [ERmw t l τ v v']) s2.
Proof.
  intros Hi Hr Hm Hs Hl0 Hc Hl1.
  destruct (rmw_inv _ _ _ _ _ _ _ _ _ Hi Hr) as (-> & Hv & Hn & Hsn & Hm' & Hs' & _ & Hlast).
  rewrite Hm' in Hm. rewrite Hs' in Hs. clear Hm' Hs' Hr.
  assert (∀ l' τ' w, c_mem s l' τ' = Some w → c_mem s2 l' τ' = Some w) as Hold.
  { intros l' τ' w H. rewrite Hm, upd2_ne; [done|]. intros [= -> ->]. congruence. }
  assert (∀ t' l', c_seen s t' l' ≤ c_seen s2 t' l') as Hsold.
  { intros t' l'. rewrite Hs. destruct (decide ((t', l') = (t, l))) as [[= -> ->]|Hne].
    - rewrite upd2_eq. lia.
    - rewrite upd2_ne by done. lia. }
  split.
  - intros l'. destruct (i_len _ _ Hi l') as (n & H1 & H2 & H3). rewrite app_length. cbn [length].
    destruct (decide (l' = l)) as [->|Hne].
    + assert (n = τ) as ->.
      { assert (τ ≤ n) by (apply H1; by eexists). assert (¬ τ + 1 ≤ n) by (rewrite <-H1, Hn; by intros [? [=]]). lia. }
      exists (τ + 1). split_and!; [| |lia].
      * intros τ'. rewrite Hm. destruct (decide (τ' = τ + 1)) as [->|Hne].
        -- rewrite upd2_eq. split; [lia|by eexists].
        -- rewrite upd2_ne by congruence. rewrite H1. lia.
      * intros t'. rewrite Hs. specialize (H2 t'). destruct (decide (t' = t)) as [->|Hne].
        -- rewrite upd2_eq. lia.
        -- rewrite upd2_ne by congruence. lia.
    + exists n. split_and!; [| |lia].
      * intros τ'. rewrite Hm, upd2_ne by congruence. apply H1.
      * intros t'. rewrite Hs, upd2_ne by congruence. apply H2.
  - intros i t' l' τ' w w' H. apply snoc_lookup in H as [H|[_ H]].
    + destruct (i_rmw _ _ Hi _ _ _ _ _ _ H) as [? ?]. auto.
    + injection H as -> -> -> -> ->. split; [auto|]. by rewrite Hm, upd2_eq.
  - intros i t' l' τ' w H. apply snoc_lookup in H as [H|[_ H]]; [|done].
    destruct (i_load _ _ Hi _ _ _ _ _ H) as [-> ?]. auto.
  - intros l' τ' w H. rewrite Hm in H. destruct (decide ((l', τ' + 1) = (l, τ + 1))) as [He|Hne].
    + injection He as -> ?. assert (τ' = τ) as -> by lia. rewrite upd2_eq in H. injection H as <-.
      exists (length tr), t, v. by rewrite list_lookup_middle.
    + rewrite upd2_ne in H by done. destruct (i_src _ _ Hi _ _ _ H) as (i & t' & w' & Hx).
      exists i, t', w'. by apply lookup_app_l_Some.
  - intros l'. apply Hold, (i_zero _ _ Hi).
  - intros τ' w H. rewrite Hm in H. destruct (decide ((0, τ') = (l, τ + 1))) as [[= <- ->]|Hne].
    + rewrite upd2_eq in H. injection H as <-. rewrite Hl0 by done. apply (i_ctr _ _ Hi) in Hv as ->.
      by rewrite N.add_mod_idemp_l.
    + rewrite upd2_ne in H by done. by apply (i_ctr _ _ Hi).
  - intros i e l' τ' t' He Hu Hk. pose proof He as He'. apply snoc_lookup in He as [He|[-> ->]].
    + apply knows_app in Hk; [|by apply lookup_lt_Some in He]. cbn [out inn] in Hk.
      etrans; [|apply Hsold]. destruct Hk as [Hk|[-> Hk]]; eapply (i_know _ _ Hi); eassumption.
    + destruct Hk as (k & ek & [<-|Hk] & Hek & <-).
      * rewrite list_lookup_middle in Hek by done. injection Hek as <-. cbn [out upto] in *.
        destruct Hu as [-> ->]. by rewrite Hs, upd2_eq.
      * apply hb_lt in Hk. rewrite app_length in Hk. cbn [length] in Hk. lia.
  - intros i j e e' l' τ1 τ2 He He' Hh Hu Hf. apply hb_app in Hh as [Hh|[-> Hk]].
    + apply hb_lt in Hh as Hlt. rewrite lookup_app_l in He, He' by lia. eapply (i_hb _ _ Hi i j); eassumption.
    + rewrite list_lookup_middle in He' by done. injection He' as <-. cbn [from inn] in *.
      destruct Hf as [-> ->]. assert (i < length tr)%nat.
      { destruct Hk as (k & ek & [->|Hk] & Hek & _); [by apply lookup_lt_Some in Hek|]. apply hb_lt in Hk. lia. }
      rewrite lookup_app_l in He by lia. etrans; [|exact Hsn]. eapply (i_know _ _ Hi); eassumption.
  - intros i j t1 t2 l' τ1 τ2 a a' w w' Hlt H1 H2. apply snoc_lookup in H2 as [H2|[-> H2]].
    + apply lookup_lt_Some in H2 as ?. rewrite lookup_app_l in H1 by lia. eapply (i_ord _ _ Hi i j); eassumption.
    + injection H2 as -> -> -> -> ->. rewrite lookup_app_l in H1 by lia.
      destruct (i_rmw _ _ Hi _ _ _ _ _ _ H1) as [_ H]. by eapply Hlast.
  - intros t' c H. apply Hc in H as [H|(-> & -> & ->)].
    + destruct (i_cur _ _ Hi _ _ H) as (i & τ' & w & Hx). exists i, τ', w. by apply lookup_app_l_Some.
    + exists (length tr), τ, (f v). by rewrite list_lookup_middle.
  - intros k t' j τ' w c H. apply snoc_lookup in H as [H|[-> H]].
    + destruct (i_swap _ _ Hi _ _ _ _ _ _ H) as (g & τ2 & w' & ? & Hg). exists g, τ2, w'.
      split; [done|by apply lookup_app_l_Some].
    + injection H as -> <- -> -> ->. destruct (i_cur _ _ Hi t (f v)) as (i & τ2 & w & Hx); [apply Hl1; lia|].
      exists i, τ2, w. split; [by apply lookup_lt_Some in Hx|by apply lookup_app_l_Some].
Qed.

(** An event that writes nothing: what it makes a thread see is there. *)
Lemma step_other tr s e s2 :
  cinv tr s → (∀ t l τ v v', e ≠ ERmw t l τ v v') →
  (∀ t l τ v, e = ELoad t l τ v → l = 0 ∧ c_mem s 0 τ = Some v ∧ c_seen s t 0 ≤ τ) →
  c_mem s2 = c_mem s → c_cur s2 = c_cur s →
  (∀ t l, c_seen s t l ≤ c_seen s2 t l) →
  (∀ l, c_seen s (inn e) l ≤ c_seen s2 (out e) l) →
  (∀ l τ, upto e l τ → τ ≤ c_seen s2 (out e) l) →
  (∀ t l, ∃ t', c_seen s2 t l ≤ c_seen s t' l ∨ is_Some (c_mem s l (c_seen s2 t l))) →
  cinv (tr ++ [e]) s2.
Proof.
  intros Hi Hn Hl Hm Hc Hs Hin Hu Hb.
  split.
  - intros l. destruct (i_len _ _ Hi l) as (n & H1 & H2 & H3). exists n. rewrite app_length, Hm. split_and!; [done| |lia].
    intros t. destruct (Hb t l) as (t' & [H|H]); [etrans; [exact H|done]|by apply H1].
  - intros i t l τ v v' H. apply snoc_lookup in H as [H|[_ H]]; [|by destruct (Hn t l τ v v')].
    rewrite Hm. by eapply (i_rmw _ _ Hi).
  - intros i t l τ v H. rewrite Hm. apply snoc_lookup in H as [H|[_ H]]; [by eapply (i_load _ _ Hi)|].
    destruct (Hl _ _ _ _ (eq_sym H)) as (-> & ? & _). done.
  - intros l τ v H. rewrite Hm in H. destruct (i_src _ _ Hi _ _ _ H) as (i & t' & w' & Hx).
    exists i, t', w'. by apply lookup_app_l_Some.
  - intros l. rewrite Hm. apply (i_zero _ _ Hi).
  - intros τ v H. rewrite Hm in H. by apply (i_ctr _ _ Hi).
  - intros i e' l' τ' t' He Hup Hk. pose proof He as He'. apply snoc_lookup in He as [He|[-> ->]].
    + apply knows_app in Hk; [|by apply lookup_lt_Some in He].
      destruct Hk as [Hk|[-> Hk]]; [etrans; [|apply Hs]|etrans; [|apply Hin]]; eapply (i_know _ _ Hi); eassumption.
    + destruct Hk as (k & ek & [<-|Hk] & Hek & <-).
      * rewrite list_lookup_middle in Hek by done. injection Hek as <-. by apply Hu.
      * apply hb_lt in Hk. rewrite app_length in Hk. cbn [length] in Hk. lia.
  - intros i j e1 e2 l' τ1 τ2 He He' Hh Hup Hf. apply hb_app in Hh as [Hh|[-> Hk]].
    + apply hb_lt in Hh as Hlt. rewrite lookup_app_l in He, He' by lia. eapply (i_hb _ _ Hi i j); eassumption.
    + rewrite list_lookup_middle in He' by done. injection He' as <-.
      destruct e as [? ? ? ? ?|t l τ v|]; [by destruct (Hn t l τ v v')| |done]. cbn [from inn] in *.
      destruct Hf as [-> ->]. destruct (Hl _ _ _ _ eq_refl) as (-> & _ & Hle). assert (i < length tr)%nat.
      { destruct Hk as (k & ek & [->|Hk] & Hek & _); [by apply lookup_lt_Some in Hek|]. apply hb_lt in Hk. lia. }
      rewrite lookup_app_l in He by lia. etrans; [|exact Hle]. eapply (i_know _ _ Hi); eassumption.
  - intros i j t1 t2 l' τ1 τ2 a a' w w' Hlt H1 H2. apply snoc_lookup in H2 as [H2|[-> H2]].
    + apply lookup_lt_Some in H2 as ?. rewrite lookup_app_l in H1 by lia. eapply (i_ord _ _ Hi i j); eassumption.
    + symmetry in H2. by apply Hn in H2.
  - intros t' c H. rewrite Hc in H. destruct (i_cur _ _ Hi _ _ H) as (i & τ' & w & Hx). exists i, τ', w.
    by apply lookup_app_l_Some.
  - intros k t' j τ' w c H. apply snoc_lookup in H as [H|[-> H]].
    + destruct (i_swap _ _ Hi _ _ _ _ _ _ H) as (g & τ2 & w' & ? & Hg). exists g, τ2, w'.
      split; [done|by apply lookup_app_l_Some].
    + symmetry in H. by apply Hn in H.
Qed.

Lemma reach_cinv tr s : c_reach tr s → cinv tr s.
Proof.
  induction 1 as [|tr s a s' ev _ Hi Hs]; [apply cinv_init|].
  destruct a as [t τ|t j τ|t τ|a b]; cbn [c_step] in Hs.
  - destruct (c_rmw t 0 τ _ s) as [[[s1 v] v']|] eqn:E; [|done]. injection Hs as <- <-.
    eapply step_rmw; [exact Hi|exact E|done|done| | |done].
    + intros _. by destruct (rmw_inv _ _ _ _ _ _ _ _ _ Hi E) as [-> _].
    + cbn [c_cur]. intros t' c. destruct (N.eqb_spec t' t) as [->|].
      * intros [= ->]. by right.
      * destruct (rmw_inv _ _ _ _ _ _ _ _ _ Hi E) as (_ & _ & _ & _ & _ & _ & -> & _). by left.
  - destruct (c_cur s t) as [c|] eqn:Ec; [|done].
    destruct (c_rmw t (j + 1) τ _ s) as [[[s1 v] v']|] eqn:E; [|done]. injection Hs as <- <-.
    destruct (rmw_inv _ _ _ _ _ _ _ _ _ Hi E) as (-> & _ & _ & _ & _ & _ & Hc & _).
    eapply step_rmw; [exact Hi|exact E|done|done|lia| |done].
    intros t' c'. rewrite Hc. by left.
  - destruct (c_mem s 0 τ) as [v|] eqn:E; [|done]. destruct (c_seen s t 0 <=? τ) eqn:El; [|done].
    apply N.leb_le in El. injection Hs as <- <-.
    eapply step_other; [exact Hi|done| |done|done| | | |].
    + by intros ? ? ? ? [= <- <- <- <-].
    + intros t' l. cbn [c_seen]. destruct (decide ((t', l) = (t, 0))) as [[= -> ->]|Hne].
      * by rewrite upd2_eq.
      * by rewrite upd2_ne.
    + intros l. cbn [c_seen inn out]. destruct (decide ((t, l) = (t, 0))) as [[= ->]|Hne].
      * by rewrite upd2_eq.
      * by rewrite upd2_ne.
    + intros l τ'. cbn [upto c_seen out]. intros [-> ->]. by rewrite upd2_eq.
    + intros t' l. cbn [c_seen]. exists t'. destruct (decide ((t', l) = (t, 0))) as [[= -> ->]|Hne].
      * rewrite upd2_eq. right. by eexists.
      * rewrite upd2_ne by done. by left.
  - injection Hs as <- <-. eapply step_other; [exact Hi|done|done|done|done| | |done|].
    + intros t l. cbn [c_seen]. destruct (N.eqb_spec t b) as [->|]; lia.
    + intros l. cbn [c_seen inn out]. rewrite N.eqb_refl. lia.
    + intros t l. cbn [c_seen]. destruct (N.eqb_spec t b) as [->|]; [|by exists t; left].
      destruct (N.max_spec (c_seen s a l) (c_seen s b l)) as [[_ ->]|[_ ->]]; [exists b|exists a]; by left.
Qed.

(** * Timestamps follow happens-before *)

(** The counter does not wrap. *)
Definition short (tr : list cevent) : Prop := N.of_nat (length tr) + 1 < 2 ^ 64.

Lemma ctr_value tr s i t τ v v' : cinv tr s → short tr → tr !! i = Some (ERmw t 0 τ v v') → v = τ + 1.
Proof.
  intros Hi Hs H. destruct (i_rmw _ _ Hi _ _ _ _ _ _ H) as [H1 H2]. rewrite (i_ctr _ _ Hi _ _ H1).
  destruct (i_len _ _ Hi 0) as (n & Hn & _ & Hl). assert (τ ≤ n) by (apply Hn; by eexists). unfold short in Hs.
  apply N.mod_small. lia.
Qed.
Lemma load_value tr s i t τ v : cinv tr s → short tr → tr !! i = Some (ELoad t 0 τ v) → v = τ + 1.
Proof.
  intros Hi Hs H. destruct (i_load _ _ Hi _ _ _ _ _ H) as [_ H1]. rewrite (i_ctr _ _ Hi _ _ H1).
  destruct (i_len _ _ Hi 0) as (n & Hn & _ & Hl). assert (τ ≤ n) by (apply Hn; by eexists). unfold short in Hs.
  apply N.mod_small. lia.
Qed.

(** A timestamp handed out by get_current is smaller than every timestamp handed out behind it, one
    that was only read (get_tracking_timestamp) is not larger. *)
Theorem C76_ordered tr s i j c c' :
  c_reach tr s → short tr → hb tr i j → stamped tr j c' →
  (fetched tr i c → c < c') ∧ (loaded tr i c → c ≤ c').
Proof.
  intros Hr%reach_cinv Hs Hh Hj.
  assert (∀ e τ, tr !! i = Some e → upto e 0 τ → τ < c') as H.
  { intros e τ He Hu. destruct Hj as [(t & τ' & v' & Hj)|(t & τ' & Hj)].
    - rewrite (ctr_value _ _ _ _ _ _ _ Hr Hs Hj). assert (τ ≤ τ'); [|lia].
      by eapply (i_hb _ _ Hr i j _ _ 0 τ τ' He Hj Hh).
    - rewrite (load_value _ _ _ _ _ _ Hr Hs Hj). assert (τ ≤ τ'); [|lia].
      by eapply (i_hb _ _ Hr i j _ _ 0 τ τ' He Hj Hh). }
  split.
  - intros (t & τ & v' & Hi). rewrite (ctr_value _ _ _ _ _ _ _ Hr Hs Hi). eapply H; [exact Hi|done].
  - intros (t & τ & Hi). rewrite (load_value _ _ _ _ _ _ Hr Hs Hi).
    assert (τ < c'); [|lia]. eapply H; [exact Hi|done].
Qed.

(** No two operations get the same timestamp, ordered or not, and every timestamp is at least 1. *)
Theorem C76_unique tr s i j c c' :
  c_reach tr s → short tr → fetched tr i c → fetched tr j c' → (c = c' ↔ i = j) ∧ 1 ≤ c.
Proof.
  intros Hr%reach_cinv Hs (t & τ & v & Hi) (t' & τ' & v' & Hj).
  pose proof (ctr_value _ _ _ _ _ _ _ Hr Hs Hi). pose proof (ctr_value _ _ _ _ _ _ _ Hr Hs Hj). subst c c'.
  split; [|lia]. split.
  - intros He. assert (τ = τ') as <- by lia. destruct (Nat.lt_trichotomy i j) as [H|[H|H]]; [|done|]; exfalso.
    + pose proof (i_ord _ _ Hr _ _ _ _ _ _ _ _ _ _ _ H Hi Hj). lia.
    + pose proof (i_ord _ _ Hr _ _ _ _ _ _ _ _ _ _ _ H Hj Hi). lia.
  - intros ->. congruence.
Qed.

(** Every swap of a last_run belongs to a run. *)
Theorem C76_every_run tr s k t j τ last cur :
  c_reach tr s → tr !! k = Some (ERmw t (j + 1) τ last cur) → ∃ f, sys_run tr j f k last cur.
Proof.
  intros Hr%reach_cinv Hk. destruct (i_swap _ _ Hr _ _ _ _ _ _ Hk) as (f & τ' & v' & Hlt & Hf).
  exists f, t, τ', v', τ. by split_and!.
Qed.

Lemma run_fetched tr j f k last cur : sys_run tr j f k last cur → fetched tr f cur.
Proof. intros (t & τ & v' & τ' & H & _). by exists t, τ, v'. Qed.
Lemma edge_run tr j f k last cur : sys_run tr j f k last cur → hb tr f k.
Proof.
  intros (t & τ & v' & τ' & H1 & H2 & Hlt). apply hb_edge. split; [done|]. eexists _, _. by split_and!.
Qed.

(** * A system sees each change in exactly one run *)

(** The runs of system [j] do not overlap, and the operation that got its timestamp at [o] is ordered with
    the beginning of each of them. *)
Definition separate (tr : list cevent) (j : N) : Prop :=
  ∀ f k l c f' k' l' c', sys_run tr j f k l c → sys_run tr j f' k' l' c' → k ≠ k' → hb tr k f' ∨ hb tr k' f.
Definition comparable (tr : list cevent) (j : N) (o : nat) : Prop :=
  ∀ f k l c, sys_run tr j f k l c → hb tr o f ∨ hb tr f o.

(** The last_run a run reads: 0, or the timestamp of the run before. *)
Lemma last_run_prev tr s j f k last cur :
  c_reach tr s → short tr → separate tr j → sys_run tr j f k last cur →
  (last = 0 ∧ ∀ f' k' l' c', sys_run tr j f' k' l' c' → hb tr k' f → False) ∨
  (∃ f' k' l', sys_run tr j f' k' l' last ∧ hb tr k' f ∧
     ∀ f2 k2 l2 c2, sys_run tr j f2 k2 l2 c2 → hb tr k2 f → c2 ≤ last).
Proof.
  intros Hreach Hs Hsep Hrun. pose proof (reach_cinv _ _ Hreach) as Hi.
  pose proof Hrun as (t & τ & v' & τ' & Hf & Hk & Hlt). pose proof (i_rmw _ _ Hi _ _ _ _ _ _ Hk) as [Hm _].
  destruct (N.eq_dec τ' 0) as [->|Hne].
  - left. rewrite (i_zero _ _ Hi) in Hm. destruct (N.eqb_spec (j + 1) 0) as [|_]; [lia|]. injection Hm as <-.
    split; [done|]. intros f' k' l' c' (t2 & τ2 & v2 & τ2' & Hf2 & Hk2 & Hlt2) Hh. apply hb_lt in Hh.
    assert (k' < k)%nat as Hkk by lia. pose proof (i_ord _ _ Hi _ _ _ _ _ _ _ _ _ _ _ Hkk Hk2 Hk). lia.
  - right. assert (∃ p, τ' = p + 1) as [p ->] by (exists (τ' - 1); lia).
    destruct (i_src _ _ Hi _ _ _ Hm) as (k1 & t1 & w1 & Hk1).
    destruct (C76_every_run _ _ _ _ _ _ _ _ Hreach Hk1) as (f1 & Hrun1). exists f1, k1, w1.
    assert (k1 < k)%nat as Hk1k.
    { destruct (Nat.lt_trichotomy k1 k) as [H|[->|H]]; [done| |]; exfalso.
      - rewrite Hk in Hk1. injection Hk1 as _ ? _ _. lia.
      - pose proof (i_ord _ _ Hi _ _ _ _ _ _ _ _ _ _ _ H Hk Hk1). lia. }
    assert (∀ f2 k2 l2 c2 f3 k3 l3 c3, sys_run tr j f2 k2 l2 c2 → sys_run tr j f3 k3 l3 c3 → (k2 < k3)%nat →
      hb tr k2 f3) as Hord.
    { intros f2 k2 l2 c2 f3 k3 l3 c3 H2 H3 Hlt'. destruct (Hsep _ _ _ _ _ _ _ _ H2 H3) as [H|H]; [lia|done|].
      apply edge_run, hb_lt in H2. apply hb_lt in H. lia. }
    split_and!; [done|by eapply Hord|].
    intros f2 k2 l2 c2 H2 Hh. destruct (Nat.lt_trichotomy k2 k1) as [H|[->|H]].
    + pose proof (Hord _ _ _ _ _ _ _ _ H2 Hrun1 H) as Hh2.
      destruct (C76_ordered tr s f2 f1 c2 last) as [Hle _]; [done..| |left; by eapply run_fetched|].
      * eapply hb_hb; [by eapply edge_run|done].
      * pose proof (run_fetched _ _ _ _ _ _ H2) as Hf2. specialize (Hle Hf2). lia.
    + destruct H2 as (t2 & τ2 & v2 & τ2' & _ & Hk2 & _). assert (Some last = Some c2) as [= ->]; [|done].
      rewrite Hk1 in Hk2. by injection Hk2 as -> -> -> ->.
    + exfalso. apply hb_lt in Hh. destruct H2 as (t2 & τ2 & v2 & τ2' & _ & Hk2 & _).
      pose proof (i_ord _ _ Hi _ _ _ _ _ _ _ _ _ _ _ H Hk1 Hk2).
      assert (k2 < k)%nat as Hkk by lia. pose proof (i_ord _ _ Hi _ _ _ _ _ _ _ _ _ _ _ Hkk Hk2 Hk). lia.
Qed.

(** A run sees a change exactly when the change's timestamp was handed out before the run began and
    behind the beginning of all earlier runs. *)
Theorem C76_seen_iff tr s j f k last cur o c :
  c_reach tr s → short tr → separate tr j → comparable tr j o → stamped tr o c → sys_run tr j f k last cur →
  is_within c last cur = true ↔
  hb tr o f ∧ ∀ f' k' l' c', sys_run tr j f' k' l' c' → hb tr k' f → hb tr f' o.
Proof.
  intros Hr Hs Hsep Hcmp Ho Hrun. unfold is_within. rewrite andb_true_iff, N.ltb_lt, N.leb_le.
  assert (∀ f k l c', sys_run tr j f k l c' → hb tr o f → c ≤ c') as Hup.
  { intros f2 k2 l2 c2 H2 Hh.
    destruct (C76_ordered tr s o f2 c c2) as [H3 H4]; [done..|left; by eapply run_fetched|].
    destruct Ho as [Ho|Ho]; [apply H3 in Ho; lia|by apply H4]. }
  assert (∀ f k l c', sys_run tr j f k l c' → hb tr f o → c' < c) as Hdn.
  { intros f2 k2 l2 c2 H2 Hh. destruct (C76_ordered tr s f2 o c2 c) as [H3 _]; [done..|].
    apply H3. by eapply run_fetched. }
  pose proof (last_run_prev _ _ _ _ _ _ _ Hr Hs Hsep Hrun) as Hlast. split.
  - intros [Hl Hc]. split.
    + destruct (Hcmp _ _ _ _ Hrun) as [?|H]; [done|]. apply (Hdn _ _ _ _ Hrun) in H. lia.
    + intros f' k' l' c' H' Hh. destruct (Hcmp _ _ _ _ H') as [H|?]; [|done]. exfalso.
      apply (Hup _ _ _ _ H') in H. destruct Hlast as [[_ Hno]|(f1 & k1 & l1 & _ & _ & Hmax)].
      * by eapply Hno.
      * specialize (Hmax _ _ _ _ H' Hh). lia.
  - intros [Hof Hprev]. split; [|by eapply Hup].
    destruct Hlast as [[-> _]|(f1 & k1 & l1 & H1 & Hh & _)].
    + destruct Ho as [Ho|(t & τ & Ho)].
      * by destruct (C76_unique tr s o o c c) as [_ ?]; [done..|lia].
      * pose proof (load_value _ _ _ _ _ _ (reach_cinv _ _ Hr) Hs Ho). lia.
    + eapply Hdn; [exact H1|]. by eapply Hprev.
Qed.

(** So a change is seen in exactly one run of the system, as soon as some run begins behind it. *)
Theorem C76_exactly_one tr s j o c f0 k0 l0 c0 :
  c_reach tr s → short tr → separate tr j → comparable tr j o → stamped tr o c →
  sys_run tr j f0 k0 l0 c0 → hb tr o f0 →
  ∃ f k last cur, sys_run tr j f k last cur ∧ is_within c last cur = true ∧
    ∀ f' k' last' cur', sys_run tr j f' k' last' cur' → is_within c last' cur' = true → k' = k.
Proof.
  intros Hr Hs Hsep Hcmp Ho Hrun0 Hh0.
  assert (∃ f k last cur, sys_run tr j f k last cur ∧ hb tr o f ∧
    ∀ f' k' l' c', sys_run tr j f' k' l' c' → hb tr k' f → hb tr f' o) as (f & k & last & cur & Hrun & Hh & Hp).
  { revert f0 k0 l0 c0 Hrun0 Hh0. intros f0. induction (lt_wf f0) as [f0 _ IH]. intros k0 l0 c0 Hrun0 Hh0.
    destruct (last_run_prev _ _ _ _ _ _ _ Hr Hs Hsep Hrun0) as [[_ Hno]|(f1 & k1 & l1 & H1 & Hk1 & Hmax)].
    - exists f0, k0, l0, c0. split_and!; [done..|]. intros f' k' l' c' H' Hh. by destruct (Hno _ _ _ _ H' Hh).
    - pose proof (edge_run _ _ _ _ _ _ H1) as He1. destruct (Hcmp _ _ _ _ H1) as [H|H].
      { apply (IH f1) with (k0 := k1) (l0 := l1) (c0 := l0); [|done..]. apply hb_lt in He1, Hk1. lia. }
      exists f0, k0, l0, c0. split_and!; [done..|]. intros f' k' l' c' H' Hh.
      destruct (Hcmp _ _ _ _ H') as [Hc|?]; [exfalso|done].
      specialize (Hmax _ _ _ _ H' Hh).
      destruct (C76_ordered tr s f1 o l0 c) as [Hlt _]; [done..|]. specialize (Hlt (run_fetched _ _ _ _ _ _ H1)).
      destruct (C76_ordered tr s o f' c c') as [H3 H4]; [done..|left; by eapply run_fetched|].
      destruct Ho as [Ho|Ho]; [apply H3 in Ho|apply H4 in Ho]; lia. }
  exists f, k, last, cur. split; [done|]. split; [by eapply C76_seen_iff|].
  intros f' k' last' cur' Hrun' Hin. apply (C76_seen_iff tr s j f' k' last' cur' o c) in Hin as [Hh' Hp']; try done.
  destruct (decide (k' = k)) as [|Hne]; [done|exfalso].
  destruct (Hsep _ _ _ _ _ _ _ _ Hrun' Hrun Hne) as [H|H].
  - eapply hb_asym; [exact Hh'|]. by eapply Hp.
  - eapply hb_asym; [exact Hh|]. by eapply Hp'.
Qed.

(** For timestamps of get_current the order in which the instructions take effect is enough, no
    synchronisation is needed. *)
Theorem C76_fetched_in_order tr s i j c c' :
  c_reach tr s → short tr → fetched tr i c → fetched tr j c' → (c < c' ↔ (i < j)%nat).
Proof.
  intros Hr%reach_cinv Hs (t & τ & v & Hi) (t' & τ' & v' & Hj).
  rewrite (ctr_value _ _ _ _ _ _ _ Hr Hs Hi), (ctr_value _ _ _ _ _ _ _ Hr Hs Hj).
  destruct (Nat.lt_trichotomy i j) as [H|[->|H]].
  - pose proof (i_ord _ _ Hr _ _ _ _ _ _ _ _ _ _ _ H Hi Hj). lia.
  - rewrite Hi in Hj. injection Hj as -> -> -> ->. lia.
  - pose proof (i_ord _ _ Hr _ _ _ _ _ _ _ _ _ _ _ H Hj Hi). lia.
Qed.

(** A run sees exactly the timestamps of get_current from behind the beginning of the run before up to its
    own (a run sees its own changes). *)
Theorem C76_fetched_seen_iff tr s j f k last cur o c :
  c_reach tr s → short tr → separate tr j → fetched tr o c → sys_run tr j f k last cur →
  is_within c last cur = true ↔
  (o ≤ f)%nat ∧ ∀ f' k' l' c', sys_run tr j f' k' l' c' → hb tr k' f → (f' < o)%nat.
Proof.
  intros Hr Hs Hsep Ho Hrun. unfold is_within. rewrite andb_true_iff, N.ltb_lt, N.leb_le.
  pose proof (run_fetched _ _ _ _ _ _ Hrun) as Hf.
  assert (c ≤ cur ↔ (o ≤ f)%nat) as Hcur.
  { pose proof (C76_fetched_in_order tr s f o cur c Hr Hs Hf Ho). lia. }
  rewrite Hcur. pose proof (last_run_prev _ _ _ _ _ _ _ Hr Hs Hsep Hrun) as Hlast.
  split; [intros [H2 H1]|intros [H1 H2]].
  - split; [done|]. intros f' k' l' c' H' Hh. apply (C76_fetched_in_order tr s f' o c' c Hr Hs); [by eapply run_fetched|done|].
    destruct Hlast as [[_ Hno]|(f1 & k1 & l1 & _ & _ & Hmax)]; [by destruct (Hno _ _ _ _ H' Hh)|].
    specialize (Hmax _ _ _ _ H' Hh). lia.
  - split; [|done]. destruct Hlast as [[-> _]|(f1 & k1 & l1 & H1' & Hh & _)].
    + destruct (C76_unique tr s o o c c) as [_ ?]; [done..|lia].
    + apply (C76_fetched_in_order tr s f1 o last c Hr Hs); [by eapply run_fetched|done|]. by eapply H2.
Qed.

(** * What a load does not give *)

Lemma exec_reach l s tr s' tr' : c_reach tr s → c_exec s l = Some (s', tr') → c_reach (tr ++ tr') s'.
Proof.
  revert s tr tr'. induction l as [|a l IH]; intros s tr tr' Hr; cbn [c_exec].
  - intros [= <- <-]. by rewrite app_nil_r.
  - destruct (c_step s a) as [[s1 ev]|] eqn:E; [|done].
    destruct (c_exec s1 l) as [[s2 tr2]|] eqn:E2; [|done]. intros [= <- <-].
    change (ev :: tr2) with ([ev] ++ tr2). rewrite app_assoc. eapply IH; [|exact E2]. by eapply CR_step.
Qed.

(** Thread 1 runs system 0 (timestamp 1) and starts the next run (timestamp 2) after thread 2 is done.
    In between thread 2 reads the counter, and may still read 1. *)
Definition stale : list cevent :=
  [ERmw 1 0 0 1 2; ERmw 1 1 0 0 1; ELoad 2 0 0 1; ESync 2 1; ERmw 1 0 1 2 3; ERmw 1 1 1 1 2].
Example stale_exec :
  ∃ s, c_exec c_init [AFetch 1 0; ASwap 1 0 0; ALoad 2 0; ASync 2 1; AFetch 1 1; ASwap 1 0 1] = Some (s, stale).
Proof. eexists. vm_compute. reflexivity. Qed.

Lemma stale_runs f k last cur : sys_run stale 0 f k last cur →
  (f = 0%nat ∧ k = 1%nat ∧ last = 0 ∧ cur = 1) ∨ (f = 4%nat ∧ k = 5%nat ∧ last = 1 ∧ cur = 2).
Proof.
  intros (t & τ & v' & τ' & H1 & H2 & H3).
  destruct k as [|[|[|[|[|[|k]]]]]]; try discriminate H2; injection H2 as <- <- <- <-.
  - left. destruct f as [|f]; [done|lia].
  - right. destruct f as [|[|[|[|[|f]]]]]; try discriminate H1; [done|lia].
Qed.
Lemma stale_separate : separate stale 0.
Proof.
  assert (hb stale 1 4) as H.
  { apply hb_edge. split; [lia|]. eexists _, _. by split_and!. }
  intros f k l c f' k' l' c' H1%stale_runs H2%stale_runs Hne.
  destruct H1 as [(-> & -> & _)|(-> & -> & _)], H2 as [(-> & -> & _)|(-> & -> & _)]; auto; congruence.
Qed.

(** Without synchronisation a timestamp that was only read can be too old: a change made after a
    run and before the next one is seen by no run that begins behind it. *)
Theorem C76_stale_load_refuted :
  ¬ (∀ tr s j o c f1 k1 l1 c1 f2 k2 l2 c2,
      c_reach tr s → short tr → separate tr j → stamped tr o c →
      sys_run tr j f1 k1 l1 c1 → sys_run tr j f2 k2 l2 c2 → (k1 < o)%nat → hb tr o f2 →
      ∃ f k last cur, sys_run tr j f k last cur ∧ (o < f)%nat ∧ is_within c last cur = true).
Proof.
  intros H. destruct stale_exec as [s Hs]. apply (exec_reach _ _ [] _ _ CR_init) in Hs.
  destruct (H stale s 0 2%nat 1 0%nat 1%nat 0 1 4%nat 5%nat 1 2) as (f & k & last & cur & Hrun & Ho & Hw).
  - exact Hs.
  - vm_compute. reflexivity.
  - apply stale_separate.
  - right. by exists 2, 0.
  - exists 1, 0, 2, 0. split_and!; [done..|lia].
  - exists 1, 1, 3, 1. split_and!; [done..|lia].
  - lia.
  - eapply hb_trans; apply hb_edge || idtac.
    + instantiate (1 := 3%nat). split; [lia|]. eexists _, _. by split_and!.
    + split; [lia|]. eexists _, _. by split_and!.
  - apply stale_runs in Hrun as [(-> & -> & -> & ->)|(-> & -> & -> & ->)]; [lia|done].
Qed.

(** * A concrete case *)

(** Thread 1 runs system 0, hands over to thread 2, which takes a timestamp (2) and reads one
    (3), and hands back; thread 1 runs the system two more times. *)
Definition seen_tr : list cevent :=
  [ERmw 1 0 0 1 2; ERmw 1 1 0 0 1; ESync 1 2; ERmw 2 0 1 2 3; ELoad 2 0 2 3; ESync 2 1;
   ERmw 1 0 2 3 4; ERmw 1 1 1 1 3; ERmw 1 0 3 4 5; ERmw 1 1 2 3 4].
Example seen_exec : ∃ s,
  c_exec c_init [AFetch 1 0; ASwap 1 0 0; ASync 1 2; AFetch 2 1; ALoad 2 2; ASync 2 1; AFetch 1 2; ASwap 1 0 1;
                 AFetch 1 3; ASwap 1 0 2] = Some (s, seen_tr).
Proof. eexists. vm_compute. reflexivity. Qed.
Lemma seen_runs f k last cur : sys_run seen_tr 0 f k last cur →
  (f = 0 ∧ k = 1)%nat ∧ last = 0 ∧ cur = 1 ∨ (f = 6 ∧ k = 7)%nat ∧ last = 1 ∧ cur = 3 ∨
  (f = 8 ∧ k = 9)%nat ∧ last = 3 ∧ cur = 4.
Proof.
  intros (t & τ & v' & τ' & H1 & H2 & H3).
  destruct k as [|[|[|[|[|[|[|[|[|[|k]]]]]]]]]]; try discriminate H2; injection H2 as <- <- <- <-.
  - left. destruct f as [|f]; [done|lia].
  - right; left. destruct f as [|[|[|[|[|[|[|f]]]]]]]; try discriminate H1; [done|lia].
  - right; right. destruct f as [|[|[|[|[|[|[|[|[|f]]]]]]]]]; try discriminate H1; [done|lia].
Qed.
Ltac seen_edge := apply hb_edge; split; [lia|]; eexists _, _; by split_and!.
Lemma seen_hb : hb seen_tr 0 3 ∧ hb seen_tr 0 4 ∧ hb seen_tr 3 6 ∧ hb seen_tr 4 6 ∧ hb seen_tr 1 6 ∧ hb seen_tr 1 8 ∧
  hb seen_tr 7 8 ∧ hb seen_tr 3 8 ∧ hb seen_tr 4 8.
Proof.
  split_and!.
  - apply hb_hb with 2%nat; seen_edge.
  - apply hb_hb with 2%nat; seen_edge.
  - apply hb_hb with 5%nat; seen_edge.
  - apply hb_hb with 5%nat; seen_edge.
  - seen_edge.
  - seen_edge.
  - seen_edge.
  - apply hb_hb with 5%nat; seen_edge.
  - apply hb_hb with 5%nat; seen_edge.
Qed.
Example seen_separate : separate seen_tr 0.
Proof.
  destruct seen_hb as (_ & _ & _ & _ & H1 & H2 & H3 & _).
  intros f k l c f' k' l' c' Ha%seen_runs Hb%seen_runs Hne.
  destruct Ha as [([-> ->] & _)|[([-> ->] & _)|([-> ->] & _)]], Hb as [([-> ->] & _)|[([-> ->] & _)|([-> ->] & _)]];
    auto; congruence.
Qed.
Example seen_comparable : comparable seen_tr 0 3 ∧ comparable seen_tr 0 4.
Proof.
  destruct seen_hb as (H1 & H2 & H3 & H4 & _ & _ & _ & H5 & H6).
  split; intros f k l c H%seen_runs; destruct H as [([-> _] & _)|[([-> _] & _)|([-> _] & _)]]; auto.
Qed.
(** Both timestamps are seen by the second run only. *)
Example seen_once :
  (is_within 2 0 1, is_within 2 1 3, is_within 2 3 4) = (false, true, false) ∧
  (is_within 3 0 1, is_within 3 1 3, is_within 3 3 4) = (false, true, false).
Proof. vm_compute. auto. Qed.
Example seen_exactly_one : ∃ f k last cur, sys_run seen_tr 0 f k last cur ∧ is_within 3 last cur = true ∧
  ∀ f' k' last' cur', sys_run seen_tr 0 f' k' last' cur' → is_within 3 last' cur' = true → k' = k.
Proof.
  destruct seen_exec as [s Hs]. apply (exec_reach _ _ [] _ _ CR_init) in Hs.
  apply (C76_exactly_one seen_tr s 0 4%nat 3 6%nat 7%nat 1 3).
  - exact Hs.
  - vm_compute. reflexivity.
  - apply seen_separate.
  - apply seen_comparable.
  - right. by exists 2, 2.
  - exists 1, 2, 4, 1. split_and!; [done..|lia].
  - apply seen_hb.
Qed.

Print Assumptions C76_ordered.
Print Assumptions C76_unique.
Print Assumptions C76_every_run.
Print Assumptions C76_seen_iff.
Print Assumptions C76_exactly_one.
Print Assumptions C76_fetched_in_order.
Print Assumptions C76_fetched_seen_iff.
Print Assumptions C76_stale_load_refuted.
