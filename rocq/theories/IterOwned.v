(** World::iter: the same iterator as for borrowed views, but for the windows. *)
From stdpp Require Import prelude list.
From Coq Require Import NArith Lia.
From Verif Require Import EntityId Base SparseSet SparseSetSpec Iter IterSpec IterProofs IterProofs2 IterAlias.
Open Scope N_scope.

Lemma plain_tuple qs : plain (QTuple qs) <-> qs ≠ [] ∧ Forall plain qs.
Proof.
  cbn. assert ((fix all qs := match qs with [] => True | q :: qs => plain q ∧ all qs end) qs <-> Forall plain qs) as ->; [|done].
  induction qs as [|q qs IH]; [done|]. rewrite Forall_cons. by rewrite IH.
Qed.

Section owned.
Context {V : Type} (f10 f05 f12 f20 : N -> N) (env env' : N -> window V).
Implicit Types (s : ship V) (it : iter V).

(** Windows that differ in the length of the sparse array at most. *)
Context (Hset : ∀ i, wn_set (env' i) = wn_set (env i)) (Hid : ∀ i, wn_id (env' i) = wn_id (env i)).

(** Ships of views and tuples, built from the same windows. *)
Inductive alike : ship V -> ship V -> Prop :=
| alike_win i : alike (SWin (env i)) (SWin (env' i))
| alike_mixed mask ss ss' : Forall2 alike ss ss' -> alike (SMixed mask ss) (SMixed mask ss').
Lemma alike_ind' (P : ship V -> ship V -> Prop) :
  (∀ i, P (SWin (env i)) (SWin (env' i))) ->
  (∀ mask ss ss', Forall2 alike ss ss' -> Forall2 P ss ss' -> P (SMixed mask ss) (SMixed mask ss')) ->
  ∀ s s', alike s s' -> P s s'.
Proof.
  intros H1 H2. fix IH 3. intros s s' [i|mask ss ss' HF]; [apply H1|]. apply H2; [done|].
  induction HF; constructor; [by apply IH|done].
Qed.
Lemma alike_exact s s' : alike s s' -> is_exact s' = is_exact s.
Proof. intros [i|mask ss ss' HF]; [done|]. cbn [is_exact]. by rewrite (Forall2_length _ _ _ HF). Qed.
Lemma alike_unpick s s' : alike s s' -> alike (unpick s) (unpick s').
Proof.
  induction 1 as [i|mask ss ss' _ IH] using alike_ind'; cbn [unpick next_slice]; [constructor|].
  constructor. induction IH; constructor; done.
Qed.
Lemma alike_next s s' : alike s s' -> alike (next_slice s) (next_slice s').
Proof.
  induction 1 as [i|mask ss ss' _ IH] using alike_ind'; cbn [unpick next_slice]; [constructor|].
  constructor. induction IH; constructor; done.
Qed.
Lemma alike_time s s' : alike s s' -> sail_time f10 f05 f12 f20 s' = sail_time f10 f05 f12 f20 s.
Proof.
  induction 1 as [i|mask ss ss' _ IH] using alike_ind'; [cbn; by rewrite Hset|].
  rewrite !sail_time_mixed. generalize 0 at 1 3. generalize 0. induction IH as [|s s' ss ss' Hs HF IH]; intros a j; [done|].
  cbn [mix_time]. rewrite Hs. destruct (sail_time _ _ _ _ s); [|done..]. cbn [rbind].
  destruct (usize_add _ _); [|done..]. cbn [rbind]. apply IH.
Qed.
Lemma alike_captain s s' k : alike s s' -> get_captain s' k = get_captain s k.
Proof.
  induction 1 as [i|mask ss ss' _ IH] using alike_ind'.
  - cbn. unfold win_ref. by rewrite Hset, Hid.
  - cbn [get_captain]. f_equal. induction IH as [|s s' ss ss' Hs HF IH]; [done|]. by rewrite Hs, IH.
Qed.
Lemma alike_from s s' k : alike s s' -> index_from s' k = index_from s k.
Proof.
  induction 1 as [i|mask ss ss' _ IH] using alike_ind'; [done|].
  cbn [index_from]. f_equal. induction IH as [|s s' ss ss' Hs HF IH]; [done|]. by rewrite Hs, IH.
Qed.
Lemma alike_sailor s s' : alike s s' -> ∀ x, get_sailor s' x = get_sailor s x.
Proof.
  induction 1 as [i|mask ss ss' _ IH] using alike_ind'; intros x.
  - destruct x; try done. cbn. unfold win_ref. by rewrite Hset, Hid.
  - destruct x; try done. cbn [get_sailor]. f_equal. revert l.
    induction IH as [|s s' ss ss' Hs HF IH]; intros [|x l]; [done..|]. by rewrite Hs, IH.
Qed.
(** Lookups of [e] give the same in the storages that matter. *)
Lemma alike_indices (js : list N) s s' e k :
  alike s s' -> (∀ i, i ∈ js -> win_index_of (env' i) e = win_index_of (env i) e) ->
  (∀ i, wn_id (env i) = i) -> (∀ i, i ∈ wins s -> i ∈ js) -> indices_of s' e k = indices_of s e k.
Proof.
  intros HA Hl Hi. induction HA as [i|mask ss ss' HS IH] using alike_ind'; intros Hw.
  - cbn [indices_of]. rewrite Hl; [done|]. apply Hw. cbn. rewrite Hi. by left.
  - rewrite !indices_of_mixed. f_equal. clear -IH Hw HS. generalize 0 at 1 2.
    induction IH as [|s s' ss ss' Hs HF IH]; intros j; [done|].
    inversion HS as [|? ? ? ? HS1 HS2]; subst. cbn. rewrite (alike_from s s' k HS1).
    rewrite Hs.
    2:{ intros i Hin. apply Hw. change (i ∈ wins s ++ (ss ≫= wins)). apply elem_of_app. by left. }
    destruct (if N.testbit mask j then _ else _) as [[x|]| |]; [|done..]. cbn [rbind]. rewrite IH; [done..|].
    intros i Hin. apply Hw. change (i ∈ wins s ++ (ss ≫= wins)). apply elem_of_app. by right.
Qed.

Definition same_end (x x' : ship V * N * access) : Prop := alike x.1.1 x'.1.1 ∧ x'.1.2 = x.1.2 ∧ x'.2 = x.2.
Lemma settle_alike l l' pick : Forall2 same_end l l' -> same_end (settle l pick) (settle l' pick).
Proof.
  intros HF.
  assert (Forall2 alike
    (imap (λ j (x : ship V * N * access), if decide (pick = Some j) then x.1.1 else unpick x.1.1) l)
    (imap (λ j (x : ship V * N * access), if decide (pick = Some j) then x.1.1 else unpick x.1.1) l')) as HS.
  { apply Forall2_same_length_lookup. split.
    { rewrite !imap_length. by eapply Forall2_length. }
    intros j s s' Hs Hs'. rewrite list_lookup_imap in Hs, Hs'.
    destruct (l !! j) as [x|] eqn:Hx; [|done]. destruct (l' !! j) as [x'|] eqn:Hx'; [|done].
    injection Hs as <-. injection Hs' as <-. destruct (Forall2_lookup_lr _ _ _ _ _ _ HF Hx Hx') as [H1 _].
    destruct (decide _); [done|]. by apply alike_unpick. }
  unfold settle. destruct pick as [j|]; cbn [mbind option_bind].
  2:{ split_and!; [by constructor|done|done]. }
  destruct (l !! j) as [[[s len] a]|] eqn:Hx; cbn [mbind option_bind].
  - destruct (Forall2_lookup_l _ _ _ _ _ HF Hx) as ([[s' len'] a'] & Hx' & H1 & H2 & H3). cbn in H1, H2, H3.
    rewrite Hx'. cbn [mbind option_bind]. subst. split_and!; [|done|done]. cbn [fst snd].
    rewrite (alike_exact _ _ H1). by constructor.
  - assert (l' !! j = None) as ->.
    { apply lookup_ge_None. rewrite <- (Forall2_length _ _ _ HF). by apply lookup_ge_None. }
    cbn [mbind option_bind]. split_and!; [by constructor|done|done].
Qed.
Lemma sail_times_alike l l' :
  Forall2 same_end l l' -> sail_times f10 f05 f12 f20 (l'.*1.*1) = sail_times f10 f05 f12 f20 (l.*1.*1).
Proof.
  induction 1 as [|x x' l l' (H1 & _) HF IH]; [done|]. cbn [fmap list_fmap sail_times].
  rewrite (alike_time _ _ H1). by rewrite IH.
Qed.
Lemma plain_can q : plain q -> can_captain q = true ∧ can_sailor q = true.
Proof.
  induction q as [i|i|l|i|x i|neg k i|qs IH|q1 q2 IH1 IH2] using query_ind'; try done.
  rewrite plain_tuple. intros [Hne HP]. assert (Forall (λ q, can_captain q = true ∧ can_sailor q = true) qs) as HF.
  { rewrite Forall_forall in *. intros q Hq. by apply IH, HP. }
  cbn [can_captain can_sailor]. split.
  - destruct HF as [|q qs [H _] _]; [done|]. cbn. by rewrite H.
  - apply forallb_forall. intros q Hq%elem_of_list_In. rewrite Forall_forall in HF. by apply HF.
Qed.
Lemma into_alike q : plain q -> ∀ x, into_ship f10 f05 f12 f20 env q = Ok x ->
  ∃ x', into_component f10 f05 f12 f20 env' q = Ok x' ∧ same_end x x'.
Proof.
  induction q as [i|i|l|i|b i|b k i|qs IH|q1 q2 IH1 IH2] using query_ind'; try done.
  1,2: intros _ x E; injection E as <-; eexists; split; [done|]; cbn; rewrite Hset; split_and!; [constructor|done..].
  rewrite plain_tuple. intros [_ HP] x E. cbn [into_ship into_component] in *.
  apply rbind_Ok in E as (l & El & E).
  assert (∃ l', (fix go qs := match qs with [] => Ok [] | q :: qs =>
      rlet x := into_component f10 f05 f12 f20 env' q in rlet l := go qs in Ok (x :: l) end) qs = Ok l' ∧ Forall2 same_end l l')
    as (l' & -> & HF).
  { clear E. revert l El. induction IH as [|q qs Hq HF IH]; intros l El.
    { injection El as <-. by exists []. }
    apply Forall_cons in HP as [HP HPs].
    apply rbind_Ok in El as (y & Ey & El). apply rbind_Ok in El as (l0 & El' & [= <-]).
    destruct (Hq HP _ Ey) as (y' & -> & Hy). destruct (IH HPs _ El') as (l' & -> & HF'). cbn [rbind].
    eexists. split; [done|]. by constructor. }
  cbn [rbind]. destruct (negb _); [done|]. destruct (existsb _ _); [done|]. destruct (1 <? _)%nat; [done|].
  apply rbind_Ok in E as (ts & Ets & E). rewrite (sail_times_alike _ _ HF), Ets. cbn [rbind].
  assert (Forall (λ q, can_captain q = true ∧ can_sailor q = true) qs) as HC.
  { eapply Forall_impl; [exact HP|]. apply plain_can. }
  assert (length (filter (λ b, b = false) (can_sailor <$> qs)) = 0%nat) as HU.
  { clear -HC. induction HC as [|q qs [_ H] HF IH]; [done|]. rewrite fmap_cons, filter_cons, H.
    rewrite decide_False by done. done. }
  rewrite HU in E. cbn [Nat.eqb] in E. injection E as <-. eexists. split; [done|].
  assert (zip (can_captain <$> qs) ts = pair true <$> ts) as ->; [|by apply settle_alike].
  assert (length ts = length qs) as HL.
  { assert (length ts = length l) as ->.
    { clear -Ets. revert ts Ets. induction l as [|x l IH]; intros ts Ets; [by injection Ets as <-|].
      cbn in Ets. apply rbind_Ok in Ets as (t & _ & Ets). apply rbind_Ok in Ets as (ts' & E & [= <-]).
      cbn. f_equal. by apply IH. }
    clear -El. revert l El. induction qs as [|q qs IH]; intros l El; [by injection El as <-|].
    apply rbind_Ok in El as (y & Ey & El). apply rbind_Ok in El as (l0 & El' & [= <-]). cbn. f_equal. by apply IH. }
  clear -HL HC. revert ts HL. induction HC as [|q qs [H _] HF IH]; intros [|t ts] HL; try done.
  cbn. rewrite H. f_equal. apply IH. by injection HL.
Qed.
Lemma c_iter_tour q it l :
  plain q -> (∀ i, wn_id (env i) = i) -> q_iter f10 f05 f12 f20 env q = Ok it -> tour it [l] ->
  it_exact it = true ∨ (∀ e i, e ∈ l.*1 -> i ∈ storages q -> win_index_of (env' i) e = win_index_of (env i) e) ->
  ∃ it', c_iter f10 f05 f12 f20 env' q = Ok it' ∧ tour it' [l].
Proof.
  intros HP Hi E HT HL. unfold q_iter, c_iter in *. apply rbind_Ok in E as ([[s len] a] & E & [= <-]).
  destruct (into_alike q HP _ E) as ([[s' len'] a'] & -> & HA & H2 & H3). cbn in HA, H2, H3. subst.
  cbn [rbind]. eexists. split; [done|]. rewrite (alike_exact _ _ HA).
  destruct HT as [(T1 & T2 & T3) HN]. split.
  - split_and!; [done|done|]. intros m e oo Hm. destruct (T3 m e oo Hm) as [A1 A2]. split; [done|].
    rewrite <- A2. unfold item_at. cbn [it_exact it_ship it_acc it_start] in *.
    destruct (is_exact s); [by rewrite (alike_captain _ _ _ HA)|]. destruct HL as [|HL]; [done|].
    rewrite A1. cbn [rbind]. rewrite (alike_indices (storages q) _ _ _ _ HA); [| |done|].
    + destruct (indices_of s e _) as [[x|]| |]; [|done..]. cbn [rbind]. by rewrite (alike_sailor _ _ HA).
    + intros i Hin. apply HL; [|done]. apply elem_of_list_fmap. exists (e, oo). split; [done|].
      by eapply elem_of_list_lookup_2.
    + intros i. pose proof (into_wins f10 f05 f12 f20 env Hi q _ E) as HW. cbn [fst] in HW. by rewrite HW.
  - unfold it_next_slice, acc_next_slice in *. cbn [it_acc it_ship it_exact] in *. destruct (last a.2) as [[p n]|]; [|done].
    by cbn in HN.
Qed.
End owned.
