(** Which components the items of an iterator refer to. *)
From stdpp Require Import prelude list.
From Coq Require Import NArith Lia.
From Verif Require Import EntityId Base SparseSet SparseSetSpec Iter IterSpec IterProofs IterProofs2.
Open Scope N_scope.

Lemma rbind_Ok {A B} (r : res A) (f : A -> res B) b : rbind r f = Ok b -> ∃ a, r = Ok a ∧ f a = Ok b.
Proof. destruct r; [|done..]. by eexists. Qed.

Section alias.
Context {V : Type}.
Implicit Types (s : ship V) (it : iter V).

(** The storages a ship looks into. *)
Fixpoint wins s : list N :=
  match s with
  | SWin w | SOpt w | SNot _ w | STrack _ _ w => [wn_id w]
  | SIds _ => []
  | SMixed _ ss => ss ≫= wins
  | SOr a b _ _ => wins a ++ wins b
  end.
Lemma wins_next s : wins (next_slice s) = wins s.
Proof.
  induction s as [w|l|w|b w|b k w|m ss IH|a b x y IHa IHb] using ship_ind'; try done.
  cbn [next_slice wins]. induction IH as [|s ss Hs HF IH]; [done|]. rewrite fmap_cons.
  change (wins (next_slice s) ++ ((next_slice <$> ss) ≫= wins) = wins s ++ (ss ≫= wins)).
  by rewrite Hs, IH.
Qed.
Lemma wins_unpick s : wins (unpick s) = wins s.
Proof.
  induction s as [w|l|w|b w|b k w|m ss IH|a b x y IHa IHb] using ship_ind'; try done.
  - cbn [unpick wins]. induction IH as [|s ss Hs HF IH]; [done|]. rewrite fmap_cons.
    change (wins (unpick s) ++ ((unpick <$> ss) ≫= wins) = wins s ++ (ss ≫= wins)).
    by rewrite Hs, IH.
  - cbn. by rewrite IHa, IHb.
Qed.

Lemma get_sailor_refs s : ∀ x o, get_sailor s x = Ok o -> sublist (refs o).*1 (wins s).
Proof.
  induction s as [w|l|w|b w|b k w|m ss IH|a b c d IHa IHb] using ship_ind'; intros x o E; destruct x; try done; cbn in E.
  - unfold win_ref in E. apply rbind_Ok in E as (v & _ & [= <-]). by cbn.
  - injection E as <-. by cbn.
  - destruct p as [p|]; [|injection E as <-; cbn; apply sublist_nil_l].
    apply rbind_Ok in E as (v & _ & [= <-]). by cbn.
  - injection E as <-. apply sublist_nil_l.
  - unfold win_ref in E. apply rbind_Ok in E as (v & _ & [= <-]). by cbn.
  - apply rbind_Ok in E as (r & E & [= <-]). cbn [refs wins]. revert l r E.
    induction IH as [|s ss Hs HF IH]; intros [|x l] r E.
    1-3: injection E as <-; apply sublist_nil_l.
    apply rbind_Ok in E as (o & Eo & E). apply rbind_Ok in E as (r' & Er & [= <-]).
    change (sublist ((refs o ++ (r' ≫= refs)).*1) (wins s ++ (ss ≫= wins))).
    rewrite fmap_app. apply sublist_app; [by eapply Hs|by eapply IH].
  - apply rbind_Ok in E as (r & E & [= <-]). cbn [refs wins]. by apply sublist_inserts_r, (IHa x).
  - apply rbind_Ok in E as (r & E & [= <-]). cbn [refs wins]. by apply sublist_inserts_l, (IHb x).
Qed.
Lemma get_captain_refs s : ∀ k o, get_captain s k = Ok o -> sublist (refs o).*1 (wins s).
Proof.
  induction s as [w|l|w|b w|b m w|m ss IH|a b c d IHa IHb] using ship_ind'; intros k o E; try done; cbn in E.
  - unfold win_ref in E. apply rbind_Ok in E as (v & _ & [= <-]). by cbn.
  - apply rbind_Ok in E as (e & _ & [= <-]). by cbn.
  - apply rbind_Ok in E as (r & E & [= <-]). cbn [refs wins]. revert r E.
    induction IH as [|s ss Hs HF IH]; intros r E.
    { injection E as <-; apply sublist_nil_l. }
    apply rbind_Ok in E as (o & Eo & E). apply rbind_Ok in E as (r' & Er & [= <-]).
    change (sublist ((refs o ++ (r' ≫= refs)).*1) (wins s ++ (ss ≫= wins))).
    rewrite fmap_app. apply sublist_app; [by eapply Hs|by eapply IH].
Qed.
Lemma item_at_refs it k o : item_at it k = Ok (Some o) -> sublist (refs o).*1 (wins (it_ship it)).
Proof.
  unfold item_at. destruct (it_exact it).
  - intros E. apply rbind_Ok in E as (o' & E & [= <-]). by eapply get_captain_refs.
  - intros E. apply rbind_Ok in E as (e & _ & E). apply rbind_Ok in E as ([x|] & _ & E); [|done].
    apply rbind_Ok in E as (o' & E & [= <-]). by eapply get_sailor_refs.
Qed.
Lemma tour_refs ls : ∀ it, tour it ls -> ∀ e o, (e, o) ∈ items (mjoin ls) -> sublist (refs o).*1 (wins (it_ship it)).
Proof.
  induction ls as [|l ls IH]; intros it HT e o Hin; [done|]. destruct HT as [(_ & _ & HR) HT].
  rewrite mjoin_cons, items_app in Hin. apply elem_of_app in Hin as [Hin|Hin].
  - apply elem_items in Hin. apply elem_of_list_lookup in Hin as [m Hm].
    destruct (HR m e (Some o) Hm) as [_ E]. by eapply item_at_refs.
  - destruct (it_next_slice it) as [it'|] eqn:E; [|subst; by apply elem_of_nil in Hin].
    specialize (IH it' HT e o Hin). unfold it_next_slice in E. destruct (acc_next_slice _) as [[a len]|]; [|done].
    injection E as <-. cbn in IH. by rewrite wins_next in IH.
Qed.

Lemma settle_wins (l : list (ship V * N * access)) pick : wins (settle l pick).1.1 = l ≫= (λ x, wins x.1.1).
Proof.
  assert (∀ P : nat -> bool, imap (λ j (x : ship V * N * access), if P j then x.1.1 else unpick x.1.1) l ≫= wins
            = l ≫= (λ x, wins x.1.1)) as HX.
  { induction l as [|x l IH]; intros P; [done|]. rewrite imap_cons.
    change (wins (if P 0%nat then x.1.1 else unpick x.1.1) ++
            (imap (λ j (x : ship V * N * access), if P (S j) then x.1.1 else unpick x.1.1) l ≫= wins) =
            wins x.1.1 ++ (l ≫= λ x, wins x.1.1)).
    rewrite (IH (λ j, P (S j))). f_equal. destruct (P 0%nat); [done|]. apply wins_unpick. }
  assert (imap (λ j (x : ship V * N * access), if decide (pick = Some j) then x.1.1 else unpick x.1.1) l ≫= wins
            = l ≫= (λ x, wins x.1.1)) as HY.
  { rewrite <- (HX (λ j, bool_decide (pick = Some j))). f_equal. apply imap_ext. intros j x _.
    case_bool_decide; by rewrite ?decide_True, ?decide_False by done. }
  unfold settle. destruct (pick ≫= _) as [[j [[s len] a]]|]; cbn [fst wins]; exact HY.
Qed.
Context (f10 f05 f12 f20 : N -> N) (env : N -> window V) (Henv : ∀ i, wn_id (env i) = i).
Lemma into_wins q : ∀ x, into_ship f10 f05 f12 f20 env q = Ok x -> wins x.1.1 = storages q.
Proof.
  induction q as [i|i|l|i|b i|b k i|qs IH|q1 q2 IH1 IH2] using query_ind'; intros x E; cbn [into_ship] in E.
  1-6: injection E as <-; cbn; by rewrite ?Henv.
  - apply rbind_Ok in E as (l & El & E).
    assert (l ≫= (λ x, wins x.1.1) = qs ≫= storages) as HL.
    { clear E. revert l El. induction IH as [|q qs Hq HF IH]; intros l El; [by injection El as <-|].
      apply rbind_Ok in El as (y & Ey & El). apply rbind_Ok in El as (l' & El' & [= <-]).
      change (wins y.1.1 ++ (l' ≫= λ x, wins x.1.1) = storages q ++ (qs ≫= storages)).
      by rewrite (Hq _ Ey), (IH _ El'). }
    cbn [storages]. rewrite <- HL. clear HL El.
    destruct (negb _); [done|]. destruct (existsb _ _); [done|]. destruct (1 <? _)%nat; [done|].
    apply rbind_Ok in E as (ts & _ & E). destruct (_ =? 1)%nat; injection E as <-; apply settle_wins.
  - apply rbind_Ok in E as (y & Ey & E). apply rbind_Ok in E as (z & Ez & E).
    specialize (IH1 _ Ey). specialize (IH2 _ Ez).
    destruct y as [[sa la] aa], z as [[sb lb] ab]. injection E as <-. cbn in *. by rewrite IH1, IH2.
Qed.
Lemma q_iter_refs q it ls :
  q_iter f10 f05 f12 f20 env q = Ok it -> tour it ls ->
  ∀ e o, (e, o) ∈ items (mjoin ls) -> sublist (refs o).*1 (storages q).
Proof.
  intros E HT e o Hin. unfold q_iter in E. apply rbind_Ok in E as ([[s len] a] & E & Hit).
  injection Hit as <-. rewrite <- (into_wins q _ E). by apply (tour_refs _ _ HT e o).
Qed.
End alias.
