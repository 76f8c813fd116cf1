(** Proof that a world whose callbacks panic does what PanicsWorldSpec.v says. *)
From stdpp Require Import prelude list gmap.
From Coq Require Import NArith Lia.
From Verif Require EntitiesSpec.
From Verif Require Import EntityId Base Entities SparseSet SparseSetSpec SparseSetProofs SparseSetProofs2.
From Verif Require Import SparseSetHistory Track World WorldProofs.
From Verif Require Import Panics PanicsSpec PanicsProofs PanicsWorldSpec PanicsLoose.
Open Scope N_scope.

Section proofs.
Context {V : Type} (kind : N -> tracking).
Implicit Types (w : world V) (m : gmap N (sset V)) (st : xstate V) (c : N -> gmap eid V).

Definition upd c (i : N) (f : gmap eid V -> gmap eid V) : N -> gmap eid V :=
  λ j, if decide (j = i) then f (c j) else c j.
Definition SL m c : Prop := ∀ i, match m !! i with Some s => LR s (c i) | None => c i = ∅ end.
Record XR w st : Prop := {
  xr_ents : ER (w_ents w) (.∈ x_alive st) (x_issued st);
  xr_stores : SL (w_stores w) (x_cells st);
  xr_keys : ∀ i k, is_Some (x_cells st i !! k) -> k ∈ x_issued st;
  xr_alive : ∀ e, e ∈ x_alive st -> e ∈ x_issued st;
}.

Lemma SL_ext m c c' : SL m c -> (∀ i, c i = c' i) -> SL m c'.
Proof. intros H E i. specialize (H i). rewrite <- E. by destruct (m !! i). Qed.
Lemma SL_upd m c i s f : SL m c -> LR s (f (c i)) -> SL (<[i := s]> m) (upd c i f).
Proof.
  intros H Hs j. unfold upd. destruct (decide (j = i)) as [->|Hne].
  - by rewrite lookup_insert.
  - rewrite lookup_insert_ne by congruence. apply H.
Qed.
Lemma SL_put m c i s : SL m c -> LR s (c i) -> SL (<[i := s]> m) c.
Proof.
  intros H Hs j. destruct (decide (j = i)) as [->|Hne]; [by rewrite lookup_insert|].
  rewrite lookup_insert_ne by congruence. apply H.
Qed.
Lemma SL_new m c i : SL m c -> LR (store_or_new kind m i) (c i).
Proof.
  intros H. unfold store_or_new. specialize (H i). destruct (m !! i) as [s|]; [done|].
  cbn. rewrite H. apply ss_new_LR.
Qed.
Lemma SL_at m st i s f : SL m (x_cells st) -> LR s (f (x_cells st i)) -> SL (<[i := s]> m) (x_cells (at_type st i f)).
Proof. intros H Hs. apply (SL_upd m (x_cells st) i s f H Hs). Qed.

(** ** Lists of actions *)
Section acts.
Context (cbi cbr : N -> eid -> V -> bool).
Notation run := (perform cbi cbr).
Lemma perform_app a1 a2 st :
  run (a1 ++ a2) st = if (run a1 st).2 then run a2 (run a1 st).1 else run a1 st.
Proof.
  revert st. induction a1 as [|a a1 IH]; intros st; [done|]. cbn [app perform].
  destruct (panics_before cbi a); [done|]. destruct (panics_after cbr st a); [done|]. apply IH.
Qed.
Definition cell_act (a : act V) : Prop :=
  match a with ANew _ | AKill _ | AKillAll => False | _ => True end.
Lemma effect_ents a st :
  cell_act a -> x_alive (effect st a) = x_alive st ∧ x_issued (effect st a) = x_issued st.
Proof. by destruct a. Qed.
Lemma perform_ents acts st :
  Forall cell_act acts -> x_alive (run acts st).1 = x_alive st ∧ x_issued (run acts st).1 = x_issued st.
Proof.
  intros H. revert st. induction H as [|a acts Ha H IH]; intros st; [done|]. cbn [perform].
  destruct (panics_before cbi a); [done|].
  destruct (effect_ents a st Ha) as [E1 E2].
  destruct (panics_after cbr st a); [done|].
  destruct (IH (effect st a)) as [E3 E4]. split; congruence.
Qed.
(** Nobody gets a component except by a put. *)
Definition puts_in (K : eid -> Prop) (a : act V) : Prop := match a with APut _ e _ => K e | _ => True end.
Lemma effect_keys (K : eid -> Prop) a st :
  (∀ i k, is_Some (x_cells st i !! k) -> K k) -> puts_in K a ->
  ∀ i k, is_Some (x_cells (effect st a) i !! k) -> K k.
Proof.
  intros H Ha i k. destruct a; cbn; try apply H; destruct (decide _); try apply H.
  - unfold m_put. rewrite lookup_insert_is_Some. intros [->|[_ [x [Hx _]%map_filter_lookup_Some]]]; [done|].
    apply (H i). eauto.
  - unfold m_take. intros [x [Hx _]%map_filter_lookup_Some]. apply (H i). eauto.
  - by intros [x Hx].
  - intros Hx. apply (H i). by rewrite lookup_alter_is_Some in Hx.
Qed.
Lemma perform_keys (K : eid -> Prop) acts st :
  (∀ i k, is_Some (x_cells st i !! k) -> K k) -> Forall (puts_in K) acts ->
  ∀ i k, is_Some (x_cells (run acts st).1 i !! k) -> K k.
Proof.
  intros H Ha. revert st H. induction Ha as [|a acts Ha Hacts IH]; intros st H; [done|]. cbn [perform].
  destruct (panics_before cbi a); [done|].
  destruct (panics_after cbr st a); [by apply effect_keys|]. apply IH. by apply effect_keys.
Qed.
Lemma XR_cells w st acts es m t :
  XR w st -> es = w_ents w -> Forall cell_act acts -> Forall (puts_in (.∈ x_issued st)) acts ->
  SL m (x_cells (run acts st).1) -> XR (World es m t) (run acts st).1.
Proof.
  intros H -> Ha Hp Hm. destruct (perform_ents acts st Ha) as [E1 E2]. split; cbn.
  - rewrite E1, E2. apply H.
  - done.
  - rewrite E2. apply perform_keys; [apply H|done].
  - rewrite E1, E2. apply H.
Qed.

(** ** The loops *)
Lemma newer_put (mm : gmap eid V) k e v : newer (m_put e v mm) k -> idx k = idx e -> gen k = gen e -> False.
Proof.
  intros (x & Hi & Hg & [y Hy]) Hie Hge. unfold m_put in Hy.
  rewrite lookup_insert_ne in Hy by (intros <-; lia).
  apply map_filter_lookup_Some in Hy as [_ Hy]. cbn in Hy. congruence.
Qed.
Notation puts e cs := ((λ x : N * V, APut x.1 e x.2) <$> cs).
Notation takes e is := ((λ i, ATake i e) <$> is).
Lemma x_add_tuple_SL e cs t : ∀ m st,
  SL m (x_cells st) -> handle_ok e -> (∀ i, ¬ newer (x_cells st i) e) ->
  ∃ m', x_add_tuple kind cbi m e cs t = Ok (m', (run (puts e cs) st).2) ∧ SL m' (x_cells (run (puts e cs) st).1).
Proof.
  induction cs as [|[i v] cs IH]; intros m st Hm He Hn; [by eexists|]. cbn [x_add_tuple fmap list_fmap perform].
  destruct (p_insert_LR (store_or_new kind m i) (x_cells st i) e v t (cbi i)) as (s & r & -> & Hr);
    [by apply SL_new|done..|]. cbn [rbind panics_before panics_after fst snd].
  destruct (cbi i e v).
  - destruct Hr as [-> Hs]. eexists. split; [done|]. by apply SL_put.
  - destruct Hr as (r' & -> & -> & Hs). apply IH; [|done|].
    + by apply SL_at.
    + intros j. cbn. destruct (decide _) as [->|]; [|done]. intros Hnew. by eapply newer_put.
Qed.
Lemma m_take_self (mm : gmap eid V) e : m_take e mm !! e = None.
Proof. apply map_filter_lookup_None. right. cbn. intros x _ []. done. Qed.
Lemma x_remove_tuple_SL e is t : ∀ m st,
  SL m (x_cells st) -> gen e < U16_MAX ->
  ∃ m', x_remove_tuple kind cbr m e is t =
          Ok (m', if (run (takes e is) st).2 then Some (take_vals (x_cells st) e is) else None) ∧
        SL m' (x_cells (run (takes e is) st).1).
Proof.
  induction is as [|i is IH]; intros m st Hm He; [by eexists|]. cbn [x_remove_tuple fmap list_fmap perform].
  destruct (p_dyn_remove_LR (store_or_new kind m i) (x_cells st i) e t (cbr i)) as (s & -> & Hs);
    [by apply SL_new|done|]. cbn [rbind panics_before panics_after].
  assert (SL (<[i:=s]> m) (x_cells (at_type st i (m_take e)))) as Hm' by by apply SL_at.
  destruct (IH _ _ Hm' He) as (m' & E & Hm'').
  cbn [effect take_vals]. destruct (x_cells st i !! e) as [v|] eqn:Ev.
  - destruct (cbr i e v).
    + eexists. split; [done|done].
    + rewrite E. cbn [rbind]. eexists. split; [|done]. by destruct (perform _ _ _ _) as [? []].
  - rewrite E. cbn [rbind]. eexists. split; [|done]. by destruct (perform _ _ _ _) as [? []].
Qed.
Lemma upto_ext c c' e is : (∀ i, c i !! e = c' i !! e) -> upto c e is = upto c' e is.
Proof. intros H. induction is as [|i is IH]; [done|]. cbn. by rewrite H, IH. Qed.
Lemma x_delete_tuple_SL e is t : ∀ m st,
  SL m (x_cells st) -> gen e < U16_MAX ->
  ∃ m', x_delete_tuple kind cbr m e is t = Ok (m', (run (takes e (upto (x_cells st) e is)) st).2) ∧
        SL m' (x_cells (run (takes e (upto (x_cells st) e is)) st).1).
Proof.
  induction is as [|i is IH]; intros m st Hm He; [by eexists|].
  cbn [x_delete_tuple fmap list_fmap perform upto].
  destruct (p_dyn_delete_LR (store_or_new kind m i) (x_cells st i) e t (cbr i)) as (s & -> & Hs);
    [by apply SL_new|by left|]. cbn [rbind panics_before panics_after].
  assert (SL (<[i:=s]> m) (x_cells (at_type st i (m_take e)))) as Hm' by by apply SL_at.
  cbn [effect]. destruct (x_cells st i !! e) as [v|] eqn:Ev.
  - destruct (cbr i e v); eexists; (split; [|done]); [done|].
    rewrite decide_True by eauto. done.
  - rewrite decide_False by (intros [? ?]; done).
    destruct (IH _ _ Hm' He) as (m' & E & Hm'').
    rewrite (upto_ext (x_cells (at_type st i (m_take e))) (x_cells st)) in E, Hm''.
    + by exists m'.
    + intros j. cbn. destruct (decide _) as [->|]; [|done]. by rewrite m_take_self.
    + intros j. cbn. destruct (decide _) as [->|]; [|done]. by rewrite m_take_self.
Qed.
Lemma has_one_cons c e i is :
  has_one c e (i :: is) = bool_decide (is_Some (c i !! e)) || has_one (upd c i (m_take e)) e is.
Proof.
  unfold has_one. apply eq_true_iff_eq. rewrite orb_true_iff, !bool_decide_eq_true, Exists_cons.
  destruct (decide (is_Some (c i !! e))) as [|Hn]; [tauto|].
  split; (intros [H|H]; [by left|right]); (eapply Exists_impl; [exact H|]); intros j; unfold upd;
    destruct (decide _) as [->|]; try done.
  rewrite m_take_self. by intros [? ?].
Qed.
Lemma x_view_delete_tuple_SL e is t : ∀ m st,
  SL m (x_cells st) -> gen e < U16_MAX ->
  ∃ m', x_view_delete_tuple kind cbr m e is t =
          Ok (m', if (run (takes e is) st).2 then Some (has_one (x_cells st) e is) else None) ∧
        SL m' (x_cells (run (takes e is) st).1).
Proof.
  induction is as [|i is IH]; intros m st Hm He; [by eexists|]. rewrite has_one_cons.
  cbn [x_view_delete_tuple fmap list_fmap perform].
  destruct (p_dyn_delete_LR (store_or_new kind m i) (x_cells st i) e t (cbr i)) as (s & -> & Hs);
    [by apply SL_new|by left|]. cbn [rbind panics_before panics_after].
  assert (SL (<[i:=s]> m) (x_cells (at_type st i (m_take e)))) as Hm' by by apply SL_at.
  destruct (IH _ _ Hm' He) as (m' & E & Hm'').
  cbn [effect]. destruct (x_cells st i !! e) as [v|] eqn:Ev.
  - destruct (cbr i e v).
    + eexists. split; [done|done].
    + rewrite E. cbn [rbind]. eexists. split; [|done]. by destruct (perform _ _ _ _) as [? []].
  - rewrite E. cbn [rbind]. eexists. split; [|done]. by destruct (perform _ _ _ _) as [? []].
Qed.
Lemma x_for_stores_SL f (ga : N -> list (act V)) order :
  (∀ i s st, LR s (x_cells st i) -> ∃ s', f i s = Ok (s', (run (ga i) st).2) ∧ LR s' (x_cells (run (ga i) st).1 i)) ->
  (∀ i st j, j ≠ i -> x_cells (run (ga i) st).1 j = x_cells st j) ->
  (∀ i st, x_cells st i = ∅ -> (run (ga i) st).2 = true ∧ x_cells (run (ga i) st).1 i = ∅) ->
  ∀ m st, SL m (x_cells st) ->
  ∃ m', x_for_stores order f m = Ok (m', (run (order ≫= ga) st).2) ∧ SL m' (x_cells (run (order ≫= ga) st).1).
Proof.
  intros Hf Ho He. induction order as [|i order IH]; intros m st Hm; [by eexists|].
  cbn [x_for_stores mbind list_bind]. rewrite perform_app.
  pose proof (Hm i) as Hi. destruct (m !! i) as [s|] eqn:Es.
  - destruct (Hf i s st Hi) as (s' & -> & Hs'). cbn [rbind].
    assert (SL (<[i:=s']> m) (x_cells (run (ga i) st).1)) as Hm'.
    { intros j. destruct (decide (j = i)) as [->|Hne]; [by rewrite lookup_insert|].
      rewrite lookup_insert_ne by congruence. rewrite Ho by done. apply Hm. }
    destruct (run (ga i) st).2 eqn:Eok; [by apply IH|]. rewrite Eok. by eexists.
  - destruct (He i st Hi) as [E1 E2]. rewrite E1. apply IH. intros j.
    destruct (decide (j = i)) as [->|Hne]; [by rewrite Es|]. rewrite Ho by done. apply Hm.
Qed.
Lemma x_store_delete_LR e t i s st :
  gen e < U16_MAX -> LR s (x_cells st i) ->
  ∃ s', x_store_delete cbr e t i s = Ok (s', (run [ATake i e] st).2) ∧ LR s' (x_cells (run [ATake i e] st).1 i).
Proof.
  intros He Hs. unfold x_store_delete.
  destruct (p_dyn_delete_LR s (x_cells st i) e t (cbr i) Hs) as (s' & -> & Hs'); [by left|]. cbn [rbind].
  exists s'. cbn [perform panics_before panics_after].
  assert (x_cells (effect st (ATake i e)) i = m_take e (x_cells st i)) as E by (cbn; by rewrite decide_True).
  destruct (x_cells st i !! e) as [v|]; [destruct (cbr i e v)|]; cbn [fst snd]; by rewrite E.
Qed.
Lemma take_other e i st j : j ≠ i -> x_cells (effect st (ATake i e)) j = x_cells st j.
Proof. intros H. cbn. by rewrite decide_False. Qed.
Lemma takes_other l i st j : j ≠ i -> x_cells (run (ATake i <$> l) st).1 j = x_cells st j.
Proof.
  intros H. revert st. induction l as [|e l IH]; intros st; [done|]. cbn [fmap list_fmap perform panics_before].
  destruct (panics_after cbr st (ATake i e)); [by apply take_other|]. 
  etransitivity; [apply IH|]. by apply take_other.
Qed.
Lemma takes_empty l i st :
  x_cells st i = ∅ -> (run (ATake i <$> l) st).2 = true ∧ x_cells (run (ATake i <$> l) st).1 i = ∅.
Proof.
  revert st. induction l as [|e l IH]; intros st H; [done|].
  cbn [fmap list_fmap perform panics_before panics_after]. rewrite H, lookup_empty. apply IH.
  cbn. rewrite decide_True by done. rewrite H. apply map_filter_empty.
Qed.
Lemma x_store_delete_all_LR l t i : ∀ s st,
  Forall (λ e, gen e < U16_MAX) l -> LR s (x_cells st i) ->
  ∃ s', x_store_delete_all cbr l t i s = Ok (s', (run (ATake i <$> l) st).2) ∧
        LR s' (x_cells (run (ATake i <$> l) st).1 i).
Proof.
  induction l as [|e l IH]; intros s st Hl Hs; [by eexists|]. apply Forall_cons in Hl as [He Hl].
  destruct (x_store_delete_LR e t i s st He Hs) as (s1 & E & Hs1).
  cbn [x_store_delete_all fmap list_fmap]. rewrite E. cbn [rbind].
  pose proof (perform_app [ATake i e] (ATake i <$> l) st) as Ep. cbn [app] in Ep. rewrite Ep.
  destruct (run [ATake i e] st).2 eqn:Eok; [by apply IH|]. rewrite Eok. by eexists.
Qed.
Lemma bind_takes e order : order ≫= (λ i, [ATake i e]) = (takes e order : list (act V)).
Proof. induction order as [|i order IH]; [done|]. cbn in *. by rewrite IH. Qed.
Lemma x_for_stores_strip e t order m st :
  gen e < U16_MAX -> SL m (x_cells st) ->
  ∃ m', x_for_stores order (x_store_delete cbr e t) m = Ok (m', (run (takes e order) st).2) ∧
        SL m' (x_cells (run (takes e order) st).1).
Proof.
  intros He Hm. rewrite <- bind_takes. apply x_for_stores_SL; [| | |done].
  - intros i s st' Hs. by apply x_store_delete_LR.
  - intros i st' j Hj. by apply (takes_other [e]).
  - intros i st'. apply (takes_empty [e]).
Qed.
Lemma cell_takes e is : Forall cell_act (takes e is : list (act V)).
Proof. apply Forall_fmap, Forall_true. done. Qed.
Lemma puts_takes K e is : Forall (puts_in K) (takes e is : list (act V)).
Proof. apply Forall_fmap, Forall_true. done. Qed.
(** ** Deleting entities *)
Lemma x_strip_XR w st e order :
  XR w st -> gen e < U16_MAX ->
  ∃ w', x_strip cbr w e order = Ok (w', (run (takes e order) st).2) ∧ XR w' (run (takes e order) st).1.
Proof.
  intros H He. unfold x_strip.
  destruct (x_for_stores_strip e (w_counter w) order (w_stores w) st He (xr_stores w st H)) as (m' & -> & Hm').
  cbn [rbind]. eexists. split; [done|].
  apply (XR_cells w st); [done|done|apply cell_takes|apply puts_takes|done].
Qed.
Lemma XR_kill w st e es :
  XR w st -> ER es (λ x, x ∈ x_alive st ∧ x ≠ e) (x_issued st) -> XR (with_ents w es) (effect st (AKill e)).
Proof.
  intros H Hes. split; cbn; [|apply H..|].
  - eapply ER_ext; [exact Hes|]. set_solver.
  - intros x [Hx _]%elem_of_difference. by apply (xr_alive w st H).
Qed.
Definition deletion (A : gset eid) (x : eid * list N) : list (act V) :=
  if decide (x.1 ∈ A) then AKill x.1 :: takes x.1 x.2 else [].
Lemma x_delete_entity_XR w st e order :
  XR w st -> (e ∈ x_alive st -> gen e < EntitiesSpec.last_gen) ->
  let acts := deletion (x_alive st) (e, order) in
  ∃ w', x_delete_entity cbr w e order =
          Ok (w', if (run acts st).2 then Some (bool_decide (e ∈ x_alive st)) else None) ∧ XR w' (run acts st).1.
Proof.
  intros H He acts. unfold acts, deletion, x_delete_entity. cbn [fst snd]. case_decide as Ha.
  - destruct (ER_delete _ _ _ e (xr_ents w st H) Ha (He Ha)) as (es & -> & Hes). cbn [rbind].
    destruct (x_strip_XR (with_ents w es) (effect st (AKill e)) e order) as (w' & -> & Hw').
    { by apply XR_kill. }
    { by destruct (ER_ok _ _ _ e (xr_ents w st H) Ha). }
    cbn [rbind perform panics_before panics_after]. exists w'. rewrite bool_decide_true by done. done.
  - rewrite (ER_delete_dead _ _ _ e (xr_ents w st H)) by done. cbn. rewrite bool_decide_false by done.
    eexists. split; [done|]. by destruct w, H.
Qed.
Lemma deletion_ext A B dl :
  (∀ x, x ∈ dl -> x.1 ∈ A <-> x.1 ∈ B) -> dl ≫= deletion A = dl ≫= deletion B.
Proof.
  induction dl as [|x dl IH]; intros H; [done|]. cbn. f_equal.
  - unfold deletion. rewrite (decide_ext (x.1 ∈ A) (x.1 ∈ B)); [done|]. apply H. by left.
  - apply IH. intros y Hy. apply H. by right.
Qed.
Lemma x_delete_each_XR dl : ∀ w st,
  XR w st -> (∀ e, e ∈ x_alive st -> gen e < EntitiesSpec.last_gen) -> NoDup dl.*1 ->
  let acts := dl ≫= deletion (x_alive st) in
  ∃ w', x_delete_each cbr w dl = Ok (w', (run acts st).2) ∧ XR w' (run acts st).1.
Proof.
  induction dl as [|[e order] dl IH]; intros w st H Hg Hnd acts; [by eexists|].
  unfold acts. cbn [x_delete_each mbind list_bind]. rewrite perform_app.
  destruct (x_delete_entity_XR w st e order H) as (w1 & E & Hw1); [by apply Hg|].
  rewrite E. cbn [rbind]. cbn [fmap list_fmap fst] in Hnd. apply NoDup_cons in Hnd as [Hni Hnd].
  destruct (run (deletion (x_alive st) (e, order)) st).2 eqn:Eok; [|rewrite Eok; by eexists].
  assert (∀ x, x ∈ x_alive (run (deletion (x_alive st) (e, order)) st).1 <-> x ∈ x_alive st ∧ x ≠ e) as Ha.
  { intros x. unfold deletion. cbn [fst snd].
    destruct (decide (e ∈ x_alive st)) as [Hd|Hd]; unfold decide;
      cbn [perform panics_before panics_after].
    - destruct (perform_ents (takes e order) (effect st (AKill e)) (cell_takes e order)) as [-> _].
      cbn. set_solver.
    - cbn. set_solver. }
  rewrite (deletion_ext (x_alive st) (x_alive (run (deletion (x_alive st) (e, order)) st).1)).
  - apply IH; [done| |done]. intros x [Hx _]%Ha. by apply Hg.
  - intros x Hx. rewrite Ha. split; [|tauto]. intros Hxa. split; [done|]. intros Heq. apply Hni.
    rewrite <- Heq. apply elem_of_list_fmap. eauto.
Qed.
Lemma clears_run is st : (run (AClear <$> is) st).2 = true.
Proof. revert st. induction is as [|i is IH]; intros st; [done|]. cbn. apply IH. Qed.
Lemma collect_any_SL is t : ∀ m st ids,
  SL m (x_cells st) -> NoDup ids ->
  ∃ m' ids', collect_any m is ids t = Ok (m', ids') ∧ SL m' (x_cells (run (AClear <$> is) st).1) ∧ NoDup ids' ∧
    (∀ d, d ∈ ids' <-> d ∈ ids ∨ ∃ i s, i ∈ is ∧ m !! i = Some s ∧ d ∈ ss_dense s).
Proof.
  induction is as [|i is IH]; intros m st ids Hm Hnd.
  - eexists m, ids. split; [done|]. split; [done|]. split; [done|]. intros d. split; [by left|].
    intros [?|(? & ? & Hi & _)]; [done|]. by apply elem_of_nil in Hi.
  - cbn [collect_any fmap list_fmap perform panics_before panics_after].
    pose proof (Hm i) as Hi. destruct (m !! i) as [s|] eqn:Es.
    + destruct (ss_clear_LR s _ t Hi) as (s' & -> & Hs'). cbn [rbind].
      destruct (IH (<[i:=s']> m) (effect st (AClear i)) (remove_dups (ids ++ ss_dense s)))
        as (m' & ids' & E & Hm' & Hnd' & Hids).
      * by apply SL_at.
      * apply NoDup_remove_dups.
      * exists m', ids'. split; [done|]. split; [done|]. split; [done|]. intros d.
        rewrite Hids, elem_of_remove_dups, elem_of_app. 
        assert (ss_dense s' = []) as Hemp.
        { destruct (ss_dense s') as [|d' l] eqn:Ed; [done|].
          destruct (LR_row s' ∅ 0 d' Hs') as (k & v & _ & _ & _ & Hk & _); [by rewrite Ed|done]. }
        split.
        -- intros [[Hd|Hd]|(j & s2 & Hj & Hs2 & Hd)]; [by left|right; exists i, s; set_solver|right].
           destruct (decide (j = i)) as [->|Hne].
           ++ rewrite lookup_insert in Hs2. injection Hs2 as <-. rewrite Hemp in Hd. by apply elem_of_nil in Hd.
           ++ rewrite lookup_insert_ne in Hs2 by congruence. exists j, s2. set_solver.
        -- intros [Hd|(j & s2 & Hj & Hs2 & Hd)]; [by left; left|].
           destruct (decide (j = i)) as [->|Hne]; [left; right; congruence|right].
           exists j, s2. rewrite lookup_insert_ne by congruence. set_solver.
    + destruct (IH m (effect st (AClear i)) ids) as (m' & ids' & E & Hm' & Hnd' & Hids); [|done|].
      * intros j. cbn. destruct (decide (j = i)) as [->|]; [by rewrite Es|apply Hm].
      * exists m', ids'. split; [done|]. split; [done|]. split; [done|]. intros d. rewrite Hids.
        split; (intros [Hd|(j & s2 & Hj & Hs2 & Hd)]; [by left|right]); exists j, s2.
        -- set_solver.
        -- split; [|done]. apply elem_of_cons in Hj as [->|Hj]; [congruence|done].
Qed.
Lemma x_delete_any_XR w st is dl :
  XR w st -> (∀ e, e ∈ x_alive st -> gen e < EntitiesSpec.last_gen) ->
  dl.*1 ≡ₚ remove_dups (is ≫= λ i, match w_stores w !! i with Some s => ss_dense s | None => [] end) ->
  let acts := (AClear <$> is) ++ (dl ≫= deletion (x_alive st)) in
  ∃ w', x_delete_any cbr w is dl = Ok (w', (run acts st).2) ∧ XR w' (run acts st).1 ∧
        acts_of st (WDeleteAny is dl) acts WUnit.
Proof.
  intros H Hg Hdl acts. unfold x_delete_any.
  destruct (collect_any_SL is (w_counter w) (w_stores w) st []) as (m' & ids & -> & Hm' & Hnd & Hids);
    [apply H|constructor|]. cbn [rbind].
  assert (∀ d, d ∈ dl.*1 <-> ∃ i s, i ∈ is ∧ w_stores w !! i = Some s ∧ d ∈ ss_dense s) as Hin.
  { intros d. rewrite Hdl, elem_of_remove_dups, elem_of_list_bind. split.
    - intros (i & Hd & Hi). destruct (w_stores w !! i) as [s|] eqn:Es; [|by apply elem_of_nil in Hd]. eauto.
    - intros (i & s & Hi & Es & Hd). exists i. by rewrite Es. }
  assert (NoDup dl.*1) as Hnd1. { rewrite Hdl. apply NoDup_remove_dups. }
  rewrite decide_True.
  - assert (Forall cell_act (AClear <$> is : list (act V))) as Hc by by apply Forall_fmap, Forall_true.
    destruct (perform_ents (AClear <$> is) st Hc) as [Ea Ei].
    destruct (x_delete_each_XR dl (with_stores (w_tick w) m') (run (AClear <$> is) st).1) as (w' & E & Hw').
    + apply (XR_cells w st); [done|done|done| |done]. by apply Forall_fmap, Forall_true.
    + by rewrite Ea.
    + done.
    + rewrite Ea in E, Hw'. exists w'. unfold acts. rewrite perform_app, clears_run. split; [done|]. split; [done|].
      apply XaDeleteAny; [done|..].
      * intros d (i & s & Hi & Es & Hd)%Hin. pose proof (xr_stores w st H i) as HL. rewrite Es in HL.
        apply getN_elem in Hd as [p Hp]. destruct (LR_row s _ p d HL Hp) as (k & v & Hid & _ & _ & Hk & _).
        exists i, k. eauto.
      * intros i k Hi [v Hk]. pose proof (xr_stores w st H i) as HL. destruct (w_stores w !! i) as [s|] eqn:Es.
        -- destruct (LR_dom s _ k v HL Hk) as (_ & p & d & Hd & Hid & _). exists d. split; [|done].
           apply Hin. exists i, s. split; [done|]. split; [done|]. apply getN_elem. eauto.
        -- by rewrite HL in Hk.
  - apply NoDup_Permutation; [done..|]. intros d. rewrite Hin, Hids. split; [by right|].
    intros [Hd|?]; [by apply elem_of_nil in Hd|done].
Qed.

(** ** Retain *)
Definition owner (s : sset V) (d : eid) : eid :=
  match sa_get (ss_sparse s) d with Some slot => (idx d, gen slot) | None => d end.
Lemma owner_eq s mm p d :
  LR s mm -> getN (ss_dense s) p = Some d ->
  id_of d (owner s d) ∧ ∃ v, mm !! owner s d = Some v ∧ getN (ss_data s) p = Some v.
Proof.
  intros HL Hp. destruct (LR_row s mm p d HL Hp) as (k & v & Hid & _ & Hsp & Hk & Hv).
  assert (owner s d = k) as ->; [|eauto].
  unfold owner. rewrite Hsp. destruct d, k, Hid. cbn in *. congruence.
Qed.
Lemma LR_listing s mm :
  LR s mm -> listing mm ((λ x, (x.1, owner s x.1, x.2)) <$> zip (ss_dense s) (ss_data s)).
Proof.
  intros HL. pose proof (LR_len s mm HL) as Hlen. unfold lenN in Hlen.
  assert (∀ d v, (d, v) ∈ zip (ss_dense s) (ss_data s) <->
            ∃ p, getN (ss_dense s) p = Some d ∧ getN (ss_data s) p = Some v) as Hz.
  { intros d v. rewrite elem_of_list_lookup. split.
    - intros [n Hn]. apply lookup_zip_with_Some in Hn as (x & y & Heq & Hx & Hy).
      injection Heq as -> ->. exists (N.of_nat n). by rewrite !getN_lookup, Nat2N.id.
    - intros (p & Hx & Hy). rewrite getN_lookup in Hx. rewrite getN_lookup in Hy. exists (N.to_nat p).
      apply lookup_zip_with_Some. eauto. }
  split; [|split].
  - assert (((λ x : eid * V, (x.1, owner s x.1, x.2)) <$> zip (ss_dense s) (ss_data s)).*1.*1 = ss_dense s) as ->.
    { rewrite <- !list_fmap_compose. cbn. apply (fst_zip (ss_dense s) (ss_data s)). lia. }
    apply NoDup_alt. intros a b x Ha Hb. rewrite !list_lookup_fmap in *.
    destruct (ss_dense s !! a) as [d|] eqn:Ed; [|done]. destruct (ss_dense s !! b) as [d'|] eqn:Ed'; [|done].
    injection Ha as <-. injection Hb as Hb.
    assert (N.of_nat a = N.of_nat b); [|lia].
    apply (LR_pos s mm _ _ d d' HL); [by rewrite getN_lookup, Nat2N.id..|done].
  - intros d k v Hin. apply elem_of_list_fmap in Hin as ([d2 v2] & Heq & Hin). injection Heq as -> -> ->.
    cbn. apply Hz in Hin as (p & Hd & Hv). destruct (owner_eq s mm p d2 HL Hd) as (Hid & v & Hm & Hv').
    split; [done|]. congruence.
  - intros k v Hk. destruct (LR_dom s mm k v HL Hk) as (_ & p & d & Hd & Hid & Hsp & Hv).
    exists d. apply elem_of_list_fmap. exists (d, v). split; [|apply Hz; eauto]. cbn. f_equal. f_equal.
    unfold owner. destruct Hid as [Hi _]. rewrite (sa_get_idx _ d k) by done. rewrite Hsp. 
    destruct d, k; cbn in *; congruence.
Qed.
Lemma NoDup_fmap_filter {A B} (g : A -> B) (P : A -> Prop) `{∀ x, Decision (P x)} l :
  NoDup (g <$> l) -> NoDup (g <$> filter P l).
Proof.
  induction l as [|x l IH]; intros Hn; [done|]. cbn in Hn. apply NoDup_cons in Hn as [Hx Hn].
  rewrite filter_cons. case_decide; [|by apply IH]. cbn. apply NoDup_cons. split; [|by apply IH].
  intros (y & Hy & Hin)%elem_of_list_fmap. apply Hx. apply elem_of_list_fmap. exists y. split; [done|].
  by apply elem_of_list_filter in Hin as [_ ?].
Qed.
(** The listing that begins with what a closure was shown. *)
Definition triples (s : sset V) (calls : list (pcall V)) : list (eid * eid * V) :=
  (λ x : pcall V, (x.1.1.1, owner s x.1.1.1, x.1.1.2)) <$> calls.
Lemma shown_listing s mm calls :
  LR s mm -> NoDup (idx <$> (call_id <$> calls)) ->
  (∀ d v ans wr, (d, v, ans, wr) ∈ calls -> d ∈ ss_dense s ∧ ∃ k, id_of d k ∧ mm !! k = Some v) ->
  ∃ rest, listing mm (triples s calls ++ rest) ∧
    (∀ x, x ∈ rest -> idx x.1.1 ∉ (idx <$> (call_id <$> calls)) ∧ x.1.1 ∈ ss_dense s).
Proof.
  intros HL Hnd Hc. destruct (LR_listing s mm HL) as (L1 & L2 & L3).
  set (full := (λ x : eid * V, (x.1, owner s x.1, x.2)) <$> zip (ss_dense s) (ss_data s)) in *.
  assert (∀ d k v, (d, k, v) ∈ triples s calls -> id_of d k ∧ mm !! k = Some v ∧ d ∈ (call_id <$> calls)) as HT.
  { intros d k v Hin. apply elem_of_list_fmap in Hin as ([[[d2 v2] a2] w2] & Heq & Hin). cbn in Heq.
    injection Heq as -> -> ->. destruct (Hc _ _ _ _ Hin) as ([p Hp]%getN_elem & k & Hid & Hk).
    destruct (owner_eq s mm p d2 HL Hp) as (Hid2 & v & Hv & _).
    split; [done|]. split.
    - assert (owner s d2 = k) as ->; [|done]. apply (LR_one s mm); [done|eauto|eauto|].
      destruct Hid, Hid2. congruence.
    - apply elem_of_list_fmap. by exists (d2, v2, a2, w2). }
  exists (filter (λ x, idx x.1.1 ∉ (idx <$> (call_id <$> calls))) full). split; [split; [|split]|].
  - rewrite !fmap_app. apply NoDup_app. split; [|split].
    + assert ((triples s calls).*1.*1 = call_id <$> calls) as ->; [|done].
      unfold triples. by rewrite <- !list_fmap_compose.
    + intros j Hj (d & -> & Hd)%elem_of_list_fmap.
      apply elem_of_list_fmap in Hd as ([d2 k2] & -> & Hd). apply elem_of_list_fmap in Hd as ([[d3 k3] v3] & Heq & Hd).
      injection Heq as -> ->. apply elem_of_list_filter in Hd as [Hd _]. apply Hd. cbn.
      assert ((triples s calls).*1.*1 = call_id <$> calls) as <-; [|done].
      unfold triples. by rewrite <- !list_fmap_compose.
    + rewrite <- !list_fmap_compose in L1 |- *. by apply NoDup_fmap_filter.
  - intros d k v [Hin|Hin]%elem_of_app; [by apply HT in Hin as (? & ? & _)|].
    apply elem_of_list_filter in Hin as [_ Hin]. by apply L2.
  - intros k v Hk. destruct (L3 k v Hk) as [d Hd]. destruct (L2 d k v Hd) as [Hid _].
    destruct (decide (idx d ∈ (idx <$> (call_id <$> calls)))) as [Hin|Hn].
    + apply elem_of_list_fmap in Hin as (d2 & Hi & Hin). apply elem_of_list_fmap in Hin as ([[[d3 v3] a3] w3] & -> & Hin).
      exists d3. apply elem_of_app. left.
      assert ((d3, owner s d3, v3) ∈ triples s calls) as Ht.
      { apply elem_of_list_fmap. by exists (d3, v3, a3, w3). }
      destruct (HT _ _ _ Ht) as (Hid3 & Hk3 & _).
      assert (owner s d3 = k) as Ho.
      { apply (LR_one s mm); [done|eauto|eauto|]. unfold call_id in Hi. cbn in Hi.
        destruct Hid, Hid3. congruence. }
      rewrite Ho in *. assert (v3 = v) as -> by congruence. done.
    + exists d. apply elem_of_app. right. by apply elem_of_list_filter.
  - intros x [Hx Hin]%elem_of_list_filter. split; [done|].
    apply elem_of_list_fmap in Hin as ([d v] & -> & Hin). cbn. by apply elem_of_zip_l in Hin.
Qed.
Lemma x_retain_shown w st ty f :
  XR w st -> is_Some (w_stores w !! ty) ->
  ∃ w' ok cs, x_retain cbr w ty f = Ok (w', ok) ∧ XR w' (at_type st ty (λ _, cs)) ∧ shown f (x_cells st ty) cs ok.
Proof.
  intros H [s Es]. pose proof (xr_stores w st H ty) as HL. rewrite Es in HL.
  destruct (p_retain_LR s _ f (cbr ty) (w_counter w) HL)
    as (s1 & calls & boom & m1 & E1 & HL1 & I1 & I2 & I3 & I4 & I5 & _).
  destruct (shown_listing s _ calls HL I1) as (rest & Hl & Hrest).
  { intros d v ans w0 Hin. destruct (I2 _ _ _ _ Hin) as (_ & Hd & k & Hid & Hk & _). eauto. }
  unfold x_retain. rewrite Es, E1. cbn [rbind fst snd]. eexists _, _, m1. split; [done|]. split.
  - split; cbn; [apply H| | |].
    + intros j. destruct (decide (j = ty)) as [->|Hne]; [by rewrite lookup_insert|].
      rewrite lookup_insert_ne by congruence. apply H.
    + intros j k. destruct (decide (j = ty)) as [->|Hne]; [|apply H].
      intros Hk. apply (xr_keys w st H ty). destruct (x_cells st ty !! k) eqn:Ek; [eauto|].
      rewrite (I4 k Ek) in Hk. by destruct Hk.
    + apply H.
  - exists (triples s calls ++ rest). split; [done|]. exists (length (triples s calls)).
    destruct Hl as (L1 & L2 & L3). rewrite take_app, drop_app. split; [|split; [|split]].
    + intros Hb. destruct boom; [done|]. rewrite app_length.
      destruct rest as [|x rest]; [cbn; lia|]. exfalso. destruct (Hrest x) as [Hx Hd]; [by left|]. apply Hx.
      apply elem_of_list_fmap. exists x.1.1. split; [done|]. by apply I5.
    + intros d k v Hin. destruct (L2 d k v) as [Hid Hk]; [by apply elem_of_app; left|].
      apply elem_of_list_fmap in Hin as ([[[d2 v2] a2] w2] & Heq & Hin). cbn in Heq.
      injection Heq as -> -> ->. destruct (I2 _ _ _ _ Hin) as ([seen Hf] & _ & k2 & Hid2 & Hk2 & Hm2).
      assert (k2 = owner s d2) as ->.
      { apply (LR_one s (x_cells st ty)); [done|eauto|eauto|]. destruct Hid, Hid2. congruence. }
      exists seen, a2, w2. split; [done|]. rewrite Hm2. by destruct a2.
    + intros d k v Hin. destruct (L2 d k v) as [[Hi _] Hk]; [by apply elem_of_app; right|].
      rewrite I3; [done|]. rewrite <- Hi. by destruct (Hrest _ Hin).
    + done.
Qed.
(** ** One step *)
Lemma not_newer w st e i : XR w st -> e ∈ x_alive st -> ¬ newer (x_cells st i) e.
Proof.
  intros H He (k & Hi & Hg & Hk). apply (xr_keys w st H) in Hk.
  pose proof (ER_issued _ _ _ k e (xr_ents w st H) Hk He Hi). lia.
Qed.
Lemma cell_puts e cs : Forall cell_act (puts e cs).
Proof. by apply Forall_fmap, Forall_true. Qed.
Lemma puts_puts (K : eid -> Prop) e cs : K e -> Forall (puts_in K) (puts e cs).
Proof. intros HK. apply Forall_fmap, Forall_true. done. Qed.
Lemma XR_new w st es e :
  XR w st -> ER es (λ x, x ∈ x_alive st ∨ x = e) (x_issued st ++ [e]) -> XR (with_ents w es) (effect st (ANew e)).
Proof.
  intros H Hes. split; cbn.
  - eapply ER_ext; [exact Hes|]. set_solver.
  - apply H.
  - intros i k Hk. apply elem_of_app. left. by apply (xr_keys w st H i).
  - intros x [Hx|Hx]%elem_of_union; apply elem_of_app; [left; by apply (xr_alive w st H)|right; set_solver].
Qed.
Lemma clear_stores_SL order t : ∀ m st,
  SL m (x_cells st) ->
  ∃ m', for_stores order (λ _ s, ss_clear s t) m = Ok m' ∧ SL m' (x_cells (run (AClear <$> order) st).1).
Proof.
  induction order as [|i order IH]; intros m st Hm; [by eexists|].
  cbn [for_stores fmap list_fmap perform panics_before panics_after].
  pose proof (Hm i) as Hi. destruct (m !! i) as [s|] eqn:Es.
  - destruct (ss_clear_LR s _ t Hi) as (s' & -> & Hs'). cbn [rbind]. apply IH. by apply SL_at.
  - apply IH. intros j. cbn. destruct (decide (j = i)) as [->|]; [by rewrite Es|apply Hm].
Qed.
Lemma filter_takes e (keep order : list N) :
  order ≫= (λ i, if decide (i ∈ keep) then [] else [ATake i e]) =
  (takes e (filter (λ i, i ∉ keep) order) : list (act V)).
Proof.
  induction order as [|i order IH]; [done|]. rewrite filter_cons. cbn [mbind list_bind]. unfold mbind in IH.
  destruct (decide (i ∈ keep)) as [Hi|Hi].
  - rewrite decide_False by tauto. exact IH.
  - rewrite decide_True by done. cbn [fmap list_fmap app]. f_equal. exact IH.
Qed.
Lemma bind_takes_all (l : list eid) (order : list N) (acts : list (act V)) :
  acts ∈ [order ≫= λ i, ATake i <$> l] -> Forall cell_act acts ∧ ∀ K, Forall (puts_in K) acts.
Proof.
  intros ->%elem_of_list_singleton. split; [|intros K];
    apply Forall_forall; intros a (i & (e & -> & _)%elem_of_list_fmap & _)%elem_of_list_bind; done.
Qed.

End acts.

Notation puts e cs := ((λ x : N * V, APut x.1 e x.2) <$> cs).
Notation takes e is := ((λ i, ATake i e) <$> is).
(** The visits of a retain are the same whatever the callback does, up to where it panics. *)
Lemma p_dyn_delete_never (s : sset V) e t cb s' b :
  p_dyn_delete s e t cb = Ok (s', Some b) -> p_dyn_delete s e t (λ _ _, false) = Ok (s', Some b).
Proof.
  unfold p_dyn_delete, p_actual_remove. destruct (actual_remove s e) as [[s1 [x|]]| |]; cbn; try done.
  by destruct (cb e x).
Qed.
Lemma p_retain_loop_run f ty t n :
  ∀ i removed s st,
  LR s (x_cells st ty) -> removed <= i -> i - removed + N.of_nat n = lenN (ss_dense s) ->
  ∃ l : list (eid * V),
    NoDup (idx <$> l.*1) ∧
    (∀ d v, (d, v) ∈ l -> (∃ j, i - removed <= j ∧ getN (ss_dense s) j = Some d) ∧
                          ∃ k, id_of d k ∧ x_cells st ty !! k = Some v) ∧
    (∀ j d, i - removed <= j -> getN (ss_dense s) j = Some d -> d ∈ l.*1) ∧
    ∀ cbi cbr seen, let acts := (λ x, ATake ty x.1) <$> filter (λ x, f x.1 x.2 = false) l in
    ∃ s' calls boom,
      p_retain_loop n i removed (never_booms f) (cbr ty) seen t s = Ok (s', calls, boom) ∧
      (perform cbi cbr acts st).2 = negb boom ∧ LR s' (x_cells (perform cbi cbr acts st).1 ty).
Proof.
  induction n as [|n IH]; intros i removed s st HL Hri Hn.
  { exists []. split_and!; [constructor|by intros ?? ?%elem_of_nil| |by intros; eexists s, [], false].
    intros j d Hj Hd. apply getN_Some_lt in Hd. lia. }
  cbn [p_retain_loop]. destruct (N.ltb_spec i removed) as [|_]; [lia|].
  set (p := i - removed) in *.
  destruct (getN_lt (ss_dense s) p) as [d Hd]; [lia|].
  destruct (LR_row s _ p d HL Hd) as (k & v & Hid & Hok & Hsp & Hk & Hv).
  unfold get_unchecked at 1 2. rewrite Hd, Hv. cbn [rbind]. unfold never_booms at 1.
  destruct (f d v) eqn:Ef.
  - destruct (IH (i + 1) removed s st HL) as (l & I1 & I2 & I3 & I4); [lia|lia|].
    replace (i + 1 - removed) with (p + 1) in * by lia.
    exists ((d, v) :: l). split_and!.
    + cbn. apply NoDup_cons. split; [|done]. intros (d2 & Hi2 & Hin)%elem_of_list_fmap.
      apply elem_of_list_fmap in Hin as ([d3 v3] & -> & Hin). destruct (I2 _ _ Hin) as ((j & Hj & Hg) & _).
      pose proof (LR_pos s _ p j d d3 HL Hd Hg Hi2). lia.
    + intros d2 v2 [Heq|Hin]%elem_of_cons.
      * injection Heq as -> ->. split; [exists p; split; [lia|done]|eauto].
      * destruct (I2 _ _ Hin) as ((j & Hj & Hg) & J2). split; [exists j; split; [lia|done]|done].
    + intros j d2 Hj Hg. cbn. apply elem_of_cons. destruct (decide (j = p)) as [->|Hjp]; [left; congruence|right].
      eapply I3; [|done]. lia.
    + intros cbi cbr seen. destruct (I4 cbi cbr (seen ++ [(d, v)])) as (s' & calls & boom & E1 & H1 & H2).
      rewrite E1. cbn [rbind fst snd]. eexists _, _, _. split; [done|].
      rewrite filter_cons_False by (cbn; congruence). done.
  - destruct (p_dyn_delete_LR s _ d t (λ _ _, false) HL) as (s2 & E & HL2).
    { right. exists k. split; [by destruct Hid|eauto]. }
    destruct (p_dyn_delete_dense' s d t (λ _ _, false) (p, gen k) s2 _ Hsp (proj2 Hid) E) as (x & Hsw).
    cbn [idx fst] in Hsw. destruct (swap_remove_ok _ _ _ Hd) as (dn & Esw & Ldn & Lpos & Gdn).
    rewrite Hsw in Esw. injection Esw as -> Edn.
    pose proof (m_take_one s _ d k HL Hid) as Htk.
    assert (x_cells (effect st (ATake ty d)) ty = m_take d (x_cells st ty)) as Ec by (cbn; by rewrite decide_True).
    destruct (IH (i + 1) (removed + 1) s2 (effect st (ATake ty d))) as (l & I1 & I2 & I3 & I4).
    { by rewrite Ec. }
    { lia. }
    { rewrite Edn, Ldn. replace (i + 1 - (removed + 1)) with p by lia. lia. }
    replace (i + 1 - (removed + 1)) with p in * by lia. rewrite Ec, Htk in I2 by eauto.
    assert (∀ j d2, p <= j -> getN (ss_dense s2) j = Some d2 ->
              ∃ j', p <= j' ∧ j' ≠ p ∧ getN (ss_dense s) j' = Some d2) as Hback.
    { intros j d2 Hj Hg. rewrite Edn, Gdn in Hg.
      destruct (N.ltb_spec j (lenN (ss_dense s) - 1)); [|done].
      destruct (N.eqb_spec j p) as [->|Hjp].
      - exists (lenN (ss_dense s) - 1). split; [lia|]. split; [lia|done].
      - exists j. done. }
    exists ((d, v) :: l). split_and!.
    + cbn. apply NoDup_cons. split; [|done]. intros (d2 & Hi2 & Hin)%elem_of_list_fmap.
      apply elem_of_list_fmap in Hin as ([d3 v3] & -> & Hin). destruct (I2 _ _ Hin) as ((j & Hj & Hg) & _).
      destruct (Hback _ _ Hj Hg) as (j' & Hj' & Hne & Hg').
      apply Hne. symmetry. exact (LR_pos s _ p j' d d3 HL Hd Hg' Hi2).
    + intros d2 v2 [Heq|Hin]%elem_of_cons.
      * injection Heq as -> ->. split; [exists p; split; [lia|done]|eauto].
      * destruct (I2 _ _ Hin) as ((j & Hj & Hg) & k2 & Hid2 & Hk2).
        destruct (Hback _ _ Hj Hg) as (j' & Hj' & Hne & Hg').
        split; [exists j'; split; [lia|done]|]. exists k2. split; [done|].
        by apply lookup_delete_Some in Hk2 as [_ Hk2].
    + intros j d2 Hj Hg. cbn. apply elem_of_cons. destruct (decide (j = p)) as [->|Hjp]; [left; congruence|right].
      pose proof (getN_Some_lt _ _ _ Hg) as Hlt.
      destruct (decide (j = lenN (ss_dense s) - 1)) as [->|Hjl].
      * apply (I3 p); [lia|]. rewrite Edn, Gdn, N.eqb_refl.
        destruct (N.ltb_spec p (lenN (ss_dense s) - 1)); [done|lia].
      * apply (I3 j); [lia|]. rewrite Edn, Gdn.
        destruct (N.ltb_spec j (lenN (ss_dense s) - 1)); [|lia].
        destruct (N.eqb_spec j p); [lia|done].
    + intros cbi cbr seen.
      destruct (p_dyn_delete_LR s _ d t (cbr ty) HL) as (s3 & E3 & HL3).
      { right. exists k. split; [by destruct Hid|eauto]. }
      rewrite E3. cbn [rbind]. rewrite filter_cons_True by done.
      cbn [fmap list_fmap perform panics_before fst].
      destruct (panics_after cbr st (ATake ty d)) eqn:Ep.
      * cbn [panics_after] in Ep. destruct (x_cells st ty !! d) as [y|] eqn:Ey; [|done]. rewrite Ep.
        eexists _, _, _. split; [done|]. cbn [fst snd]. split; [done|]. by rewrite Ec.
      * assert (match x_cells st ty !! d with
                | Some v => if cbr ty d v then None else Some true | None => Some false end
                = Some (bool_decide (is_Some (x_cells st ty !! d)))) as Eout.
        { cbn [panics_after] in Ep. destruct (x_cells st ty !! d); [by rewrite Ep|done]. }
        rewrite Eout in E3 |- *. apply p_dyn_delete_never in E3. rewrite E in E3. injection E3 as <- _.
        destruct (I4 cbi cbr (seen ++ [(d, v)])) as (s' & calls & boom & E1 & H1 & H2).
        rewrite E1. cbn [rbind fst snd]. eexists _, _, _. done.
Qed.
Lemma x_retain_XR w st ty f :
  XR w st -> is_Some (w_stores w !! ty) ->
  ∃ acts, acts_of st (WRetain ty f) acts WUnit ∧ ∀ cbi cbr,
    ∃ w', x_retain cbr w ty (never_booms f) = Ok (w', (perform cbi cbr acts st).2) ∧
          XR w' (perform cbi cbr acts st).1.
Proof.
  intros H [s Es]. pose proof (xr_stores w st H ty) as HL. rewrite Es in HL.
  destruct (p_retain_loop_run f ty (w_counter w) (length (ss_dense s)) 0 0 s st HL)
    as (l & I1 & I2 & I3 & I4); [lia|unfold lenN; lia|].
  set (tr := λ x : eid * V, (x.1, owner s x.1, x.2)).
  assert (∀ d v, (d, v) ∈ l -> id_of d (owner s d) ∧ x_cells st ty !! owner s d = Some v) as Ho.
  { intros d v Hin. destruct (I2 _ _ Hin) as ((p & _ & Hp) & k & Hid & Hk).
    destruct (owner_eq s _ p d HL Hp) as (Hid2 & v2 & Hv2 & _). split; [done|].
    assert (owner s d = k) as ->; [|done]. apply (LR_one s (x_cells st ty)); [done|eauto|eauto|].
    destruct Hid, Hid2. congruence. }
  exists ((λ x, ATake ty x.1) <$> filter (λ x, f x.1 x.2 = false) l). split.
  - assert ((λ x : eid * V, ATake ty x.1) <$> filter (λ x, f x.1 x.2 = false) l =
            ((λ x, ATake ty x.1.1) <$> filter (λ x, f x.1.1 x.2 = false) (tr <$> l) : list (act V))) as ->.
    { clear. induction l as [|x l IH]; [done|]. rewrite fmap_cons, !filter_cons. cbn [fst snd tr].
      destruct (decide (f x.1 x.2 = false)); [|exact IH]. rewrite !fmap_cons. f_equal. exact IH. }
    apply XaRetain. split; [|split].
    + assert ((tr <$> l).*1.*1 = l.*1) as ->; [|done]. by rewrite <- !list_fmap_compose.
    + intros d k v ([d2 v2] & Heq & Hin)%elem_of_list_fmap. injection Heq as -> -> ->. by apply Ho.
    + intros k v Hk. destruct (LR_dom s _ k v HL Hk) as (_ & p & d & Hd & Hid & _).
      assert (d ∈ l.*1) as Hin by (apply (I3 p); [lia|done]).
      apply elem_of_list_fmap in Hin as ([d2 v2] & -> & Hin). destruct (Ho _ _ Hin) as [Hid2 Hk2].
      exists d2. apply elem_of_list_fmap. exists (d2, v2). split; [|done]. unfold tr. cbn [fst snd].
      assert (owner s d2 = k) as Hok.
      { apply (LR_one s (x_cells st ty)); [done|eauto|eauto|]. cbn in *. destruct Hid, Hid2. congruence. }
      rewrite Hok in *. congruence.
  - intros cbi cbr. destruct (I4 cbi cbr []) as (s' & calls & boom & E & Hb & HL').
    unfold x_retain, p_retain. rewrite Es, E. cbn [rbind fst snd]. eexists. split; [by rewrite Hb|].
    apply (XR_cells cbi cbr w st); [done|done|by apply Forall_fmap, Forall_true..|].
    intros j. destruct (decide (j = ty)) as [->|Hne]; [by rewrite lookup_insert|].
    rewrite lookup_insert_ne by congruence.
    assert ((λ x : eid * V, ATake ty x.1) <$> filter (λ x, f x.1 x.2 = false) l =
            ATake ty <$> ((filter (λ x, f x.1 x.2 = false) l).*1)) as -> by by rewrite <- list_fmap_compose.
    rewrite takes_other by done. apply H.
Qed.

(** The actions of an operation do not depend on the callbacks. *)
Lemma x_op_XR w st o :
  XR w st -> x_allowed w (XOp (λ _ _ _, false) (λ _ _ _, false) o) ->
  ∃ acts ev, acts_of st o acts ev ∧ ∀ cbi cbr,
    ∃ w', x_step kind w (XOp cbi cbr o) = Ok (w', if (perform cbi cbr acts st).2 then Some ev else None) ∧
          XR w' (perform cbi cbr acts st).1.
Proof.
  intros H Ha. pose proof (xr_ents w st H) as HE. destruct o; cbn [x_step x_allowed] in *.
  - (* add_entity *)
    destruct (ER_generate _ _ _ HE Ha) as (es & h & Eg & Hh & Hfree & Hes).
    pose proof (XR_new w st es h H Hes) as H1.
    assert (h ∈ x_alive (effect st (ANew h))) as Hal by (cbn; set_solver).
    exists (ANew h :: puts h cs), (WId h). split; [by apply XaAddEntity|]. intros cbi cbr.
    destruct (x_add_tuple_SL cbi cbr h cs (w_counter w) (w_stores w) (effect st (ANew h))) as (m' & E & Hm').
    { apply H1. }
    { by apply (ER_ok _ _ _ h (xr_ents _ _ H1)). }
    { intros i. by apply (not_newer cbi cbr _ _ h i H1). }
    unfold x_add_entity. rewrite Eg. cbn [rbind]. rewrite E. cbn [rbind].
    cbn [perform panics_before panics_after]. eexists. split.
    + by destruct (perform cbi cbr (puts h cs) (effect st (ANew h))) as [? []].
    + apply (XR_cells cbi cbr (with_ents w es) (effect st (ANew h))); [done|done|apply cell_puts| |done].
      apply puts_puts. cbn. set_solver.
  - (* add_component *)
    unfold x_add_component. destruct (is_alive (w_ents w) e) eqn:Eal.
    + apply (ER_alive _ _ _ _ HE) in Eal.
      exists (puts e cs), WUnit. split; [by apply XaAddComponent|]. intros cbi cbr.
      destruct (x_add_tuple_SL cbi cbr e cs (w_counter w) (w_stores w) st) as (m' & E & Hm').
      { apply H. }
      { by apply (ER_ok _ _ _ e HE). }
      { intros i. by apply (not_newer cbi cbr _ _ e i H). }
      rewrite E. cbn [rbind]. eexists. split; [done|].
      apply (XR_cells cbi cbr w st); [done|done|apply cell_puts| |done].
      apply puts_puts. by apply (xr_alive w st H).
    + exists [AFail], WUnit. split.
      * apply XaAddComponentDead. intros Hin. apply (ER_alive _ _ _ _ HE) in Hin. congruence.
      * intros cbi cbr. eexists. split; [done|]. cbn. by destruct w, H.
  - (* remove *)
    eexists (takes e is), _. split; [by apply XaRemove|]. intros cbi cbr.
    destruct (x_remove_tuple_SL cbi cbr e is (w_counter w) (w_stores w) st) as (m' & E & Hm'); [apply H|done|].
    unfold x_remove. rewrite E. cbn [rbind].
    eexists. split; [by destruct (perform cbi cbr (takes e is) st) as [? []]|].
    apply (XR_cells cbi cbr w st); [done|done|apply cell_takes|apply puts_takes|done].
  - (* delete_component *)
    eexists (takes e (upto (x_cells st) e is)), _. split; [by apply XaDeleteComponent|]. intros cbi cbr.
    destruct (x_delete_tuple_SL cbi cbr e is (w_counter w) (w_stores w) st) as (m' & E & Hm'); [apply H|done|].
    unfold x_delete_component. rewrite E. cbn [rbind]. eexists. split; [done|].
    apply (XR_cells cbi cbr w st); [done|done|apply cell_takes|apply puts_takes|done].
  - (* delete of views *)
    eexists (takes e is), _. split; [by apply XaViewDelete|]. intros cbi cbr.
    destruct (x_view_delete_tuple_SL cbi cbr e is (w_counter w) (w_stores w) st) as (m' & E & Hm'); [apply H|done|].
    unfold x_view_delete. rewrite E. cbn [rbind].
    eexists. split; [by destruct (perform cbi cbr (takes e is) st) as [? []]|].
    apply (XR_cells cbi cbr w st); [done|done|apply cell_takes|apply puts_takes|done].
  - (* delete_entity *)
    exists (deletion (x_alive st) (e, order)), (WBool (bool_decide (e ∈ x_alive st))). split.
    + unfold deletion. cbn [fst snd]. destruct (decide (e ∈ x_alive st)) as [Hd|Hd]; unfold decide.
      * rewrite bool_decide_true by done. by apply XaDeleteEntity.
      * rewrite bool_decide_false by done. by apply XaDeleteEntityDead.
    + intros cbi cbr. destruct (x_delete_entity_XR cbi cbr w st e order H) as (w' & E & Hw'); [done|].
      rewrite E. cbn [rbind]. eexists. split; [|exact Hw'].
      by destruct (perform cbi cbr (deletion (x_alive st) (e, order)) st) as [? []].
  - (* strip *)
    eexists _, _. split; [by apply XaStrip|]. intros cbi cbr.
    destruct (x_strip_XR cbi cbr w st e order H Ha) as (w' & E & Hw'). rewrite E. cbn [rbind].
    eexists. by split.
  - (* bulk_strip *)
    eexists _, _. split; [by apply XaBulkStrip|]. intros cbi cbr. unfold x_bulk_strip.
    destruct (x_for_stores_SL cbi cbr (x_store_delete_all cbr l (w_counter w)) (λ i, ATake i <$> l) order)
      with (m := w_stores w) (st := st) as (m' & E & Hm').
    + intros i s st' Hs. by apply x_store_delete_all_LR.
    + intros i st' j. apply takes_other.
    + intros i st'. apply takes_empty.
    + apply H.
    + rewrite E. cbn [rbind]. eexists. split; [done|].
      destruct (bind_takes_all l order _ (elem_of_list_here _ _)) as [B1 B2].
      by apply (XR_cells cbi cbr w st).
  - (* retain_storage *)
    eexists _, _. split; [by apply XaRetainStorage|]. intros cbi cbr. unfold x_retain_storage.
    destruct (x_for_stores_SL cbi cbr
      (λ i s, if decide (i ∈ excluded) then Ok (s, true) else x_store_delete cbr e (w_counter w) i s)
      (λ i, if decide (i ∈ excluded) then [] else [ATake i e]) order)
      with (m := w_stores w) (st := st) as (m' & E & Hm').
    + intros i s st' Hs. case_decide; [by eexists|]. by apply x_store_delete_LR.
    + intros i st' j Hj. case_decide; [done|]. by apply (takes_other cbi cbr [e]).
    + intros i st'. case_decide; [done|]. apply (takes_empty cbi cbr [e]).
    + apply H.
    + rewrite (filter_takes cbi cbr) in E, Hm'. rewrite E. cbn [rbind]. eexists. split; [done|].
      apply (XR_cells cbi cbr w st); [done|done|apply cell_takes|apply puts_takes|done].
  - (* clear *)
    destruct Ha as [_ Hgen]. eexists _, _. split; [by apply XaClear|]. intros cbi cbr. cbn [w_step]. unfold w_clear.
    destruct (clear_stores_SL cbi cbr order (w_counter w) (w_stores w) st) as (m' & E & Hm'); [apply H|].
    destruct (ER_clear _ _ _ HE Hgen) as (es & Ee & Hes).
    cbn [w_tick w_stores w_ents w_counter]. rewrite E. cbn [rbind]. rewrite Ee. cbn [rbind].
    assert (perform cbi cbr ((AClear <$> order) ++ [AKillAll]) st =
            (effect (perform cbi cbr (AClear <$> order) st).1 AKillAll, true)) as Er.
    { by rewrite perform_app, clears_run. }
    assert (Forall cell_act (AClear <$> order : list (act V))) as Hc by by apply Forall_fmap, Forall_true.
    destruct (perform_ents cbi cbr (AClear <$> order) st Hc) as [_ Ei].
    eexists. split; [by rewrite Er|]. rewrite Er. cbn [fst]. split.
    + cbn. rewrite Ei. eapply ER_ext; [exact Hes|]. set_solver.
    + exact Hm'.
    + cbn. rewrite Ei. apply perform_keys; [apply H|]. by apply Forall_fmap, Forall_true.
    + cbn. set_solver.
  - (* get *)
    eexists [], _. split; [by apply XaGet|]. intros cbi cbr. cbn [w_step]. unfold w_get.
    rewrite (ss_get_LR _ (x_cells st i)) by (try done; apply SL_new, H). cbn [rbind].
    eexists. split; [done|]. cbn. destruct H. split; cbn; [done| |done..].
    apply SL_put; [done|]. by apply SL_new.
  - (* write *)
    eexists [AAlter i e f], _. split; [by apply XaWrite|]. intros cbi cbr. cbn [w_step]. unfold w_write.
    destruct (ss_write_LR (store_or_new kind (w_stores w) i) (x_cells st i) e f (w_counter w)) as (s & E & Hs);
      [apply SL_new, H|done|]. rewrite E. cbn [rbind]. eexists. split; [done|].
    apply (XR_cells cbi cbr w st); [done|done|by repeat constructor..|]. apply SL_at; [apply H|done].
  - (* retain *)
    destruct (x_retain_XR w st i f H Ha) as (acts & Hacts & Hrun). eexists _, _. split; [exact Hacts|].
    intros cbi cbr. destruct (Hrun cbi cbr) as (w' & E & Hw'). rewrite E. cbn [rbind]. eexists. by split.
  - (* spawn *)
    destruct Ha as (Hg & Hi & Hocc). cbn [w_step]. unfold w_spawn.
    assert (∀ h, h ∈ x_alive st -> idx h = idx e -> gen e < gen h) as Hocc'.
    { intros h Hh. apply Hocc. by apply (ER_alive _ _ _ _ HE). }
    destruct (ER_spawn _ _ _ e HE Hg Hi Hocc') as (es & b & E & Hb). rewrite E. cbn [rbind]. destruct b.
    + destruct Hb as [Hfree Hes]. eexists [ANew e], _. split; [by apply XaSpawn|]. intros cbi cbr.
      eexists. split; [done|]. cbn [perform panics_before panics_after fst]. by apply XR_new.
    + eexists [], _. split; [apply XaSpawnRefused|]. intros cbi cbr. eexists. split; [done|].
      cbn. split; cbn; [done|apply H..].
  - (* delete_any *)
    destruct Ha as [Hg Hdl].
    assert (∀ e, e ∈ x_alive st -> gen e < EntitiesSpec.last_gen) as Hg'.
    { intros e He. apply Hg. by apply (ER_alive _ _ _ _ HE). }
    destruct (x_delete_any_XR (λ _ _ _, false) (λ _ _ _, false) w st is dl H Hg' Hdl) as (_ & _ & _ & Hacts).
    eexists _, _. split; [exact Hacts|]. intros cbi cbr.
    destruct (x_delete_any_XR cbi cbr w st is dl H Hg' Hdl) as (w' & E & Hw' & _).
    rewrite E. cbn [rbind]. eexists. by split.
Qed.
Lemma x_allowed_any w cbi cbr o :
  x_allowed w (XOp cbi cbr o) -> x_allowed w (XOp (λ _ _ _, false) (λ _ _ _, false) o).
Proof. done. Qed.

Lemma x_step_XR w st o :
  XR w st -> x_allowed w o -> ∃ w' ev st', x_step kind w o = Ok (w', ev) ∧ xp_step st o ev st' ∧ XR w' st'.
Proof.
  intros H Ha. destruct o as [cbi cbr o|cbr i f].
  - destruct (x_op_XR w st o H (x_allowed_any w cbi cbr o Ha)) as (acts & ev & Hacts & Hrun).
    destruct (Hrun cbi cbr) as (w' & E & Hw'). eexists _, _, _. split; [exact E|]. split; [|exact Hw'].
    by apply XpOp.
  - destruct (x_retain_shown cbr cbr w st i f H Ha) as (w' & ok & cs & E & Hw' & Hs).
    cbn [x_step]. rewrite E. cbn [rbind]. eexists _, _, _. split; [done|]. split; [|exact Hw'].
    by apply (XpRetain st cbr i f cs ok).
Qed.
Lemma XR_init : XR w_new x_init.
Proof.
  split; cbn.
  - eapply ER_ext; [apply ER_init|]. set_solver.
  - intros i. by rewrite lookup_empty.
  - intros i k Hk. by rewrite lookup_empty in Hk; destruct Hk.
  - set_solver.
Qed.
Lemma x_run_XR ops : ∀ w st,
  XR w st -> x_history kind w ops ->
  ∃ w' evs st', x_run kind w ops = Ok (w', evs) ∧ xp_run st ops evs st' ∧ XR w' st'.
Proof.
  induction ops as [|o ops IH]; intros w st H Hh.
  - eexists _, _, _. split; [done|]. split; [constructor|done].
  - destruct Hh as [Ha Hh]. destruct (x_step_XR w st o H Ha) as (w1 & ev & st1 & E & Hs & H1).
    destruct (IH w1 st1 H1 (Hh _ _ E)) as (w2 & evs & st2 & E2 & Hr & H2).
    cbn [x_run]. rewrite E. cbn [rbind]. rewrite E2. cbn [rbind].
    eexists _, _, _. split; [done|]. split; [by econstructor|done].
Qed.

(** ** An operation that was cut short *)
Notation never := (λ (_ : N) (_ : eid) (_ : V), false).
Definition shrinks (a : act V) : Prop :=
  match a with AKill _ | AKillAll | ATake _ _ | AClear _ => True | _ => False end.
Lemma effect_shrinks a st :
  shrinks a ->
  (∀ i k, x_cells (effect st a) i !! k = x_cells st i !! k ∨ x_cells (effect st a) i !! k = None) ∧
  (∀ e, e ∈ x_alive (effect st a) -> e ∈ x_alive st).
Proof.
  destruct a; try done; intros _; cbn; (split; [intros j k|set_solver]); try (by left);
    (destruct (decide _); [|by left]).
  - unfold m_take. destruct (filter _ _ !! k) as [x|] eqn:E; [|by right]. left.
    by apply map_filter_lookup_Some in E as [-> _].
  - by right.
Qed.
Lemma perform_shrinks cbi cbr acts st :
  Forall shrinks acts ->
  (∀ i k, x_cells (perform cbi cbr acts st).1 i !! k = x_cells st i !! k ∨
          x_cells (perform cbi cbr acts st).1 i !! k = None) ∧
  (∀ e, e ∈ x_alive (perform cbi cbr acts st).1 -> e ∈ x_alive st).
Proof.
  intros H. revert st. induction H as [|a acts Ha H IH]; intros st; [by split; [left|]|].
  cbn [perform]. destruct (panics_before cbi a); [by split; [left|]|].
  destruct (effect_shrinks a st Ha) as [E1 E2].
  destruct (panics_after cbr st a); [done|].
  destruct (IH (effect st a)) as [I1 I2]. split; [|auto].
  intros i k. destruct (I1 i k) as [->| ->]; [apply E1|by right].
Qed.
Lemma shrinks_between cbi cbr acts st :
  Forall shrinks acts ->
  let st1 := (perform cbi cbr acts st).1 in let st2 := (perform never never acts st).1 in
  (∀ i k, x_cells st1 i !! k = x_cells st i !! k ∨ x_cells st1 i !! k = x_cells st2 i !! k) ∧
  (∀ e, (e ∈ x_alive st1 <-> e ∈ x_alive st) ∨ (e ∈ x_alive st1 <-> e ∈ x_alive st2)).
Proof.
  intros H. revert st. induction H as [|a acts Ha H IH]; intros st; cbn zeta; [by split; left|].
  assert (perform never never (a :: acts) st = perform never never acts (effect st a)) as E0.
  { by destruct a; cbn; try done; destruct (x_cells st _ !! _). }
  rewrite E0. cbn [perform].
  assert (panics_before cbi a = false) as -> by (by destruct a).
  destruct (effect_shrinks a st Ha) as [E1 E2].
  destruct (perform_shrinks never never acts (effect st a) H) as [S1 S2].
  destruct (panics_after cbr st a).
  - cbn [fst]. split.
    + intros i k. destruct (E1 i k) as [->|En]; [by left|]. right. rewrite En.
      destruct (S1 i k) as [->| ->]; done.
    + intros e. destruct (decide (e ∈ x_alive (effect st a))) as [Hin|Hn]; [left; split; auto|].
      right. split; [done|]. auto.
  - destruct (IH (effect st a)) as [I1 I2]. split.
    + intros i k. destruct (I1 i k) as [E|E]; [|by right]. destruct (E1 i k) as [E'|En].
      * left. by rewrite E.
      * right. rewrite E, En. destruct (S1 i k) as [->| ->]; done.
    + intros e. destruct (I2 e) as [E|E]; [|by right].
      destruct (decide (e ∈ x_alive (effect st a))) as [Hin|Hn].
      * left. split; [intros; auto|]. intros _. by apply E.
      * right. split; [tauto|]. intros Hx. exfalso. apply Hn. auto.
Qed.
Lemma puts_cell cbi cbr e cs i st :
  i ∉ cs.*1 -> x_cells (perform cbi cbr (puts e cs) st).1 i = x_cells st i.
Proof.
  revert st. induction cs as [|[j v] cs IH]; intros st Hi; [done|]. cbn in Hi.
  apply not_elem_of_cons in Hi as [Hij Hi]. cbn [fmap list_fmap perform panics_before panics_after fst snd].
  destruct (cbi j e v); [done|]. etransitivity; [by apply IH|]. cbn. by rewrite decide_False.
Qed.
Lemma puts_between cbi cbr e cs st i :
  NoDup cs.*1 ->
  x_cells (perform cbi cbr (puts e cs) st).1 i = x_cells st i ∨
  x_cells (perform cbi cbr (puts e cs) st).1 i = x_cells (perform never never (puts e cs) st).1 i.
Proof.
  revert st. induction cs as [|[j v] cs IH]; intros st Hnd; [by left|]. cbn in Hnd.
  apply NoDup_cons in Hnd as [Hj Hnd]. cbn [fmap list_fmap perform panics_before panics_after fst snd].
  destruct (cbi j e v); [by left|].
  destruct (decide (i = j)) as [->|Hij].
  - right. by rewrite !puts_cell.
  - destruct (IH (effect st (APut j e v)) Hnd) as [E|E]; [left|by right].
    rewrite E. cbn. by rewrite decide_False.
Qed.
Lemma puts_mine e cs st i :
  NoDup cs.*1 ->
  x_cells (perform never never (puts e cs) st).1 i !! e =
  match (list_to_map cs : gmap N V) !! i with Some v => Some v | None => x_cells st i !! e end.
Proof.
  revert st. induction cs as [|[j v] cs IH]; intros st Hnd; [done|]. cbn in Hnd.
  apply NoDup_cons in Hnd as [Hj Hnd]. cbn [fmap list_fmap perform panics_before panics_after fst snd list_to_map foldr].
  destruct (decide (i = j)) as [->|Hij].
  - rewrite puts_cell by done. cbn. rewrite decide_True by done. unfold m_put. by rewrite !lookup_insert.
  - etransitivity; [by apply IH|]. cbn. rewrite lookup_insert_ne by congruence. by rewrite decide_False.
Qed.
Lemma perform_ok_never cbi cbr acts st :
  (perform cbi cbr acts st).2 = true -> perform never never acts st = perform cbi cbr acts st.
Proof.
  revert st. induction acts as [|a acts IH]; intros st; [done|]. cbn [perform].
  destruct (panics_before cbi a) eqn:Eb; [done|].
  assert (panics_before never a = false) as -> by (by destruct a).
  assert (panics_after never st a = false) as ->.
  { destruct a; try done. cbn. by destruct (x_cells st _ !! _). }
  destruct (panics_after cbr st a); [done|]. apply IH.
Qed.

Lemma shrinks_takes e is : Forall shrinks (takes e is).
Proof. by apply Forall_fmap, Forall_true. Qed.
Lemma acts_between st o acts ev cbi cbr :
  acts_of st o acts ev -> distinct o ->
  let st1 := (perform cbi cbr acts st).1 in let st2 := (perform never never acts st).1 in
  (∀ i k, x_cells st1 i !! k = x_cells st i !! k ∨ x_cells st1 i !! k = x_cells st2 i !! k) ∧
  (∀ e, (e ∈ x_alive st1 <-> e ∈ x_alive st) ∨ (e ∈ x_alive st1 <-> e ∈ x_alive st2)).
Proof.
  intros Ha Hd.
  assert (∀ e cs st, NoDup cs.*1 ->
    (∀ i k, x_cells (perform cbi cbr (puts e cs) st).1 i !! k = x_cells st i !! k ∨
            x_cells (perform cbi cbr (puts e cs) st).1 i !! k =
            x_cells (perform never never (puts e cs) st).1 i !! k) ∧
    x_alive (perform cbi cbr (puts e cs) st).1 = x_alive (perform never never (puts e cs) st).1) as Hputs.
  { intros e cs st' Hnd. split.
    - intros i k. destruct (puts_between cbi cbr e cs st' i Hnd) as [->| ->]; auto.
    - pose proof (cell_puts e cs) as Hc.
      by rewrite (proj1 (perform_ents cbi cbr _ st' Hc)), (proj1 (perform_ents never never _ st' Hc)). }
  destruct Ha; try (apply shrinks_between, shrinks_takes); cbn zeta; cbn [distinct] in Hd.
  - cbn [perform panics_before panics_after]. destruct (Hputs h cs (effect st (ANew h)) Hd) as [H1 H2].
    split; [|intros e; right; by rewrite H2]. intros i k. apply (H1 i k).
  - destruct (Hputs e cs st Hd) as [H1 H2]. split; [done|]. intros x. right. by rewrite H2.
  - cbn. auto.
  - apply shrinks_between. constructor; [done|apply shrinks_takes].
  - cbn. auto.
  - apply shrinks_between. apply Forall_forall.
    intros a (i & (e & -> & _)%elem_of_list_fmap & _)%elem_of_list_bind. done.
  - apply shrinks_between. apply Forall_app. split; [by apply Forall_fmap, Forall_true|by repeat constructor].
  - cbn. auto.
  - cbn. auto.
  - apply shrinks_between. by apply Forall_fmap, Forall_true.
  - cbn. auto.
  - cbn. auto.
  - apply shrinks_between. apply Forall_app. split; [by apply Forall_fmap, Forall_true|].
    apply Forall_forall. intros a (x & Hx & _)%elem_of_list_bind. destruct (decide _); [|by apply elem_of_nil in Hx].
    apply elem_of_cons in Hx as [->|(i & -> & _)%elem_of_list_fmap]; done.
Qed.

(** ** Entities an operation is not about *)
Definition misses (e' : eid) (a : act V) : Prop :=
  match a with
  | ANew _ | AFail => True
  | AKill e | AAlter _ e _ => e ≠ e'
  | APut _ e _ => idx e ≠ idx e'
  | ATake _ e => idx e = idx e' -> gen e < gen e'
  | AKillAll | AClear _ => False
  end.
Lemma effect_misses e' a st i :
  misses e' a -> x_cells (effect st a) i !! e' = x_cells st i !! e' ∧ (e' ∈ x_alive st -> e' ∈ x_alive (effect st a)).
Proof.
  destruct a; try done; cbn; intros Hm; try (split; [done|set_solver]);
    (split; [|done]); (destruct (decide _); [|done]).
  - unfold m_put. rewrite lookup_insert_ne by congruence. 
    destruct (x_cells st i !! e') as [x|] eqn:E.
    + apply map_filter_lookup_Some. split; [done|]. cbn. congruence.
    + apply map_filter_lookup_None. by left.
  - unfold m_take. destruct (x_cells st i !! e') as [x|] eqn:E.
    + apply map_filter_lookup_Some. split; [done|]. cbn. intros [Hi Hg]. symmetry in Hi. apply Hm in Hi. lia.
    + apply map_filter_lookup_None. by left.
  - by rewrite lookup_alter_ne.
Qed.
Lemma perform_misses cbi cbr e' acts st i :
  Forall (misses e') acts -> e' ∈ x_alive st ->
  x_cells (perform cbi cbr acts st).1 i !! e' = x_cells st i !! e' ∧ e' ∈ x_alive (perform cbi cbr acts st).1.
Proof.
  intros H. revert st. induction H as [|a acts Ha H IH]; intros st He; [done|]. cbn [perform].
  destruct (panics_before cbi a); [done|]. destruct (effect_misses e' a st i Ha) as [E1 E2].
  destruct (panics_after cbr st a); [auto|].
  destruct (IH (effect st a)) as [-> ?]; auto.
Qed.
Lemma acts_misses w st o acts ev l e' :
  XR w st -> acts_of st o acts ev -> named o = Some l -> e' ∈ x_alive st ->
  (∀ e, e ∈ l -> idx e = idx e' -> gen e < gen e') -> Forall (misses e') acts.
Proof.
  intros H Ha Hl He' Hn.
  assert (∀ e is, (idx e = idx e' -> gen e < gen e') -> Forall (misses e') (takes e is)) as Ht.
  { intros e is Hg. apply Forall_fmap, Forall_true. done. }
  assert (∀ e cs, idx e ≠ idx e' -> Forall (misses e') (puts e cs)) as Hp.
  { intros e cs Hg. apply Forall_fmap, Forall_true. done. }
  destruct Ha; cbn in Hl; try discriminate Hl; injection Hl as <-.
  - constructor; [done|]. apply Hp. intros Hi. specialize (H1 e' He'). congruence.
  - apply Hp. intros Hi. pose proof (ER_uniq _ _ _ e e' (xr_ents w st H) H0 He' Hi) as ->.
    specialize (Hn e'). feed pose proof Hn; [by left|done|]. lia.
  - by repeat constructor.
  - apply Ht, Hn. by left.
  - apply Ht, Hn. by left.
  - apply Ht, Hn. by left.
  - constructor; [|apply Ht, Hn; by left]. cbn. intros ->. specialize (Hn e').
    feed pose proof Hn; [by left|done|]. lia.
  - constructor.
  - apply Ht, Hn. by left.
  - apply Forall_forall. intros a (i & (e & -> & Hin)%elem_of_list_fmap & _)%elem_of_list_bind. cbn. by apply Hn.
  - apply Ht, Hn. by left.
  - constructor.
  - repeat constructor. cbn. intros ->. specialize (Hn e'). feed pose proof Hn; [by left|done|]. lia.
  - by repeat constructor.
  - constructor.
Qed.

(** ** Without panics *)
Lemma p_insert_some (s : sset V) e v t cb s' r :
  p_insert s e v t cb = Ok (s', Some r) -> ss_insert s e v t = Ok (s', r).
Proof.
  unfold p_insert. destruct (sa_allocate_at _ _) as [sp| |]; cbn; try done.
  destruct (sa_get_unchecked _ _) as [slot| |]; cbn; try done.
  destruct (_ && _); [done|]. destruct (ss_insert s e v t) as [[s1 r1]| |]; cbn; try done.
  by intros [= <- <-].
Qed.
Lemma p_dyn_delete_some (s : sset V) e t cb s' b :
  p_dyn_delete s e t cb = Ok (s', Some b) -> dyn_delete s e t = Ok (s', b).
Proof.
  unfold p_dyn_delete, p_actual_remove, dyn_delete.
  destruct (actual_remove s e) as [[s1 [x|]]| |]; cbn; try done; [|by intros [= <- <-]].
  destruct (cb e x); [done|]. cbn. by intros [= <- <-].
Qed.
Lemma p_dyn_remove_some (s : sset V) e t cb s' b :
  p_dyn_remove s e t cb = Ok (s', Some b) -> dyn_remove s e t = Ok (s', b).
Proof.
  unfold p_dyn_remove, p_actual_remove, dyn_remove.
  destruct (actual_remove s e) as [[s1 [x|]]| |]; cbn; try done; [|by intros [= <- <-]].
  destruct (cb e x); [done|]. cbn. by intros [= <- <-].
Qed.

Lemma x_add_tuple_some cbi e cs t : ∀ m m',
  x_add_tuple kind cbi m e cs t = Ok (m', true) -> add_tuple kind m e cs t = Ok m'.
Proof.
  induction cs as [|[i v] cs IH]; intros m m'; cbn [x_add_tuple add_tuple]; [by intros [= ->]|].
  destruct (p_insert _ e v t (cbi i)) as [[s [r|]]| |] eqn:E; cbn [rbind]; try done.
  apply p_insert_some in E. rewrite E. cbn [rbind]. destruct (was_inserted r); [apply IH|done].
Qed.
Lemma x_remove_tuple_some cbr e is t : ∀ m m' rs,
  x_remove_tuple kind cbr m e is t = Ok (m', Some rs) -> remove_tuple kind m e is t = Ok (m', rs).
Proof.
  induction is as [|i is IH]; intros m m' rs; cbn [x_remove_tuple remove_tuple]; [by intros [= -> ->]|].
  destruct (p_dyn_remove _ e t (cbr i)) as [[s [r|]]| |] eqn:E; cbn [rbind]; try done.
  apply p_dyn_remove_some in E. rewrite E. cbn [rbind].
  destruct (x_remove_tuple kind cbr _ e is t) as [[m1 [rs1|]]| |] eqn:E1; cbn [rbind]; try done.
  apply IH in E1. rewrite E1. cbn. by intros [= -> <-].
Qed.
Lemma x_delete_tuple_some cbr e is t : ∀ m m',
  x_delete_tuple kind cbr m e is t = Ok (m', true) -> ∃ b, delete_tuple kind m e is t = Ok (m', b).
Proof.
  induction is as [|i is IH]; intros m m'; cbn [x_delete_tuple delete_tuple]; [intros [= ->]; by eexists|].
  destruct (p_dyn_delete _ e t (cbr i)) as [[s [r|]]| |] eqn:E; cbn [rbind]; try done.
  apply p_dyn_delete_some in E. rewrite E. cbn [rbind]. destruct r; [intros [= <-]; by eexists|apply IH].
Qed.
Lemma x_view_delete_tuple_some cbr e is t : ∀ m m' b,
  x_view_delete_tuple kind cbr m e is t = Ok (m', Some b) -> view_delete kind m e is t = Ok (m', b).
Proof.
  induction is as [|i is IH]; intros m m' b; cbn [x_view_delete_tuple view_delete]; [by intros [= -> ->]|].
  destruct (p_dyn_delete _ e t (cbr i)) as [[s [r|]]| |] eqn:E; cbn [rbind]; try done.
  apply p_dyn_delete_some in E. rewrite E. cbn [rbind].
  destruct (x_view_delete_tuple kind cbr _ e is t) as [[m1 [rs1|]]| |] eqn:E1; cbn [rbind]; try done.
  apply IH in E1. rewrite E1. cbn. by intros [= -> <-].
Qed.
Lemma x_for_stores_some f g order :
  (∀ i s s', f i s = Ok (s', true) -> g i s = Ok s') ->
  ∀ m m', x_for_stores order f m = Ok (m', true) -> for_stores (V := V) order g m = Ok m'.
Proof.
  intros Hfg. induction order as [|i order IH]; intros m m'; cbn [x_for_stores for_stores]; [by intros [= ->]|].
  destruct (m !! i) as [s|]; [|apply IH].
  destruct (f i s) as [[s' ok]| |] eqn:E; cbn [rbind]; try done.
  destruct ok; [|done]. rewrite (Hfg _ _ _ E). cbn [rbind]. apply IH.
Qed.
Lemma x_store_delete_some cbr e t i (s s' : sset V) :
  x_store_delete cbr e t i s = Ok (s', true) -> store_delete e t s = Ok s'.
Proof.
  unfold x_store_delete, store_delete, rmap.
  destruct (p_dyn_delete s e t (cbr i)) as [[s1 [b|]]| |] eqn:E; cbn; try done.
  apply p_dyn_delete_some in E. rewrite E. cbn. by intros [= ->].
Qed.
Lemma x_store_delete_all_some cbr l t i : ∀ (s s' : sset V),
  x_store_delete_all cbr l t i s = Ok (s', true) -> store_delete_all l t s = Ok s'.
Proof.
  induction l as [|e l IH]; intros s s'; cbn [x_store_delete_all store_delete_all]; [by intros [= ->]|].
  destruct (x_store_delete cbr e t i s) as [[s1 [|]]| |] eqn:E; cbn [rbind]; try done.
  apply x_store_delete_some in E. rewrite E. cbn [rbind]. apply IH.
Qed.
Lemma x_strip_some cbr w e order w' :
  x_strip cbr w e order = Ok (w', true) -> w_strip w e order = Ok w'.
Proof.
  unfold x_strip, w_strip. destruct (x_for_stores _ _ _) as [[m [|]]| |] eqn:E; cbn [rbind]; try done.
  intros [= <-]. apply (x_for_stores_some _ (λ _, store_delete e (w_counter w))) in E.
  - cbn [w_tick w_stores w_counter]. rewrite E. done.
  - intros i s s'. apply x_store_delete_some.
Qed.
Lemma x_delete_entity_some cbr w e order w' b :
  x_delete_entity cbr w e order = Ok (w', Some b) -> w_delete_entity w e order = Ok (w', b).
Proof.
  unfold x_delete_entity, w_delete_entity. destruct (delete_unchecked _ _) as [[es [|]]| |]; cbn [rbind]; try done.
  - destruct (x_strip _ _ _ _) as [[w1 [|]]| |] eqn:E; cbn [rbind]; try done. intros [= <- <-].
    apply x_strip_some in E. rewrite E. done.
  - by intros [= <- <-].
Qed.
Lemma x_delete_each_some cbr dl : ∀ w w',
  x_delete_each cbr w dl = Ok (w', true) -> delete_each w dl = Ok w'.
Proof.
  induction dl as [|[e order] dl IH]; intros w w'; cbn [x_delete_each delete_each]; [by intros [= ->]|].
  destruct (x_delete_entity cbr w e order) as [[w1 [b|]]| |] eqn:E; cbn [rbind]; try done.
  apply x_delete_entity_some in E. rewrite E. cbn [rbind]. apply IH.
Qed.
Lemma p_retain_loop_some f cb t n : ∀ i removed seen (s s' : sset V) calls,
  p_retain_loop n i removed (never_booms f) cb seen t s = Ok (s', calls, false) ->
  retain_loop n i removed (λ (_ : unit) e v, (tt, f e v)) tt t s = Ok (s', tt).
Proof.
  induction n as [|n IH]; intros i removed seen s s' calls; cbn [p_retain_loop retain_loop];
    [by intros [= -> _]|].
  destruct (i <? removed); [done|].
  destruct (get_unchecked (ss_dense s) (i - removed)) as [e| |]; cbn [rbind]; try done.
  destruct (get_unchecked (ss_data s) (i - removed)) as [c| |]; cbn [rbind]; try done.
  unfold never_booms at 1. destruct (f e c).
  - destruct (p_retain_loop _ _ _ _ _ _ _ _) as [[[s1 calls1] boom]| |] eqn:E; cbn [rbind fst snd]; try done.
    intros [= -> _ ->]. by apply IH in E.
  - destruct (p_dyn_delete s e t cb) as [[s1 [b|]]| |] eqn:E1; cbn [rbind]; try done.
    apply p_dyn_delete_some in E1. rewrite E1. cbn [rbind].
    destruct (p_retain_loop _ _ _ _ _ _ _ _) as [[[s2 calls1] boom]| |] eqn:E; cbn [rbind fst snd]; try done.
    intros [= -> _ ->]. by apply IH in E.
Qed.
Lemma x_step_some w cbi cbr o w' ev :
  x_step kind w (XOp cbi cbr o) = Ok (w', Some ev) -> w_step kind w o = Ok (w', ev).
Proof.
  destruct o; cbn [x_step w_step].
  - unfold x_add_entity, w_add_entity. cbn [w_tick w_ents w_stores w_counter].
    destruct (generate _) as [[es e]| |]; cbn [rbind]; try done.
    destruct (x_add_tuple _ _ _ _ _ _) as [[m [|]]| |] eqn:E; cbn; try done. intros [= <- <-].
    apply x_add_tuple_some in E. rewrite E. done.
  - unfold x_add_component, w_add_component. cbn [w_tick w_ents w_stores w_counter].
    destruct (is_alive _ _); [|done].
    destruct (x_add_tuple _ _ _ _ _ _) as [[m [|]]| |] eqn:E; cbn; try done. intros [= <- <-].
    apply x_add_tuple_some in E. rewrite E. done.
  - unfold x_remove, w_remove.
    destruct (x_remove_tuple _ _ _ _ _ _) as [[m [rs|]]| |] eqn:E; cbn; try done. intros [= <- <-].
    apply x_remove_tuple_some in E. rewrite E. done.
  - unfold x_delete_component, w_delete_component.
    destruct (x_delete_tuple _ _ _ _ _ _) as [[m [|]]| |] eqn:E; cbn; try done. intros [= <- <-].
    apply x_delete_tuple_some in E as [b E]. rewrite E. done.
  - unfold x_view_delete, w_view_delete.
    destruct (x_view_delete_tuple _ _ _ _ _ _) as [[m [rs|]]| |] eqn:E; cbn; try done. intros [= <- <-].
    apply x_view_delete_tuple_some in E. rewrite E. done.
  - destruct (x_delete_entity _ _ _ _) as [[w1 [b|]]| |] eqn:E; cbn; try done. intros [= <- <-].
    apply x_delete_entity_some in E. rewrite E. done.
  - destruct (x_strip _ _ _ _) as [[w1 [|]]| |] eqn:E; cbn; try done. intros [= <- <-].
    apply x_strip_some in E. rewrite E. done.
  - unfold x_bulk_strip, w_bulk_strip.
    destruct (x_for_stores _ _ _) as [[m [|]]| |] eqn:E; cbn; try done. intros [= <- <-].
    apply (x_for_stores_some _ (λ _, store_delete_all l (w_counter w))) in E.
    + cbn [w_tick w_stores w_counter]. rewrite E. done.
    + intros i s s'. apply x_store_delete_all_some.
  - unfold x_retain_storage, w_retain_storage.
    destruct (x_for_stores _ _ _) as [[m [|]]| |] eqn:E; cbn; try done. intros [= <- <-].
    apply (x_for_stores_some _
      (λ i s, if decide (i ∈ excluded) then Ok s else store_delete e (w_counter w) s)) in E.
    + cbn [w_tick w_stores w_counter]. rewrite E. done.
    + intros i s s'. destruct (decide _); [by intros [= ->]|]. apply x_store_delete_some.
  - destruct (w_clear _ _); cbn; try done. by intros [= <- <-].
  - destruct (w_get _ _ _ _) as [[]| |]; cbn; try done. by intros [= <- <-].
  - destruct (w_write _ _ _ _ _) as [[]| |]; cbn; try done. by intros [= <- <-].
  - unfold x_retain, w_retain. destruct (w_stores w !! i) as [s|]; [|done].
    destruct (p_retain _ _ _ _) as [[[s1 calls] [|]]| |] eqn:E; cbn; try done. intros [= <- <-].
    unfold p_retain in E. apply p_retain_loop_some in E. unfold ss_retain. rewrite E. done.
  - destruct (w_spawn _ _) as [[]| |]; cbn; try done. by intros [= <- <-].
  - unfold x_delete_any, w_delete_any. cbn [w_tick w_stores w_counter].
    destruct (collect_any _ _ _ _) as [[m ids]| |]; cbn [rbind]; try done. destruct (decide _); [|done].
    destruct (x_delete_each _ _ _) as [[w1 [|]]| |] eqn:E; cbn; try done. intros [= <- <-].
    apply x_delete_each_some in E. unfold with_stores, w_tick in E. cbn in E. unfold with_stores. cbn.
    rewrite E. done.
Qed.
End proofs.
