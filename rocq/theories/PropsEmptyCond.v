(** C80: the ready-made conditions tell the truth about plain storages and uniques, on the thread that made
    the world. *)
From stdpp Require Import prelude list gmap.
From Coq Require Import NArith.
From Verif Require Import StorageTypes EmptyCond EmptyCondSpec.
Local Open Scope N_scope.

(** * Runs *)

Lemma c_run_app tl w h1 h2 :
  c_run tl w (h1 ++ h2) =
  let '(w1, l1) := c_run tl w h1 in let '(w2, l2) := c_run tl w1 h2 in (w2, l1 ++ l2).
Proof.
  revert w; induction h1 as [|[t o] h1 IH]; intros w; simpl.
  { by destruct (c_run tl w h2). }
  destruct (c_step tl w t o) as [w1 b]. rewrite IH.
  destruct (c_run tl w1 h1) as [w2 l1]. destruct (c_run tl w2 h2) as [w3 l2]. done.
Qed.

Lemma since_snoc {A} (P Q : A → Prop) tr x :
  since P Q (tr ++ [x]) ↔ P x ∨ (since P Q tr ∧ ¬ Q x).
Proof.
  split.
  - intros (pre & y & post & E & HP & HQ).
    destruct post as [|z post _] using rev_ind.
    + apply app_inj_tail in E as [-> ->]. by left.
    + rewrite app_comm_cons, app_assoc in E. apply app_inj_tail in E as [-> ->].
      right. split.
      * exists pre, y, post. split; [done|]. split; [done|]. intros u Hu. apply HQ. set_solver.
      * apply HQ. set_solver.
  - intros [HP | [(pre & y & post & -> & HP & HQ) HN]].
    + exists tr, x, []. split; [done|]. split; [done|]. set_solver.
    + exists pre, y, (post ++ [x]). split; [by rewrite <-app_assoc|]. split; [done|].
      intros u [Hu | ->%elem_of_list_singleton]%elem_of_app; auto.
Qed.
Lemma since_nil {A} (P Q : A → Prop) : ¬ since P Q [].
Proof. intros (pre & x & post & E & _). by destruct pre. Qed.

(** * The invariant *)

Record ok (tl : bool) (w : cworld) (tr : list (N * ccall * bool)) : Prop := {
  ok_cell : ∀ i c k, cw_tab w !! i = Some (c, k) →
    c_send c = None ∨ (tl = true ∧ c_send c = Some (cw_main w));
  ok_set : ∀ md T,
    (cw_tab w !! IdOf (TySet md T) = None ∨ ∃ c own, cw_tab w !! IdOf (TySet md T) = Some (c, KSet own)) ∧
    ∀ e, e ∈ owners (IdOf (TySet md T)) w ↔ has tr md T e;
  ok_uniq : ∀ T,
    match cw_tab w !! IdOf (TyUniq MPlain T) with
    | None => ¬ there (λ t, cw_gen w t = cw_main w) tr T
    | Some (_, KUniq) => there (λ t, cw_gen w t = cw_main w) tr T
    | _ => False
    end;
  ok_user : ∀ n,
    match cw_tab w !! IdNum n with
    | None => ∀ b, ¬ user_says tr n b
    | Some (_, KUser s) => ∀ b, user_says tr n b ↔ b = s
    | _ => False
    end;
  ok_ent : ∃ c l, cw_tab w !! IdOf TyEnt = Some (c, KEnt l) ∧ (l = [] ↔ ¬ spawned tr);
}.

Lemma ok_new tl gen t : ok tl (cw_new gen t) [].
Proof.
  split; simpl.
  - intros i c k H. apply lookup_singleton_Some in H as [_ H]. simplify_eq. by left.
  - intros md T. unfold owners; simpl. rewrite lookup_singleton_ne by done.
    split; [by left|]. intros e. split; [by intros ?%elem_of_nil|]. by intros ?%since_nil.
  - intros T. rewrite lookup_singleton_ne by done. apply since_nil.
  - intros n. rewrite lookup_singleton_ne by done. intros b. apply since_nil.
  - eexists _, _. split; [apply lookup_singleton|]. split; [|done].
    intros _ (t' & i & b & H). by apply elem_of_nil in H.
Qed.

Lemma spawned_snoc tr x : spawned (tr ++ [x]) ↔ spawned tr ∨ ∃ i, x.1.2 = CSpawn i.
Proof.
  unfold spawned. split.
  - intros (t & i & b & [H|H]%elem_of_app); [left; eauto|].
    apply elem_of_list_singleton in H as <-. right. by exists i.
  - intros [(t & i & b & H)|[i H]].
    + exists t, i, b. set_solver.
    + destruct x as [[t o] b]; simpl in *; subst. exists t, i, b. set_solver.
Qed.

(** A step that leaves the table as it is. *)
Lemma ok_same tl w tr x :
  ok tl w tr →
  (∀ md T e, ¬ (x.1.2 = CAdd md T e ∧ x.2 = true) ∧ ¬ takes md T e x) →
  (∀ T, there (λ t, cw_gen w t = cw_main w) (tr ++ [x]) T ↔ there (λ t, cw_gen w t = cw_main w) tr T) →
  (∀ n b, ¬ gives n b x) →
  (∀ i, x.1.2 ≠ CSpawn i) →
  ok tl w (tr ++ [x]).
Proof.
  intros [Hc Hs Hu Hn He] Hx Ht Hg Hsp. split.
  - done.
  - intros md T. destruct (Hs md T) as [H1 H2]. split; [done|]. intros e. rewrite H2.
    unfold has. rewrite since_snoc. destruct (Hx md T e). tauto.
  - intros T. specialize (Hu T). destruct (cw_tab w !! _) as [[? []]|]; try done; by rewrite Ht.
  - intros n. specialize (Hn n). 
    assert (E : ∀ b, user_says (tr ++ [x]) n b ↔ user_says tr n b).
    { intros b. unfold user_says. rewrite since_snoc. split.
      - intros [H|[H _]]; [by destruct (Hg n b)|done].
      - intros H. right. split; [done|]. intros [b' H']. by destruct (Hg n b'). }
    destruct (cw_tab w !! _) as [[? []]|]; try done; intros b; rewrite E; auto.
  - destruct He as (c & l & H & Hl). exists c, l. split; [done|]. rewrite Hl, spawned_snoc.
    split; [|tauto]. intros Hns [Hs'|[i Hi]]; [done|]. by destruct (Hsp i).
Qed.

(** A step that changes one entry, which is not a unique and not a user's. *)
Lemma there_same home tr x T :
  (∀ md, x.1.2 ≠ CAddU md T) → x.1.2 ≠ CRemU T → there home (tr ++ [x]) T ↔ there home tr T.
Proof.
  intros Ha Hr. unfold there. rewrite since_snoc. split.
  - intros [(md & H & _)|[H _]]; [by destruct (Ha md)|done].
  - intros H. right. split; [done|]. by intros [? _].
Qed.
Lemma there_failed home tr x T : x.2 = false → there home (tr ++ [x]) T ↔ there home tr T.
Proof.
  intros Hf. unfold there. rewrite since_snoc. split.
  - intros [(md & _ & H & _)|[H _]]; [congruence|done].
  - intros H. right. split; [done|]. intros [_ ?]. congruence.
Qed.
Lemma says_same tr x n b : (∀ b', x.1.2 ≠ CUser n b' ∧ x.1.2 ≠ CSays n b') →
  user_says (tr ++ [x]) n b ↔ user_says tr n b.
Proof.
  intros H. unfold user_says. rewrite since_snoc. unfold gives. destruct (H b). split.
  - intros [[[?|?] ?]|[? _]]; done.
  - intros ?. right. split; [done|]. intros [b' [[?|?] _]]; by destruct (H b').
Qed.
Lemma ok_failed tl w tr t o : ok tl w tr → (∀ i, o ≠ CSpawn i) → ok tl w (tr ++ [(t, o, false)]).
Proof.
  intros H Ho. apply ok_same; try done.
  - intros md T e. split; [by intros [_ ?]|]. by intros [? _].
  - intros T. by apply there_failed.
  - by intros n b [_ ?].
Qed.

Lemma touch_ok tl w tr t md T w' :
  ok tl w tr → avail tl md = true → touch w t md (TySet md T) = Some w' →
  ok tl w' tr ∧ cw_gen w' = cw_gen w ∧ cw_main w' = cw_main w
  ∧ (∃ c own, cw_tab w' !! IdOf (TySet md T) = Some (c, KSet own))
  ∧ slots w' = slots w.
Proof.
  intros H Hav Ht. pose proof H as [Hc Hs Hu Hn He]. unfold touch in Ht.
  destruct (Hs md T) as [[E|(c & own & E)] Ho]; rewrite E in Ht.
  - case_match; [done|]. rename H0 into Hm. simplify_eq. split; [|split; [|split; [|split]]]; [|done|done|..].
    + split; simpl.
      * intros i c k. destruct (decide (i = IdOf (TySet md T))) as [->|Hi].
        { rewrite lookup_insert. intros [= <- <-]. 
          assert (tl = true ∨ md = MPlain) as [->| ->].
          { unfold avail in Hav. destruct tl; [by left|]. right. by apply bool_decide_eq_true in Hav. }
          - destruct md; simpl; try (by left); right; (split; [done|]);
              simpl in Hm; apply negb_false_iff, N.eqb_eq in Hm; by rewrite Hm.
          - by left. }
        rewrite lookup_insert_ne by done. apply Hc.
      * intros md' T'. unfold owners; simpl.
        destruct (decide (IdOf (TySet md' T') = IdOf (TySet md T))) as [Hi|Hi].
        { rewrite Hi, lookup_insert. simplify_eq. split; [right; eauto|]. intros e.
          rewrite <-Ho. unfold owners. by rewrite E. }
        rewrite lookup_insert_ne by done. apply Hs.
      * intros T'. rewrite lookup_insert_ne by done. apply Hu.
      * intros n. rewrite lookup_insert_ne by done. apply Hn.
      * destruct He as (c & l & He & Hl). exists c, l. by rewrite lookup_insert_ne by done.
    + simpl. rewrite lookup_insert. eauto.
    + unfold slots; simpl. by rewrite lookup_insert_ne by done.
  - case_match; [|done]. simplify_eq. split; [done|]. split; [done|]. split; [done|]. split; [eauto|done].
Qed.

(** Changing the owners of one storage. *)
Lemma ok_on_set tl w tr md T f x :
  ok tl w tr → (∃ c own, cw_tab w !! IdOf (TySet md T) = Some (c, KSet own)) →
  (∀ md' T' e, has (tr ++ [x]) md' T' e ↔
     if decide (IdOf (TySet md' T') = IdOf (TySet md T)) then e ∈ f (owners (IdOf (TySet md T)) w)
     else has tr md' T' e) →
  (∀ T md, x.1.2 ≠ CAddU md T) → (∀ T, x.1.2 ≠ CRemU T) →
  (∀ n b, x.1.2 ≠ CUser n b ∧ x.1.2 ≠ CSays n b) → (∀ i, x.1.2 ≠ CSpawn i) →
  ok tl (on_set (IdOf (TySet md T)) f w) (tr ++ [x]).
Proof.
  intros [Hc Hs Hu Hn He] (c & own & E) Hh H1 H2 H3 H4. unfold on_set. rewrite E.
  assert (Eo : owners (IdOf (TySet md T)) w = own) by (unfold owners; by rewrite E).
  split; simpl.
  - intros i c' k. destruct (decide (i = IdOf (TySet md T))) as [->|Hi].
    + rewrite lookup_insert. intros [= <- <-]. by eapply Hc.
    + rewrite lookup_insert_ne by done. apply Hc.
  - intros md' T'. unfold owners at 1; simpl.
    destruct (decide (IdOf (TySet md' T') = IdOf (TySet md T))) as [Hi|Hi].
    + rewrite Hi, lookup_insert. split; [right; eauto|]. intros e. rewrite Hh. rewrite decide_True by done.
      by rewrite Eo.
    + rewrite lookup_insert_ne by done. destruct (Hs md' T') as [Ha Hb]. split; [done|].
      intros e. rewrite Hh. rewrite decide_False by done. apply Hb.
  - intros T'. rewrite lookup_insert_ne by done. specialize (Hu T').
    destruct (cw_tab w !! _) as [[? []]|]; try done; rewrite there_same; auto.
  - intros n. rewrite lookup_insert_ne by done. specialize (Hn n).
    destruct (cw_tab w !! _) as [[? []]|]; try done; intros b; rewrite says_same; auto.
  - destruct He as (c' & l & He & Hl). exists c', l. rewrite lookup_insert_ne by done. split; [done|].
    rewrite Hl, spawned_snoc. split; [|tauto]. intros Hns [?|[i ?]]; [done|]. by destruct (H4 i).
Qed.

(** Changing the owners of all storages. *)
Lemma ok_on_all tl w tr f g x :
  ok tl w tr →
  (∀ own, f (KSet own) = KSet (g own)) → g [] = [] → f KUniq = KUniq → (∀ s, f (KUser s) = KUser s) →
  (∀ l, ∃ l', f (KEnt l) = KEnt l' ∧ (l' = [] ↔ l = [])) →
  (∀ md T e, has (tr ++ [x]) md T e ↔ e ∈ g (owners (IdOf (TySet md T)) w)) →
  (∀ T md, x.1.2 ≠ CAddU md T) → (∀ T, x.1.2 ≠ CRemU T) →
  (∀ n b, x.1.2 ≠ CUser n b ∧ x.1.2 ≠ CSays n b) → (∀ i, x.1.2 ≠ CSpawn i) →
  ok tl (on_all f w) (tr ++ [x]).
Proof.
  intros [Hc Hs Hu Hn He] F1 G F2 F3 F4 Hh H1 H2 H3 H4. unfold on_all. split; simpl.
  - intros i c k. rewrite lookup_fmap. destruct (cw_tab w !! i) as [[c' k']|] eqn:E; simpl; [|done].
    intros [= <- _]. by eapply Hc.
  - intros md T. destruct (Hs md T) as [Ha Hb]. unfold owners at 1; simpl. rewrite lookup_fmap.
    destruct Ha as [E|(c & own & E)]; rewrite E; simpl.
    + split; [by left|]. intros e. rewrite Hh. unfold owners. by rewrite E, G.
    + rewrite F1. split; [right; eauto|]. intros e. rewrite Hh. unfold owners. by rewrite E.
  - intros T. rewrite lookup_fmap. specialize (Hu T).
    destruct (cw_tab w !! _) as [[? []]|]; simpl; try done; try rewrite F2; rewrite there_same; auto.
  - intros n. rewrite lookup_fmap. specialize (Hn n).
    destruct (cw_tab w !! _) as [[? []]|]; simpl; try done; try rewrite F3; intros b; rewrite says_same; auto.
  - destruct He as (c & l & He & Hl). rewrite lookup_fmap, He; simpl. destruct (F4 l) as (l' & -> & Hl').
    exists c, l'. split; [done|]. rewrite Hl', Hl, spawned_snoc. split; [|tauto].
    intros Hns [?|[i ?]]; [done|]. by destruct (H4 i).
Qed.

Lemma ok_slots tl w tr l :
  ok tl w tr → (l = [] ↔ slots w = []) → ok tl (set_slots w l) tr
  ∧ ∀ md T, owners (IdOf (TySet md T)) (set_slots w l) = owners (IdOf (TySet md T)) w.
Proof.
  intros [Hc Hs Hu Hn (c & l0 & He & Hl)] H. unfold set_slots, slots in *. rewrite He in *.
  split; [split|]; simpl.
  - intros i c' k. destruct (decide (i = IdOf TyEnt)) as [->|Hi].
    + rewrite lookup_insert. intros [= <- <-]. by eapply Hc.
    + rewrite lookup_insert_ne by done. apply Hc.
  - intros md T. unfold owners; simpl. rewrite lookup_insert_ne by done. apply Hs.
  - intros T. rewrite lookup_insert_ne by done. apply Hu.
  - intros n. rewrite lookup_insert_ne by done. apply Hn.
  - exists c, l. rewrite lookup_insert. split; [done|]. by rewrite H.
  - intros md T. unfold owners; simpl. by rewrite lookup_insert_ne by done.
Qed.

(** Creating an entity. *)
Lemma ok_spawn tl w tr l t i b :
  ok tl w tr → l ≠ [] → ok tl (set_slots w l) (tr ++ [(t, CSpawn i, b)]).
Proof.
  intros [Hc Hs Hu Hn (c & l0 & He & Hl)] H. unfold set_slots. rewrite He.
  split; simpl.
  - intros i' c' k. destruct (decide (i' = IdOf TyEnt)) as [->|Hi].
    + rewrite lookup_insert. intros [= <- <-]. by eapply Hc.
    + rewrite lookup_insert_ne by done. apply Hc.
  - intros md T. unfold owners; simpl. rewrite lookup_insert_ne by done.
    destruct (Hs md T) as [Ha Hb]. split; [done|]. intros e. fold (owners (IdOf (TySet md T)) w).
    rewrite Hb. unfold has. rewrite since_snoc. unfold takes; simpl.
    split; [|by intros [[? ?]|[? _]]]. intros ?. right. split; [done|]. by intros [_ [?|[?|[?|?]]]].
  - intros T. rewrite lookup_insert_ne by done. specialize (Hu T).
    destruct (cw_tab w !! _) as [[? []]|]; try done; rewrite there_same; auto.
  - intros n. rewrite lookup_insert_ne by done. specialize (Hn n).
    destruct (cw_tab w !! _) as [[? []]|]; try done; intros b'; rewrite says_same; auto.
  - exists c, l. rewrite lookup_insert. split; [done|]. rewrite spawned_snoc. split; [done|].
    intros Hns. destruct Hns. right. by exists i.
Qed.

(** Changing an entry that is not a component storage, nor Entities. *)
Lemma ok_entry tl w tr x i (v : option (scell * content)) :
  ok tl w tr →
  (∀ md T, i ≠ IdOf (TySet md T)) → i ≠ IdOf TyEnt →
  (∀ c k, v = Some (c, k) → c_send c = None ∨ (tl = true ∧ c_send c = Some (cw_main w))) →
  (∀ md T e, ¬ (x.1.2 = CAdd md T e ∧ x.2 = true) ∧ ¬ takes md T e x) →
  (∀ j, x.1.2 ≠ CSpawn j) →
  (∀ T, IdOf (TyUniq MPlain T) ≠ i → (∀ md, x.1.2 ≠ CAddU md T) ∧ x.1.2 ≠ CRemU T) →
  (∀ T, IdOf (TyUniq MPlain T) = i →
     match v with
     | None => ¬ there (λ t, cw_gen w t = cw_main w) (tr ++ [x]) T
     | Some (_, KUniq) => there (λ t, cw_gen w t = cw_main w) (tr ++ [x]) T
     | _ => False
     end) →
  (∀ n, IdNum n ≠ i → ∀ b, x.1.2 ≠ CUser n b ∧ x.1.2 ≠ CSays n b) →
  (∀ n, IdNum n = i → 
     match v with
     | None => ∀ b, ¬ user_says (tr ++ [x]) n b
     | Some (_, KUser s) => ∀ b, user_says (tr ++ [x]) n b ↔ b = s
     | _ => False
     end) →
  ok tl (cw_upd w (partial_alter (λ _, v) i (cw_tab w))) (tr ++ [x]).
Proof.
  intros [Hc Hs Hu Hn (c & l & He & Hl)] I1 I2 V X Y U1 U2 N1 N2. split; simpl.
  - intros j c' k. destruct (decide (i = j)) as [->|Hi].
    + rewrite lookup_partial_alter. apply V.
    + rewrite lookup_partial_alter_ne by done. apply Hc.
  - intros md T. unfold owners; simpl. rewrite lookup_partial_alter_ne by done.
    destruct (Hs md T) as [Ha Hb]. split; [done|]. intros e. fold (owners (IdOf (TySet md T)) w).
    rewrite Hb. unfold has. rewrite since_snoc. destruct (X md T e). tauto.
  - intros T. destruct (decide (IdOf (TyUniq MPlain T) = i)) as [Hi|Hi].
    + specialize (U2 T Hi). rewrite Hi, lookup_partial_alter. done.
    + rewrite lookup_partial_alter_ne by done. specialize (Hu T). destruct (U1 T Hi).
      destruct (cw_tab w !! _) as [[? []]|]; try done; rewrite there_same; auto.
  - intros n. destruct (decide (IdNum n = i)) as [Hi|Hi].
    + specialize (N2 n Hi). rewrite Hi, lookup_partial_alter. done.
    + rewrite lookup_partial_alter_ne by done. specialize (Hn n).
      destruct (cw_tab w !! _) as [[? []]|]; try done; intros b'; rewrite says_same; auto.
  - exists c, l. rewrite lookup_partial_alter_ne by done. split; [done|]. rewrite Hl, spawned_snoc.
    split; [|tauto]. intros Hns [?|[j ?]]; [done|]. by destruct (Y j).
Qed.

Lemma c_step_ok tl w tr t o w' b :
  ok tl w tr → c_step tl w t o = (w', b) →
  ok tl w' (tr ++ [(t, o, b)]) ∧ cw_gen w' = cw_gen w ∧ cw_main w' = cw_main w.
Proof.
  intros H E. destruct o; cbn [c_step] in E.
  - (* CSpawn *)
    assert (G : ∀ l, cw_gen (set_slots w l) = cw_gen w ∧ cw_main (set_slots w l) = cw_main w).
    { intros l. unfold set_slots. by repeat case_match. }
    destruct (slots w !! i) as [[g []]|] eqn:E1; simplify_eq; split; try apply G; apply ok_spawn; try done.
    + by destruct (slots w).
    + intros Hn. apply (f_equal length) in Hn. rewrite insert_length in Hn.
      apply lookup_lt_Some in E1. simpl in Hn. lia.
    + by destruct (slots w).
  - (* CTouch *)
    destruct (avail tl md) eqn:Hav; [|simplify_eq; split; [by apply ok_failed|done]].
    destruct (touch w t md (TySet md T)) as [w1|] eqn:Ht; simplify_eq; [|split; [by apply ok_failed|done]].
    destruct (touch_ok _ _ _ _ _ _ _ H Hav Ht) as (H1 & G1 & G2 & _). split; [|done].
    apply ok_same; try done; simpl.
    + intros md' T' e. unfold takes; simpl. split; [by intros [? _]|]. by intros [_ [?|[?|[?|?]]]].
    + intros T'. by apply there_same.
    + by intros n b [[?|?] _].
  - (* CAdd *)
    destruct (avail tl md) eqn:Hav; [|simplify_eq; split; [by apply ok_failed|done]].
    destruct (touch w t md (TySet md T)) as [w1|] eqn:Ht; simplify_eq; [|split; [by apply ok_failed|done]].
    destruct (touch_ok _ _ _ _ _ _ _ H Hav Ht) as (H1 & G1 & G2 & G3 & _).
    destruct (alive w1 e); simplify_eq; [|split; [by apply ok_failed|done]].
    assert (G4 : ∀ f i, cw_gen (on_set i f w1) = cw_gen w1 ∧ cw_main (on_set i f w1) = cw_main w1).
    { intros f i. unfold on_set. by repeat case_match. }
    destruct (G4 (λ own, if decide (e ∈ own) then own else own ++ [e]) (IdOf (TySet md T))) as [-> ->].
    split; [|done]. apply ok_on_set; try done; simpl.
    intros md' T' e'. unfold has. rewrite since_snoc. unfold takes; simpl.
    fold (has tr md' T' e'). pose proof (proj2 (ok_set _ _ _ H1 md' T') e') as Hown.
    destruct (decide (IdOf (TySet md' T') = IdOf (TySet md T))) as [Hi|Hi]; rewrite <-Hown; clear Hown.
    + simplify_eq. case_decide as D.
      * split; [intros [[? _]|[? _]]; by simplify_eq|]. intros ?. right. split; [done|].
        by intros [_ [?|[?|[?|?]]]].
      * rewrite elem_of_app, elem_of_list_singleton. split.
        -- intros [[? _]|[? _]]; simplify_eq; auto.
        -- intros [?| ->]; [right|by left]. split; [done|]. by intros [_ [?|[?|[?|?]]]].
    + split; [intros [[? _]|[? _]]; [congruence|done]|]. intros ?. right. split; [done|].
      by intros [_ [?|[?|[?|?]]]].
  - (* CRem *)
    destruct (avail tl md) eqn:Hav; [|simplify_eq; split; [by apply ok_failed|done]].
    destruct (touch w t md (TySet md T)) as [w1|] eqn:Ht; simplify_eq; [|split; [by apply ok_failed|done]].
    destruct (touch_ok _ _ _ _ _ _ _ H Hav Ht) as (H1 & G1 & G2 & G3 & _).
    case_decide as D; simplify_eq; [|split; [by apply ok_failed|done]].
    assert (G4 : ∀ f i, cw_gen (on_set i f w1) = cw_gen w1 ∧ cw_main (on_set i f w1) = cw_main w1).
    { intros f i. unfold on_set. by repeat case_match. }
    destruct (G4 (filter (λ x, x ≠ e)) (IdOf (TySet md T))) as [-> ->].
    split; [|done]. apply ok_on_set; try done; simpl.
    intros md' T' e'. unfold has. rewrite since_snoc. unfold takes; simpl.
    fold (has tr md' T' e'). pose proof (proj2 (ok_set _ _ _ H1 md' T') e') as Hown.
    destruct (decide (IdOf (TySet md' T') = IdOf (TySet md T))) as [Hi|Hi]; rewrite <-Hown; clear Hown.
    + simplify_eq. rewrite elem_of_list_filter. split.
      * intros [[? _]|[? Hq]]; [done|]. split; [|done]. intros ->. apply Hq. split; [done|]. by left.
      * intros [? ?]. right. split; [done|]. intros [_ [?|[?|[?|?]]]]; by simplify_eq.
    + split; [by intros [[? _]|[? _]]|]. intros ?. right. split; [done|].
      intros [_ [?|[?|[?|?]]]]; by simplify_eq.
  - (* CStrip *)
    destruct (excl_ok tl w t); simplify_eq; [|split; [by apply ok_failed|done]].
    split; [|done]. apply (ok_on_all _ _ _ _ (filter (λ x, x ≠ e))); try done; simpl.
    { intros l. by exists l. }
    intros md T e'. unfold has. rewrite since_snoc. unfold takes; simpl.
    fold (has tr md T e'). rewrite <-(proj2 (ok_set _ _ _ H md T) e'), elem_of_list_filter. split.
    + intros [[? _]|[? Hq]]; [done|]. split; [|done]. intros ->. apply Hq. split; [done|]. by right; left.
    + intros [? ?]. right. split; [done|]. intros [_ [?|[?|[?|?]]]]; by simplify_eq.
  - (* CDel *)
    destruct (excl_ok tl w t && alive w e) eqn:Hx; simplify_eq; [|split; [by apply ok_failed|done]].
    apply andb_true_iff in Hx as [_ Hal]. apply bool_decide_eq_true in Hal.
    destruct (ok_slots tl w tr (<[e.1:=(e.2 + 1, false)]> (slots w))) as [H1 H2]; [done|..].
    { split; intros Hn; apply nil_length_inv; apply (f_equal length) in Hn;
        rewrite insert_length in *; done. }
    set (w1 := set_slots w _) in *.
    split; [|unfold on_all, w1, set_slots; simpl; by repeat case_match].
    apply (ok_on_all _ _ _ _ (filter (λ x, x ≠ e))); try done; simpl.
    { intros l. by exists l. }
    intros md T e'. unfold has. rewrite since_snoc. unfold takes; simpl.
    fold (has tr md T e'). rewrite <-(proj2 (ok_set _ _ _ H1 md T) e'), elem_of_list_filter. split.
    + intros [[? _]|[? Hq]]; [done|]. split; [|done]. intros ->. apply Hq. split; [done|]. by right; right; left.
    + intros [? ?]. right. split; [done|]. intros [_ [?|[?|[?|?]]]]; by simplify_eq.
  - (* CClear *)
    destruct (excl_ok tl w t); simplify_eq; [|split; [by apply ok_failed|done]].
    split; [|done]. apply (ok_on_all _ _ _ _ (λ _, [])); try done; simpl.
    { intros l. eexists. split; [done|]. by destruct l. }
    intros md T e'. unfold has. rewrite since_snoc. unfold takes; simpl. split.
    + intros [[? _]|[? Hq]]; [done|]. destruct Hq. split; [done|]. by right; right; right.
    + by intros ?%elem_of_nil.
  - (* CAddU *)
    destruct (avail tl md) eqn:Hav; [|simplify_eq; split; [by apply ok_failed|done]].
    assert (X : ∀ md' T' e, ¬ ((t, CAddU md T, true).1.2 = CAdd md' T' e ∧ true = true)
                ∧ ¬ takes md' T' e (t, CAddU md T, true)).
    { intros md' T' e. split; [by intros [? _]|]. by intros [_ [?|[?|[?|?]]]]. }
    assert (Ins : (md = MPlain ∨ md = MNonSync ∨ (cw_gen w t = cw_main w)) →
       ok tl (cw_upd w (<[IdOf (TyUniq MPlain T) := (new_cell (cw_gen w) md t (TyUniq md T), KUniq)]> (cw_tab w)))
          (tr ++ [(t, CAddU md T, true)])).
    { intros Hm. apply ok_entry; try done; simpl.
      - intros c k [= <- <-].
        assert (tl = true ∨ md = MPlain) as [->| ->].
        { unfold avail in Hav. destruct tl; [by left|]. right. by apply bool_decide_eq_true in Hav. }
        + destruct md; simpl; try (by left); right; (split; [done|]);
            destruct Hm as [?|[?| ->]]; done.
        + by left.
      - intros T' Hi. split; [|done]. intros md' ?. congruence.
      - intros T' [= ->]. unfold there. rewrite since_snoc. left. exists md. done. }
    assert (Same : ∀ T', (∃ c k, cw_tab w !! IdOf (TyUniq MPlain T) = Some (c, k)) ∨
        ¬ adds (λ t, cw_gen w t = cw_main w) T (t, CAddU md T, true) →
        there (λ t, cw_gen w t = cw_main w) (tr ++ [(t, CAddU md T, true)]) T' ↔
        there (λ t, cw_gen w t = cw_main w) tr T').
    { intros T' Hcase. unfold there at 1. rewrite since_snoc. split.
      - intros [Ha|[? _]]; [|done]. destruct Ha as (md' & Ha & Hb). simpl in Ha. simplify_eq.
        destruct Hcase as [(c & k & Hk)|Hna].
        + pose proof (ok_uniq _ _ _ H T') as Hu. rewrite Hk in Hu. by destruct k.
        + destruct Hna. by exists md'.
      - intros ?. right. split; [done|]. by intros [? _]. }
    assert (Stay : ((∃ c k, cw_tab w !! IdOf (TyUniq MPlain T) = Some (c, k)) ∨
        ¬ adds (λ t, cw_gen w t = cw_main w) T (t, CAddU md T, true)) →
        ok tl w (tr ++ [(t, CAddU md T, true)])).
    { intros Hcase. apply ok_same; try done.
      - intros T'. by apply Same.
      - by intros n b' [[?|?] _]. }
    destruct md.
    + simplify_eq. split; [|done]. apply Ins. by left.
    + simpl in E. destruct (cw_gen w t =? cw_main w) eqn:Hg; simpl in E.
      * apply N.eqb_eq in Hg. destruct (cw_tab w !! IdOf (TyUniq MPlain T)) as [[c k]|] eqn:E1; simplify_eq.
        -- split; [|done]. apply Stay. left. eauto.
        -- split; [|done]. apply Ins. auto.
      * simplify_eq. split; [|done]. apply Stay. right. apply N.eqb_neq in Hg.
        intros (md' & Ha & _ & [?|[?|?]]); simpl in *; simplify_eq.
    + simpl in E. destruct (cw_tab w !! IdOf (TyUniq MPlain T)) as [[c k]|] eqn:E1; simplify_eq.
      * split; [|done]. apply Stay. left. eauto.
      * split; [|done]. apply Ins. auto.
    + simpl in E. destruct (cw_gen w t =? cw_main w) eqn:Hg; simpl in E.
      * apply N.eqb_eq in Hg. destruct (cw_tab w !! IdOf (TyUniq MPlain T)) as [[c k]|] eqn:E1; simplify_eq.
        -- split; [|done]. apply Stay. left. eauto.
        -- split; [|done]. apply Ins. auto.
      * simplify_eq. split; [|done]. apply Stay. right. apply N.eqb_neq in Hg.
        intros (md' & Ha & _ & [?|[?|?]]); simpl in *; simplify_eq.
  - (* CRemU *)
    destruct (cw_tab w !! IdOf (TyUniq MPlain T)) as [[c k]|] eqn:E1;
      [|simplify_eq; split; [by apply ok_failed|done]].
    destruct (cell_acc (cw_gen w) t true c); simplify_eq; [|split; [by apply ok_failed|done]].
    split; [|done]. apply ok_entry; try done; simpl.
    + intros md' T' e. split; [by intros [? _]|]. by intros [_ [?|[?|[?|?]]]].
    + intros T' Hi. split; [done|]. intros ?. congruence.
    + intros T' [= ->]. unfold there. rewrite since_snoc. intros [(md & ? & _)|[_ Hq]]; [done|].
      by destruct Hq.
  - (* CUser *)
    destruct (cw_tab w !! IdNum n) as [[c k]|] eqn:E1; simplify_eq; [split; [by apply ok_failed|done]|].
    split; [|done]. apply ok_entry; try done; simpl.
    + intros c k [= <- <-]. by left.
    + intros md' T' e. split; [by intros [? _]|]. by intros [_ [?|[?|[?|?]]]].
    + intros n' Hi b. split; [|done]. intros ?. congruence.
    + intros n' [= ->] b. unfold user_says. rewrite since_snoc. unfold gives; simpl. split.
      * intros [[[?|?] _]|[_ Hq]]; [by simplify_eq|done|]. destruct Hq. exists says. auto.
      * intros ->. left. auto.
  - (* CSays *)
    destruct (cw_tab w !! IdNum n) as [[c k]|] eqn:E1; [|simplify_eq; split; [by apply ok_failed|done]].
    destruct k; simplify_eq; try (split; [by apply ok_failed|done]).
    split; [|done]. apply ok_entry; try done; simpl.
    + intros c' k [= <- <-]. by eapply (ok_cell _ _ _ H).
    + intros md' T' e. split; [by intros [? _]|]. by intros [_ [?|[?|[?|?]]]].
    + intros n' Hi b. split; [done|]. intros ?. congruence.
    + intros n' [= ->] b. unfold user_says. rewrite since_snoc. unfold gives; simpl. split.
      * intros [[[?|?] _]|[_ Hq]]; [done|by simplify_eq|]. destruct Hq. exists says. auto.
      * intros ->. left. auto.
Qed.

Lemma c_run_ok tl w h : ∀ w0 tr0 tr,
  ok tl w0 tr0 → c_run tl w0 h = (w, tr) →
  ok tl w (tr0 ++ tr) ∧ cw_gen w = cw_gen w0 ∧ cw_main w = cw_main w0.
Proof.
  induction h as [|[t o] h IH]; intros w0 tr0 tr H E; simpl in E.
  { simplify_eq. by rewrite app_nil_r. }
  destruct (c_step tl w0 t o) as [w1 b] eqn:E1. destruct (c_run tl w1 h) as [w2 l] eqn:E2. simplify_eq.
  destruct (c_step_ok _ _ _ _ _ _ _ H E1) as (H1 & G1 & G2).
  destruct (IH _ _ _ H1 E2) as (H2 & G3 & G4).
  rewrite cons_middle, app_assoc. split; [done|]. by rewrite G3, G4.
Qed.

Lemma c_reached tl gen t0 h w tr :
  c_run tl (cw_new gen t0) h = (w, tr) →
  ok tl w tr ∧ cw_gen w = gen ∧ cw_main w = gen t0.
Proof. intros E. by destruct (c_run_ok _ _ _ _ _ _ (ok_new tl gen t0) E). Qed.

(** * What the conditions answer *)

(** On the thread that made the world every storage can be looked at. *)
Lemma ask_empty_is tl w tr t i :
  ok tl w tr → excl_ok tl w t = true →
  ask_empty tl false w t i =
  Some (match cw_tab w !! i with None => true | Some (_, k) => is_empty k end).
Proof.
  intros H Hx. unfold ask_empty. rewrite Hx. simpl.
  destruct (cw_tab w !! i) as [[c k]|] eqn:E; [|done].
  destruct (ok_cell _ _ _ H _ _ _ E) as [Hc|[-> Hc]]; unfold cell_acc; rewrite Hc.
  - by destruct (c_sync c).
  - destruct (c_sync c); [done|]. rewrite decide_True; [done|].
    unfold excl_ok in Hx. simpl in Hx. apply N.eqb_eq in Hx. done.
Qed.

(** The thread a condition is asked on may have exclusive access: the one that made the world called
    run_workload, and the condition is asked right there. *)
Definition asked_home (tl : bool) (gen : N → N) (t0 : N) (pool : option N) (outermost : bool) (t : N) : Prop :=
  tl = false ∨ (gen t = gen t0 ∧ (pool = None ∨ outermost = true)).

Lemma asked_excl tl gen t0 pool outermost t w :
  cw_gen w = gen → cw_main w = gen t0 → asked_home tl gen t0 pool outermost t →
  excl_ok tl w (ask_thread pool outermost t) = true.
Proof.
  intros G M [->|(E & Hp)]; [done|]. unfold excl_ok. rewrite G, M.
  apply orb_true_iff. right. apply N.eqb_eq. rewrite <-E.
  destruct Hp as [->| ->]; unfold ask_thread; [by destruct outermost|done].
Qed.

Lemma no_owner l (P : eid → Prop) : (∀ e, e ∈ l ↔ P e) →
  match l with [] => true | _ => false end = true ↔ ∀ e, ¬ P e.
Proof.
  intros H. split.
  - intros E e He. apply H in He. destruct l; [by apply elem_of_nil in He|done].
  - intros Hn. destruct l as [|e l]; [done|]. destruct (Hn e). apply H. by left.
Qed.

(** Which storage of components a condition names. *)
Definition names_set (b : builtin) (md : mode) (T : N) : Prop :=
  (b = BStorageEmpty T ∧ md = MPlain) ∨ b = BById (IdOf (TySet md T)).

(** With run_if.. the system or workload runs exactly when no entity has a component in the storage, with
    skip_if.. exactly when some entity has one. *)
Theorem C80_components tl gen t0 h w tr pool outermost t skip b md T :
  c_run tl (cw_new gen t0) h = (w, tr) →
  asked_home tl gen t0 pool outermost t →
  names_set b md T →
  ∃ runs, ask tl false skip w (ask_thread pool outermost t) b = Some runs ∧
    (runs = true ↔ if skip then ∃ e, has tr md T e else ¬ ∃ e, has tr md T e).
Proof.
  intros E Ha Hb. destruct (c_reached _ _ _ _ _ _ E) as (H & G & M).
  assert (Hi : b_id b = IdOf (TySet md T)) by (by destruct Hb as [[-> ->]| ->]).
  unfold ask. rewrite (ask_empty_is _ _ _ _ _ H) by (by eapply asked_excl). rewrite Hi.
  destruct (ok_set _ _ _ H md T) as [Hs Ho].
  set (a := match cw_tab w !! IdOf (TySet md T) with None => true | Some (_, k) => is_empty k end).
  assert (A : a = true ↔ ∀ e, ¬ has tr md T e).
  { rewrite <-(no_owner (owners (IdOf (TySet md T)) w) (has tr md T)) by done.
    unfold a, owners. destruct Hs as [->|(c & own & ->)]; done. }
  assert (Ex : (∃ e, has tr md T e) ↔ a = false).
  { split.
    - intros [e He]. destruct a; [|done]. by destruct (proj1 A eq_refl e).
    - intros Ea. destruct (owners (IdOf (TySet md T)) w) as [|e l] eqn:Eo.
      + exfalso. destruct Hs as [Hs|(c & own & Hs)]; unfold a in Ea; unfold owners in Eo;
          rewrite Hs in Ea, Eo; simplify_eq/=.
      + exists e. apply Ho. by left. }
  simpl. eexists. split; [done|]. destruct skip; simpl; rewrite Ex; destruct a; simpl; naive_solver.
Qed.

(** The same about a unique: with run_if_missing_unique it runs exactly when the unique is not there. *)
Theorem C80_uniques tl gen t0 h w tr pool outermost t skip T :
  c_run tl (cw_new gen t0) h = (w, tr) →
  asked_home tl gen t0 pool outermost t →
  ∃ runs, ask tl false skip w (ask_thread pool outermost t) (BMissingUnique T) = Some runs ∧
    (runs = true ↔ if skip then there (λ t, gen t = gen t0) tr T
                   else ¬ there (λ t, gen t = gen t0) tr T).
Proof.
  intros E Ha. destruct (c_reached _ _ _ _ _ _ E) as (H & G & M).
  unfold ask. rewrite (ask_empty_is _ _ _ _ _ H) by (by eapply asked_excl). simpl.
  pose proof (ok_uniq _ _ _ H T) as Hu. rewrite G, M in Hu.
  eexists. split; [done|].
  destruct (cw_tab w !! _) as [[c k]|]; [destruct k; try done|]; destruct skip; simpl; naive_solver.
Qed.

(** A storage of the user answers for itself; one that was not added counts as empty. *)
Theorem C80_custom tl gen t0 h w tr pool outermost t skip n :
  c_run tl (cw_new gen t0) h = (w, tr) →
  asked_home tl gen t0 pool outermost t →
  ask tl false skip w (ask_thread pool outermost t) (BById (IdNum n)) =
    Some (if skip then false else true) ∧ (∀ says, ¬ user_says tr n says) ∨
  ∃ says, user_says tr n says ∧ (∀ s, user_says tr n s → s = says) ∧
    ask tl false skip w (ask_thread pool outermost t) (BById (IdNum n)) =
      Some (if skip then negb says else says).
Proof.
  intros E Ha. destruct (c_reached _ _ _ _ _ _ E) as (H & G & M).
  unfold ask. rewrite (ask_empty_is _ _ _ _ _ H) by (by eapply asked_excl). simpl.
  pose proof (ok_user _ _ _ H n) as Hu.
  destruct (cw_tab w !! _) as [[c k]|]; [destruct k; try done|].
  - right. exists says. split; [by apply Hu|]. split; [intros s; by apply Hu|]. by destruct skip.
  - left. split; [by destruct skip|done].
Qed.

(** The run fails, with neither answer, exactly when the world is in use or the condition is asked on a
    thread that did not make the world. *)
Theorem C80_fails tl gen t0 h w tr held skip pool outermost t b :
  c_run tl (cw_new gen t0) h = (w, tr) →
  ask tl held skip w (ask_thread pool outermost t) b = None ↔
  held = true ∨ (tl = true ∧ gen (ask_thread pool outermost t) ≠ gen t0).
Proof.
  intros E. destruct (c_reached _ _ _ _ _ _ E) as (H & G & M).
  unfold ask, ask_empty, excl_ok. rewrite G, M.
  destruct held; simpl; [naive_solver|].
  destruct tl; simpl.
  - destruct (N.eqb_spec (gen (ask_thread pool outermost t)) (gen t0)) as [Eq|Ne]; simpl; [|naive_solver].
    split; [|naive_solver].
    destruct (cw_tab w !! _) as [[c k]|]; [|done]. by repeat case_match.
  - split; [|naive_solver].
    destruct (cw_tab w !! _) as [[c k]|]; [|done]. by repeat case_match.
Qed.

(** * A case *)

(** Thread ids are the threads themselves. Thread 0 makes the world; entity (0,0) gets component 1, entity
    (1,0) too, and a wrapped component 2; both lose the component 1, by [remove] and by [delete_entity]. A
    unique is added by another thread, once more from the wrong thread, and removed. *)
Definition ex_h : list (N * ccall) :=
  [(0, CSpawn 0); (0, CSpawn 1); (0, CAdd MPlain 1 (0%nat, 0)); (3, CAdd MPlain 1 (1%nat, 0));
   (0, CAdd MNonSend 2 (0%nat, 0)); (3, CAddU MPlain 7); (3, CAddU MNonSend 8); (0, CUser 5 false);
   (0, CRem MPlain 1 (1%nat, 0)); (0, CSays 5 true)].
Definition ex_w := (c_run true (cw_new id 0) ex_h).1.
Definition ex_tr := (c_run true (cw_new id 0) ex_h).2.
Example C80_case :
  c_run true (cw_new id 0) ex_h = (ex_w, ex_tr) ∧
  asked_home true id 0 None false 0 ∧ asked_home true id 0 (Some 9) true 0 ∧
  (* entity (0,0) still has a component 1 *)
  ask true false false ex_w (ask_thread None false 0) (BStorageEmpty 1) = Some false ∧
  ask true false true ex_w (ask_thread None false 0) (BStorageEmpty 1) = Some true ∧
  (* and loses it with everything else when it is deleted *)
  ask true false false (c_step true ex_w 0 (CDel (0%nat, 0))).1 0 (BStorageEmpty 1) = Some true ∧
  (* storages never touched are empty *)
  ask true false false ex_w 0 (BStorageEmpty 4) = Some true ∧
  ask true false false ex_w 0 (BById (IdOf (TySet MNonSend 2))) = Some false ∧
  ask true false false ex_w 0 (BMissingUnique 7) = Some false ∧
  ask true false true ex_w 0 (BMissingUnique 7) = Some true ∧
  (* thread 3 could not add unique 8, whose value must stay on its thread *)
  ask true false false ex_w 0 (BMissingUnique 8) = Some true ∧
  ask true false false (c_step true ex_w 0 (CRemU 7)).1 0 (BMissingUnique 7) = Some true ∧
  ask true false false ex_w 0 (BById (IdNum 5)) = Some true ∧
  ask true false false ex_w 3 (BMissingUnique 7) = None.
Proof.
  split; [by unfold ex_w, ex_tr; destruct (c_run _ _ _)|].
  split; [right; by auto|]. split; [right; by auto|].
  repeat split; vm_compute; reflexivity.
Qed.

(** * Where they are wrong *)

(** Components behind NonSend, NonSync and NonSendSync views are in another storage than the one that
    run_if_storage_empty looks at: it runs the system as if nobody had one. *)
Definition wr_h : list (N * ccall) := [(0, CSpawn 0); (0, CAdd MNonSend 2 (0%nat, 0))].
Definition wr_tr : list (N * ccall * bool) := [(0, CSpawn 0, true); (0, CAdd MNonSend 2 (0%nat, 0), true)].
Theorem C80_wrapped_refuted : ¬ (∀ gen t0 h w tr md T,
  c_run true (cw_new gen t0) h = (w, tr) →
  ask true false false w t0 (BStorageEmpty T) = Some true →
  ¬ ∃ e, has tr md T e).
Proof.
  intros C.
  destruct (C id 0 wr_h (c_run true (cw_new id 0) wr_h).1 wr_tr MNonSend 2).
  - vm_compute. reflexivity.
  - vm_compute. reflexivity.
  - exists (0%nat, 0). exists [(0, CSpawn 0, true)], (0, CAdd MNonSend 2 (0%nat, 0), true), [].
    split; [done|]. split; [done|]. by intros y ?%elem_of_nil.
Qed.

(** Asked about the storage of entities, the condition says whether an entity was ever created.. *)
Theorem C80_entities tl gen t0 h w tr pool outermost t :
  c_run tl (cw_new gen t0) h = (w, tr) →
  asked_home tl gen t0 pool outermost t →
  ∃ runs, ask tl false false w (ask_thread pool outermost t) (BById (IdOf TyEnt)) = Some runs ∧
    (runs = true ↔ ¬ spawned tr).
Proof.
  intros E Ha. destruct (c_reached _ _ _ _ _ _ E) as (H & G & M).
  unfold ask. rewrite (ask_empty_is _ _ _ _ _ H) by (by eapply asked_excl). simpl.
  destruct (ok_ent _ _ _ H) as (c & l & -> & Hl). eexists. split; [done|]. rewrite <-Hl. simpl.
  by destruct l.
Qed.
(** .. not whether there is one. *)
Theorem C80_entities_refuted : ¬ (∀ gen t0 h w tr,
  c_run true (cw_new gen t0) h = (w, tr) →
  (∀ e, alive w e = false) →
  ask true false false w t0 (BById (IdOf TyEnt)) = Some true).
Proof.
  intros C.
  pose (h := [(0, CSpawn 0); (0, CDel (0%nat, 0))]).
  assert (F : ask true false false (c_run true (cw_new id 0) h).1 0 (BById (IdOf TyEnt)) = Some true).
  { apply (C id 0 h _ (c_run true (cw_new id 0) h).2).
    - by destruct (c_run _ _ _).
    - intros e. unfold alive.
      replace (slots (c_run true (cw_new id 0) h).1) with [(1, false)] by (vm_compute; reflexivity).
      apply bool_decide_eq_false. destruct e as [[|[|i]] g]; simpl; congruence. }
  vm_compute in F. congruence.
Qed.

(** With a local thread pool, the condition of a system is asked by a thread of the pool, and every run
    fails, whatever the world is like; the same condition on the workload works. *)
Theorem C80_pool_refuted gen t0 p h w tr b :
  gen p ≠ gen t0 →
  c_run true (cw_new gen t0) h = (w, tr) →
  ask true false false w (ask_thread (Some p) false t0) b = None ∧
  ask true false false w (ask_thread (Some p) true t0) b ≠ None.
Proof.
  intros Hg E. split.
  - apply (C80_fails _ _ _ _ _ _ _ _ _ _ _ _ E). right. done.
  - rewrite (C80_fails _ _ _ _ _ _ _ _ _ _ _ _ E). intros [?|[_ Hn]]; [done|]. by apply Hn.
Qed.
Example C80_pool_case :
  ask true false false ex_w (ask_thread (Some 9) false 0) (BStorageEmpty 1) = None ∧
  ask true false false ex_w (ask_thread (Some 9) true 0) (BStorageEmpty 1) = Some false.
Proof. split; vm_compute; reflexivity. Qed.

Print Assumptions C80_components.
Print Assumptions C80_uniques.
Print Assumptions C80_custom.
Print Assumptions C80_fails.
Print Assumptions C80_wrapped_refuted.
Print Assumptions C80_entities.
Print Assumptions C80_entities_refuted.
Print Assumptions C80_pool_refuted.
