(** Properties of derive(IntoIter) (C85). *)
From Coq Require Import NArith Ascii String Lia.
From stdpp Require Import prelude list.
From Verif Require Import EntityId Base SparseSet SparseSetSpec Track World WorldSpec Iter IterSpec IterOwned PropsWorld PropsIter
  DeriveIter DeriveIterSpec.
Local Open Scope nat_scope.

(** * Trimming *)
Lemma after_is p s r : after p s = Some r ↔ s = p ++ r.
Proof.
  revert s. induction p as [|a p IH]; intros s; cbn [after]; [naive_solver|].
  destruct s as [|b s]; [naive_solver|]. destruct (Ascii.eqb_spec a b) as [->|Hn].
  - rewrite IH. naive_solver.
  - naive_solver.
Qed.
Lemma trim_loop_is p n : p ≠ [] → ∀ s, length s ≤ n → ∃ k, without_leading p s k (trim_loop n p s).
Proof.
  intros Hp. induction n as [|n IH]; intros s Hs; cbn [trim_loop].
  - exists 0. split; [done|]. intros [r ->]. rewrite app_length in Hs. destruct p; [done|cbn in Hs; lia].
  - destruct (after p s) as [s'|] eqn:E.
    + apply after_is in E as ->. rewrite app_length in Hs. destruct p as [|a p]; [done|]. cbn in Hs.
      destruct (IH s') as (k & Hk & Hn); [lia|]. exists (S k). split; [|done].
      cbn [replicate mjoin list_join]. rewrite <-(assoc_L (++)). by f_equal.
    + exists 0. split; [done|]. intros [r ->]. rewrite (proj2 (after_is p (p ++ r) r)) in E; done.
Qed.
Lemma leading_unique p s k r k' r' : without_leading p s k r → without_leading p s k' r' → k = k' ∧ r = r'.
Proof.
  revert s k'. induction k as [|k IH]; intros s k' [-> Hr] [Hs Hr']; destruct k' as [|k']; cbn in *.
  - done.
  - exfalso. apply Hr. exists (mjoin (replicate k' p) ++ r'). by rewrite Hs, <-(assoc_L (++)).
  - exfalso. apply Hr'. exists (mjoin (replicate k p) ++ r). by rewrite <-Hs, <-(assoc_L (++)).
  - rewrite <-!(assoc_L (++)) in Hs. apply (inj (p ++.)) in Hs.
    destruct (IH (mjoin (replicate k p) ++ r) k') as [-> ->]; [done..|]. done.
Qed.
Lemma trim_start_is p s k r : p ≠ [] → without_leading p s k r → r = trim_start p s.
Proof.
  intros Hp H. destruct (trim_loop_is p (length s) Hp s) as [k' H']; [done|]. by eapply leading_unique.
Qed.
Lemma trim_start_ex p s : p ≠ [] → ∃ k, without_leading p s k (trim_start p s).
Proof. intros Hp. by apply trim_loop_is. Qed.
Lemma join_rev (p : name) k : reverse (mjoin (replicate k p)) = mjoin (replicate k (reverse p)).
Proof.
  assert (HS : ∀ k (p : name), mjoin (replicate (S k) p) = p ++ mjoin (replicate k p)) by done.
  induction k as [|k IH]; [done|]. rewrite !HS, reverse_app, IH.
  clear IH. induction k as [|k IH]; [by rewrite app_nil_r|]. rewrite HS. rewrite <-app_assoc. f_equal. exact IH.
Qed.
Lemma trailing_rev p s k r : without_trailing p s k r ↔ without_leading (reverse p) (reverse s) k (reverse r).
Proof.
  unfold without_trailing, without_leading. rewrite <-join_rev, <-reverse_app, suffix_prefix_reverse. split.
  - intros [-> ?]. done.
  - intros [H ?]. apply (inj reverse) in H. done.
Qed.
Lemma trim_end_is p s k r : p ≠ [] → without_trailing p s k r → r = trim_end p s.
Proof.
  intros Hp H. apply trailing_rev in H. unfold trim_end. apply trim_start_is in H.
  - by rewrite <-H, reverse_involutive.
  - intros E. apply Hp. by rewrite <-(reverse_involutive p), E.
Qed.
Lemma trim_end_ex p s : p ≠ [] → ∃ k, without_trailing p s k (trim_end p s).
Proof.
  intros Hp. destruct (trim_start_ex (reverse p) (reverse s)) as [k Hk].
  { intros E. apply Hp. by rewrite <-(reverse_involutive p), E. }
  exists k. apply trailing_rev. unfold trim_end. by rewrite reverse_involutive.
Qed.

(** * Attributes *)
Lemma find_attr_is {A} (l : list (option A)) x : find_attr l = x ↔ first_attr l x.
Proof.
  revert x. induction l as [|[a|] l IH]; intros x; cbn [find_attr].
  - destruct x; cbn; [|by split]. split; [done|]. intros ([|??] & ? & ? & _); done.
  - destruct x as [b|]; cbn.
    + split; [intros [= ->]; by exists [], l|]. intros ([|y l1] & l2 & E & HF); [naive_solver|].
      injection E as <- _. apply Forall_cons in HF as [? _]. done.
    + split; [done|]. intros HF. apply Forall_cons in HF as [? _]. done.
  - rewrite IH. destruct x as [b|]; cbn.
    + split.
      * intros (l1 & l2 & -> & HF). exists (None :: l1), l2. split; [done|]. by constructor.
      * intros ([|y l1] & l2 & E & HF); [done|]. injection E as <- ->. apply Forall_cons in HF as [_ HF]. eauto.
    + rewrite Forall_cons. tauto.
Qed.
Lemma scan_struct_is acc l n : scan_struct acc l = Some n ↔
  SOther ∉ l ∧ n = match last l with Some (SItemName n) => n | _ => acc end.
Proof.
  revert acc. induction l as [|x l IH]; intros acc; cbn [scan_struct].
  - split; [intros [= ->]; split; [set_solver|done]|by intros [_ ->]].
  - destruct x as [m|].
    + rewrite IH, not_elem_of_cons. destruct l as [|y l]; [naive_solver|].
      replace (last (SItemName m :: y :: l)) with (last (y :: l)) by done.
      destruct (last (y :: l)) as [[]|] eqn:E; [naive_solver| |].
      * apply last_Some_elem_of in E. naive_solver.
      * by apply last_None in E.
    + split; [done|]. intros [H _]. exfalso. apply H. by left.
Qed.
Lemma item_name_is s item : is_ident item = true → item_name s = Some item ↔ named_item s item.
Proof.
  intros Hid. unfold item_name. destruct (find_attr (s_attrs s)) as [l|] eqn:E.
  - pose proof (proj1 (find_attr_is _ _) E) as Ea. rewrite scan_struct_is. split.
    + intros [Ho ->]. left. destruct (last l) as [[n|]|] eqn:El; [|by apply last_Some_elem_of in El|done].
      apply last_Some in El as [l1 ->]. exists l1, n. split; [done|]. set_solver.
    + intros [(l1 & n & H & Ho & ->)|[H _]].
      * apply find_attr_is in H. rewrite E in H. injection H as ->. split; [set_solver|].
        by rewrite last_snoc.
      * apply find_attr_is in H. congruence.
  - pose proof (proj1 (find_attr_is _ _) E) as Ea.
    destruct (trim_end_ex (lit "View") (s_name s)) as [k Hk]; [done|].
    assert (Hl : length (trim_end (lit "View") (s_name s)) =? length (s_name s) = bool_decide (k = 0)).
    { destruct Hk as [Hk _]. rewrite Hk at 2. rewrite app_length. destruct k as [|k]; cbn.
      - apply Nat.eqb_eq. lia.
      - apply Nat.eqb_neq. lia. }
    rewrite Hl. split.
    + intros [= <-]. right. split; [done|]. exists k, (trim_end (lit "View") (s_name s)). split; [done|].
      by repeat case_decide.
    + intros [(l1 & n & H & _)|(_ & k' & r & Hr & ->)].
      { apply find_attr_is in H. congruence. }
      pose proof (trim_end_is (lit "View") _ _ _ ltac:(done) Hr) as ->.
      apply trailing_rev in Hk, Hr. destruct (leading_unique _ _ _ _ _ _ Hk Hr) as [-> _].
      by repeat case_decide.
Qed.
Lemma scan_field_is skip over l skip' over' : scan_field skip over l = inl (skip', over') ↔
  FOther ∉ l ∧ (∀ n, FName n ∈ l → is_ident n = true) ∧ (skip' = true ↔ skip = true ∨ FSkip ∈ l) ∧
  ((over' = over ∧ ∀ n, FName n ∉ l) ∨
   ∃ n l1 l2, over' = Some n ∧ l = l1 ++ FName n :: l2 ∧ ∀ n', FName n' ∉ l2).
Proof.
  revert skip over. induction l as [|x l IH]; intros skip over; cbn [scan_field].
  - split.
    + intros [= -> ->]. split_and!; [set_solver..|]. left. split; [done|set_solver].
    + intros (_ & _ & H1 & [[-> _]|(n & [|??] & l2 & _ & E & _)]); [|done..].
      f_equal. f_equal. destruct skip, skip'; set_solver.
  - destruct x as [|m|].
    + rewrite IH. split.
      * intros (H1 & H2 & H3 & H4). split_and!; [set_solver..|].
        destruct H4 as [[-> H4]|(n & l1 & l2 & -> & -> & H4)]; [left; set_solver|].
        right. exists n, (FSkip :: l1), l2. done.
      * intros (H1 & H2 & H3 & H4). split_and!; [set_solver..|].
        destruct H4 as [[-> H4]|(n & [|y l1] & l2 & -> & E & H4)]; [left; set_solver|done|].
        injection E as <- ->. right. exists n, l1, l2. done.
    + destruct (is_ident m) eqn:Em.
      * rewrite IH. split.
        -- intros (H1 & H2 & H3 & H4). split_and!; [set_solver| |set_solver|].
           { intros n. rewrite elem_of_cons. intros [[= ->]|?]; [done|by apply H2]. }
           right. destruct H4 as [[-> H4]|(n & l1 & l2 & -> & -> & H4)].
           ++ exists m, [], l. done.
           ++ exists n, (FName m :: l1), l2. done.
        -- intros (H1 & H2 & H3 & H4). split_and!; [set_solver|set_solver|set_solver|].
           destruct H4 as [[-> H4]|(n & [|y l1] & l2 & -> & E & H4)].
           ++ exfalso. apply (H4 m). by left.
           ++ injection E as <- ->. by left.
           ++ injection E as <- ->. right. exists n, l1, l2. done.
      * split; [done|]. intros (_ & H2 & _). specialize (H2 m (elem_of_list_here _ _)). congruence.
    + split; [done|]. intros [H _]. exfalso. apply H. by left.
Qed.
Definition scan f : (bool * option name) + bool :=
  match find_attr (f_attrs f) with Some l => scan_field false None l | None => inl (false, None) end.
Lemma scan_is f skip over : scan f = inl (skip, over) ↔ field_says f skip over.
Proof.
  unfold scan, field_says. destruct (find_attr (f_attrs f)) as [l|] eqn:E.
  - assert (HA : ∀ x, first_attr (f_attrs f) x ↔ x = Some l) by (intros x; rewrite <-find_attr_is, E; naive_solver).
    rewrite scan_field_is. split.
    + intros (H1 & H2 & H3 & H4). right. exists l. split; [by apply HA|]. split_and!; [done..|set_solver|].
      destruct H4 as [[-> H4]|(n & l1 & l2 & -> & -> & H4)]; [done|]. eauto.
    + intros [[H _]|(l' & H & H1 & H2 & H3 & H4)]; [by apply HA in H|]. apply HA in H as [= ->].
      split_and!; [done..|set_solver|]. destruct over as [n|].
      * right. destruct H4 as (l1 & l2 & -> & ?). exists n, l1, l2. done.
      * by left.
  - assert (HA : ∀ x, first_attr (f_attrs f) x ↔ x = None) by (intros x; rewrite <-find_attr_is, E; naive_solver).
    split.
    + intros [= <- <-]. left. split; [by apply HA|done].
    + intros [(_ & -> & ->)|(l & H & _)]; [done|by apply HA in H].
Qed.

(** * Fields *)
Definition prefix_for (t : fty) : name := match t with TViewMut _ => lit "vm_" | _ => lit "v_" end.
Definition query_for (t : fty) : option query :=
  match t with TView i => Some (QView i) | TViewMut i => Some (QMut i) | _ => None end.
Lemma iterated_is f n q : iterated f n q ↔
  ∃ over, scan f = inl (false, over) ∧ query_for (f_ty f) = Some q ∧ is_ident n = true ∧
    n = trimmed (prefix_for (f_ty f)) over (f_name f).
Proof.
  unfold iterated. split.
  - intros (over & p & H1 & H2 & H3 & H4). exists over. rewrite scan_is.
    assert (query_for (f_ty f) = Some q ∧ p = prefix_for (f_ty f) ∧ p ≠ []) as (Hq & -> & Hp).
    { destruct H3 as [(i & -> & -> & ->)|(i & -> & -> & ->)]; done. }
    split_and!; [done..|]. destruct over as [o|]; [done|]. destruct H4 as [k Hk]. by eapply trim_start_is.
  - intros (over & H1 & H2 & H3 & H4). exists over, (prefix_for (f_ty f)). rewrite scan_is in H1.
    split_and!; [done..| |].
    + destruct (f_ty f) as [i|i| | |]; try done; injection H2 as <-; [left|right]; by exists i.
    + destruct over as [o|]; [done|]. rewrite H4. apply trim_start_ex. by destruct (f_ty f).
Qed.
Lemma left_out_is f : left_out f ↔ f_ty f = TNoPath ∨ (f_ty f ≠ TNoPath ∧ ∃ over, scan f = inl (true, over)).
Proof. unfold left_out. by setoid_rewrite scan_is. Qed.
Lemma named_loop_cons f fs : named_loop (f :: fs) =
  match f_ty f with
  | TNoPath => named_loop fs
  | t => match scan f with
         | inr b => inr b
         | inl (true, _) => named_loop fs
         | inl (false, over) =>
             match query_for t with
             | Some q =>
                 let n := trimmed (prefix_for t) over (f_name f) in
                 if is_ident n then
                   match named_loop fs with inl (l, m) => inl ((n, q) :: l, is_mut q || m) | inr b => inr b end
                 else inr true
             | None => inr false
             end
         end
  end.
Proof. unfold scan. cbn [named_loop]. by destruct (f_ty f). Qed.
Lemma named_loop_is fs l m : named_loop fs = inl (l, m) ↔ iterates fs l ∧ m = existsb is_mut l.*2.
Proof.
  revert l m. induction fs as [|f fs IH]; intros l m.
  { cbn. split; [intros [= <- <-]; split; [constructor|done]|]. intros [H ->]. by inversion H. }
  rewrite named_loop_cons. split.
  - intros H. assert (f_ty f = TNoPath ∨ f_ty f ≠ TNoPath) as [Et|Et] by (destruct (f_ty f); by (left + right)).
    { rewrite Et in H. apply IH in H as [H ->]. split; [|done]. apply It_out; [|done]. by left. }
    assert (H' : match scan f with
         | inr b => inr b
         | inl (true, _) => named_loop fs
         | inl (false, over) =>
             match query_for (f_ty f) with
             | Some q =>
                 let n := trimmed (prefix_for (f_ty f)) over (f_name f) in
                 if is_ident n then
                   match named_loop fs with inl (l, m) => inl ((n, q) :: l, is_mut q || m) | inr b => inr b end
                 else inr true
             | None => inr false
             end
         end = inl (l, m)) by (by destruct (f_ty f)).
    clear H. destruct (scan f) as [[[] over]|] eqn:Es; [| |done].
    + apply IH in H' as [H ->]. split; [|done]. apply It_out; [|done]. apply left_out_is. right. split; [done|eauto].
    + destruct (query_for (f_ty f)) as [q|] eqn:Eq; [|done]. cbn zeta in H'.
      destruct (is_ident _) eqn:Ei; [|done]. destruct (named_loop fs) as [[l' m']|] eqn:El; [|done].
      injection H' as <- <-. destruct (proj1 (IH l' m') eq_refl) as [H ->]. split; [|done].
      apply It_in; [|done]. apply iterated_is. eauto.
  - intros [H ->]. inversion H as [|? ? ? Ho Hr|? ? n q ? Hi Hr]; subst; clear H.
    + apply left_out_is in Ho as [->|[Hn [over Ho]]]; [by apply IH|]. rewrite Ho.
      rewrite (proj2 (IH l (existsb is_mut l.*2))) by done. by destruct (f_ty f).
    + apply iterated_is in Hi as (over & Hs & Hq & Hid & Hn). rewrite Hs.
      rewrite (proj2 (IH l0 (existsb is_mut l0.*2))) by done.
      destruct (f_ty f) as [i|i| | |]; try done; cbn [query_for] in Hq |- *; rewrite <-Hn, Hid;
        injection Hq as <-; done.
Qed.
Lemma unnamed_loop_is ts qs m : unnamed_loop ts = Some (qs, m) ↔
  Forall2 (λ t q, query_for t = Some q) ts qs ∧ m = existsb is_mut qs.
Proof.
  revert qs m. induction ts as [|t ts IH]; intros qs m; cbn [unnamed_loop].
  { split; [intros [= <- <-]; by split|]. intros [H ->]. by inversion H. }
  assert (HX : ∀ q, query_for t = Some q →
    match unnamed_loop ts with Some (l, m) => Some (q :: l, is_mut q || m) | None => None end = Some (qs, m) ↔
    Forall2 (λ t q, query_for t = Some q) (t :: ts) qs ∧ m = existsb is_mut qs).
  { intros q Hq. destruct (unnamed_loop ts) as [[l m']|] eqn:E.
    - destruct (proj1 (IH l m') eq_refl) as [HF ->]. split.
      + intros [= <- <-]. split; [by constructor|done].
      + intros [H ->]. inversion H as [|? q' ? l' ? H']; subst.
        assert (Some (l, existsb is_mut l) = Some (l', existsb is_mut l')) as [= ->] by (by apply IH).
        assert (q' = q) as -> by congruence. done.
    - split; [done|]. intros [H ->]. inversion H as [|? q' ? l' ? H']; subst.
      assert (None = Some (l', existsb is_mut l')) by (by apply IH). done. }
  destruct t as [i|i| | |].
  - rewrite <-(HX (QView i)) by done. by destruct (unnamed_loop ts) as [[??]|].
  - rewrite <-(HX (QMut i)) by done. by destruct (unnamed_loop ts) as [[??]|].
  - split; [done|]. intros [H _]. by inversion H.
  - split; [done|]. intros [H _]. by inversion H.
  - split; [done|]. intros [H _]. by inversion H.
Qed.

(** * C85 *)
(** When the macro succeeds on a struct with named fields, and what it makes of it. *)
Theorem C85_named s fs item l q mt : s_fields s = Named fs →
  expand s = XNamed item l q mt ↔
  s_is_struct s = true ∧ s_lifetime s = true ∧ named_item s item ∧ is_ident item = true ∧ fs ≠ [] ∧
  iterates fs l ∧ q = tuple_of l.*2 ∧ (mt = true ↔ ∃ n i, (n, QMut i) ∈ l).
Proof.
  intros Ef. unfold expand. rewrite Ef.
  assert (HM : ∀ l : list (name * query), existsb is_mut l.*2 = true ↔ ∃ n i, (n, QMut i) ∈ l).
  { intros l'. rewrite existsb_exists. setoid_rewrite <-elem_of_list_In. split.
    - intros (q' & Hq & Hm). apply elem_of_list_fmap in Hq as ([n q2] & -> & Hin). cbn in Hm.
      destruct q2; try done. eauto.
    - intros (n & i & Hin). exists (QMut i). split; [|done]. apply elem_of_list_fmap. by exists (n, QMut i). }
  split.
  - intros H. destruct (s_is_struct s); [|done]. destruct (item_name s) as [item'|] eqn:Ei; [|done].
    destruct (is_ident item') eqn:Eid; [|done]. destruct (s_lifetime s); [|done].
    destruct fs as [|f fs]; [done|]. destruct (named_loop (f :: fs)) as [[l' m]|[]] eqn:El; [|done..].
    injection H as <- <- <- <-. apply named_loop_is in El as [El ->].
    split_and!; try done. by apply item_name_is.
  - intros (-> & -> & Hi & Hid & Hne & Hit & -> & Hmt). apply item_name_is in Hi; [|done]. rewrite Hi, Hid.
    destruct fs as [|f fs]; [done|].
    rewrite (proj2 (named_loop_is (f :: fs) l (existsb is_mut l.*2))) by done.
    f_equal. rewrite <-HM in Hmt. destruct mt, (existsb is_mut l.*2); naive_solver.
Qed.
(** The same for tuple structs: every field has to be a view. *)
Theorem C85_tuple s ts q mt : s_fields s = Unnamed ts →
  expand s = XTuple q mt ↔
  s_is_struct s = true ∧ s_lifetime s = true ∧ (∃ item, named_item s item ∧ is_ident item = true) ∧ ts ≠ [] ∧
  ∃ qs, Forall2 (λ t q, t = TView (default 0%N (comp q)) ∧ q = QView (default 0%N (comp q)) ∨
                        t = TViewMut (default 0%N (comp q)) ∧ q = QMut (default 0%N (comp q))) ts qs ∧
    q = tuple_of qs ∧ (mt = true ↔ ∃ i, QMut i ∈ qs).
Proof.
  intros Ef. unfold expand. rewrite Ef.
  assert (HM : ∀ l : list query, existsb is_mut l = true ↔ ∃ i, QMut i ∈ l).
  { intros l'. rewrite existsb_exists. setoid_rewrite <-elem_of_list_In. split.
    - intros (q' & Hq & Hm). destruct q'; try done. eauto.
    - intros (i & Hin). by exists (QMut i). }
  assert (HQ : ∀ qs, Forall2 (λ t q, query_for t = Some q) ts qs ↔
    Forall2 (λ t q, t = TView (default 0%N (comp q)) ∧ q = QView (default 0%N (comp q)) ∨
                        t = TViewMut (default 0%N (comp q)) ∧ q = QMut (default 0%N (comp q))) ts qs).
  { intros qs. split; intros H; (eapply Forall2_impl; [exact H|]); intros t q'; cbn.
    - destruct t; try done; intros [= <-]; cbn; tauto.
    - intros [[-> H']|[-> H']]; cbn; by rewrite H'. }
  split.
  - intros H. destruct (s_is_struct s); [|done]. destruct (item_name s) as [item'|] eqn:Ei; [|done].
    destruct (is_ident item') eqn:Eid; [|done]. destruct (s_lifetime s); [|done].
    destruct ts as [|t ts]; [done|]. destruct (unnamed_loop (t :: ts)) as [[l' m]|] eqn:El; [|done..].
    injection H as <- <-. apply unnamed_loop_is in El as [El ->].
    split_and!; try done. { exists item'. split; [by apply item_name_is|done]. }
    exists l'. split_and!; [by apply HQ|done|apply HM..].
  - intros (-> & -> & (item & Hi & Hid) & Hne & qs & HF & -> & Hmt). apply item_name_is in Hi; [|done]. rewrite Hi, Hid.
    destruct ts as [|t ts]; [done|].
    rewrite (proj2 (unnamed_loop_is (t :: ts) qs (existsb is_mut qs))) by (split; [by apply HQ|done]).
    f_equal. rewrite <-HM in Hmt. destruct mt, (existsb is_mut qs); naive_solver.
Qed.

(** ** Iterating *)
Section world.
Context {V : Type} (kind : N → tracking).
Implicit Types (w : world V) (t : table V) (it : iter V).
Lemma iterates_views fs l : iterates fs l → Forall (λ x, ∃ i, comp x.2 = Some i ∧ (x.2 = QView i ∨ x.2 = QMut i)) l.
Proof.
  induction 1 as [|? ? ? _ _ IH|f fs n q l (over & p & _ & _ & H & _) _ IH]; [done|done|]. constructor; [|done].
  destruct H as [(i & _ & -> & _)|(i & _ & -> & _)]; exists i; cbn; tauto.
Qed.
Lemma all_some_Forall2 {A} (l : list (option A)) r : all_some l = Some r → l = Some <$> r.
Proof.
  revert r. induction l as [|[x|] l IH]; intros r; cbn [all_some]; [by intros [= <-]| |done].
  destruct (all_some l) as [r'|]; [|done]. intros [= <-]. cbn. f_equal. by apply IH.
Qed.
Lemma all_some_is {A} (l : list (option A)) : is_Some (all_some l) ↔ Forall is_Some l.
Proof.
  induction l as [|[x|] l IH]; cbn [all_some]; rewrite ?Forall_cons.
  - split; [done|]. intros _. by eexists.
  - rewrite fmap_is_Some, IH. naive_solver.
  - split; [by intros [??]|]. by intros [[??] _].
Qed.
(** A [for] loop over a struct whose macro compiles runs through the entities that have all the components of the
    iterated fields, each once; the item of an entity has a field for each of them, with its name, that holds this
    component of the entity; no component is reachable from two items. *)
Theorem C85_iterates ops w evs t times s item l q mt :
  reach kind ops w evs t → expand s = XNamed item l q mt → compiles s (expand s) = true →
  ∃ it L, shiperator (views kind w times) q = Ok it ∧ visits it L ∧ NoDup L.*1 ∧ apart q L ∧
    (∀ e, e ∈ L.*1 ↔ ∀ n x i, (n, x) ∈ l → comp x = Some i → is_Some (t_cell t e i)) ∧
    ∀ e o, (e, o) ∈ L →
      Forall2 (λ x y, y.1 = x.1 ∧ ∃ i c, comp x.2 = Some i ∧ erase y.2 = IVal (r_val c) ∧ t_cell t e i = Some c)
        l (make_item l o).
Proof.
  intros HR E HC. rewrite E in HC.
  assert (Hfs : ∃ fs, s_fields s = Named fs).
  { unfold expand in E. repeat case_match; try done; eauto. }
  destruct Hfs as [fs Hfs].
  pose proof (proj1 (C85_named s fs item l q mt Hfs) E) as (_ & _ & _ & _ & _ & Hit & -> & _).
  apply iterates_views in Hit as HF.
  cbn [compiles] in HC. rewrite !andb_true_iff, !Nat.leb_le in HC. destruct HC as [[_ Hlo] Hhi].
  assert (Hpl : plain (tuple_of l.*2) ∧ (size (tuple_of l.*2) <= 2 ^ 11)%N).
  { destruct l as [|x [|y l]]; [cbn in Hlo; lia| |].
    - apply Forall_cons in HF as [(i & _ & [Hx|Hx]) _]; cbn; rewrite Hx; done.
    - assert (tuple_of (x :: y :: l).*2 = QTuple (x :: y :: l).*2) as -> by done. split.
      + apply plain_tuple. split; [done|]. apply Forall_fmap. eapply Forall_impl; [exact HF|].
        intros z (i & _ & [Hz|Hz]); cbn; rewrite Hz; done.
      + cbn [size]. assert (HS : ∀ l' : list (name * query), Forall (λ x, ∃ i, comp x.2 = Some i ∧ (x.2 = QView i ∨ x.2 = QMut i)) l' →
          foldr (λ q n, (size q + n)%N) 1%N l'.*2 = (1 + N.of_nat (length l'))%N).
        { clear. induction 1 as [|z l' (i & _ & [Hz|Hz]) _ IH]; [done|..]; cbn [fmap list_fmap foldr length];
            rewrite IH, Hz; cbn [size]; lia. }
        rewrite HS by done. change (2 ^ 11)%N with 2048%N. lia. }
  destruct Hpl as [Hpl Hsz].
  destruct (plain_usable (λ i, k_track_insertion (kind i)) (λ i, k_track_modification (kind i)) _ Hpl)
    as (Hu & Hc & _ & _ & _ & Hof).
  destruct (C47_filters_partial kind ops w evs t times (tuple_of l.*2)) as (it & L & Es & HV & (X1 & X2 & X3) & HA);
    [done|by split_and!|done|].
  exists it, L.
  assert (HD : ∀ e x, x ∈ l → ∃ i, comp x.2 = Some i ∧ meant t times x.2 e = (λ r, IVal (r_val r)) <$> t_cell t e i).
  { intros e x Hx. rewrite Forall_forall in HF. destruct (HF x Hx) as (i & Hi & [Hq|Hq]); exists i; rewrite Hq; done. }
  assert (HQ : (∃ x, l = [x] ∧ tuple_of l.*2 = x.2) ∨ (tuple_of l.*2 = QTuple l.*2 ∧
    ∀ o : list (out V), make_item l (OTup o) = zip l.*1 o)).
  { destruct l as [|x [|y l]]; [cbn in Hlo; lia|left; eauto|right; split; [done|]]. by destruct x. }
  assert (HT : ∀ e, meant t times (QTuple l.*2) e = ITup <$> all_some ((λ x, meant t times x.2 e) <$> l)).
  { intros e. unfold meant. cbn [denote]. by rewrite <-list_fmap_compose. }
  split_and!; try done.
  - intros e. rewrite X2. destruct HQ as [(x & -> & ->)|[-> _]].
    + destruct (HD e x) as (i & Hi & ->); [by left|]. rewrite fmap_is_Some. split.
      * intros Hs n x' i'. rewrite elem_of_list_singleton. intros <- Hi'. cbn in Hi. congruence.
      * intros H. apply (H x.1 x.2 i); [|done]. destruct x. by apply elem_of_list_singleton.
    + rewrite HT, fmap_is_Some, all_some_is, Forall_fmap, Forall_forall. split.
      * intros H n x i Hin Hi. specialize (H (n, x) Hin). destruct (HD e (n, x) Hin) as (i' & Hi' & HM).
        cbn in H, HM, Hi'. rewrite HM, fmap_is_Some in H. congruence.
      * intros H [n x] Hin. destruct (HD e (n, x) Hin) as (i & Hi & HM). cbn in HM |- *.
        rewrite HM, fmap_is_Some. by eapply H.
  - intros e o Hin. specialize (X3 e o Hin). destruct HQ as [([n x] & -> & Ex)|[Ex Hmk]]; rewrite Ex in X3.
    + cbn [make_item]. constructor; [|constructor]. split; [done|]. cbn in X3 |- *.
      destruct (HD e (n, x)) as (i & Hi & HM); [by left|]. cbn in HM. rewrite HM in X3.
      destruct (t_cell t e i) as [c|] eqn:Ec; [|done]. injection X3 as X3. exists i, c. done.
    + rewrite HT in X3. destruct (all_some _) as [xs|] eqn:Ea; [|done]. injection X3 as X3.
      apply all_some_Forall2 in Ea. destruct o as [| | | |os| |]; try done. cbn [erase] in X3. injection X3 as ->.
      rewrite Hmk. clear -Ea HD. revert os Ea. induction l as [|[n x] l IH]; intros os Ea.
      * destruct os; [|done]. constructor.
      * destruct os as [|o os]; [done|]. cbn in Ea. injection Ea as E1 E2. cbn [fmap list_fmap zip zip_with].
        constructor; [|apply IH; [intros e' x' Hx'; apply HD; by right|done]].
        split; [done|]. destruct (HD e (n, x)) as (i & Hi & HM); [by left|]. cbn in HM. rewrite HM in E1.
        destruct (t_cell t e i) as [c|] eqn:Ec; [|done]. injection E1 as E1. exists i, c. done.
Qed.
End world.

(** ** A struct with all kinds of fields *)
Definition view_struct : item_struct := Struct true (lit "PlayerView") [None] true (Named
  [Field (lit "v_pos") [] (TView 0);
   Field (lit "vm_vel") [None; Some [FName (lit "speed")]; Some [FOther]] (TViewMut 1);
   Field (lit "cache") [Some [FSkip]; Some [FOther]] (TPath true);
   Field (lit "vm_v_hp") [] (TViewMut 2)]).
Definition view_fields : list (name * query) :=
  [(lit "pos", QView 0); (lit "speed", QMut 1); (lit "v_hp", QMut 2)].
Example C85_case :
  expand view_struct = XNamed (lit "Player") view_fields (QTuple [QView 0; QMut 1; QMut 2]) true ∧
  compiles view_struct (expand view_struct) = true ∧
  (∃ t, reach it_kind it_ops it_world (answers_of it_kind it_ops) t) ∧
  (rlet it := shiperator it_views (QTuple [QView 0; QMut 1; QMut 2]) in rlet l := it_fold it in Ok (make_item view_fields <$> l)) =
    Ok [[(lit "pos", ORef 0 1 30%N); (lit "speed", ORef 1 2 31%N); (lit "v_hp", ORef 2 0 32%N)]].
Proof. split_and!; [vm_compute; reflexivity..|exact it_reach|vm_compute; reflexivity]. Qed.
Example C85_tuple_case :
  expand (Struct true (lit "Pair") [] true (Unnamed [TViewMut 3; TView 4])) = XTuple (QTuple [QMut 3; QView 4]) true ∧
  expand (Struct true (lit "One") [] true (Unnamed [TView 4])) = XTuple (QView 4) false.
Proof. done. Qed.

(** ** False *)
(** The macro succeeds or reports an error: names of nothing but what is trimmed, an attribute without a name and a
    number after the prefix make it panic. *)
Theorem C85_panics_refuted :
  expand (Struct true (lit "View") [] true (Named [Field (lit "v_a") [] (TView 0)])) = XPanic ∧
  expand (Struct true (lit "AView") [] true (Named [Field (lit "v_") [] (TView 0)])) = XPanic ∧
  expand (Struct true (lit "AView") [] true (Named [Field (lit "v_0") [] (TView 0)])) = XPanic ∧
  expand (Struct true (lit "AView") [Some []] true (Unnamed [TView 0])) = XPanic.
Proof. done. Qed.
(** The code compiles when the macro succeeds: two names can become one, a name can become a keyword, nothing may be
    left to iterate. *)
Theorem C85_compiles_refuted :
  let make fs := Struct true (lit "AView") [] true (Named fs) in
  let fails s := (∃ item l q mt, expand s = XNamed item l q mt) ∧ compiles s (expand s) = false in
  fails (make [Field (lit "v_a") [] (TView 0); Field (lit "vm_a") [] (TViewMut 1)]) ∧
  fails (make [Field (lit "v_type") [] (TView 0)]) ∧
  fails (make [Field (lit "v_a") [Some [FSkip]] (TView 0)]).
Proof. cbn zeta. split_and!; try eexists _, _, _, _; vm_compute; reflexivity. Qed.
(** A field that is no view is an error: with named fields it is if its type is a path, otherwise it is left out
    without a word; a tuple struct refuses both, and cannot skip a field. *)
Theorem C85_silent_refuted :
  let make t := Struct true (lit "AView") [] true (Named [Field (lit "v_a") [] (TView 0); Field (lit "b") [] t]) in
  expand (make (TPath true)) = XError ∧ expand (make TNoPath) = XNamed (lit "A") [(lit "a", QView 0)] (QView 0) false ∧
  expand (Struct true (lit "AView") [] true (Unnamed [TView 0; TNoPath])) = XError.
Proof. done. Qed.
(** The attributes for derive(Borrow) and derive(IntoIter) go together: [default] is unknown here, so that it has to be
    in a second attribute, after item_field_skip. *)
Theorem C85_attributes_refuted :
  let make attrs := Struct true (lit "AView") [] true
    (Named [Field (lit "v_a") [] (TView 0); Field (lit "b") attrs (TPath true)]) in
  expand (make [Some [FOther; FSkip]]) = XError ∧ expand (make [Some [FOther]; Some [FSkip]]) = XError ∧
  expand (make [Some [FSkip]; Some [FOther]]) = XNamed (lit "A") [(lit "a", QView 0)] (QView 0) false.
Proof. done. Qed.

Print Assumptions C85_named.
Print Assumptions C85_tuple.
Print Assumptions C85_iterates.
Print Assumptions C85_panics_refuted.
Print Assumptions C85_compiles_refuted.
Print Assumptions C85_silent_refuted.
Print Assumptions C85_attributes_refuted.
