(** Refinement of SparseSetSpec.v, second part: clear, drain, retain, sort, tracking switches. *)
From stdpp Require Import prelude list gmap sorting.
From Coq Require Import NArith.
From Verif Require Import EntityId Base SparseSet SparseSetSpec SparseSetProofs.
Open Scope N_scope.

Section more.
Context {T : Type}.
Implicit Types (s : sset T) (m : gmap eid (row T)) (a : sspec T).

(** * Contents as a list *)
Lemma dense_NoDup s : SI s -> NoDup (ss_dense s).
Proof. intros H. apply NoDup_getN. intros i j x Hi Hj. by eapply si_inj. Qed.
Lemma dense_idx_NoDup s : SI s -> NoDup (idx <$> ss_dense s).
Proof.
  intros H. apply NoDup_getN. intros i j x. rewrite !getN_lookup, !list_lookup_fmap, <- !getN_lookup.
  destruct (getN (ss_dense s) i) as [e1|] eqn:H1; [|done].
  destruct (getN (ss_dense s) j) as [e2|] eqn:H2; [|done]. cbn.
  intros [= <-] [= Hij]. symmetry in Hij. by eapply si_inj.
Qed.
Lemma vals_elem m e v : (e, v) ∈ vals m <-> ∃ r, m !! e = Some r ∧ r_val r = v.
Proof.
  unfold vals. rewrite elem_of_list_fmap. split.
  - intros ([e' r] & [= -> ->] & Hin). apply elem_of_map_to_list in Hin. eauto.
  - intros (r & Hm & <-). exists (e, r). split; [done|]. by apply elem_of_map_to_list.
Qed.
Lemma vals_fst m : (vals m).*1 = (map_to_list m).*1.
Proof. unfold vals. rewrite <- list_fmap_compose. by apply list_fmap_ext; intros ? [? ?]. Qed.
Lemma vals_NoDup_fst m : NoDup (vals m).*1.
Proof. rewrite vals_fst. apply NoDup_fst_map_to_list. Qed.
Lemma vals_NoDup m : NoDup (vals m).
Proof. eapply NoDup_fmap_1, vals_NoDup_fst. Qed.
Lemma vals_empty : vals (∅ : gmap eid (row T)) = [].
Proof. unfold vals. by rewrite map_to_list_empty. Qed.
Lemma vals_delete m e r : m !! e = Some r -> vals m ≡ₚ (e, r_val r) :: vals (delete e m).
Proof.
  intros Hm. unfold vals. rewrite <- (map_to_list_delete m e r Hm). done.
Qed.

Lemma zip_lookup_N {A B} (l : list A) (k : list B) i x y :
  getN (zip l k) i = Some (x, y) <-> getN l i = Some x ∧ getN k i = Some y.
Proof. rewrite !getN_lookup. rewrite lookup_zip_with_Some. naive_solver. Qed.

Lemma rows_vals s m : SI s -> SRows s m -> zip (ss_dense s) (ss_data s) ≡ₚ vals m.
Proof.
  intros HI HR. apply NoDup_Permutation.
  - apply NoDup_fmap_1 with (f := fst).
    rewrite fst_zip by (pose proof (si_data s HI); unfold lenN in *; lia). by apply dense_NoDup.
  - apply vals_NoDup.
  - intros [e v]. rewrite vals_elem, getN_elem. split.
    + intros [i Hi]. apply zip_lookup_N in Hi as [H1 H2].
      destruct (sr_row s m HR _ _ H1) as (r & Hr & Hv & _). exists r. split; [done|]. congruence.
    + intros (r & Hm & <-). destruct (sr_dom s m HR _ _ Hm) as [p Hp]. exists p.
      apply zip_lookup_N. split; [done|].
      destruct (sr_row s m HR _ _ Hp) as (r' & Hr' & Hv & _). congruence.
Qed.
Lemma dense_size s m : SI s -> SRows s m -> lenN (ss_dense s) = msize m.
Proof.
  intros HI HR. pose proof (rows_vals s m HI HR) as HP. apply Permutation_length in HP.
  rewrite zip_with_length_l in HP by (pose proof (si_data s HI); unfold lenN in *; lia).
  unfold lenN, msize. rewrite HP. unfold vals. rewrite fmap_length. done.
Qed.

(** * clear and drain *)
Lemma kill_slots_ok l sp :
  sa_wf sp -> (∀ e, e ∈ l -> is_Some (sa_get sp e)) ->
  ∃ sp', kill_slots l sp = Ok sp' ∧ sa_wf sp' ∧
    (∀ e', (∃ e, e ∈ l ∧ idx e = idx e') -> sa_get sp' e' = Some eid_dead) ∧
    (∀ e', (∀ e, e ∈ l -> idx e ≠ idx e') -> sa_get sp' e' = sa_get sp e').
Proof.
  revert sp. induction l as [|e l IH]; intros sp W Hl; cbn [kill_slots].
  - exists sp. split; [done|]. split; [done|]. split; [|done].
    intros e' (e & Hin & _). by apply elem_of_nil in Hin.
  - destruct (Hl e ltac:(left)) as [y Hy].
    destruct (sa_write_ok sp e y eid_dead W Hy) as (sp1 & -> & W1 & G1). cbn [rbind].
    destruct (IH sp1 W1) as (sp2 & -> & W2 & A2 & B2).
    { intros e' Hin. rewrite G1. destruct (_ =? _); [eauto|]. apply Hl. by right. }
    exists sp2. split; [done|]. split; [done|]. split.
    + intros e' (e0 & Hin & Hi). destruct (decide (Exists (λ e1, idx e1 = idx e') l)) as [Hex|Hnex].
      * apply Exists_exists in Hex as (e1 & H1 & H2). apply A2. eauto.
      * rewrite B2.
        -- apply elem_of_cons in Hin as [->|Hin].
           ++ by rewrite G1, Hi, N.eqb_refl.
           ++ exfalso. apply Hnex, Exists_exists. eauto.
        -- intros e1 H1 H2. apply Hnex, Exists_exists. eauto.
    + intros e' Hn. rewrite B2 by (intros e1 H1; apply Hn; by right). rewrite G1.
      destruct (N.eqb_spec (idx e') (idx e)) as [E|]; [|done].
      exfalso. eapply Hn; [left|]. done.
Qed.
Lemma kill_slots_SI s :
  SI s -> ∃ sp, kill_slots (ss_dense s) (ss_sparse s) = Ok sp ∧ sa_wf sp ∧
    ∀ e x, sa_get sp e = Some x -> x = eid_dead.
Proof.
  intros HI. destruct (kill_slots_ok (ss_dense s) (ss_sparse s) (si_wf s HI)) as (sp & E & W & A & B).
  { intros e [p Hp]%getN_elem. destruct (si_dense s HI _ _ Hp) as [-> _]. eauto. }
  exists sp. split; [done|]. split; [done|]. intros e x Hx.
  destruct (decide (Exists (λ e1, idx e1 = idx e) (ss_dense s))) as [Hex|Hnex].
  - apply Exists_exists in Hex as (e1 & H1 & H2). rewrite (A e) in Hx by eauto. congruence.
  - assert (∀ e1, e1 ∈ ss_dense s -> idx e1 ≠ idx e) as Hn.
    { intros e1 H1 H2. apply Hnex, Exists_exists. eauto. }
    rewrite (B e Hn) in Hx. destruct (si_sparse s HI _ _ Hx) as [->|Hd]; [done|].
    exfalso. eapply Hn; [eapply getN_elem; by eexists|done].
Qed.
Lemma emptied_SR s a sp dl rl :
  SR s a -> sa_wf sp -> (∀ e x, sa_get sp e = Some x -> x = eid_dead) ->
  SR (with_logs (with_rows s sp [] [] [] []) dl rl) (upd a ∅ dl rl).
Proof.
  intros [HI HR Hdel Hrem Hti Htm Htd Htr Hli Hlm] W D. split; cbn; try done.
  - split; cbn; try done.
    + by destruct (ss_ti s).
    + by destruct (ss_tm s).
    + intros p e. by rewrite getN_nil.
    + intros e x Hx. left. eauto.
  - split; cbn.
    + intros p e. by rewrite getN_nil.
    + intros e r. by rewrite lookup_empty.
Qed.
Lemma zip_with_as_fmap {A B C} (f : A -> B -> C) l k : zip_with f l k = (λ x, f x.1 x.2) <$> zip l k.
Proof. revert k. induction l as [|x l IH]; intros [|y k]; cbn; f_equal; auto. Qed.

Lemma ss_clear_SR s a t :
  SR s a -> ∃ s' a', ss_clear s t = Ok s' ∧ sp_step a (OClear t) a' EUnit ∧ SR s' a'.
Proof.
  intros HSR. destruct (kill_slots_SI s (sr_inv s a HSR)) as (sp & E & W & D).
  unfold ss_clear. rewrite E. cbn [rbind]. eexists _, _. split; [done|].
  split; [apply (SpClear a t (zip (ss_dense s) (ss_data s))), rows_vals; apply HSR|].
  rewrite (sr_td _ _ HSR), (sr_del _ _ HSR), (sr_rem _ _ HSR), zip_with_as_fmap.
  by apply emptied_SR.
Qed.

(** All elements of the draining iterator. *)
Fixpoint drain_all (n : nat) (d : drain T) : res (list (eid * T)) :=
  match n with
  | O => Ok []
  | S n =>
      rlet x := drain_next d in
      match x with
      | None => Ok []
      | Some (p, d') => rlet l := drain_all n d' in Ok (p :: l)
      end
  end.
Lemma drain_all_from dn (dt0 dt : list T) n :
  length dn = (length dt0 + length dt)%nat -> (length dt <= n)%nat ->
  drain_all n (Drain dn dt) = Ok (zip (drop (length dt0) dn) dt).
Proof.
  revert dt0 n. induction dt as [|c dt IH]; intros dt0 n HL Hn.
  - destruct n; cbn; by rewrite zip_with_nil_r.
  - destruct n as [|n]; [cbn in Hn; lia|]. cbn in HL. cbn [drain_all drain_next dr_data dr_dense].
    assert (lenN dn <? 1 + lenN dt = false) as ->.
    { apply N.ltb_ge. unfold lenN. lia. }
    assert (lenN dn - 1 - lenN dt = N.of_nat (length dt0)) as -> by (unfold lenN; lia).
    destruct (dn !! length dt0) as [e|] eqn:He.
    2:{ apply lookup_ge_None in He. lia. }
    unfold get_unchecked. rewrite getN_lookup, Nat2N.id, He. cbn [rbind].
    rewrite (IH (dt0 ++ [c]) n) by (rewrite ?app_length; cbn in *; lia). cbn [rbind].
    rewrite (drop_S _ _ _ He). cbn. do 3 f_equal. rewrite app_length. cbn. f_equal. lia.
Qed.
Lemma ss_drain_SR s a t :
  SR s a ->
  ∃ s' d, ss_drain s t = Ok (s', d) ∧
    drain_all (length (dr_data d)) d = Ok (zip (ss_dense s) (ss_data s)) ∧
    zip (ss_dense s) (ss_data s) ≡ₚ vals (sp_map a) ∧
    ∃ a', sp_step a (ODrain t) a' (EDrain (zip (ss_dense s) (ss_data s))) ∧ SR s' a'.
Proof.
  intros HSR. destruct (kill_slots_SI s (sr_inv s a HSR)) as (sp & E & W & D).
  unfold ss_drain. rewrite E. cbn [rbind]. eexists _, _. split; [done|].
  pose proof (si_data s (sr_inv s a HSR)) as HL. split.
  { cbn. rewrite (drain_all_from _ []); [done|cbn; unfold lenN in HL; lia|lia]. }
  assert (zip (ss_dense s) (ss_data s) ≡ₚ vals (sp_map a)) as HP by (apply rows_vals; apply HSR).
  split; [done|]. eexists. split; [by apply SpDrain|].
  rewrite (sr_tr _ _ HSR), (sr_del _ _ HSR), (sr_rem _ _ HSR).
  assert (map (λ e, (e, t)) (ss_dense s) =
          (λ x : eid * T, (x.1, t)) <$> zip (ss_dense s) (ss_data s)) as ->.
  { rewrite <- (fst_zip (ss_dense s) (ss_data s)) at 1 by (unfold lenN in HL; lia).
    change (map ?f ?l) with (f <$> l). by rewrite <- list_fmap_compose. }
  by apply emptied_SR.
Qed.

(** * retain *)
(** What the predicate is asked and what is done with its answers: [calls] are the rows in the
    order of the calls. *)
Fixpoint sp_retain {St} (f : St -> eid -> T -> St * bool * option T) (t : N) (st : St)
    (calls : list (eid * row T)) (m : gmap eid (row T)) : St * gmap eid (row T) * list (eid * T) :=
  match calls with
  | [] => (st, m, [])
  | (e, r) :: calls =>
      let '(st', keep, w) := f st e (r_val r) in
      let r' := match w with Some v => Row v (r_ins r) t | None => r end in
      if keep : bool then sp_retain f t st' calls (<[e := r']> m)
      else let '(st'', m', dr) := sp_retain f t st' calls (delete e m) in
           (st'', m', (e, r_val r') :: dr)
  end.

Lemma dyn_delete_dense s e t k s' b :
  SI s -> getN (ss_dense s) k = Some e -> dyn_delete s e t = Ok (s', b) ->
  lenN (ss_dense s') = lenN (ss_dense s) - 1 ∧
  ∀ j, j < k -> getN (ss_dense s') j = getN (ss_dense s) j.
Proof.
  intros HI Hk. unfold dyn_delete, actual_remove.
  destruct (si_dense s HI _ _ Hk) as [-> _]. cbn [idx gen fst snd].
  rewrite N.leb_refl, N.eqb_refl.
  destruct (swap_remove_ok _ _ _ Hk) as (dn & -> & L & Lp & G).
  destruct (sa_write (ss_sparse s) e eid_dead); cbn [rbind]; try done.
  destruct (if ss_ti s then _ else _); cbn [rbind]; try done.
  destruct (if ss_tm s then _ else _); cbn [rbind]; try done.
  destruct (swap_remove (ss_data s) k) as [[c dt]| |]; cbn [rbind]; try done.
  destruct (if k <? lenN dn then _ else _) as [sp| |]; cbn [rbind]; try done.
  intros [= <- <-].
  match goal with |- lenN (ss_dense ?x) = _ ∧ _ =>
    assert (ss_dense x = dn) as -> by (cbn; by destruct (ss_td s)) end.
  split; [done|].
  intros j Hj. rewrite G. pose proof (getN_Some_lt _ _ _ Hk) as Hlt.
  destruct (N.ltb_spec j (lenN (ss_dense s) - 1)); [|lia].
  destruct (N.eqb_spec j k); [lia|done].
Qed.

Definition log_del a (t : N) (dr : list (eid * T)) : list (eid * N * T) :=
  if sp_td a then sp_del a ++ ((λ x, (x.1, t, x.2)) <$> dr) else sp_del a.

Lemma map_to_list_take m e r :
  m !! e = Some r -> map_to_list m ≡ₚ (e, r) :: map_to_list (delete e m).
Proof. intros Hm. by rewrite <- (map_to_list_delete m e r Hm). Qed.

Lemma retain_mut_loop_SR {St} (f : St -> eid -> T -> St * bool * option T) t n :
  ∀ i removed st s a mu,
  SR s a -> removed <= i -> i - removed + N.of_nat n = lenN (ss_dense s) ->
  (∀ e r, mu !! e = Some r <->
          sp_map a !! e = Some r ∧ ∃ j, i - removed <= j ∧ getN (ss_dense s) j = Some e) ->
  ∃ s' st' calls m' dr,
    retain_mut_loop n i removed f st t s = Ok (s', st') ∧ calls ≡ₚ map_to_list mu ∧
    sp_retain f t st calls (sp_map a) = (st', m', dr) ∧
    SR s' (upd a m' (log_del a t dr) (sp_rem a)).
Proof.
  induction n as [|n IH]; intros i removed st s a mu HSR Hri Hn Hmu.
  - exists s, st, [], (sp_map a), []. split; [done|]. split.
    + assert (mu = ∅) as ->.
      { apply map_empty. intros e. destruct (mu !! e) as [r|] eqn:E; [|done].
        apply Hmu in E as [_ (j & Hj & Hg)]. apply getN_Some_lt in Hg. lia. }
      by rewrite map_to_list_empty.
    + split; [done|].
      assert (log_del a t [] = sp_del a) as ->.
      { unfold log_del. cbn. rewrite app_nil_r. by destruct (sp_td a). }
      destruct HSR. by split.
  - cbn [retain_mut_loop]. destruct (N.ltb_spec i removed) as [|_]; [lia|].
    set (k := i - removed) in *.
    destruct (getN_lt (ss_dense s) k) as [e He]; [lia|].
    destruct (sr_row s _ (sr_rows s a HSR) _ _ He) as (r & Hr & Hv & Hi & Hm).
    unfold get_unchecked at 1 2. rewrite He, Hv. cbn [rbind].
    destruct (f st e (r_val r)) as [[st1 keep] w] eqn:Ef.
    set (r' := match w with Some v => Row v (r_ins r) t | None => r end).
    set (s1 := match w with
               | Some v => with_rows s (ss_sparse s) (ss_dense s) (setN (ss_data s) k v)
                             (ss_ins s) (setN (ss_mod s) k t)
               | None => s end).
    assert (SR s1 (upd_map a (<[e := r']> (sp_map a)))) as HSR1.
    { pose proof HSR as [X1 X2 X3 X4 X5 X6 X7 X8 X9 X10]. subst s1 r'. destruct w as [v|].
      - split; cbn; try done.
        + eapply SI_same; [exact X1|..]; cbn; try done; by rewrite lenN_setN.
        + eapply SRows_update; [exact X1|exact X2|exact He|..]; cbn; try done.
          * intros Ht q. destruct (N.eqb_spec q k) as [->|]; [auto|done].
          * intros Ht q. rewrite getN_setN. pose proof (si_mod_some s k e X1 Ht He).
            destruct (N.ltb_spec k (lenN (ss_mod s))); [|lia]. by destruct (q =? k).
      - rewrite insert_id by done. by split. }
    assert (ss_dense s1 = ss_dense s) as Hd1 by (subst s1; by destruct w).
    assert (mu !! e = Some r) as Hmue.
    { apply Hmu. split; [done|]. exists k. split; [lia|done]. }
    destruct keep.
    + destruct (IH (i + 1) removed st1 s1 (upd_map a (<[e := r']> (sp_map a))) (delete e mu))
        as (s' & st' & calls & m' & dr & E1 & E2 & E3 & E4).
      * done.
      * lia.
      * rewrite Hd1. lia.
      * intros e2 r2. rewrite Hd1. cbn. rewrite lookup_delete_Some, Hmu. split.
        -- intros (Hne & Hm2 & j & Hj & Hg). rewrite lookup_insert_ne by done. split; [done|].
           exists j. split; [|done]. assert (j ≠ k) by (intros ->; congruence). lia.
        -- intros (Hm2 & j & Hj & Hg).
           assert (e ≠ e2) as Hne.
           { intros <-. assert (j = k); [|lia].
             exact (si_inj s _ _ _ _ (sr_inv s a HSR) Hg He eq_refl). }
           rewrite lookup_insert_ne in Hm2 by done. split; [done|]. split; [done|].
           exists j. split; [lia|done].
      * exists s', st', ((e, r) :: calls), m', dr. split; [done|]. split.
        { rewrite E2. symmetry. by apply map_to_list_take. }
        split; [|done]. cbn [sp_retain]. rewrite Ef. exact E3.
    + assert (handle_ok e) as Hok by apply (si_dense s (sr_inv s a HSR) _ _ He).
      destruct (dyn_delete_SR s1 (upd_map a (<[e := r']> (sp_map a))) e t HSR1 (proj2 Hok))
        as (s2 & b & a2 & E & Hstep & HSR2).
      rewrite E. cbn [rbind].
      assert (getN (ss_dense s1) k = Some e) as He1 by congruence.
      destruct (dyn_delete_dense s1 e t k s2 b (sr_inv _ _ HSR1) He1 E) as [L2 G2].
      assert (SR s2 (upd a (delete e (sp_map a)) (log_del a t [(e, r_val r')]) (sp_rem a))) as HSR2'.
      { inversion Hstep; subst; cbn in *.
        - match goal with H : <[e := r']> _ !! e = Some _ |- _ =>
            rewrite lookup_insert in H; injection H as <- end. rewrite delete_insert_delete in HSR2.
          unfold log_del. cbn. destruct HSR2; split; done.
        - match goal with H : <[e := r']> _ !! e = None |- _ => by rewrite lookup_insert in H end.
        - exfalso. match goal with H : is_Some (<[e := r']> _ !! ?e2) |- _ =>
            rewrite lookup_insert_ne in H by (intros <-; lia); destruct H as [rr Hrr];
            destruct (sr_dom s _ (sr_rows s a HSR) _ _ Hrr) as [q Hq];
            assert (q = k) as -> by (by eapply (si_inj s q k e2 e (sr_inv s a HSR)));
            assert (e2 = e) as -> by congruence; lia end. }
      set (a2' := upd a (delete e (sp_map a)) (log_del a t [(e, r_val r')]) (sp_rem a)) in *.
      destruct (IH (i + 1) (removed + 1) st1 s2 a2' (delete e mu))
        as (s' & st' & calls & m' & dr & E1 & E2 & E3 & E4).
      * done.
      * lia.
      * rewrite L2, Hd1. replace (i + 1 - (removed + 1)) with k by lia. lia.
      * replace (i + 1 - (removed + 1)) with k by lia.
        intros e2 r2. cbn. rewrite !lookup_delete_Some, Hmu. split.
        -- intros (Hne & Hm2 & j & Hj & Hg). split; [done|].
           destruct (sr_dom s2 _ (sr_rows s2 _ HSR2') e2 r2) as [q Hq].
           { cbn. by rewrite lookup_delete_ne. }
           exists q. split; [|done]. destruct (N.lt_ge_cases q k) as [Hlt|]; [|done].
           rewrite G2, Hd1 in Hq by done.
           pose proof (si_inj s q j e2 e2 (sr_inv s a HSR) Hq Hg eq_refl). lia.
        -- intros ((Hne & Hm2) & j & Hj & Hg). split; [done|]. split; [done|].
           destruct (sr_dom s _ (sr_rows s a HSR) _ _ Hm2) as [q Hq].
           exists q. split; [|done]. destruct (N.lt_ge_cases q k) as [Hlt|]; [|done].
           assert (getN (ss_dense s2) q = Some e2) as Hq2 by (rewrite G2, Hd1 by done; done).
           pose proof (si_inj s2 q j e2 e2 (sr_inv _ _ HSR2') Hq2 Hg eq_refl). lia.
      * exists s', st', ((e, r) :: calls), m', ((e, r_val r') :: dr).
        split; [done|]. split.
        { rewrite E2. symmetry. by apply map_to_list_take. }
        split.
        { cbn [sp_retain]. rewrite Ef. fold r'. cbn in E3. by rewrite E3. }
        assert (log_del a t ((e, r_val r') :: dr) = log_del a2' t dr) as ->.
        { subst a2'. unfold log_del. cbn. destruct (sp_td a); [|done]. by rewrite <- app_assoc. }
        destruct E4; by split.
Qed.

Lemma ss_retain_mut_SR {St} s a (f : St -> eid -> T -> St * bool * option T) st t :
  SR s a ->
  ∃ s' st' calls m' dr,
    ss_retain_mut s f st t = Ok (s', st') ∧ calls ≡ₚ map_to_list (sp_map a) ∧
    sp_retain f t st calls (sp_map a) = (st', m', dr) ∧
    SR s' (upd a m' (log_del a t dr) (sp_rem a)).
Proof.
  intros HSR. unfold ss_retain_mut. apply retain_mut_loop_SR; [done|lia|unfold lenN; lia|].
  intros e r. split; [|tauto]. intros Hm. split; [done|].
  destruct (sr_dom s _ (sr_rows s a HSR) _ _ Hm) as [p Hp]. exists p. split; [lia|done].
Qed.

(** [retain] is [retain_mut] with a callback that never writes. *)
Definition no_write {St} (f : St -> eid -> T -> St * bool) : St -> eid -> T -> St * bool * option T :=
  λ st e c, (f st e c, None).
Lemma retain_as_mut {St} (f : St -> eid -> T -> St * bool) t n :
  ∀ i removed st s, retain_loop n i removed f st t s = retain_mut_loop n i removed (no_write f) st t s.
Proof.
  induction n as [|n IH]; intros i removed st s; [done|]. cbn [retain_loop retain_mut_loop].
  destruct (i <? removed); [done|].
  destruct (get_unchecked (ss_dense s) _) as [e| |]; cbn [rbind]; [|done..].
  destruct (get_unchecked (ss_data s) _) as [c| |]; cbn [rbind]; [|done..].
  unfold no_write at 1. destruct (f st e c) as [st' keep]. destruct keep; [apply IH|].
  destruct (dyn_delete s e t) as [[s' b]| |]; cbn [rbind]; [apply IH|done..].
Qed.
Lemma ss_retain_SR {St} s a (f : St -> eid -> T -> St * bool) st t :
  SR s a ->
  ∃ s' st' calls m' dr,
    ss_retain s f st t = Ok (s', st') ∧ calls ≡ₚ map_to_list (sp_map a) ∧
    sp_retain (no_write f) t st calls (sp_map a) = (st', m', dr) ∧
    SR s' (upd a m' (log_del a t dr) (sp_rem a)).
Proof.
  intros HSR. unfold ss_retain. rewrite retain_as_mut. by apply (ss_retain_mut_SR s a (no_write f)).
Qed.

(** With a pure predicate. *)
Lemma sp_retain_pure (f : eid -> T -> bool) t calls : ∀ m st m' dr,
  NoDup calls.*1 -> (∀ e r, (e, r) ∈ calls -> m !! e = Some r) ->
  sp_retain (no_write (λ (_ : unit) e c, ((), f e c))) t () calls m = (st, m', dr) ->
  (∀ e, m' !! e = match m !! e with
                  | Some r => if decide (e ∈ calls.*1) then if f e (r_val r) then Some r else None
                              else Some r
                  | None => None end) ∧
  dr = (prod_map id r_val <$> filter (λ x, f x.1 (r_val x.2) = false) calls).
Proof.
  induction calls as [|[e r] calls IH]; intros m st m' dr Hnd Hin; cbn [sp_retain].
  - intros [= <- <- <-]. split; [|done]. intros e. destruct (m !! e); [|done].
    destruct (decide _) as [H|]; [by apply elem_of_nil in H|done].
  - cbn in Hnd. apply NoDup_cons in Hnd as [Hni Hnd].
    assert (m !! e = Some r) as Hme by (apply Hin; left).
    unfold no_write at 1. rewrite filter_cons. cbn [fst snd].
    change ((((e, r) :: calls).*1)) with (e :: calls.*1).
    assert (∀ e2, e2 ≠ e -> (e2 ∈ e :: calls.*1) <-> e2 ∈ calls.*1) as Hcons.
    { intros e2 Hne. rewrite elem_of_cons. naive_solver. }
    destruct (f e (r_val r)) eqn:Hf.
    + rewrite insert_id by done. intros HE.
      destruct (IH m st m' dr Hnd) as [I1 I2]; [intros; apply Hin; by right|done|].
      split; [|rewrite I2; by rewrite decide_False by done].
      intros e2. rewrite I1. destruct (m !! e2) as [r2|] eqn:Hm2; [|done].
      destruct (decide (e2 = e)) as [->|Hne].
      * rewrite decide_False by done. rewrite decide_True by left.
        assert (r2 = r) as -> by congruence. by rewrite Hf.
      * destruct (decide (e2 ∈ calls.*1)), (decide (e2 ∈ e :: calls.*1)); naive_solver.
    + destruct (sp_retain _ t () calls (delete e m)) as [[st2 m2] dr2] eqn:HE.
      intros [= <- <- <-].
      destruct (IH (delete e m) st2 m2 dr2 Hnd) as [I1 I2]; [|done|].
      { intros e2 r2 H. rewrite lookup_delete_ne.
        - apply Hin. by right.
        - intros <-. apply Hni. apply elem_of_list_fmap. by exists (e, r2). }
      split; [|rewrite I2; by rewrite decide_True by done].
      intros e2. rewrite I1. destruct (decide (e2 = e)) as [->|Hne].
      * rewrite lookup_delete, Hme. rewrite decide_True by left. by rewrite Hf.
      * rewrite lookup_delete_ne by done. destruct (m !! e2) as [r2|] eqn:Hm2; [|done].
        destruct (decide (e2 ∈ calls.*1)), (decide (e2 ∈ e :: calls.*1)); naive_solver.
Qed.
Lemma ss_retain_pure_SR s a (f : eid -> T -> bool) t :
  SR s a ->
  ∃ s' a', ss_retain s (λ (_ : unit) e c, ((), f e c)) () t = Ok (s', ()) ∧
           sp_step a (ORetain f t) a' EUnit ∧ SR s' a'.
Proof.
  intros HSR.
  destruct (ss_retain_SR s a (λ (_ : unit) e c, ((), f e c)) () t HSR)
    as (s' & [] & calls & m' & dr & E1 & E2 & E3 & E4).
  destruct (sp_retain_pure f t calls (sp_map a) () m' dr) as [I1 I2]; [..|done|].
  { rewrite E2. apply NoDup_fst_map_to_list. }
  { intros e r. rewrite E2. by rewrite elem_of_map_to_list. }
  assert (m' = filter (λ x, f x.1 (r_val x.2) = true) (sp_map a)) as ->.
  { apply map_eq. intros e. rewrite I1, map_filter_lookup.
    destruct (sp_map a !! e) as [r|] eqn:Hm; [|done]. cbn.
    rewrite decide_True by (rewrite E2; apply elem_of_list_fmap; exists (e, r); split; [done|];
                            by apply elem_of_map_to_list).
    destruct (f e (r_val r)); [by rewrite option_guard_True|by rewrite option_guard_False]. }
  eexists _, _. split; [done|]. split; [|exact E4]. unfold log_del. apply SpRetain.
  rewrite I2. unfold vals. apply Permutation_map.
  rewrite E2. apply NoDup_Permutation.
  - apply NoDup_filter, NoDup_map_to_list.
  - apply NoDup_map_to_list.
  - intros [e r]. rewrite elem_of_list_filter, !elem_of_map_to_list, map_filter_lookup_Some. tauto.
Qed.

(** * sort *)
(** [Follows tr i x vs p]: following [tr] from [x] while the position is below [i] visits [vs] and
    ends at [p]. *)
Inductive Follows (tr : list N) (i : N) : N -> list N -> N -> Prop :=
| FDone p : i <= p -> Follows tr i p [] p
| FStep x y vs p : x < i -> getN tr x = Some y -> Follows tr i y vs p -> Follows tr i x (x :: vs) p.

Lemma Follows_ge tr i x vs p : Follows tr i x vs p -> i <= p.
Proof. by induction 1. Qed.
Lemma Follows_det tr i x vs p : Follows tr i x vs p -> ∀ vs' p', Follows tr i x vs' p' -> vs = vs' ∧ p = p'.
Proof.
  induction 1 as [p Hp|x y vs p Hx Hy HF IH]; intros vs' p' H'; inversion H'; subst; try lia; [done|].
  assert (y0 = y) as -> by congruence. destruct (IH _ _ H1) as [-> ->]. done.
Qed.
Lemma Follows_below tr i x vs p v : Follows tr i x vs p -> v ∈ vs -> v < i.
Proof.
  induction 1; [by intros ?%elem_of_nil|]. intros [->|]%elem_of_cons; auto.
Qed.
Lemma Follows_suffix tr i x vs p v :
  Follows tr i x vs p -> v ∈ vs ->
  ∃ vs', Follows tr i v (v :: vs') p ∧ (length (v :: vs') <= length vs)%nat.
Proof.
  induction 1 as [|x y vs p Hx Hy HF IH]; [by intros ?%elem_of_nil|]. intros [->|Hin]%elem_of_cons.
  - exists vs. split; [by econstructor|done].
  - destruct (IH Hin) as (vs' & H1 & H2). exists vs'. split; [done|]. cbn in *. lia.
Qed.
Lemma Follows_NoDup tr i x vs p : Follows tr i x vs p -> NoDup vs.
Proof.
  induction 1 as [|x y vs p Hx Hy HF IH]; [constructor|]. constructor; [|done].
  intros Hin. destruct (Follows_suffix _ _ _ _ _ _ HF Hin) as (vs' & H1 & H2).
  destruct (Follows_det _ _ _ _ _ H1 (x :: vs) p) as [E _]; [by econstructor|].
  rewrite E in H2. cbn in H2. lia.
Qed.
Lemma Follows_length tr i x vs p : Follows tr i x vs p -> lenN vs <= i.
Proof.
  intros H. apply pigeon; [by eapply Follows_NoDup|].
  apply Forall_forall. intros v Hv. by eapply Follows_below.
Qed.
Lemma sort_follow_ok tr i x vs p fuel :
  Follows tr i x vs p -> (length vs <= fuel)%nat -> sort_follow fuel tr i x = Ok p.
Proof.
  intros H. revert fuel. induction H as [p Hp|x y vs p Hx Hy HF IH]; intros fuel Hf.
  - destruct fuel; cbn; by (destruct (N.ltb_spec p i); [lia|]).
  - destruct fuel as [|fuel]; [cbn in Hf; lia|]. cbn [sort_follow].
    destruct (N.ltb_spec x i); [|lia]. unfold get_unchecked. rewrite Hy. cbn [rbind].
    apply IH. cbn in Hf. lia.
Qed.
(** Enlarging [i] by one. *)
Lemma Follows_succ tr i x vs p : Follows tr i x vs p -> p ≠ i -> Follows tr (i + 1) x vs p.
Proof.
  induction 1 as [p Hp|x y vs p Hx Hy HF IH]; intros Hne; econstructor; eauto; lia.
Qed.
Lemma Follows_through tr i x vs y vs' p :
  Follows tr i x vs i -> getN tr i = Some y -> Follows tr (i + 1) y vs' p ->
  Follows tr (i + 1) x (vs ++ i :: vs') p.
Proof.
  intros H Hy H'. remember i as q eqn:Hq in H at 2. revert Hq.
  induction H as [p0 Hp0|x z vs p0 Hx Hz HF IH]; intros ->; cbn.
  - econstructor; [lia|done|done].
  - econstructor; [lia|done|auto].
Qed.

Definition is_perm (n : N) (tr : list N) : Prop := tr ≡ₚ (N.of_nat <$> seq 0 (N.to_nat n)).
Lemma is_perm_len n tr : is_perm n tr -> lenN tr = n.
Proof. intros H. apply Permutation_length in H. rewrite fmap_length, seq_length in H. unfold lenN. lia. Qed.
Lemma is_perm_lt n tr i x : is_perm n tr -> getN tr i = Some x -> x < n.
Proof.
  intros H Hi. assert (x ∈ tr) as Hin by (apply getN_elem; eauto).
  rewrite H in Hin. apply elem_of_list_fmap in Hin as (k & -> & Hk). apply elem_of_seq in Hk. lia.
Qed.
Lemma is_perm_inj n tr i j x : is_perm n tr -> getN tr i = Some x -> getN tr j = Some x -> i = j.
Proof.
  intros H Hi Hj.
  assert (NoDup tr) as Hnd.
  { rewrite H. apply NoDup_fmap_2; [intros ???; lia|]. apply NoDup_seq. }
  rewrite getN_lookup in Hi, Hj. assert (N.to_nat i = N.to_nat j); [|lia]. by eapply NoDup_lookup.
Qed.
Lemma is_perm_surj n tr x : is_perm n tr -> x < n -> ∃ i, getN tr i = Some x.
Proof.
  intros H Hx. apply getN_elem. rewrite H. apply elem_of_list_fmap. exists (N.to_nat x).
  split; [lia|]. apply elem_of_seq. lia.
Qed.

(** The four lists of [s'] are those of [s] read through [cur]. *)
Record Moved (n : N) (cur : N -> N) s s' : Prop := {
  mv_dense : ∀ j, j < n -> getN (ss_dense s') j = getN (ss_dense s) (cur j);
  mv_data : ∀ j, j < n -> getN (ss_data s') j = getN (ss_data s) (cur j);
  mv_ins : ss_ti s = true -> ∀ j, j < n -> getN (ss_ins s') j = getN (ss_ins s) (cur j);
  mv_mod : ss_tm s = true -> ∀ j, j < n -> getN (ss_mod s') j = getN (ss_mod s) (cur j);
  mv_ldense : lenN (ss_dense s') = lenN (ss_dense s);
  mv_ldata : lenN (ss_data s') = lenN (ss_data s);
  mv_lins : lenN (ss_ins s') = lenN (ss_ins s);
  mv_lmod : lenN (ss_mod s') = lenN (ss_mod s);
  mv_rest : s' = with_rows s (ss_sparse s) (ss_dense s') (ss_data s') (ss_ins s') (ss_mod s');
}.
Definition swap_fn (i p : N) (cur : N -> N) : N -> N :=
  λ j, if j =? p then cur i else if j =? i then cur p else cur j.

Lemma Moved_swap n cur s s' i p :
  SI s -> n = lenN (ss_dense s) -> Moved n cur s s' -> i < n -> p < n ->
  ∃ s'', sort_swap s' i p = Ok s'' ∧ Moved n (swap_fn i p cur) s s''.
Proof.
  intros HI -> [M1 M2 M3 M4 L1 L2 L3 L4 M5] Hi Hp. unfold sort_swap.
  assert (∀ {A} (l l' : list A), lenN l' = lenN l -> lenN l = lenN (ss_dense s) ->
    (∀ j, j < lenN (ss_dense s) -> getN l' j = getN l (cur j)) ->
    ∃ l'', swapN l' i p = Ok l'' ∧ lenN l'' = lenN l ∧
           ∀ j, j < lenN (ss_dense s) -> getN l'' j = getN l (swap_fn i p cur j)) as Hsw.
  { intros A l l' HL HL2 HG.
    destruct (getN_lt l' i) as [x Hx]; [lia|]. destruct (getN_lt l' p) as [y Hy]; [lia|].
    destruct (swapN_ok l' i p x y Hx Hy) as (l'' & E & L & G). exists l''. split; [done|].
    split; [lia|]. intros j Hj. rewrite G. unfold swap_fn.
    destruct (N.eqb_spec j p) as [->|]; [by rewrite <- HG|].
    destruct (N.eqb_spec j i) as [->|]; [by rewrite <- HG|]. by apply HG. }
  pose proof (si_ins s HI) as Ei. pose proof (si_mod s HI) as Em.
  assert (ss_ti s' = ss_ti s) as Et by (by rewrite M5).
  assert (ss_tm s' = ss_tm s) as Etm by (by rewrite M5).
  destruct (Hsw _ (ss_dense s) (ss_dense s') L1 eq_refl M1) as (dn & -> & Ld & Gd).
  destruct (Hsw _ (ss_data s) (ss_data s') L2 (si_data s HI) M2) as (dt & -> & Lt & Gt).
  cbn [rbind]. rewrite Et, Etm.
  assert (∃ im, (if ss_ti s then swapN (ss_ins s') i p else Ok (ss_ins s')) = Ok im ∧
     lenN im = lenN (ss_ins s) ∧
     (ss_ti s = true -> ∀ j, j < lenN (ss_dense s) -> getN im j = getN (ss_ins s) (swap_fn i p cur j)))
    as (im & -> & Li & Gi).
  { destruct (ss_ti s).
    - destruct (Hsw _ (ss_ins s) (ss_ins s') L3 Ei (M3 eq_refl)) as (im & -> & ? & ?). by exists im.
    - by exists (ss_ins s'). }
  assert (∃ mm, (if ss_tm s then swapN (ss_mod s') i p else Ok (ss_mod s')) = Ok mm ∧
     lenN mm = lenN (ss_mod s) ∧
     (ss_tm s = true -> ∀ j, j < lenN (ss_dense s) -> getN mm j = getN (ss_mod s) (swap_fn i p cur j)))
    as (mm & -> & Lm & Gm).
  { destruct (ss_tm s).
    - destruct (Hsw _ (ss_mod s) (ss_mod s') L4 Em (M4 eq_refl)) as (mm & -> & ? & ?). by exists mm.
    - by exists (ss_mod s'). }
  cbn [rbind]. eexists. split; [done|]. split; cbn; try done. rewrite M5. done.
Qed.

Lemma sort_loop_ok s tr n :
  SI s -> lenN (ss_dense s) = n -> is_perm n tr ->
  ∀ k i s' cur, i + N.of_nat k = n -> Moved n cur s s' ->
  (∀ j x, j < i -> getN tr j = Some x -> cur j = x) ->
  (∀ x, x < n -> (∀ j, j < i -> getN tr j ≠ Some x) ->
        ∃ vs p, Follows tr i x vs p ∧ p < n ∧ cur p = x) ->
  ∃ s'' cur', sort_loop k tr i s' = Ok s'' ∧ Moved n cur' s s'' ∧
    ∀ j x, j < n -> getN tr j = Some x -> cur' j = x.
Proof.
  intros HI Hn Hp. pose proof (is_perm_len _ _ Hp) as HL.
  induction k as [|k IH]; intros i s' cur Hik HM Hdone Hleft; cbn [sort_loop].
  - exists s', cur. split; [done|]. split; [done|]. intros j x Hj. apply Hdone. lia.
  - destruct (getN_lt tr i) as [x0 Hx0]; [lia|]. unfold get_unchecked at 1. rewrite Hx0. cbn [rbind].
    assert (∀ j, j < i -> getN tr j ≠ Some x0) as Hx0n.
    { intros j Hj E. assert (j = i) by (by eapply is_perm_inj). lia. }
    destruct (Hleft x0 (is_perm_lt _ _ _ _ Hp Hx0) Hx0n) as (vs0 & p0 & HF0 & Hp0 & Hc0).
    rewrite (sort_follow_ok _ _ _ _ _ _ HF0).
    2:{ pose proof (Follows_length _ _ _ _ _ HF0). unfold lenN in *. lia. }
    cbn [rbind].
    destruct (Moved_swap n cur s s' i p0 HI (eq_sym Hn) HM ltac:(lia) Hp0) as (s1 & -> & HM1).
    cbn [rbind]. pose proof (Follows_ge _ _ _ _ _ HF0) as Hge.
    apply (IH (i + 1) s1 (swap_fn i p0 cur)); [lia|done|..].
    + intros j x Hj Hx. unfold swap_fn. destruct (decide (j = i)) as [->|Hne].
      * assert (x = x0) as -> by congruence.
        destruct (N.eqb_spec i p0) as [->|]; [done|]. by rewrite N.eqb_refl.
      * destruct (N.eqb_spec j p0); [lia|]. destruct (N.eqb_spec j i); [lia|].
        apply Hdone; [lia|done].
    + intros x Hx Hxn.
      assert (x ≠ x0) as Hxx0. { intros ->. apply (Hxn i); [lia|done]. }
      destruct (Hleft x Hx) as (vs & p & HF & Hpn & Hc); [intros j Hj; apply Hxn; lia|].
      destruct (decide (p = i)) as [->|Hpi].
      * assert (p0 ≠ i) as Hp0i by congruence.
        exists (vs ++ i :: vs0), p0. split; [|split; [done|]].
        -- eapply Follows_through; [done|done|]. by apply Follows_succ.
        -- unfold swap_fn. rewrite N.eqb_refl. done.
      * exists vs, p. split; [by apply Follows_succ|]. split; [done|].
        unfold swap_fn. destruct (N.eqb_spec p p0) as [->|]; [congruence|].
        destruct (N.eqb_spec p i); done.
Qed.

Lemma sort_reindex_ok l : ∀ i sp,
  sa_wf sp -> NoDup (idx <$> l) -> i + lenN l <= INDEX_MASK ->
  (∀ e, e ∈ l -> ∃ p, sa_get sp e = Some (p, gen e)) ->
  ∃ sp', sort_reindex i l sp = Ok sp' ∧ sa_wf sp' ∧
    (∀ j e, getN l j = Some e -> sa_get sp' e = Some (i + j, gen e)) ∧
    (∀ e', (∀ e, e ∈ l -> idx e ≠ idx e') -> sa_get sp' e' = sa_get sp e').
Proof.
  induction l as [|e l IH]; intros i sp W Hnd Hlen Hl; cbn [sort_reindex].
  - exists sp. split; [done|]. split; [done|]. split; [|done]. intros j e. by rewrite getN_nil.
  - rewrite lenN_cons in Hlen. cbn in Hnd. apply NoDup_cons in Hnd as [Hni Hnd].
    destruct (Hl e ltac:(left)) as [p Hp]. unfold sa_get_unchecked. rewrite Hp. cbn [rbind].
    destruct (N.ltb_spec i INDEX_MASK); [|lia].
    destruct (sa_write_ok sp e _ (set_idx (p, gen e) i) W Hp) as (sp1 & -> & W1 & G1). cbn [rbind].
    assert (∀ e', e' ∈ l -> idx e' ≠ idx e) as Hne.
    { intros e' Hin E. apply Hni. apply elem_of_list_fmap. by exists e'. }
    destruct (IH (i + 1) sp1 W1 Hnd ltac:(lia)) as (sp2 & -> & W2 & A2 & B2).
    { intros e' Hin. rewrite G1. destruct (N.eqb_spec (idx e') (idx e)) as [E|]; [by apply Hne in E|].
      apply Hl. by right. }
    exists sp2. split; [done|]. split; [done|]. split.
    + intros j e' Hj. destruct (decide (j = 0)) as [->|Hj0].
      * cbn in Hj. injection Hj as <-. rewrite B2 by done. rewrite G1, N.eqb_refl.
        unfold set_idx. cbn. do 2 f_equal. lia.
      * rewrite (A2 (j - 1)); [do 2 f_equal; lia|].
        rewrite getN_lookup in Hj |- *. replace (N.to_nat j) with (S (N.to_nat (j - 1))) in Hj by lia.
        done.
    + intros e' Hn. rewrite B2 by (intros e1 H1; apply Hn; by right). rewrite G1.
      destruct (N.eqb_spec (idx e') (idx e)) as [E|]; [|done].
      exfalso. eapply Hn; [left|]. done.
Qed.

Lemma dense_len_max s : SI s -> lenN (ss_dense s) <= INDEX_MASK.
Proof.
  intros H. replace (lenN (ss_dense s)) with (lenN (idx <$> ss_dense s)) by (unfold lenN; by rewrite fmap_length).
  apply pigeon; [by apply dense_idx_NoDup|].
  apply Forall_forall. intros x (e' & -> & Hin)%elem_of_list_fmap.
  apply getN_elem in Hin as [p Hp]. apply (si_dense s H _ _ Hp).
Qed.

Lemma ss_sort_moved s tr :
  SI s -> is_perm (lenN (ss_dense s)) tr ->
  ∃ s' cur, ss_sort s tr = Ok s' ∧
    (∀ j, j < lenN (ss_dense s) -> getN tr j = Some (cur j)) ∧
    (∀ j, j < lenN (ss_dense s) -> getN (ss_dense s') j = getN (ss_dense s) (cur j)) ∧
    (∀ j, j < lenN (ss_dense s) -> getN (ss_data s') j = getN (ss_data s) (cur j)) ∧
    (ss_ti s = true -> ∀ j, j < lenN (ss_dense s) -> getN (ss_ins s') j = getN (ss_ins s) (cur j)) ∧
    (ss_tm s = true -> ∀ j, j < lenN (ss_dense s) -> getN (ss_mod s') j = getN (ss_mod s) (cur j)) ∧
    lenN (ss_dense s') = lenN (ss_dense s) ∧
    s' = with_rows s (ss_sparse s') (ss_dense s') (ss_data s') (ss_ins s') (ss_mod s') ∧
    SI s'.
Proof.
  intros HI Hp. pose proof (is_perm_len _ _ Hp) as HL. unfold ss_sort.
  destruct (sort_loop_ok s tr (lenN (ss_dense s)) HI eq_refl Hp (length tr) 0 s id)
    as (s1 & cur & E & [M1 M2 M3 M4 L1 L2 L3 L4 M5] & Hcur).
  { unfold lenN in *. lia. }
  { split; try done. by destruct s. }
  { intros. lia. }
  { intros x Hx _. exists [], x. split; [constructor; lia|done]. }
  rewrite E. cbn [rbind].
  assert (∀ j, j < lenN (ss_dense s) -> getN tr j = Some (cur j)) as Hcur'.
  { intros j Hj. destruct (getN_lt tr j) as [x Hx]; [lia|]. by rewrite (Hcur j x). }
  assert (∀ j, j < lenN (ss_dense s) -> cur j < lenN (ss_dense s)) as Hcl.
  { intros j Hj. eapply is_perm_lt; [done|by apply Hcur']. }
  assert (∀ q, q < lenN (ss_dense s) -> ∃ j, j < lenN (ss_dense s) ∧ cur j = q) as Hcs.
  { intros q Hq. destruct (is_perm_surj _ _ _ Hp Hq) as [j Hj]. exists j.
    pose proof (getN_Some_lt _ _ _ Hj). split; [lia|]. apply Hcur; [lia|done]. }
  assert (ss_sparse s1 = ss_sparse s) as Hsp by (by rewrite M5).
  assert (∀ e, e ∈ ss_dense s1 <-> e ∈ ss_dense s) as Helem.
  { intros e. rewrite !getN_elem. split.
    - intros [j Hj]. pose proof (getN_Some_lt _ _ _ Hj). rewrite M1 in Hj by lia. eauto.
    - intros [q Hq]. destruct (Hcs q) as (j & Hj & <-); [by eapply getN_Some_lt|].
      exists j. by rewrite M1. }
  assert (∀ i j e e', getN (ss_dense s1) i = Some e -> getN (ss_dense s1) j = Some e' -> idx e = idx e' -> i = j) as Hinj.
  { intros i j e e' Hi Hj Hx. pose proof (getN_Some_lt _ _ _ Hi). pose proof (getN_Some_lt _ _ _ Hj).
    rewrite M1 in Hi, Hj by lia. pose proof (si_inj s _ _ _ _ HI Hi Hj Hx) as Hc.
    eapply is_perm_inj; [exact Hp|rewrite Hcur' by lia; done|rewrite Hcur' by lia; by rewrite Hc]. }
  destruct (sort_reindex_ok (ss_dense s1) 0 (ss_sparse s1)) as (sp & -> & W & A & B).
  { rewrite Hsp. apply HI. }
  { apply NoDup_getN. intros i j x. rewrite !getN_lookup, !list_lookup_fmap, <- !getN_lookup.
    destruct (getN (ss_dense s1) i) as [e1|] eqn:H1; [|done].
    destruct (getN (ss_dense s1) j) as [e2|] eqn:H2; [|done]. cbn.
    intros [= <-] [= Hij]. symmetry in Hij. by eapply Hinj. }
  { rewrite L1. pose proof (dense_len_max s HI). lia. }
  { intros e He. rewrite Hsp. apply Helem, getN_elem in He as [p Hpp].
    exists p. apply (si_dense s HI _ _ Hpp). }
  cbn [rbind]. eexists _, cur. split; [done|]. cbn.
  split; [done|]. split; [done|]. split; [done|]. split; [done|]. split; [done|]. split; [done|].
  split; [by rewrite M5|].
  assert (ss_ti s1 = ss_ti s ∧ ss_tm s1 = ss_tm s) as [Et Etm] by (by rewrite M5).
  split; cbn; rewrite ?L1, ?L2, ?L3, ?L4, ?Et, ?Etm; try apply HI; try done.
  - intros p e Hpp. split; [by apply (A p)|]. 
    assert (e ∈ ss_dense s) as He by (apply Helem, getN_elem; eauto).
    apply getN_elem in He as [q Hq]. apply (si_dense s HI _ _ Hq).
  - intros e x Hx.
    destruct (decide (Exists (λ e1, idx e1 = idx e) (ss_dense s1))) as [Hex|Hnex].
    + apply Exists_exists in Hex as (e1 & H1 & H2). apply getN_elem in H1 as [j Hj].
      rewrite <- (sa_get_idx _ _ _ H2), (A j e1 Hj) in Hx. injection Hx as <-. right.
      cbn [idx gen fst snd]. rewrite N.add_0_l, Hj, <- H2. by destruct e1.
    + assert (∀ e1, e1 ∈ ss_dense s1 -> idx e1 ≠ idx e) as Hn.
      { intros e1 H1 H2. apply Hnex, Exists_exists. eauto. }
      rewrite (B e Hn), Hsp in Hx. destruct (si_sparse s HI _ _ Hx) as [->|Hd]; [by left|].
      exfalso. eapply Hn; [apply Helem, getN_elem; by eexists|done].
Qed.
Lemma ss_sort_SR s a tr :
  SR s a -> is_perm (lenN (ss_dense s)) tr -> ∃ s', ss_sort s tr = Ok s' ∧ SR s' a.
Proof.
  intros HSR Hp. pose proof HSR as [HI HR Hdel Hrem Hti Htm Htd Htr Hli Hlm].
  destruct (ss_sort_moved s tr HI Hp) as (s' & cur & E & Hcur & M1 & M2 & M3 & M4 & L & M5 & HI').
  exists s'. split; [done|].
  split; [done| |rewrite M5; done..].
  assert (ss_ti s' = ss_ti s ∧ ss_tm s' = ss_tm s) as [Et Etm] by (by rewrite M5).
  split.
  - intros p e Hpp. pose proof (getN_Some_lt _ _ _ Hpp) as Hlt. rewrite L in Hlt.
    rewrite M1 in Hpp by done. destruct (sr_row s _ HR _ _ Hpp) as (r & Hr & Hv & Hi & Hm).
    exists r. rewrite M2, Et, Etm by done. split; [done|]. split; [done|].
    split; intros Ht; [rewrite M3|rewrite M4]; auto.
  - intros e r Hm. destruct (sr_dom s _ HR _ _ Hm) as [q Hq].
    pose proof (getN_Some_lt _ _ _ Hq) as Hlt.
    destruct (is_perm_surj _ _ _ Hp Hlt) as [j Hj]. exists j.
    pose proof (getN_Some_lt _ _ _ Hj) as Hjl. rewrite (is_perm_len _ _ Hp) in Hjl.
    rewrite M1 by done. rewrite Hcur in Hj by done. injection Hj as ->. done.
Qed.

(** * Tracking switches and logs *)
Lemma SR_flags s a ti tm td tr im mm m :
  SR s a ->
  lenN im = (if ti : bool then lenN (ss_dense s) else 0) ->
  lenN mm = (if tm : bool then lenN (ss_dense s) else 0) ->
  (∀ p e, getN (ss_dense s) p = Some e ->
    ∃ r, m !! e = Some r ∧ getN (ss_data s) p = Some (r_val r) ∧
         (ti = true -> getN im p = Some (r_ins r)) ∧
         (tm = true -> getN mm p = Some (r_mod r))) ->
  (∀ e, is_Some (m !! e) -> is_Some (sp_map a !! e)) ->
  SR (with_flags s ti tm td tr im mm) (upd_flags a m ti tm td tr).
Proof.
  intros [HI HR Hdel Hrem Hti Htm Htd Htr Hli Hlm] L1 L2 Hrow Hdom. split; cbn; try done.
  - destruct HI. split; cbn; done.
  - split; cbn; [done|]. intros e r Hm. destruct (Hdom e) as [r' Hr']; [eauto|].
    by apply (sr_dom s _ HR _ _ Hr').
Qed.
Lemma enable_tracking_SR s a ti tm td tr :
  SR s a ->
  ∃ a', sp_step a (OTrack ti tm td tr) a' EUnit ∧ SR (enable_tracking s ti tm td tr) a'.
Proof.
  intros HSR. eexists. split; [apply SpTrack|].
  pose proof HSR as [HI HR Hdel Hrem Hti Htm Htd Htr Hli Hlm].
  set (im := if ti && negb (ss_ti s) then ss_ins s ++ replicate (length (ss_dense s)) 0 else ss_ins s).
  set (mm := if tm && negb (ss_tm s) then ss_mod s ++ replicate (length (ss_dense s)) 0 else ss_mod s).
  assert (enable_tracking s ti tm td tr =
          with_flags s (ss_ti s || ti) (ss_tm s || tm) (ss_td s || td) (ss_tr s || tr) im mm) as ->.
  { unfold enable_tracking, track_insertion, track_modification, track_deletion, track_removal, im, mm.
    destruct s as [? ? ? ? ? ? ? ? ? fi fm fd fr ? ?]; cbn.
    destruct ti, fi, tm, fm, td, fd, tr, fr; done. }
  rewrite <- Hti, <- Htm, <- Htd, <- Htr.
  assert (∀ {A} (l : list A), lenN l = 0 -> l = []) as Hnil.
  { intros A [|x l]; [done|]. rewrite lenN_cons. lia. }
  pose proof (si_ins s HI) as Ei. pose proof (si_mod s HI) as Em.
  apply SR_flags; [done|..].
  - subst im. destruct ti, (ss_ti s); cbn; rewrite ?lenN_app, Ei; try done.
    unfold lenN. rewrite replicate_length. lia.
  - subst mm. destruct tm, (ss_tm s); cbn; rewrite ?lenN_app, Em; try done.
    unfold lenN. rewrite replicate_length. lia.
  - intros p e Hp. destruct (sr_row s _ HR _ _ Hp) as (r & Hr & Hv & Hi & Hm).
    eexists. rewrite lookup_fmap, Hr. cbn. split; [done|]. cbn. split; [done|].
    pose proof (getN_Some_lt _ _ _ Hp) as Hlt.
    assert (∀ l, lenN l = 0 -> getN (l ++ replicate (length (ss_dense s)) 0) p = Some 0) as Hz.
    { intros l Hl. rewrite getN_app_r, Hl, N.sub_0_r by lia. rewrite getN_replicate.
      unfold lenN in Hlt. destruct (N.ltb_spec p (N.of_nat (length (ss_dense s)))); [done|lia]. }
    split.
    + subst im. destruct ti, (ss_ti s); cbn; intros; auto; done.
    + subst mm. destruct tm, (ss_tm s); cbn; intros; auto; done.
  - intros e. rewrite lookup_fmap. by rewrite fmap_is_Some.
Qed.
Lemma SR_with_last s a li lm : SR s a -> SR (with_last s li lm) (upd_last a li lm).
Proof.
  intros [X1 X2 X3 X4 X5 X6 X7 X8 X9 X10]. split; cbn in *; try done.
  - by eapply SI_same.
  - by eapply SRows_same.
Qed.
Lemma SR_with_logs s a dl rl : SR s a -> SR (with_logs s dl rl) (upd a (sp_map a) dl rl).
Proof.
  intros H. apply (SR_logs s a (sp_map a)). destruct H. by split.
Qed.
End more.
