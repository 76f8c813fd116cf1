(** Proofs about the ordering loop of WorkloadInfo.v. *)
From Coq Require Import Sorted.
From stdpp Require Import prelude countable list gmap.
From Verif Require Import Sched SchedSpec SchedProofs SchedProofs2 WorkloadInfo WorkloadInfoSpec WorkloadInfoProofs.
Local Open Scope nat_scope.

(** ** Without the reported fields *)

Lemma batch_conflict_info_some b s : is_Some (batch_conflict_info b s) ↔ batch_conflict (erase b) s = true.
Proof.
  unfold batch_conflict_info, batch_conflict, erase. cbn [bi_single bi_par]. rewrite orb_true_iff.
  assert (H : is_Some (first_some (λ o, conflict_info s (p_index (i_sys o)) (p_borrows (i_sys o))) (ib_par b)) ↔
    existsb (λ o, check_conflict s (p_borrows o)) (map i_sys (ib_par b)) = true).
  { rewrite first_some_is, existsb_bool. split.
    - intros (o & Ho & H). exists (i_sys o). split; [by apply (elem_of_list_fmap_1 i_sys)|].
      by apply conflict_info_some in H.
    - intros (p & Hp & H). apply (elem_of_list_fmap_2 i_sys) in Hp as (o & -> & Ho). exists o.
      split; [done|]. by apply conflict_info_some. }
  destruct (ib_single b) as [o|]; cbn [fmap option_fmap option_map].
  - pose proof (conflict_info_some s (p_index (i_sys o)) (p_borrows (i_sys o))) as Ho.
    destruct (conflict_info s _ _) as [c|].
    + split; [|naive_solver]. intros _. left. apply Ho. eauto.
    + rewrite H. split; [auto|]. intros [Hc|]; [|done]. apply Ho in Hc. by destruct Hc.
  - rewrite H. naive_solver.
Qed.

Lemma map_upd_last {A B} (e : A → B) f g l :
  (∀ x, e (f x) = g (e x)) → map e (upd_last f l) = upd_last g (map e l).
Proof.
  intros H. induction l as [|x [|y l] IH]; [done| |].
  - cbn [upd_last map]. by rewrite H.
  - change (upd_last f (x :: y :: l)) with (x :: upd_last f (y :: l)).
    change (map e (x :: y :: l)) with (e x :: e y :: map e l).
    change (upd_last g (e x :: e y :: map e l)) with (e x :: upd_last g (e y :: map e l)).
    cbn [map]. f_equal. exact IH.
Qed.
Lemma last_erase info : default bi_empty (last (map erase info)) = erase (default ib_empty (last info)).
Proof. change (map erase info) with (erase <$> info). rewrite fmap_last. by destruct (last info). Qed.

Lemma i_place_erase info ba s :
  (map erase (i_place info ba s).1, (i_place info ba s).2) = place (map erase info) ba (i_sys s).
Proof.
  rewrite (surjective_pairing (place (map erase info) ba (i_sys s))).
  unfold i_place. cbn [fst snd]. f_equal.
  unfold place. rewrite last_erase.
  pose proof (batch_conflict_info_some (default ib_empty (last info)) (i_sys s)) as Hb.
  destruct (batch_conflict_info _ _) as [c|].
  - rewrite (proj1 Hb) by eauto. unfold push_batch. cbn [fst].
    replace (map erase info ++ [bi_empty]) with (map erase (info ++ [ib_empty])) by (by rewrite map_app).
    apply map_upd_last. intros b. cbn [with_conflict i_sys]. unfold erase.
    destruct (is_single (i_sys s)); cbn [ib_single ib_par bi_single bi_par]; [done|]. by rewrite map_app.
  - destruct (batch_conflict (erase (default ib_empty (last info))) (i_sys s)).
    { destruct (proj2 Hb) as [? ?]; done. }
    cbn [fst]. apply map_upd_last. intros b. unfold erase.
    destruct (is_single (i_sys s)); cbn [ib_single ib_par bi_single bi_par]; [done|]. by rewrite map_app.
Qed.

Lemma filter_sys (p : psys → bool) l :
  map i_sys (List.filter (λ s, p (i_sys s)) l) = List.filter p (map i_sys l).
Proof.
  induction l as [|s l IH]; cbn [List.filter map]; [done|]. destruct (p (i_sys s)); cbn [map]; by rewrite IH.
Qed.

(** [st'] is [st] without the reported fields. *)
Definition erases (st : iostate) (st' : ostate) : Prop :=
  o_rem st' = map i_sys (io_rem st) ∧ o_queue st' = map i_sys (io_queue st) ∧
  o_info st' = map erase (io_info st) ∧ o_ba st' = io_ba st ∧ o_del st' = io_del st.

Lemma i_pop_step_erases st st' s q :
  erases st st' → erases (i_pop_step st s q) (pop_step st' (i_sys s) (map i_sys q)).
Proof.
  intros (E1 & E2 & E3 & E4 & E5). unfold i_pop_step, pop_step.
  rewrite E1, E3, E4, E5.
  pose proof (i_place_erase (io_info st) (io_ba st) s) as Hp.
  destruct (i_place (io_info st) (io_ba st) s) as [info ba]. cbn [fst snd] in Hp. rewrite <-Hp.
  unfold i_extract, extract.
  assert (Hm : map (λ o, p_with (p_hard o) (retain_not (p_tags (i_sys s)) (p_soft o)) o) (map i_sys (io_rem st)) =
    map i_sys (map (λ o, with_sys o (p_with (p_hard (i_sys o)) (retain_not (p_tags (i_sys s)) (p_soft (i_sys o)))
      (i_sys o))) (io_rem st))) by (by rewrite !map_map).
  rewrite Hm. unfold erases. cbn [o_rem o_queue o_info o_ba o_del io_rem io_queue io_info io_ba io_del].
  split_and!; try done.
  - by rewrite (filter_sys (λ s, negb (is_free s))).
  - by rewrite map_app, (filter_sys is_free).
Qed.
Lemma i_pop_loop_erases fuel st st' :
  erases st st' →
  match i_pop_loop fuel st, pop_loop fuel st' with
  | Some r, Some r' => erases r r'
  | None, None => True
  | _, _ => False
  end.
Proof.
  revert st st'. induction fuel as [|fuel IH]; intros st st' H; pose proof H as (E1 & E2 & E3 & E4 & E5);
    cbn [i_pop_loop pop_loop]; rewrite E2; (destruct (io_queue st) as [|s q]; cbn [map]; [done|]).
  - done.
  - apply IH. by apply i_pop_step_erases.
Qed.
Lemma i_release_erases st st' :
  erases st st' →
  match i_release st, release st' with
  | inl r, inl r' => erases r r'
  | inr r, inr r' => erases r r'
  | _, _ => False
  end.
Proof.
  intros (E1 & E2 & E3 & E4 & E5). unfold i_release, release. rewrite E1, E3, E4, E5.
  unfold i_extract, extract.
  assert (Hm : map (λ o, p_with (retain_not (io_del st) (p_hard o)) (p_soft o) o) (map i_sys (io_rem st)) =
    map i_sys (map (λ o, with_sys o (p_with (retain_not (io_del st) (p_hard (i_sys o))) (p_soft (i_sys o))
      (i_sys o))) (io_rem st))) by (by rewrite !map_map).
  rewrite Hm. rewrite <-(filter_sys is_free), <-(filter_sys (λ s, negb (is_free s))).
  destruct (List.filter (λ s, is_free (i_sys s)) _) as [|x free] eqn:Ef; cbn [map].
  - unfold erases. cbn [o_rem o_queue o_info o_ba o_del io_rem io_queue io_info io_ba io_del]. split_and!; done.
  - unfold push_batch, erases. cbn [o_rem o_queue o_info o_ba o_del io_rem io_queue io_info io_ba io_del fst snd].
    split_and!; try done. by rewrite map_app.
Qed.
Lemma i_order_loop_erases fuel st st' :
  erases st st' →
  match i_order_loop fuel st, order_loop fuel st' with
  | Some r, Some r' => erases r r'
  | None, None => True
  | _, _ => False
  end.
Proof.
  revert st st'. induction fuel as [|fuel IH]; intros st st' H; cbn [i_order_loop order_loop]; [done|].
  assert (El : length (o_queue st') + length (o_rem st') = length (io_queue st) + length (io_rem st)).
  { destruct H as (E1 & E2 & _). by rewrite E1, E2, !map_length. }
  rewrite El. pose proof (i_pop_loop_erases (length (io_queue st) + length (io_rem st)) st st' H) as Hp.
  destruct (i_pop_loop _ st) as [r|], (pop_loop _ st') as [r'|]; try done.
  pose proof (i_release_erases r r' Hp) as Hr.
  destruct (i_release r) as [x|x], (release r') as [x'|x']; try done. by apply IH.
Qed.
Lemma i_order_erases l ba :
  match i_order_systems l ba, order_systems (map i_sys l) ba with
  | Some (inr (info, ba1)), Some (inr (info', ba2, _)) => info' = map erase info ∧ ba2 = ba1
  | Some (inl e), Some (inl e') => e = e'
  | None, None => True
  | _, _ => False
  end.
Proof.
  unfold i_order_systems, order_systems. destruct (decide (l = [])) as [->|Hne]; [done|].
  assert (Hm : ∀ A (x y : A), match l with [] => x | _ => y end = y) by (by destruct l).
  assert (Hm' : ∀ A (x y : A), match map i_sys l with [] => x | _ => y end = y) by (by destruct l).
  rewrite Hm, Hm'. unfold i_extract, extract, push_batch. cbn [fst snd app].
  set (l' := map (λ s, with_after (p_hard (i_sys s)) s) l).
  assert (El : map i_sys l' = map i_sys l) by (unfold l'; by rewrite map_map).
  assert (Ell : length l' = length l) by (unfold l'; by rewrite map_length).
  match goal with |- context [i_order_loop ?f ?s] => set (st := s); set (fuel := f) end.
  match goal with |- context [order_loop ?f ?s] => set (st' := s); replace f with fuel end.
  2:{ unfold fuel. by rewrite Ell, map_length. }
  assert (H : erases st st').
  { unfold erases, st, st'. cbn [o_rem o_queue o_info o_ba o_del io_rem io_queue io_info io_ba io_del].
    split_and!; try done; rewrite <-El; [by rewrite <-(filter_sys (λ s, negb (is_free s)))|by rewrite <-(filter_sys is_free)]. }
  pose proof (i_order_loop_erases fuel st st' H) as Hl.
  destruct (i_order_loop fuel st) as [r|], (order_loop fuel st') as [r'|]; try done.
  destruct Hl as (E1 & E2 & E3 & E4 & E5). rewrite E1. destruct (io_rem r) as [|x rem]; cbn [map]; [|done].
  by rewrite E3, E4.
Qed.

Lemma create_info_erases w sc :
  match create_info w sc, create_workload w sc with
  | Some (sc1, inr inf), Some (sc2, inr (info, ba, _)) =>
      sc1 = sc2 ∧ ∃ ii, i_order_systems (i_constrain (map i_new (insert_systems (wl_systems w) (sc_fns sc)).2) (wl_barriers w))
                          (ba_new (wl_run_if w)) = Some (inr (ii, ba)) ∧
        inf = map to_batch_info ii ∧ info = map erase ii
  | Some (sc1, inl e), Some (sc2, inl e') => sc1 = sc2 ∧ e = e'
  | None, None => True
  | _, _ => False
  end.
Proof.
  unfold create_info, create_workload. destruct (sc_workloads sc !! wl_name w); [done|].
  destruct (insert_systems (wl_systems w) (sc_fns sc)) as [f ps] eqn:E. cbn [snd].
  destruct (check_in ps) as [[i l]|]; [done|].
  assert (El : map i_sys (i_constrain (map i_new ps) (wl_barriers w)) = constrain ps (wl_barriers w)).
  { rewrite i_constrain_sys. f_equal. rewrite map_map. apply map_id. }
  rewrite El. destruct (check_before _) as [[i l]|]; [done|]. destruct (check_after _) as [[i l]|]; [done|].
  pose proof (i_order_erases (i_constrain (map i_new ps) (wl_barriers w)) (ba_new (wl_run_if w))) as H.
  rewrite El in H.
  destruct (i_order_systems _ _) as [[e|[info ba]]|], (order_systems _ _) as [[e'|[[info' ba'] order]]|]; try done.
  destruct H as [-> ->]. split; [done|]. exists info. done.
Qed.

(** ** The reported fields are those noted before, but for the conflict *)

Definition imembers (b : ibinfo) : list isys := option_list (ib_single b) ++ ib_par b.
Definition same_notes (s s0 : isys) : Prop :=
  i_after s = i_after s0 ∧ i_after_all s = i_after_all s0 ∧ i_before_all s = i_before_all s0 ∧
  core_eq (i_sys s) (i_sys s0).

Section order.
  Context (l0 : list isys).

  Definition orig (s : isys) : Prop :=
    ∃ s0, s0 ∈ l0 ∧ same_notes s s0 ∧ i_conflict s = i_conflict s0.
  (** An entry of batch [k] of [info]: its conflict was there before, or is with a system of the batch before. *)
  Definition reported (info : list ibinfo) (k : nat) (s : isys) : Prop :=
    ∃ s0, s0 ∈ l0 ∧ same_notes s s0 ∧
      (i_conflict s = i_conflict s0 ∨
       ∃ k' b o c, k = S k' ∧ info !! k' = Some b ∧ o ∈ imembers b ∧ i_conflict s = Some c ∧
         conflict_info (i_sys s) (p_index (i_sys o)) (p_borrows (i_sys o)) = Some c).
  Definition info_ok (info : list ibinfo) : Prop :=
    ∀ k b s, info !! k = Some b → s ∈ imembers b → reported info k s.
  Definition oinv (st : iostate) : Prop :=
    (∀ s, s ∈ io_rem st → orig s) ∧ (∀ s, s ∈ io_queue st → orig s) ∧ io_info st ≠ [] ∧ info_ok (io_info st).

  Lemma batch_conflict_info_member b s c : batch_conflict_info b s = Some c →
    ∃ o, o ∈ imembers b ∧ conflict_info s (p_index (i_sys o)) (p_borrows (i_sys o)) = Some c.
  Proof.
    unfold batch_conflict_info, imembers. intros H.
    destruct (ib_single b) as [o|]; cbn [option_list].
    - destruct (conflict_info s (p_index (i_sys o)) (p_borrows (i_sys o))) as [c'|] eqn:E.
      + injection H as <-. exists o. split; [by left|done].
      + apply first_some_elem in H as (o' & ? & ?). exists o'. split; [by right|done].
    - apply first_some_elem in H as (o' & ? & ?). exists o'. split; [done|done].
  Qed.

  Lemma orig_with s p : core_eq p (i_sys s) → orig s → orig (with_sys s p).
  Proof.
    intros Hc (s0 & H0 & (A & B & C & D) & E). exists s0. split; [done|]. split; [|done].
    refine (conj A (conj B (conj C _))). cbn [with_sys i_sys].
    destruct Hc as (? & ? & ? & ? & ? & ? & ?), D as (? & ? & ? & ? & ? & ? & ?). repeat split; congruence.
  Qed.
  Lemma p_with_core h so p : core_eq (p_with h so p) p.
  Proof. by repeat split. Qed.
  Lemma in_filter (p : isys → bool) l s : s ∈ List.filter p l → s ∈ l.
  Proof. rewrite !elem_of_list_In. intros H. by apply filter_In in H as [? _]. Qed.

  (** Adding an entry to the last batch. *)
  Lemma info_ok_add init b s :
    info_ok (init ++ [b]) →
    reported (init ++ [b]) (length init) s →
    info_ok (init ++ [if is_single (i_sys s) then {| ib_single := Some s; ib_par := ib_par b |}
                      else {| ib_single := ib_single b; ib_par := ib_par b ++ [s] |}]).
  Proof.
    set (b' := if is_single (i_sys s) then _ else _). intros H Hs k bk x Hk Hx.
    assert (Hmono : ∀ j y, reported (init ++ [b]) j y → j ≤ length init → reported (init ++ [b']) j y).
    { intros j y (s0 & H0 & Hn & Hc) Hj. exists s0. split; [done|]. split; [done|].
      destruct Hc as [Hc|(k' & bb & o & c & -> & Hb & Ho)]; [by left|]. right.
      exists k', bb, o, c. split; [done|]. split; [|done].
      rewrite lookup_app_l in Hb |- * by lia. done. }
    assert (k ≤ length init) as Hle.
    { apply lookup_lt_Some in Hk. rewrite app_length in Hk. cbn in Hk. lia. }
    apply Hmono; [|done]. destruct (decide (k = length init)) as [->|Hne].
    - rewrite list_lookup_middle in Hk by done. injection Hk as <-.
      assert (x = s ∨ x ∈ imembers b) as [->|Hxb].
      { unfold b' in Hx. revert Hx. unfold imembers. destruct (is_single (i_sys s)); cbn [ib_single ib_par option_list]; set_solver. }
      + done.
      + apply (H _ b); [by rewrite list_lookup_middle|done].
    - assert (k < length init) as Hlt by lia. rewrite lookup_app_l in Hk by done.
      apply (H k bk); [|done]. by rewrite lookup_app_l.
  Qed.
  Lemma info_ok_push info : info_ok info → info_ok (info ++ [ib_empty]).
  Proof.
    intros H k b s Hk Hs. apply lookup_app_Some in Hk as [Hk|[Hk1 Hk2]].
    - destruct (H k b s Hk Hs) as (s0 & H0 & Hn & Hc). exists s0. split; [done|]. split; [done|].
      destruct Hc as [Hc|(k' & bb & o & c & -> & Hb & Ho)]; [by left|]. right.
      exists k', bb, o, c. split; [done|]. split; [|done]. by apply lookup_app_l_Some.
    - apply list_lookup_singleton_Some in Hk2 as [_ <-]. by apply elem_of_nil in Hs.
  Qed.
  Lemma i_place_ok info ba s :
    info ≠ [] → info_ok info → orig s → info_ok (i_place info ba s).1 ∧ (i_place info ba s).1 ≠ [].
  Proof.
    intros Hne Hok (s0 & H0 & Hn & Hc). destruct (exists_last Hne) as (init & b & ->).
    unfold i_place. cbn [fst]. rewrite last_snoc. cbn [default from_option id].
    destruct (batch_conflict_info b (i_sys s)) as [c|] eqn:E.
    - rewrite upd_last_app. split; [|by destruct init].
      apply info_ok_add; [by apply info_ok_push|].
      destruct (batch_conflict_info_member b (i_sys s) c E) as (o & Ho & Hco).
      exists s0. split; [done|]. split; [exact Hn|]. right.
      exists (length init), b, o, c. cbn [with_conflict i_conflict i_sys].
      split; [rewrite app_length; cbn; lia|]. split; [|done].
      rewrite lookup_app_l; [by rewrite list_lookup_middle|]. rewrite app_length. cbn. lia.
    - rewrite upd_last_app. split; [|by destruct init].
      apply info_ok_add; [done|]. exists s0. split; [done|]. split; [exact Hn|]. by left.
  Qed.
  Lemma i_pop_step_inv st s q : oinv st → io_queue st = s :: q → oinv (i_pop_step st s q).
  Proof.
    intros (H1 & H2 & H3 & H4) Hq. unfold i_pop_step.
    destruct (i_place_ok (io_info st) (io_ba st) s H3 H4) as [G1 G2].
    { apply H2. rewrite Hq. by left. }
    destruct (i_place (io_info st) (io_ba st) s) as [info ba]. cbn [fst] in *. unfold i_extract.
    assert (Hr : ∀ x, x ∈ map (λ o, with_sys o (p_with (p_hard (i_sys o))
                   (retain_not (p_tags (i_sys s)) (p_soft (i_sys o))) (i_sys o))) (io_rem st) → orig x).
    { intros x Hx. apply (elem_of_list_fmap_2 _ (io_rem st)) in Hx as (y & -> & Hy).
      apply orig_with; [apply p_with_core|by apply H1]. }
    refine (conj _ (conj _ (conj G2 G1))); cbn [io_rem io_queue]; intros x Hx.
    - apply Hr. by apply in_filter in Hx.
    - apply elem_of_app in Hx as [Hx|Hx]; [apply H2; rewrite Hq; by right|]. apply Hr. by apply in_filter in Hx.
  Qed.
  Lemma i_pop_loop_inv fuel st r : oinv st → i_pop_loop fuel st = Some r → oinv r.
  Proof.
    revert st. induction fuel as [|fuel IH]; intros st H; cbn [i_pop_loop];
      (destruct (io_queue st) as [|s q] eqn:Eq; [by intros [= <-]|]); [done|].
    apply IH. by apply i_pop_step_inv.
  Qed.
  Lemma i_release_inv st : oinv st → match i_release st with inl r => oinv r | inr r => oinv r end.
  Proof.
    intros (H1 & H2 & H3 & H4). unfold i_release, i_extract.
    assert (Hr : ∀ x, x ∈ map (λ o, with_sys o (p_with (retain_not (io_del st) (p_hard (i_sys o)))
                   (p_soft (i_sys o)) (i_sys o))) (io_rem st) → orig x).
    { intros x Hx. apply (elem_of_list_fmap_2 _ (io_rem st)) in Hx as (y & -> & Hy).
      apply orig_with; [apply p_with_core|by apply H1]. }
    destruct (List.filter (λ s, is_free (i_sys s)) _) as [|x free] eqn:Ef.
    - refine (conj _ (conj _ (conj H3 H4))); cbn [io_rem io_queue]; intros y Hy.
      + apply Hr. by apply in_filter in Hy.
      + by apply elem_of_nil in Hy.
    - refine (conj _ (conj _ (conj _ _))); cbn [io_rem io_queue io_info].
      + intros y Hy. apply Hr. by apply in_filter in Hy.
      + intros y Hy. apply Hr. rewrite <-Ef in Hy. by apply in_filter in Hy.
      + by destruct (io_info st).
      + by apply info_ok_push.
  Qed.
  Lemma i_order_loop_inv fuel st r : oinv st → i_order_loop fuel st = Some r → oinv r.
  Proof.
    revert st. induction fuel as [|fuel IH]; intros st H; cbn [i_order_loop]; [done|].
    destruct (i_pop_loop _ st) as [x|] eqn:Ep; [|done]. pose proof (i_pop_loop_inv _ _ _ H Ep) as Hx.
    pose proof (i_release_inv x Hx) as Hr. destruct (i_release x) as [y|y]; [by intros [= <-]|].
    by apply IH.
  Qed.
End order.

Lemma i_order_reported l ba ii ba' :
  i_order_systems l ba = Some (inr (ii, ba')) →
  ∀ k b s, ii !! k = Some b → s ∈ imembers b →
    reported (map (λ s, with_after (p_hard (i_sys s)) s) l) ii k s.
Proof.
  unfold i_order_systems. destruct (decide (l = [])) as [->|Hne].
  { intros [= <- _] k b s Hk. by rewrite lookup_nil in Hk. }
  assert (Hm : ∀ A (x y : A), match l with [] => x | _ => y end = y) by (by destruct l).
  rewrite Hm. set (l' := map (λ s, with_after (p_hard (i_sys s)) s) l). unfold i_extract.
  match goal with |- context [i_order_loop ?f ?s] => set (st := s) end.
  destruct (i_order_loop _ st) as [r|] eqn:E; [|done].
  assert (oinv l' r) as (_ & _ & _ & H).
  { eapply i_order_loop_inv; [|exact E].
    assert (Ho : ∀ s, s ∈ l' → orig l' s).
    { intros s Hs. exists s. split; [done|]. split; [|done]. refine (conj eq_refl (conj eq_refl (conj eq_refl _))).
      apply core_eq_refl. }
    refine (conj _ (conj _ (conj _ _))); unfold st; cbn [io_rem io_queue io_info].
    - intros s Hs. apply Ho. by apply in_filter in Hs.
    - intros s Hs. apply Ho. by apply in_filter in Hs.
    - done.
    - intros k b s Hk Hs. apply (list_lookup_singleton_Some ib_empty) in Hk as [_ <-]. by apply elem_of_nil in Hs. }
  destruct (io_rem r); [|done]. intros [= <- _]. exact H.
Qed.
