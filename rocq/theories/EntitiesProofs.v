(** The allocator model refines the specification of EntitiesSpec.v. *)
From stdpp Require Import prelude list gmap.
From Coq Require Import NArith Lia.
From Verif Require Import EntityId EntityIdProofs Base Entities EntitiesSpec.
Open Scope N_scope.

Lemma max_idx_lt : max_idx < INDEX_MASK. Proof. reflexivity. Qed.
Lemma INDEX_MASK_max : INDEX_MASK = max_idx + 1. Proof. reflexivity. Qed.

(** Where the k-th element of the queue links to. *)
Definition link_of (q : list eid) (k : nat) : N :=
  match q !! S k with Some h => idx h | None => max_idx end.

Definition chain (d : list eid) (q : list eid) : Prop :=
  forall k h, q !! k = Some h -> getN d (idx h) = Some (link_of q k, gen h).

(** (last, first) of the queue. *)
Definition ends (q : list eid) : option (N * N) :=
  match last q, head q with Some l, Some h => Some (idx l, idx h) | _, _ => None end.

Record R (s : entities) (a : aspec) : Prop := mkR {
  R_len : lenN (e_data s) = a_next a;
  R_cap : lenN (e_data s) < max_idx;
  R_live : forall e, e ∈ a_live a <-> getN (e_data s) (idx e) = Some e;
  R_chain : chain (e_data s) (a_ready a);
  R_nodup : NoDup (idx <$> a_ready a);
  R_part : forall i e, getN (e_data s) i = Some e -> idx e = i \/ i ∈ (idx <$> a_ready a);
  R_list : e_list s = ends (a_ready a);
}.

Lemma last_cons_Some {A} (h : A) q : exists l, last (h :: q) = Some l /\ l ∈ h :: q.
Proof.
  destruct (last (h :: q)) as [l|] eqn:E.
  - exists l. split; [done|]. apply last_Some in E as [l' ->]. set_solver.
  - by apply last_None in E.
Qed.

Lemma ends_cons h q l : last (h :: q) = Some l -> ends (h :: q) = Some (idx l, idx h).
Proof. intros H. unfold ends. by rewrite H. Qed.

Lemma ends_snoc q x : ends (q ++ [x]) = Some (idx x, match q with [] => idx x | h :: _ => idx h end).
Proof.
  unfold ends. rewrite last_snoc. by destruct q.
Qed.

Lemma ends_None q : ends q = None -> q = [].
Proof.
  destruct q as [|h q]; [done|]. destruct (last_cons_Some h q) as (l & Hl & _).
  by rewrite (ends_cons _ _ _ Hl).
Qed.

Lemma idx_nodup_inj (q : list eid) i j hi hj :
  NoDup (idx <$> q) -> q !! i = Some hi -> q !! j = Some hj -> idx hi = idx hj -> i = j.
Proof.
  intros Hnd Hi Hj He. eapply NoDup_lookup; [exact Hnd| |].
  - rewrite list_lookup_fmap, Hi. reflexivity.
  - rewrite list_lookup_fmap, Hj. cbn. by rewrite He.
Qed.

Section R_facts.
  Context (s : entities) (a : aspec) (HR : R s a).

  Lemma R_ready_lt k h : a_ready a !! k = Some h -> idx h < lenN (e_data s).
  Proof. intros H%(R_chain _ _ HR). by apply getN_Some_lt in H. Qed.

  (** The link of a ready slot is never the slot itself. *)
  Lemma R_link_ne k h : a_ready a !! k = Some h -> link_of (a_ready a) k ≠ idx h.
  Proof.
    intros H. unfold link_of. destruct (a_ready a !! S k) as [h'|] eqn:E.
    - intros He. pose proof (idx_nodup_inj _ _ _ _ _ (R_nodup _ _ HR) E H He). lia.
    - pose proof (R_ready_lt _ _ H). pose proof (R_cap _ _ HR). lia.
  Qed.

  Lemma R_live_not_ready e : e ∈ a_live a -> idx e ∉ (idx <$> a_ready a).
  Proof.
    intros He Hin. apply elem_of_list_fmap in Hin as (h & Hidx & Hh).
    apply elem_of_list_lookup in Hh as [k Hk].
    apply (R_live _ _ HR) in He. pose proof (R_chain _ _ HR _ _ Hk) as Hc.
    rewrite <- Hidx in Hc. rewrite He in Hc. injection Hc as Hc.
    apply (R_link_ne _ _ Hk). rewrite Hc in Hidx. cbn in Hidx. done.
  Qed.

  Lemma R_is_alive e : is_alive s e = true <-> e ∈ a_live a.
  Proof.
    rewrite (R_live _ _ HR). unfold is_alive.
    destruct (getN (e_data s) (idx e)) as [x|]; [|done].
    rewrite bool_decide_eq_true. split; [intros ->; done|intros [= ->]; done].
  Qed.

  Lemma R_live_or_ready i : i < lenN (e_data s) ->
    (exists e, e ∈ a_live a /\ idx e = i /\ getN (e_data s) i = Some e) \/
    (exists k h, a_ready a !! k = Some h /\ idx h = i).
  Proof.
    intros Hi. destruct (getN_lt _ _ Hi) as [e He].
    destruct (R_part _ _ HR _ _ He) as [Hself|Hin].
    - left. exists e. split; [|done]. apply (R_live _ _ HR). by rewrite Hself.
    - right. apply elem_of_list_fmap in Hin as (h & Hidx & Hh).
      apply elem_of_list_lookup in Hh as [k Hk]. eauto.
  Qed.

  Lemma R_data_wf_idx i e : getN (e_data s) i = Some e -> idx e < INDEX_MASK.
  Proof.
    intros He. pose proof (getN_Some_lt _ _ _ He) as Hi. pose proof (R_cap _ _ HR) as Hc.
    destruct (R_part _ _ HR _ _ He) as [->|Hin]; [rewrite INDEX_MASK_max; lia|].
    apply elem_of_list_fmap in Hin as (h & -> & Hh).
    apply elem_of_list_lookup in Hh as [k Hk].
    rewrite (R_chain _ _ HR _ _ Hk) in He. injection He as <-. cbn.
    unfold link_of. destruct (a_ready a !! S k) as [h'|] eqn:E; [|apply max_idx_lt].
    pose proof (R_ready_lt _ _ E). rewrite INDEX_MASK_max. lia.
  Qed.
End R_facts.

(** ** Creation *)

Lemma chain_tail d h q : chain d (h :: q) -> chain d q.
Proof. intros H k x Hx. apply (H (S k) x Hx). Qed.

Lemma chain_setN d q i x : i ∉ (idx <$> q) -> chain d q -> chain (setN d i x) q.
Proof.
  intros Hi H k h Hk. rewrite getN_setN_ne; [by apply H|].
  intros ->. apply Hi. apply elem_of_list_fmap_1. by eapply elem_of_list_lookup_2.
Qed.

Lemma generate_R s a : R s a ->
  lenN (e_data s) + 1 < max_idx ->
  exists s' ev e a', generate s = Ok (s', e) /\ ev = Created [e] /\ a_step a OCreate ev a' /\ R s' a'
    /\ e_log s' = e_log s.
Proof.
  intros HR Hcap. unfold generate. rewrite (R_list _ _ HR).
  destruct (a_ready a) as [|h q] eqn:Hq.
  - (* new slot *)
    cbn [ends last head].
    assert (Hlt : lenN (e_data s) <? INDEX_MASK = true).
    { apply N.ltb_lt. rewrite INDEX_MASK_max. lia. }
    cbv zeta. rewrite Hlt. do 4 eexists. split; [reflexivity|]. split; [reflexivity|].
    split; [|split; [|reflexivity]].
    { unfold eid_new. rewrite (R_len _ _ HR). by apply A_create_new. }
    unfold eid_new. constructor; cbn [e_data e_list a_next a_ready a_live].
    + rewrite lenN_app, (R_len _ _ HR). unfold lenN. cbn. lia.
    + rewrite lenN_app. unfold lenN at 2. cbn. lia.
    + intros e. rewrite elem_of_union, elem_of_singleton, (R_live _ _ HR).
      destruct (N.lt_ge_cases (idx e) (lenN (e_data s))) as [Hlo|Hhi].
      * rewrite getN_app_l by done. split; [|by right].
        intros [->|?]; [|done]. cbn in Hlo. rewrite (R_len _ _ HR) in Hlo. lia.
      * rewrite getN_app_r by done. rewrite (getN_ge (e_data s)) by done.
        split.
        -- intros [->|?]; [|done]. cbn [idx fst].
           rewrite (R_len _ _ HR), N.sub_diag. reflexivity.
        -- destruct (decide (idx e = lenN (e_data s))) as [Heq|Hne].
           ++ rewrite Heq, N.sub_diag. cbn. intros [= <-]. left. by rewrite (R_len _ _ HR).
           ++ rewrite getN_ge; [done|]. unfold lenN at 1. cbn. lia.
    + intros k x Hx. rewrite lookup_nil in Hx. done.
    + constructor.
    + intros i e He. destruct (N.lt_ge_cases i (lenN (e_data s))) as [Hlo|Hhi].
      * rewrite getN_app_l in He by done. destruct (R_part _ _ HR _ _ He) as [?|Hin]; [by left|].
        rewrite Hq in Hin. cbn in Hin. by apply elem_of_nil in Hin.
      * rewrite getN_app_r in He by done. left.
        pose proof (getN_Some_lt _ _ _ He) as Hl. unfold lenN at 2 in Hl. cbn in Hl.
        assert (Hz : i - lenN (e_data s) = 0) by lia. rewrite Hz in He. cbn in He.
        injection He as <-. cbn. lia.
    + reflexivity.
  - (* recycled slot *)
    destruct (last_cons_Some h q) as (l & Hl & Hlin).
    rewrite (ends_cons _ _ _ Hl).
    assert (Hd : getN (e_data s) (idx h) = Some (link_of (h :: q) 0, gen h)).
    { rewrite <- Hq. apply (R_chain _ _ HR). by rewrite Hq. }
    assert (Hidx : idx h <? INDEX_MASK = true).
    { apply N.ltb_lt. pose proof (getN_Some_lt _ _ _ Hd). rewrite INDEX_MASK_max. lia. }
    pose proof (getN_Some_lt _ _ _ Hd) as Hlt.
    pose proof (R_nodup _ _ HR) as Hnd. rewrite Hq, fmap_cons, NoDup_cons in Hnd.
    destruct Hnd as [Hnin Hnd].
    assert (Hlink : (if idx l =? idx h then Ok None
                     else rlet e := get_unchecked (e_data s) (idx h) in
                          Ok (Some (idx l, idx e)))
                    = Ok (ends q)).
    { destruct q as [|h' q'].
      - injection Hl as <-. by rewrite N.eqb_refl.
      - rewrite (proj2 (N.eqb_neq _ _)).
        + unfold get_unchecked. rewrite Hd. cbn [rbind idx fst link_of lookup list_lookup].
          by rewrite (ends_cons h' q' l).
        + intros He. apply Hnin. rewrite <- He. apply elem_of_list_fmap_1.
          change (last (h' :: q') = Some l) in Hl. apply last_Some in Hl as [l' ->]. set_solver. }
    rewrite Hlink. cbn [rbind]. unfold set_index_at. rewrite Hd, Hidx. cbn [rbind].
    unfold get_unchecked. rewrite getN_setN_eq by done. cbn [rbind].
    assert (Hh : set_idx (link_of (h :: q) 0, gen h) (idx h) = h) by (by destruct h).
    rewrite Hh. do 4 eexists. split; [reflexivity|]. split; [reflexivity|].
    split; [by apply A_create_recycle|]. split; [|reflexivity].
    constructor; cbn [e_data e_list a_next a_ready a_live].
    + rewrite lenN_setN. apply HR.
    + rewrite lenN_setN. lia.
    + intros e. rewrite elem_of_union, elem_of_singleton, (R_live _ _ HR).
      destruct (decide (idx e = idx h)) as [Heq|Hne].
      * rewrite Heq, getN_setN_eq by done. rewrite Hd. split.
        -- intros [->|Hbad]; [done|]. exfalso. injection Hbad as Hbad.
           pose proof (R_link_ne _ _ HR 0%nat h) as Hln. rewrite Hq in Hln.
           apply Hln; [done|]. rewrite <- Heq. rewrite <- Hbad. done.
        -- intros [= ->]. by left.
      * rewrite getN_setN_ne by done. split; [|by right]. intros [->|?]; done.
    + apply chain_setN; [done|]. pose proof (R_chain _ _ HR) as Hc. rewrite Hq in Hc.
      by eapply chain_tail.
    + done.
    + intros i e. destruct (decide (i = idx h)) as [->|Hne].
      * rewrite getN_setN_eq by done. intros [= <-]. by left.
      * rewrite getN_setN_ne by done. intros He. destruct (R_part _ _ HR _ _ He) as [?|Hin]; [by left|].
        rewrite Hq, fmap_cons, elem_of_cons in Hin. naive_solver.
    + done.
Qed.

(** ** Bulk creation *)

Lemma a_fresh_lookup start n k :
  a_fresh start n !! k = if decide (k < n)%nat then Some (start + N.of_nat k, 0) else None.
Proof.
  revert start k. induction n as [|n IH]; intros start k; [done|].
  destruct k as [|k]; cbn.
  - rewrite decide_True by lia. f_equal. f_equal. lia.
  - rewrite IH. destruct (decide (k < n)%nat).
    + rewrite decide_True by lia. do 2 f_equal. lia.
    + rewrite decide_False by lia. done.
Qed.
Lemma a_fresh_length start n : length (a_fresh start n) = n.
Proof. revert start. induction n as [|n IH]; intros; [done|]. cbn. by rewrite IH. Qed.

Lemma new_ids_fresh start n : new_ids start n = a_fresh start n.
Proof.
  apply list_eq. intros k. unfold new_ids. rewrite list_lookup_fmap, a_fresh_lookup.
  destruct (decide (k < n)%nat).
  - rewrite lookup_seq_lt by done. done.
  - rewrite lookup_seq_ge by lia. done.
Qed.

Lemma a_fresh_elem start n e :
  e ∈ a_fresh start n <-> start <= idx e < start + N.of_nat n /\ gen e = 0.
Proof.
  rewrite elem_of_list_lookup. split.
  - intros [k Hk]. rewrite a_fresh_lookup in Hk. destruct (decide (k < n)%nat); [|done].
    injection Hk as <-. cbn. lia.
  - intros [Hi Hg]. exists (N.to_nat (idx e - start)). rewrite a_fresh_lookup.
    rewrite decide_True by lia. destruct e as [i g]; cbn in *. do 2 f_equal; [lia|done].
Qed.

Lemma getN_fresh start n i :
  getN (a_fresh start n) i = if decide (i < N.of_nat n) then Some (start + i, 0) else None.
Proof.
  rewrite getN_lookup, a_fresh_lookup. destruct (decide (i < N.of_nat n)).
  - rewrite decide_True by lia. do 2 f_equal. lia.
  - rewrite decide_False by lia. done.
Qed.

Lemma chain_app d d' q : chain d q -> chain (d ++ d') q.
Proof.
  intros H k h Hk. specialize (H k h Hk). rewrite getN_app_l; [done|]. by apply getN_Some_lt in H.
Qed.

Lemma bulk_generate_R s a n : R s a ->
  lenN (e_data s) + N.of_nat n < max_idx ->
  exists s' es a', bulk_generate s n = Ok (s', es) /\ a_step a (OBulk n) (Created es) a' /\ R s' a'
    /\ e_log s' = e_log s.
Proof.
  intros HR Hcap. unfold bulk_generate.
  assert (Hle : lenN (e_data s) + N.of_nat n <=? INDEX_MASK = true).
  { apply N.leb_le. rewrite INDEX_MASK_max. lia. }
  cbv zeta. rewrite Hle. do 3 eexists. split; [reflexivity|].
  split; [rewrite new_ids_fresh, (R_len _ _ HR); apply A_bulk|]. split; [|reflexivity].
  rewrite new_ids_fresh.
  assert (Hlf : lenN (a_fresh (lenN (e_data s)) n) = N.of_nat n)
    by (unfold lenN at 1; by rewrite a_fresh_length).
  constructor; cbn [e_data e_list a_next a_ready a_live].
  - rewrite lenN_app, Hlf. by rewrite (R_len _ _ HR).
  - rewrite lenN_app, Hlf. lia.
  - intros e. rewrite elem_of_union, elem_of_list_to_set, a_fresh_elem, (R_live _ _ HR).
    destruct (N.lt_ge_cases (idx e) (lenN (e_data s))) as [Hlo|Hhi].
    + rewrite getN_app_l by done. split; [|by right]. intros [[? ?]|?]; [|done].
      rewrite <- (R_len _ _ HR) in *. lia.
    + rewrite getN_app_r by done. rewrite (getN_ge (e_data s)) by done.
      rewrite getN_fresh, <- (R_len _ _ HR). destruct (decide (_ < _)).
      * split.
        -- intros [[? Hg]|?]; [|done]. destruct e; cbn in *. do 2 f_equal; [lia|done].
        -- intros [= He]. left. rewrite <- He. cbn. lia.
      * split; [|done]. intros [[? ?]|?]; [|done]. lia.
  - apply chain_app, HR.
  - apply HR.
  - intros i e He. destruct (N.lt_ge_cases i (lenN (e_data s))) as [Hlo|Hhi].
    + rewrite getN_app_l in He by done. by apply (R_part _ _ HR).
    + rewrite getN_app_r, getN_fresh in He by done. destruct (decide (_ < _)); [|done].
      injection He as <-. left. cbn. lia.
  - apply HR.
Qed.

(** ** Deletion *)

Lemma link_of_snoc_lt q x k h : q !! S k = Some h -> link_of (q ++ [x]) k = link_of q k.
Proof. intros H. unfold link_of. by rewrite (lookup_app_l_Some _ _ _ _ H), H. Qed.

Lemma delete_R s a e : R s a ->
  exists s' b a', delete_unchecked s e = Ok (s', b) /\ a_step a (ODelete e) (Deleted e b) a' /\ R s' a'
    /\ e_log s' = e_log s ++ (if b then [e] else []).
Proof.
  intros HR. unfold delete_unchecked.
  destruct (is_alive s e) eqn:Hal; cycle 1.
  { exists s, false, a. split; [done|]. split; [|split; [done|by rewrite app_nil_r]].
    apply A_delete_not_live. rewrite <- (R_is_alive _ _ HR), Hal. done. }
  apply (R_is_alive _ _ HR) in Hal.
  pose proof (proj1 (R_live _ _ HR e) Hal) as Hd.
  pose proof (getN_Some_lt _ _ _ Hd) as Hlt. pose proof (R_cap _ _ HR) as Hcap.
  pose proof (R_live_not_ready _ _ HR _ Hal) as Hnr.
  unfold get_unchecked. rewrite Hd. cbn [rbind].
  unfold bump. change (MAX_GEN - 1) with last_gen.
  destruct (N.ltb_spec (gen e) last_gen) as [Hg|Hg]; cycle 1.
  { cbn [rbind]. exists (Entities (e_data s) (e_list s) (e_log s ++ [e])), true, a.
    split; [done|]. split; [by apply A_delete_exhausted|]. split; [|done].
    destruct HR; constructor; done. }
  assert (Hmi : max_idx <? INDEX_MASK = true) by reflexivity.
  assert (Hei : idx e <? INDEX_MASK = true) by (apply N.ltb_lt; rewrite INDEX_MASK_max; lia).
  set (q := a_ready a) in *.
  (* the resulting data *)
  assert (Hres : exists d', 
    match e_list s with
          | Some (new, o) =>
              rlet d1 := set_index_at (setN (e_data s) (idx e) (idx e, gen e + 1)) new (idx e) in
              rlet d2 := set_index_at d1 (idx e) max_idx in
              Ok (Entities d2 (Some (idx e, o)) (e_log s))
          | None =>
              rlet d1 := set_index_at (setN (e_data s) (idx e) (idx e, gen e + 1)) (idx e) max_idx in
              Ok (Entities d1 (Some (idx e, idx e)) (e_log s))
          end = Ok (Entities d' (ends (q ++ [(idx e, gen e + 1)])) (e_log s))
     /\ lenN d' = lenN (e_data s)
     /\ getN d' (idx e) = Some (max_idx, gen e + 1)
     /\ (forall l, last q = Some l -> getN d' (idx l) = Some (idx e, gen l))
     /\ (forall i, i ≠ idx e -> (forall l, last q = Some l -> i ≠ idx l) -> getN d' i = getN (e_data s) i)).
  { rewrite (R_list _ _ HR), ends_snoc. fold q. destruct q as [|h q'] eqn:Eq.
    - cbn [ends last head]. unfold set_index_at. rewrite getN_setN_eq by done. rewrite Hmi.
      cbn [rbind]. eexists. split; [reflexivity|].
      split; [by rewrite !lenN_setN|]. split; [by rewrite getN_setN_eq by by rewrite lenN_setN|].
      split; [done|]. intros i Hi _. by rewrite !getN_setN_ne by done.
    - destruct (last_cons_Some h q') as (l & Hl & Hlin). rewrite (ends_cons _ _ _ Hl).
      assert (Hle : idx l ≠ idx e).
      { intros He. apply Hnr. rewrite <- He. by apply elem_of_list_fmap_1. }
      assert (Hdl : getN (e_data s) (idx l) = Some (max_idx, gen l)).
      { apply last_Some in Hl as [l' Hl'].
        assert (Hk : a_ready a !! length l' = Some l).
        { fold q. rewrite Eq, Hl'. by apply list_lookup_middle. }
        rewrite (R_chain _ _ HR _ _ Hk). do 2 f_equal. unfold link_of. fold q. rewrite Eq, Hl'.
        rewrite lookup_ge_None_2; [done|]. rewrite app_length. cbn. lia. }
      pose proof (getN_Some_lt _ _ _ Hdl) as Hll.
      unfold set_index_at at 1. rewrite getN_setN_ne, Hdl, Hei by done. cbn [rbind].
      unfold set_index_at. rewrite getN_setN_ne by done. rewrite getN_setN_eq by done.
      rewrite Hmi. cbn [rbind]. eexists. split; [reflexivity|].
      split; [by rewrite !lenN_setN|].
      split; [by rewrite getN_setN_eq by by rewrite !lenN_setN|].
      split.
      + intros l0 [= <-]%(eq_trans (eq_sym Hl)). rewrite getN_setN_ne by done.
        rewrite getN_setN_eq by by rewrite lenN_setN. done.
      + intros i Hi Hil. specialize (Hil _ Hl). by rewrite !getN_setN_ne by done. }
  destruct Hres as (d' & -> & Hlen & Hde & Hdl & Hdo). cbn [rbind e_data e_list e_log].
  do 3 eexists. split; [reflexivity|]. split; [by apply A_delete|]. split; [|reflexivity].
  fold q.
  assert (Hlast_in : forall l, last q = Some l -> idx l ∈ (idx <$> q)).
  { intros l Hl. apply elem_of_list_fmap_1. apply last_Some in Hl as [l' ->]. set_solver. }
  constructor; cbn [e_data e_list a_next a_ready a_live].
  - rewrite Hlen. apply HR.
  - rewrite Hlen. apply HR.
  - intros x. rewrite elem_of_difference, elem_of_singleton.
    destruct (decide (idx x = idx e)) as [Heq|Hne].
    + rewrite Heq, Hde. split.
      * intros [Hx Hxe]. apply (R_live _ _ HR) in Hx. rewrite Heq in Hx. congruence.
      * intros [= Hx]. exfalso. rewrite <- Hx in Heq. cbn in Heq. lia.
    + destruct (decide (idx x ∈ idx <$> q)) as [Hin|Hnin].
      * split.
        -- intros [Hx _]. exfalso. by eapply R_live_not_ready.
        -- intros Hx. exfalso.
           apply elem_of_list_fmap in Hin as (h & Hidx & Hh).
           apply elem_of_list_lookup in Hh as [k Hk].
           destruct (decide (last q = Some h)) as [Hl|Hl].
           ++ rewrite Hidx, (Hdl _ Hl) in Hx. injection Hx as Hx. rewrite <- Hx in Hne. done.
           ++ rewrite Hdo in Hx; [|done|].
              ** rewrite Hidx, (R_chain _ _ HR _ _ Hk) in Hx. injection Hx as Hx.
                 apply (R_link_ne _ _ HR _ _ Hk). rewrite <- Hidx. by rewrite <- Hx.
              ** intros l Hl' Hc. apply Hl. rewrite Hl'. f_equal.
                 rewrite Hidx in Hc.
                 pose proof Hl' as Hl2. apply last_Some in Hl2 as [l' Hl2].
                 assert (Hk' : q !! length l' = Some l) by (rewrite Hl2; by apply list_lookup_middle).
                 pose proof (idx_nodup_inj _ _ _ _ _ (R_nodup _ _ HR) Hk Hk' Hc) as ->.
                 fold q in Hk. congruence.
      * rewrite Hdo; [rewrite (R_live _ _ HR); naive_solver|done|].
        intros l Hl Hc. apply Hnin. rewrite Hc. by apply Hlast_in.
  - (* chain *)
    intros k h Hk. apply lookup_app_Some in Hk as [Hk|[Hge Hk]].
    + assert (Hhe : idx h ≠ idx e).
      { intros He. apply Hnr. rewrite <- He. apply elem_of_list_fmap_1. by eapply elem_of_list_lookup_2. }
      destruct (q !! S k) as [h'|] eqn:E.
      * rewrite (link_of_snoc_lt _ _ _ _ E). rewrite Hdo; [by apply (R_chain _ _ HR)|done|].
        intros l Hl Hc. apply last_Some in Hl as [l' Hl].
        assert (Hk' : q !! length l' = Some l) by (rewrite Hl; by apply list_lookup_middle).
        pose proof (idx_nodup_inj _ _ _ _ _ (R_nodup _ _ HR) Hk Hk' Hc) as ->.
        apply lookup_lt_Some in E. rewrite Hl, app_length in E. cbn in E. lia.
      * assert (Hl : last q = Some h).
        { rewrite last_lookup. apply lookup_ge_None in E. pose proof (lookup_lt_Some _ _ _ Hk).
          by replace (pred (length q)) with k by lia. }
        rewrite (Hdl _ Hl). do 2 f_equal. unfold link_of.
        apply lookup_ge_None in E. pose proof (lookup_lt_Some _ _ _ Hk).
        rewrite lookup_app_r by lia. by replace (S k - length q)%nat with 0%nat by lia.
    + apply list_lookup_singleton_Some in Hk as [Hk <-]. cbn [idx gen fst snd].
      rewrite Hde. do 2 f_equal. unfold link_of. rewrite lookup_ge_None_2; [done|].
      rewrite app_length. cbn. lia.
  - rewrite fmap_app, NoDup_app. split; [apply HR|]. split; [|apply NoDup_singleton].
    intros x Hx. cbn. rewrite elem_of_list_singleton. intros ->. done.
  - intros i x Hx. rewrite fmap_app, elem_of_app. cbn. rewrite elem_of_list_singleton.
    destruct (decide (i = idx e)) as [->|Hne]; [by auto|].
    destruct (decide (i ∈ idx <$> q)) as [Hin|Hnin]; [by auto|].
    rewrite Hdo in Hx; [|done|].
    + destruct (R_part _ _ HR _ _ Hx); [by left|by auto].
    + intros l Hl ->. by apply Hnin, Hlast_in.
  - reflexivity.
Qed.

(** ** Spawn *)

Lemma find_pred_ok d q new target j :
  chain d q -> NoDup (idx <$> q) ->
  (idx <$> last q) = Some new ->
  (idx <$> q !! S j) = Some target ->
  forall m fuel k h, (k + m = j)%nat -> (m < fuel)%nat -> q !! k = Some h ->
  exists p, q !! j = Some p /\ find_pred fuel d target new (idx h) = Ok (idx p).
Proof.
  intros Hc Hnd Hnew Ht. induction m as [|m IH]; intros fuel k h Hk Hf Hh.
  - assert (k = j) as -> by lia. exists h. split; [done|].
    destruct fuel as [|fuel]; [lia|]. cbn. unfold get_index. rewrite (Hc _ _ Hh). cbn [rbind idx fst].
    unfold link_of. destruct (q !! S j) as [t|]; [|done]. injection Ht as ->.
    by rewrite N.eqb_refl.
  - destruct fuel as [|fuel]; [lia|]. cbn. unfold get_index. rewrite (Hc _ _ Hh). cbn [rbind idx fst].
    destruct (q !! S j) as [t|] eqn:Et; [|done]. injection Ht as Ht.
    assert (Hlt : (S k < length q)%nat) by (apply lookup_lt_Some in Et; lia).
    destruct (lookup_lt_is_Some_2 _ _ Hlt) as [h' Hh'].
    unfold link_of. rewrite Hh'.
    assert (H1 : idx h' =? target = false).
    { apply N.eqb_neq. rewrite <- Ht. intros Heq.
      pose proof (idx_nodup_inj _ _ _ _ _ Hnd Hh' Et Heq). lia. }
    assert (H2 : idx h' =? new = false).
    { apply N.eqb_neq. intros Heq. destruct (last q) as [l|] eqn:El; [|done]. injection Hnew as Hnew.
      rewrite last_lookup in El. rewrite <- Hnew in Heq.
      pose proof (idx_nodup_inj _ _ _ _ _ Hnd Hh' El Heq).
      apply lookup_lt_Some in Et. lia. }
    rewrite H1, H2. cbn [orb]. apply (IH fuel (S k) h'); [lia|lia|done].
Qed.

Lemma link_of_bound d q k : chain d q -> lenN d < max_idx -> link_of q k < INDEX_MASK.
Proof.
  intros Hc Hcap. unfold link_of. destruct (q !! S k) as [h|] eqn:E; [|apply max_idx_lt].
  apply Hc, getN_Some_lt in E. rewrite INDEX_MASK_max. lia.
Qed.

Lemma unlink_ok d q1 t q2 new old :
  chain d (q1 ++ t :: q2) -> NoDup (idx <$> (q1 ++ t :: q2)) -> lenN d < max_idx ->
  ends (q1 ++ t :: q2) = Some (new, old) ->
  (forall k h, (q1 ++ t :: q2) !! k = Some h -> link_of (q1 ++ t :: q2) k ≠ idx h) ->
  exists d', unlink d new old (idx t) = Ok (d', ends (q1 ++ q2)) /\
    lenN d' = lenN d /\ chain d' (q1 ++ q2) /\
    (forall i, i ∉ (idx <$> q1) -> getN d' i = getN d i).
Proof.
  intros Hc Hnd Hcap Hends Hself. unfold unlink.
  destruct q1 as [|h q1].
  - (* first of the queue *)
    cbn [app] in *. destruct (last_cons_Some t q2) as (l & Hl & Hlin).
    rewrite (ends_cons _ _ _ Hl) in Hends. injection Hends as <- <-.
    rewrite N.eqb_refl. pose proof (Hc 0%nat t eq_refl) as Hd.
    destruct q2 as [|h' q2'].
    + injection Hl as <-. rewrite N.eqb_refl. exists d. split; [done|]. split; [done|].
      split; [by eapply chain_tail|]. done.
    + rewrite (proj2 (N.eqb_neq _ _)).
      * unfold get_index. rewrite Hd. cbn [rbind idx fst]. unfold link_of. cbn [lookup list_lookup].
        exists d. rewrite (ends_cons h' q2' l) by done. split; [done|]. split; [done|].
        split; [by eapply chain_tail|]. done.
      * intros He. rewrite fmap_cons, NoDup_cons in Hnd. destruct Hnd as [Hnd _]. apply Hnd.
        rewrite <- He. apply elem_of_list_fmap_1.
        change (last (h' :: q2') = Some l) in Hl. apply last_Some in Hl as [l' ->]. set_solver.
  - (* the predecessor is the last of h :: q1 *)
    set (q := (h :: q1) ++ t :: q2) in *.
    assert (Hex : exists l, last q = Some l /\ new = idx l /\ old = idx h).
    { unfold q in *. cbn [app] in *. destruct (last_cons_Some h (q1 ++ t :: q2)) as (l & Hl & _).
      rewrite (ends_cons _ _ _ Hl) in Hends. injection Hends as <- <-. by exists l. }
    destruct Hex as (l & Hl & -> & ->).
    assert (Hq0 : q !! 0%nat = Some h) by done.
    assert (Hqt : q !! length (h :: q1) = Some t) by (by apply list_lookup_middle).
    rewrite (proj2 (N.eqb_neq (idx t) (idx h))); cycle 1.
    { intros He. pose proof (idx_nodup_inj _ _ _ _ _ Hnd Hqt Hq0 He). done. }
    set (j := length q1).
    assert (Hlen_le : (length q <= length d)%nat).
    { (* pigeonhole: the queue has distinct indices below the length *)
      rewrite <- (fmap_length idx q). 
      assert (Hincl : (idx <$> q) ⊆ (N.of_nat <$> seq 0 (length d))).
      { intros x Hx. apply elem_of_list_fmap in Hx as (y & -> & Hy).
        apply elem_of_list_lookup in Hy as [k Hk]. pose proof (getN_Some_lt _ _ _ (Hc _ _ Hk)) as Hlt.
        unfold lenN in Hlt. apply elem_of_list_fmap. exists (N.to_nat (idx y)).
        split; [lia|]. apply elem_of_seq. lia. }
      apply NoDup_ListNoDup in Hnd.
      assert (Hincl' : incl (idx <$> q) (N.of_nat <$> seq 0 (length d))).
      { intros x Hx. apply elem_of_list_In. apply Hincl. by apply elem_of_list_In. }
      pose proof (NoDup_incl_length Hnd Hincl') as Hle.
      rewrite (fmap_length N.of_nat), seq_length in Hle. done. }
    destruct (find_pred_ok d q (idx l) (idx t) j Hc Hnd) with (m := j) (fuel := S (length d)) (k := 0%nat) (h := h)
      as (p & Hp & Hfp).
    { by rewrite Hl. }
    { unfold j. change (S (length q1)) with (length (h :: q1)). by rewrite Hqt. }
    { lia. }
    { unfold j. pose proof (lookup_lt_Some _ _ _ Hqt) as Hlq.
      change (length (h :: q1)) with (S (length q1)) in Hlq. lia. }
    { done. }
    rewrite Hfp. cbn [rbind]. unfold get_index. rewrite (Hc _ _ Hp). cbn [rbind idx fst].
    assert (Hlj : link_of q j = idx t).
    { unfold link_of, j. change (S (length q1)) with (length (h :: q1)). by rewrite Hqt. }
    rewrite Hlj.
    pose proof (Hc _ _ Hqt) as Hdt.
    pose proof (getN_Some_lt _ _ _ (Hc _ _ Hp)) as Hplt.
    assert (Hp1 : (h :: q1) !! j = Some p).
    { unfold q in Hp. rewrite lookup_app_l in Hp by (unfold j; cbn; lia). done. }
    assert (Hpin : idx p ∈ (idx <$> (h :: q1))).
    { apply elem_of_list_fmap_1. by eapply elem_of_list_lookup_2. }
    (* the new link of the predecessor *)
    set (nl := link_of ((h :: q1) ++ q2) j).
    assert (Hnl : nl = link_of q (length (h :: q1))).
    { unfold nl, link_of, q. change (S j) with (length (h :: q1)).
      rewrite lookup_app_r by done. rewrite Nat.sub_diag.
      rewrite lookup_app_r by lia. by replace (S (length (h :: q1)) - length (h :: q1))%nat with 1%nat by lia. }
    assert (Hnd2 : NoDup (idx <$> ((h :: q1) ++ q2))).
    { clear - Hnd. unfold q in Hnd. rewrite fmap_app, NoDup_app in Hnd. destruct Hnd as (H1 & H2 & H3).
      rewrite fmap_cons, NoDup_cons in H3. destruct H3 as [H3 H4].
      rewrite fmap_app, NoDup_app. split; [done|]. split; [|done]. intros x Hx Hx2.
      apply (H2 x Hx). rewrite fmap_cons. by right. }
    assert (Hchain : chain (setN d (idx p) (nl, gen p)) ((h :: q1) ++ q2)).
    { intros k x Hx. destruct (decide (k = j)) as [->|Hkj].
      - assert (x = p) as ->.
        { rewrite lookup_app_l in Hx by (unfold j; cbn; lia). congruence. }
        rewrite getN_setN_eq by done. done.
      - assert (Hxp : idx p ≠ idx x).
        { intros He. apply Hkj. apply (idx_nodup_inj _ k j x p Hnd2 Hx); [|done].
          rewrite lookup_app_l by (unfold j; cbn; lia). done. }
        rewrite getN_setN_ne by done.
        destruct (Nat.lt_ge_cases k j) as [Hlt|Hge].
        + assert (Hx' : q !! k = Some x).
          { unfold q. rewrite lookup_app_l in Hx |- * by (unfold j in *; cbn in *; lia). done. }
          rewrite (Hc _ _ Hx'). do 2 f_equal. unfold link_of, q.
          rewrite !lookup_app_l by (unfold j in *; cbn in *; lia). done.
        + assert (Hx' : q !! S k = Some x).
          { unfold q. rewrite lookup_app_r in Hx |- * by (unfold j in *; cbn in *; lia).
            replace (S k - length (h :: q1))%nat with (S (k - length (h :: q1)))%nat
              by (unfold j in *; cbn in *; lia). done. }
          rewrite (Hc _ _ Hx'). do 2 f_equal. unfold link_of, q.
          rewrite !lookup_app_r by (unfold j in *; cbn in *; lia).
          replace (S (S k) - length (h :: q1))%nat with (S (S k - length (h :: q1)))%nat
              by (unfold j in *; cbn in *; lia). done. }
    assert (Hother : forall i, i ∉ (idx <$> h :: q1) -> getN (setN d (idx p) (nl, gen p)) i = getN d i).
    { intros i Hi. apply getN_setN_ne. intros <-. done. }
    assert (Hnlb : nl <? INDEX_MASK = true).
    { apply N.ltb_lt. rewrite Hnl. by eapply link_of_bound. }
    exists (setN d (idx p) (nl, gen p)).
    split; [|split; [by rewrite lenN_setN|done]].
    destruct (idx t =? idx l) eqn:Htl.
    + apply N.eqb_eq in Htl.
      assert (Hq2 : q2 = []).
      { rewrite last_lookup in Hl. pose proof (idx_nodup_inj _ _ _ _ _ Hnd Hqt Hl Htl) as He.
        unfold q in He. rewrite app_length in He. cbn in He. destruct q2; [done|]. cbn in He. lia. }
      subst q2. unfold set_index_checked. rewrite (Hc _ _ Hp).
      assert (Hnlm : nl = max_idx).
      { rewrite Hnl. unfold link_of, q. rewrite lookup_ge_None_2; [done|]. rewrite app_length. cbn. lia. }
      change (max_idx <? INDEX_MASK) with true. cbn [rbind set_idx gen snd].
      rewrite Hnlm. do 2 f_equal. rewrite app_nil_r.
      assert (Hlp : last (h :: q1) = Some p).
      { rewrite last_lookup. cbn [pred length]. done. }
      by rewrite (ends_cons _ _ _ Hlp).
    + apply N.eqb_neq in Htl. rewrite Hdt. cbn [rbind idx fst]. unfold set_index_checked. rewrite (Hc _ _ Hp).
      change (link_of q (S j)) with (link_of q (length (h :: q1))) in *.
      rewrite <- Hnl, Hnlb. cbn [rbind set_idx gen snd]. do 2 f_equal.
      assert (Hll : last ((h :: q1) ++ q2) = Some l).
      { destruct q2 as [|x q2]; [exfalso; apply Htl; unfold q in Hl; rewrite last_snoc in Hl; by injection Hl as -> |].
        unfold q in Hl.
        rewrite (last_app_cons) in Hl |- *. done. }
      cbn [app] in Hll |- *. by rewrite (ends_cons _ _ _ Hll).
Qed.

Lemma R_old_alive s a i x : R s a -> getN (e_data s) i = Some x ->
  is_alive s x = true <-> idx x = i.
Proof.
  intros HR Hx. split; cycle 1.
  - intros <-. unfold is_alive. rewrite Hx. by apply bool_decide_eq_true.
  - intros Hal. destruct (R_part _ _ HR _ _ Hx) as [?|Hin]; [done|]. exfalso.
    apply elem_of_list_fmap in Hin as (h & -> & Hh). apply elem_of_list_lookup in Hh as [k Hk].
    rewrite (R_chain _ _ HR _ _ Hk) in Hx. injection Hx as <-.
    unfold is_alive in Hal. cbn [idx fst] in Hal.
    unfold link_of in Hal. destruct (a_ready a !! S k) as [h'|] eqn:E.
    + rewrite (R_chain _ _ HR _ _ E) in Hal. apply bool_decide_eq_true in Hal.
      injection Hal as Hi Hg. by apply (R_link_ne _ _ HR _ _ E).
    + rewrite getN_ge in Hal; [done|]. pose proof (R_cap _ _ HR). lia.
Qed.

Lemma filter_other_notin e (q : list eid) : idx e ∉ (idx <$> q) -> filter (other_index e) q = q.
Proof.
  induction q as [|h q IH]; [done|]. rewrite fmap_cons, not_elem_of_cons. intros [Hne Hnin].
  rewrite filter_cons_True by (unfold other_index; congruence). by rewrite IH.
Qed.

Lemma filter_other_mid e q1 t q2 : NoDup (idx <$> (q1 ++ t :: q2)) -> idx t = idx e ->
  filter (other_index e) (q1 ++ t :: q2) = q1 ++ q2.
Proof.
  intros Hnd Ht. rewrite fmap_app, NoDup_app in Hnd. destruct Hnd as (H1 & H2 & H3).
  rewrite fmap_cons, NoDup_cons in H3. destruct H3 as [H3 _].
  rewrite filter_app, filter_cons_False by (unfold other_index; congruence).
  rewrite !filter_other_notin; [done| |].
  - by rewrite <- Ht.
  - rewrite <- Ht. intros Hin. apply (H2 _ Hin). rewrite fmap_cons. by left.
Qed.

Lemma gap_slots_get l t i :
  getN (gap_slots l t) i =
    if decide (l + i < t) then Some (if l + i + 1 =? t then max_idx else l + i + 1, 0) else None.
Proof.
  unfold gap_slots. rewrite getN_lookup, list_lookup_fmap. destruct (decide (l + i < t)).
  - rewrite lookup_seq_lt by lia. cbn. rewrite N2Nat.id. by destruct (_ =? t).
  - rewrite lookup_seq_ge by lia. done.
Qed.
Lemma gap_slots_len l t : lenN (gap_slots l t) = t - l.
Proof. unfold lenN, gap_slots. rewrite fmap_length, seq_length. lia. Qed.

Lemma spawn_R s a e : R s a ->
  gen e < U16_MAX -> idx e + 1 < max_idx ->
  exists s' b a', spawn s e = Ok (s', b) /\ a_step a (OSpawn e) (Spawned e b) a' /\ R s' a'
    /\ e_log s' = e_log s.
Proof.
  intros HR Hg Hcap. unfold spawn. pose proof (R_cap _ _ HR) as Hc0.
  destruct (getN (e_data s) (idx e)) as [x|] eqn:Hx.
  - pose proof (getN_Some_lt _ _ _ Hx) as Hlt.
    destruct (is_alive s x) eqn:Hal.
    + (* live slot *)
      apply (R_old_alive _ _ _ _ HR Hx) in Hal.
      assert (Hlx : x ∈ a_live a) by (apply (R_live _ _ HR); by rewrite Hal).
      destruct (N.leb_spec (gen x) (gen e)) as [Hle|Hgt].
      * do 3 eexists. split; [reflexivity|]. split; [by eapply A_spawn_live|]. split; [|reflexivity].
        pose proof (R_live_not_ready _ _ HR _ Hlx) as Hnr. rewrite Hal in Hnr.
        constructor; cbn [e_data e_list a_next a_ready a_live].
        -- rewrite lenN_setN. apply HR.
        -- rewrite lenN_setN. apply HR.
        -- intros y. rewrite elem_of_union, elem_of_singleton, elem_of_filter, (R_live _ _ HR).
           unfold other_index. destruct (decide (idx y = idx e)) as [Heq|Hne].
           ++ rewrite Heq, getN_setN_eq by done. split; [naive_solver|]. intros [= ->]. by left.
           ++ rewrite getN_setN_ne by done. split; [|naive_solver]. intros [->|[_ ?]]; done.
        -- apply chain_setN; [done|apply HR].
        -- apply HR.
        -- intros i y. destruct (decide (i = idx e)) as [->|Hne].
           ++ rewrite getN_setN_eq by done. intros [= <-]. by left.
           ++ rewrite getN_setN_ne by done. apply HR.
        -- apply HR.
      * exists s, false, a. split; [done|]. split; [by eapply A_spawn_live_refused|]. done.
    + (* free slot *)
      destruct (R_part _ _ HR _ _ Hx) as [Hself|Hin].
      { apply (R_old_alive _ _ _ _ HR Hx) in Hself. congruence. }
      pose proof Hin as Hin'. apply elem_of_list_fmap in Hin' as (t & Ht & Htin).
      pose proof Htin as Htin'. apply elem_of_list_split in Htin' as (q1 & q2 & Hq).
      assert (Hxg : gen x = gen t).
      { apply elem_of_list_lookup in Htin as [k Hk].
        pose proof (R_chain _ _ HR _ _ Hk) as Hc. rewrite <- Ht, Hx in Hc.
        injection Hc as ->. done. }
      pose proof (R_list _ _ HR) as Hlist. rewrite Hlist.
      destruct (ends (a_ready a)) as [[new old]|] eqn:Hends; cycle 1.
      { apply ends_None in Hends. rewrite Hends in Hq. by destruct q1. }
      rewrite (proj2 (N.eqb_neq (gen e) U16_MAX)) by lia.
      destruct (N.leb_spec (gen x) (gen e + 1)) as [Hle|Hgt]; cycle 1.
      { exists s, false, a. split; [done|]. split; [|done].
        eapply A_spawn_ready_refused; [done|done|]. by rewrite <- Hxg. }
      destruct (unlink_ok (e_data s) q1 t q2 new old) as (d' & Hun & Hlen & Hch & Hoth).
      { rewrite <- Hq. apply HR. }
      { rewrite <- Hq. apply HR. }
      { done. }
      { by rewrite <- Hq. }
      { rewrite <- Hq. intros k h. by apply (R_link_ne s). }
      rewrite Ht, Hun. cbn [rbind]. do 3 eexists. split; [reflexivity|].
      split; [eapply (A_spawn_ready _ _ t); [done|done|by rewrite <- Hxg]|]. split; [|reflexivity].
      pose proof (R_nodup _ _ HR) as Hnd. rewrite Hq in Hnd.
      assert (Hfil : filter (other_index e) (a_ready a) = q1 ++ q2).
      { rewrite Hq. by apply filter_other_mid. }
      rewrite Hfil.
      assert (Hsplit : idx t ∉ (idx <$> (q1 ++ q2)) /\ NoDup (idx <$> (q1 ++ q2))).
      { rewrite !fmap_app, fmap_cons in *. rewrite NoDup_app in Hnd.
        rewrite elem_of_app, NoDup_app. destruct Hnd as (H1 & H2 & H3).
        rewrite NoDup_cons in H3. destruct H3 as [H3 H4]. split.
        - intros [H|H]; [|done]. apply (H2 _ H). by left.
        - split; [done|]. split; [|done]. intros y Hy Hy2. apply (H2 y Hy). by right. }
      destruct Hsplit as [Hnt Hnd'].
      constructor; cbn [e_data e_list a_next a_ready a_live].
      * rewrite lenN_setN, Hlen. apply HR.
      * rewrite lenN_setN, Hlen. apply HR.
      * intros y. rewrite elem_of_union, elem_of_singleton.
        destruct (decide (idx y = idx t)) as [Heq|Hne].
        -- rewrite Heq, getN_setN_eq by (rewrite Hlen, <- Ht; done). split.
           ++ intros [->|Hy]; [done|]. exfalso. eapply (R_live_not_ready _ _ HR _ Hy).
              rewrite Heq. by apply elem_of_list_fmap_1.
           ++ intros [= ->]. by left.
        -- rewrite getN_setN_ne by done.
           destruct (decide (idx y ∈ idx <$> (q1 ++ q2))) as [Hyin|Hynin].
           ++ split.
              ** intros [->|Hy]; [by rewrite Ht in Hne|]. exfalso.
                 eapply (R_live_not_ready _ _ HR _ Hy). rewrite Hq.
                 rewrite !fmap_app, fmap_cons in *. rewrite elem_of_app in *. destruct Hyin; [by left|].
                 right. by right.
              ** intros Hy. exfalso. apply elem_of_list_fmap in Hyin as (h & Hyh & Hh).
                 apply elem_of_list_lookup in Hh as [k Hk].
                 rewrite Hyh, (Hch _ _ Hk) in Hy. injection Hy as <-. cbn in Hyh.
                 unfold link_of in Hyh. destruct ((q1 ++ q2) !! S k) as [h'|] eqn:E.
                 --- pose proof (idx_nodup_inj _ _ _ _ _ Hnd' E Hk Hyh). lia.
                 --- pose proof (getN_Some_lt _ _ _ (Hch _ _ Hk)) as Hb. rewrite Hlen in Hb. lia.
           ++ rewrite (Hoth (idx y)).
              ** rewrite <- (R_live _ _ HR). split; [|by right].
                 intros [->|?]; [|done]. by rewrite Ht in Hne.
              ** intros Hbad. apply Hynin. rewrite fmap_app, elem_of_app. by left.
      * apply chain_setN; done.
      * done.
      * intros i y. destruct (decide (i = idx t)) as [->|Hne].
        -- rewrite getN_setN_eq by (rewrite Hlen, <- Ht; done). intros [= <-]. left. done.
        -- rewrite getN_setN_ne by done. intros Hy.
           destruct (decide (i ∈ idx <$> (q1 ++ q2))) as [Hiin|Hinin]; [by right|].
           rewrite (Hoth i) in Hy.
           ++ destruct (R_part _ _ HR _ _ Hy) as [?|Hr]; [by left|]. right.
              rewrite Hq in Hr. rewrite !fmap_app, fmap_cons in *.
              rewrite elem_of_app, elem_of_cons in *. naive_solver.
           ++ intros Hbad. apply Hinin. rewrite fmap_app, elem_of_app. by left.
      * done.
  - (* beyond the end *)
    assert (Hge : lenN (e_data s) <= idx e).
    { destruct (N.lt_ge_cases (idx e) (lenN (e_data s))) as [H|H]; [|done].
      destruct (getN_lt _ _ H) as [y Hy]. congruence. }
    cbv zeta.
    set (L := lenN (e_data s)) in *.
    (* common description of the result *)
    assert (Hres : exists d0,
      (if idx e =? L
       then Ok (Entities (e_data s ++ [e]) (e_list s) (e_log s), true)
       else match e_list s with
            | Some (new, old) =>
                rlet d := set_index_checked (e_data s) new L in
                Ok (Entities (d ++ gap_slots L (idx e) ++ [e]) (Some (idx e - 1, old)) (e_log s), true)
            | None =>
                Ok (Entities (e_data s ++ gap_slots L (idx e) ++ [e]) (Some (idx e - 1, L)) (e_log s), true)
            end)
      = Ok (Entities (d0 ++ gap_slots L (idx e) ++ [e])
                     (ends (a_ready a ++ a_fresh L (N.to_nat (idx e - L)))) (e_log s), true)
      /\ lenN d0 = L
      /\ (forall l, last (a_ready a) = Some l -> L < idx e -> getN d0 (idx l) = Some (L, gen l))
      /\ (forall i, (L = idx e \/ forall l, last (a_ready a) = Some l -> i ≠ idx l) -> getN d0 i = getN (e_data s) i)).
    { destruct (N.eqb_spec (idx e) L) as [Heq|Hne].
      - exists (e_data s). rewrite Heq, N.sub_diag. unfold gap_slots. rewrite N.sub_diag. cbn.
        rewrite app_nil_r, (R_list _ _ HR). split; [done|]. split; [done|]. split; [lia|done].
      - assert (Hfr : exists m, N.to_nat (idx e - L) = S m /\ idx e - 1 = L + N.of_nat m).
        { exists (N.to_nat (idx e - L - 1)). lia. }
        destruct Hfr as (m & Hm & Hm').
        assert (Hlf : last (a_fresh L (S m)) = Some (L + N.of_nat m, 0)).
        { rewrite last_lookup, a_fresh_length. cbn [pred]. rewrite a_fresh_lookup.
          by rewrite decide_True by lia. }
        assert (He : ends (a_ready a ++ a_fresh L (S m)) =
                Some (L + N.of_nat m, match a_ready a with [] => L | h :: _ => idx h end)).
        { unfold ends. rewrite last_app, Hlf. destruct (a_ready a) as [|h q]; done. }
        rewrite Hm, He, (R_list _ _ HR).
        destruct (a_ready a) as [|h q] eqn:Hq.
        + cbn [ends last head]. exists (e_data s). rewrite Hm'. split; [done|]. split; [done|]. done.
        + destruct (last_cons_Some h q) as (l & Hl & Hlin). rewrite (ends_cons _ _ _ Hl).
          assert (Hdl : getN (e_data s) (idx l) = Some (max_idx, gen l)).
          { apply last_Some in Hl as [l' Hl'].
            assert (Hk : a_ready a !! length l' = Some l).
            { rewrite Hq, Hl'. by apply list_lookup_middle. }
            rewrite (R_chain _ _ HR _ _ Hk). do 2 f_equal. unfold link_of. rewrite Hq, Hl'.
            rewrite lookup_ge_None_2; [done|]. rewrite app_length. cbn. lia. }
          pose proof (getN_Some_lt _ _ _ Hdl) as Hll.
          unfold set_index_checked. rewrite Hdl.
          assert (HL : L <? INDEX_MASK = true) by (apply N.ltb_lt; rewrite INDEX_MASK_max; lia).
          rewrite HL. cbn [rbind]. rewrite Hm'. eexists. split; [reflexivity|].
          split; [by rewrite lenN_setN|]. split.
          * intros l0 [= <-]%(eq_trans (eq_sym Hl)) _. by rewrite getN_setN_eq by done.
          * intros i [Hi|Hi]; [done|]. specialize (Hi _ Hl). by rewrite getN_setN_ne by done. }
    destruct Hres as (d0 & -> & Hlen0 & Hd0l & Hd0).
    do 3 eexists. split; [reflexivity|].
    split; [apply A_spawn_beyond; by rewrite <- (R_len _ _ HR)|]. split; [|reflexivity].
    rewrite <- (R_len _ _ HR). fold L.
    set (n := N.to_nat (idx e - L)).
    set (D := d0 ++ gap_slots L (idx e) ++ [e]).
    assert (HDlo : forall i, i < L -> getN D i = getN d0 i).
    { intros i Hi. unfold D. apply getN_app_l. by rewrite Hlen0. }
    assert (HDgap : forall i, L <= i < idx e ->
      getN D i = Some (if i + 1 =? idx e then max_idx else i + 1, 0)).
    { intros i Hi. unfold D. rewrite getN_app_r by (rewrite Hlen0; lia). rewrite Hlen0.
      rewrite getN_app_l by (rewrite gap_slots_len; lia). rewrite gap_slots_get.
      rewrite decide_True by lia. by replace (L + (i - L)) with i by lia. }
    assert (HDe : getN D (idx e) = Some e).
    { unfold D. rewrite getN_app_r by (rewrite Hlen0; lia). rewrite Hlen0.
      rewrite getN_app_r by (rewrite gap_slots_len; lia). rewrite gap_slots_len, N.sub_diag. done. }
    assert (HDlen : lenN D = idx e + 1).
    { unfold D. rewrite !lenN_app, Hlen0, gap_slots_len. unfold lenN. cbn. lia. }
    assert (Hrlt : forall h, h ∈ a_ready a -> idx h < L).
    { intros h Hh. apply elem_of_list_lookup in Hh as [k Hk]. by eapply R_ready_lt. }
    assert (Hnd : NoDup (idx <$> (a_ready a ++ a_fresh L n))).
    { rewrite fmap_app, NoDup_app. split; [apply HR|]. split.
      - intros i Hi Hi2. apply elem_of_list_fmap in Hi as (h & -> & Hh%Hrlt).
        apply elem_of_list_fmap in Hi2 as (h2 & Hh2 & Hh3%a_fresh_elem). lia.
      - clear. generalize L as K. induction n as [|m IH]; intros K; cbn; [constructor|].
        constructor; [|apply IH]. intros Hin. apply elem_of_list_fmap in Hin as (h & Hh & Hh2%a_fresh_elem).
        cbn in Hh. lia. }
    assert (Hch : chain D (a_ready a ++ a_fresh L n)).
    { intros k h Hk. apply lookup_app_Some in Hk as [Hk|[Hkge Hk]].
      - assert (Hhlt : idx h < L) by (apply Hrlt; by eapply elem_of_list_lookup_2).
        rewrite HDlo by done. destruct (a_ready a !! S k) as [h'|] eqn:E.
        + rewrite Hd0.
          * rewrite (R_chain _ _ HR _ _ Hk). do 2 f_equal. unfold link_of.
            by rewrite (lookup_app_l_Some _ _ _ _ E), E.
          * right. intros l Hl Hbad. rewrite last_lookup in Hl.
            pose proof (idx_nodup_inj _ _ _ _ _ (R_nodup _ _ HR) Hk Hl Hbad).
            apply lookup_lt_Some in E. lia.
        + pose proof (proj1 (lookup_ge_None _ _) E) as Ege. pose proof (lookup_lt_Some _ _ _ Hk) as Hklt.
          assert (Hl : last (a_ready a) = Some h).
          { rewrite last_lookup. by replace (pred (length (a_ready a))) with k by lia. }
          unfold link_of. rewrite lookup_app_r by done.
          replace (S k - length (a_ready a))%nat with 0%nat by lia. rewrite a_fresh_lookup.
          destruct (decide (0 < n)%nat) as [Hn|Hn].
          * rewrite (Hd0l _ Hl) by (unfold n in Hn; lia). cbn. do 2 f_equal. lia.
          * rewrite Hd0 by (left; unfold n in Hn; lia).
            rewrite (R_chain _ _ HR _ _ Hk). do 2 f_equal. unfold link_of. by rewrite E.
      - rewrite a_fresh_lookup in Hk. destruct (decide (_ < _)%nat) as [Hlt|]; [|done].
        injection Hk as <-. cbn [idx gen fst snd].
        set (m := (k - length (a_ready a))%nat) in *.
        rewrite HDgap by (unfold n in Hlt; lia).
        unfold link_of. rewrite lookup_app_r by lia. rewrite a_fresh_lookup.
        replace (S k - length (a_ready a))%nat with (S m) by lia.
        do 2 f_equal. unfold n. destruct (decide _); destruct (N.eqb_spec (L + N.of_nat m + 1) (idx e)); cbn; unfold n in *; lia. }
    constructor; cbn [e_data e_list a_next a_ready a_live]; fold D.
    + done.
    + rewrite HDlen. lia.
    + intros y. rewrite elem_of_union, elem_of_singleton.
      destruct (N.lt_ge_cases (idx y) L) as [Hlo|Hhi].
      * rewrite HDlo by done.
        destruct (decide (idx y ∈ idx <$> a_ready a)) as [Hin|Hnin].
        -- split.
           ++ intros [->|Hy]; [lia|]. exfalso. by eapply R_live_not_ready.
           ++ intros Hy. exfalso. rewrite <- (HDlo (idx y)) in Hy by done.
              apply elem_of_list_fmap in Hin as (h & Hyh & Hh). apply elem_of_list_lookup in Hh as [k Hk].
              assert (Hk' : (a_ready a ++ a_fresh L n) !! k = Some h) by by apply lookup_app_l_Some.
              rewrite Hyh, (Hch _ _ Hk') in Hy. injection Hy as <-. cbn in Hyh.
              unfold link_of in Hyh. destruct ((a_ready a ++ a_fresh L n) !! S k) as [h'|] eqn:E.
              ** pose proof (idx_nodup_inj _ _ _ _ _ Hnd E Hk' Hyh). lia.
              ** unfold link_of in Hlo. rewrite E in Hlo. cbn [idx fst] in Hlo. lia.
        -- rewrite Hd0.
           ++ rewrite <- (R_live _ _ HR). split; [|by right]. intros [->|?]; [lia|done].
           ++ right. intros l Hl Hbad. apply Hnin. rewrite Hbad. apply elem_of_list_fmap_1.
              apply last_Some in Hl as [l' ->]. set_solver.
      * assert (Hnl : y ∉ a_live a).
        { rewrite (R_live _ _ HR), getN_ge by done. done. }
        destruct (N.lt_trichotomy (idx y) (idx e)) as [Hlt|[Heq|Hgt]].
        -- rewrite HDgap by done. split; [intros [->|?]; [lia|done]|].
           intros [= Hy]. apply (f_equal idx) in Hy. cbn [idx fst] in Hy. destruct (N.eqb_spec (idx y + 1) (idx e)); lia.
        -- rewrite Heq, HDe. split; [intros [->|?]; done|]. intros [= ->]. by left.
        -- rewrite getN_ge by (rewrite HDlen; lia). split; [intros [->|?]; [lia|done]|done].
    + done.
    + done.
    + intros i y Hy. rewrite fmap_app, elem_of_app.
      destruct (N.lt_ge_cases i L) as [Hlo|Hhi].
      * destruct (decide (i ∈ idx <$> a_ready a)) as [Hin|Hnin]; [by auto|].
        rewrite HDlo, Hd0 in Hy; [|right|done].
        -- destruct (R_part _ _ HR _ _ Hy); auto.
        -- intros l Hl ->. apply Hnin. apply elem_of_list_fmap_1.
           apply last_Some in Hl as [l' ->]. set_solver.
      * destruct (N.lt_trichotomy i (idx e)) as [Hlt|[->|Hgt]].
        -- right. right. apply elem_of_list_fmap. exists (i, 0). split; [done|].
           apply a_fresh_elem. cbn. unfold n. lia.
        -- rewrite HDe in Hy. injection Hy as <-. by left.
        -- rewrite getN_ge in Hy by (rewrite HDlen; lia). done.
    + done.
Qed.

(** ** Clear *)

Definition bumpable (d : list eid) : Prop := forall i e, getN d i = Some e -> gen e < last_gen.

Lemma clear_loop_ok d : Forall (fun e => gen e < last_gen) d -> forall i last0, exists r,
  clear_loop i d last0 = (r, match d with [] => last0 | _ => i end, rev d) /\
  length r = length d /\
  (forall k e, d !! k = Some e ->
     r !! k = Some (if decide (S k < length d)%nat then i + N.of_nat (S k) else last0, gen e + 1)).
Proof.
  induction 1 as [|e d Hg Hd IH]; intros i last0.
  { exists []. done. }
  destruct (IH (i + 1) last0) as (r & Hr & Hlen & Hl).
  cbn [clear_loop]. rewrite Hr. unfold bump. change (MAX_GEN - 1) with last_gen.
  rewrite (proj2 (N.ltb_lt _ _) Hg). cbn [set_idx gen snd rev].
  eexists. split; [reflexivity|]. split; [cbn; by rewrite Hlen|].
  intros [|k] x Hx; cbn in Hx.
  - injection Hx as <-. cbn -[decide]. do 2 f_equal. destruct d as [|y d]; cbn -[decide].
    + by rewrite decide_False by lia.
    + rewrite decide_True by lia. done.
  - etrans; [exact (Hl _ _ Hx)|]. cbn [length]. do 2 f_equal.
    destruct (decide (S k < length d)%nat).
    + rewrite decide_True by lia. lia.
    + by rewrite decide_False by lia.
Qed.

Lemma clear_R s a : R s a -> bumpable (e_data s) ->
  exists s' a', e_clear s = Ok s' /\ a_step a OClear Cleared a' /\ R s' a'
    /\ e_log s' = e_log s ++ rev (e_data s).
Proof.
  intros HR Hb.
  assert (HF : Forall (fun e => gen e < last_gen) (e_data s)).
  { apply Forall_lookup. intros k e Hk. apply (Hb (N.of_nat k)). by rewrite getN_lookup, Nat2N.id. }
  (* the queue after the clear *)
  set (q := imap (fun k (e : eid) => (N.of_nat k, gen e + 1)) (e_data s)).
  assert (Hq : forall k, q !! k = (fun e : eid => (N.of_nat k, gen e + 1)) <$> e_data s !! k).
  { intros k. unfold q. by rewrite list_lookup_imap. }
  assert (Hqlen : length q = length (e_data s)) by apply imap_length.
  assert (Hnd : NoDup (idx <$> q)).
  { apply NoDup_alt. intros i j x Hi Hj. rewrite !list_lookup_fmap, !Hq in *.
    destruct (e_data s !! i); [|done]. destruct (e_data s !! j); [|done].
    cbn in *. injection Hi as Hi. injection Hj as Hj. lia. }
  assert (Hstep : a_step a OClear Cleared (ASpec (a_next a) q ∅)).
  { apply A_clear.
    - etrans; [|apply (R_len _ _ HR)]. unfold lenN. f_equal. exact Hqlen.
    - intros k h Hk. rewrite getN_lookup, Hq in Hk.
      destruct (e_data s !! N.to_nat k) as [e|] eqn:He; [|done]. injection Hk as <-.
      cbn [idx gen fst snd]. split; [lia|].
      rewrite <- getN_lookup in He. destruct (R_part _ _ HR _ _ He) as [Hself|Hin].
      + exists e. split; [left; apply (R_live _ _ HR); by rewrite Hself|done].
      + apply elem_of_list_fmap in Hin as (h & Hkh & Hh). exists h. split; [by right|]. split; [done|].
        apply elem_of_list_lookup in Hh as [j Hj]. rewrite Hkh, (R_chain _ _ HR _ _ Hj) in He.
        injection He as <-. done. }
  unfold e_clear. destruct (e_data s) as [|e0 d0] eqn:Ed.
  { exists s, (ASpec (a_next a) q ∅). split; [done|]. split; [done|]. split; [|by rewrite app_nil_r].
    assert (Hq0 : a_ready a = []).
    { destruct (a_ready a) as [|h q'] eqn:Er; [done|]. exfalso.
      pose proof (R_chain _ _ HR 0%nat h) as Hc. rewrite Er, Ed in Hc. specialize (Hc eq_refl).
      by rewrite getN_nil in Hc. }
    destruct HR as [H1 H2 H3 H4 H5 H6 H7]. rewrite Ed in *. constructor; cbn [a_next a_ready a_live]; rewrite ?Ed.
    - done.
    - done.
    - intros e. rewrite getN_nil. set_solver.
    - intros k h Hk. rewrite Hq in Hk. rewrite lookup_nil in Hk. done.
    - done.
    - intros i e. by rewrite getN_nil.
    - rewrite H7, Hq0. done. }
  rewrite <- Ed in *. pose proof (R_cap _ _ HR) as Hcap.
  rewrite (proj2 (N.eqb_neq (lenN (e_data s)) max_idx)) by lia.
  destruct (clear_loop_ok _ HF 0 max_idx) as (r & Hr & Hlen & Hl). rewrite Hr.
  assert (Hpos : (0 < length (e_data s))%nat) by (rewrite Ed; cbn; lia).
  assert (Hus : forall k x, r !! k = Some x -> gen x < MAX_GEN).
  { intros k x Hk. assert (Hlt : (k < length (e_data s))%nat) by (rewrite <- Hlen; by eapply lookup_lt_Some).
    destruct (lookup_lt_is_Some_2 _ _ Hlt) as [y Hy]. rewrite (Hl _ _ Hy) in Hk. injection Hk as <-.
    cbn [gen snd]. pose proof (Hb (N.of_nat k) y) as Hby. rewrite getN_lookup, Nat2N.id in Hby.
    specialize (Hby Hy). change MAX_GEN with (last_gen + 1). lia. }
  assert (Hp1 : position_usable r = Some 0).
  { destruct r as [|x r']; [cbn in Hlen; lia|]. cbn.
    by rewrite (proj2 (N.ltb_lt _ _) (Hus 0%nat x eq_refl)). }
  assert (Hp2 : position_usable (rev r) = Some 0).
  { destruct (rev r) as [|x r'] eqn:Er.
    - apply (f_equal length) in Er. rewrite rev_length in Er. cbn in Er. lia.
    - cbn. assert (Hx : x ∈ r).
      { rewrite <- (rev_involutive r), Er. cbn. set_solver. }
      apply elem_of_list_lookup in Hx as [k Hk].
      by rewrite (proj2 (N.ltb_lt _ _) (Hus k x Hk)). }
  rewrite Hp1, Hp2.
  do 2 eexists. split; [reflexivity|]. split; [exact Hstep|]. split; [|reflexivity].
  assert (Hlenr : lenN r = lenN (e_data s)) by (unfold lenN; by rewrite Hlen).
  assert (Hget : forall i x, getN r i = Some x -> exists e, getN (e_data s) i = Some e /\
     x = (if decide (i + 1 < lenN (e_data s)) then i + 1 else max_idx, gen e + 1)).
  { intros i x Hi. rewrite getN_lookup in Hi.
    assert (Hlt : (N.to_nat i < length (e_data s))%nat) by (rewrite <- Hlen; by eapply lookup_lt_Some).
    destruct (lookup_lt_is_Some_2 _ _ Hlt) as [e He]. exists e. rewrite getN_lookup. split; [done|].
    rewrite (Hl _ _ He) in Hi. injection Hi as <-. f_equal. unfold lenN.
    destruct (decide (S (N.to_nat i) < _)%nat).
    - rewrite decide_True by lia. lia.
    - by rewrite decide_False by lia. }
  constructor; cbn [e_data e_list a_next a_ready a_live].
  - rewrite Hlenr. apply HR.
  - rewrite Hlenr. apply HR.
  - intros e. split; [set_solver|]. intros He. exfalso. destruct (Hget _ _ He) as (y & Hy & Hey).
    apply (f_equal idx) in Hey. cbn [idx fst] in Hey. pose proof (getN_Some_lt _ _ _ Hy).
    destruct (decide _); lia.
  - intros k h Hk. rewrite Hq in Hk. destruct (e_data s !! k) as [e|] eqn:He; [|done].
    injection Hk as <-. cbn [idx gen fst snd]. rewrite getN_lookup, Nat2N.id, (Hl _ _ He).
    do 2 f_equal. unfold link_of. rewrite Hq. destruct (decide (S k < length (e_data s))%nat) as [Hlt|Hge].
    + destruct (lookup_lt_is_Some_2 _ _ Hlt) as [y Hy]. rewrite Hy. cbn. lia.
    + by rewrite (lookup_ge_None_2 (e_data s)) by lia.
  - done.
  - intros i e Hi. right. destruct (Hget _ _ Hi) as (y & Hy & _). rewrite getN_lookup in Hy.
    apply elem_of_list_fmap. exists (i, gen y + 1). split; [done|].
    apply elem_of_list_lookup. exists (N.to_nat i). rewrite Hq, Hy. cbn. by rewrite N2Nat.id.
  - unfold ends. rewrite last_lookup, head_lookup, !Hq, Hqlen.
    destruct (lookup_lt_is_Some_2 (e_data s) 0%nat) as [y Hy]; [lia|].
    destruct (lookup_lt_is_Some_2 (e_data s) (pred (length (e_data s)))) as [z Hz]; [lia|].
    rewrite Hy, Hz. cbn [fmap option_fmap option_map idx fst]. do 2 f_equal.
    rewrite Hlenr. unfold lenN. lia.
Qed.

Lemma init_R : R e_new a_init.
Proof.
  constructor; cbn.
  - done.
  - unfold lenN. reflexivity.
  - intros e. rewrite getN_nil. set_solver.
  - intros k h Hk. done.
  - constructor.
  - intros i e. by rewrite getN_nil.
  - done.
Qed.
