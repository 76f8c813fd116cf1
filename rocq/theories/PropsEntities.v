(** Properties C01-C09: entity handles and the entity allocator. *)
From stdpp Require Import prelude list gmap sorting.
From Coq Require Import NArith Lia.
From Verif Require Import EntityId EntityIdProofs Base Entities EntitiesSpec EntitiesProofs EntitiesHistory.
Open Scope N_scope.

(** * C01: handles encode (index, generation) without loss *)

Theorem C01_handle_encoding : forall i g, i < 2 ^ 48 - 1 -> g < 2 ^ 16 ->
  exists r, Raw.new_from_parts i g = Some r /\ 0 < r < 2 ^ 64 /\ Raw.index r = i /\ Raw.gen r = g.
Proof.
  intros i g Hi Hg. assert (Hwf : eid_wf (i, g)) by done.
  exists (enc (i, g)). split; [apply (enc_new_from_parts (i, g) Hwf)|].
  split; [by apply enc_range|]. split; [apply (enc_index (i, g) Hwf)|apply (enc_gen (i, g) Hwf)].
Qed.

Theorem C01_handle_equality : forall i1 g1 i2 g2 r1 r2,
  i1 < 2 ^ 48 - 1 -> g1 < 2 ^ 16 -> i2 < 2 ^ 48 - 1 -> g2 < 2 ^ 16 ->
  Raw.new_from_parts i1 g1 = Some r1 -> Raw.new_from_parts i2 g2 = Some r2 ->
  (r1 = r2 <-> i1 = i2 /\ g1 = g2).
Proof.
  intros i1 g1 i2 g2 r1 r2 H1 H2 H3 H4 E1 E2.
  assert (W1 : eid_wf (i1, g1)) by done. assert (W2 : eid_wf (i2, g2)) by done.
  assert (Some r1 = Some (enc (i1, g1))) as [= ->] by (rewrite <- E1; apply (enc_new_from_parts (i1, g1) W1)).
  assert (Some r2 = Some (enc (i2, g2))) as [= ->] by (rewrite <- E2; apply (enc_new_from_parts (i2, g2) W2)).
  split.
  - intros H%enc_inj; [|done|done]. injection H as -> ->. done.
  - intros [-> ->]. done.
Qed.

(** Any 64-bit handle with a valid index part: changing one half keeps the other. *)
Definition valid_raw (r : N) : Prop := r < 2 ^ 64 /\ r mod 2 ^ 48 <> 0.

Lemma valid_raw_enc r : valid_raw r -> exists e, eid_wf e /\ enc e = r.
Proof. intros [H1 H2]. apply enc_surj; [done|]. by rewrite INDEX_MASK_ones, N.land_ones. Qed.
Lemma enc_valid_raw e : eid_wf e -> valid_raw (enc e).
Proof.
  intros He. split; [by apply enc_range|]. unfold enc.
  rewrite N.mod_add by done. pose proof (enc_low e He). rewrite N.mod_small; lia.
Qed.

Theorem C01_set_index : forall r i, valid_raw r -> i < 2 ^ 48 - 1 ->
  exists r', Raw.set_index r i = Some r' /\ valid_raw r' /\ Raw.index r' = i /\ Raw.gen r' = Raw.gen r.
Proof.
  intros r i Hr Hi. destruct (valid_raw_enc r Hr) as (e & He & <-).
  rewrite enc_set_index by done. change INDEX_MASK with (2 ^ 48 - 1).
  rewrite (proj2 (N.ltb_lt _ _) Hi). exists (enc (set_idx e i)).
  assert (Hw : eid_wf (set_idx e i)) by by apply set_idx_wf.
  split; [done|]. split; [by apply enc_valid_raw|].
  rewrite enc_index, !enc_gen by done. done.
Qed.

Theorem C01_bump_gen : forall r, valid_raw r ->
  match Raw.bump_gen r with
  | Some r' => valid_raw r' /\ Raw.index r' = Raw.index r /\ Raw.gen r' = Raw.gen r + 1
  | None => 65533 <= Raw.gen r
  end.
Proof.
  intros r Hr. destruct (valid_raw_enc r Hr) as (e & He & <-). rewrite enc_bump_gen by done.
  destruct (bump e) as [e'|] eqn:Hb; cbn [option_map].
  - pose proof (bump_wf _ _ He Hb) as Hw. split; [by apply enc_valid_raw|].
    rewrite !enc_index, !enc_gen by done. unfold bump in Hb.
    destruct (gen e <? MAX_GEN - 1); [|done]. by injection Hb as <-.
  - rewrite enc_gen by done. unfold bump in Hb.
    destruct (N.ltb_spec (gen e) (MAX_GEN - 1)) as [|H]; [done|]. exact H.
Qed.

(** The remaining raw operations, against arithmetic on the two parts. *)
Theorem C01_copy : forall r o, valid_raw r -> valid_raw o ->
  (Raw.index (Raw.copy_index r o) = Raw.index o /\ Raw.gen (Raw.copy_index r o) = Raw.gen r) /\
  (Raw.index (Raw.copy_gen r o) = Raw.index r /\ Raw.gen (Raw.copy_gen r o) = Raw.gen o).
Proof.
  intros r o Hr Ho. destruct (valid_raw_enc r Hr) as (e & He & <-).
  destruct (valid_raw_enc o Ho) as (f & Hf & <-).
  rewrite enc_copy_index, enc_copy_gen by done.
  assert (W1 : eid_wf (copy_idx e f)) by (destruct He, Hf; split; done).
  assert (W2 : eid_wf (copy_gn e f)) by (destruct He, Hf; split; done).
  rewrite !enc_index, !enc_gen by done. done.
Qed.

(** The pair layer used by the rest of the model computes what the raw layer computes. *)
Theorem C01_pair_layer_exact : forall e o, eid_wf e -> eid_wf o ->
  (enc e = enc o <-> e = o) /\
  Raw.index (enc e) = idx e /\ Raw.gen (enc e) = gen e /\
  (forall i, i < INDEX_MASK -> Raw.set_index (enc e) i = Some (enc (set_idx e i))) /\
  Raw.bump_gen (enc e) = option_map enc (bump e) /\
  Raw.is_dead (enc e) = eid_is_dead e /\
  Raw.copy_index_gen (enc e) (enc o) = enc (copy_idx_gen e o).
Proof.
  intros e o He Ho. split_and!.
  - split; [by apply enc_inj|by intros ->].
  - by apply enc_index.
  - by apply enc_gen.
  - intros i Hi. rewrite enc_set_index by done. by rewrite (proj2 (N.ltb_lt _ _) Hi).
  - by apply enc_bump_gen.
  - by apply enc_is_dead.
  - by apply enc_copy_index_gen.
Qed.

Example C01_case :
  valid_raw 0x0005000000000003 /\ Raw.index 0x0005000000000003 = 2 /\ Raw.gen 0x0005000000000003 = 5
  /\ Raw.new_from_parts 2 5 = Some 0x0005000000000003
  /\ Raw.bump_gen 0x0005000000000003 = Some 0x0006000000000003.
Proof. unfold valid_raw. vm_compute. split_and!; done. Qed.

(** * C02: serialized handles round-trip *)

Theorem C02_serde_roundtrip : forall r, valid_raw r ->
  Raw.de_human (Raw.ser_human r) = Some r /\ Raw.de_binary (Raw.ser_binary r) = Some r.
Proof.
  intros r Hr. destruct (valid_raw_enc r Hr) as (e & He & <-). split.
  - rewrite enc_ser_human by done. by apply enc_new_from_parts.
  - by apply enc_binary.
Qed.

(** The encodings fit their formats: u48 index / u16 generation, and a u64. *)
Theorem C02_serde_range : forall r, valid_raw r ->
  fst (Raw.ser_human r) < 2 ^ 48 - 1 /\ snd (Raw.ser_human r) < 2 ^ 16 /\ Raw.ser_binary r < 2 ^ 64 - 1.
Proof.
  intros r Hr. destruct (valid_raw_enc r Hr) as (e & He & <-).
  rewrite enc_ser_human by done. destruct He as [H1 H2]. split_and!; [done|done|].
  pose proof (enc_range e (conj H1 H2)). unfold Raw.ser_binary. lia.
Qed.

Example C02_case : valid_raw Raw.dead /\ Raw.de_binary (Raw.ser_binary Raw.dead) = Some Raw.dead.
Proof. unfold valid_raw. vm_compute. done. Qed.

(** * Histories used as concrete cases below *)
Definition sample_ops : list eop :=
  [OCreate; OCreate; OBulk 2; ODelete (0, 0); ODelete (2, 0); ODelete (2, 0); OCreate;
   OSpawn (6, 4); OCreate; ODelete (5, 3); OCreate; OSpawn (0, 1); OClear; OCreate; OBulk 1].

Lemma sample_ok : history_ok sample_ops.
Proof.
  constructor; [by vm_compute| |by vm_compute].
  intros e He. unfold sample_ops in He.
  repeat (apply elem_of_cons in He as [He|He]; [try (injection He as ->; by vm_compute); try done|]).
  by apply elem_of_nil in He.
Qed.

Example sample_run : exists s evs, e_run e_new sample_ops = Ok (s, evs) /\
  created evs = [(0, 0); (1, 0); (2, 0); (3, 0); (0, 1); (2, 1); (4, 0); (0, 2); (7, 0)].
Proof. eexists _, _. split; vm_compute; reflexivity. Qed.

(** * C03: creations never reuse a handle *)

(** In every history (creations, bulk creations, deletions of any handle, spawns, clears) the
    handles of a creation are pairwise different and different from every handle created or spawned before. *)
Theorem C03_fresh_handles : forall ops s evs, history_ok ops -> e_run e_new ops = Ok (s, evs) ->
  forall evs1 es evs2, evs = evs1 ++ Created es :: evs2 ->
    NoDup es /\ forall h, h ∈ es -> h ∉ issued evs1.
Proof.
  intros ops s evs Hok Hrun evs1 es evs2 Heq.
  exact (run_fresh ops s evs Hok Hrun evs1 (Created es) evs2 Heq).
Qed.

(** Hence all created handles of a history are pairwise distinct. *)
Theorem C03_all_distinct : forall ops s evs, history_ok ops -> e_run e_new ops = Ok (s, evs) ->
  NoDup (created evs).
Proof.
  intros ops s evs Hok Hrun.
  assert (Hgen : forall evs1, (exists evs2, evs = evs1 ++ evs2) -> NoDup (created evs1)).
  { intros evs1. induction evs1 as [|ev evs1 IH] using rev_ind; [intros _; constructor|].
    intros [evs2 Heq]. unfold created. rewrite bind_app. cbn. rewrite app_nil_r.
    rewrite <- app_assoc in Heq. cbn in Heq.
    destruct (run_fresh ops s evs Hok Hrun evs1 ev evs2 Heq) as [Hnd Hfr].
    apply NoDup_app. split; [apply IH; eauto|]. split; [|done].
    intros h Hh Hh2. apply (Hfr h Hh2). unfold issued.
    clear -Hh. apply elem_of_list_bind in Hh as (x & Hl & Hin).
    apply elem_of_list_bind. exists x. split; [|done].
    destruct x; cbn in *; [done|..]; by apply elem_of_nil in Hl. }
  apply Hgen. exists []. by rewrite app_nil_r.
Qed.

Example C03_case : history_ok sample_ops /\ exists s evs, e_run e_new sample_ops = Ok (s, evs).
Proof. split; [apply sample_ok|]. eexists _, _. vm_compute. reflexivity. Qed.

(** * C04: is_alive is exactly 'created and not deleted since' *)

Theorem C04_is_alive_exact : forall ops s evs, history_ok ops -> e_run e_new ops = Ok (s, evs) ->
  Forall ev_not_exhausted evs ->
  forall e, is_alive s e = true <-> lives evs e.
Proof. exact run_lives. Qed.

(** A deletion returns whether the handle was alive and changes no other handle. *)
Theorem C04_delete_answer : forall ops s evs h, history_ok ops -> e_run e_new ops = Ok (s, evs) ->
  exists s', delete_unchecked s h = Ok (s', is_alive s h) /\
    (forall h', h' ≠ h -> is_alive s' h' = is_alive s h').
Proof.
  intros ops s evs h Hok Hrun.
  destruct (run_refines ops Hok) as (s0 & evs0 & a & Hrun0 & _ & HR & _).
  rewrite Hrun in Hrun0. injection Hrun0 as <- <-.
  destruct (delete_R s a h HR) as (s' & b & a' & Hdel & Hst & HR' & _).
  exists s'. assert (Hb : b = is_alive s h).
  { inversion Hst; subst.
    - symmetry. by apply (R_is_alive _ _ HR).
    - symmetry. by apply (R_is_alive _ _ HR).
    - symmetry. apply not_true_is_false. by rewrite (R_is_alive _ _ HR). }
  rewrite <- Hb. split; [done|]. intros h' Hne.
  apply eq_bool_prop_intro. rewrite !Is_true_true.
  rewrite (R_is_alive _ _ HR), (R_is_alive _ _ HR'). inversion Hst; subst; cbn; set_solver.
Qed.

Example C04_case : exists s evs, e_run e_new sample_ops = Ok (s, evs) /\
  Forall ev_not_exhausted evs /\ is_alive s (0, 2) = true /\ is_alive s (0, 1) = false /\ is_alive s (6, 4) = false.
Proof.
  eexists _, _. split; [vm_compute; reflexivity|]. split; [|by vm_compute].
  repeat constructor; by vm_compute.
Qed.

(** * C05: deleting an entity always makes its handle dead *)

Definition create_or_delete (o : eop) : Prop := match o with OCreate | ODelete _ => True | _ => False end.

Fixpoint cycles (n : nat) (g : N) : list eop :=
  match n with O => [] | S n' => OCreate :: ODelete (0, g) :: cycles n' (g + 1) end.

Lemma cycles_run n : forall g s, e_data s = [(max_idx, g)] -> e_list s = Some (0, 0) ->
  g + N.of_nat n <= 65533 ->
  exists s' evs, e_run s (cycles n g) = Ok (s', evs) /\
    e_data s' = [(max_idx, g + N.of_nat n)] /\ e_list s' = Some (0, 0).
Proof.
  induction n as [|n IH]; intros g [d l lg] Hd Hl Hg; cbn in Hd, Hl; subst d l.
  - exists (Entities [(max_idx, g)] (Some (0, 0)) lg), []. cbn -[max_idx]. by rewrite N.add_0_r.
  - cbn [cycles e_run]. 
    assert (H1 : e_step (Entities [(max_idx, g)] (Some (0, 0)) lg) OCreate =
                 Ok (Entities [(0, g)] None lg, Created [(0, g)])) by reflexivity.
    rewrite H1. cbn [rbind].
    assert (H2 : e_step (Entities [(0, g)] None lg) (ODelete (0, g)) =
                 Ok (Entities [(max_idx, g + 1)] (Some (0, 0)) (lg ++ [(0, g)]), Deleted (0, g) true)).
    { cbn [e_step]. unfold delete_unchecked, is_alive. cbn [e_data idx fst].
      change (getN [(0, g)] 0) with (Some (0, g)). cbv iota. rewrite bool_decide_eq_true_2 by done.
      unfold get_unchecked. change (getN [(0, g)] 0) with (Some (0, g)). cbn [rbind].
      unfold bump. cbn [gen snd idx fst]. rewrite (proj2 (N.ltb_lt g (MAX_GEN - 1))).
      - reflexivity.
      - change (MAX_GEN - 1) with 65533. lia. }
    rewrite H2. cbn [rbind].
    destruct (IH (g + 1) (Entities [(max_idx, g + 1)] (Some (0, 0)) (lg ++ [(0, g)])))
      as (s' & evs & Hr & Hd & Hl); [done|done|lia|].
    rewrite Hr. cbn [rbind]. eexists _, _. split; [reflexivity|]. split; [|done].
    rewrite Hd. do 2 f_equal. lia.
Qed.

(** After 65533 create/delete cycles of one slot the next handle cannot be deleted: the deletion is
    reported as successful, again and again, and the handle stays alive.  Only creations and
    deletions are used. *)
Theorem C05_delete_kills_refuted :
  exists ops s evs h, Forall create_or_delete ops /\ e_run e_new ops = Ok (s, evs) /\ is_alive s h = true /\
    exists s', delete_unchecked s h = Ok (s', true) /\ is_alive s' h = true /\
      exists s'', delete_unchecked s' h = Ok (s'', true) /\ is_alive s'' h = true.
Proof.
  assert (exists n, N.of_nat n = 65532) as [n Hn] by (exists (N.to_nat 65532); apply N2Nat.id).
  destruct (cycles_run n 1 (Entities [(max_idx, 1)] (Some (0, 0)) [(0, 0)]))
    as ([d l lg] & evs & Hr & Hd & Hl); [done|done|lia|].
  replace (1 + N.of_nat n) with 65533 in Hd by lia.
  remember (cycles n 1) as ops eqn:Hops.
  cbn in Hd, Hl. subst d l.
  exists ([OCreate; ODelete (0, 0)] ++ ops ++ [OCreate]).
  exists (Entities [(0, 65533)] None lg). eexists. exists (0, 65533). split.
  { apply Forall_app. split; [by repeat constructor|]. apply Forall_app. split; [|by repeat constructor].
    rewrite Hops. clear. generalize 1. induction n as [|n IH]; intros g; cbn; [constructor|].
    by repeat constructor. }
  split.
  - rewrite e_run_app.
    change (e_run e_new [OCreate; ODelete (0, 0)]) with
      (Ok (Entities [(max_idx, 1)] (Some (0, 0)) [(0, 0)], [Created [(0, 0)]; Deleted (0, 0) true])).
    cbn [rbind]. rewrite e_run_app, Hr. cbn [rbind].
    change (e_run (Entities [(max_idx, 65533)] (Some (0, 0)) lg) [OCreate]) with
      (Ok (Entities [(0, 65533)] None lg, [Created [(0, 65533)]])).
    cbn [rbind]. reflexivity.
  - split; [done|]. eexists. split; [reflexivity|]. split; [done|]. eexists. split; [reflexivity|]. done.
Qed.

(** The part that holds: below the last generation. *)
Theorem C05_delete_kills_partial : forall ops s evs h s',
  history_ok ops -> e_run e_new ops = Ok (s, evs) -> gen h < 65533 ->
  delete_unchecked s h = Ok (s', true) -> is_alive s' h = false.
Proof.
  intros ops s evs h s' Hok Hrun Hg Hdel.
  destruct (run_refines ops Hok) as (s0 & evs0 & a & Hrun0 & _ & HR & _).
  rewrite Hrun in Hrun0. injection Hrun0 as <- <-.
  destruct (delete_R s a h HR) as (s1 & b & a' & Hdel' & Hst & HR' & _).
  rewrite Hdel in Hdel'. injection Hdel' as <- <-.
  apply not_true_is_false. rewrite (R_is_alive _ _ HR').
  inversion Hst; subst; cbn; [set_solver|]. change last_gen with 65533 in *. lia.
Qed.

Example C05_case : exists s evs s', e_run e_new [OCreate; OCreate] = Ok (s, evs) /\
  delete_unchecked s (1, 0) = Ok (s', true) /\ is_alive s' (1, 0) = false /\ is_alive s' (0, 0) = true.
Proof. eexists _, _, _. split; [vm_compute; reflexivity|]. split; [vm_compute; reflexivity|]. by vm_compute. Qed.

(** * C06: first-in first-out recycling, no out-of-bounds access *)

(** Every history runs without panic or out-of-bounds access, and its answers are those of the
    queue-based specification [a_step]. *)
Theorem C06_fifo_allocator : forall ops, history_ok ops ->
  exists s evs a, e_run e_new ops = Ok (s, evs) /\ a_run a_init ops evs a.
Proof.
  intros ops Hok. destruct (run_refines ops Hok) as (s & evs & a & Hrun & Ha & _). eauto.
Qed.

(** Stated on handles only: the queue of deleted and not yet reused slots of a history of single
    creations and deletions, each with the generation it will have. *)
Fixpoint pending (q : list eid) (evs : list eevent) : list eid :=
  match evs with
  | Created [_] :: r => pending (tail q) r
  | Deleted e true :: r => pending (q ++ [(idx e, gen e + 1)]) r
  | _ :: r => pending q r
  | [] => q
  end.

Lemma pending_run ops : forall a evs a', a_run a ops evs a' -> Forall create_or_delete ops ->
  Forall ev_not_exhausted evs -> a_ready a' = pending (a_ready a) evs.
Proof.
  intros a evs a' Hr. induction Hr as [|a a1 a2 o ev ops evs Hst Hr IH]; intros Hf He; [done|].
  apply Forall_cons in Hf as [Ho Hf]. apply Forall_cons in He as [Hev He].
  rewrite (IH Hf He). destruct Hst; try done; cbn in *.
  - by rewrite H.
  - by rewrite H.
  - change last_gen with 65533 in *. lia.
Qed.

Theorem C06_recycles_oldest : forall ops s evs,
  history_ok (ops ++ [OCreate]) -> Forall create_or_delete ops ->
  e_run e_new ops = Ok (s, evs) -> Forall ev_not_exhausted evs ->
  exists s' h, generate s = Ok (s', h) /\
    h = match pending [] evs with oldest :: _ => oldest | [] => (lenN (e_data s), 0) end.
Proof.
  intros ops s evs Hok Hcd Hrun Hne.
  destruct (run_refines _ Hok) as (s1 & evs1 & a1 & Hrun1 & Ha1 & HR1 & _).
  rewrite e_run_app, Hrun in Hrun1. cbn [rbind e_run e_step] in Hrun1.
  assert (Hok' : history_ok ops).
  { destruct Hok as [H1 H2 H3]. constructor.
    - unfold total in *. rewrite foldr_app in H1. cbn in H1.
      assert (Hmono : forall n l, foldr (fun o m => slot_cost o + m) 0 l <= foldr (fun o m => slot_cost o + m) n l).
      { induction l as [|o l IH]; cbn; lia. }
      specialize (Hmono (1 + 0) ops). lia.
    - intros e He. apply H2. set_solver.
    - intros Hc. exfalso. rewrite Forall_forall in Hcd. by apply (Hcd OClear). }
  destruct (run_refines _ Hok') as (s0 & evs0 & a0 & Hrun0 & Ha0 & HR0 & _).
  rewrite Hrun in Hrun0. injection Hrun0 as <- <-.
  pose proof (pending_run _ _ _ _ Ha0 Hcd Hne) as Hp. cbn in Hp.
  destruct (generate s) as [[s' h]| |] eqn:Hg; cbn [rbind] in Hrun1; [|done|done].
  exists s', h. split; [done|]. rewrite <- Hp.
  destruct (generate_R s a0 HR0) as (s2 & ev & e & a2 & Hg2 & -> & Hst & HR2 & _).
  { destruct Hok as [H1 _ _]. unfold total in H1. rewrite foldr_app in H1. cbn in H1.
    assert (Hlen : lenN (e_data s) <= foldr (fun o m => slot_cost o + m) 0 ops).
    { rewrite (R_len _ _ HR0). clear -Ha0. change 0 with (a_next a_init).
      revert Ha0. generalize a_init as a. intros a Hr. induction Hr as [|a a1 a2 o ev ops evs Hst Hr IH]; cbn; [lia|].
      pose proof (next_step _ _ _ _ Hst).
      assert (Hs : forall l n m, foldr (fun o m => slot_cost o + m) (n + m) l = n + foldr (fun o m => slot_cost o + m) m l).
      { clear. induction l as [|o l IHl]; intros n m; cbn; [done|]. rewrite IHl. lia. }
      pose proof (Hs ops (a_next a1) 0). pose proof (Hs ops (a_next a) 0). rewrite N.add_0_r in *. lia. }
    assert (Hs : forall l n, foldr (fun o m => slot_cost o + m) n l = n + foldr (fun o m => slot_cost o + m) 0 l).
    { clear. induction l as [|o l IHl]; intros n; cbn; [lia|]. rewrite IHl. lia. }
    rewrite Hs in H1. lia. }
  rewrite Hg in Hg2. injection Hg2 as <- <-.
  inversion Hst as [h0 q Hq|Hq| | | | | | | | | |]; subst.
  - by rewrite Hq.
  - rewrite Hq. by rewrite (R_len _ _ HR0).
Qed.

Example C06_case : exists s evs,
  e_run e_new [OCreate; OCreate; OCreate; ODelete (2, 0); ODelete (0, 0)] = Ok (s, evs) /\
  pending [] evs = [(2, 1); (0, 1)] /\ exists s', generate s = Ok (s', (2, 1)).
Proof. eexists _, _. split; [vm_compute; reflexivity|]. split; [done|]. eexists. vm_compute. reflexivity. Qed.

(** * C07: iteration lists exactly the live handles, once each, in slot order *)

Theorem C07_iteration : forall ops s evs, e_run e_new ops = Ok (s, evs) ->
  (forall e, e ∈ e_iter s <-> is_alive s e = true) /\
  StronglySorted (fun a b => idx a < idx b) (e_iter s) /\
  NoDup (idx <$> e_iter s).
Proof.
  intros ops s evs _. split; [apply iter_alive|].
  assert (Hs : StronglySorted (fun a b => idx a < idx b) (e_iter s)) by apply iter_from_sorted.
  split; [done|]. by apply sorted_nodup.
Qed.

(** With C04: exactly the handles created and not deleted since. *)
Theorem C07_iteration_history : forall ops s evs, history_ok ops -> e_run e_new ops = Ok (s, evs) ->
  Forall ev_not_exhausted evs -> forall e, e ∈ e_iter s <-> lives evs e.
Proof. intros ops s evs Hok Hrun Hne e. rewrite iter_alive. by eapply run_lives. Qed.

Example C07_case : exists s evs, e_run e_new sample_ops = Ok (s, evs) /\ e_iter s = [(0, 2); (7, 0)].
Proof. eexists _, _. split; vm_compute; reflexivity. Qed.

(** * C08: spawn *)

Theorem C08_spawn : forall ops s evs h, history_ok (ops ++ [OSpawn h]) -> e_run e_new ops = Ok (s, evs) ->
  exists s' b, spawn s h = Ok (s', b) /\
    (b = false -> s' = s) /\
    (b = true -> forall x, is_alive s' x = true <-> x = h \/ (is_alive s x = true /\ idx x ≠ idx h)).
Proof.
  intros ops s evs h Hok Hrun.
  destruct (run_refines _ Hok) as (s1 & evs1 & a1 & Hrun1 & Ha1 & HR1 & _).
  rewrite e_run_app, Hrun in Hrun1. cbn [rbind e_run e_step] in Hrun1.
  destruct (spawn s h) as [[s' b]| |] eqn:Hsp; cbn [rbind] in Hrun1; [|done|done].
  injection Hrun1 as <- <-. exists s', b. split; [done|]. split.
  - intros ->. unfold spawn in Hsp.
    repeat case_match; simplify_eq/=; try done;
      unfold rbind in *; repeat case_match; simplify_eq/=; done.
  - intros ->.
    assert (Hsp' : gen h < U16_MAX) by (destruct Hok as [_ H2 _]; apply H2; set_solver).
    (* split the run of the specification at the last step *)
    assert (Hsplit : forall a ops1 evs1 a1 o ev, a_run a (ops1 ++ [o]) (evs1 ++ [ev]) a1 -> length ops1 = length evs1 ->
      exists a0, a_run a ops1 evs1 a0 /\ a_step a0 o ev a1).
    { clear. intros a ops1. revert a. induction ops1 as [|o1 ops1 IH]; intros a [|ev1 evs1] a1 o ev Hr Hl; try done.
      - inversion Hr; subst. match goal with H : a_run _ [] _ _ |- _ => inversion H; subst end.
        eexists. split; [constructor|done].
      - inversion Hr; subst. match goal with H : a_run _ (ops1 ++ _) _ _ |- _ => apply IH in H as (a0 & H1 & H2); [|cbn in *; congruence] end.
        exists a0. split; [by econstructor|done]. }
    assert (Hlen : length ops = length evs).
    { clear -Hrun. revert s evs Hrun. generalize e_new as st. induction ops as [|o ops IH]; intros st s evs Hr; cbn in Hr.
      - by injection Hr as <- <-.
      - destruct (e_step st o) as [[s1 ev]| |]; cbn in Hr; [|done|done].
        destruct (e_run s1 ops) as [[s2 evs2]| |] eqn:Hr2; cbn in Hr; [|done|done].
        injection Hr as <- <-. cbn. f_equal. by eapply IH. }
    (* the state before the spawn *)
    assert (Hok' : exists a0, R s a0).
    { destruct Hok as [H1 H2 H3].
      destruct (run_R ops e_new a_init 0) as (s0 & evs0 & a0 & Hr0 & _ & HR0 & _).
      - apply init_R.
      - split; intros e He; cbn in He; set_solver.
      - unfold total in *. rewrite foldr_app in H1. cbn in H1.
        assert (Hmono : forall n l, foldr (fun o m => slot_cost o + m) 0 l <= foldr (fun o m => slot_cost o + m) n l).
        { induction l as [|o l IH]; cbn; lia. }
        specialize (Hmono (idx h + 1 + 0) ops). unfold lenN. cbn. lia.
      - intros e He. apply H2. set_solver.
      - intros Hc. unfold total in *. rewrite foldr_app in H3. cbn in H3.
        assert (Hmono : forall n l, foldr (fun o m => gen_cost o + m) 0 l <= foldr (fun o m => gen_cost o + m) n l).
        { induction l as [|o l IH]; cbn; lia. }
        specialize (Hmono (gen h + 0) ops). specialize (H3 ltac:(set_solver)). lia.
      - rewrite Hrun in Hr0. injection Hr0 as <- <-. eauto. }
    destruct Hok' as [a0 HR0].
    assert (Hcap : idx h + 1 < max_idx).
    { destruct Hok as [H1 _ _]. unfold total in H1. rewrite foldr_app in H1. cbn in H1.
      assert (Hge : forall n l, n <= foldr (fun o m => slot_cost o + m) n l).
      { induction l as [|o l IH]; cbn; lia. }
      specialize (Hge (idx h + 1 + 0) ops). lia. }
    destruct (spawn_R s a0 h HR0 Hsp' Hcap) as (s2 & b2 & a2 & Hsp2 & Hst & HR2 & _).
    rewrite Hsp in Hsp2. injection Hsp2 as <- <-.
    destruct (R_fresh_structure _ _ HR0) as (S1 & S2 & S3 & S4 & S5).
    intros x. rewrite (R_is_alive _ _ HR2), (R_is_alive _ _ HR0).
    inversion Hst; subst; cbn.
    + rewrite elem_of_union, elem_of_singleton. split; [|naive_solver].
      intros [->|Hx]; [by left|]. right. split; [done|]. specialize (S1 _ Hx). lia.
    + rewrite elem_of_union, elem_of_singleton, elem_of_filter. unfold other_index. naive_solver.
    + rewrite elem_of_union, elem_of_singleton. split; [|naive_solver].
      intros [->|Hx]; [by left|]. right. split; [done|]. intros Hc.
      eapply (S5 _ _ Hx); [done|]. congruence.
Qed.

(** The allocator can go on after any spawns: a later creation succeeds and its handle is not one
    that was alive (C03_fresh_handles says more: it was never issued nor spawned before). *)
Theorem C08_creation_after_spawn : forall ops s evs, history_ok (ops ++ [OCreate]) ->
  e_run e_new ops = Ok (s, evs) ->
  exists s' h, generate s = Ok (s', h) /\ is_alive s h = false /\
    forall x, is_alive s' x = true <-> x = h \/ is_alive s x = true.
Proof.
  intros ops s evs [H1 H2 H3] Hrun.
  assert (Hs : forall (f : eop -> N) l n, foldr (fun o m => f o + m) n l = n + foldr (fun o m => f o + m) 0 l).
  { clear. induction l as [|o l IHl]; intros n; cbn; [lia|]. rewrite IHl. lia. }
  unfold total in H1, H3. rewrite foldr_app, Hs in H1, H3. cbn in H1, H3.
  destruct (run_R ops e_new a_init 0) as (s0 & evs0 & a0 & Hr0 & Ha0 & HR0 & _).
  - apply init_R.
  - split; intros e He; cbn in He; set_solver.
  - unfold total, lenN. cbn. lia.
  - intros e He. apply H2. set_solver.
  - intros Hc. apply H3. set_solver.
  - rewrite Hrun in Hr0. injection Hr0 as <- <-.
    assert (Hlen : a_next a0 <= a_next a_init + foldr (fun o m => slot_cost o + m) 0 ops).
    { clear -Ha0. induction Ha0 as [|a a1 a2 o ev ops evs Hst Hr IH]; cbn; [lia|].
      pose proof (next_step _ _ _ _ Hst). lia. }
    destruct (generate_R s a0 HR0) as (s2 & ev & e & a2 & Hg2 & -> & Hst & HR2 & _).
    { rewrite (R_len _ _ HR0). cbn in Hlen. lia. }
    destruct (R_fresh_structure _ _ HR0) as (S1 & S2 & S3 & S4 & S5).
    exists s2, e. split; [done|]. split.
    + apply not_true_is_false. rewrite (R_is_alive _ _ HR0). intros He.
      inversion Hst as [h0 q Hq|Hq| | | | | | | | | |]; subst.
      * apply (S5 e e He); [rewrite Hq; by left|done].
      * specialize (S1 _ He). cbn in S1. lia.
    + intros x. rewrite (R_is_alive _ _ HR0), (R_is_alive _ _ HR2).
      inversion Hst; subst; cbn; set_solver.
Qed.

Example C08_case : exists s evs s1 s2 e, 
  e_run e_new [OCreate; OCreate; OCreate; ODelete (0, 0); ODelete (1, 0); ODelete (2, 0)] = Ok (s, evs) /\
  spawn s (1, 7) = Ok (s1, true) /\ is_alive s1 (1, 7) = true /\
  generate s1 = Ok (s2, e) /\ e = (0, 1).
Proof.
  eexists _, _, _, _, _. split; [vm_compute; reflexivity|]. split; [vm_compute; reflexivity|].
  split; [vm_compute; reflexivity|]. split; [vm_compute; reflexivity|]. done.
Qed.

(** The excluded generation 65535 makes spawn panic (u16 overflow in debug builds). *)
Theorem C08_spawn_gen_max_refuted : exists ops s evs h,
  e_run e_new ops = Ok (s, evs) /\ eid_wf h /\ spawn s h = Panic.
Proof.
  exists [OCreate; ODelete (0, 0)]. eexists _, _, (0, 65535).
  split; [vm_compute; reflexivity|]. split; [done|]. vm_compute. reflexivity.
Qed.

(** * C09: clearing *)

(** The part that holds: nothing is alive, all slots are ready again, and (by C03_fresh_handles,
    whose histories contain clears) later creations are fresh, provided that no slot can be at
    the end of its counter.  Missing: the callback statement and exhausted slots, both refuted. *)
Theorem C09_clear_partial : forall ops s evs, history_ok (ops ++ [OClear]) -> e_run e_new ops = Ok (s, evs) ->
  exists s', e_clear s = Ok s' /\ (forall h, is_alive s' h = false) /\ e_iter s' = [].
Proof.
  intros ops s evs Hok Hrun.
  destruct (run_refines _ Hok) as (s1 & evs1 & a1 & Hrun1 & Ha1 & HR1 & _).
  rewrite e_run_app, Hrun in Hrun1. cbn [rbind e_run e_step] in Hrun1.
  destruct (e_clear s) as [s'| |] eqn:Hc; cbn [rbind] in Hrun1; [|done|done].
  injection Hrun1 as <- <-. exists s'. split; [done|].
  assert (Hlive : a_live a1 = ∅).
  { clear -Ha1. revert Ha1. generalize a_init as a. generalize (evs ++ [Cleared]) as ev.
    induction ops as [|o ops IH]; intros ev a Hr; cbn in Hr; inversion Hr; subst.
    - match goal with H : a_step _ OClear _ _ |- _ => inversion H; subst end.
      match goal with H : a_run _ [] _ _ |- _ => inversion H; subst end. done.
    - by eapply IH. }
  assert (Hdead : forall h, is_alive s' h = false).
  { intros h. apply not_true_is_false. rewrite (R_is_alive _ _ HR1), Hlive. set_solver. }
  split; [done|]. destruct (e_iter s') as [|x l] eqn:E; [done|].
  exfalso. assert (Hx : x ∈ e_iter s') by (rewrite E; by left).
  apply iter_alive in Hx. by rewrite Hdead in Hx.
Qed.

Example C09_case : exists s evs s', e_run e_new [OCreate; OCreate; ODelete (0, 0)] = Ok (s, evs) /\
  e_iter s = [(1, 0)] /\ e_clear s = Ok s' /\ e_iter s' = [].
Proof. eexists _, _, _. split; [vm_compute; reflexivity|]. split; [done|]. split; vm_compute; reflexivity. Qed.

(** The deletion callback is called for slots that are not alive, with handles that never existed. *)
Theorem C09_callback_refuted : exists ops s evs s' bogus,
  history_ok (ops ++ [OClear]) /\
  e_run e_new ops = Ok (s, evs) /\ e_clear s = Ok s' /\
  e_log s' = e_log s ++ [(1, 0); bogus] /\ is_alive s bogus = false /\ bogus ∉ issued evs.
Proof.
  exists [OCreate; OCreate; ODelete (0, 0)]. eexists _, _, _, (max_idx, 1).
  split. { constructor; [by vm_compute| |by vm_compute]. intros e He.
    repeat (apply elem_of_cons in He as [He|He]; [done|]). by apply elem_of_nil in He. }
  split; [vm_compute; reflexivity|]. split; [vm_compute; reflexivity|].
  split; [vm_compute; reflexivity|]. split; [vm_compute; reflexivity|].
  vm_compute. intros H. repeat (apply elem_of_cons in H as [H|H]; [done|]). by apply elem_of_nil in H.
Qed.

(** With a slot in its last generation, a handle that was live before the clear is given out again. *)
Theorem C09_fresh_after_clear_refuted : exists ops s evs s' s2 h,
  e_run e_new ops = Ok (s, evs) /\ is_alive s h = true /\ e_clear s = Ok s' /\
  is_alive s' h = false /\ generate s' = Ok (s2, h).
Proof.
  exists [OSpawn (0, 65533)]. eexists _, _, _, _, (0, 65533).
  split; [vm_compute; reflexivity|]. split; [done|]. split; [vm_compute; reflexivity|].
  split; [done|]. vm_compute. reflexivity.
Qed.

Print Assumptions C01_handle_encoding.
Print Assumptions C01_handle_equality.
Print Assumptions C01_set_index.
Print Assumptions C01_bump_gen.
Print Assumptions C01_copy.
Print Assumptions C01_pair_layer_exact.
Print Assumptions C02_serde_roundtrip.
Print Assumptions C02_serde_range.
Print Assumptions C03_fresh_handles.
Print Assumptions C03_all_distinct.
Print Assumptions C04_is_alive_exact.
Print Assumptions C04_delete_answer.
Print Assumptions C05_delete_kills_refuted.
Print Assumptions C05_delete_kills_partial.
Print Assumptions C06_fifo_allocator.
Print Assumptions C06_recycles_oldest.
Print Assumptions C07_iteration.
Print Assumptions C07_iteration_history.
Print Assumptions C08_spawn.
Print Assumptions C08_creation_after_spawn.
Print Assumptions C08_spawn_gen_max_refuted.
Print Assumptions C09_clear_partial.
Print Assumptions C09_callback_refuted.
Print Assumptions C09_fresh_after_clear_refuted.
