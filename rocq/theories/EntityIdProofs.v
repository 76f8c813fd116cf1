(** The pair layer of EntityId.v is an exact abstraction of the 64-bit layer. *)
From Coq Require Import NArith Bool Lia.
From Coq Require Import ZifyBool ZifyN.
From Verif Require Import EntityId.
Open Scope N_scope.

Lemma INDEX_MASK_eq : INDEX_MASK = 2 ^ 48 - 1. Proof. reflexivity. Qed.
Lemma not_INDEX_MASK_eq : u64_not INDEX_MASK = N.shiftl (N.ones 16) 48. Proof. reflexivity. Qed.
Lemma GEN_MASK_eq : GEN_MASK = N.shiftl (N.ones 16) 48. Proof. reflexivity. Qed.
Lemma not_GEN_MASK_eq : u64_not GEN_MASK = N.ones 48. Proof. reflexivity. Qed.
Lemma INDEX_MASK_ones : INDEX_MASK = N.ones 48. Proof. reflexivity. Qed.
Lemma U16_ones : U16_MAX = N.ones 16. Proof. reflexivity. Qed.
Lemma U64_ones : U64_MAX = N.ones 64. Proof. reflexivity. Qed.
Lemma INDEX_LEN_eq : INDEX_LEN = 48. Proof. reflexivity. Qed.
Lemma MAX_GEN_eq : MAX_GEN = 65534. Proof. reflexivity. Qed.

Lemma testbit_small a n k : a < 2 ^ n -> n <= k -> N.testbit a k = false.
Proof.
  intros Ha Hk. destruct (N.eq_dec a 0) as [->|Hz]; [apply N.bits_0|].
  apply N.bits_above_log2. apply N.log2_lt_pow2; [lia|].
  eapply N.lt_le_trans; [exact Ha|]. apply N.pow_le_mono_r; lia.
Qed.

(** Disjoint or is addition. *)
Lemma lor_shiftl_add a b n : a < 2 ^ n -> N.lor a (N.shiftl b n) = a + b * 2 ^ n.
Proof.
  intros Ha. rewrite <- N.shiftl_mul_pow2.
  rewrite <- N.lxor_lor.
  - symmetry. apply N.add_nocarry_lxor.
    apply N.bits_inj. intros k. rewrite N.land_spec, N.bits_0.
    destruct (N.lt_ge_cases k n) as [Hk|Hk].
    + rewrite N.shiftl_spec_low by assumption. apply andb_false_r.
    + rewrite (testbit_small a n k) by assumption. reflexivity.
  - apply N.bits_inj. intros k. rewrite N.land_spec, N.bits_0.
    destruct (N.lt_ge_cases k n) as [Hk|Hk].
    + rewrite N.shiftl_spec_low by assumption. apply andb_false_r.
    + rewrite (testbit_small a n k) by assumption. reflexivity.
Qed.

Lemma land_ones_low a b n : a < 2 ^ n -> N.land (a + b * 2 ^ n) (N.ones n) = a.
Proof.
  intros Ha. rewrite N.land_ones. rewrite N.mod_add by (apply N.pow_nonzero; lia).
  apply N.mod_small; assumption.
Qed.

Lemma land_high a b : a < 2 ^ 48 -> b < 2 ^ 16 ->
  N.land (a + b * 2 ^ 48) (N.shiftl (N.ones 16) 48) = b * 2 ^ 48.
Proof.
  intros Ha Hb.
  rewrite <- lor_shiftl_add by assumption.
  rewrite <- N.shiftl_mul_pow2.
  apply N.bits_inj. intros k. rewrite N.land_spec, N.lor_spec.
  destruct (N.lt_ge_cases k 48) as [Hk|Hk].
  - rewrite !N.shiftl_spec_low by assumption. rewrite andb_false_r. reflexivity.
  - rewrite (testbit_small a 48 k) by assumption.
    rewrite !N.shiftl_spec_high' by assumption. cbn [orb].
    destruct (N.lt_ge_cases (k - 48) 16) as [Hk'|Hk'].
    + rewrite N.ones_spec_low by assumption. apply andb_true_r.
    + rewrite N.ones_spec_high by assumption.
      rewrite (testbit_small b 16) by assumption. reflexivity.
Qed.

Section Enc.
  Variable e : eid.
  Hypothesis Hwf : eid_wf e.

  Lemma enc_low : idx e + 1 < 2 ^ 48.
  Proof. destruct Hwf as [H _]. rewrite INDEX_MASK_eq in H. lia. Qed.
  Lemma enc_high : gen e < 2 ^ 16.
  Proof. apply Hwf. Qed.

  Lemma enc_range : 0 < enc e < 2 ^ 64.
  Proof.
    pose proof enc_low. pose proof enc_high. unfold enc.
    change (2 ^ 64) with (2 ^ 16 * 2 ^ 48). lia.
  Qed.

  Lemma enc_index : Raw.index (enc e) = idx e.
  Proof.
    pose proof enc_low as Hl. unfold Raw.index, enc. rewrite INDEX_MASK_ones.
    rewrite land_ones_low by assumption.
    replace (idx e + 1 + (2 ^ 64 - 1)) with (idx e + 1 * 2 ^ 64) by lia.
    rewrite N.mod_add by discriminate. apply N.mod_small.
    change (2 ^ 64) with (2 ^ 16 * 2 ^ 48). lia.
  Qed.

  Lemma enc_gen : Raw.gen (enc e) = gen e.
  Proof.
    pose proof enc_low as Hl. pose proof enc_high as Hh. unfold Raw.gen, enc, u64_shr.
    rewrite GEN_MASK_eq, U16_ones, INDEX_LEN_eq. rewrite land_high by assumption.
    rewrite N.shiftr_div_pow2, N.div_mul by discriminate.
    rewrite N.land_ones. apply N.mod_small. assumption.
  Qed.

  Lemma enc_new_from_parts : Raw.new_from_parts (idx e) (gen e) = Some (enc e).
  Proof.
    unfold Raw.new_from_parts. destruct Hwf as [Hi Hg].
    destruct (N.ltb_spec (idx e) INDEX_MASK) as [_|Hc]; [|lia].
    f_equal. unfold u64_shl. rewrite INDEX_LEN_eq, U64_ones, N.land_ones.
    rewrite N.mod_small.
    - rewrite lor_shiftl_add by apply enc_low. reflexivity.
    - rewrite N.shiftl_mul_pow2. change (2 ^ 64) with (2 ^ 16 * 2 ^ 48).
      apply N.mul_lt_mono_pos_r; [reflexivity|assumption].
  Qed.

  Lemma land_enc_not_index : N.land (enc e) (u64_not INDEX_MASK) = gen e * 2 ^ 48.
  Proof. rewrite not_INDEX_MASK_eq. apply land_high; [apply enc_low|apply enc_high]. Qed.
  Lemma land_enc_index : N.land (enc e) INDEX_MASK = idx e + 1.
  Proof. rewrite INDEX_MASK_ones. apply land_ones_low, enc_low. Qed.
  Lemma land_enc_not_gen : N.land (enc e) (u64_not GEN_MASK) = idx e + 1.
  Proof. rewrite not_GEN_MASK_eq. apply land_ones_low, enc_low. Qed.
  Lemma land_enc_gen : N.land (enc e) GEN_MASK = gen e * 2 ^ 48.
  Proof. rewrite GEN_MASK_eq. apply land_high; [apply enc_low|apply enc_high]. Qed.

  Lemma enc_set_index i :
    Raw.set_index (enc e) i = if i <? INDEX_MASK then Some (enc (set_idx e i)) else None.
  Proof.
    unfold Raw.set_index. destruct (N.ltb_spec i INDEX_MASK) as [Hi|]; [|reflexivity].
    f_equal. rewrite land_enc_not_index. rewrite <- N.shiftl_mul_pow2.
    rewrite lor_shiftl_add by (rewrite INDEX_MASK_eq in Hi; lia). reflexivity.
  Qed.

  Lemma enc_bump_gen : Raw.bump_gen (enc e) = option_map enc (bump e).
  Proof.
    unfold Raw.bump_gen, bump. rewrite enc_gen.
    destruct (N.ltb_spec (gen e) (MAX_GEN - 1)) as [Hg|]; [|reflexivity].
    cbn [option_map]. f_equal. rewrite land_enc_not_gen.
    unfold u64_shl. rewrite INDEX_LEN_eq, U64_ones, N.land_ones, N.mod_small.
    - rewrite lor_shiftl_add by apply enc_low. reflexivity.
    - rewrite N.shiftl_mul_pow2. change (2 ^ 64) with (2 ^ 16 * 2 ^ 48).
      apply N.mul_lt_mono_pos_r; [reflexivity|]. rewrite MAX_GEN_eq in Hg. lia.
  Qed.

  Lemma enc_is_dead : Raw.is_dead (enc e) = eid_is_dead e.
  Proof.
    unfold Raw.is_dead, eid_is_dead. rewrite land_enc_gen, GEN_MASK_eq, N.shiftl_mul_pow2.
    change (N.ones 16) with U16_MAX.
    destruct (N.eqb_spec (gen e) U16_MAX) as [->|Hne]; [apply N.eqb_refl|].
    apply N.eqb_neq. intros Hc. apply N.mul_cancel_r in Hc; [congruence|discriminate].
  Qed.

  Lemma enc_ser_human : Raw.ser_human (enc e) = e.
  Proof. unfold Raw.ser_human. rewrite enc_index, enc_gen. destruct e; reflexivity. Qed.
End Enc.

Lemma set_idx_wf e i : eid_wf e -> i < INDEX_MASK -> eid_wf (set_idx e i).
Proof. intros [_ H] Hi. split; assumption. Qed.
Lemma bump_wf e e' : eid_wf e -> bump e = Some e' -> eid_wf e'.
Proof.
  intros [H1 H2]. unfold bump. destruct (N.ltb_spec (gen e) (MAX_GEN - 1)) as [Hg|]; [|discriminate].
  intros [= <-]. split; [assumption|]. rewrite MAX_GEN_eq in Hg. cbn. lia.
Qed.

Section Enc2.
  Variables e o : eid.
  Hypothesis He : eid_wf e.
  Hypothesis Ho : eid_wf o.

  Lemma enc_inj : enc e = enc o -> e = o.
  Proof.
    intros H. rewrite <- (enc_ser_human e He), <- (enc_ser_human o Ho), H. reflexivity.
  Qed.

  Lemma enc_copy_index : Raw.copy_index (enc e) (enc o) = enc (copy_idx e o).
  Proof.
    unfold Raw.copy_index. rewrite land_enc_not_index, land_enc_index by assumption.
    rewrite N.lor_comm, <- N.shiftl_mul_pow2, lor_shiftl_add; [reflexivity|].
    apply enc_low; assumption.
  Qed.

  Lemma enc_copy_gen : Raw.copy_gen (enc e) (enc o) = enc (copy_gn e o).
  Proof.
    unfold Raw.copy_gen. rewrite land_enc_not_gen, land_enc_gen by assumption.
    rewrite <- N.shiftl_mul_pow2, lor_shiftl_add; [reflexivity|]. apply enc_low; assumption.
  Qed.

  Lemma lor_lt_pow2 a b n : a < 2 ^ n -> b < 2 ^ n -> N.lor a b < 2 ^ n.
  Proof.
    intros Ha Hb. destruct (N.eq_dec (N.lor a b) 0) as [->|Hz].
    - destruct n; reflexivity.
    - apply N.log2_lt_pow2; [lia|]. rewrite N.log2_lor.
      destruct (N.eq_dec a 0) as [->|Ha0]; destruct (N.eq_dec b 0) as [->|Hb0].
      + exfalso. apply Hz. reflexivity.
      + change (N.log2 0) with 0. rewrite N.max_0_l. apply N.log2_lt_pow2; lia.
      + change (N.log2 0) with 0. rewrite N.max_0_r. apply N.log2_lt_pow2; lia.
      + apply N.max_lub_lt; apply N.log2_lt_pow2; lia.
  Qed.

  Lemma enc_copy_index_gen : Raw.copy_index_gen (enc e) (enc o) = enc (copy_idx_gen e o).
  Proof.
    pose proof (enc_low e He) as Hle. pose proof (enc_low o Ho) as Hlo'.
    unfold Raw.copy_index_gen, copy_idx_gen, enc.
    cbn [idx gen fst snd] in *.
    set (a := idx e + 1) in *. set (b := idx o + 1) in *.
    assert (Hlo : N.lor a b < 2 ^ 48) by (apply lor_lt_pow2; assumption).
    assert (Hpos : N.lor a b <> 0).
    { intros Hc. apply N.lor_eq_0_l in Hc. subst a. lia. }
    replace (N.lor a b - 1 + 1) with (N.lor a b) by lia.
    rewrite <- (lor_shiftl_add a), <- (lor_shiftl_add b), <- (lor_shiftl_add (N.lor a b))
      by assumption.
    rewrite N.shiftl_lor.
    rewrite <- !N.lor_assoc. f_equal. rewrite !N.lor_assoc. f_equal. apply N.lor_comm.
  Qed.
End Enc2.

Lemma enc_binary e : eid_wf e -> Raw.de_binary (Raw.ser_binary (enc e)) = Some (enc e).
Proof.
  intros He. pose proof (enc_range e He) as [H1 H2]. unfold Raw.de_binary, Raw.ser_binary.
  destruct (N.eqb_spec (enc e - 1) U64_MAX) as [Hc|_].
  - change U64_MAX with (2 ^ 64 - 1) in Hc. lia.
  - f_equal. lia.
Qed.

(** Every 64-bit number whose low 48 bits are not all zero is the encoding of one pair. *)
Lemma enc_surj r : r < 2 ^ 64 -> N.land r INDEX_MASK <> 0 ->
  exists e, eid_wf e /\ enc e = r.
Proof.
  intros Hr Hlow. rewrite INDEX_MASK_ones, N.land_ones in Hlow.
  exists (r mod 2 ^ 48 - 1, r / 2 ^ 48). 
  assert (Hm : r mod 2 ^ 48 < 2 ^ 48) by (apply N.mod_lt; discriminate).
  split; [split|].
  - rewrite INDEX_MASK_eq. cbn [idx fst]. lia.
  - cbn [gen snd]. apply N.div_lt_upper_bound; [discriminate|].
    change (2 ^ 48 * 2 ^ 16) with (2 ^ 64). assumption.
  - unfold enc. cbn [idx gen fst snd]. rewrite (N.div_mod r (2 ^ 48)) at 3 by discriminate. lia.
Qed.
