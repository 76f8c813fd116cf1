(** The f32 arithmetic of the sail times stays within the bounds IterProofs2.v needs. *)
From stdpp Require Import prelude.
From Coq Require Import NArith Lia.
From Verif Require Import Base Iter.
Open Scope N_scope.

Lemma round24_le x : 8 * round24 x <= 9 * x.
Proof.
  unfold round24. destruct (decide (N.log2 x - 23 = 0)) as [E|Hk].
  { rewrite E. change (2 ^ 0) with 1. rewrite N.div_1_r, N.mod_1_r. change (2 * 0 <? 1) with true. cbn [orb]. lia. }
  set (k := N.log2 x - 23) in *.
  assert (x = 2 ^ k * (x / 2 ^ k) + x mod 2 ^ k) as Hx by (apply N.div_mod, N.pow_nonzero; lia).
  assert (x mod 2 ^ k < 2 ^ k) as Hr by (apply N.mod_lt, N.pow_nonzero; lia).
  assert (0 < x) as Hpos.
  { destruct x; [|lia]. by subst k. }
  assert (2 ^ k * 8 <= x) as H8.
  { destruct (N.log2_spec x Hpos) as [Hl _]. etrans; [|exact Hl].
    change 8 with (2 ^ 3). rewrite <- N.pow_add_r. apply N.pow_le_mono_r; lia. }
  assert (8 <= x / 2 ^ k) as Hq by (apply N.div_le_lower_bound; [apply N.pow_nonzero; lia|done]).
  apply (N.mul_le_mono_r _ _ (2 ^ k)) in Hq.
  clear -Hx Hr Hq. clearbody k. revert Hx Hr Hq. generalize (x / 2 ^ k). generalize (x mod 2 ^ k). generalize (2 ^ k).
  intros p r q Hx Hr Hq. destruct (_ || _); lia.
Qed.
(** Rounding does not pass a representable number. *)
Lemma round24_mono x m k : m <= 2 ^ 24 -> x <= m * 2 ^ k -> round24 x <= m * 2 ^ k.
Proof.
  intros Hm Hle. unfold round24. set (j := N.log2 x - 23).
  assert (x = 2 ^ j * (x / 2 ^ j) + x mod 2 ^ j) as Hx by (apply N.div_mod, N.pow_nonzero; lia).
  assert (x mod 2 ^ j < 2 ^ j) as Hr by (apply N.mod_lt, N.pow_nonzero; lia).
  destruct (decide (x mod 2 ^ j = 0)) as [H0|H0].
  { rewrite H0. assert (2 * 0 <? 2 ^ j = true) as -> by (apply N.ltb_lt; lia). cbn [orb]. lia. }
  destruct (N.le_gt_cases j k) as [Hjk|Hjk].
  - assert (m * 2 ^ k = m * 2 ^ (k - j) * 2 ^ j) as HE.
    { rewrite <- N.mul_assoc, <- N.pow_add_r. by replace (k - j + j) with k by lia. }
    rewrite HE in *. generalize dependent (m * 2 ^ (k - j)). intros M Hle HE.
    clear -Hx Hr H0 Hle. clearbody j. revert Hx Hr H0 Hle.
    generalize (x / 2 ^ j). generalize (x mod 2 ^ j). generalize (2 ^ j). intros p r q Hx Hr H0 Hle.
    assert (q + 1 <= M) as HM.
    { destruct (N.le_gt_cases (q + 1) M) as [|Hgt]; [done|]. exfalso.
      assert (M <= q) as H1 by lia. apply (N.mul_le_mono_r _ _ p) in H1. lia. }
    apply (N.mul_le_mono_r _ _ p) in HM. destruct (_ || _); lia.
  - exfalso. assert (0 < x) as Hpos by (destruct x; [by rewrite N.mod_0_l in H0 by (apply N.pow_nonzero; lia)|lia]).
    destruct (N.log2_spec x Hpos) as [Hl _].
    assert (m * 2 ^ k <= 2 ^ N.log2 x) as H1.
    { etrans; [apply N.mul_le_mono_r, Hm|]. rewrite <- N.pow_add_r. apply N.pow_le_mono_r; lia. }
    assert (x = 2 ^ N.log2 x) as HX by lia. rewrite HX in H0. apply H0.
    replace (N.log2 x) with (N.log2 x - j + j) at 1 by lia. rewrite N.pow_add_r.
    apply N.mod_mul, N.pow_nonzero. lia.
Qed.
Lemma f32_id_le x m k : m <= 2 ^ 24 -> x <= m * 2 ^ k -> f32_id x <= m * 2 ^ k.
Proof. intros Hm Hx. unfold f32_id. etrans; [apply N.le_min_r|]. by apply round24_mono. Qed.
Lemma f32_half_le x : f32_half x <= x.
Proof.
  unfold f32_half. etrans; [apply N.le_min_r|]. apply N.div_le_upper_bound; [done|].
  pose proof (round24_le x). lia.
Qed.
Lemma f32_track_le x : f32_track x <= 4 * x.
Proof. unfold f32_track. etrans; [apply N.le_min_r|]. pose proof (round24_le x). lia. Qed.
Lemma f32_not_le x : f32_not x <= 4 * x.
Proof.
  unfold f32_not. etrans; [apply N.le_min_r|]. apply N.div_le_upper_bound; [done|].
  pose proof (round24_le x) as H1. pose proof (round24_le (round24 x * 10066330)) as H2.
  change (2 ^ 23) with 8388608. lia.
Qed.
(** 1.2 rounded to f32; a length f32 cannot represent; the sail time of !&mut. *)
Example f32_values :
  f32_not 10 = 12 ∧ f32_not 5 = 6 ∧ f32_id (2 ^ 24 + 3) = 2 ^ 24 + 4 ∧ f32_half USIZE_MAX = 2 ^ 63 ∧
  f32_half 3 = 1 ∧ f32_track USIZE_MAX = USIZE_MAX.
Proof. by vm_compute. Qed.
