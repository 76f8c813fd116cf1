(** Sums of weights over finite maps, used to count borrows. *)
From stdpp Require Import prelude list gmap fin_maps.
From Coq Require Import NArith.
Open Scope N_scope.

Section msum.
Context {K A : Type} `{Countable K}.
Implicit Types (m : gmap K A) (f g : A -> N).

Definition msum f (m : gmap K A) : N := map_fold (fun _ v acc => f v + acc) 0 m.

Lemma msum_empty f : msum f ∅ = 0.
Proof. apply map_fold_empty. Qed.
Lemma msum_insert f m i x : m !! i = None -> msum f (<[i := x]> m) = f x + msum f m.
Proof.
  intros Hi. unfold msum. rewrite map_fold_insert_L; [done| |done].
  intros. lia.
Qed.
Lemma msum_delete f m i x : m !! i = Some x -> msum f m = f x + msum f (delete i m).
Proof.
  intros Hi. rewrite <- (insert_delete m i x Hi) at 1. apply msum_insert. apply lookup_delete.
Qed.
Lemma msum_update f m i x y : m !! i = Some y -> f y + msum f (<[i := x]> m) = f x + msum f m.
Proof.
  intros Hi. rewrite (msum_delete f m i y Hi), <- insert_delete_insert, msum_insert;
    [lia|apply lookup_delete].
Qed.
Lemma msum_ge f m i x : m !! i = Some x -> f x <= msum f m.
Proof. intros Hi. rewrite (msum_delete f m i x Hi). lia. Qed.
Lemma msum_ge2 f m i j x y :
  i <> j -> m !! i = Some x -> m !! j = Some y -> f x + f y <= msum f m.
Proof.
  intros Hij Hi Hj. rewrite (msum_delete f m i x Hi).
  assert (f y <= msum f (delete i m)); [|lia].
  apply (msum_ge f (delete i m) j y). by rewrite lookup_delete_ne.
Qed.
Lemma msum_pos f m : 0 < msum f m -> exists i x, m !! i = Some x /\ 0 < f x.
Proof.
  induction m as [|i x m Hi IH] using map_ind.
  - rewrite msum_empty. lia.
  - rewrite msum_insert by done. intros Hp.
    destruct (decide (0 < f x)) as [Hx|Hx].
    + exists i, x. by rewrite lookup_insert.
    + destruct IH as (j & y & Hj & Hy); [lia|].
      exists j, y. split; [|done]. rewrite lookup_insert_ne; [done|congruence].
Qed.
Lemma msum_zero f m : (forall i x, m !! i = Some x -> f x = 0) -> msum f m = 0.
Proof.
  intros Hz. destruct (decide (0 < msum f m)) as [Hp|]; [|lia].
  apply msum_pos in Hp as (i & x & Hi & Hx). rewrite (Hz i x Hi) in Hx. lia.
Qed.
Lemma msum_zero_inv f m i x : msum f m = 0 -> m !! i = Some x -> f x = 0.
Proof. intros Hz Hi. pose proof (msum_ge f m i x Hi). lia. Qed.
Lemma msum_le_size f m : (forall x, f x <= 1) -> msum f m <= N.of_nat (size m).
Proof.
  intros Hf. induction m as [|i x m Hi IH] using map_ind.
  - rewrite msum_empty. lia.
  - rewrite msum_insert, map_size_insert_None by done. specialize (Hf x). lia.
Qed.
Lemma msum_plus f g m : msum (fun x => f x + g x) m = msum f m + msum g m.
Proof.
  induction m as [|i x m Hi IH] using map_ind.
  - by rewrite !msum_empty.
  - rewrite !msum_insert by done. rewrite IH. lia.
Qed.
Lemma msum_ext f g m : (forall x, f x = g x) -> msum f m = msum g m.
Proof.
  intros Hfg. induction m as [|i x m Hi IH] using map_ind.
  - by rewrite !msum_empty.
  - rewrite !msum_insert by done. rewrite IH, Hfg. done.
Qed.
End msum.
