(** Conventions shared by all model files. *)
From stdpp Require Import prelude list.
From Coq Require Import NArith.
From Verif Require Import EntityId.

(** Outcome of a Rust function: a value, a panic (failed assertion, overflow in a debug build,
    safe out-of-bounds indexing, unwrap of None), or undefined behaviour (unchecked access outside
    of a buffer). *)
Inductive res (A : Type) : Type :=
| Ok (a : A)
| Panic
| Ub.
Arguments Ok {A} a.
Arguments Panic {A}.
Arguments Ub {A}.

Definition rbind {A B} (x : res A) (f : A -> res B) : res B :=
  match x with Ok a => f a | Panic => Panic | Ub => Ub end.
Notation "'rlet' x := e 'in' f" := (rbind e (fun x => f))
  (at level 200, x pattern, e at level 100, f at level 200, right associativity).
Definition rmap {A B} (f : A -> B) (x : res A) : res B := rlet a := x in Ok (f a).

Definition is_ok {A} (x : res A) : Prop := exists a, x = Ok a.

(** [Vec::get(i)] / slice indexing with a usize kept as [N]: the guard avoids converting huge
    indices to [nat]. *)
Definition getN {A} (l : list A) (i : N) : option A :=
  if (i <? N.of_nat (length l))%N then l !! N.to_nat i else None.
(** In-place write at a valid index. *)
Definition setN {A} (l : list A) (i : N) (x : A) : list A :=
  if (i <? N.of_nat (length l))%N then <[N.to_nat i := x]> l else l.
(** Unchecked read: out of bounds is undefined behaviour. *)
Definition get_unchecked {A} (l : list A) (i : N) : res A :=
  match getN l i with Some x => Ok x | None => Ub end.
(** Checked indexing [l[i]]: out of bounds panics. *)
Definition get_index {A} (l : list A) (i : N) : res A :=
  match getN l i with Some x => Ok x | None => Panic end.

(** [l.len()] *)
Definition lenN {A} (l : list A) : N := N.of_nat (length l).


(** ** Lemmas *)
Lemma getN_lookup {A} (l : list A) i : getN l i = l !! N.to_nat i.
Proof.
  unfold getN. destruct (N.ltb_spec i (N.of_nat (length l))); [done|].
  symmetry. apply lookup_ge_None. lia.
Qed.
Lemma setN_insert {A} (l : list A) i x : setN l i x = <[N.to_nat i := x]> l.
Proof.
  unfold setN. destruct (N.ltb_spec i (N.of_nat (length l))); [done|].
  symmetry. apply list_insert_ge. lia.
Qed.
Lemma setN_length {A} (l : list A) i x : length (setN l i x) = length l.
Proof. rewrite setN_insert. apply insert_length. Qed.
Lemma getN_Some_lt {A} (l : list A) i x : getN l i = Some x -> (i < lenN l)%N.
Proof. rewrite getN_lookup. intros H%lookup_lt_Some. unfold lenN. lia. Qed.
Lemma getN_lt {A} (l : list A) i : (i < lenN l)%N -> exists x, getN l i = Some x.
Proof. rewrite getN_lookup. unfold lenN. intros H. apply lookup_lt_is_Some. lia. Qed.
Lemma getN_ge {A} (l : list A) i : (lenN l <= i)%N -> getN l i = None.
Proof. rewrite getN_lookup. unfold lenN. intros H. apply lookup_ge_None. lia. Qed.
Lemma getN_setN_eq {A} (l : list A) i x : (i < lenN l)%N -> getN (setN l i x) i = Some x.
Proof. unfold lenN. intros H. rewrite getN_lookup, setN_insert. apply list_lookup_insert. lia. Qed.
Lemma getN_setN_ne {A} (l : list A) i j x : i <> j -> getN (setN l i x) j = getN l j.
Proof. intros H. rewrite !getN_lookup, setN_insert. apply list_lookup_insert_ne. lia. Qed.
Lemma lenN_setN {A} (l : list A) i x : lenN (setN l i x) = lenN l.
Proof. unfold lenN. by rewrite setN_length. Qed.
Lemma lenN_app {A} (l k : list A) : lenN (l ++ k) = (lenN l + lenN k)%N.
Proof. unfold lenN. rewrite app_length. lia. Qed.
Lemma getN_app_l {A} (l k : list A) i : (i < lenN l)%N -> getN (l ++ k) i = getN l i.
Proof. unfold lenN. intros H. rewrite !getN_lookup. apply lookup_app_l. lia. Qed.
Lemma getN_app_r {A} (l k : list A) i : (lenN l <= i)%N -> getN (l ++ k) i = getN k (i - lenN l).
Proof.
  unfold lenN. intros H. rewrite !getN_lookup. rewrite lookup_app_r by lia. f_equal. lia.
Qed.
Lemma getN_nil {A} i : getN (@nil A) i = None.
Proof. by rewrite getN_lookup. Qed.
Lemma lenN_cons {A} (x : A) l : lenN (x :: l) = (1 + lenN l)%N.
Proof. unfold lenN. cbn [length]. lia. Qed.
