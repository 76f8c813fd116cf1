(** When a component is there, and when a unique is, told from the calls that were made and their answers. *)
From stdpp Require Import prelude list gmap.
From Coq Require Import NArith.
From Verif Require Import StorageTypes EmptyCond.
Local Open Scope N_scope.

(** A successful call that takes the component [T] away from [e]. *)
Definition takes (md : mode) (T : N) (e : eid) (x : N * ccall * bool) : Prop :=
  x.2 = true ∧ (x.1.2 = CRem md T e ∨ x.1.2 = CStrip e ∨ x.1.2 = CDel e ∨ x.1.2 = CClear).

(** Something for which [P] holds happened, and nothing for which [Q] holds since. *)
Definition since {A} (P Q : A → Prop) (tr : list A) : Prop :=
  ∃ pre x post, tr = pre ++ x :: post ∧ P x ∧ ∀ y, y ∈ post → ¬ Q y.

(** [e] has a [T] in its plain or wrapped form: it was given one that nothing took away since. *)
Definition has (tr : list (N * ccall * bool)) (md : mode) (T : N) (e : eid) : Prop :=
  since (λ x, x.1.2 = CAdd md T e ∧ x.2 = true) (takes md T e) tr.

(** A call that adds the unique [T]: the forms for values that stay on their thread add nothing from other
    threads than the one that made the world ([home]). *)
Definition adds (home : N → Prop) (T : N) (x : N * ccall * bool) : Prop :=
  ∃ md, x.1.2 = CAddU md T ∧ x.2 = true ∧ (md = MPlain ∨ md = MNonSync ∨ home x.1.1).
(** There is a unique [T]: it was added and not removed since. *)
Definition there (home : N → Prop) (tr : list (N * ccall * bool)) (T : N) : Prop :=
  since (adds home T) (λ x, x.1.2 = CRemU T ∧ x.2 = true) tr.

(** The answer of the user's storage [n] is [b]: the latest one it was told to give. *)
Definition gives (n : N) (b : bool) (x : N * ccall * bool) : Prop :=
  (x.1.2 = CUser n b ∨ x.1.2 = CSays n b) ∧ x.2 = true.
Definition user_says (tr : list (N * ccall * bool)) (n : N) (b : bool) : Prop :=
  since (gives n b) (λ x, ∃ b', gives n b' x) tr.

(** An entity was created. *)
Definition spawned (tr : list (N * ccall * bool)) : Prop := ∃ t i b, (t, CSpawn i, b) ∈ tr.
