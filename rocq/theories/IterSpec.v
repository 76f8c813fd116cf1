(** What iteration should yield, from the components of the entities alone. *)
From stdpp Require Import prelude list.
From Coq Require Import NArith.
From Verif Require Import EntityId Base SparseSetSpec Iter.
Open Scope N_scope.

Inductive item (V : Type) :=
| IVal (v : V)
| IId (e : eid)
| IOpt (v : option V)
| IUnit
| ITup (l : list (item V))
| IOne (x : item V)
| ITwo (x : item V).
Arguments IVal {V}. Arguments IId {V}. Arguments IOpt {V}. Arguments IUnit {V}. Arguments ITup {V}.
Arguments IOne {V}. Arguments ITwo {V}.

(** All present, or nothing. *)
Fixpoint all_some {A} (l : list (option A)) : option (list A) :=
  match l with
  | [] => Some []
  | None :: _ => None
  | Some x :: l => cons x <$> all_some l
  end.

Section spec.
Context {V : Type}.
(** [c e i] is the component of type [i] of [e]; a view of [i] reports insertions in
    ([from_ins i], [upto i]], modifications in ([from_mod i], [upto i]]. *)
Context (c : eid -> N -> option (row V)) (from_ins from_mod upto : N -> N).

Definition in_window (t from upto : N) : bool := bool_decide (from < t ∧ t <= upto).
Definition marked (k : mark) (i : N) (r : row V) : bool :=
  let ins := in_window (r_ins r) (from_ins i) (upto i) in
  let md := in_window (r_mod r) (from_mod i) (upto i) in
  match k with MIns => ins | MMod => md | MInsMod => ins || md end.

(** The item of [e], if [e] is to be yielded. *)
Fixpoint denote (q : query) (e : eid) : option (item V) :=
  match q with
  | QView i | QMut i => (λ r, IVal (r_val r)) <$> c e i
  | QIds l => if decide (e ∈ l) then Some (IId e) else None
  | QOpt i => Some (IOpt (r_val <$> c e i))
  | QNot _ i => match c e i with Some _ => None | None => Some IUnit end
  | QTrack neg k i =>
      match c e i with
      | Some r => if xorb neg (marked k i r) then Some (IVal (r_val r)) else None
      | None => None
      end
  | QTuple qs => ITup <$> all_some ((λ q, denote q e) <$> qs)
  | QOr a b =>
      match denote a e with
      | Some x => Some (IOne x)
      | None => ITwo <$> denote b e
      end
  end.
End spec.

(** ** The expressions the properties are about *)
(** No [!&mut] inside: its sail time is usize::MAX, and adding anything to it overflows. *)
Fixpoint light (q : query) : bool :=
  match q with
  | QNot true _ => false
  | QTuple qs => forallb light qs
  | QOr a b => light a && light b
  | _ => true
  end.
Fixpoint or_free (q : query) : bool :=
  match q with
  | QOr _ _ => false
  | QTuple qs => forallb or_free qs
  | _ => true
  end.
(** What can be looked up by id: everything but a list of ids. *)
Fixpoint sailable (q : query) : bool :=
  match q with
  | QIds _ => false
  | QTuple qs => forallb sailable qs
  | QOr _ b => sailable b
  | _ => true
  end.
Fixpoint size (q : query) : N :=
  match q with
  | QTuple qs => foldr (λ q n, size q + n) 1 qs
  | QOr a b => size a + size b + 1
  | _ => 1
  end.
(** Only views and [inserted] have [|] (src/or.rs:45-75). *)
Definition has_bitor (q : query) : bool :=
  match q with QView _ | QMut _ | QTrack false MIns _ => true | _ => false end.
Section usable.
Context (tracks_ins tracks_mod : N -> bool).
(** - a list of ids contains no id twice and no dead id (generation 65535);
    - [inserted] and [modified] are used on storages that track what they ask for (the methods do not
      exist for the others);
    - in a tuple, someone can drive, at most one cannot be looked up, [!&mut] occurs directly or not at
      all, and a member that claims it can be looked up can;
    - on the left of [|] is what has this operator, on the right something that can drive, without
      another [|]. *)
Fixpoint usable (q : query) : Prop :=
  match q with
  | QView _ | QMut _ | QOpt _ | QNot _ _ => True
  | QIds l => NoDup l ∧ Forall (λ e, gen e < U16_MAX) l ∧ N.of_nat (length l) <= 2 ^ 48
  | QTrack _ MIns i => tracks_ins i = true
  | QTrack _ MMod i => tracks_mod i = true
  | QTrack _ MInsMod i => tracks_ins i = true ∧ tracks_mod i = true
  | QTuple qs =>
      (fix all qs := match qs with [] => True | q :: qs => usable q ∧ all qs end) qs ∧
      Forall (λ q, (light q = true ∨ ∃ i, q = QNot true i) ∧ (can_sailor q = true -> sailable q = true) ∧
                   (can_captain q = true ∨ can_sailor q = true)) qs ∧
      Exists (λ q, can_captain q = true) qs ∧
      (length (filter (λ q, can_sailor q = false) qs) <= 1)%nat
  | QOr a b => has_bitor a = true ∧ usable a ∧ usable b ∧ or_free b = true ∧ can_captain b = true
  end.
End usable.
(** Nothing empty is walked, resp. nothing empty is walked second. *)
Section stocked.
Context (has : N -> Prop).
Fixpoint full (q : query) : Prop :=
  match q with
  | QView i | QMut i | QOpt i | QNot _ i | QTrack _ _ i => has i
  | QIds l => l ≠ []
  | QTuple qs => (fix all qs := match qs with [] => True | q :: qs => full q ∧ all qs end) qs
  | QOr a _ => full a
  end.
Fixpoint stocked (q : query) : Prop :=
  match q with
  | QTuple qs => (fix all qs := match qs with [] => True | q :: qs => stocked q ∧ all qs end) qs
  | QOr _ b => full b
  | _ => True
  end.
End stocked.

(** The storages an expression mentions, from left to right. *)
Fixpoint storages (q : query) : list N :=
  match q with
  | QView i | QMut i | QOpt i | QNot _ i | QTrack _ _ i => [i]
  | QIds _ => []
  | QTuple qs => qs ≫= storages
  | QOr a b => storages a ++ storages b
  end.

(** Views and tuples of them, to any depth; there is no empty tuple. *)
Fixpoint plain (q : query) : Prop :=
  match q with
  | QView _ | QMut _ => True
  | QTuple qs => qs ≠ [] ∧ (fix all qs := match qs with [] => True | q :: qs => plain q ∧ all qs end) qs
  | _ => False
  end.

(** What a yielded value shows, and the positions it refers to. *)
Fixpoint erase {V} (o : out V) : item V :=
  match o with
  | ORef _ _ v => IVal v
  | OId e => IId e
  | OOpt o => IOpt (snd <$> o)
  | OUnit => IUnit
  | OTup l => ITup (erase <$> l)
  | OOne o => IOne (erase o)
  | OTwo o => ITwo (erase o)
  end.
Fixpoint refs {V} (o : out V) : list (N * N) :=
  match o with
  | ORef i p _ => [(i, p)]
  | OOpt (Some (i, p, _)) => [(i, p)]
  | OTup l => l ≫= refs
  | OOne o | OTwo o => refs o
  | _ => []
  end.

(** ** Ways of consuming an iterator *)
Section consume.
Context {V : Type}.
Implicit Type it : iter V.
(** A loop calling [next] until it answers [None] visits the list. *)
Inductive collects {A} (next : iter V -> res (iter V * option A)) : iter V -> list A -> Prop :=
| collects_nil it it' : next it = Ok (it', None) -> collects next it []
| collects_cons it it' x l : next it = Ok (it', Some x) -> collects next it' l -> collects next it (x :: l).
(** A mix of calls, [true] for next_back: the answers. *)
Fixpoint play (calls : list bool) it : res (iter V * list (option (out V))) :=
  match calls with
  | [] => Ok (it, [])
  | b :: calls =>
      rlet (it', o) := (if b then it_next_back it else it_next it) in
      rlet (it'', os) := play calls it' in
      Ok (it'', o :: os)
  end.
(** What came out at the front, and at the back. *)
Definition came (b : bool) (calls : list bool) (os : list (option (out V))) : list (out V) :=
  omap (λ x, if eqb x.1 b then x.2 else None) (zip calls os).
(** The pieces a pool ends up with when it splits as it likes, from first to last. *)
Inductive pieces : iter V -> list (iter V) -> Prop :=
| pieces_leaf it : pieces it [it]
| pieces_whole it it' : it_split it = Ok (it', None) -> pieces it [it']
| pieces_split it a b la lb :
    it_split it = Ok (a, Some b) -> pieces a la -> pieces b lb -> pieces it (la ++ lb).
End consume.
