(** What an operation of a world does when user code panics in the middle: it is a list of small
    actions, and a panic ends the list early. *)
From stdpp Require Import prelude list gmap.
From Coq Require Import NArith.
From Verif Require EntitiesSpec.
From Verif Require Import EntityId Base SparseSetSpec Entities World Panics.
Open Scope N_scope.

(** ** One component type: a map from owners to components, at most one owner per index *)
Section cells.
Context {T : Type}.
Implicit Types (m : gmap eid T).
(** A component is given to [k]: whoever had one at this index loses it. *)
Definition m_put (k : eid) (v : T) m : gmap eid T := <[k := v]> (filter (λ x, idx x.1 ≠ idx k) m).
(** The component of [e] is taken out, or the one of an older owner of the index. *)
Definition m_take (e : eid) m : gmap eid T := filter (λ x, ¬ (idx x.1 = idx e ∧ gen x.1 <= gen e)) m.
(** The id that a storage shows for a component of [d0]: its generation can be wrong, too large (C13). *)
Definition id_of (d d0 : eid) : Prop := idx d = idx d0 ∧ gen d0 <= gen d.
(** A newer owner of the index has a component. *)
Definition newer m (e : eid) : Prop := ∃ k, idx k = idx e ∧ gen e < gen k ∧ is_Some (m !! k).
End cells.

(** ** Worlds *)
Section spec.
Context {V : Type}.

Record xstate := Xs {
  x_alive : gset eid;
  x_issued : list eid;                (* every handle ever given out or spawned *)
  x_cells : N -> gmap eid V;
}.
Definition x_init : xstate := Xs ∅ [] (λ _, ∅).
Implicit Types (st : xstate).

Inductive act :=
| ANew (e : eid)                      (* a new entity *)
| AKill (e : eid)                     (* the entity dies, its components stay *)
| AKillAll
| APut (i : N) (e : eid) (v : V)
| ATake (i : N) (e : eid)
| AClear (i : N)
| AAlter (i : N) (e : eid) (f : V -> V)
| AFail.                              (* an assertion of the crate *)

Definition at_type st (i : N) (f : gmap eid V -> gmap eid V) : xstate :=
  Xs (x_alive st) (x_issued st) (λ j, if decide (j = i) then f (x_cells st j) else x_cells st j).
Definition effect st (a : act) : xstate :=
  match a with
  | ANew e => Xs (x_alive st ∪ {[e]}) (x_issued st ++ [e]) (x_cells st)
  | AKill e => Xs (x_alive st ∖ {[e]}) (x_issued st) (x_cells st)
  | AKillAll => Xs ∅ (x_issued st) (x_cells st)
  | APut i e v => at_type st i (m_put e v)
  | ATake i e => at_type st i (m_take e)
  | AClear i => at_type st i (λ _, ∅)
  | AAlter i e f => at_type st i (alter f e)
  | AFail => st
  end.

(** The callbacks: an insertion callback runs before its action, a removal callback after it and only
    when the component was the one of the handle. *)
Definition panics_before (cbi : N -> eid -> V -> bool) (a : act) : bool :=
  match a with APut i e v => cbi i e v | AFail => true | _ => false end.
Definition panics_after (cbr : N -> eid -> V -> bool) st (a : act) : bool :=
  match a with
  | ATake i e => match x_cells st i !! e with Some v => cbr i e v | None => false end
  | _ => false
  end.
(** [false]: interrupted. *)
Fixpoint perform (cbi cbr : N -> eid -> V -> bool) (acts : list act) st : xstate * bool :=
  match acts with
  | [] => (st, true)
  | a :: acts =>
      if panics_before cbi a then (st, false)
      else if panics_after cbr st a then (effect st a, false)
      else perform cbi cbr acts (effect st a)
  end.

(** The components an entity has, one type after the other, each taken out when it is seen. *)
Fixpoint take_vals (c : N -> gmap eid V) (e : eid) (is : list N) : list (option V) :=
  match is with
  | [] => []
  | i :: is => c i !! e :: take_vals (λ j, if decide (j = i) then m_take e (c j) else c j) e is
  end.
(** Up to the first type of which the entity has a component (finding 20). *)
Fixpoint upto (c : N -> gmap eid V) (e : eid) (is : list N) : list N :=
  match is with
  | [] => []
  | i :: is => i :: if decide (is_Some (c i !! e)) then [] else upto c e is
  end.
Definition has_one (c : N -> gmap eid V) (e : eid) (is : list N) : bool :=
  bool_decide (Exists (λ i, is_Some (c i !! e)) is).
(** [l] lists the components of one type, with the id that is shown for each. *)
Definition listing (m : gmap eid V) (l : list (eid * eid * V)) : Prop :=
  NoDup (idx <$> (l.*1.*1)) ∧ (∀ d k v, (d, k, v) ∈ l -> id_of d k ∧ m !! k = Some v) ∧
  (∀ k v, m !! k = Some v -> ∃ d, (d, k, v) ∈ l).

(** What the operations do, and what they answer when they are not interrupted. *)
Inductive acts_of st : wop V -> list act -> wevent V -> Prop :=
| XaAddEntity cs h :
    h ∉ x_issued st -> (∀ x, x ∈ x_alive st -> idx x ≠ idx h) ->
    acts_of st (WAddEntity cs) (ANew h :: ((λ c, APut c.1 h c.2) <$> cs)) (WId h)
| XaAddComponent e cs :
    e ∈ x_alive st -> acts_of st (WAddComponent e cs) ((λ c, APut c.1 e c.2) <$> cs) WUnit
| XaAddComponentDead e cs :
    e ∉ x_alive st -> acts_of st (WAddComponent e cs) [AFail] WUnit
| XaRemove e is :
    acts_of st (WRemove e is) ((λ i, ATake i e) <$> is) (WVals (take_vals (x_cells st) e is))
| XaDeleteComponent e is :
    acts_of st (WDeleteComponent e is) ((λ i, ATake i e) <$> upto (x_cells st) e is) WUnit
| XaViewDelete e is :
    acts_of st (WViewDelete e is) ((λ i, ATake i e) <$> is) (WBool (has_one (x_cells st) e is))
| XaDeleteEntity e order :
    e ∈ x_alive st ->
    acts_of st (WDeleteEntity e order) (AKill e :: ((λ i, ATake i e) <$> order)) (WBool true)
| XaDeleteEntityDead e order :
    e ∉ x_alive st -> acts_of st (WDeleteEntity e order) [] (WBool false)
| XaStrip e order : acts_of st (WStrip e order) ((λ i, ATake i e) <$> order) WUnit
| XaBulkStrip l order : acts_of st (WBulkStrip l order) (order ≫= λ i, ATake i <$> l) WUnit
| XaRetainStorage e keep order :
    acts_of st (WRetainStorage e keep order) ((λ i, ATake i e) <$> filter (λ i, i ∉ keep) order) WUnit
| XaClear order : acts_of st (WClear order) ((AClear <$> order) ++ [AKillAll]) WUnit
| XaGet e i : acts_of st (WGet e i) [] (WVal (x_cells st i !! e))
| XaWrite e i f : acts_of st (WWrite e i f) [AAlter i e f] (WBool (bool_decide (is_Some (x_cells st i !! e))))
| XaRetain i f l :
    listing (x_cells st i) l ->
    acts_of st (WRetain i f) ((λ x, ATake i x.1.1) <$> filter (λ x, f x.1.1 x.2 = false) l) WUnit
| XaSpawn e :
    (* perhaps one that was deleted: C08 *)
    (∀ x, x ∈ x_alive st -> idx x ≠ idx e) -> acts_of st (WSpawn e) [ANew e] (WBool true)
| XaSpawnRefused e : acts_of st (WSpawn e) [] (WBool false)
| XaDeleteAny is dl :
    NoDup dl.*1 ->
    (∀ d, d ∈ dl.*1 -> ∃ i k, i ∈ is ∧ id_of d k ∧ is_Some (x_cells st i !! k)) ->
    (∀ i k, i ∈ is -> is_Some (x_cells st i !! k) -> ∃ d, d ∈ dl.*1 ∧ id_of d k) ->
    acts_of st (WDeleteAny is dl)
      ((AClear <$> is) ++
       (dl ≫= λ x, if decide (x.1 ∈ x_alive st) then AKill x.1 :: ((λ i, ATake i x.1) <$> x.2) else []))
      WUnit.

(** One call.  A retain with a closure that panics itself, or writes: each component is shown at most
    once; the entities are never changed. *)
Definition shown (f : list (eid * V) -> eid -> V -> panswer * option V) (m m' : gmap eid V) (ok : bool) : Prop :=
  ∃ l, listing m l ∧ ∃ n, (ok = true -> n = length l) ∧
    (∀ d k v, (d, k, v) ∈ take n l -> ∃ seen ans w, f seen d v = (ans, w) ∧
       m' !! k = match ans with ADrop => None | _ => Some (default v w) end) ∧
    (∀ d k v, (d, k, v) ∈ drop n l -> m' !! k = Some v) ∧
    (∀ k, m !! k = None -> m' !! k = None).

Inductive xp_step st : xop V -> option (wevent V) -> xstate -> Prop :=
| XpOp cbi cbr o acts ev :
    acts_of st o acts ev ->
    xp_step st (XOp cbi cbr o) (if (perform cbi cbr acts st).2 then Some ev else None) (perform cbi cbr acts st).1
| XpRetain cbr i f m' ok :
    shown f (x_cells st i) m' ok ->
    xp_step st (XRetain cbr i f) (if ok : bool then Some WUnit else None) (at_type st i (λ _, m')).
Inductive xp_run : xstate -> list (xop V) -> list (option (wevent V)) -> xstate -> Prop :=
| XpNil st : xp_run st [] [] st
| XpCons st o ev st1 ops evs st2 :
    xp_step st o ev st1 -> xp_run st1 ops evs st2 -> xp_run st (o :: ops) (ev :: evs) st2.
End spec.
Arguments xstate : clear implicits. Arguments act : clear implicits.

(** ** The histories considered *)
Section allowed.
Context {V : Type} (kind : N -> Track.tracking).
(** The types of an addition are different from one another. *)
Definition distinct (o : wop V) : Prop :=
  match o with WAddEntity cs | WAddComponent _ cs => NoDup cs.*1 | _ => True end.
(** The handles an operation is given; [None] for the operations about everybody. *)
Definition named (o : wop V) : option (list eid) :=
  match o with
  | WAddEntity _ => Some []
  | WAddComponent e _ | WRemove e _ | WDeleteComponent e _ | WViewDelete e _ | WDeleteEntity e _
  | WStrip e _ | WRetainStorage e _ _ | WGet e _ | WWrite e _ _ | WSpawn e => Some [e]
  | WBulkStrip l _ => Some l
  | WClear _ | WRetain _ _ | WDeleteAny _ _ => None
  end.
Definition x_allowed (w : world V) (o : xop V) : Prop :=
  match o with
  | XRetain _ i _ => is_Some (w_stores w !! i)
  | XOp _ _ o =>
    match o with
    | WAddEntity _ => lenN (e_data (w_ents w)) + 1 < max_idx
    | WAddComponent _ _ => True
    | WRemove e _ | WDeleteComponent e _ | WViewDelete e _ | WWrite e _ _ | WGet e _
    | WStrip e _ | WRetainStorage e _ _ => gen e < U16_MAX
    | WBulkStrip l _ => Forall (λ e, gen e < U16_MAX) l
    | WDeleteEntity e _ => gen e < EntitiesSpec.last_gen
    | WClear order =>
        order ≡ₚ (map_to_list (w_stores w)).*1 ∧
        ∀ i e, getN (e_data (w_ents w)) i = Some e -> gen e < EntitiesSpec.last_gen
    | WRetain i _ => is_Some (w_stores w !! i)
    | WSpawn e => gen e < U16_MAX ∧ idx e + 1 < max_idx ∧
        ∀ h, is_alive (w_ents w) h = true -> idx h = idx e -> gen e < gen h
    | WDeleteAny is dl =>
        (∀ e, is_alive (w_ents w) e = true -> gen e < EntitiesSpec.last_gen) ∧
        dl.*1 ≡ₚ remove_dups (is ≫= λ i, match w_stores w !! i with Some s => SparseSet.ss_dense s | None => [] end)
    end
  end.
Fixpoint x_history (w : world V) (ops : list (xop V)) : Prop :=
  match ops with
  | [] => True
  | o :: ops => x_allowed w o ∧ ∀ w' ev, x_step kind w o = Ok (w', ev) -> x_history w' ops
  end.
End allowed.
