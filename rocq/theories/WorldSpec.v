(** Specification of a world: a table with one row per live entity; a row has at most one cell per
    component type.  No allocator, no storage. *)
From stdpp Require Import prelude list gmap.
From Coq Require Import NArith.
From Verif Require EntitiesSpec.
From Verif Require Import EntityId Base SparseSetSpec Entities World.
Open Scope N_scope.

Section spec.
Context {V : Type}.

(** A cell is what SparseSetSpec calls [row]: the component, when it was inserted, when it was
    last written to. *)
Notation cells := (gmap N (row V)).
Record table := Table {
  t_rows : gmap eid cells;
  t_issued : list eid;       (* every handle ever given out or spawned *)
  t_now : N;                 (* the clock *)
}.
Definition t_init : table := Table ∅ [] 1.

Definition t_cell (t : table) (e : eid) (i : N) : option (row V) := t_rows t !! e ≫= (.!! i).

(** Give a component: a new cell is stamped as inserted, an existing one as written. *)
Definition put_cell (now : N) (r : cells) (c : N * V) : cells :=
  <[c.1 := match r !! c.1 with Some o => Row c.2 (r_ins o) now | None => Row c.2 now 0 end]> r.
Definition put_cells (now : N) (r : cells) (cs : list (N * V)) : cells := foldl (put_cell now) r cs.

(** Take components out, one after the other. *)
Fixpoint take_cells (r : cells) (is : list N) : cells * list (option V) :=
  match is with
  | [] => (r, [])
  | i :: is => let p := take_cells (delete i r) is in (p.1, (r_val <$> r !! i) :: p.2)
  end.
(** Delete the first of the listed components that the row has (finding 20: the others stay). *)
Fixpoint delete_first (r : cells) (is : list N) : cells :=
  match is with
  | [] => r
  | i :: is => match r !! i with Some _ => delete i r | None => delete_first r is end
  end.

Definition write_cell (now : N) (f : V -> V) (c : row V) : row V := Row (f (r_val c)) (r_ins c) now.

Definition set_rows (t : table) (rows : gmap eid cells) : table := Table rows (t_issued t) (t_now t + 1).

(** Does the row have one of these components? *)
Definition has_any (is : list N) (x : eid * cells) : Prop := ∃ i, i ∈ is ∧ is_Some (x.2 !! i).
Global Instance has_any_dec is x : Decision (has_any is x).
Proof.
  refine (cast_if (decide (Exists (λ i, is_Some (x.2 !! i)) is))); unfold has_any;
    rewrite <- Exists_exists; done.
Defined.

Global Instance any_cell_dec (f : N -> option (row V)) (is : list N) : Decision (∃ i, i ∈ is ∧ is_Some (f i)).
Proof.
  refine (cast_if (decide (Exists (λ i, is_Some (f i)) is))); rewrite <- Exists_exists; done.
Defined.

(** Is some live entity in this slot? *)
Definition occupied (t : table) (e : eid) : Prop := ∃ h, is_Some (t_rows t !! h) ∧ idx h = idx e.

Inductive t_step (t : table) : wop V -> wevent V -> table -> Prop :=
| TAddEntity cs h :
    h ∉ t_issued t ->
    t_step t (WAddEntity cs) (WId h)
      (Table (<[h := put_cells (t_now t) ∅ cs]> (t_rows t)) (t_issued t ++ [h]) (t_now t + 1))
| TAddComponent e cs r :
    t_rows t !! e = Some r ->
    t_step t (WAddComponent e cs) WUnit (set_rows t (<[e := put_cells (t_now t) r cs]> (t_rows t)))
| TRemove e is :
    let p := take_cells (default ∅ (t_rows t !! e)) is in
    t_step t (WRemove e is) (WVals p.2) (set_rows t (alter (λ _, p.1) e (t_rows t)))
| TDeleteComponent e is :
    t_step t (WDeleteComponent e is) WUnit (set_rows t (alter (λ r, delete_first r is) e (t_rows t)))
| TViewDelete e is :
    t_step t (WViewDelete e is) (WBool (bool_decide (∃ i, i ∈ is ∧ is_Some (t_cell t e i))))
      (set_rows t (alter (filter (λ c, c.1 ∉ is)) e (t_rows t)))
| TDeleteEntity e order r :
    t_rows t !! e = Some r ->
    t_step t (WDeleteEntity e order) (WBool true) (set_rows t (delete e (t_rows t)))
| TDeleteEntityDead e order :
    t_rows t !! e = None ->
    t_step t (WDeleteEntity e order) (WBool false) t
| TStrip e order :
    t_step t (WStrip e order) WUnit (set_rows t (alter (λ _, ∅) e (t_rows t)))
| TBulkStrip l order :
    t_step t (WBulkStrip l order) WUnit
      (set_rows t (map_imap (λ e r, Some (if decide (e ∈ l) then ∅ else r)) (t_rows t)))
| TRetainStorage e keep order :
    t_step t (WRetainStorage e keep order) WUnit
      (set_rows t (alter (filter (λ c, c.1 ∈ keep)) e (t_rows t)))
| TClear order :
    t_step t (WClear order) WUnit (set_rows t ∅)
| TGet e i :
    t_step t (WGet e i) (WVal (r_val <$> t_cell t e i)) (set_rows t (t_rows t))
| TWrite e i f :
    t_step t (WWrite e i f) (WBool (bool_decide (is_Some (t_cell t e i))))
      (set_rows t (alter (alter (write_cell (t_now t) f) i) e (t_rows t)))
| TRetain i f :
    t_step t (WRetain i f) WUnit
      (set_rows t (map_imap (λ e r, Some (filter (λ c, c.1 = i → f e (r_val c.2) = true) r)) (t_rows t)))
| TSpawn e :
    ¬ occupied t e ->
    t_step t (WSpawn e) (WBool true)
      (Table (<[e := ∅]> (t_rows t)) (t_issued t ++ [e]) (t_now t))
| TSpawnRefused e :
    (* when exactly this is the answer: C08 *)
    t_step t (WSpawn e) (WBool false) t
| TDeleteAny is dl :
    t_step t (WDeleteAny is dl) WUnit
      (Table (filter (λ x, ¬ has_any is x) (t_rows t)) (t_issued t)
             (t_now t + 1 + N.of_nat (size (filter (has_any is) (t_rows t))))).

Inductive t_run : table -> list (wop V) -> list (wevent V) -> table -> Prop :=
| TNil t : t_run t [] [] t
| TCons t o ev t1 ops evs t2 :
    t_step t o ev t1 -> t_run t1 ops evs t2 -> t_run t (o :: ops) (ev :: evs) t2.
End spec.
Arguments table : clear implicits.

(** ** The histories considered *)
Section allowed.
Context {V : Type} (kind : N -> Track.tracking).

(** A handle that is not newer than what the world holds at its index: in particular every handle
    the world ever gave out. *)
Definition past (w : world V) (e : eid) : Prop :=
  gen e < U16_MAX ∧ ∀ h, is_alive (w_ents w) h = true -> idx h = idx e -> gen e <= gen h.
(** Any order in which the storages may be enumerated. *)
Definition any_order (w : world V) (order : list N) : Prop := order ≡ₚ (map_to_list (w_stores w)).*1.

Definition w_allowed (w : world V) (o : wop V) : Prop :=
  match o with
  | WAddEntity _ => lenN (e_data (w_ents w)) + 1 < max_idx
  | WAddComponent e _ => is_alive (w_ents w) e = true
  | WRemove e _ | WDeleteComponent e _ | WViewDelete e _ | WWrite e _ _ | WGet e _ => past w e
  | WDeleteEntity e order => past w e ∧ any_order w order ∧ gen e < EntitiesSpec.last_gen
  | WStrip e order => past w e ∧ any_order w order
  | WBulkStrip l order => Forall (past w) l ∧ any_order w order
  | WRetainStorage e _ order => past w e ∧ any_order w order
  | WClear order => any_order w order ∧ ∀ i e, getN (e_data (w_ents w)) i = Some e -> gen e < EntitiesSpec.last_gen
  | WRetain i _ => is_Some (w_stores w !! i)
  | WSpawn e => gen e < U16_MAX ∧ idx e + 1 < max_idx ∧
      ∀ h, is_alive (w_ents w) h = true -> idx h = idx e -> gen e < gen h
  | WDeleteAny is dl =>
      (∀ e, is_alive (w_ents w) e = true -> gen e < EntitiesSpec.last_gen) ∧
      Forall (λ x, any_order w x.2) dl ∧
      dl.*1 ≡ₚ remove_dups (is ≫= λ i, match w_stores w !! i with Some s => SparseSet.ss_dense s | None => [] end)
  end.

Fixpoint w_history (w : world V) (ops : list (wop V)) : Prop :=
  match ops with
  | [] => True
  | o :: ops => w_allowed w o ∧ ∀ w' ev, w_step kind w o = Ok (w', ev) -> w_history w' ops
  end.
End allowed.
