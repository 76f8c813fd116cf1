(** What derive(IntoIter) should make of a struct. *)
From Coq Require Import NArith Ascii String.
From stdpp Require Import prelude list.
From Verif Require Import EntityId Base Iter DeriveIter.
Local Open Scope nat_scope.

(** [r] is [n] without all leading, resp. trailing, [p]s; there were [k] of them. *)
Definition without_leading (p n : name) (k : nat) (r : name) : Prop :=
  n = mjoin (replicate k p) ++ r ∧ ¬ p `prefix_of` r.
Definition without_trailing (p n : name) (k : nat) (r : name) : Prop :=
  n = r ++ mjoin (replicate k p) ∧ ¬ p `suffix_of` r.

(** The attribute that counts is the first one for shipyard. *)
Definition first_attr {A} (l : list (option A)) (x : option A) : Prop :=
  match x with
  | Some a => ∃ l1 l2, l = l1 ++ Some a :: l2 ∧ Forall (λ o, o = None) l1
  | None => Forall (λ o, o = None) l
  end.

(** The name of the item type: given by the attribute, or that of the struct without View at the end, or with Item if
    there is no View. *)
Definition named_item (s : item_struct) (item : name) : Prop :=
  (∃ l1 n, first_attr (s_attrs s) (Some (l1 ++ [SItemName n])) ∧ SOther ∉ l1 ∧ item = n) ∨
  (first_attr (s_attrs s) None ∧ ∃ k r, without_trailing (lit "View") (s_name s) k r ∧
     item = if decide (k = 0) then r ++ lit "Item" else r).

(** What the attribute of a field says: nothing unknown; the last name counts. *)
Definition says (l : list fitem) (skip : bool) (over : option name) : Prop :=
  FOther ∉ l ∧ (∀ n, FName n ∈ l → is_ident n = true) ∧ (skip = true ↔ FSkip ∈ l) ∧
  match over with
  | Some n => ∃ l1 l2, l = l1 ++ FName n :: l2 ∧ ∀ n', FName n' ∉ l2
  | None => ∀ n, FName n ∉ l
  end.
Definition field_says (f : field) (skip : bool) (over : option name) : Prop :=
  (first_attr (f_attrs f) None ∧ skip = false ∧ over = None) ∨
  ∃ l, first_attr (f_attrs f) (Some l) ∧ says l skip over.
(** A field that is not iterated: marked so, or of a type that cannot be a view. *)
Definition left_out (f : field) : Prop :=
  f_ty f = TNoPath ∨ (f_ty f ≠ TNoPath ∧ ∃ over, field_says f true over).
(** A field that is: its name in the item is the one given, or its own without v_ or vm_. *)
Definition iterated (f : field) (n : name) (q : query) : Prop :=
  ∃ over p, field_says f false over ∧ is_ident n = true ∧
    ((∃ i, f_ty f = TView i ∧ q = QView i ∧ p = lit "v_") ∨ (∃ i, f_ty f = TViewMut i ∧ q = QMut i ∧ p = lit "vm_")) ∧
    match over with Some o => n = o | None => ∃ k, without_leading p (f_name f) k n end.
Inductive iterates : list field → list (name * query) → Prop :=
| It_nil : iterates [] []
| It_out f fs l : left_out f → iterates fs l → iterates (f :: fs) l
| It_in f fs n q l : iterated f n q → iterates fs l → iterates (f :: fs) ((n, q) :: l).
(** The component type of a view. *)
Definition comp (q : query) : option N := match q with QView i | QMut i => Some i | _ => None end.
Definition is_mut (q : query) : bool := match q with QMut _ => true | _ => false end.
