(** Model of derive(IntoIter): shipyard_proc/src/into_iter_expand.rs.

    Simplified: identifiers are ASCII; the spans, the visibility of fields and the tracking parameter of a view, which
    is copied unchanged, are left out; a component type is a number. *)
From Coq Require Import NArith Ascii String.
From stdpp Require Import prelude list.
From Verif Require Import EntityId Base Iter.
Local Open Scope nat_scope.

Definition name : Type := list ascii.
Definition lit (s : string) : name := list_ascii_of_string s.
Global Instance ascii_eq_dec : EqDecision ascii := ascii_dec.
(** What follows a prefix. *)
Fixpoint after (p s : name) : option name :=
  match p, s with
  | [], _ => Some s
  | a :: p, b :: s => if Ascii.eqb a b then after p s else None
  | _, [] => None
  end.
(** str::trim_start_matches, used in into_iter_expand.rs 146, 203: the pattern is taken off as often as it is there. *)
Fixpoint trim_loop (fuel : nat) (p s : name) : name :=
  match fuel with
  | O => s
  | S fuel => match after p s with Some s' => trim_loop fuel p s' | None => s end
  end.
Definition trim_start (p s : name) : name := trim_loop (length s) p s.
(** str::trim_end_matches, used in into_iter_expand.rs 50. *)
Definition trim_end (p s : name) : name := reverse (trim_start (reverse p) (reverse s)).
(** Whether Ident::new accepts a string; it panics on others. *)
Definition is_start (a : ascii) : bool :=
  let n := nat_of_ascii a in
  ((65 <=? n) && (n <=? 90)) || ((97 <=? n) && (n <=? 122)) || (n =? 95).
Definition is_digit (a : ascii) : bool := let n := nat_of_ascii a in (48 <=? n) && (n <=? 57).
Definition is_ident (s : name) : bool :=
  match s with [] => false | a :: s => is_start a && forallb (λ b, is_start b || is_digit b) s end.

(** An item of a shipyard attribute of a field, into_iter_expand.rs 96-112: item_field_skip, item_field_name = ".." or
    anything else. *)
Inductive fitem := FSkip | FName (n : name) | FOther.
(** [#[path(items)]]; [None]: the path is not shipyard. *)
Definition fattr : Type := option (list fitem).
(** The type of a field: View<'_, C>, ViewMut<'_, C>, one of these without angle brackets or without a type in them,
    another path with or without type arguments, a type that is no path (a reference, a tuple, ..). *)
Inductive fty := TView (i : N) | TViewMut (i : N) | TBare | TPath (args : bool) | TNoPath.
Record field := Field { f_name : name; f_attrs : list fattr; f_ty : fty }.
Inductive fields := Named (fs : list field) | Unnamed (ts : list fty) | UnitStruct.
(** An item of a shipyard attribute of the struct, into_iter_expand.rs 29-45. *)
Inductive sitem := SItemName (n : name) | SOther.
Record item_struct := Struct {
  s_is_struct : bool; s_name : name; s_attrs : list (option (list sitem)); s_lifetime : bool; s_fields : fields;
}.

(** What the macro does: an error, a panic, or the code for a struct with named fields: the name of the item type, its
    fields with the views they come from, and what is iterated; or for a tuple struct: what is iterated.  [mt]: the
    code is for [&mut Struct]. *)
Inductive expansion :=
| XError
| XPanic
| XNamed (item : name) (fs : list (name * query)) (q : query) (mt : bool)
| XTuple (q : query) (mt : bool).

(** attrs.iter().find(..), into_iter_expand.rs 26-28, 91-94: the first one. *)
Fixpoint find_attr {A} (l : list (option A)) : option A :=
  match l with [] => None | Some x :: _ => Some x | None :: l => find_attr l end.
(** The closure of parse_nested_meta, into_iter_expand.rs 31-44. *)
Fixpoint scan_struct (acc : name) (l : list sitem) : option name :=
  match l with
  | [] => Some acc
  | SItemName n :: l => scan_struct n l
  | SOther :: _ => None
  end.
(** iter_item_name, into_iter_expand.rs 26-56. *)
Definition item_name (s : item_struct) : option name :=
  match find_attr (s_attrs s) with
  | Some l => scan_struct [] l
  | None =>
      let n := trim_end (lit "View") (s_name s) in
      Some (if length n =? length (s_name s) then n ++ lit "Item" else n)
  end.
(** The closure of parse_nested_meta, into_iter_expand.rs 99-116: (ignore, field_name_override), or an error, or
    the panic of Ident::new. *)
Fixpoint scan_field (skip : bool) (over : option name) (l : list fitem) : (bool * option name) + bool :=
  match l with
  | [] => inl (skip, over)
  | FSkip :: l => scan_field true over l
  | FName n :: l => if is_ident n then scan_field skip (Some n) l else inr true
  | FOther :: _ => inr false
  end.
(** trimmed_field_name, into_iter_expand.rs 143-156, 200-213. *)
Definition trimmed (p : name) (over : option name) (n : name) : name :=
  match over with Some o => o | None => trim_start p n end.
(** The tuple of the views: [(#iter_fields)], into_iter_expand.rs 248, 256, 287 etc. and the tuple of one of
    into_shiperator.rs 285-304: with one element it is this element. *)
Definition tuple_of (qs : list query) : query := match qs with [q] => q | _ => QTuple qs end.

(** The loop over named fields, into_iter_expand.rs 89-236; the fields of a type that is no path are left out. *)
Fixpoint named_loop (fs : list field) : (list (name * query) * bool) + bool :=
  match fs with
  | [] => inl ([], false)
  | f :: fs =>
      let go p q (mt : bool) over :=
        let n := trimmed p over (f_name f) in
        if is_ident n then
          match named_loop fs with
          | inl (l, m) => inl ((n, q) :: l, mt || m)
          | inr b => inr b
          end
        else inr true in
      match f_ty f with
      | TNoPath => named_loop fs
      | _ =>
          match (match find_attr (f_attrs f) with Some l => scan_field false None l | None => inl (false, None) end) with
          | inr b => inr b
          | inl (true, _) => named_loop fs
          | inl (false, over) =>
              match f_ty f with
              | TView i => go (lit "v_") (QView i) false over
              | TViewMut i => go (lit "vm_") (QMut i) true over
              | _ => inr false
              end
          end
      end
  end.
(** The loop over the fields of a tuple struct, into_iter_expand.rs 340-375. *)
Fixpoint unnamed_loop (ts : list fty) : option (list query * bool) :=
  match ts with
  | [] => Some ([], false)
  | TView i :: ts => match unnamed_loop ts with Some (l, m) => Some (QView i :: l, m) | None => None end
  | TViewMut i :: ts => match unnamed_loop ts with Some (l, _) => Some (QMut i :: l, true) | None => None end
  | _ => None
  end.
(** expand_into_iter, into_iter_expand.rs 8-415. *)
Definition expand (s : item_struct) : expansion :=
  if s_is_struct s then
    match item_name s with
    | None => XError
    | Some item =>
        if is_ident item then
          if s_lifetime s then
            match s_fields s with
            | Named [] | Unnamed [] | UnitStruct => XError
            | Named fs =>
                match named_loop fs with
                | inr true => XPanic
                | inr false => XError
                | inl (l, m) => XNamed item l (tuple_of l.*2) m
                end
            | Unnamed ts =>
                match unnamed_loop ts with
                | None => XError
                | Some (qs, m) => XTuple (tuple_of qs) m
                end
            end
          else XError
        else XPanic
    end
  else XError.

(** * What the compiler asks of the generated code *)
(** The keywords that cannot be names. *)
Definition keywords : list name := lit <$>
  ["as"; "break"; "const"; "continue"; "crate"; "else"; "enum"; "extern"; "false"; "fn"; "for"; "if"; "impl"; "in";
   "let"; "loop"; "match"; "mod"; "move"; "mut"; "pub"; "ref"; "return"; "self"; "Self"; "static"; "struct"; "super";
   "trait"; "true"; "type"; "unsafe"; "use"; "where"; "while"; "async"; "await"; "dyn"; "abstract"; "become"; "box";
   "do"; "final"; "macro"; "override"; "priv"; "typeof"; "unsized"; "virtual"; "yield"; "try"; "_"]%string.
(** The item type and its fields have names that are no keywords and differ from each other and from the struct; a
    tuple of this width has IntoShiperator (into_shiperator.rs 285, 466-475, with extended_tuple; there is none for
    the empty tuple). *)
Definition compiles (s : item_struct) (x : expansion) : bool :=
  match x with
  | XNamed item fs _ _ =>
      bool_decide (item ∉ keywords) && bool_decide (item ≠ s_name s)
      && forallb (λ n, bool_decide (n ∉ keywords)) fs.*1 && bool_decide (NoDup fs.*1)
      && (1 <=? length fs) && (length fs <=? 32)
  | XTuple _ _ => match s_fields s with Unnamed ts => length ts <=? 32 | _ => false end
  | _ => false
  end.

(** get_captain_data and get_sailor_data of the generated type, into_iter_expand.rs 271-277, 302-308: the tuple is
    taken apart and its elements put in the fields of the item; all other methods call the one of the tuple. *)
Definition make_item {V} (fs : list (name * query)) (o : out V) : list (name * out V) :=
  match fs with
  | [(n, _)] => [(n, o)]
  | _ => match o with OTup l => zip fs.*1 l | _ => [] end
  end.
