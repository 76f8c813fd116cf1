(** What the derive macros generate: shipyard_proc/src/borrow_expand.rs (derive(Borrow)),
    world_borrow_expand.rs (derive(WorldBorrow)), borrow_info_expand.rs (derive(BorrowInfo)),
    component_expand.rs (derive(Component)).

    A macro is a function from the syntax of the item to the code it generates; here it is a function
    from the syntax to the meaning of the generated code, in terms of ViewTypes.v (instructions and
    declarations of system parameters) and Track.v (tracking types). Generics and lifetimes have no
    meaning at run time. *)
From stdpp Require Import prelude list gmap.
From Coq Require Import NArith.
From Verif Require Import Sched ViewTypes Track.
Local Open Scope nat_scope.

(** * Attributes of fields *)

(** An item of a list of attributes, as read by syn's parse_nested_meta: [default], or another name;
    [i_value]: followed by [= literal]. *)
Record aitem := { i_default : bool; i_value : bool }.
(** [#[name(items)]]; [a_shipyard]: the name is shipyard. *)
Record attr := { a_shipyard : bool; a_items : list aitem }.

(** The closure given to parse_nested_meta, borrow_expand.rs 38-42 (world_borrow_expand.rs 41-45,
    borrow_info_expand.rs 31-35), is called for one item after the other. It never reads the value of an item,
    so that after an item with a value the parser finds no comma and gives up; the error is
    ignored, what was found before is not. *)
Fixpoint scan_items (is_default : bool) (items : list aitem) : bool :=
  match items with
  | [] => is_default
  | i :: items =>
      let is_default := is_default || i_default i in
      if i_value i then is_default else scan_items is_default items
  end.
(** field_is_default, borrow_expand.rs 33-48, world_borrow_expand.rs 36-51, borrow_info_expand.rs
    26-41: any attribute. *)
Definition field_is_default (attrs : list attr) : bool :=
  existsb (λ a, a_shipyard a && scan_items false (a_items a)) attrs.

(** A field that is not borrowed. The fields of tuple structs always are: borrow_expand.rs 78-84,
    world_borrow_expand.rs 81-84, borrow_info_expand.rs 78-92 do not look at their attributes. *)
Definition skipped (named : bool) (attrs : list attr) : bool := named && field_is_default attrs.

(** * Types with views in them *)

(** The types with [Borrow]: those of ViewTypes.v ([DLeaf]), and options, tuples and structs with derive(Borrow)
    around such structs. [DStruct named fs]: the fields with their attributes. The type of a field that
    is skipped does not matter, any type stands for it. *)
Inductive dview :=
| DLeaf (v : view)
| DOption (d : dview)
| DTuple (ds : list dview)
| DStruct (named : bool) (fs : list (list attr * dview)).

(** The types with [WorldBorrow]: all types with [Borrow] (world_borrow.rs 21-41), the five views of the
    world alone ([DPOther]), structs with derive(WorldBorrow). *)
Inductive dparam :=
| DPView (d : dview)
| DPOther (p : param)
| DPStruct (named : bool) (fs : list (list attr * dparam)).

(** ** BorrowInfo *)

(** [borrow_info], borrow_info_expand.rs 43-53, 66-68 (named fields), 84-86 (tuple structs); options and tuples:
    borrow_info.rs 451-497. *)
Fixpoint dview_info (d : dview) : list tinfo :=
  match d with
  | DLeaf v => view_info v
  | DOption d => dview_info d
  | DTuple ds => flat_map dview_info ds
  | DStruct named fs => flat_map (λ f, if skipped named f.1 then [] else dview_info f.2) fs
  end.
Fixpoint dparam_info (tl : bool) (q : dparam) : list tinfo :=
  match q with
  | DPView d => dview_info d
  | DPOther p => param_info tl p
  | DPStruct named fs => flat_map (λ f, if skipped named f.1 then [] else dparam_info tl f.2) fs
  end.
(** [enable_tracking], borrow_info_expand.rs 54-64, 69-73, 87-91. *)
Fixpoint dview_tracking (d : dview) : list (wrap * N * trk) :=
  match d with
  | DLeaf v => view_tracking v
  | DOption d => dview_tracking d
  | DTuple ds => flat_map dview_tracking ds
  | DStruct named fs => flat_map (λ f, if skipped named f.1 then [] else dview_tracking f.2) fs
  end.
Fixpoint dparam_tracking (q : dparam) : list (wrap * N * trk) :=
  match q with
  | DPView d => dview_tracking d
  | DPOther p => param_tracking p
  | DPStruct named fs => flat_map (λ f, if skipped named f.1 then [] else dparam_tracking f.2) fs
  end.

(** ** Borrow *)

(** [Borrow::borrow] generated by borrow_expand.rs 50-74 (named fields), 78-94 (tuple structs): the fields in the
    order of the struct, each with a clone of all_borrow; the [?] behind a field drops the fields
    before and all_borrow. [cview] of ViewTypes.v for the other types (borrow/mod.rs 95-697). *)
Fixpoint dborrow (d : dview) (n : nat) (ok : nat → prog) (err : berr → prog) {struct d} : prog :=
  match d with
  | DLeaf v => cview v n ok err
  | DOption d => dborrow d n ok (λ _, ok n)
  | DTuple ds =>
      foldr (λ d (rest : nat → prog) (m : nat), IClone (dborrow d m rest (λ e, IPopTo n (err e))))
        (λ m, IPopAt n (ok (m - 1))) ds (n + 1)
  | DStruct named fs =>
      foldr (λ f (rest : nat → prog) (m : nat),
               if skipped named f.1 then rest m
               else IClone (dborrow f.2 m rest (λ e, IPopTo n (err e))))
        (λ m, IPopAt n (ok (m - 1))) fs (n + 1)
  end.

(** ** WorldBorrow *)

(** [world_borrow]: world_borrow.rs 21-73 and the views that add a missing unique (the cases of
    [cparams], ViewTypes.v); generated by world_borrow_expand.rs 53-77 (named fields), 81-95 (tuple structs): the
    fields in the order of the struct, the [?] behind a field drops the fields before. An error is
    returned through all structs up to the system function, dropping what was borrowed, the latest first:
    [give_up]. [i]: number of the view, counting the views inside of structs; [k]: what comes next. *)
Fixpoint dworld_borrow (q : dparam) (i : nat) (full : list nat) (n : nat)
    (k : nat → list nat → nat → prog) {struct q} : prog :=
  match q with
  | DPView d => ITry (RAll false) (dborrow d n (k (S i) full) give_up) give_up
  | DPOther (PView v) => ITry (RAll false) (cview v n (k (S i) full) give_up) give_up
  | DPOther (PAll m) => ITry (RAll m) (k (S i) full (n + 1)) give_up
  | DPOther (POrDefault m T) =>
      let again := cview (VUniq WNone m T) n (k (S i) full) give_up in
      ITry (RAll false)
        (ITry (RUniq WNone m T) (IPopTo (n + 1) again)
           (λ e, match e with EMissing => IAdd T again | _ => give_up e end))
        give_up
  | DPOther (POrInit m T) =>
      ITry (RAll false)
        (IClone (cview (VUniq WNone m T) (n + 1) (k (S i) (i :: full))
           (λ e, match e with
                 | EMissing => k (S i) full (n + 1)
                 | _ => give_up e
                 end)))
        give_up
  | DPStruct named fs =>
      foldr (λ f (rest : nat → list nat → nat → prog) i full n,
               if skipped named f.1 then rest i full n else dworld_borrow f.2 i full n rest)
        k fs i full n
  end.

(** ** Systems *)

(** A system with such parameters. The body acts on the views that add a missing unique by their number,
    counting the views inside of structs. *)
Record dsys := { d_params : list dparam; d_acts : list bact }.

(** The views of a parameter one by one: what the body of a system finds under a number. *)
Fixpoint dview_flat (d : dview) : view :=
  match d with
  | DLeaf v => v
  | DOption d => VOption (dview_flat d)
  | DTuple ds => VTuple (map dview_flat ds)
  | DStruct named fs => VTuple (flat_map (λ f, if skipped named f.1 then [] else [dview_flat f.2]) fs)
  end.
Fixpoint dparam_flat (q : dparam) : list param :=
  match q with
  | DPView d => [PView (dview_flat d)]
  | DPOther p => [p]
  | DPStruct named fs => flat_map (λ f, if skipped named f.1 then [] else dparam_flat f.2) fs
  end.

(** The system function, into_workload_system.rs 151-155: the parameters in order, then the body. *)
Definition dprog (x : dsys) : prog :=
  foldr (λ q (rest : nat → list nat → nat → prog) i full n, dworld_borrow q i full n rest)
    (λ i full n, IBody (cbody (flat_map dparam_flat (d_params x)) (d_acts x) full n))
    (d_params x) 0 [] 0.
(** The declarations of the system, into_workload_system.rs 106-109. *)
Definition dsys_info (tl : bool) (x : dsys) : list tinfo := flat_map (dparam_info tl) (d_params x).
Definition dsys_tracking (x : dsys) : list (wrap * N * trk) := flat_map dparam_tracking (d_params x).

Definition d_start (s : bw) (xs : list dsys) : bst :=
  {| b_world := s; b_runs := map (λ x, {| r_prog := dprog x; r_guards := [] |}) xs |}.

(** * derive(Component) *)

(** The tokens of [#[track(..)]]; tokens other than identifiers (commas) are passed over. *)
Inductive ttoken := TkInsertion | TkModification | TkDeletion | TkRemoval | TkAll | TkOther | TkPunct.
(** An attribute of the item: [#[track(tokens)]], [#[track]] or [#[track = ..]], any other. *)
Inductive cattr := CTrack (tokens : list ttoken) | CTrackNoList | CAttr.

(** component_expand.rs 11-48: [None] is an error. *)
Fixpoint track_tokens (f : bool * bool * bool * bool) (ts : list ttoken) : option (bool * bool * bool * bool) :=
  match ts with
  | [] => Some f
  | t :: ts =>
      let '(i, m, d, r) := f in
      match t with
      | TkInsertion => track_tokens (true, m, d, r) ts
      | TkModification => track_tokens (i, true, d, r) ts
      | TkDeletion => track_tokens (i, m, true, r) ts
      | TkRemoval => track_tokens (i, m, d, true) ts
      | TkAll => track_tokens (true, true, true, true) ts
      | TkOther => None
      | TkPunct => track_tokens f ts
      end
  end.
(** component_expand.rs 50-76 *)
Definition track_type (f : bool * bool * bool * bool) : tracking :=
  match f with
  | (true, true, true, true) => TAll
  | (true, true, true, false) => InsertionAndModificationAndDeletion
  | (true, true, false, true) => InsertionAndModificationAndRemoval
  | (true, true, false, false) => InsertionAndModification
  | (true, false, true, true) => InsertionAndDeletionAndRemoval
  | (true, false, true, false) => InsertionAndDeletion
  | (true, false, false, true) => InsertionAndRemoval
  | (true, false, false, false) => TInsertion
  | (false, true, true, true) => ModificationAndDeletionAndRemoval
  | (false, true, true, false) => ModificationAndDeletion
  | (false, true, false, true) => ModificationAndRemoval
  | (false, true, false, false) => TModification
  | (false, false, true, true) => DeletionAndRemoval
  | (false, false, true, false) => TDeletion
  | (false, false, false, true) => TRemoval
  | (false, false, false, false) => Nothing
  end.
(** lib.rs 19-45 (the first attribute named track), component_expand.rs 5-94: the tracking type of the
    component; [None]: the macro reports an error. *)
Fixpoint expand_component (attrs : list cattr) : option tracking :=
  match attrs with
  | [] => Some Nothing
  | CTrack ts :: _ => track_type <$> track_tokens (false, false, false, false) ts
  | CTrackNoList :: _ => None
  | CAttr :: attrs => expand_component attrs
  end.
