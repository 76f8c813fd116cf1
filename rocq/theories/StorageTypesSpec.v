(** What it means that storages are only touched as what they are, stated about the events of a run.

    The rules are those of the Rust language: an object is read and written as the type it has; a value
    that is not [Send] is written and dropped on the thread it was made on only; a value that is not [Sync]
    is not read by two threads at once. *)
From stdpp Require Import prelude list gmap.
From Coq Require Import NArith.
From Verif Require Import StorageTypes.
Local Open Scope N_scope.

(** Opening a box is also fine through one of the one-field wrappers around the same UniqueStorage: the
    wrappers add nothing to the layout. *)
Definition same_storage (X X' : sty) : Prop :=
  X = X' ∨ ∃ w w' T, X = TyUniq w T ∧ X' = TyUniq w' T.

Definition sound (p : prog_types) (e : sev) : Prop :=
  match e with
  | EGot t a c X =>
      c_ty c = X ∧
      match a with
      | AShared => t = c_real c ∨ ty_sync p (c_ty c) = true
      | AAlone | AMut => t = c_real c ∨ ty_send p (c_ty c) = true
      end
  | EDrop t c => t = c_real c ∨ ty_send p (c_ty c) = true
  | EMoved t c X => same_storage (c_ty c) X ∧ (t = c_real c ∨ ty_send p (c_ty c) = true)
  | _ => True
  end.

(** What the compiler accepts: the bounds on the type parameters of the calls. [SExcl] and [SExclGet] are
    calls of the library itself. Without the feature thread_local there are only plain cells. A try_clone
    of the library returns its own type. A World is not [Send] when it may hold storages that are not. *)
Definition typed (tl : bool) (p : prog_types) (ws : list swld) (t : N) (o : scall) : Prop :=
  match o with
  | SNew _ => True
  | SInsert _ md _ _ _ X => bound p md X = true ∧ (tl = false → md = MPlain)
  | SGet _ _ _ _ | SGetDyn _ _ _ _ | SRemUnique _ _ _ => True
  | SUniq _ md _ _ T => bound p md (TyUniq md T) = true ∧ (tl = false → md = MPlain)
  | SAddCustom _ _ _ X => bound p MPlain X = true
  | SAddUnique _ md T => bound p md (TyUniq md T) = true ∧ (tl = false → md = MPlain)
  | SExcl _ md X => bound p md X = true ∧ (tl = false → md = MPlain) ∧ ∃ w T, X = TySet w T
  | SExclGet _ i X => i = IdOf X ∨ ∃ w T, i = IdOf (TyUniq MPlain T) ∧ X = TyUniq w T
  | SClone a _ _ i r =>
      ∀ wa c X, ws !! a = Some wa → w_tab wa !! i = Some c → r = Some X →
        ((∀ n, c_ty c ≠ TyUser n) → X = c_ty c) ∧ (tl = false → bound p MPlain X = true)
  | SDrop k => ∀ w, ws !! k = Some w → tl = true → t = w_real w
  end.

(** A condition on every call of a run, in the state it is made in. *)
Fixpoint along (P : list swld → N → scall → Prop) (tl : bool) (p : prog_types) (ws : list swld)
    (h : list (N * scall)) : Prop :=
  match h with
  | [] => True
  | (t, o) :: h => P ws t o ∧ along P tl p (s_step tl p ws t o).1 h
  end.

(** The generator of thread ids tells threads apart. *)
Definition gen_ok (o : scall) : Prop :=
  match o with SNew gen => ∀ t t', gen t = gen t' → t = t' | _ => True end.
(** [Storage::any] is not overridden by something else. *)
Definition any_ok (p : prog_types) : Prop := ∀ n, pt_any p n = TyUser n.
(** Nothing but a unique is put under the id of a unique. *)
Definition no_squat (o : scall) : Prop :=
  match o with
  | SInsert _ _ _ _ i X | SAddCustom _ _ i X =>
      ∀ T, i = IdOf (TyUniq MPlain T) → ∃ w, X = TyUniq w T
  | _ => True
  end.
(** A storage put in by id is put under its own id or under a number. *)
Definition own_id (o : scall) : Prop :=
  match o with
  | SInsert _ _ _ _ i X | SAddCustom _ _ i X => i = IdOf X ∨ ∃ n, i = IdNum n
  | _ => True
  end.
(** Clones have the type of the original. *)
Definition honest (ws : list swld) (t : N) (o : scall) : Prop :=
  match o with
  | SClone a _ _ i r =>
      ∀ wa c X, ws !! a = Some wa → w_tab wa !! i = Some c → r = Some X → X = c_ty c
  | _ => True
  end.
