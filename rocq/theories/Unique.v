(** Model of src/unique.rs and of the views over unique storages: src/views/unique_view.rs,
    unique_view_mut.rs, unique_or_init.rs, src/borrow/mod.rs (UniqueView 405-428, UniqueViewMut
    526-549), src/all_storages/mod.rs (add_unique, remove_unique, clear_all_inserted and the like).

    Unique types are numbers.  The storages are not borrowed at the moment of a call (add_unique while
    a view is alive is C56). The counter does not wrap. *)
From stdpp Require Import prelude list gmap.
From Coq Require Import NArith.
From Verif Require Import EntityId Base SparseSet.
Open Scope N_scope.

(** src/unique.rs:12-19 (without [clone]) *)
Record ustore (V : Type) := UStore {
  u_val : V; u_ins : N; u_mod : N; u_last_ins : N; u_last_mod : N;
}.
Arguments UStore {V}. Arguments u_val {V}. Arguments u_ins {V}. Arguments u_mod {V}.
Arguments u_last_ins {V}. Arguments u_last_mod {V}.

Record uworld (V : Type) := UWorld { uw_stores : gmap N (ustore V); uw_counter : N }.
Arguments UWorld {V}. Arguments uw_stores {V}. Arguments uw_counter {V}.

Section unique.
Context {V : Type}.
Implicit Types (s : ustore V) (w : uworld V).

(** src/unique.rs:58-69 *)
Definition us_new (v : V) (current : N) : ustore V := UStore v current 0 0 0.
(** src/unique.rs:35-37 and 39-41: the methods of the Storage trait *)
Definition us_clear_all_inserted s (current : N) : ustore V :=
  UStore (u_val s) current (u_mod s) (u_last_ins s) (u_last_mod s).
Definition us_clear_all_modified s (current : N) : ustore V :=
  UStore (u_val s) (u_ins s) current (u_last_ins s) (u_last_mod s).
(** src/views/unique_view_mut.rs:46-48, 51-53: clear_inserted, clear_modified of a view
    (56-59: both) *)
Definition uv_clear_inserted s (current : N) : ustore V :=
  UStore (u_val s) (u_ins s) (u_mod s) current (u_last_mod s).
Definition uv_clear_modified s (current : N) : ustore V :=
  UStore (u_val s) (u_ins s) (u_mod s) (u_last_ins s) current.
(** src/views/unique_view_mut.rs:118-124 deref_mut, 134-140 as_mut *)
Definition uv_write s (f : V -> V) (current : N) : ustore V :=
  UStore (f (u_val s)) (u_ins s) current (u_last_ins s) (u_last_mod s).
(** src/views/unique_view.rs:81-85, 90-94 (unique_view_mut.rs:22-26, 31-35), the window taken at the
    borrow, src/borrow/mod.rs:421-423, 541-543 *)
Definition uv_is_inserted s (last_run : option N) (current : N) : bool :=
  is_within (u_ins s) (default (u_last_ins s) last_run) current.
Definition uv_is_modified s (last_run : option N) (current : N) : bool :=
  is_within (u_mod s) (default (u_last_mod s) last_run) current.

Definition uw_new : uworld V := UWorld ∅ 1.
(** src/all_storages/mod.rs:1232-1237  get_current *)
Definition uw_tick w : uworld V := UWorld (uw_stores w) (uw_counter w + 1).
Definition uw_set w (i : N) s : uworld V := UWorld (<[i := s]> (uw_stores w)) (uw_counter w).

Inductive uop :=
| UAdd (i : N) (v : V)
| URemove (i : N)
| UView (i : N) (last_run : option N)
| UWrite (i : N) (f : V -> V)
| UClear (i : N) (ins md : bool)
| UGetOrInit (i : N) (last_run : option N) (v : V)
| UOther                                  (* anything else that takes a timestamp *)
| UClearAll (ins md : bool).
Inductive uevent :=
| UUnit
| UGone (v : option V)                    (* remove_unique *)
| USeen (x : option (V * bool * bool))    (* value, is_inserted, is_modified; None: no such unique *)
| UDone (b : bool).                       (* the view could be borrowed *)

Definition u_step w (o : uop) : uworld V * uevent :=
  match o with
  (* src/all_storages/mod.rs:110-120: the counter is read, not advanced; an existing unique is replaced *)
  | UAdd i v => (uw_set w i (us_new v (uw_counter w)), UUnit)
  (* src/all_storages/mod.rs:204-231 *)
  | URemove i => (UWorld (delete i (uw_stores w)) (uw_counter w), UGone (u_val <$> uw_stores w !! i))
  (* src/world.rs:396-400, src/borrow/mod.rs:405-428 *)
  | UView i last_run =>
      (uw_tick w,
       USeen ((λ s, (u_val s, uv_is_inserted s last_run (uw_counter w), uv_is_modified s last_run (uw_counter w)))
                <$> uw_stores w !! i))
  | UWrite i f =>
      match uw_stores w !! i with
      | Some s => (uw_tick (uw_set w i (uv_write s f (uw_counter w))), UDone true)
      | None => (uw_tick w, UDone false)
      end
  | UClear i ins md =>
      match uw_stores w !! i with
      | Some s =>
          let s := if ins : bool then uv_clear_inserted s (uw_counter w) else s in
          let s := if md : bool then uv_clear_modified s (uw_counter w) else s in
          (uw_tick (uw_set w i s), UDone true)
      | None => (uw_tick w, UDone false)
      end
  (* src/views/unique_or_init.rs:97-130: get_or_init, with the view it gives: the unique is added
     after [current] was taken *)
  | UGetOrInit i last_run v =>
      let current := uw_counter w in
      let w := uw_tick w in
      let s := default (us_new v (uw_counter w)) (uw_stores w !! i) in
      (uw_set w i s,
       USeen (Some (u_val s, uv_is_inserted s last_run current, uv_is_modified s last_run current)))
  | UOther => (uw_tick w, UUnit)
  (* src/all_storages/mod.rs:496-524 *)
  | UClearAll ins md =>
      let now := uw_counter w in
      (UWorld ((λ s, let s := if ins : bool then us_clear_all_inserted s now else s in
                     if md : bool then us_clear_all_modified s now else s) <$> uw_stores w) now, UUnit)
  end.

Fixpoint u_run w (ops : list uop) : uworld V * list uevent :=
  match ops with
  | [] => (w, [])
  | o :: ops => let p := u_step w o in let q := u_run p.1 ops in (q.1, p.2 :: q.2)
  end.
End unique.
Arguments uop : clear implicits.
Arguments uevent : clear implicits.
