(** Specification of unique storages: each holds a value, the time of its insertion, the time of the
    last write and whether these were cleared since.  No stored windows. *)
From stdpp Require Import prelude list gmap.
From Coq Require Import NArith.
From Verif Require Import EntityId Unique.
Open Scope N_scope.

Section spec.
Context {V : Type}.

Record ufact := UFact {
  x_val : V;
  x_ins : N;              (* when it was inserted *)
  x_ins_cleared : bool;   (* clear_inserted since? *)
  x_mod : option N;       (* the last write, if any *)
  x_mod_cleared : bool;   (* clear_modified since the last write? *)
}.
Record utable := UTable { ut_facts : gmap N ufact; ut_now : N }.
Definition ut_init : utable := UTable ∅ 1.

(** What a view reports whose window is the automatic one outside of workloads ([None]), or starts
    at the last run of a system. *)
Definition sees_ins (x : ufact) (last_run : option N) : bool :=
  match last_run with None => negb (x_ins_cleared x) | Some l => l <? x_ins x end.
Definition sees_mod (x : ufact) (last_run : option N) : bool :=
  match x_mod x, last_run with
  | None, _ => false
  | Some _, None => negb (x_mod_cleared x)
  | Some m, Some l => l <? m
  end.

Definition ut_step (t : utable) (o : uop V) : utable * uevent V :=
  let fs := ut_facts t in
  let now := ut_now t in
  match o with
  | UAdd i v => (UTable (<[i := UFact v now false None false]> fs) now, UUnit)
  | URemove i => (UTable (delete i fs) now, UGone (x_val <$> fs !! i))
  | UView i last => (UTable fs (now + 1), USeen ((λ x, (x_val x, sees_ins x last, sees_mod x last)) <$> fs !! i))
  | UWrite i f =>
      (UTable (alter (λ x, UFact (f (x_val x)) (x_ins x) (x_ins_cleared x) (Some now) false) i fs) (now + 1),
       UDone (bool_decide (is_Some (fs !! i))))
  | UClear i ins md =>
      (UTable (alter (λ x, UFact (x_val x) (x_ins x) (ins || x_ins_cleared x) (x_mod x) (md || x_mod_cleared x)) i fs)
              (now + 1),
       UDone (bool_decide (is_Some (fs !! i))))
  | UGetOrInit i last v =>
      match fs !! i with
      | Some x => (UTable fs (now + 1), USeen (Some (x_val x, sees_ins x last, sees_mod x last)))
      (* a new one: inserted after the view's window *)
      | None => (UTable (<[i := UFact v (now + 1) false None false]> fs) (now + 1), USeen (Some (v, false, false)))
      end
  | UOther => (UTable fs (now + 1), UUnit)
  | UClearAll ins md =>
      (* the documented effect *)
      (UTable ((λ x, UFact (x_val x) (x_ins x) (ins || x_ins_cleared x) (x_mod x) (md || x_mod_cleared x)) <$> fs) now,
       UUnit)
  end.
Fixpoint ut_run (t : utable) (ops : list (uop V)) : utable * list (uevent V) :=
  match ops with
  | [] => (t, [])
  | o :: ops => let p := ut_step t o in let q := ut_run p.1 ops in (q.1, p.2 :: q.2)
  end.
End spec.
Arguments ufact : clear implicits.
Arguments utable : clear implicits.

Definition no_clear_all {V} (o : uop V) : bool := match o with UClearAll _ _ => false | _ => true end.
