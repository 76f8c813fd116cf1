(** What a loop over mutable views should leave behind, on the table of WorldSpec. *)
From stdpp Require Import prelude list gmap.
From Coq Require Import NArith.
From Verif Require Import EntityId Base SparseSetSpec World WorldSpec Iter IterSpec IterWrite.
Open Scope N_scope.

(** The components an item gives access to. *)
Fixpoint offered {V} (q : query) (x : item V) : list N :=
  match q, x with
  | QView i, _ | QMut i, _ | QTrack _ _ i, _ => [i]
  | QOpt i, IOpt (Some _) => [i]
  | QTuple qs, ITup l =>
      (fix go qs l := match qs, l with
                      | q :: qs, x :: l => offered q x ++ go qs l
                      | _, _ => []
                      end) qs l
  | QOr a _, IOne x => offered a x
  | QOr _ b, ITwo x => offered b x
  | _, _ => []
  end.

Section spec.
Context {V : Type}.

(** Everything done to the component, in order, however it was reached. *)
Definition change (a : act V) : V -> V :=
  match a with ARead => id | ADerefMut f | AAsMut f | AMap f => f end.
(** Asking for a mutable reference is what counts as writing. *)
Definition asks_mut (a : act V) : bool :=
  match a with ADerefMut _ | AAsMut _ => true | _ => false end.
Definition after (now : N) (l : list (act V)) (r : row V) : row V :=
  Row (foldl (λ v a, change a v) (r_val r) l) (r_ins r) (if existsb asks_mut l then now else r_mod r).

(** [item e]: the item of [e], if there is one.  Only cells of visited entities change, only those of
    components that are offered and viewed mutably, each as if the loop had visited nothing else. *)
Definition t_loop (t : table V) (q : query) (item : eid -> option (item V)) (muts : list N) (now : N -> N)
    (body : eid -> IterSpec.item V -> N -> list (act V)) (n : N) : table V :=
  Table (map_imap (λ e r, Some (match item e with
                                | Some x => map_imap (λ i c, Some (if decide (i ∈ muts ∧ i ∈ offered q x)
                                                                  then after (now i) (body e x i) c else c)) r
                                | None => r
                                end)) (t_rows t))
        (t_issued t) (t_now t + n).
End spec.
