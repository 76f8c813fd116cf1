(** What a panic of user code leaves behind, in terms of the map of SparseSetSpec.v. *)
From stdpp Require Import prelude list gmap.
From Coq Require Import NArith.
From Verif Require Import EntityId SparseSet SparseSetSpec Panics.
Open Scope N_scope.

Section spec.
Context {T : Type}.
Implicit Types (m : gmap eid (row T)) (a : sspec T).

(** A closure left [w] in the component of [e], if it wrote to it. *)
Definition left_in (r : row T) (w : option T) (t : N) : row T :=
  match w with Some v => Row v (r_ins r) t | None => r end.
Definition set_row a (e : eid) (r : row T) : sspec T := upd_map a (<[e := r]> (sp_map a)).
(** The component of [e] is deleted and recorded. *)
Definition deleted a (e : eid) (v : T) (t : N) : sspec T :=
  upd a (delete e (sp_map a)) (if sp_td a then sp_del a ++ [(e, t, v)] else sp_del a) (sp_rem a).

(** A retain: the components in [mu] have not been shown to the closure yet.  Each is shown once, in
    any order, until none is left or a panic ends the loop. *)
Inductive pr_run (f : list (eid * T) -> eid -> T -> panswer * option T) (cb : eid -> T -> bool) (t : N)
    : list (eid * T) -> gmap eid (row T) -> sspec T -> list (pcall T) -> bool -> sspec T -> Prop :=
| PrEnd seen a : pr_run f cb t seen ∅ a [] false a
| PrKeep seen mu a e r w calls boom a' :
    mu !! e = Some r -> f seen e (r_val r) = (AKeep, w) ->
    pr_run f cb t (seen ++ [(e, r_val r)]) (delete e mu) (set_row a e (left_in r w t)) calls boom a' ->
    pr_run f cb t seen mu a ((e, r_val r, AKeep, w) :: calls) boom a'
| PrDrop seen mu a e r w calls boom a' :
    mu !! e = Some r -> f seen e (r_val r) = (ADrop, w) -> cb e (r_val (left_in r w t)) = false ->
    pr_run f cb t (seen ++ [(e, r_val r)]) (delete e mu) (deleted a e (r_val (left_in r w t)) t) calls boom a' ->
    pr_run f cb t seen mu a ((e, r_val r, ADrop, w) :: calls) boom a'
| PrBoom seen mu a e r w :
    (* the closure panics: what it wrote stays *)
    mu !! e = Some r -> f seen e (r_val r) = (ABoom, w) ->
    pr_run f cb t seen mu a [(e, r_val r, ABoom, w)] true (set_row a e (left_in r w t))
| PrDropBoom seen mu a e r w :
    (* the removal callback panics: the component is gone, the deletion is not recorded *)
    mu !! e = Some r -> f seen e (r_val r) = (ADrop, w) -> cb e (r_val (left_in r w t)) = true ->
    pr_run f cb t seen mu a [(e, r_val r, ADrop, w)] true (upd_map a (delete e (sp_map a))).

Definition newer_free m (e : eid) : Prop := ∀ e', idx e' = idx e -> gen e < gen e' -> m !! e' = None.

Inductive pp_step a : pop T -> sspec T -> pevent T -> Prop :=
| PpDo o a' ev : sp_step a o a' ev -> pp_step a (PDo o) a' (PEv ev)
| PpInsert e v t :
    (* the insertion callback panicked: nothing happened *)
    newer_free (sp_map a) e -> pp_step a (PInsert e v t) a PBoom
| PpInsertRefused e e' v t :
    idx e' = idx e -> gen e < gen e' -> is_Some (sp_map a !! e') ->
    pp_step a (PInsert e v t) a (PEv (EInsert NotInserted))
| PpInsertDrop e e' v t r :
    (* the new component belongs to the old handle *)
    idx e' = idx e -> gen e' < gen e -> sp_map a !! e' = Some r ->
    pp_step a (PInsertDrop e v t) (set_row a e' (Row v (r_ins r) (r_mod r))) PBoom
| PpInsertNoDrop e v t a' ev :
    no_older (sp_map a) e -> sp_step a (OInsert e v t) a' ev -> pp_step a (PInsertDrop e v t) a' (PEv ev)
| PpRemove e t r :
    (* the removal callback panicked: the component is gone, the removal is not recorded *)
    sp_map a !! e = Some r -> pp_step a (PRemove e t) (upd_map a (delete e (sp_map a))) PBoom
| PpRemoveNone e t a' :
    sp_map a !! e = None -> sp_step a (ORemove e t) a' (ERemove None) ->
    pp_step a (PRemove e t) a' (PEv (ERemove None))
| PpDelete e t r :
    sp_map a !! e = Some r -> pp_step a (PDelete e t) (upd_map a (delete e (sp_map a))) PBoom
| PpDeleteNone e t a' :
    sp_map a !! e = None -> sp_step a (ODelete e t) a' (EDelete false) ->
    pp_step a (PDelete e t) a' (PEv (EDelete false))
| PpRetain f cb t calls boom a' :
    pr_run f cb t [] (sp_map a) a calls boom a' -> pp_step a (PRetain f cb t) a' (PCalls calls boom)
| PpSort : pp_step a PSort a PBoom
| PpApply x y f t a' : sp_step a (OApply x y f t) a' EUnit -> pp_step a (PApply x y f t) a' PBoom
| PpApplyMut x y f t a' : sp_step a (OApplyMut x y f t) a' EUnit -> pp_step a (PApplyMut x y f t) a' PBoom
| PpClear t a' :
    sp_step a (OClear t) a' EUnit -> pp_step a (PClear t) a' (if sp_td a || bool_decide (sp_map a = ∅) then PEv EUnit else PBoom).

Inductive pp_run : sspec T -> list (pop T) -> sspec T -> list (pevent T) -> Prop :=
| PpNil a : pp_run a [] a []
| PpCons a o a' ev ops a'' evs :
    pp_step a o a' ev -> pp_run a' ops a'' evs -> pp_run a (o :: ops) a'' (ev :: evs).

(** The operations considered: as in SparseSetSpec.v. *)
Definition pp_allowed (n : N) m (o : pop T) : Prop :=
  match o with
  | PDo o => op_allowed n m o
  | PInsert e _ _ | PInsertDrop e _ _ => handle_ok e
  | PRemove e _ | PDelete e _ => gen e < U16_MAX
  | PApply x y f t => op_allowed n m (OApply x y f t)
  | PApplyMut x y f t => op_allowed n m (OApplyMut x y f t)
  | PRetain _ _ _ | PSort | PClear _ => True
  end.
End spec.
