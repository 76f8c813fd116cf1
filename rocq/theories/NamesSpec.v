(** What a workload expression says, read off the expression. *)
From stdpp Require Import prelude list.
From Verif Require Import Sched Names.
Local Open Scope nat_scope.

(** What is said about a system: its function and tags; what it is to be before, after. *)
Definition s_labels (s : sx) : list N :=
  sx_label s :: omap (λ m, match m with MTag n => Some n | _ => None end) (sx_mods s).
Definition s_befores (s : sx) : list N := omap (λ m, match m with MBefore n => Some n | _ => None end) (sx_mods s).
Definition s_afters (s : sx) : list N := omap (λ m, match m with MAfter n => Some n | _ => None end) (sx_mods s).

(** What is said about a workload as a whole: its names and tags; what it is to be before, after. *)
Section said.
Context (ofm : wmod → list N) (ofs : sx → list N) (new : N → list N).
Fixpoint whole (e : wx) : list N :=
  match e with
  | XNew n => new n
  | XSingle n _ => new n
  | XTuple1 _ _ => []
  | XMod m w => whole w ++ ofm m
  | XMerge w _ => whole w
  | XAppend w _ => whole w
  end.
(** What is said of each system within: of itself and of all parts it is in, the outermost excepted. *)
Fixpoint within (e : wx) : list (list N) :=
  match e with
  | XNew _ => []
  | XSingle _ s => [ofs s]
  | XTuple1 _ w => (λ l, l ++ whole w) <$> within w
  | XMod (WSystem s) w => within w ++ [ofs s]
  | XMod _ w => within w
  | XMerge w o => within w ++ ((λ l, l ++ whole o) <$> within o)
  | XAppend w o => within w ++ within o
  end.
End said.

Definition m_labels (m : wmod) : list N :=
  match m with WTag n | WRename n | WFun n => [n] | _ => [] end.
Definition m_befores (m : wmod) : list N := match m with WBefore n => [n] | _ => [] end.
Definition m_afters (m : wmod) : list N := match m with WAfter n => [n] | _ => [] end.

(** The labels of the parts the systems are in; what the systems are to be before, after. *)
Definition labels_of : wx → list (list N) := within m_labels s_labels (λ n, [n]).
Definition befores_of : wx → list (list N) := within m_befores s_befores (λ _, []).
Definition afters_of : wx → list (list N) := within m_afters s_afters (λ _, []).
Definition labels_whole : wx → list N := whole m_labels (λ n, [n]).
Definition befores_whole : wx → list N := whole m_befores (λ _, []).
Definition afters_whole : wx → list N := whole m_afters (λ _, []).

(** Nothing is said about a workload as a whole before others are merged into it. *)
Fixpoint tidy (e : wx) : Prop :=
  match e with
  | XNew _ | XSingle _ _ => True
  | XTuple1 _ w => tidy w
  | XMod _ w => tidy w
  | XMerge w o => tidy w ∧ tidy o ∧ labels_whole w = [] ∧ befores_whole w = [] ∧ afters_whole w = []
  | XAppend w o => tidy w ∧ tidy o
  end.

(** The name given to a workload: by Workload::new or the last rename. *)
Fixpoint given (e : wx) : option N :=
  match e with
  | XNew n => Some n
  | XSingle _ _ | XTuple1 _ _ => None
  | XMod (WRename n) _ => Some n
  | XMod _ w => given w
  | XMerge w _ | XAppend w _ => given w
  end.
(** No function takes the place of a workload that was given a name. *)
Fixpoint name_kept (e : wx) : Prop :=
  match e with
  | XNew _ | XSingle _ _ | XTuple1 _ _ => True
  | XMod (WRename _) _ => True
  | XMod (WFun _) w => given w = None ∧ name_kept w
  | XMod _ w => name_kept w
  | XMerge w _ | XAppend w _ => name_kept w
  end.

(** Tuples are such expressions. *)
Definition tuple (n : N) (ws : list wx) : option wx :=
  match ws with [] => None | w :: ws => Some (fold_left XMerge ws (XTuple1 n w)) end.
