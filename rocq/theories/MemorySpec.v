(** What a storage needs memory for, told from its history alone. *)
From stdpp Require Import prelude list gmap.
From Coq Require Import NArith.
From Verif Require Import EntityId Base SparseSet SparseSetSpec SparseSetHistory Memory.
Local Open Scope N_scope.

(** The capacity of a vector is never below its length (a guarantee of std). *)
Definition caps_ok {T} (s : sset T) (c : caps) : Prop :=
  lenN (ss_sparse s) <= c_sparse c ∧ lenN (ss_dense s) <= c_dense c ∧ lenN (ss_data s) <= c_data c ∧
  lenN (ss_ins s) <= c_ins c ∧ lenN (ss_mod s) <= c_mod c ∧ lenN (ss_del s) <= c_del c ∧
  lenN (ss_rem s) <= c_rem c.

(** Handles are grouped in pages of 32 indices; the pages a history has inserted into. *)
Definition page (e : eid) : N := idx e / 32.
Definition pages_of {T} (ops : list (sop T)) : gset N :=
  list_to_set (omap (λ o, match o with OInsert e _ _ => Some (page e) | _ => None end) ops).
(** One more than the highest of them. *)
Definition page_end (P : gset N) (n : N) : Prop := (∀ b, b ∈ P → b < n) ∧ (n = 0 ∨ n - 1 ∈ P).
(** Bytes: a pointer per page up to the highest, 256 for each page inserted into, for each component its handle, itself
    and a timestamp for each of insertion and modification that is tracked, the two logs and the storage itself. *)
Definition bytes {T} (z : sizes) (h : hist T) (P : gset N) (n comps dels rems : N) : N :=
  8 * n + 256 * N.of_nat (size P)
  + comps * (8 + sz_comp z + (if h_ti h then 8 else 0) + (if h_tm h then 8 else 0))
  + dels * sz_del z + rems * 16 + sz_self z.
