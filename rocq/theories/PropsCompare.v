(** Properties of comparisons (C83). *)
From stdpp Require Import prelude list.
From Verif Require Import LabelTypes PropsLabel Compare CompareSpec.
Local Open Scope N_scope.

(** * Storage ids *)
Lemma sid_eq_iff a b : sid_eq a b = true ↔ a = b.
Proof. destruct a, b; cbn; rewrite ?N.eqb_eq; split; congruence. Qed.
Lemma sid_cmp_eq a b : sid_cmp a b = Eq ↔ a = b.
Proof. destruct a, b; cbn; rewrite ?N.compare_eq_iff; split; congruence. Qed.
Lemma sid_cmp_opp a b : sid_cmp b a = CompOpp (sid_cmp a b).
Proof. destruct a, b; cbn; try done; apply N.compare_antisym. Qed.
Lemma sid_cmp_lt_trans a b c : sid_cmp a b = Lt → sid_cmp b c = Lt → sid_cmp a c = Lt.
Proof. destruct a, b, c; cbn; try done; rewrite !N.compare_lt_iff; lia. Qed.

Lemma eq_ok_ident {A B} (eq : A → A → bool) (f : A → B) : (∀ a b, eq a b = true ↔ f a = f b) → eq_ok eq.
Proof.
  intros H. split; [split|].
  - intros a b. apply eq_true_iff_eq. rewrite !H. done.
  - intros a b c. rewrite !H. congruence.
  - intros a. by apply H.
Qed.
(** An order from a strict part. *)
Lemma ord_ok_lt {A} (eq : A → A → bool) (cmp : A → A → comparison) (f : A → storage_id * mutability) :
  (∀ a b, cmp b a = CompOpp (cmp a b)) → (∀ a b c, cmp a b = Lt → cmp b c = Lt → cmp a c = Lt) →
  (∀ a b, cmp a b = Eq ↔ eq a b = true) → (∀ a b, eq a b = true ↔ f a = f b) →
  (∀ a a' b, f a = f a' → cmp a b = cmp a' b) → ord_ok eq cmp.
Proof.
  intros Hopp Hlt Heq Hf Hcong. split; [done|]. split; [|done].
  intros a b c Hab Hbc. destruct (cmp a b) eqn:E; [| |done].
  - apply Heq, Hf in E. by rewrite (Hcong a b c E).
  - destruct (cmp b c) eqn:E'; [| |done].
    + apply Heq, Hf in E'. rewrite Hopp, <-(Hcong b c a E'), Hopp, E. done.
    + by rewrite (Hlt a b c E E').
Qed.

(** * C83 *)

(** Storage ids: equality is identity, the order is total and agrees with it, equal ids hash alike, and different
    ids give the hasher something different. *)
Theorem C83_storage_id :
  eq_ok sid_eq ∧ ord_ok sid_eq sid_cmp ∧ hash_ok sid_eq sid_hash ∧
  (∀ a b, sid_eq a b = true ↔ a = b) ∧ (∀ a b, sid_hash a = sid_hash b → a = b).
Proof.
  split; [apply (eq_ok_ident _ id), sid_eq_iff|].
  split.
  { apply (ord_ok_lt _ _ (λ s, (s, MShared))).
    - apply sid_cmp_opp.
    - apply sid_cmp_lt_trans.
    - intros a b. by rewrite sid_cmp_eq, sid_eq_iff.
    - intros a b. rewrite sid_eq_iff. split; congruence.
    - congruence. }
  split; [intros a b; rewrite sid_eq_iff; by intros ->|].
  split; [apply sid_eq_iff|].
  intros [] []; cbn; congruence.
Qed.
(** Comparing an id with a [TypeId] answers as comparing it with the id of that type: always for equality, and for
    the order when the id is the one of a type.  The ids of different types, and of runtime types, are different. *)
Theorem C83_type_id :
  (∀ a t, sid_eq_type a t = sid_eq a (sid_from_type t)) ∧
  (∀ t t', sid_cmp_type (sid_from_type t) t' = Some (sid_cmp (sid_from_type t) (sid_from_type t'))) ∧
  (∀ a t, sid_cmp_type a t = Some Eq ↔ sid_eq_type a t = true) ∧
  (∀ t t', sid_from_type t = sid_from_type t' ↔ t = t') ∧
  (∀ n n', sid_from_u64 n = sid_from_u64 n' ↔ n = n') ∧
  (∀ t n, sid_eq (sid_from_type t) (sid_from_u64 n) = false).
Proof.
  split_and!; try done.
  - intros [t'|n] t; [|done]. cbn. rewrite N.eqb_eq. split; [intros [=E]; by apply N.compare_eq_iff|].
    intros ->. by rewrite N.compare_refl.
  - intros t t'. split; [by intros [=]|congruence].
  - intros t t'. split; [by intros [=]|congruence].
Qed.
(** False: the order against a [TypeId] agrees with the order of ids for all ids.  A runtime id is less than every
    [TypeId], and greater than the id of every type. *)
Theorem C83_type_id_refuted n t :
  sid_cmp_type (sid_from_u64 n) t = Some Lt ∧ sid_cmp (sid_from_u64 n) (sid_from_type t) = Gt.
Proof. done. Qed.

Lemma ti_eq_iff a b : ti_eq a b = true ↔ ti_ident a = ti_ident b.
Proof.
  unfold ti_eq, ti_ident. rewrite andb_true_iff, sid_eq_iff, bool_decide_eq_true. split; [|by intros [=]].
  intros [-> ->]. done.
Qed.
Lemma mut_cmp_eq a b : mut_cmp a b = Eq ↔ a = b.
Proof. by destruct a, b. Qed.
(** Type infos: they are equal when they are about the same kind of borrow of the same storage, whatever their names;
    the order is total and agrees with it: by storage, and a shared borrow before an exclusive one. *)
Theorem C83_type_info :
  eq_ok ti_eq ∧ ord_ok ti_eq ti_cmp ∧ hash_ok ti_eq ti_hash ∧
  (∀ a b, ti_eq a b = true ↔ ti_ident a = ti_ident b) ∧
  (∀ a b, ti_partial_cmp a b = Some (ti_cmp a b)) ∧
  (∀ a b, ti_id a = ti_id b → ti_cmp a b = Lt ↔ ti_mut a = MShared ∧ ti_mut b = MExclusive) ∧
  (∀ a t m, ti_eq_pair a (t, m) = true ↔ ti_ident a = (sid_from_type t, m)).
Proof.
  split; [apply (eq_ok_ident _ ti_ident), ti_eq_iff|].
  split.
  { apply (ord_ok_lt _ _ ti_ident).
    - intros a b. unfold ti_cmp. rewrite (sid_cmp_opp (ti_id a)). destruct (sid_cmp (ti_id a) (ti_id b)); cbn; try done.
      by destruct (ti_mut a), (ti_mut b).
    - intros a b c. unfold ti_cmp. destruct (sid_cmp (ti_id a) (ti_id b)) eqn:E; [| |done].
      + apply sid_cmp_eq in E. rewrite E. destruct (sid_cmp (ti_id b) (ti_id c)); [|done|done].
        by destruct (ti_mut a), (ti_mut b), (ti_mut c).
      + intros _. destruct (sid_cmp (ti_id b) (ti_id c)) eqn:E'; [| |done].
        * apply sid_cmp_eq in E'. by rewrite <-E', E.
        * by rewrite (sid_cmp_lt_trans _ _ _ E E').
    - intros a b. rewrite ti_eq_iff. unfold ti_cmp, ti_ident.
      destruct (sid_cmp (ti_id a) (ti_id b)) eqn:E.
      + apply sid_cmp_eq in E. rewrite mut_cmp_eq. split; [by intros ->; rewrite E|by intros [=]].
      + split; [done|]. intros [= E' _]. apply sid_cmp_eq in E'. congruence.
      + split; [done|]. intros [= E' _]. apply sid_cmp_eq in E'. congruence.
    - apply ti_eq_iff.
    - unfold ti_ident, ti_cmp. intros a a' b [= -> ->]. done. }
  split.
  { intros a b. rewrite ti_eq_iff. unfold ti_ident, ti_hash. by intros [= -> ->]. }
  split; [apply ti_eq_iff|]. split; [done|]. split.
  - intros a b E. unfold ti_cmp. apply sid_cmp_eq in E. rewrite E.
    destruct (ti_mut a), (ti_mut b); cbn; split; try done; by intros [].
  - intros a t m. unfold ti_eq_pair, ti_ident, sid_eq_type, sid_from_type. destruct a as [nm mu [t'|n] ts]; cbn.
    + rewrite andb_true_iff, N.eqb_eq, bool_decide_eq_true. split; [by intros [-> ->]|by intros [= -> ->]].
    + done.
Qed.
(** False: a type info read back from its serialization is equal to the original; and type infos read back that are
    equal are about the same storage.  The id is not kept. *)
Theorem C83_serde_refuted :
  (∀ a t, ti_id a = sid_from_type t → ti_eq (ti_serde a) a = false) ∧
  (∀ a b, ti_eq (ti_serde a) (ti_serde b) = true ↔ ti_mut a = ti_mut b) ∧
  ∃ a b, ti_name a ≠ ti_name b ∧ ti_id a ≠ ti_id b ∧ ti_eq (ti_serde a) (ti_serde b) = true ∧
    ti_cmp (ti_serde a) (ti_serde b) = Eq.
Proof.
  split_and!.
  - intros a t E. unfold ti_eq, ti_serde. cbn. by rewrite E.
  - intros a b. rewrite ti_eq_iff. unfold ti_serde, ti_ident. cbn. split; [by intros [=]|by intros ->].
  - by exists (TypeInfo [1] MShared (SType 1) true), (TypeInfo [2] MShared (SType 2) true).
Qed.

(** * Errors *)
Lemma gs_eq_iff a b : gs_eq a b = true ↔ a = b ∧ ¬ gs_custom a.
Proof.
  unfold gs_custom.
  destruct a, b; cbn; rewrite ?andb_true_iff, ?sid_eq_iff, ?bool_decide_eq_true; split;
    try (by intros [[=] ?]); try (intros E; split; [|by intros [? [=]]]; naive_solver); try naive_solver.
Qed.
Lemma labels_eq_iff a b : labels_eq a b = true ↔ map ident_of a = map ident_of b.
Proof.
  revert b. induction a as [|x a IH]; intros [|y b]; cbn; try done.
  rewrite andb_true_iff, C74_eq, IH. split; [by intros [-> ->]|by intros [=]].
Qed.
Lemma imp_eq_iff a b : imp_eq a b = true ↔ imp_ident a = imp_ident b.
Proof.
  destruct a, b; cbn; rewrite ?andb_true_iff, ?labels_eq_iff, ?C74_eq; try done;
    (split; [intros; destruct_and?; congruence|intros [=]; split_and?; congruence]).
Qed.
Lemma add_eq_iff a b : add_eq a b = true ↔ add_ident a = add_ident b.
Proof.
  destruct a, b; cbn; rewrite ?andb_true_iff, ?imp_eq_iff, ?labels_eq_iff, ?C74_eq, ?sid_eq_iff, ?bool_decide_eq_true;
    try done;
    (split; [intros; destruct_and?; congruence|intros [=]; split_and?; congruence]).
Qed.
Lemma up_eq_iff a b : up_eq a b = true ↔ up_ident a = up_ident b.
Proof.
  destruct a, b; cbn; rewrite ?ti_eq_iff, ?C74_eq; try done; (split; [congruence|intros [=]; unfold ti_ident; congruence]).
Qed.
(** The errors about workloads are equal exactly when they are the same up to the way their labels are boxed, named
    or cloned; so [Eq] is rightly implemented. *)
Theorem C83_workload_errors :
  eq_ok imp_eq ∧ eq_ok add_eq ∧ eq_ok up_eq ∧
  (∀ a b, imp_eq a b = true ↔ imp_ident a = imp_ident b) ∧
  (∀ a b, add_eq a b = true ↔ add_ident a = add_ident b) ∧
  (∀ a b, up_eq a b = true ↔ up_ident a = up_ident b).
Proof.
  split; [apply (eq_ok_ident _ _ imp_eq_iff)|]. split; [apply (eq_ok_ident _ _ add_eq_iff)|].
  split; [apply (eq_ok_ident _ _ up_eq_iff)|].
  split; [apply imp_eq_iff|]. split; [apply add_eq_iff|]. apply up_eq_iff.
Qed.
(** The errors about borrowing storages are equal exactly when they are the same and not made by users' code. *)
Theorem C83_borrow_errors :
  partial_eq_ok gs_eq ∧ partial_eq_ok run_eq ∧ partial_eq_ok serde_eq ∧
  (∀ a b, gs_eq a b = true ↔ a = b ∧ ¬ gs_custom a) ∧
  (∀ a b, run_eq a b = true ↔ a = b ∧ ∃ g, a = RGetStorage g ∧ ¬ gs_custom g) ∧
  (∀ a b, serde_eq a b = true ↔ a = b ∧ ∀ g, a = SEBorrow g → ¬ gs_custom g).
Proof.
  assert (Hr : ∀ a b, run_eq a b = true ↔ a = b ∧ ∃ g, a = RGetStorage g ∧ ¬ gs_custom g).
  { intros [g|e] [g'|e']; cbn; rewrite ?gs_eq_iff; try naive_solver. }
  assert (Hs : ∀ a b, serde_eq a b = true ↔ a = b ∧ ∀ g, a = SEBorrow g → ¬ gs_custom g).
  { intros [g|e] [g'|e']; cbn; rewrite ?gs_eq_iff, ?N.eqb_eq; try naive_solver. }
  assert (H : ∀ {A} (eq : A → A → bool) (P : A → Prop), (∀ a b, eq a b = true ↔ a = b ∧ P a) → partial_eq_ok eq).
  { intros A eq P He. split.
    - intros a b. apply eq_true_iff_eq. rewrite !He. naive_solver.
    - intros a b c. rewrite !He. naive_solver. }
  split; [apply (H _ _ _ gs_eq_iff)|]. split; [apply (H _ _ _ Hr)|]. split; [apply (H _ _ _ Hs)|].
  split; [apply gs_eq_iff|]. done.
Qed.
(** False: [GetStorage], and with it the errors of [serialize] and [deserialize], is equal to itself, as [Eq] says.
    An error made by [from_custom] is not. *)
Theorem C83_eq_refuted :
  (∀ e, gs_eq (GCustom e) (GCustom e) = false) ∧ ¬ eq_ok gs_eq ∧ ¬ eq_ok serde_eq.
Proof.
  split; [done|]. split.
  - intros [_ H]. specialize (H (GCustom 0)). done.
  - intros [_ H]. specialize (H (SEBorrow (GCustom 0))). done.
Qed.

(** Shared and exclusive borrows of two storages; a label and its box in an error. *)
Example C83_case :
  let a := TypeInfo [65] MShared (SType 7) true in
  let b := TypeInfo [66] MShared (SType 7) false in
  let c := TypeInfo [65] MExclusive (SType 7) true in
  let d := TypeInfo [65] MShared (SCustom 3) true in
  ti_eq a b = true ∧ ti_eq a c = false ∧ ti_cmp a c = Lt ∧ ti_cmp c d = Lt ∧ ti_cmp a d = Lt ∧
  ti_eq_pair a (7, MShared) = true ∧ ti_eq_pair d (3, MShared) = false ∧ ti_hash a = ti_hash b ∧
  add_eq (AMissingBefore (DStr [65]) [DBox (DStr [66]); DSys 1 (DStr [67])])
         (AMissingBefore (DBox (DStr [65])) [DStr [66]; DSys 1 (DStr [68])]) = true ∧
  add_eq (AMissingBefore (DStr [65]) []) (AMissingAfter (DStr [65]) []) = false ∧
  add_eq ABorrow ATrackingAllStorages = false ∧ up_eq UScheduler UAllStorages = false ∧
  gs_eq (GMissing (Some [65]) (SType 7)) (GMissing None (SType 7)) = false ∧
  gs_eq (GStorage None (SType 7) BUnique) (GStorage None (SType 7) BUnique) = true.
Proof. vm_compute. tauto. Qed.

Print Assumptions C83_storage_id.
Print Assumptions C83_type_id.
Print Assumptions C83_type_id_refuted.
Print Assumptions C83_type_info.
Print Assumptions C83_serde_refuted.
Print Assumptions C83_workload_errors.
Print Assumptions C83_borrow_errors.
Print Assumptions C83_eq_refuted.
