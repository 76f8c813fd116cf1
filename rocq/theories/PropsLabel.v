(** Properties of labels (C74). *)
From stdpp Require Import prelude countable list.
From Verif Require Import Sched LabelTypes.
Local Open Scope N_scope.

(** * Specification: what a label is identified by *)

(** A string type and a text; a [TypeId]; a derived type and a value; the type of a function; ... *)
Inductive ident :=
| IText (ty : dtype) (s : list N)
| ITypeId (t : N)
| IUid (n : N)
| IUser (ty v : N)
| ISeq (i : ident)
| ISys (t : N)
| IWl (t : N).
Global Instance ident_eq_dec : EqDecision ident.
Proof. solve_decision. Defined.
Fixpoint ident_of (l : dlabel) : ident :=
  match l with
  | DStr s => IText TyStr s
  | DString s => IText TyString s
  | DCow s => IText TyCow s
  | DTypeId t => ITypeId t
  | DUid n => IUid n
  | DUser t v => IUser t v
  | DSeq l => ISeq (ident_of l)
  | DSys t _ => ISys t
  | DWl t _ => IWl t
  | DBox l => ident_of l
  end.

Lemma ident_as_any l : ident_of (as_any l) = ident_of l.
Proof. induction l; simpl; congruence. Qed.
Lemma as_any_box l m : as_any l ≠ DBox m.
Proof. by induction l. Qed.

(** * C74 *)

(** Equality of labels is equality of what they are identified by. *)
Theorem C74_eq a b : label_eq a b = true ↔ ident_of a = ident_of b.
Proof.
  unfold label_eq. rewrite <-(ident_as_any b). revert b.
  induction a as [s|s|s|t|n|ty v|l IH|t n _|t n _|l IH]; intros b; cbn [dyn_eq ident_of]; [..|by apply IH];
    pose proof (as_any_box b) as Hb; destruct (as_any b) as [s'|s'|s'|t'|n'|ty' v'|l'|t' n'|t' n'|l'];
    cbn [ident_of]; try (by destruct (Hb l'));
    rewrite ?andb_true_iff, ?N.eqb_eq, ?bool_decide_eq_true; try (split; congruence).
  - split; [by intros [-> ->]|by intros [= -> ->]].
  - rewrite IH, ident_as_any. split; congruence.
Qed.

(** So it is an equivalence. *)
Theorem C74_equivalence :
  (∀ a, label_eq a a = true) ∧ (∀ a b, label_eq a b = label_eq b a) ∧
  (∀ a b c, label_eq a b = true → label_eq b c = true → label_eq a c = true).
Proof.
  split_and!.
  - intros a. by apply C74_eq.
  - intros a b. apply eq_true_iff_eq. rewrite !C74_eq. done.
  - intros a b c. rewrite !C74_eq. congruence.
Qed.

Lemma any_type_ident a b : ident_of a = ident_of b → any_type a = any_type b.
Proof.
  rewrite <-(ident_as_any a), <-(ident_as_any b). unfold any_type.
  pose proof (as_any_box a) as Ha. pose proof (as_any_box b) as Hb.
  destruct (as_any a) as [| | | | | | | | |l], (as_any b) as [| | | | | | | | |l']; cbn; try congruence;
    try (by destruct (Ha l)); by destruct (Hb l').
Qed.
Lemma dyn_hash_ident a b : ident_of a = ident_of b → dyn_hash a = dyn_hash b.
Proof.
  assert (Hany : ∀ l, dyn_hash (as_any l) = dyn_hash l) by (intros l; induction l; simpl; congruence).
  revert b. induction a as [s|s|s|t|n|ty v|l IH|t n _|t n _|l IH]; intros b; cbn [ident_of dyn_hash]; [..|by apply IH];
    rewrite <-(ident_as_any b), <-(Hany b); pose proof (as_any_box b) as Hb;
    destruct (as_any b) as [s'|s'|s'|t'|n'|ty' v'|l'|t' n'|t' n'|l']; cbn [ident_of dyn_hash];
    try (by destruct (Hb l')); try congruence.
  intros [= E]. by rewrite (any_type_ident _ _ E), (IH _ E).
Qed.

(** Equal labels feed a hasher with the same. *)
Theorem C74_hash a b : label_eq a b = true → label_hash a = label_hash b.
Proof.
  rewrite C74_eq. intros E. unfold label_hash. by rewrite (any_type_ident _ _ E), (dyn_hash_ident _ _ E).
Qed.
(** Labels of different types are never equal, whatever they contain. *)
Theorem C74_types a b : any_type a ≠ any_type b → label_eq a b = false.
Proof.
  intros Hn. destruct (label_eq a b) eqn:E; [|done]. apply C74_eq, any_type_ident in E. done.
Qed.
(** Clones are equal to the original and hold no boxed label; boxing does not matter. *)
Theorem C74_clone l : label_eq (dyn_clone l) l = true ∧ label_eq (as_label l) l = true ∧
  label_eq (DBox l) l = true ∧ ∀ m, dyn_clone l ≠ DBox m.
Proof.
  assert (H : ident_of (dyn_clone l) = ident_of l) by (induction l; simpl; congruence).
  split; [apply C74_eq; exact H|]. split; [apply C74_eq; exact H|]. split; [apply C74_eq; reflexivity|].
  clear H. induction l; intros m; simpl; try discriminate. auto.
Qed.

(** The labels of a function, of systems made from it, and of others. *)
Theorem C74_functions ty ty' name name' display :
  (label_eq (fn_label ty name) (fn_label ty' name') = true ↔ ty = ty') ∧
  (label_eq (fn_label ty name) (sys_label ty' display) = true ↔ ty = ty') ∧
  label_eq (fn_label ty name) (workload_fn_label ty' name') = false.
Proof.
  split_and!.
  - rewrite C74_eq. cbn. split; congruence.
  - rewrite C74_eq. cbn. split; congruence.
  - by apply C74_types.
Qed.

(** Labels a user can not make: those of the two private types. *)
Definition private_label (l : dlabel) : Prop :=
  match as_any l with DSeq _ | DUid _ => True | _ => False end.

(** The labels of the model of workloads (Sched.v) are these labels up to equality. *)
Theorem C74_sched : ∃ f : dlabel → label,
  (∀ a b, label_eq a b = true ↔ f a = f b) ∧ (∀ l, f (DSeq l) = LSeq (f l)) ∧
  (∀ n, f (DUid n) = LUid (N.to_nat n)) ∧ (∀ l, ¬ private_label l → ∃ n, f l = LName n).
Proof.
  set (enc := λ x : (N * list N) + (N * (N * N)), LName (Npos (encode x))).
  assert (Hinj : ∀ x y, enc x = enc y → x = y).
  { intros x y [= E]. by apply encode_inj in E. }
  set (tag := λ t, match t with TyStr => 0 | TyString => 1 | TyCow => 2 | _ => 3 end).
  set (g := fix g (l : dlabel) : label := match l with
    | DStr s => enc (inl (0, s))
    | DString s => enc (inl (1, s))
    | DCow s => enc (inl (2, s))
    | DTypeId t => enc (inr (0, (t, 0)))
    | DUid n => LUid (N.to_nat n)
    | DUser t v => enc (inr (1, (t, v)))
    | DSeq l => LSeq (g l)
    | DSys t _ => enc (inr (2, (t, 0)))
    | DWl t _ => enc (inr (3, (t, 0)))
    | DBox l => g l
    end).
  assert (Hany : ∀ l, g (as_any l) = g l) by (intros l; induction l; simpl; congruence).
  exists g. split_and!; [|done|done|].
  - intros a b. rewrite C74_eq, <-(ident_as_any b), <-(Hany b). revert b.
    induction a as [s|s|s|t|n|ty v|l IH|t n _|t n _|l IH]; intros b; cbn [ident_of g]; [..|by apply IH];
      pose proof (as_any_box b) as Hb; destruct (as_any b) as [s'|s'|s'|t'|n'|ty' v'|l'|t' n'|t' n'|l'];
      cbn [ident_of g]; try (by destruct (Hb l'));
      try (split; [intros [=]; congruence|first [intros E; apply Hinj in E; congruence|done]]).
    + split; [congruence|]. intros [= E]. f_equal. lia.
    + specialize (IH l'). rewrite ident_as_any, Hany in IH. split.
      * intros [= E]. f_equal. by apply IH.
      * intros [= E]. f_equal. by apply IH.
  - intros l. unfold private_label. rewrite <-(Hany l). pose proof (as_any_box l) as Hb.
    destruct (as_any l) as [s'|s'|s'|t'|n'|ty' v'|l'|t' n'|t' n'|l']; cbn [g]; try (intros _; eexists; reflexivity);
      try (intros H; by destruct H). by destruct (Hb l').
Qed.

(** ** Tables of workloads *)

(** Operations on a table, and the table they stand for. *)
Inductive mop (V : Type) := MInsert (k : dlabel) (v : V) | MRemove (k : dlabel).
Arguments MInsert {V}. Arguments MRemove {V}.
Definition m_step {V} (h : list hword → N) (m : lmap (V := V)) (o : mop V) : lmap :=
  match o with MInsert k v => lm_insert h k v m | MRemove k => lm_remove h k m end.
Definition m_spec {V} (f : ident → option V) (o : mop V) : ident → option V :=
  match o with
  | MInsert k v => λ i, if decide (i = ident_of k) then Some v else f i
  | MRemove k => λ i, if decide (i = ident_of k) then None else f i
  end.

Section maps.
  Context {V : Type} (h : list hword → N).

  Definition lm_ok (m : lmap (V := V)) : Prop :=
    (∀ b k v, (b, (k, v)) ∈ m → b = h (label_hash k)) ∧ NoDup ((λ e, ident_of e.2.1) <$> m).

  Lemma key_test b k k' : b = h (label_hash k') →
    (h (label_hash k) =? b) && label_eq k k' = bool_decide (ident_of k = ident_of k').
  Proof.
    intros ->. apply eq_true_iff_eq. rewrite andb_true_iff, N.eqb_eq, bool_decide_eq_true, <-C74_eq.
    split; [by intros [_ ?]|]. intros E. split; [|done]. by rewrite (C74_hash _ _ E).
  Qed.

  Lemma lm_insert_keys k v m i : lm_ok m →
    i ∈ (λ e, ident_of e.2.1) <$> lm_insert h k v m ↔ i = ident_of k ∨ i ∈ (λ e, ident_of e.2.1) <$> m.
  Proof.
    induction m as [|[b [k' v']] m IH]; intros [Hb Hn]; cbn [lm_insert fmap list_fmap].
    - rewrite elem_of_list_singleton, elem_of_nil. cbn. tauto.
    - rewrite (key_test b k k') by (eapply Hb; by left). case_bool_decide as E; cbn [fmap list_fmap snd fst].
      + rewrite !elem_of_cons. rewrite E. tauto.
      + rewrite !elem_of_cons, IH; [tauto|]. split; [intros; eapply Hb; by right|].
        by apply NoDup_cons in Hn as [_ ?].
  Qed.
  Lemma lm_remove_keys k m i : lm_ok m →
    i ∈ (λ e, ident_of e.2.1) <$> lm_remove h k m → i ∈ (λ e, ident_of e.2.1) <$> m.
  Proof.
    induction m as [|[b [k' v']] m IH]; intros [Hb Hn]; cbn [lm_remove fmap list_fmap]; [done|].
    destruct (_ && _); cbn [fmap list_fmap snd fst].
    - rewrite elem_of_cons. tauto.
    - rewrite !elem_of_cons. intros [->|H]; [by left|]. right. apply IH; [|done].
      split; [intros; eapply Hb; by right|]. by apply NoDup_cons in Hn as [_ ?].
  Qed.

  Lemma m_step_ok m o : lm_ok m → lm_ok (m_step h m o).
  Proof.
    intros Hok. destruct o as [k v|k]; cbn [m_step].
    - induction m as [|[b [k' v']] m IH]; cbn [lm_insert].
      + split; [|apply NoDup_singleton].
        intros b k' v' [= -> -> ->]%elem_of_list_singleton. done.
      + assert (Hm : lm_ok m).
        { destruct Hok as [Hb Hn]. split; [intros; eapply Hb; by right|]. by apply NoDup_cons in Hn as [_ ?]. }
        destruct Hok as [Hb Hn]. rewrite (key_test b k k') by (eapply Hb; by left).
        case_bool_decide as E.
        * split; [|done]. intros b1 k1 v1 [[= -> -> ->]|H]%elem_of_cons; eapply Hb; [by left|by right].
        * destruct (IH Hm) as [Hb2 Hn2]. split.
          -- intros b1 k1 v1 [[= -> -> ->]|H]%elem_of_cons; [eapply Hb; by left|by eapply Hb2].
          -- apply NoDup_cons in Hn as [Hn1 Hn]. apply NoDup_cons. split; [|done].
             rewrite lm_insert_keys by done. intros [E'|H]; [by apply E|done].
    - induction m as [|[b [k' v']] m IH]; cbn [lm_remove]; [done|].
      assert (Hm : lm_ok m).
      { destruct Hok as [Hb Hn]. split; [intros; eapply Hb; by right|]. by apply NoDup_cons in Hn as [_ ?]. }
      destruct (_ && _); [done|]. destruct (IH Hm) as [Hb2 Hn2]. destruct Hok as [Hb Hn]. split.
      + intros b1 k1 v1 [[= -> -> ->]|H]%elem_of_cons; [eapply Hb; by left|by eapply Hb2].
      + apply NoDup_cons in Hn as [Hn1 Hn]. apply NoDup_cons. split; [|done].
        intros H. by apply lm_remove_keys in H.
  Qed.

  Lemma lm_get_none k m : lm_ok m → ident_of k ∉ (λ e, ident_of e.2.1) <$> m → lm_get h k m = None.
  Proof.
    induction m as [|[b [k' v']] m IH]; intros [Hb Hn] Hk; [done|]. cbn [lm_get].
    cbn [fmap list_fmap fst snd] in Hk. apply not_elem_of_cons in Hk as [H1 H2].
    rewrite (key_test b k k') by (eapply Hb; by left). rewrite bool_decide_eq_false_2 by done.
    apply IH; [|done]. split; [intros; eapply Hb; by right|]. by apply NoDup_cons in Hn as [_ ?].
  Qed.
  Lemma m_step_get m o k : lm_ok m →
    lm_get h k (m_step h m o) =
    match o with
    | MInsert k' v => if decide (ident_of k = ident_of k') then Some v else lm_get h k m
    | MRemove k' => if decide (ident_of k = ident_of k') then None else lm_get h k m
    end.
  Proof.
    intros Hok. destruct o as [k1 v1|k1]; cbn [m_step].
    - induction m as [|[b [k' v']] m IH]; cbn [lm_insert lm_get].
      + rewrite (key_test _ k k1) by done. case_bool_decide; by destruct (decide _).
      + assert (Hm : lm_ok m).
        { destruct Hok as [Hb Hn]. split; [intros; eapply Hb; by right|]. by apply NoDup_cons in Hn as [_ ?]. }
        destruct Hok as [Hb Hn]. assert (Hbk : b = h (label_hash k')) by (eapply Hb; by left).
        rewrite (key_test b k1 k') by done. case_bool_decide as E1; cbn [lm_get];
          rewrite (key_test b k k') by done; case_bool_decide as E2.
        * rewrite decide_True by congruence. done.
        * rewrite decide_False by congruence. done.
        * rewrite decide_False by congruence. done.
        * by apply IH.
    - induction m as [|[b [k' v']] m IH]; cbn [lm_remove lm_get].
      + by destruct (decide _).
      + assert (Hm : lm_ok m).
        { destruct Hok as [Hb Hn]. split; [intros; eapply Hb; by right|]. by apply NoDup_cons in Hn as [_ ?]. }
        destruct Hok as [Hb Hn]. assert (Hbk : b = h (label_hash k')) by (eapply Hb; by left).
        apply NoDup_cons in Hn as [Hn1 Hn]. cbn [fst snd] in Hn1.
        rewrite (key_test b k1 k') by done. case_bool_decide as E1; cbn [lm_get].
        * destruct (decide _) as [E|E].
          -- apply lm_get_none; [done|]. by rewrite E, E1.
          -- rewrite (key_test b k k') by done. rewrite bool_decide_eq_false_2 by congruence. done.
        * rewrite (key_test b k k') by done. case_bool_decide as E2.
          -- rewrite decide_False by congruence. done.
          -- by apply IH.
  Qed.
End maps.

(** A table keyed by labels (of workloads) holds what was last inserted under an equal label. *)
Theorem C74_table {V} (h : list hword → N) (os : list (mop V)) k :
  lm_get h k (fold_left (m_step h) os []) = fold_left m_spec os (λ _, None) (ident_of k).
Proof.
  assert (H : ∀ (os : list (mop V)) (m : lmap) (f : ident → option V),
    lm_ok h m → (∀ k, lm_get h k m = f (ident_of k)) →
    lm_get h k (fold_left (m_step h) os m) = fold_left m_spec os f (ident_of k)).
  { clear os. induction os as [|o os IH]; intros m f Hok Hf; cbn [fold_left]; [apply Hf|].
    apply IH; [by apply m_step_ok|]. intros k'. rewrite m_step_get by done.
    destruct o as [k1 v1|k1]; cbn [m_spec]; rewrite Hf; done. }
  apply H; [|done]. split; [|constructor]. intros b k' v' Hk. by apply elem_of_nil in Hk.
Qed.

(** * What does not hold *)

(** The same text in two string types is not the same label: a workload named by one is not found by the other. *)
Theorem C74_text_refuted :
  ∃ s, label_eq (DStr s) (DString s) = false ∧ label_eq (DString s) (DCow s) = false ∧
  ∀ h, lm_get h (DString s) (lm_insert h (DStr s) 1 []) = None.
Proof. exists [97]. split_and!; [reflexivity..|]. intros h. cbn. by rewrite andb_false_r. Qed.

(** That different names make different labels: the name of a function's label takes no part in it. *)
Theorem C74_name_refuted : ∃ t n n', n ≠ n' ∧ label_eq (DSys t n) (DSys t n') = true ∧
  label_hash (DSys t n) = label_hash (DSys t n').
Proof. by exists 1, (DStr [97]), (DStr [98]). Qed.

(** ** Examples *)
Example labels_eq :
  label_eq (DBox (DSeq (DBox (DStr [97; 98])))) (DSeq (DStr [97; 98])) = true ∧
  label_hash (DBox (DSeq (DBox (DStr [97; 98])))) = label_hash (DSeq (DStr [97; 98])) ∧
  label_eq (DSeq (DStr [97])) (DStr [97]) = false ∧ any_type (DSeq (DStr [97])) ≠ any_type (DStr [97]) ∧
  label_eq (DTypeId 3) (DUid 3) = false ∧ ¬ private_label (DBox (DSys 3 (DStr []))).
Proof. split_and!; try reflexivity; [discriminate|intros []]. Qed.
(** Two labels with the same hash value are kept apart. *)
Example table_ex :
  let h := λ _ : list hword, 0 in
  let m := fold_left (m_step h) [MInsert (DStr [97]) 1; MInsert (DStr [98]) 2; MInsert (DBox (DStr [97])) 3; MRemove (DStr [98])] [] in
  lm_get h (DStr [97]) m = Some 3 ∧ lm_get h (DStr [98]) m = None ∧ length m = 1%nat.
Proof. by vm_compute. Qed.

Print Assumptions C74_eq.
Print Assumptions C74_equivalence.
Print Assumptions C74_hash.
Print Assumptions C74_types.
Print Assumptions C74_clone.
Print Assumptions C74_functions.
Print Assumptions C74_sched.
Print Assumptions C74_table.
Print Assumptions C74_text_refuted.
Print Assumptions C74_name_refuted.
