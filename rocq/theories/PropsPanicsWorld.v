(** Property C66: worlds after panics of user code that were caught. *)
From stdpp Require Import prelude list gmap.
From Coq Require Import NArith Lia.
From Verif Require Import EntityId Base Entities EntitiesSpec SparseSet SparseSetSpec Track World WorldProofs Iter PropsIter
  Panics PanicsWorldSpec PanicsLoose PanicsWorld Bulk.
Open Scope N_scope.

Section props.
Context {V : Type} (kind : N -> tracking).
Implicit Types (w : world V) (o : wop V).
Notation never := (λ (_ : N) (_ : eid) (_ : V), false).

(** What a view of type [i] gives for [e]; nothing while there is no storage. *)
Definition read w (i : N) (e : eid) : res (option V) :=
  match w_stores w !! i with Some s => ss_get s e | None => Ok None end.
(** A world some history with panics leads to. *)
Definition x_reaches w : Prop :=
  ∃ ops evs, x_history kind w_new ops ∧ x_run kind w_new ops = Ok (w, evs).

Lemma x_reaches_XR w : x_reaches w -> ∃ st, XR w st.
Proof.
  intros (ops & evs & Hh & E). destruct (x_run_XR kind ops w_new x_init XR_init Hh) as (w' & evs' & st & E' & _ & H).
  rewrite E in E'. injection E' as <- <-. by exists st.
Qed.
Lemma read_XR w st i e : XR w st -> gen e < U16_MAX -> read w i e = Ok (x_cells st i !! e).
Proof.
  intros H Hg. unfold read. pose proof (xr_stores w st H i) as Hs. destruct (w_stores w !! i) as [s|].
  - by apply ss_get_LR.
  - by rewrite Hs, lookup_empty.
Qed.
Lemma alive_XR w st e : XR w st -> is_alive (w_ents w) e = true <-> e ∈ x_alive st.
Proof. intros H. apply (ER_alive _ _ _ _ (xr_ents w st H)). Qed.
Lemma alive_eq w st w' st' e :
  XR w st -> XR w' st' -> (e ∈ x_alive st <-> e ∈ x_alive st') -> is_alive (w_ents w) e = is_alive (w_ents w') e.
Proof. intros H H' He. apply eq_true_iff_eq. by rewrite (alive_XR w st), (alive_XR w' st') by done. Qed.

(** * C66: a caught panic leaves a world that can be used *)
(** However user code panics and however often, every later call runs without panic of the crate and
    without undefined behaviour, and everything that can be read afterwards is what PanicsWorldSpec.v
    says. *)
Theorem C66_world_survives ops :
  x_history kind w_new ops ->
  ∃ w evs st,
    x_run kind w_new ops = Ok (w, evs) ∧ xp_run x_init ops evs st ∧
    (∀ e, is_alive (w_ents w) e = true <-> e ∈ x_alive st) ∧
    (∀ i e, gen e < U16_MAX -> read w i e = Ok (x_cells st i !! e)) ∧
    (∀ i k, is_Some (x_cells st i !! k) -> k ∈ x_issued st) ∧
    (∀ i s, w_stores w !! i = Some s ->
      lenN (ss_data s) = lenN (ss_dense s) ∧
      (∀ p d, getN (ss_dense s) p = Some d ->
         ∃ k v, id_of d k ∧ x_cells st i !! k = Some v ∧ getN (ss_data s) p = Some v) ∧
      (∀ e l c, gen e < U16_MAX ->
         ss_contains s e = bool_decide (is_Some (x_cells st i !! e)) ∧
         (ss_ti s = true -> ∃ b, is_inserted s e l c = Ok b) ∧
         (ss_tm s = true -> ∃ b, is_modified s e l c = Ok b))).
Proof.
  intros Hh. destruct (x_run_XR kind ops w_new x_init XR_init Hh) as (w & evs & st & E & Hr & H).
  exists w, evs, st. split; [done|]. split; [done|]. split; [intros e; by apply alive_XR|].
  split; [intros i e; by apply read_XR|]. split; [apply H|].
  intros i s Hs. pose proof (xr_stores w st H i) as HL. rewrite Hs in HL.
  split; [by apply (LR_len s (x_cells st i))|]. split.
  - intros p d Hd. destruct (LR_row s _ p d HL Hd) as (k & v & Hid & _ & _ & Hm & Hv). by exists k, v.
  - intros e l c Hg. split; [by apply ss_contains_LR|]. by apply (marks_LR s (x_cells st i)).
Qed.

(** A call that returns did what the same call does when nothing can panic, whatever panicked before... *)
Theorem C66_returned w cbi cbr o w' ev :
  x_step kind w (XOp cbi cbr o) = Ok (w', Some ev) -> w_step kind w o = Ok (w', ev).
Proof. apply x_step_some. Qed.
(** ... and calls always return when no user code panics, except add_component of a dead entity. *)
Theorem C66_returns w o :
  x_reaches w -> x_allowed w (XOp never never o) ->
  (∀ e cs, o = WAddComponent e cs -> is_alive (w_ents w) e = true) ->
  ∃ w' ev, x_step kind w (XOp never never o) = Ok (w', Some ev) ∧ w_step kind w o = Ok (w', ev).
Proof.
  intros Hre Ha Hal. destruct (x_reaches_XR w Hre) as [st H].
  destruct (x_op_XR kind w st o H Ha) as (acts & ev & Hacts & Hrun).
  destruct (Hrun never never) as (w' & E & H').
  assert ((perform never never acts st).2 = true) as E2.
  { assert (Forall (λ a, a ≠ AFail) acts) as HF.
    { destruct Hacts; try done; repeat first [apply Forall_cons; split; [done|]
        | apply Forall_fmap, Forall_true; done | apply Forall_app; split | by constructor].
      - specialize (Hal e cs eq_refl). apply (alive_XR w st e H) in Hal. done.
      - apply Forall_forall. intros a (i & Hin & _)%elem_of_list_bind.
        apply elem_of_list_fmap in Hin as (x & -> & _). done.
      - apply Forall_forall. intros a ([d is'] & Hin & _)%elem_of_list_bind. cbn in Hin.
        destruct (decide _); [|by apply elem_of_nil in Hin].
        apply elem_of_cons in Hin as [->|Hin]; [done|].
        apply elem_of_list_fmap in Hin as (x & -> & _). done. }
    clear -HF. revert st. induction HF as [|a acts Hne HF IH]; intros st; [done|]. cbn [perform].
    assert (panics_before never a = false) as -> by (by destruct a).
    assert (panics_after never st a = false) as ->; [|apply IH].
    destruct a; try done. cbn. by destruct (x_cells st _ !! _). }
  rewrite E2 in E. exists w', ev. split; [done|]. by apply (C66_returned _ never never).
Qed.

(** Whatever was read before an interrupted call, each component and each entity is afterwards as it
    was before or as the complete call leaves it. *)
Theorem C66_before_or_after w cbi cbr o w1 w2 ev :
  x_reaches w -> x_allowed w (XOp cbi cbr o) -> distinct o ->
  x_step kind w (XOp cbi cbr o) = Ok (w1, None) -> x_step kind w (XOp never never o) = Ok (w2, ev) ->
  (∀ i e, gen e < U16_MAX -> read w1 i e = read w i e ∨ read w1 i e = read w2 i e) ∧
  (∀ e, is_alive (w_ents w1) e = is_alive (w_ents w) e ∨ is_alive (w_ents w1) e = is_alive (w_ents w2) e).
Proof.
  intros Hre Ha Hd E1 E2. destruct (x_reaches_XR w Hre) as [st H].
  destruct (x_op_XR kind w st o H (x_allowed_any w cbi cbr o Ha)) as (acts & ev' & Hacts & Hrun).
  destruct (Hrun cbi cbr) as (w1' & E1' & H1). rewrite E1 in E1'. injection E1' as <- _.
  destruct (Hrun never never) as (w2' & E2' & H2). rewrite E2 in E2'. injection E2' as <- _.
  destruct (acts_between st o acts ev' cbi cbr Hacts Hd) as [C1 C2]. split.
  - intros i e Hg. rewrite (read_XR w1 _ i e H1 Hg), (read_XR w2 _ i e H2 Hg), (read_XR w _ i e H Hg).
    destruct (C1 i e) as [->| ->]; auto.
  - intros e. destruct (C2 e) as [C|C]; [left|right]; by eapply alive_eq.
Qed.
(** A call that is given handles, interrupted or not, leaves the other entities and their components
    alone. *)
Theorem C66_others_untouched w cbi cbr o l w1 ev e :
  x_reaches w -> x_allowed w (XOp cbi cbr o) -> named o = Some l ->
  x_step kind w (XOp cbi cbr o) = Ok (w1, ev) -> is_alive (w_ents w) e = true ->
  (∀ x, x ∈ l -> idx x = idx e -> gen x < gen e) ->
  is_alive (w_ents w1) e = true ∧ ∀ i, read w1 i e = read w i e.
Proof.
  intros Hre Ha Hl E He Hn. destruct (x_reaches_XR w Hre) as [st H].
  destruct (x_op_XR kind w st o H (x_allowed_any w cbi cbr o Ha)) as (acts & ev' & Hacts & Hrun).
  destruct (Hrun cbi cbr) as (w1' & E1' & H1). rewrite E in E1'. injection E1' as <- _.
  apply (alive_XR w st e H) in He.
  pose proof (acts_misses kind w st o acts ev' l e H Hacts Hl He Hn) as HF.
  assert (gen e < U16_MAX) as Hg by apply (ER_ok _ _ _ _ (xr_ents w st H) He).
  split.
  - apply (alive_XR w1 _ e H1). by destruct (perform_misses kind cbi cbr e acts st 0 HF He).
  - intros i. rewrite (read_XR w1 _ i e H1 Hg), (read_XR w _ i e H Hg). f_equal.
    by destruct (perform_misses kind cbi cbr e acts st i HF He).
Qed.
(** A new entity has the components it was given and nothing that was left behind. *)
Theorem C66_new_entity w cbi cbr cs w1 h :
  x_reaches w -> x_allowed w (XOp cbi cbr (WAddEntity cs)) -> NoDup cs.*1 ->
  x_step kind w (XOp cbi cbr (WAddEntity cs)) = Ok (w1, Some (WId h)) ->
  is_alive (w_ents w) h = false ∧ is_alive (w_ents w1) h = true ∧
  (∀ e, is_alive (w_ents w) e = true -> idx e ≠ idx h) ∧
  ∀ i, read w i h = Ok None ∧ read w1 i h = Ok ((list_to_map cs : gmap N V) !! i).
Proof.
  intros Hre Ha Hnd E. destruct (x_reaches_XR w Hre) as [st H].
  destruct (x_op_XR kind w st _ H (x_allowed_any w cbi cbr _ Ha)) as (acts & ev' & Hacts & Hrun).
  destruct (Hrun cbi cbr) as (w1' & E1' & H1). rewrite E in E1'.
  destruct ((perform cbi cbr acts st).2) eqn:Eok; [|done]. injection E1' as <- <-.
  pose proof (perform_ok_never cbi cbr acts st Eok) as En. rewrite <- En in H1. clear En E Eok Hrun.
  inversion Hacts as [cs' h' Hnew Hfree| | | | | | | | | | | | | | | | | ]; subst.
  assert (h ∉ x_alive st) as Hd by (intros Hh; by apply Hnew, (xr_alive w st H)).
  change (perform never never (ANew h :: ((λ c, APut c.1 h c.2) <$> cs)) st)
    with (perform never never ((λ c, APut c.1 h c.2) <$> cs) (effect st (ANew h))) in H1.
  set (st1 := effect st (ANew h)) in *.
  assert (h ∈ x_alive (perform never never ((λ c, APut c.1 h c.2) <$> cs) st1).1) as Hal.
  { destruct (perform_ents never never ((λ c, APut c.1 h c.2) <$> cs) st1) as [-> _]; [by apply (cell_puts h cs)|].
    cbn. set_solver. }
  assert (gen h < U16_MAX) as Hg by apply (ER_ok _ _ _ _ (xr_ents w1 _ H1) Hal).
  split_and!.
  - apply not_true_iff_false. by rewrite (alive_XR w st h H).
  - by apply (alive_XR w1 _ h H1).
  - intros e He%(alive_XR w st e H). by apply Hfree.
  - intros i.
    assert (x_cells st i !! h = None) as Hno.
    { destruct (x_cells st i !! h) eqn:Ec; [|done]. exfalso. apply Hnew, (xr_keys w st H i). by rewrite Ec. }
    split; [by rewrite (read_XR w st i h H Hg), Hno|].
    rewrite (read_XR w1 _ i h H1 Hg), (puts_mine h cs st1 i Hnd). f_equal.
    destruct (list_to_map cs !! i); [done|]. apply Hno.
Qed.
End props.

(** ** Concrete histories *)
Definition fine : N -> eid -> N -> bool := λ _ _ _, false.
(** The callback of type [j] panics. *)
Definition boom_at (j : N) : N -> eid -> N -> bool := λ i _ _, bool_decide (i = j).
Definition calm (o : wop N) : xop N := XOp fine fine o.
Definition x_kind : N -> tracking := λ _, TAll.
(** A check of [x_history] that can be computed, for the calls used below. *)
Definition x_allowed_b (w : world N) (o : xop N) : bool :=
  match o with
  | XRetain _ i _ => bool_decide (is_Some (w_stores w !! i))
  | XOp _ _ (WAddEntity _) => lenN (e_data (w_ents w)) + 1 <? max_idx
  | XOp _ _ (WAddComponent _ _) => true
  | XOp _ _ (WRemove e _) => gen e <? U16_MAX
  | XOp _ _ (WDeleteEntity e _) => gen e <? last_gen
  | XOp _ _ (WSpawn e) => (gen e <? U16_MAX) && (idx e + 1 <? max_idx) && 
      match getN (e_data (w_ents w)) (idx e) with Some h => gen e <? gen h | None => true end
  | _ => false
  end.
Fixpoint x_history_b (w : world N) (ops : list (xop N)) : bool :=
  match ops with
  | [] => true
  | o :: ops => x_allowed_b w o && match x_step x_kind w o with Ok (w', _) => x_history_b w' ops | _ => true end
  end.
Lemma x_allowed_b_ok w o : x_allowed_b w o = true -> x_allowed w o.
Proof.
  destruct o as [cbi cbr o|cbr i f]; [destruct o|]; cbn [x_allowed_b x_allowed]; try done; try (by apply N.ltb_lt).
  - intros [[H1%N.ltb_lt H2%N.ltb_lt]%andb_prop H3]%andb_prop. split; [done|]. split; [done|].
    intros h Ha Hi. unfold is_alive in Ha. rewrite Hi in Ha.
    destruct (getN (e_data (w_ents w)) (idx e)) as [h'|]; [|done]. apply bool_decide_eq_true in Ha as ->.
    by apply N.ltb_lt.
  - apply bool_decide_eq_true.
Qed.
Lemma x_history_b_ok ops : ∀ w, x_history_b w ops = true -> x_history x_kind w ops.
Proof.
  induction ops as [|o ops IH]; intros w; [done|]. cbn [x_history_b x_history].
  intros [H1 H2]%andb_prop. split; [by apply x_allowed_b_ok|]. intros w' ev E. rewrite E in H2. by apply IH.
Qed.
(** The world after a list of calls. *)
Definition x_world (ops : list (xop N)) : world N :=
  match x_run x_kind w_new ops with Ok (w, _) => w | _ => w_new end.
Lemma x_world_reaches ops :
  x_history x_kind w_new ops -> x_reaches x_kind (x_world ops).
Proof.
  intros Hh. destruct (x_run_XR x_kind ops w_new x_init XR_init Hh) as (w & evs & st & E & _).
  exists ops, evs. split; [done|]. unfold x_world. by rewrite E.
Qed.

(** The world after one more call, and what the call answered. *)
Definition x_after (w : world N) (o : xop N) : world N :=
  match x_step x_kind w o with Ok (w1, _) => w1 | _ => w end.
Lemma step_after w o ev :
  (rlet (_, ev1) := x_step x_kind w o in Ok ev1) = Ok ev -> x_step x_kind w o = Ok (x_after w o, ev).
Proof. unfold x_after. destruct (x_step x_kind w o) as [[w1 ev1]| |]; cbn; try done. by intros [= ->]. Qed.

(** Three entities; an insertion callback panics in the middle of add_entity, a removal callback in the
    middle of remove and of delete_entity, the closure of a retain on its second call. *)
Definition ex_x : list (xop N) :=
  [ calm (WAddEntity [(0, 10); (1, 11)]); calm (WAddEntity [(0, 20); (1, 21); (2, 22)]);
    XOp (boom_at 1) fine (WAddEntity [(0, 30); (1, 31)]);
    XOp fine (boom_at 0) (WRemove (0, 0) [0; 1]);
    XOp fine (boom_at 1) (WDeleteEntity (1, 0) [0; 1; 2]);
    calm (WAddEntity [(2, 42)]);
    XRetain fine 0 (λ seen e v, (ABoom, Some (v + 1)));
    calm (WAddComponent (1, 1) [(1, 41)]) ].
Example ex_C66_history : x_history x_kind w_new ex_x.
Proof. apply x_history_b_ok. vm_compute. reflexivity. Qed.
Example ex_C66_end :
  match x_run x_kind w_new ex_x with
  | Ok (w, evs) =>
      evs = [Some (WId (0, 0)); Some (WId (1, 0)); None; None; None; Some (WId (1, 1)); None; Some WUnit] ∧
      is_alive (w_ents w) <$> [(0, 0); (1, 0); (2, 0); (1, 1)] = [true; false; true; true] ∧
      (λ i, read w i (0, 0)) <$> [0; 1; 2] = [Ok None; Ok (Some 11); Ok None] ∧
      (λ i, read w i (1, 0)) <$> [0; 1; 2] = [Ok None; Ok None; Ok None] ∧
      (λ i, read w i (1, 1)) <$> [0; 1; 2] = [Ok None; Ok (Some 41); Ok (Some 42)] ∧
      (λ i, read w i (2, 0)) <$> [0; 1; 2] = [Ok (Some 31); Ok None; Ok None]
  | _ => False
  end.
Proof. vm_compute. split_and!; reflexivity. Qed.

(** The hypotheses of the theorems about one call. *)
Definition ex_two : list (xop N) := [calm (WAddEntity [(0, 10); (1, 11)]); calm (WAddEntity [(0, 20)])].
Lemma ex_two_reaches : x_reaches x_kind (x_world ex_two).
Proof. apply x_world_reaches, x_history_b_ok. vm_compute. reflexivity. Qed.
Example ex_C66_call :
  let w := x_world ex_two in
  x_reaches x_kind w ∧
  (∀ e cs, WDeleteEntity (0, 0) [0; 1] = WAddComponent (V := N) e cs -> is_alive (w_ents w) e = true) ∧
  x_allowed w (XOp fine (boom_at 0) (WDeleteEntity (0, 0) [0; 1])) ∧
  distinct (V := N) (WDeleteEntity (0, 0) [0; 1]) ∧
  (∃ w1, x_step x_kind w (XOp fine (boom_at 0) (WDeleteEntity (0, 0) [0; 1])) = Ok (w1, None)) ∧
  (∃ w2, x_step x_kind w (calm (WDeleteEntity (0, 0) [0; 1])) = Ok (w2, Some (WBool true))) ∧
  named (V := N) (WDeleteEntity (0, 0) [0; 1]) = Some [(0, 0)] ∧ is_alive (w_ents w) (1, 0) = true ∧
  (∀ x, x ∈ [(0, 0)] -> idx x = idx (1, 0) -> gen x < gen (1, 0)) ∧
  x_allowed w (calm (WAddEntity [(0, 30); (2, 32)])) ∧ NoDup [(0, 30); (2, 32)].*1 ∧
  (∃ w3, x_step x_kind w (calm (WAddEntity [(0, 30); (2, 32)])) = Ok (w3, Some (WId (2, 0)))).
Proof.
  cbn zeta. split; [apply ex_two_reaches|]. split; [done|]. split; [done|]. split; [done|].
  split; [eexists; apply step_after; vm_compute; reflexivity|].
  split; [eexists; apply step_after; vm_compute; reflexivity|].
  split; [done|]. split; [done|]. split; [intros x ->%elem_of_list_singleton; done|].
  split; [vm_compute; reflexivity|]. split; [|eexists; apply step_after; vm_compute; reflexivity].
  cbn. repeat constructor; set_solver.
Qed.

(** * Where the world is not as one would expect *)

(** The removal callback of the first storage panics in delete_entity: the entity is dead, the
    components of the other types are still there (finding 52). *)
Theorem C66_delete_entity_refuted :
  ¬ ∀ (w w1 : world N) e order cbi cbr, x_reaches x_kind w -> x_allowed w (XOp cbi cbr (WDeleteEntity e order)) ->
      x_step x_kind w (XOp cbi cbr (WDeleteEntity e order)) = Ok (w1, None) ->
      is_alive (w_ents w1) e = false -> ∀ i, read w1 i e = Ok None.
Proof.
  intros H. set (o := XOp fine (boom_at 0) (WDeleteEntity (0, 0) [0; 1])).
  specialize (H (x_world ex_two) (x_after (x_world ex_two) o) (0, 0) [0; 1] fine (boom_at 0) ex_two_reaches).
  feed specialize H; [vm_compute; reflexivity|apply step_after; vm_compute; reflexivity|vm_compute; reflexivity|].
  specialize (H 1). vm_compute in H. done.
Qed.
(** ... and spawn_at gives the dead handle its leftover back. *)
Theorem C66_spawned_refuted :
  ¬ ∀ (w w1 : world N) e, x_reaches x_kind w -> x_allowed w (calm (WSpawn e)) ->
      is_alive (w_ents w) e = false -> x_step x_kind w (calm (WSpawn e)) = Ok (w1, Some (WBool true)) ->
      ∀ i, read w1 i e = Ok None.
Proof.
  intros H. set (ops := ex_two ++ [XOp fine (boom_at 0) (WDeleteEntity (0, 0) [0; 1])]).
  assert (x_reaches x_kind (x_world ops)) as Hr.
  { apply x_world_reaches, x_history_b_ok. vm_compute. reflexivity. }
  specialize (H (x_world ops) (x_after (x_world ops) (calm (WSpawn (0, 0)))) (0, 0) Hr).
  feed specialize H; [apply x_allowed_b_ok; vm_compute; reflexivity|vm_compute; reflexivity
    |apply step_after; vm_compute; reflexivity|].
  specialize (H 1). vm_compute in H. done.
Qed.
(** The insertion callback panics in add_entity: there is an entity of which nobody was told the id. *)
Theorem C66_add_entity_refuted :
  ¬ ∀ (w w1 : world N) cs cbi cbr e, x_reaches x_kind w -> x_allowed w (XOp cbi cbr (WAddEntity cs)) ->
      x_step x_kind w (XOp cbi cbr (WAddEntity cs)) = Ok (w1, None) ->
      is_alive (w_ents w1) e = true -> is_alive (w_ents w) e = true.
Proof.
  intros H. set (o := XOp (boom_at 1) fine (WAddEntity [(0, 30); (1, 31)])).
  specialize (H (x_world ex_two) (x_after (x_world ex_two) o) [(0, 30); (1, 31)] (boom_at 1) fine (2, 0) ex_two_reaches).
  feed specialize H; [|apply (step_after _ o); vm_compute; reflexivity|vm_compute; reflexivity|vm_compute in H; done].
  vm_compute. reflexivity.
Qed.

(** An entity of generation 1 dies in an interrupted delete_entity, the next entity at its index has
    generation 2 and gets a component of a type that was left behind: the storage shows the id of
    generation 1 | 2 = 3 (C13), that nobody was given; an iteration does not find its other
    component. *)
Definition ex_id : list (xop N) :=
  [ calm (WSpawn (0, 1)); calm (WAddComponent (0, 1) [(0, 10); (1, 11)]);
    XOp fine (boom_at 0) (WDeleteEntity (0, 1) [0; 1]);
    calm (WAddEntity [(1, 21); (2, 22)]); calm (WAddEntity [(2, 32)]) ].
Lemma ex_id_reaches : x_reaches x_kind (x_world ex_id).
Proof. apply x_world_reaches, x_history_b_ok. vm_compute. reflexivity. Qed.
Theorem C66_shown_id_refuted :
  ¬ ∀ (w : world N) i s d, x_reaches x_kind w -> w_stores w !! i = Some s -> d ∈ ss_dense s ->
      ss_contains s d = true ∧ (is_alive (w_ents w) d = true ∨ ∃ h, is_alive (w_ents w) h = true ∧ idx h = idx d ∧ gen d < gen h).
Proof.
  intros H. destruct (w_stores (x_world ex_id) !! 1) as [s|] eqn:Es; [|vm_compute in Es; done].
  assert (ss_dense <$> Some s = Some [(0, 3)] ∧ (λ s, ss_contains s (0, 3)) <$> Some s = Some false) as [E1 E2].
  { rewrite <- Es. split; vm_compute; reflexivity. }
  injection E1 as E1. injection E2 as E2.
  specialize (H _ _ _ (0, 3) ex_id_reaches Es). rewrite E1, E2 in H. destruct H as [H _]; [by left|done].
Qed.
Theorem C66_iteration_refuted :
  let w := x_world ex_id in
  x_reaches x_kind w ∧ is_alive (w_ents w) (0, 2) = true ∧
  read w 1 (0, 2) = Ok (Some 21) ∧ read w 2 (0, 2) = Ok (Some 22) ∧
  (rlet it := shiperator (views x_kind w (λ _, (0, 0, 9))) (QTuple [QView 1; QView 2]) in it_fold it) = Ok [].
Proof. cbn zeta. split; [apply ex_id_reaches|]. split_and!; vm_compute; reflexivity. Qed.

(** The same after 32767 deletions at one index: 32767 | 32768 = 65535 is the generation of a slot
    that is not in use, and an iteration over two views reads far outside of a storage (finding 53). *)
Definition ex_ub : list (xop N) :=
  [ calm (WSpawn (0, 32767)); calm (WAddComponent (0, 32767) [(0, 10); (1, 11)]);
    calm (WAddEntity [(0, 20)]); calm (WAddEntity [(0, 30)]);
    XOp fine (boom_at 0) (WDeleteEntity (0, 32767) [0; 1]);
    calm (WAddEntity [(1, 41)]) ].
Theorem C66_iteration_ub_refuted :
  let w := x_world ex_ub in
  x_reaches x_kind w ∧ is_alive (w_ents w) (0, 32768) = true ∧
  (rlet it := shiperator (views x_kind w (λ _, (0, 0, 9))) (QTuple [QView 0; QView 1]) in it_fold it) = Ub.
Proof.
  cbn zeta. split; [|split; vm_compute; reflexivity].
  apply x_world_reaches, x_history_b_ok. vm_compute. reflexivity.
Qed.

Print Assumptions C66_world_survives.
Print Assumptions C66_returned.
Print Assumptions C66_returns.
Print Assumptions C66_before_or_after.
Print Assumptions C66_others_untouched.
Print Assumptions C66_new_entity.
Print Assumptions C66_delete_entity_refuted.
Print Assumptions C66_spawned_refuted.
Print Assumptions C66_add_entity_refuted.
Print Assumptions C66_shown_id_refuted.
Print Assumptions C66_iteration_refuted.
Print Assumptions C66_iteration_ub_refuted.
