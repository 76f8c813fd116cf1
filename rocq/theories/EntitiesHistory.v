(** Histories of allocator operations: consequences of the refinement. *)
From stdpp Require Import prelude list gmap sorting.
From Coq Require Import NArith Lia.
From Verif Require Import EntityId EntityIdProofs Base Entities EntitiesSpec EntitiesProofs.
Open Scope N_scope.

(** Number of slots an operation may add. *)
Definition slot_cost (o : eop) : N :=
  match o with OCreate => 1 | OBulk n => N.of_nat n | OSpawn e => idx e + 1 | _ => 0 end.
(** How far an operation may push a generation. *)
Definition gen_cost (o : eop) : N :=
  match o with ODelete _ | OClear => 1 | OSpawn e => gen e | _ => 0 end.
Definition total (f : eop -> N) (ops : list eop) : N := foldr (fun o n => f o + n) 0 ops.

(** The histories the theorems range over: fewer than 2^48-2 slots are ever used, no handle of
    generation 65535 (the u16 overflow of finding 10) is spawned, and when the history clears the
    world no slot can reach its last generation. *)
Record history_ok (ops : list eop) : Prop := {
  h_slots : total slot_cost ops < max_idx;
  h_spawn : forall e, OSpawn e ∈ ops -> gen e < U16_MAX;
  h_clear : OClear ∈ ops -> total gen_cost ops < last_gen;
}.

Definition gens_below (b : N) (a : aspec) : Prop :=
  (forall e, e ∈ a_live a -> gen e <= b) /\ (forall e, e ∈ a_ready a -> gen e <= b).

Lemma gens_below_step a o ev a' b :
  a_step a o ev a' -> gens_below b a -> gens_below (b + gen_cost o) a'.
Proof.
  intros Hs [Hl Hr]. 
  destruct Hs as [h q Hq|Hq|n|e He Hg|e He Hg|e He|e He|e h Hh Hi Hg|e h Hh Hi Hg|e h Hh Hi Hg|e h Hh Hi Hg|r' Hlen Hr'];
    split; cbn [a_live a_ready gen_cost]; intros x Hx;
    rewrite ?elem_of_union, ?elem_of_singleton, ?elem_of_difference, ?elem_of_filter,
      ?elem_of_list_to_set, ?elem_of_app, ?elem_of_list_singleton, ?a_fresh_elem in Hx.
  all: repeat match goal with
       | H : _ \/ _ |- _ => destruct H
       | H : _ /\ _ |- _ => destruct H
       | H : _ = _ |- _ => subst
       end.
  all: try (match goal with H : _ ∈ a_live _ |- _ => pose proof (Hl _ H) end).
  all: try (match goal with H : _ ∈ a_ready _ |- _ => pose proof (Hr _ H) end).
  all: cbn [gen snd idx fst] in *; try lia.
  - assert (Hin : h ∈ a_ready a) by (rewrite Hq; by left). specialize (Hr _ Hin). lia.
  - assert (Hin : x ∈ a_ready a) by (rewrite Hq; by right). specialize (Hr _ Hin). lia.
  - by apply elem_of_nil in Hx.
  - apply elem_of_list_filter in Hx as [_ Hx]. specialize (Hr _ Hx). lia.
  - set_solver.
  - apply elem_of_list_lookup in Hx as [k Hk].
    destruct (Hr' (N.of_nat k) x) as (_ & h & [Hh|Hh] & _ & Hg); [by rewrite getN_lookup, Nat2N.id| |].
    + specialize (Hl _ Hh). lia.
    + specialize (Hr _ Hh). lia.
Qed.

Lemma R_bumpable s a b : R s a -> gens_below b a -> b < last_gen -> bumpable (e_data s).
Proof.
  intros HR [Hl Hr] Hb i e He.
  destruct (R_part _ _ HR _ _ He) as [Hself|Hin].
  - assert (Hle : e ∈ a_live a) by (apply (R_live _ _ HR); by rewrite Hself). specialize (Hl _ Hle). lia.
  - apply elem_of_list_fmap in Hin as (h & -> & Hh). specialize (Hr _ Hh).
    apply elem_of_list_lookup in Hh as [k Hk]. rewrite (R_chain _ _ HR _ _ Hk) in He.
    injection He as <-. cbn. lia.
Qed.

Lemma next_step a o ev a' : a_step a o ev a' -> a_next a' <= a_next a + slot_cost o.
Proof. destruct 1; cbn; lia. Qed.

(** One step of the model. *)
Lemma step_R s a o b :
  R s a -> gens_below b a ->
  lenN (e_data s) + slot_cost o < max_idx ->
  (forall e, o = OSpawn e -> gen e < U16_MAX) ->
  (o = OClear -> b < last_gen) ->
  exists s' ev a', e_step s o = Ok (s', ev) /\ a_step a o ev a' /\ R s' a'.
Proof.
  intros HR Hgb Hcap Hsp Hcl. destruct o as [|n|e|e|]; cbn [e_step slot_cost] in *.
  - destruct (generate_R s a HR Hcap) as (s' & ev & e & a' & -> & -> & Hst & HR' & _).
    cbn [rbind]. eauto 10.
  - destruct (bulk_generate_R s a n HR Hcap) as (s' & es & a' & -> & Hst & HR' & _).
    cbn [rbind]. eauto 10.
  - destruct (delete_R s a e HR) as (s' & d & a' & -> & Hst & HR' & _). cbn [rbind]. eauto 10.
  - destruct (spawn_R s a e HR) as (s' & d & a' & -> & Hst & HR' & _);
      [by apply Hsp|lia|]. cbn [rbind]. eauto 10.
  - destruct (clear_R s a HR) as (s' & a' & -> & Hst & HR' & _).
    { eapply R_bumpable; eauto. }
    cbn [rbind]. eauto 10.
Qed.

Lemma run_R ops : forall s a b,
  R s a -> gens_below b a ->
  lenN (e_data s) + total slot_cost ops < max_idx ->
  (forall e, OSpawn e ∈ ops -> gen e < U16_MAX) ->
  (OClear ∈ ops -> b + total gen_cost ops < last_gen) ->
  exists s' evs a', e_run s ops = Ok (s', evs) /\ a_run a ops evs a' /\ R s' a'
    /\ gens_below (b + total gen_cost ops) a'.
Proof.
  induction ops as [|o ops IH]; intros s a b HR Hgb Hcap Hsp Hcl.
  - exists s, [], a. split; [done|]. split; [constructor|]. split; [done|]. cbn. by rewrite N.add_0_r.
  - cbn [total foldr] in *. fold (total slot_cost ops) in *. fold (total gen_cost ops) in *.
    destruct (step_R s a o b) as (s1 & ev & a1 & Hst & Hast & HR1); [done|done|lia| | |].
    { intros e ->. apply Hsp. by left. }
    { intros ->. assert (b + (gen_cost OClear + total gen_cost ops) < last_gen) by (apply Hcl; by left).
      cbn in *. lia. }
    pose proof (next_step _ _ _ _ Hast) as Hn.
    rewrite <- (R_len _ _ HR), <- (R_len _ _ HR1) in Hn.
    destruct (IH s1 a1 (b + gen_cost o)) as (s2 & evs & a2 & Hr & Har & HR2 & Hg2).
    { done. }
    { by eapply gens_below_step. }
    { lia. }
    { intros e He. apply Hsp. by right. }
    { intros He. assert (b + (gen_cost o + total gen_cost ops) < last_gen) by (apply Hcl; by right). lia. }
    exists s2, (ev :: evs), a2. cbn [e_run]. rewrite Hst. cbn [rbind]. rewrite Hr. cbn [rbind].
    split; [done|]. split; [by econstructor|]. split; [done|].
    by rewrite N.add_assoc.
Qed.

Theorem run_refines ops : history_ok ops ->
  exists s evs a, e_run e_new ops = Ok (s, evs) /\ a_run a_init ops evs a /\ R s a
    /\ gens_below (total gen_cost ops) a.
Proof.
  intros [H1 H2 H3].
  destruct (run_R ops e_new a_init 0) as (s & evs & a & Hr & Ha & HR & Hg).
  - apply init_R.
  - split; intros e He; cbn in He; set_solver.
  - done.
  - done.
  - done.
  - exists s, evs, a. done.
Qed.

Lemma e_run_app ops1 : forall s ops2,
  e_run s (ops1 ++ ops2) =
    rlet (s1, evs1) := e_run s ops1 in
    rlet (s2, evs2) := e_run s1 ops2 in Ok (s2, evs1 ++ evs2).
Proof.
  induction ops1 as [|o ops1 IH]; intros s ops2; cbn [e_run app].
  - cbn. destruct (e_run s ops2) as [[s2 evs2]| |]; done.
  - destruct (e_step s o) as [[s1 ev]| |]; cbn; [|done|done].
    rewrite IH. destruct (e_run s1 ops1) as [[s2 evs2]| |]; cbn; [|done|done].
    destruct (e_run s2 ops2) as [[s3 evs3]| |]; done.
Qed.

(** ** Freshness *)

Record fresh_inv (a : aspec) (iss : list eid) : Prop := {
  f_next : forall h, h ∈ iss -> idx h < a_next a;
  f_live_lt : forall h, h ∈ a_live a -> idx h < a_next a;
  f_ready_lt : forall h, h ∈ a_ready a -> idx h < a_next a;
  f_cover : forall i, i < a_next a -> (exists h, h ∈ a_live a /\ idx h = i) \/ (exists h, h ∈ a_ready a /\ idx h = i);
  f_live_uniq : forall h h', h ∈ a_live a -> h' ∈ a_live a -> idx h = idx h' -> h = h';
  f_disj : forall h h', h ∈ a_live a -> h' ∈ a_ready a -> idx h ≠ idx h';
  f_ready_nd : NoDup (idx <$> a_ready a);
  f_live : forall h e, h ∈ iss -> e ∈ a_live a -> idx h = idx e -> gen h <= gen e;
  f_ready : forall h e, h ∈ iss -> e ∈ a_ready a -> idx h = idx e -> gen h < gen e;
}.

Lemma R_fresh_structure s a : R s a ->
  (forall h, h ∈ a_live a -> idx h < a_next a) /\
  (forall h, h ∈ a_ready a -> idx h < a_next a) /\
  (forall i, i < a_next a -> (exists h, h ∈ a_live a /\ idx h = i) \/ (exists h, h ∈ a_ready a /\ idx h = i)) /\
  (forall h h', h ∈ a_live a -> h' ∈ a_live a -> idx h = idx h' -> h = h') /\
  (forall h h', h ∈ a_live a -> h' ∈ a_ready a -> idx h ≠ idx h').
Proof.
  intros HR. rewrite <- (R_len _ _ HR). split_and!.
  - intros h Hh%(R_live _ _ HR). by eapply getN_Some_lt.
  - intros h Hh. apply elem_of_list_lookup in Hh as [k Hk]. by eapply R_ready_lt.
  - intros i Hi. destruct (R_live_or_ready _ _ HR _ Hi) as [(e & He & Hie & _)|(k & h & Hk & Hh)].
    + left. eauto.
    + right. exists h. split; [|done]. by eapply elem_of_list_lookup_2.
  - intros h h' Hh%(R_live _ _ HR) Hh'%(R_live _ _ HR) He. rewrite He in Hh. congruence.
  - intros h h' Hh Hh' He. apply (R_live_not_ready _ _ HR _ Hh). rewrite He. by apply elem_of_list_fmap_1.
Qed.

Lemma fresh_step a iss o ev a' :
  fresh_inv a iss -> a_step a o ev a' ->
  (forall h, h ∈ ev_created ev -> h ∉ iss) /\
  NoDup (ev_created ev) /\
  ((forall h h', h ∈ a_live a' -> h' ∈ a_live a' -> idx h = idx h' -> h = h') ->
   (forall h h', h ∈ a_live a' -> h' ∈ a_ready a' -> idx h ≠ idx h') ->
   (forall i, i < a_next a' -> (exists h, h ∈ a_live a' /\ idx h = i) \/ (exists h, h ∈ a_ready a' /\ idx h = i)) ->
   NoDup (idx <$> a_ready a') ->
   fresh_inv a' (iss ++ ev_issued ev)).
Proof.
  intros [F1 F2 F3 F4 F5 F6 F7 F8 F9] Hs.
  assert (Hfnd : forall st n, NoDup (a_fresh st n)).
  { intros st n. revert st. induction n as [|n IH]; intros st; cbn; constructor; [|apply IH].
    intros Hin%a_fresh_elem. cbn in Hin. lia. }
  destruct Hs as [h q Hq|Hq|n|e He Hg|e He Hg|e He|e He|e h Hh Hi Hg|e h Hh Hi Hg|e h Hh Hi Hg|e h Hh Hi Hg|r' Hlen Hr'];
    cbn [ev_created ev_issued].
  - (* recycled *)
    assert (Hin : h ∈ a_ready a) by (rewrite Hq; by left).
    split; [|split; [apply NoDup_singleton|]].
    { intros x ->%elem_of_list_singleton Hx. specialize (F9 _ _ Hx Hin eq_refl). lia. }
    intros U D C N. cbn in *. constructor; cbn; try done.
    + intros x [Hx| ->%elem_of_list_singleton]%elem_of_app; [by apply F1|by apply F3].
    + intros x [->%elem_of_singleton|Hx]%elem_of_union; [by apply F3|by apply F2].
    + intros x Hx. apply F3. rewrite Hq. by right.
    + intros x e [Hx| ->%elem_of_list_singleton]%elem_of_app [->%elem_of_singleton|He]%elem_of_union Hxe.
      * specialize (F9 _ _ Hx Hin Hxe). lia.
      * by apply F8.
      * done.
      * exfalso. by apply (F6 _ _ He Hin).
    + intros x e [Hx| ->%elem_of_list_singleton]%elem_of_app He Hxe.
      * apply F9; [done| |done]. rewrite Hq. by right.
      * exfalso. rewrite Hq, fmap_cons, NoDup_cons in F7. destruct F7 as [F7 _]. apply F7.
        rewrite Hxe. by apply elem_of_list_fmap_1.
  - (* new slot *)
    split; [|split; [apply NoDup_singleton|]].
    { intros x ->%elem_of_list_singleton Hx. specialize (F1 _ Hx). cbn in F1. lia. }
    intros U D C N. cbn in *. constructor; cbn; try done.
    + intros x [Hx| ->%elem_of_list_singleton]%elem_of_app; [specialize (F1 _ Hx); lia|cbn; lia].
    + intros x [->%elem_of_singleton|Hx]%elem_of_union; [cbn; lia|specialize (F2 _ Hx); lia].
    + intros x Hx. by apply elem_of_nil in Hx.
    + intros x e [Hx| ->%elem_of_list_singleton]%elem_of_app [->%elem_of_singleton|He]%elem_of_union Hxe.
      * specialize (F1 _ Hx). cbn in Hxe. lia.
      * by apply F8.
      * done.
      * specialize (F2 _ He). cbn in *. lia.
    + intros x e _ He. by apply elem_of_nil in He.
  - (* bulk *)
    split; [|split; [apply Hfnd|]].
    { intros x Hx%a_fresh_elem Hx2. specialize (F1 _ Hx2). lia. }
    intros U D C N. cbn in *. constructor; cbn; try done.
    + intros x [Hx|Hx%a_fresh_elem]%elem_of_app; [specialize (F1 _ Hx); lia|lia].
    + intros x [Hx%elem_of_list_to_set%a_fresh_elem|Hx]%elem_of_union; [lia|specialize (F2 _ Hx); lia].
    + intros x Hx. specialize (F3 _ Hx). lia.
    + intros x e [Hx|Hx%a_fresh_elem]%elem_of_app [He%elem_of_list_to_set%a_fresh_elem|He]%elem_of_union Hxe.
      * specialize (F1 _ Hx). lia.
      * by apply F8.
      * lia.
      * specialize (F2 _ He). lia.
    + intros x e [Hx|Hx%a_fresh_elem]%elem_of_app He Hxe.
      * by apply F9.
      * specialize (F3 _ He). lia.
  - (* delete *)
    split; [intros x Hx; by apply elem_of_nil in Hx|split; [constructor|]]. rewrite app_nil_r.
    intros U D C N. cbn in *. constructor; cbn; try done.
    + intros x [Hx _]%elem_of_difference. by apply F2.
    + intros x [Hx| ->%elem_of_list_singleton]%elem_of_app; [by apply F3|]. cbn. by apply F2.
    + intros x y Hx [Hy _]%elem_of_difference Hxy. by apply F8.
    + intros x y Hx [Hy| ->%elem_of_list_singleton]%elem_of_app Hxy; [by apply F9|].
      cbn in *. specialize (F8 _ _ Hx He Hxy). lia.
  - split; [intros x Hx; by apply elem_of_nil in Hx|split; [constructor|]]. rewrite app_nil_r. intros; by constructor.
  - split; [intros x Hx; by apply elem_of_nil in Hx|split; [constructor|]]. rewrite app_nil_r. intros; by constructor.
  - (* spawn beyond *)
    split; [intros x Hx; by apply elem_of_nil in Hx|split; [constructor|]].
    intros U D C N. cbn in *. constructor; cbn; try done.
    + intros x [Hx| ->%elem_of_list_singleton]%elem_of_app; [specialize (F1 _ Hx); lia|lia].
    + intros x [->%elem_of_singleton|Hx]%elem_of_union; [lia|specialize (F2 _ Hx); lia].
    + intros x [Hx|Hx%a_fresh_elem]%elem_of_app; [specialize (F3 _ Hx); lia|lia].
    + intros x y [Hx| ->%elem_of_list_singleton]%elem_of_app [->%elem_of_singleton|Hy]%elem_of_union Hxy.
      * specialize (F1 _ Hx). lia.
      * by apply F8.
      * done.
      * specialize (F2 _ Hy). lia.
    + intros x y [Hx| ->%elem_of_list_singleton]%elem_of_app [Hy|Hy%a_fresh_elem]%elem_of_app Hxy.
      * by apply F9.
      * specialize (F1 _ Hx). lia.
      * specialize (F3 _ Hy). lia.
      * lia.
  - (* spawn over a live slot *)
    split; [intros x Hx; by apply elem_of_nil in Hx|split; [constructor|]].
    intros U D C N. cbn in *. constructor; cbn; try done.
    + intros x [Hx| ->%elem_of_list_singleton]%elem_of_app; [by apply F1|]. rewrite <- Hi. by apply F2.
    + intros x [->%elem_of_singleton|[_ Hx]%elem_of_filter]%elem_of_union; [rewrite <- Hi|]; by apply F2.
    + intros x y [Hx| ->%elem_of_list_singleton]%elem_of_app
        [->%elem_of_singleton|[Ho Hy]%elem_of_filter]%elem_of_union Hxy.
      * rewrite <- Hi in Hxy. specialize (F8 _ _ Hx Hh Hxy). lia.
      * by apply F8.
      * done.
      * unfold other_index in Ho. congruence.
    + intros x y [Hx| ->%elem_of_list_singleton]%elem_of_app Hy Hxy; [by apply F9|].
      exfalso. apply (F6 _ _ Hh Hy). congruence.
  - split; [intros x Hx; by apply elem_of_nil in Hx|split; [constructor|]]. rewrite app_nil_r. intros; by constructor.
  - (* spawn over a ready slot *)
    split; [intros x Hx; by apply elem_of_nil in Hx|split; [constructor|]].
    intros U D C N. cbn in *. constructor; cbn; try done.
    + intros x [Hx| ->%elem_of_list_singleton]%elem_of_app; [by apply F1|]. rewrite <- Hi. by apply F3.
    + intros x [->%elem_of_singleton|Hx]%elem_of_union; [rewrite <- Hi; by apply F3|by apply F2].
    + intros x [_ Hx]%elem_of_list_filter. by apply F3.
    + intros x y [Hx| ->%elem_of_list_singleton]%elem_of_app [->%elem_of_singleton|Hy]%elem_of_union Hxy.
      * rewrite <- Hi in Hxy. specialize (F9 _ _ Hx Hh Hxy). lia.
      * by apply F8.
      * done.
      * exfalso. apply (F6 _ _ Hy Hh). congruence.
    + intros x y [Hx| ->%elem_of_list_singleton]%elem_of_app [Ho Hy]%elem_of_list_filter Hxy; [by apply F9|].
      unfold other_index in Ho. congruence.
  - split; [intros x Hx; by apply elem_of_nil in Hx|split; [constructor|]]. rewrite app_nil_r. intros; by constructor.
  - (* clear *)
    split; [intros x Hx; by apply elem_of_nil in Hx|split; [constructor|]]. rewrite app_nil_r.
    intros U D C N. cbn in *. constructor; cbn; try done.
    + intros x Hx. apply elem_of_list_lookup in Hx as [k Hk].
      assert (Hg : getN r' (N.of_nat k) = Some x) by by rewrite getN_lookup, Nat2N.id.
      destruct (Hr' _ _ Hg) as (-> & _). rewrite <- Hlen. by eapply getN_Some_lt.
    + intros x y Hx Hy Hxy. apply elem_of_list_lookup in Hy as [k Hk].
      assert (Hg : getN r' (N.of_nat k) = Some y) by by rewrite getN_lookup, Nat2N.id.
      destruct (Hr' _ _ Hg) as (Hyk & h & [Hh|Hh] & Hhk & Hgg).
      * specialize (F8 _ _ Hx Hh). lia.
      * specialize (F9 _ _ Hx Hh). lia.
Qed.

(** Over a whole history: the invariant, together with the freshness of each creation. *)
Lemma fresh_run ops : forall s a b iss,
  R s a -> gens_below b a -> fresh_inv a iss ->
  lenN (e_data s) + total slot_cost ops < max_idx ->
  (forall e, OSpawn e ∈ ops -> gen e < U16_MAX) ->
  (OClear ∈ ops -> b + total gen_cost ops < last_gen) ->
  forall s' evs, e_run s ops = Ok (s', evs) ->
  (forall evs1 ev evs2, evs = evs1 ++ ev :: evs2 ->
     NoDup (ev_created ev) /\ forall h, h ∈ ev_created ev -> h ∉ iss ++ issued evs1).
Proof.
  induction ops as [|o ops IH]; intros s a b iss HR Hgb HF Hcap Hsp Hcl s' evs Hrun.
  - cbn in Hrun. injection Hrun as <- <-. intros [|? ?] ? ? ?; done.
  - cbn [total foldr] in *. fold (total slot_cost ops) in *. fold (total gen_cost ops) in *.
    destruct (step_R s a o b) as (s1 & ev & a1 & Hst & Hast & HR1); [done|done|lia| | |].
    { intros e ->. apply Hsp. by left. }
    { intros ->. assert (b + (gen_cost OClear + total gen_cost ops) < last_gen) by (apply Hcl; by left).
      cbn in *. lia. }
    pose proof (next_step _ _ _ _ Hast) as Hn.
    rewrite <- (R_len _ _ HR), <- (R_len _ _ HR1) in Hn.
    cbn [e_run] in Hrun. rewrite Hst in Hrun. cbn [rbind] in Hrun.
    destruct (e_run s1 ops) as [[s2 evs']| |] eqn:Hr; cbn [rbind] in Hrun; [|done|done].
    injection Hrun as <- <-.
    destruct (fresh_step _ _ _ _ _ HF Hast) as (Hnew & Hnd & HF').
    destruct (R_fresh_structure _ _ HR1) as (S1 & S2 & S3 & S4 & S5).
    specialize (HF' S4 S5 S3 (R_nodup _ _ HR1)).
    intros [|ev1 evs1] ev2 evs2 Heq; cbn in Heq; injection Heq as <- Heq.
    + split; [done|]. intros h Hh. rewrite app_nil_r. by apply Hnew.
    + destruct (IH s1 a1 (b + gen_cost o) (iss ++ ev_issued ev)) with (s' := s2) (evs := evs') (evs1 := evs1) (ev := ev2) (evs2 := evs2) as [Hnd2 Hfr]; try done.
      * by eapply gens_below_step.
      * lia.
      * intros e He. apply Hsp. by right.
      * intros He. assert (b + (gen_cost o + total gen_cost ops) < last_gen) by (apply Hcl; by right). lia.
      * split; [done|]. intros h Hh. specialize (Hfr h Hh). unfold issued in *. cbn.
        by rewrite app_assoc.
Qed.

Lemma init_fresh : fresh_inv a_init [].
Proof.
  constructor; cbn; try (intros; set_solver).
  - intros i Hi. lia.
  - constructor.
Qed.

Lemma run_fresh ops s evs : history_ok ops -> e_run e_new ops = Ok (s, evs) ->
  forall evs1 ev evs2, evs = evs1 ++ ev :: evs2 ->
     NoDup (ev_created ev) /\ forall h, h ∈ ev_created ev -> h ∉ issued evs1.
Proof.
  intros [H1 H2 H3] Hrun evs1 ev evs2 Heq.
  destruct (fresh_run ops e_new a_init 0 [] init_R) with (s' := s) (evs := evs) (evs1 := evs1) (ev := ev) (evs2 := evs2)
    as [Hnd Hf]; try done.
  - split; intros e He; cbn in He; set_solver.
  - apply init_fresh.
Qed.

(** ** Liveness *)

Lemma lives_step a o ev a' (P : eid -> Prop) :
  a_step a o ev a' -> ev_not_exhausted ev ->
  (forall h h', h ∈ a_live a -> h' ∈ a_live a -> idx h = idx h' -> h = h') ->
  (forall h, h ∈ a_live a -> idx h < a_next a) ->
  (forall h h', h ∈ a_live a -> h' ∈ a_ready a -> idx h ≠ idx h') ->
  (forall e, e ∈ a_live a <-> P e) ->
  forall evs e, lives_from (P e) (ev :: evs) e <-> lives_from (e ∈ a_live a') evs e.
Proof.
  intros Hs Hne HU HL HD HP evs e.
  assert (Hext : forall evs (A B : Prop), (A <-> B) -> lives_from A evs e <-> lives_from B evs e).
  { clear. induction evs as [|ev evs IH]; intros A B HAB; [done|].
    destruct ev as [es|x [|]|x [|]|]; cbn; apply IH; naive_solver. }
  destruct Hs as [h q Hq|Hq|n|x He Hg|x He Hg|x He|x He|x h Hh Hi Hg|x h Hh Hi Hg|x h Hh Hi Hg|x h Hh Hi Hg|r' Hlen Hr'];
    cbn; apply Hext; rewrite <- ?HP; cbn in *; try lia; try done.
  - rewrite elem_of_union, elem_of_singleton, elem_of_list_singleton. naive_solver.
  - rewrite elem_of_union, elem_of_singleton, elem_of_list_singleton. naive_solver.
  - rewrite elem_of_union, elem_of_list_to_set. naive_solver.
  - set_solver.
  - (* spawn beyond *) rewrite elem_of_union, elem_of_singleton. split; [naive_solver|].
    intros [->|He']; [by right|]. left. split; [done|]. specialize (HL _ He'). lia.
  - rewrite elem_of_union, elem_of_singleton, elem_of_filter. unfold other_index. naive_solver.
  - rewrite elem_of_union, elem_of_singleton. split; [naive_solver|].
    intros [->|He']; [by right|]. left. split; [done|]. intros Hc. apply (HD _ _ He' Hh). congruence.
Qed.

Lemma lives_run ops : forall s a b (P : eid -> Prop),
  R s a -> gens_below b a ->
  lenN (e_data s) + total slot_cost ops < max_idx ->
  (forall e, OSpawn e ∈ ops -> gen e < U16_MAX) ->
  (OClear ∈ ops -> b + total gen_cost ops < last_gen) ->
  (forall e, e ∈ a_live a <-> P e) ->
  forall s' evs, e_run s ops = Ok (s', evs) -> Forall ev_not_exhausted evs ->
  forall e, is_alive s' e = true <-> lives_from (P e) evs e.
Proof.
  induction ops as [|o ops IH]; intros s a b P HR Hgb Hcap Hsp Hcl HP s' evs Hrun Hne e.
  - cbn in Hrun. injection Hrun as <- <-. cbn. rewrite <- HP. by apply R_is_alive.
  - cbn [total foldr] in *. fold (total slot_cost ops) in *. fold (total gen_cost ops) in *.
    destruct (step_R s a o b) as (s1 & ev & a1 & Hst & Hast & HR1); [done|done|lia| | |].
    { intros x ->. apply Hsp. by left. }
    { intros ->. assert (b + (gen_cost OClear + total gen_cost ops) < last_gen) by (apply Hcl; by left).
      cbn in *. lia. }
    pose proof (next_step _ _ _ _ Hast) as Hn.
    rewrite <- (R_len _ _ HR), <- (R_len _ _ HR1) in Hn.
    cbn [e_run] in Hrun. rewrite Hst in Hrun. cbn [rbind] in Hrun.
    destruct (e_run s1 ops) as [[s2 evs']| |] eqn:Hr; cbn [rbind] in Hrun; [|done|done].
    injection Hrun as <- <-. apply Forall_cons in Hne as [Hne1 Hne2].
    destruct (R_fresh_structure _ _ HR) as (S1 & S2 & S3 & S4 & S5).
    rewrite (lives_step _ _ _ _ P Hast Hne1 S4 S1 S5 HP).
    apply (IH s1 a1 (b + gen_cost o) (fun e => e ∈ a_live a1)); try done.
    + by eapply gens_below_step.
    + lia.
    + intros x Hx. apply Hsp. by right.
    + intros Hx. assert (b + (gen_cost o + total gen_cost ops) < last_gen) by (apply Hcl; by right). lia.
Qed.

Lemma run_lives ops s evs : history_ok ops -> e_run e_new ops = Ok (s, evs) ->
  Forall ev_not_exhausted evs -> forall e, is_alive s e = true <-> lives evs e.
Proof.
  intros [H1 H2 H3] Hrun Hne e.
  apply (lives_run ops e_new a_init 0 (fun _ => False)); try done.
  - apply init_R.
  - split; intros x Hx; cbn in Hx; set_solver.
Qed.

(** ** Iteration *)

Lemma iter_from_elem d : forall i e,
  e ∈ iter_from i d <-> i <= idx e /\ getN d (idx e - i) = Some e.
Proof.
  induction d as [|x d IH]; intros i e; cbn [iter_from].
  - rewrite elem_of_nil, getN_nil. naive_solver.
  - change ((fix go (i0 : N) (l : list eid) {struct l} : list eid :=
       match l with
       | [] => []
       | e0 :: l' => if i0 =? idx e0 then e0 :: go (i0 + 1) l' else go (i0 + 1) l'
       end) (i + 1) d) with (iter_from (i + 1) d).
    assert (Hcons : forall k, 0 < k -> getN (x :: d) k = getN d (k - 1)).
    { intros k Hk. rewrite !getN_lookup. replace (N.to_nat k) with (S (N.to_nat (k - 1))) by lia. done. }
    destruct (N.eqb_spec i (idx x)) as [->|Hne].
    + rewrite elem_of_cons, IH. split.
      * intros [->|[H1 H2]].
        -- split; [lia|]. rewrite N.sub_diag. done.
        -- split; [lia|]. rewrite Hcons by lia. by replace (idx e - idx x - 1) with (idx e - (idx x + 1)) by lia.
      * intros [H1 H2]. destruct (decide (idx e = idx x)) as [Heq|Hne].
        -- rewrite Heq, N.sub_diag in H2. injection H2 as ->. by left.
        -- right. split; [lia|]. rewrite Hcons in H2 by lia.
           by replace (idx e - (idx x + 1)) with (idx e - idx x - 1) by lia.
    + rewrite IH. split.
      * intros [H1 H2]. split; [lia|]. rewrite Hcons by lia. by replace (idx e - i - 1) with (idx e - (i + 1)) by lia.
      * intros [H1 H2]. destruct (decide (idx e = i)) as [Heq|Hne2].
        -- rewrite Heq, N.sub_diag in H2. injection H2 as ->. congruence.
        -- split; [lia|]. rewrite Hcons in H2 by lia. by replace (idx e - (i + 1)) with (idx e - i - 1) by lia.
Qed.

Lemma iter_from_sorted d : forall i, StronglySorted (fun a b => idx a < idx b) (iter_from i d).
Proof.
  induction d as [|x d IH]; intros i; cbn [iter_from]; [constructor|].
  change ((fix go (i0 : N) (l : list eid) {struct l} : list eid :=
       match l with
       | [] => []
       | e0 :: l' => if i0 =? idx e0 then e0 :: go (i0 + 1) l' else go (i0 + 1) l'
       end) (i + 1) d) with (iter_from (i + 1) d).
  destruct (N.eqb_spec i (idx x)) as [->|]; [|apply IH].
  constructor; [apply IH|]. apply Forall_forall. intros y [Hy _]%iter_from_elem. lia.
Qed.

Lemma iter_alive s e : e ∈ e_iter s <-> is_alive s e = true.
Proof.
  unfold e_iter. rewrite iter_from_elem, N.sub_0_r. unfold is_alive.
  destruct (getN (e_data s) (idx e)) as [x|].
  - rewrite bool_decide_eq_true. split; [intros [_ [= ->]]; done|intros ->; split; [lia|done]].
  - split; [intros [_ ?]; done|done].
Qed.

Lemma sorted_nodup (l : list eid) : StronglySorted (fun a b => idx a < idx b) l -> NoDup (idx <$> l).
Proof.
  induction 1 as [|x l Hs IH Hf]; cbn; constructor; [|done].
  intros Hin. apply elem_of_list_fmap in Hin as (y & Hy & Hin).
  rewrite Forall_forall in Hf. specialize (Hf _ Hin). lia.
Qed.
