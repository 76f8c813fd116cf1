(** Property C64: references from [World::get]. *)
From stdpp Require Import prelude list gmap.
From Coq Require Import NArith Lia.
From Verif Require Import EntityId EntityIdProofs Base Entities EntitiesSpec EntitiesProofs EntitiesHistory.
From Verif Require Import SparseSet Track SparseSetSpec SparseSetProofs SparseSetProofs2 SparseSetHistory.
From Verif Require Import World WorldSpec WorldProofs WorldProofs2 PropsWorld Refs.
Open Scope N_scope.

Section props.
Context {V : Type} (kind : N -> tracking).
Implicit Types (w : world V) (t : table V) (s : rst V).
Notation store w i := (store_or_new kind (w_stores w) i).

(** * What the theorems say *)

(** Two references or borrows that may not live at the same time. *)
Definition clash (a b : N * bool) : Prop := a.1 = b.1 ∧ (a.2 = true ∨ b.2 = true).
Definition asks (p : part) : N * bool := (pt_store p, pt_mut p).

(** The histories: handles as in C41; a [RefMut] is written through, a [Ref] is not; [&mut World] and
    references exclude each other (the borrow checker). *)
Definition r_allowed s (o : rop V) : Prop :=
  match o with
  | RGet _ e => gen e < U16_MAX
  | RDrop n | RRead n | ROut n => is_Some (r_refs s !! n)
  | RWrite n _ | RMap n _ => ∃ p, r_refs s !! n = Some p ∧ pt_mut p = true
  | RView o => is_Some (through_views o) ∧ w_allowed (r_world s) o
  | ROwn o => r_refs s = ∅ ∧ r_out s = [] ∧ w_allowed (r_world s) o
  end.
Fixpoint r_history s (ops : list (rop V)) : Prop :=
  match ops with
  | [] => True
  | o :: ops => r_allowed s o ∧ ∀ s' ev, r_step kind s o = Ok (s', ev) -> r_history s' ops
  end.
Definition r_reach (ops : list (rop V)) s (evs : list (revent V)) : Prop :=
  r_history r_new ops ∧ r_run kind r_new ops = Ok (s, evs).

(** The specification: the table of C41, with locks. A live reference: its component, whether it is
    exclusive, and the time [get] was called. *)
Record lref := LRef { l_store : N; l_mut : bool; l_ent : eid; l_stamp : N }.
Record gst := GSt { g_table : table V; g_refs : gmap N lref; g_next : N }.
Definition l_asks (x : lref) : N * bool := (l_store x, l_mut x).
Definition g_new : gst := GSt t_init ∅ 0.

(** The requests [l] do not clash with each other, nor with the references. *)
Definition free (refs : gmap N lref) (l : list (N * bool)) : Prop :=
  (∀ n x b, refs !! n = Some x -> b ∈ l -> ¬ clash (l_asks x) b) ∧
  (∀ k k' a b, l !! k = Some a -> l !! k' = Some b -> k ≠ k' -> ¬ clash a b).
(** The references made by a [get]. *)
Definition made (n now : N) (e : eid) (q : list (N * bool)) : gmap N lref :=
  list_to_map (imap (λ k b, (n + N.of_nat k, LRef b.1 b.2 e now)) q).
Definition tick t : table V := set_rows t (t_rows t).
(** A write changes the value of one component, nothing else; the clock stands still. *)
Definition put_row (e : eid) (i : N) (g : row V -> row V) t : table V :=
  Table (alter (alter g i) e (t_rows t)) (t_issued t) (t_now t).

Inductive g_step : gst -> rop V -> revent V -> gst -> Prop :=
| GGot t refs n q e :
    Forall (λ b, is_Some (t_cell t e b.1)) q -> free refs q ->
    g_step (GSt t refs n) (RGet q e) (RGot (imap (λ k _, n + N.of_nat k) q))
           (GSt (tick t) (made n (t_now t) e q ∪ refs) (n + lenN q))
| GRefused t refs n q1 b q2 e x :
    (* the first problem from left to right *)
    Forall (λ b, is_Some (t_cell t e b.1)) q1 -> free refs q1 ->
    match x with
    | GBorrow => ¬ free refs (q1 ++ [b])
    | GMissing => t_cell t e b.1 = None ∧ free refs (q1 ++ [b])
    end ->
    g_step (GSt t refs n) (RGet (q1 ++ b :: q2) e) (RErr x) (GSt (tick t) refs n)
| GDrop t refs n k :
    g_step (GSt t refs n) (RDrop k) RDone (GSt t (delete k refs) n)
| GRead t refs n k x r :
    refs !! k = Some x -> t_cell t (l_ent x) (l_store x) = Some r ->
    g_step (GSt t refs n) (RRead k) (RVal (r_val r)) (GSt t refs n)
| GWrite t refs n k x f :
    (* marked as modified at the time of the [get] *)
    refs !! k = Some x ->
    g_step (GSt t refs n) (RWrite k f) RDone
           (GSt (put_row (l_ent x) (l_store x) (λ r, Row (f (r_val r)) (r_ins r) (l_stamp x)) t) refs n)
| GMap t refs n k x f :
    refs !! k = Some x ->
    g_step (GSt t refs n) (RMap k f) RDone
           (GSt (put_row (l_ent x) (l_store x) (λ r, Row (f (r_val r)) (r_ins r) (r_mod r)) t) refs n)
| GView t refs n o l ev t' :
    through_views o = Some l -> free refs (map (λ i, (i, true)) l) -> t_step t o ev t' ->
    g_step (GSt t refs n) (RView o) (RWorld ev) (GSt t' refs n)
| GViewRefused t refs n o l :
    through_views o = Some l -> ¬ free refs (map (λ i, (i, true)) l) ->
    g_step (GSt t refs n) (RView o) (RErr GBorrow) (GSt (tick t) refs n)
| GOwn t n o ev t' :
    t_step t o ev t' -> g_step (GSt t ∅ n) (ROwn o) (RWorld ev) (GSt t' ∅ n)
| GOut t refs n k x :
    refs !! k = Some x ->
    g_step (GSt t refs n) (ROut k) RDone (GSt t (if l_mut x then delete k refs else refs) n).
Inductive g_run : gst -> list (rop V) -> list (revent V) -> gst -> Prop :=
| GNil g : g_run g [] [] g
| GCons g o ev g1 ops evs g2 : g_step g o ev g1 -> g_run g1 ops evs g2 -> g_run g (o :: ops) (ev :: evs) g2.

(** * The invariant *)
Record live_part (w : world V) (t : table V) (p : part) : Prop := {
  lp_gen : gen (pt_ent p) < U16_MAX;
  lp_store : is_Some (w_stores w !! pt_store p);
  lp_index : index_of (store w (pt_store p)) (pt_ent p) = Some (pt_pos p);
  lp_cell : is_Some (t_cell t (pt_ent p) (pt_store p));
  lp_stamp : pt_stamp p < t_now t;
}.
Notation wrel := (WR kind (λ _, 0) (λ _, 0)).
Definition seen (p : part) : lref := LRef (pt_store p) (pt_mut p) (pt_ent p) (pt_stamp p).
Record RInv s (g : gst) : Prop := {
  ri_world : wrel (r_world s) (g_table g);
  ri_refs : g_refs g = seen <$> r_refs s;
  ri_next : g_next g = r_next s;
  ri_below : ∀ n p, r_refs s !! n = Some p -> n < r_next s;
  ri_live : ∀ n p, r_refs s !! n = Some p -> live_part (r_world s) (g_table g) p;
  ri_clash : ∀ n p n' p', r_refs s !! n = Some p -> r_refs s !! n' = Some p' -> n ≠ n' ->
               ¬ clash (asks p) (asks p');
}.

Lemma busy_true held i mu : busy held i mu = true <-> ∃ b, b ∈ held ∧ clash b (i, mu).
Proof.
  unfold busy. rewrite existsb_exists. split; intros (b & Hb & H); exists b.
  - apply andb_prop in H as [E%N.eqb_eq H%orb_prop]. split; [by apply elem_of_list_In|]. split; [done|].
    cbn. destruct H; [by left|by right].
  - destruct H as [E H]. split; [by apply elem_of_list_In|]. apply andb_true_intro. cbn in *. split; [by apply N.eqb_eq|].
    apply orb_true_intro. destruct H; [by left|by right].
Qed.
Lemma busy_false held i mu : busy held i mu = false <-> ∀ b, b ∈ held -> ¬ clash b (i, mu).
Proof.
  split.
  - intros H b Hb Hc. enough (busy held i mu = true) by congruence. apply busy_true. by exists b.
  - intros H. destruct (busy held i mu) eqn:E; [|done]. apply busy_true in E as (b & Hb & Hc). by apply H in Hb.
Qed.
Lemma elem_borrowed refs b : b ∈ borrowed refs <-> ∃ n p, refs !! n = Some p ∧ b = asks p.
Proof.
  unfold borrowed. rewrite elem_of_list_fmap. split.
  - intros ([n p] & -> & H). apply elem_of_map_to_list in H. by exists n, p.
  - intros (n & p & H & ->). exists (n, p). split; [done|]. by apply elem_of_map_to_list.
Qed.

(** A storage that holds the entity: its position is that of the component. *)
Lemma store_index (sto : sset V) k li lm c e :
  store_rel k li lm sto c -> gen e < U16_MAX ->
  match c e with
  | Some r => ∃ p, index_of sto e = Some p ∧ getN (ss_data sto) p = Some (r_val r) ∧
                (ss_tm sto = true -> getN (ss_mod sto) p = Some (r_mod r))
  | None => index_of sto e = None
  end.
Proof.
  intros (a & H & _ & Hc) Hg. rewrite <- Hc. destruct H as [HI HR Hdel Hrem Hti Htm Htd Htr Hli Hlm].
  destruct (sp_map a !! e) as [r|] eqn:Hm.
  - destruct (index_of_Some sto _ e r HI HR Hm) as (p & E & Hp & Hv & Hi & Hmm & Hok).
    exists p. split; [done|]. split; [done|]. intros Ht. by apply Hmm.
  - by apply (index_of_None sto _ e HI HR Hg Hm).
Qed.

(** ** get *)
Lemma get_parts_ok e now : gen e < U16_MAX -> ∀ q (m : gmap N (sset V)) c held,
  stores_rel kind (λ _, 0) (λ _, 0) m c ->
  ∃ m' r, get_parts kind m held e now q = Ok (m', r) ∧ stores_rel kind (λ _, 0) (λ _, 0) m' c ∧
    (∀ i, store_or_new kind m' i = store_or_new kind m i) ∧ (∀ i, is_Some (m !! i) -> is_Some (m' !! i)) ∧
    match r with
    | inl ps =>
        map asks ps = q ∧
        Forall (λ p, pt_ent p = e ∧ pt_stamp p = now ∧ is_Some (m' !! pt_store p) ∧
                     index_of (store_or_new kind m' (pt_store p)) e = Some (pt_pos p) ∧
                     is_Some (c e (pt_store p))) ps ∧
        (∀ a b, a ∈ held -> b ∈ q -> ¬ clash a b) ∧
        (∀ k k' a b, q !! k = Some a -> q !! k' = Some b -> k ≠ k' -> ¬ clash a b)
    | inr x =>
        ∃ q1 i mu q2, q = q1 ++ (i, mu) :: q2 ∧ Forall (λ b, is_Some (c e b.1)) q1 ∧
          (∀ a b, a ∈ held -> b ∈ q1 -> ¬ clash a b) ∧
          (∀ k k' a b, q1 !! k = Some a -> q1 !! k' = Some b -> k ≠ k' -> ¬ clash a b) ∧
          match x with
          | GBorrow => ∃ a, (a ∈ held ∨ a ∈ q1) ∧ clash a (i, mu)
          | GMissing => c e i = None ∧ ∀ a, a ∈ held ∨ a ∈ q1 -> ¬ clash a (i, mu)
          end
    end.
Proof.
  intros Hg. induction q as [|[i mu] q IH]; intros m c held Hm; cbn [get_parts].
  { exists m, (inl []). split_and!; [done|done|done|done|done|done| |].
    - intros a b _ Hb. by apply elem_of_nil in Hb.
    - intros k k' a b Hk. by rewrite lookup_nil in Hk. }
  set (sto := store_or_new kind m i). set (m1 := <[i:=sto]> m).
  assert (stores_rel kind (λ _, 0) (λ _, 0) m1 c) as Hm1 by (by apply stores_touch).
  assert (∀ j, store_or_new kind m1 j = store_or_new kind m j) as Hsame.
  { intros j. unfold m1, store_or_new. destruct (decide (i = j)) as [->|Hne].
    - by rewrite lookup_insert.
    - by rewrite lookup_insert_ne. }
  assert (∀ j, is_Some (m !! j) -> is_Some (m1 !! j)) as Hkeep.
  { intros j Hj. unfold m1. destruct (decide (i = j)) as [->|Hne].
    - rewrite lookup_insert. by eexists.
    - by rewrite lookup_insert_ne. }
  destruct (busy held i mu) eqn:Eb.
  { exists m1, (inr GBorrow). split_and!; [done|done|done|done|].
    exists [], i, mu, q. split_and!; [done|done| | |].
    - intros a b _ Hb. by apply elem_of_nil in Hb.
    - intros k k' a b Hk. by rewrite lookup_nil in Hk.
    - apply busy_true in Eb as (b & Hb & Hc). exists b. split; [by left|done]. }
  rewrite busy_false in Eb.
  pose proof (store_index sto (kind i) 0 0 (λ x, c x i) e (Hm i) Hg) as Hix. cbn in Hix.
  destruct (c e i) as [r|] eqn:Ec.
  2: { rewrite Hix. exists m1, (inr GMissing). split_and!; [done|done|done|done|].
       exists [], i, mu, q. split_and!; [done|done| | |done|].
       - intros a b _ Hb. by apply elem_of_nil in Hb.
       - intros k k' a b Hk. by rewrite lookup_nil in Hk.
       - intros a [Ha|Ha]; [by apply Eb|by apply elem_of_nil in Ha]. }
  destruct Hix as (p & Ep & Hv & Hmm). rewrite Ep. unfold get_unchecked at 1. rewrite Hv. cbn [rbind].
  assert ((if mu && ss_tm sto then rlet _ := get_unchecked (ss_mod sto) p in Ok tt else Ok tt) = Ok tt) as ->.
  { destruct mu, (ss_tm sto) eqn:Et; cbn [andb]; try done. unfold get_unchecked. by rewrite Hmm. }
  cbn [rbind]. destruct (IH m1 c ((i, mu) :: held) Hm1) as (m' & rr & -> & Hm' & Hsame' & Hkeep' & Hr).
  cbn [rbind]. eexists m', _. split; [done|]. split; [done|].
  split; [intros j; by rewrite Hsame', Hsame|]. split; [by intros j Hj; apply Hkeep', Hkeep|].
  destruct rr as [ps|x].
  - destruct Hr as (Hq & Hps & Hh & Hp). split_and!.
    + cbn. by rewrite Hq.
    + constructor; [|done]. cbn. split_and!; [done|done| | |by rewrite Ec].
      * apply Hkeep'. unfold m1. rewrite lookup_insert. by eexists.
      * by rewrite Hsame', Hsame.
    + intros a b Ha Hb. apply elem_of_cons in Hb as [->|Hb]; [by apply Eb|]. apply Hh; [by right|done].
    + intros [|k] [|k'] a b Hk Hk' Hne; cbn in Hk, Hk'; simplify_eq.
      * apply Hh; [by left|]. by eapply elem_of_list_lookup_2.
      * intros [? ?]. apply (Hh (i, mu) a); [by left|by eapply elem_of_list_lookup_2|].
        unfold clash in *. cbn in *. naive_solver.
      * apply (Hp k k'); [done|done|congruence].
  - destruct Hr as (q1 & i' & mu' & q2 & -> & Hc1 & Hh & Hp & Hx).
    exists ((i, mu) :: q1), i', mu', q2. split_and!; [done| | | |].
    + constructor; [|done]. cbn. by rewrite Ec.
    + intros a b Ha Hb. apply elem_of_cons in Hb as [->|Hb]; [by apply Eb|]. apply Hh; [by right|done].
    + intros [|k] [|k'] a b Hk Hk' Hne; cbn in Hk, Hk'; simplify_eq.
      * apply Hh; [by left|]. by eapply elem_of_list_lookup_2.
      * intros [? ?]. apply (Hh (i, mu) a); [by left|by eapply elem_of_list_lookup_2|].
        unfold clash in *. cbn in *. naive_solver.
      * apply (Hp k k'); [done|done|congruence].
    + destruct x.
      * destruct Hx as (a & Ha & Hcl). exists a. split; [|done]. set_unfold in Ha. set_unfold. naive_solver.
      * destruct Hx as (Hn & Ha). split; [done|]. intros a Ha'. apply Ha. set_unfold. naive_solver.
Qed.

(** ** Writing *)
Definition written (p : part) (flag : bool) (f : V -> V) (r : row V) : row V :=
  Row (f (r_val r)) (r_ins r) (if flag then pt_stamp p else r_mod r).

Lemma put_row_cell t e i g x j :
  t_cell (put_row e i g t) x j = if decide (x = e ∧ j = i) then g <$> t_cell t e i else t_cell t x j.
Proof.
  unfold t_cell, put_row. cbn. destruct (decide (x = e)) as [->|Hx].
  - rewrite lookup_alter. destruct (t_rows t !! e) as [r|]; cbn; [|by case_decide].
    destruct (decide (j = i)) as [->|Hj].
    + rewrite lookup_alter, decide_True by done. done.
    + rewrite lookup_alter_ne, decide_False by (done || naive_solver). done.
  - rewrite lookup_alter_ne, decide_False by (done || naive_solver). done.
Qed.

Lemma setN_id {A} (l : list A) p x : getN l p = Some x -> setN l p x = l.
Proof. rewrite getN_lookup, setN_insert. apply list_insert_id. Qed.
Lemma index_of_sparse (s1 s2 : sset V) e : ss_sparse s1 = ss_sparse s2 -> index_of s1 e = index_of s2 e.
Proof. unfold index_of. by intros ->. Qed.

Lemma deref_ok w t p :
  wrel w t -> live_part w t p -> ∃ r, t_cell t (pt_ent p) (pt_store p) = Some r ∧ deref w p = Ok (r_val r).
Proof.
  intros H [Hg [sto Hs] Hix [r Hr] _]. exists r. split; [done|]. unfold deref. rewrite Hs.
  pose proof (stores_some _ _ _ _ _ _ _ (wr_stores _ _ _ _ _ H) Hs) as Hrel.
  pose proof (store_index _ _ _ _ _ (pt_ent p) Hrel Hg) as Hx. cbn in Hx. rewrite Hr in Hx.
  destruct Hx as (p' & Ep & Hv & _). unfold store_or_new in Hix. rewrite Hs in Hix. cbn in Hix.
  rewrite Ep in Hix. injection Hix as ->. unfold get_unchecked. by rewrite Hv.
Qed.

Lemma deref_write_ok w t p flag f :
  wrel w t -> live_part w t p ->
  ∃ w', deref_write w p flag f = Ok w' ∧ wrel w' (put_row (pt_ent p) (pt_store p) (written p flag f) t) ∧
    (∀ i, is_Some (w_stores w !! i) -> is_Some (w_stores w' !! i)) ∧
    (∀ i, ss_sparse (store w' i) = ss_sparse (store w i)) ∧ w_counter w' = w_counter w.
Proof.
  intros H [Hg [sto Hs] Hix [r Hr] _]. unfold deref_write. rewrite Hs.
  pose proof (stores_some _ _ _ _ _ _ _ (wr_stores _ _ _ _ _ H) Hs) as Hrel.
  pose proof (store_index _ _ _ _ _ (pt_ent p) Hrel Hg) as Hx. cbn in Hx. rewrite Hr in Hx.
  destruct Hx as (p' & Ep & Hv & Hmm). unfold store_or_new in Hix. rewrite Hs in Hix. cbn in Hix.
  assert (p' = pt_pos p) as -> by congruence.
  set (T := if flag then pt_stamp p else r_mod r).
  destruct (store_write _ _ (pt_ent p) f T Hrel Hg) as (s' & E & Hs').
  unfold ss_write in E. rewrite Hix in E. unfold get_unchecked in *. rewrite Hv in *. cbn [rbind] in *.
  assert ((if flag && ss_tm sto then set_unchecked (ss_mod sto) (pt_pos p) (pt_stamp p) else Ok (ss_mod sto)) =
          (if ss_tm sto then set_unchecked (ss_mod sto) (pt_pos p) T else Ok (ss_mod sto))) as Em.
  { destruct flag; [done|]. cbn [andb]. destruct (ss_tm sto) eqn:Et; [|done].
    specialize (Hmm eq_refl). unfold T, set_unchecked. rewrite setN_id by done.
    pose proof (getN_Some_lt _ _ _ Hmm) as Hlt. by apply N.ltb_lt in Hlt as ->. }
  rewrite Em. destruct (if ss_tm sto then set_unchecked (ss_mod sto) (pt_pos p) T else Ok (ss_mod sto)) as [mm| |];
    cbn [rbind] in *; [|done|done]. injection E as <- Eb.
  eexists. split; [done|]. split; [|split; [|split; [|done]]].
  - split; cbn [w_ents w_stores w_counter with_stores put_row t_rows t_issued t_now].
    + eapply ER_ext; [apply H|]. intros x. cbn. rewrite lookup_alter_is_Some. done.
    + eapply stores_set; [apply H| |].
      * eapply store_rel_ext; [exact Hs'|]. intros x. cbn. rewrite put_row_cell. unfold at_.
        destruct (decide (x = pt_ent p)) as [->|Hne].
        -- rewrite decide_True by done. rewrite Hr. cbn. done.
        -- rewrite decide_False by naive_solver. done.
      * intros x j Hj. rewrite put_row_cell, decide_False by naive_solver. done.
    + apply H.
  - cbn. intros i Hi. destruct (decide (pt_store p = i)) as [<-|Hne].
    + rewrite lookup_insert. by eexists.
    + by rewrite lookup_insert_ne.
  - cbn. intros i. unfold store_or_new. destruct (decide (pt_store p = i)) as [<-|Hne].
    + rewrite lookup_insert, Hs. done.
    + by rewrite lookup_insert_ne.
Qed.
(** ** The steps *)
Lemma clash_sym a b : clash a b -> clash b a.
Proof. intros [E H]. split; [done|]. destruct H; [by right|by left]. Qed.
Lemma clash_dec a b : {clash a b} + {¬ clash a b}.
Proof. unfold clash. apply (decide (_ ∧ _)). Defined.

Lemma number_made n now e ps q :
  map asks ps = q -> Forall (λ p, pt_ent p = e ∧ pt_stamp p = now) ps ->
  seen <$> number n ps = made n now e q ∧ numbers n ps = imap (λ k _, n + N.of_nat k) q ∧
  ∀ m p, number n ps !! m = Some p -> ∃ k, ps !! k = Some p ∧ m = n + N.of_nat k.
Proof.
  intros <- H. revert n. induction H as [|p ps [E1 E2] _ IH]; intros n; cbn [number numbers map].
  { rewrite fmap_empty. split; [done|]. split; [done|]. intros m x Hx. by rewrite lookup_empty in Hx. }
  destruct (IH (n + 1)) as (E & En & Hb). unfold made. rewrite imap_cons. cbn [list_to_map foldr].
  rewrite fmap_insert, E, En, imap_cons. cbn [fst snd]. replace (n + N.of_nat 0) with n by lia. split; [|split].
  - f_equal; [destruct p; cbn in *; unfold seen, asks; cbn; congruence|]. unfold made. f_equal. apply imap_ext. intros k x _. cbn.
    f_equal. lia.
  - f_equal. apply imap_ext. intros k x _. cbn. lia.
  - intros m x Hm. destruct (decide (n = m)) as [->|Hne].
    + rewrite lookup_insert in Hm. injection Hm as <-. exists 0%nat. split; [done|lia].
    + rewrite lookup_insert_ne in Hm by done. destruct (Hb m x Hm) as (k & Hk & ->). exists (S k). split; [done|lia].
Qed.

Definition apart (l : list (N * bool)) : Prop :=
  ∀ k k' a b, l !! k = Some a -> l !! k' = Some b -> k ≠ k' -> ¬ clash a b.
Lemma free_held refs l :
  free (seen <$> refs) l <-> (∀ a b, a ∈ borrowed refs -> b ∈ l -> ¬ clash a b) ∧ apart l.
Proof.
  unfold free, apart. f_equiv. split.
  - intros H a b (n & p & Hn & ->)%elem_borrowed Hb. apply (H n (seen p)); [|done]. by rewrite lookup_fmap, Hn.
  - intros H n x b Hn Hb. rewrite lookup_fmap in Hn. destruct (refs !! n) as [p|] eqn:E; [|done].
    injection Hn as <-. apply (H (asks p)); [|done]. apply elem_borrowed. by exists n, p.
Qed.
Lemma apart_snoc l b : apart (l ++ [b]) <-> apart l ∧ ∀ a, a ∈ l -> ¬ clash a b.
Proof.
  split.
  - intros H. split.
    + intros k k' a a' Hk Hk' Hne. apply (H k k'); [by apply lookup_app_l_Some..|done].
    + intros a [k Hk]%elem_of_list_lookup. apply (H k (length l)); [by apply lookup_app_l_Some| |].
      * by rewrite list_lookup_middle.
      * apply lookup_lt_Some in Hk. lia.
  - intros [H1 H2] k k' a a' Hk Hk' Hne. rewrite lookup_app_Some in Hk, Hk'.
    destruct Hk as [Hk|[Lk Hk]], Hk' as [Hk'|[Lk' Hk']].
    + by apply (H1 k k').
    + apply list_lookup_singleton_Some in Hk' as [_ <-]. apply H2. by eapply elem_of_list_lookup_2.
    + apply list_lookup_singleton_Some in Hk as [_ <-]. intros Hc%clash_sym. revert Hc.
      apply H2. by eapply elem_of_list_lookup_2.
    + apply list_lookup_singleton_Some in Hk as [? _], Hk' as [? _]. lia.
Qed.
Lemma apart_cons b l : apart (b :: l) <-> apart l ∧ ∀ a, a ∈ l -> ¬ clash b a.
Proof.
  split.
  - intros H. split.
    + intros k k' a a' Hk Hk' Hne. apply (H (S k) (S k')); [done|done|lia].
    + intros a [k Hk]%elem_of_list_lookup. by apply (H 0%nat (S k)).
  - intros [H1 H2] [|k] [|k'] a a' Hk Hk' Hne; cbn in *.
    + done.
    + injection Hk as <-. apply H2. by eapply elem_of_list_lookup_2.
    + injection Hk' as <-. intros Hc%clash_sym. revert Hc. apply H2. by eapply elem_of_list_lookup_2.
    + apply (H1 k k'); [done|done|lia].
Qed.

Lemma borrow_views_ok l : ∀ (m : gmap N (sset V)) c held,
  stores_rel kind (λ _, 0) (λ _, 0) m c ->
  ∃ m' ok, borrow_views kind m held l = (m', ok) ∧ stores_rel kind (λ _, 0) (λ _, 0) m' c ∧
    (∀ i, store_or_new kind m' i = store_or_new kind m i) ∧ (∀ i, is_Some (m !! i) -> is_Some (m' !! i)) ∧
    (ok = true <-> (∀ a b, a ∈ held -> b ∈ map (λ i, (i, true)) l -> ¬ clash a b) ∧ apart (map (λ i, (i, true)) l)).
Proof.
  induction l as [|i l IH]; intros m c held Hm; cbn [borrow_views map].
  { exists m, true. split_and!; [done..|]. split; [|done]. intros _. split.
    - intros a b _ Hb. by apply elem_of_nil in Hb.
    - intros k k' a b Hk. by rewrite lookup_nil in Hk. }
  set (m1 := <[i:=store_or_new kind m i]> m).
  assert (stores_rel kind (λ _, 0) (λ _, 0) m1 c) as Hm1 by (by apply stores_touch).
  assert (∀ j, store_or_new kind m1 j = store_or_new kind m j) as Hsame.
  { intros j. unfold m1, store_or_new. destruct (decide (i = j)) as [->|Hne].
    - by rewrite lookup_insert.
    - by rewrite lookup_insert_ne. }
  assert (∀ j, is_Some (m !! j) -> is_Some (m1 !! j)) as Hkeep.
  { intros j Hj. unfold m1. destruct (decide (i = j)) as [->|Hne].
    - rewrite lookup_insert. by eexists.
    - by rewrite lookup_insert_ne. }
  destruct (busy held i true) eqn:Eb.
  - exists m1, false. split_and!; [done..|]. split; [done|]. intros [H _].
    apply busy_true in Eb as (a & Ha & Hc). exfalso. apply (H a (i, true)); [done|left|done].
  - rewrite busy_false in Eb. destruct (IH m1 c ((i, true) :: held) Hm1) as (m' & ok & -> & R & S & K & O).
    exists m', ok. split; [done|]. split; [done|]. split; [intros j; by rewrite S|]. split; [naive_solver|].
    rewrite O, apart_cons. split.
    + intros [H1 H2]. split; [|split; [done|]].
      * intros a b Ha [->|Hb]%elem_of_cons; [by apply Eb|]. apply H1; [by right|done].
      * intros a Ha. apply H1; [left|done].
    + intros [H1 [H2 H3]]. split; [|done]. intros a b [->|Ha]%elem_of_cons Hb; [by apply H3|].
      apply H1; [done|by right].
Qed.

(** Storages that are not borrowed are left alone. *)
Lemma add_tuple_frame e now i cs : ∀ (m m' : gmap N (sset V)),
  add_tuple kind m e cs now = Ok m' -> i ∉ cs.*1 -> m' !! i = m !! i.
Proof.
  induction cs as [|[j v] cs IH]; intros m m' E Hi; cbn [add_tuple] in E; [congruence|].
  apply not_elem_of_cons in Hi as [Hne Hi]. cbn in Hne.
  destruct (ss_insert (store_or_new kind m j) e v now) as [[s' x]| |]; cbn [rbind] in E; [|done|done].
  destruct (was_inserted x); [|done]. rewrite (IH _ _ E Hi). by rewrite lookup_insert_ne.
Qed.
Lemma view_delete_frame e now i is : ∀ (m m' : gmap N (sset V)) b,
  view_delete kind m e is now = Ok (m', b) -> i ∉ is -> m' !! i = m !! i.
Proof.
  induction is as [|j is IH]; intros m m' b E Hi; cbn [view_delete] in E; [congruence|].
  apply not_elem_of_cons in Hi as [Hne Hi].
  destruct (dyn_delete (store_or_new kind m j) e now) as [[s' x]| |]; cbn [rbind] in E; [|done|done].
  destruct (view_delete kind (<[j:=s']> m) e is now) as [[m1 b1]| |] eqn:E1; cbn [rbind] in E; [|done|done].
  injection E as <- _. rewrite (IH _ _ _ E1 Hi). by rewrite lookup_insert_ne.
Qed.
Lemma through_frame w o l w' ev i :
  through_views o = Some l -> w_step kind w o = Ok (w', ev) -> i ∉ l -> w_stores w' !! i = w_stores w !! i.
Proof.
  intros Hl E Hi. destruct o; try done; cbn [through_views w_step] in *; injection Hl as <-.
  - unfold w_add_entity in E. destruct (generate (w_ents (w_tick w))) as [[es e]| |]; cbn [rbind] in E; [|done|done].
    destruct (add_tuple kind (w_stores (w_tick w)) e cs (w_counter w)) as [m| |] eqn:Ea; cbn [rbind] in E; [|done|done].
    injection E as <- _. cbn. by eapply add_tuple_frame in Ea.
  - unfold w_add_component in E. destruct (is_alive (w_ents (w_tick w)) e); [|done].
    destruct (add_tuple kind (w_stores (w_tick w)) e cs (w_counter w)) as [m| |] eqn:Ea; cbn [rbind] in E; [|done|done].
    injection E as <- _. cbn. by eapply add_tuple_frame in Ea.
  - unfold w_view_delete in E.
    destruct (view_delete kind (w_stores w) e is (w_counter w)) as [[m b]| |] eqn:Ea; cbn [rbind] in E; [|done|done].
    injection E as <- _. cbn. by eapply view_delete_frame in Ea.
  - unfold w_write in E. destruct (ss_write _ _ _ _) as [[s b]| |]; cbn [rbind] in E; [|done|done].
    injection E as <- _. cbn. rewrite lookup_insert_ne; [done|]. intros ->. apply Hi. left.
  - unfold w_retain in E. destruct (w_stores w !! i0) as [sto|]; [|done].
    destruct (ss_retain _ _ _ _) as [[s b]| |]; cbn [rbind] in E; [|done|done].
    injection E as <- _. cbn. rewrite lookup_insert_ne; [done|]. intros ->. apply Hi. left.
Qed.
Lemma through_now o l t ev t' : through_views o = Some l -> t_step t o ev t' -> t_now t <= t_now t'.
Proof. intros Hl St. destruct St; try done; cbn; lia. Qed.

Lemma live_keep w w' t t' p :
  wrel w' t' -> t_now t <= t_now t' -> (is_Some (w_stores w !! pt_store p) -> is_Some (w_stores w' !! pt_store p)) ->
  index_of (store w' (pt_store p)) (pt_ent p) = index_of (store w (pt_store p)) (pt_ent p) ->
  live_part w t p -> live_part w' t' p.
Proof.
  intros H' Hn Hk Hi [Hg Hs Hix Hc Ht]. split; [done|by apply Hk|congruence| |lia].
  pose proof (store_index _ _ _ _ _ (pt_ent p) (wr_stores _ _ _ _ _ H' (pt_store p)) Hg) as Hx. cbn in Hx.
  destruct (t_cell t' (pt_ent p) (pt_store p)); [by eexists|]. congruence.
Qed.
Lemma wrel_tick w t m :
  wrel w t -> stores_rel kind (λ _, 0) (λ _, 0) m (t_cell t) -> wrel (with_stores (w_tick w) m) (tick t).
Proof. intros H Hm. split; cbn; [apply H|exact Hm|]. by rewrite (wr_now _ _ _ _ _ H). Qed.

Lemma r_step_ok s g o :
  RInv s g -> r_allowed s o ->
  ∃ s' ev g', r_step kind s o = Ok (s', ev) ∧ g_step g o ev g' ∧ RInv s' g'.
Proof.
  destruct s as [w refs nx out], g as [t grefs gn].
  intros [HW Hrefs Hnext Hbelow Hlive Hclash] A. cbn in HW, Hrefs, Hnext, Hbelow, Hlive, Hclash. subst grefs gn.
  destruct o as [q e|n|n|n f|n f|o|o|n]; cbn [r_step r_world r_refs r_next r_out r_allowed] in *.
  - destruct (get_parts_ok e (w_counter w) A q (w_stores w) (t_cell t) (borrowed refs) (wr_stores _ _ _ _ _ HW))
      as (m' & r & -> & Hm & Hsame & Hkeep & Hr). cbn [rbind].
    pose proof (wrel_tick w t m' HW Hm) as HW'.
    assert (∀ p, live_part w t p -> live_part (with_stores (w_tick w) m') (tick t) p) as Hl.
    { intros p Hp. eapply live_keep; [done| | | |exact Hp]; cbn; [lia|by apply Hkeep|by rewrite Hsame]. }
    destruct r as [ps|x].
    + destruct Hr as (Hq & Hps & Hfree & Hap).
      destruct (number_made nx (w_counter w) e ps q Hq) as (E1 & E2 & E3).
      { eapply Forall_impl; [exact Hps|]. intros p. cbn. naive_solver. }
      assert (lenN ps = lenN q) as El. { rewrite <- Hq. unfold lenN. by rewrite map_length. }
      eexists _, _, (GSt (tick t) (made nx (t_now t) e q ∪ (seen <$> refs)) (nx + lenN q)). split; [done|]. split.
      { rewrite E2. apply GGot.
        - rewrite <- Hq. rewrite Forall_fmap. eapply Forall_impl; [exact Hps|]. intros p (_ & _ & _ & _ & H). exact H.
        - apply free_held. done. }
      split; cbn [r_world r_refs r_next g_table g_refs g_next].
      * done.
      * rewrite map_fmap_union, E1. by rewrite (wr_now _ _ _ _ _ HW).
      * by rewrite El.
      * intros n p Hn. apply lookup_union_Some_raw in Hn as [Hn|[_ Hn]].
        -- destruct (E3 _ _ Hn) as (k & Hk & ->). apply lookup_lt_Some in Hk. unfold lenN. lia.
        -- apply Hbelow in Hn. lia.
      * intros n p Hn. apply lookup_union_Some_raw in Hn as [Hn|[_ Hn]]; [|by eapply Hl, Hlive].
        destruct (E3 _ _ Hn) as (k & Hk & ->).
        pose proof (Forall_lookup_1 _ _ _ _ Hps Hk) as (H1 & H2 & H3 & H4 & H5). cbn in *.
        split; cbn; rewrite ?H1, ?H2; try done. rewrite (wr_now _ _ _ _ _ HW). lia.
      * intros n p n' p' Hn Hn' Hne.
        apply lookup_union_Some_raw in Hn as [Hn|[_ Hn]], Hn' as [Hn'|[_ Hn']].
        -- destruct (E3 _ _ Hn) as (k & Hk & ->), (E3 _ _ Hn') as (k' & Hk' & ->).
           apply (Hap k k'); [| |intros ->; done]; rewrite <- Hq, list_lookup_fmap.
           ++ by rewrite Hk.
           ++ by rewrite Hk'.
        -- destruct (E3 _ _ Hn) as (k & Hk & ->). intros Hc%clash_sym. revert Hc. apply Hfree.
           ++ apply elem_borrowed. by exists n', p'.
           ++ rewrite <- Hq. apply elem_of_list_fmap_1. by eapply elem_of_list_lookup_2.
        -- destruct (E3 _ _ Hn') as (k & Hk & ->). apply Hfree.
           ++ apply elem_borrowed. by exists n, p.
           ++ rewrite <- Hq. apply elem_of_list_fmap_1. by eapply elem_of_list_lookup_2.
        -- by apply (Hclash n p n' p').
    + destruct Hr as (q1 & i & mu & q2 & -> & Hp & Hfree & Hap & Hx).
      eexists _, _, (GSt (tick t) (seen <$> refs) nx). split; [done|]. split.
      { apply GRefused; [done|by apply free_held|]. destruct x; rewrite free_held, apart_snoc.
        - destruct Hx as (a & [Ha|Ha] & Hc); intros [F1 [_ F2]].
          + apply (F1 a (i, mu)); [done| |done]. apply elem_of_app. right. by apply elem_of_list_singleton.
          + by apply (F2 a).
        - destruct Hx as [Hn Hx]. split; [done|]. split; [|split; [done|]].
          + intros a b Ha [Hb| ->%elem_of_list_singleton]%elem_of_app; [by apply Hfree|]. apply Hx. by left.
          + intros a Ha. apply Hx. by right. }
      split; cbn [r_world r_refs r_next g_table g_refs g_next]; try done. intros n p Hn. by eapply Hl, Hlive.
  - eexists _, _, (GSt t (delete n (seen <$> refs)) nx). split; [done|]. split; [apply GDrop|].
    split; cbn [r_world r_refs r_next g_table g_refs g_next]; [done|by rewrite fmap_delete|done|..].
    + intros k p [_ Hk]%lookup_delete_Some. by eapply Hbelow.
    + intros k p [_ Hk]%lookup_delete_Some. by eapply Hlive.
    + intros k p k' p' [_ Hk]%lookup_delete_Some [_ Hk']%lookup_delete_Some. by apply (Hclash k p k' p').
  - destruct A as [p Hp]. rewrite Hp. destruct (deref_ok w t p HW (Hlive n p Hp)) as (r & Hr & ->). cbn [rbind].
    eexists _, _, _. split; [done|]. split; [apply (GRead _ _ _ _ (seen p)); [by rewrite lookup_fmap, Hp|done]|].
    by split.
  - destruct A as (p & Hp & Hmu). rewrite Hp.
    destruct (deref_write_ok w t p true f HW (Hlive n p Hp)) as (w' & -> & HW' & K1 & K2 & _). cbn [rbind].
    eexists _, _, _. split; [done|]. split.
    { apply (GWrite _ _ _ _ (seen p)). by rewrite lookup_fmap, Hp. }
    split; cbn [r_world r_refs r_next g_table g_refs g_next]; try done. intros k p' Hk.
    eapply (live_keep w w' t); [exact HW'|done|by apply K1| |by eapply Hlive]. by apply index_of_sparse.
  - destruct A as (p & Hp & Hmu). rewrite Hp.
    destruct (deref_write_ok w t p false f HW (Hlive n p Hp)) as (w' & -> & HW' & K1 & K2 & _). cbn [rbind].
    eexists _, _, _. split; [done|]. split.
    { apply (GMap _ _ _ _ (seen p)). by rewrite lookup_fmap, Hp. }
    split; cbn [r_world r_refs r_next g_table g_refs g_next]; try done. intros k p' Hk.
    eapply (live_keep w w' t); [exact HW'|done|by apply K1| |by eapply Hlive]. by apply index_of_sparse.
  - destruct A as [[l Hl] A]. rewrite Hl.
    destruct (borrow_views_ok l (w_stores w) (t_cell t) (borrowed refs) (wr_stores _ _ _ _ _ HW))
      as (m' & ok & -> & Hm & Hsame & Hkeep & Hok). rewrite <- free_held in Hok. destruct ok.
    + destruct (step_WR _ _ _ w t o HW A) as (w' & ev & t' & E & St & HW'). rewrite E. cbn [rbind].
      assert (free (seen <$> refs) (map (λ i, (i, true)) l)) as Hf by (by apply Hok).
      eexists _, _, _. split; [done|]. split; [by eapply GView|].
      split; cbn [r_world r_refs r_next g_table g_refs g_next]; try done. intros k p Hk.
      assert (pt_store p ∉ l) as Hn.
      { intros Hi. destruct Hf as [Hf _].
        apply (Hf k (seen p) (pt_store p, true)); [by rewrite lookup_fmap, Hk| |].
        - apply elem_of_list_fmap. by exists (pt_store p).
        - split; [done|by right]. }
      pose proof (through_frame w o l w' ev _ Hl E Hn) as Hfr.
      eapply (live_keep w w' t t'); [exact HW'|by eapply through_now|by rewrite Hfr| |by eapply Hlive].
      unfold store_or_new. by rewrite Hfr.
    + assert (¬ free (seen <$> refs) (map (λ i, (i, true)) l)) as Hf by (intros H; apply Hok in H; done).
      eexists _, _, _. split; [done|]. split; [by eapply GViewRefused|].
      split; cbn [r_world r_refs r_next g_table g_refs g_next]; try done; [by apply wrel_tick|].
      intros k p Hk. eapply live_keep; [by apply wrel_tick| | | |by eapply Hlive]; cbn; [lia|by apply Hkeep|by rewrite Hsame].
  - destruct A as (-> & -> & A). destruct (step_WR _ _ _ w t o HW A) as (w' & ev & t' & -> & St & HW'). cbn [rbind].
    rewrite fmap_empty. eexists _, _, _. split; [done|]. split; [by apply GOwn|].
    split; cbn [r_world r_refs r_next g_table g_refs g_next]; try done. by rewrite fmap_empty.
  - destruct A as [p Hp]. rewrite Hp. eexists _, _, _. split; [done|]. split.
    { apply (GOut _ _ _ _ (seen p)). by rewrite lookup_fmap, Hp. }
    split; cbn [r_world r_refs r_next g_table g_refs g_next seen l_mut]; [done| |done|..]; destruct (pt_mut p); try done.
    + by rewrite fmap_delete.
    + intros k p' [_ Hk]%lookup_delete_Some. by eapply Hbelow.
    + intros k p' [_ Hk]%lookup_delete_Some. by eapply Hlive.
    + intros k p' k' p'' [_ Hk]%lookup_delete_Some [_ Hk']%lookup_delete_Some. by apply (Hclash k p' k' p'').
Qed.

Lemma r_run_ok ops : ∀ s g, RInv s g -> r_history s ops ->
  ∃ s' evs g', r_run kind s ops = Ok (s', evs) ∧ g_run g ops evs g' ∧ RInv s' g'.
Proof.
  induction ops as [|o ops IH]; intros s g H Hh; cbn [r_run].
  { eexists _, _, _. split; [done|]. split; [constructor|done]. }
  destruct Hh as [A Hh]. destruct (r_step_ok s g o H A) as (s1 & ev & g1 & E & St & H1). rewrite E. cbn [rbind].
  destruct (IH s1 g1 H1 (Hh _ _ E)) as (s' & evs & g' & -> & R & H'). cbn [rbind].
  eexists _, _, _. split; [done|]. split; [by econstructor|done].
Qed.
Lemma RInv_new : RInv r_new g_new.
Proof.
  split; cbn; [apply WR_init|by rewrite fmap_empty|done|..]; intros n p; by rewrite lookup_empty.
Qed.
Lemma r_reach_inv ops s evs : r_reach ops s evs -> ∃ g, g_run g_new ops evs g ∧ RInv s g.
Proof.
  intros [Hh E]. destruct (r_run_ok ops _ _ RInv_new Hh) as (s' & evs' & g & E' & R & H).
  rewrite E' in E. injection E as -> ->. by exists g.
Qed.

(** * C64 *)
Lemma RInv_shows s g e : RInv s g -> gen e < U16_MAX -> shows kind (r_world s) e (t_cell (g_table g) e).
Proof. intros H. eapply WR_shows, H. Qed.

(** References behave as the table with locks says: no history ends in a panic or in undefined behaviour,
    every answer is one the specification gives, and views show what the table holds. *)
Theorem C64_refines ops : r_history r_new ops ->
  ∃ s evs g, r_run kind r_new ops = Ok (s, evs) ∧ g_run g_new ops evs g ∧
    (∀ e, is_alive (w_ents (r_world s)) e = true <-> is_Some (t_rows (g_table g) !! e)) ∧
    (∀ e, gen e < U16_MAX -> shows kind (r_world s) e (t_cell (g_table g) e)).
Proof.
  intros Hh. destruct (r_run_ok ops _ _ RInv_new Hh) as (s & evs & g & E & R & H). exists s, evs, g.
  split; [done|]. split; [done|]. split.
  - intros e. eapply WR_live, H.
  - intros e. by apply RInv_shows.
Qed.

(** An exclusive reference is the only one into its storage. *)
Theorem C64_exclusive ops s evs n p n' p' :
  r_reach ops s evs -> r_refs s !! n = Some p -> r_refs s !! n' = Some p' -> n ≠ n' ->
  pt_mut p = true -> pt_store p ≠ pt_store p'.
Proof.
  intros (g & _ & H)%r_reach_inv Hn Hn' Hne Hm E. apply (ri_clash _ _ H _ _ _ _ Hn Hn' Hne). split; [done|by left].
Qed.

(** As long as a reference lives, its entity lives and it is what views show. *)
Theorem C64_live ops s evs n p :
  r_reach ops s evs -> r_refs s !! n = Some p ->
  is_alive (w_ents (r_world s)) (pt_ent p) = true ∧
  ∃ v, deref (r_world s) p = Ok v ∧ ss_get (store (r_world s) (pt_store p)) (pt_ent p) = Ok (Some v).
Proof.
  intros (g & _ & H)%r_reach_inv Hn. pose proof (ri_live _ _ H _ _ Hn) as Hp.
  destruct (deref_ok _ _ _ (ri_world _ _ H) Hp) as (r & Hr & Hd). split.
  - apply (WR_live kind _ _ _ (ri_world _ _ H)). unfold t_cell in Hr.
    destruct (t_rows (g_table g) !! pt_ent p); [by eexists|done].
  - exists (r_val r). split; [done|].
    destruct (RInv_shows _ _ (pt_ent p) H (lp_gen _ _ _ Hp) (pt_store p)) as [-> _]. by rewrite Hr.
Qed.

(** When [get] succeeds. Whatever its answer, the contents of the world are not changed, and an error leaves
    the references as they were: nothing stays borrowed. *)
Theorem C64_get ops s evs q e :
  r_reach ops s evs -> gen e < U16_MAX ->
  ∃ s' ev, r_step kind s (RGet q e) = Ok (s', ev) ∧
    (∀ x, gen x < U16_MAX -> same_for kind (r_world s) (r_world s') x) ∧
    match ev with
    | RGot ns =>
        (* present and not in the way of each other or of a live reference *)
        Forall (λ b, ∃ v, ss_get (store (r_world s) b.1) e = Ok (Some v)) q ∧
        (∀ n p b, r_refs s !! n = Some p -> b ∈ q -> ¬ clash (asks p) b) ∧
        (∀ k k' a b, q !! k = Some a -> q !! k' = Some b -> k ≠ k' -> ¬ clash a b) ∧
        length ns = length q ∧ NoDup ns ∧
        (∀ n p, r_refs s !! n = Some p -> n ∉ ns ∧ r_refs s' !! n = Some p) ∧
        (∀ k n b, ns !! k = Some n -> q !! k = Some b ->
           ∃ p, r_refs s' !! n = Some p ∧ asks p = b ∧ pt_ent p = e ∧ pt_stamp p = w_counter (r_world s))
    | RErr x =>
        r_refs s' = r_refs s ∧
        match x with
        | GMissing => ∃ b, b ∈ q ∧ ss_get (store (r_world s) b.1) e = Ok None
        | GBorrow => (∃ n p b, r_refs s !! n = Some p ∧ b ∈ q ∧ clash (asks p) b) ∨
                     (∃ k k' a b, q !! k = Some a ∧ q !! k' = Some b ∧ k ≠ k' ∧ clash a b)
        end
    | _ => False
    end.
Proof.
  intros (g & _ & H)%r_reach_inv Hg. pose proof (r_step_ok s g (RGet q e) H Hg) as (s' & ev & g' & E & St & H').
  exists s', ev. split; [done|]. split.
  { intros x Hx. eapply WR_same; [apply H|apply H'|done|]. by inversion St. }
  pose proof (ri_refs _ _ H) as Hr. pose proof (ri_refs _ _ H') as Hr'. pose proof (ri_next _ _ H) as Hn.
  pose proof (RInv_shows _ _ e H Hg) as Hsh.
  assert (∀ i, ss_get (store (r_world s) i) e = Ok (r_val <$> t_cell (g_table g) e i)) as Hget.
  { intros i. apply Hsh. }
  cbn [r_step] in E.
  destruct (get_parts_ok e (w_counter (r_world s)) Hg q _ _ (borrowed (r_refs s)) (wr_stores _ _ _ _ _ (ri_world _ _ H)))
    as (m' & r & Eg & _ & _ & _ & Hres). rewrite Eg in E. cbn [rbind] in E.
  destruct r as [ps|x]; injection E as <- <-.
  - cbn [r_refs]. destruct Hres as (Hq & Hps & Hfree & Hap).
    assert (∀ k p, ps !! k = Some p -> number (r_next s) ps !! (r_next s + N.of_nat k) = Some p) as Hnum.
    { clear. generalize (r_next s) as n. induction ps as [|a ps IH]; intros n [|k] p Hk; try done; cbn [number].
      - injection Hk as ->. replace (n + N.of_nat 0) with n by lia. by rewrite lookup_insert.
      - rewrite lookup_insert_ne by lia. replace (n + N.of_nat (S k)) with (n + 1 + N.of_nat k) by lia. by apply IH. }
    assert (∀ k n, numbers (r_next s) ps !! k = Some n -> n = r_next s + N.of_nat k ∧ is_Some (ps !! k)) as Hns.
    { clear. generalize (r_next s) as m. induction ps as [|a ps IH]; intros m [|k] n Hk; try done; cbn in Hk.
      - injection Hk as <-. split; [lia|by eexists].
      - apply IH in Hk as [-> Hk]. split; [lia|done]. }
    split_and!.
    + rewrite <- Hq, Forall_fmap. eapply Forall_impl; [exact Hps|]. intros p (_ & _ & _ & _ & [row Hrow]). cbn.
      exists (r_val row). by rewrite Hget, Hrow.
    + intros n p b Hp Hb. apply Hfree; [|done]. apply elem_borrowed. by exists n, p.
    + done.
    + rewrite <- Hq, map_length. clear. generalize (r_next s). induction ps; intros n; cbn; by f_equal.
    + apply NoDup_alt. intros k k' n Hk Hk'. apply Hns in Hk as [-> _], Hk' as [? _]. lia.
    + intros n p Hp. pose proof (ri_below _ _ H _ _ Hp) as Hlt. split.
      * intros [k Hk]%elem_of_list_lookup. apply Hns in Hk as [-> _]. lia.
      * rewrite lookup_union_r; [done|]. destruct (number (r_next s) ps !! n) as [p'|] eqn:En; [|done]. exfalso.
        assert (Forall (λ p, pt_ent p = e ∧ pt_stamp p = w_counter (r_world s)) ps) as Hf.
        { eapply Forall_impl; [exact Hps|]. intros ? (? & ? & _). done. }
        destruct (number_made (r_next s) _ e ps q Hq Hf) as (_ & _ & H3). apply H3 in En as (k & _ & ->). lia.
    + intros k n b Hk Hb. apply Hns in Hk as [-> [p Hp]]. exists p.
      pose proof (Forall_lookup_1 _ _ _ _ Hps Hp) as (H1 & H2 & _). split_and!; [|by rewrite <- Hq, list_lookup_fmap, Hp in Hb; injection Hb|done|done].
      erewrite lookup_union_Some_l; [done|]. by apply Hnum.
  - cbn [r_refs]. split; [done|]. destruct Hres as (q1 & i & mu & q2 & -> & Hp & Hfree & Hap & Hx). destruct x.
    + destruct Hx as (a & [Ha|Ha] & Hc).
      * left. apply elem_borrowed in Ha as (n & p & Hp' & ->). exists n, p, (i, mu). split; [done|]. split; [|done].
        apply elem_of_app. right. left.
      * right. apply elem_of_list_lookup in Ha as [k Hk]. exists k, (length q1), a, (i, mu).
        split; [by apply lookup_app_l_Some|]. split; [by rewrite list_lookup_middle|]. split; [|done].
        apply lookup_lt_Some in Hk. lia.
    + destruct Hx as [Hx _]. exists (i, mu). split; [apply elem_of_app; right; left|]. rewrite Hget. cbn [fst]. by rewrite Hx.
Qed.

(** A write through a [RefMut]: this component of this entity, nothing else; marked as modified at the time of
    the [get]. Inside of [RefMut::map] the mark stays. *)
Theorem C64_write ops s evs n p (flag : bool) (f : V -> V) :
  r_reach ops s evs -> r_refs s !! n = Some p -> pt_mut p = true ->
  ∃ s' v c c', r_step kind s (if flag then RWrite n f else RMap n f) = Ok (s', RDone) ∧ r_refs s' = r_refs s ∧
    deref (r_world s) p = Ok v ∧ deref (r_world s') p = Ok (f v) ∧
    (∀ x, gen x < U16_MAX -> x ≠ pt_ent p -> same_for kind (r_world s) (r_world s') x) ∧
    shows kind (r_world s) (pt_ent p) c ∧ shows kind (r_world s') (pt_ent p) c' ∧
    (∀ i, i ≠ pt_store p -> c' i = c i) ∧
    ∃ r, c (pt_store p) = Some r ∧ r_val r = v ∧
         c' (pt_store p) = Some (Row (f v) (r_ins r) (if flag then pt_stamp p else r_mod r)).
Proof.
  intros (g & _ & H)%r_reach_inv Hn Hm. pose proof (ri_live _ _ H _ _ Hn) as Hp.
  destruct (deref_ok _ _ _ (ri_world _ _ H) Hp) as (r & Hr & Hd).
  destruct (deref_write_ok _ _ p flag f (ri_world _ _ H) Hp) as (w' & Ew & HW' & K1 & K2 & _).
  assert (live_part w' (put_row (pt_ent p) (pt_store p) (written p flag f) (g_table g)) p) as Hp'.
  { eapply (live_keep (r_world s) w' (g_table g)); [done|done|by apply K1| |done]. by apply index_of_sparse. }
  destruct (deref_ok _ _ _ HW' Hp') as (r' & Hr' & Hd').
  rewrite put_row_cell, decide_True, Hr in Hr' by done. injection Hr' as <-.
  exists (RSt w' (r_refs s) (r_next s) (r_out s)), (r_val r), (t_cell (g_table g) (pt_ent p)),
    (t_cell (put_row (pt_ent p) (pt_store p) (written p flag f) (g_table g)) (pt_ent p)).
  cbn [r_world r_refs]. split_and!.
  - destruct flag; cbn [r_step]; rewrite Hn, Ew; done.
  - done.
  - done.
  - done.
  - intros x Hx Hne. eapply WR_same; [apply H|exact HW'|done|]. cbn. by rewrite lookup_alter_ne.
  - apply RInv_shows; [done|apply Hp].
  - eapply WR_shows; [exact HW'|apply Hp].
  - intros i Hi. rewrite put_row_cell, decide_False by naive_solver. done.
  - exists r. split; [done|]. split; [done|]. rewrite put_row_cell, decide_True, Hr by done. done.
Qed.
End props.

(** ** A case that meets the hypotheses *)
Section check.
Context {V : Type} (kind : N -> tracking).
(** The side conditions, decided. *)
Definition r_allowed_b (s : rst V) (o : rop V) : bool :=
  match o with
  | RGet _ e => gen e <? U16_MAX
  | RDrop n | RRead n | ROut n => bool_decide (is_Some (r_refs s !! n))
  | RWrite n _ | RMap n _ => match r_refs s !! n with Some p => pt_mut p | None => false end
  | RView o => match through_views o with Some _ => allowed_b (r_world s) o | None => false end
  | ROwn o => match map_to_list (r_refs s), r_out s with [], [] => allowed_b (r_world s) o | _, _ => false end
  end.
Fixpoint r_history_b (s : rst V) (ops : list (rop V)) : bool :=
  match ops with
  | [] => true
  | o :: ops => r_allowed_b s o && match r_step kind s o with Ok (s', _) => r_history_b s' ops | _ => true end
  end.
Lemma r_allowed_b_ok s o : r_allowed_b s o = true -> r_allowed s o.
Proof.
  destruct o as [q e|n|n|n f|n f|o|o|n]; cbn [r_allowed_b r_allowed].
  - apply N.ltb_lt.
  - apply bool_decide_eq_true.
  - apply bool_decide_eq_true.
  - destruct (r_refs s !! n) as [p|]; [|done]. by exists p.
  - destruct (r_refs s !! n) as [p|]; [|done]. by exists p.
  - destruct (through_views o); [|done]. intros H%allowed_b_ok. split; [by eexists|done].
  - destruct (map_to_list (r_refs s)) eqn:E; [|done]. apply map_to_list_empty_iff in E as ->.
    destruct (r_out s); [|done]. intros H%allowed_b_ok. done.
  - apply bool_decide_eq_true.
Qed.
Lemma r_history_b_ok ops : ∀ s, r_history_b s ops = true -> r_history kind s ops.
Proof.
  induction ops as [|o ops IH]; intros s; cbn [r_history_b r_history]; [done|].
  intros [H1 H2]%andb_true_iff. split; [by apply r_allowed_b_ok|]. intros s' ev E. rewrite E in H2. by apply IH.
Qed.
Definition r_state (ops : list (rop V)) : rst V := match r_run kind r_new ops with Ok (s, _) => s | _ => r_new end.
Definition r_answers (ops : list (rop V)) : list (revent V) :=
  match r_run kind r_new ops with Ok (_, evs) => evs | _ => [] end.
Lemma r_reach_b ops : r_history_b r_new ops = true -> r_reach kind ops (r_state ops) (r_answers ops).
Proof.
  intros H%r_history_b_ok. split; [done|]. destruct (C64_refines kind ops H) as (s & evs & g & E & _).
  unfold r_state, r_answers. by rewrite E.
Qed.
End check.

(** Two entities; a shared and an exclusive reference live at the same time, while other storages are used
    through views; refused calls in between. *)
Definition ex_refs : list (rop N) :=
  [ROwn (WAddEntity [(0, 10); (1, 11)]); RView (WAddEntity [(0, 20); (2, 22)]);
   RGet [(0, true); (1, false)] (0, 0);   (* references 0 and 1 *)
   RGet [(1, false)] (0, 0);              (* reference 2 *)
   RGet [(0, false)] (1, 0);              (* the storage is borrowed exclusively *)
   RGet [(1, false); (3, true)] (0, 0);   (* no such component *)
   RGet [(2, true); (2, false)] (1, 0);   (* clashes with itself *)
   RView (WViewDelete (1, 0) [2]); RView (WAddComponent (1, 0) [(3, 33)]);
   RView (WAddComponent (1, 0) [(3, 34); (1, 35)]);   (* borrowed *)
   RWrite 0 (λ v, v + 5); RRead 0; RRead 2; RDrop 0; RDrop 1;
   RGet [(0, true)] (1, 0);               (* reference 3 *)
   RMap 3 (λ v, v + 1); RRead 3].
Example ex_refs_reach :
  r_reach ex_kind ex_refs (r_state ex_kind ex_refs) (r_answers ex_kind ex_refs).
Proof. apply r_reach_b. vm_compute. done. Qed.
Example ex_refs_answers :
  r_answers ex_kind ex_refs =
    [RWorld (WId (0, 0)); RWorld (WId (1, 0)); RGot [0; 1]; RGot [2]; RErr GBorrow; RErr GMissing; RErr GBorrow;
     RWorld (WBool true); RWorld WUnit; RErr GBorrow; RDone; RVal 15; RVal 11; RDone; RDone; RGot [3]; RDone; RVal 21] ∧
  (* what is left: a shared reference to component 1 of the first entity, an exclusive one to component 0 of
     the second *)
  map_to_list (r_refs (r_state ex_kind ex_refs)) ≡ₚ
    [(2, Part 1 false (0, 0) 0 4); (3, Part 0 true (1, 0) 1 11)].
Proof. split; vm_compute; [done|apply perm_swap || done]. Qed.

(** * What does not hold *)

(** The type of [*world.get::<&T>(e)?] is [&T] with the lifetime of the borrow of the World, so it can be kept
    after the guard is gone. Then the component can be removed with views: a dangling reference. *)
Definition ex_dangling : list (rop N) :=
  [RView (WAddEntity [(0, 10)]); RGet [(0, false)] (0, 0); ROut 0; RDrop 0; RView (WViewDelete (0, 0) [0])].
Theorem C64_dangling_refuted :
  ¬ (∀ ops s evs p, r_reach (V := N) ex_kind ops s evs -> p ∈ r_out s -> ∃ v, deref (r_world s) p = Ok v).
Proof.
  intros H.
  destruct (H ex_dangling (r_state ex_kind ex_dangling) (r_answers ex_kind ex_dangling) (Part 0 false (0, 0) 0 2))
    as [v Hv].
  - apply r_reach_b. vm_compute. done.
  - vm_compute. left.
  - vm_compute in Hv. done.
Qed.
(** The closure given to [RefMut::map] can move the exclusive reference out; the guard can be dropped, and
    there is a second exclusive reference to the same component. *)
Definition ex_aliased : list (rop N) :=
  [RView (WAddEntity [(0, 10)]); RGet [(0, true)] (0, 0); ROut 0; RGet [(0, true)] (0, 0)].
Theorem C64_aliased_refuted :
  ¬ (∀ ops s evs p n p', r_reach (V := N) ex_kind ops s evs -> p ∈ r_out s -> r_refs s !! n = Some p' ->
     pt_mut p = true -> ¬ (pt_store p = pt_store p' ∧ pt_pos p = pt_pos p')).
Proof.
  intros H.
  apply (H ex_aliased (r_state ex_kind ex_aliased) (r_answers ex_kind ex_aliased)
           (Part 0 true (0, 0) 0 2) 1 (Part 0 true (0, 0) 0 3)).
  - apply r_reach_b. vm_compute. done.
  - vm_compute. left.
  - vm_compute. done.
  - done.
  - done.
Qed.

(** A write is marked with the time of the [get], not of the write: whoever looks between the two and asks
    later for what was modified since does not see it. *)
Definition ex_stamp : list (rop N) :=
  [RView (WAddEntity [(0, 10)]); RGet [(0, true)] (0, 0); RView (WViewDelete (0, 0) [1]); RWrite 0 (λ v, v + 1)].
Theorem C64_stamp_refuted :
  ¬ (∀ ops s evs n p f s', r_reach (V := N) ex_kind ops s evs -> r_refs s !! n = Some p -> pt_mut p = true ->
     k_track_modification (ex_kind (pt_store p)) = true -> r_step ex_kind s (RWrite n f) = Ok (s', RDone) ->
     (* seen by a view made now, from a system whose last run took the last timestamp before the write *)
     is_modified (store_or_new ex_kind (w_stores (r_world s')) (pt_store p)) (pt_ent p)
       (w_counter (r_world s) - 1) (w_counter (r_world s')) = Ok true).
Proof.
  intros H. set (ops := take 3 ex_stamp).
  specialize (H ops (r_state ex_kind ops) (r_answers ex_kind ops) 0 (Part 0 true (0, 0) 0 2)
                (λ v, v + 1) (r_state ex_kind ex_stamp)).
  assert (Ok true = Ok false :> res bool) as E; [|done]. rewrite <- H.
  - vm_compute. done.
  - apply r_reach_b. vm_compute. done.
  - vm_compute. done.
  - done.
  - done.
  - vm_compute. done.
Qed.

Print Assumptions C64_refines.
Print Assumptions C64_exclusive.
Print Assumptions C64_live.
Print Assumptions C64_get.
Print Assumptions C64_write.
Print Assumptions C64_dangling_refuted.
Print Assumptions C64_aliased_refuted.
Print Assumptions C64_stamp_refuted.
