(** Invariant of the concurrent storage table. *)
From stdpp Require Import prelude list gmap.
From Coq Require Import NArith.
From Verif Require Import EntityId Conc ConcSpec.
Open Scope N_scope.

(** ** Invariant *)
Definition holds_r (p : cpc) : bool :=
  match p with PLooking _ _ _ | PBorrowR _ _ _ | PGotR _ | PMissR | PDropR _ _ => true | _ => false end.
Definition holds_w (p : cpc) : bool :=
  match p with
  | PCreating _ _ | PBorrowW _ _ _ | PGotW _ | PRemoving _ | PTryW _ _ | PLocked _ _ _
  | PUnlocked _ _ | PRemoved _ | PRetW _ | PAdding _ => true
  | _ => false
  end.
(** The storage a call is about. *)
Definition pc_sid (p : cpc) : option N :=
  match p with
  | PAccess sid _ _ | PLooking sid _ _ | PBorrowR sid _ _ | PDropR sid _ | PCreate sid _
  | PCreating sid _ | PBorrowW sid _ _ | PRemove sid | PRemoving sid | PTryW sid _
  | PLocked sid _ _ | PUnlocked sid _ | PAdd sid | PAdding sid => Some sid
  | _ => None
  end.

(** A view that is used by at most one place: its cell is the current one of [sid]. *)
Definition view_of (s : cst) (sid v : N) : Prop :=
  exists c e, views s !! v = Some (c, e) /\ table s !! sid = Some c.

Definition cpc_ok (s : cst) (o : cobs) (t : N) (p : cpc) : Prop :=
  match p with
  | PBorrowR sid c _ | PBorrowW sid c _ | PTryW sid c => table s !! sid = Some c
  | PGotR (Some v) | PGotW (Some v) =>
      exists sid, o_wait o !! t = Some sid /\ view_of s sid v /\ o_view o !! v = None
  | PLocked sid c v =>
      table s !! sid = Some c /\ views s !! v = Some (c, true) /\ o_view o !! v = None /\
      forall v' e, views s !! v' = Some (c, e) -> v' = v
  | PUnlocked sid c => table s !! sid = Some c /\ forall v' e, views s !! v' <> Some (c, e)
  | PRemoved c =>
      c ∉ freed s /\ c < next_cell s /\ (forall sid, table s !! sid <> Some c) /\
      exists sid, o_wait o !! t = Some sid /\ table s !! sid = None /\
                  contents s !! c = Some (log o sid)
  | _ => True
  end.

Record CI (s : cst) (o : cobs) : Prop := {
  ci_r : forall t, t ∈ readers s <-> exists p, pcs s !! t = Some p /\ holds_r p = true;
  ci_w : forall t, writer s = Some t <-> exists p, pcs s !! t = Some p /\ holds_w p = true;
  ci_excl : forall t, writer s = Some t -> readers s = ∅;
  ci_table : forall sid c, table s !! sid = Some c ->
    c ∉ freed s /\ c < next_cell s /\ contents s !! c = Some (log o sid);
  ci_inj : forall sid sid' c, table s !! sid = Some c -> table s !! sid' = Some c -> sid = sid';
  ci_none : forall sid, table s !! sid = None -> log o sid = [] \/
    exists t c, pcs s !! t = Some (PRemoved c) /\ o_wait o !! t = Some sid;
  ci_freed : forall c, c ∈ freed s -> c < next_cell s;
  ci_views : forall v c e, views s !! v = Some (c, e) ->
    v < next_view s /\ exists sid, table s !! sid = Some c;
  ci_uview : forall v sid, o_view o !! v = Some sid ->
    view_of s sid v /\ forall t p, pcs s !! t = Some p -> inside v p = false;
  ci_user : forall v, is_Some (views s !! v) -> (forall t p, pcs s !! t = Some p -> inside v p = false) ->
    is_Some (o_view o !! v);
  ci_inside : forall v t1 t2 p1 p2, pcs s !! t1 = Some p1 -> pcs s !! t2 = Some p2 ->
    inside v p1 = true -> inside v p2 = true -> t1 = t2;
  ci_pc : forall t p, pcs s !! t = Some p -> cpc_ok s o t p;
  ci_sid : forall t p sid, pcs s !! t = Some p -> pc_sid p = Some sid -> o_wait o !! t = Some sid;
  ci_wait : forall t p, pcs s !! t = Some p -> is_Some (o_wait o !! t);
  ci_ub : ub s = false
}.

Lemma cobserve_app tr e : cobserve (tr ++ [e]) = co_step (cobserve tr) e.
Proof. unfold cobserve. by rewrite fold_left_app. Qed.

Lemma CI_init : CI c_init co_init.
Proof.
  split; cbn [c_init co_init readers writer table freed contents views next_cell next_view pcs ub
              o_wait o_view o_log]; try done.
  - intros t. split; [set_solver|]. intros (p & Hp & _). by rewrite lookup_empty in Hp.
  - intros t. split; [done|]. intros (p & Hp & _). by rewrite lookup_empty in Hp.
  - intros sid _. by left.
  - intros v [? Hv]. by rewrite lookup_empty in Hv.
Qed.

Lemma user_view_spec v s c e :
  user_view v s = Some (c, e) <->
  views s !! v = Some (c, e) /\ forall t p, pcs s !! t = Some p -> inside v p = false.
Proof.
  unfold user_view.
  destruct (existsb (fun kv => inside v kv.2) (map_to_list (pcs s))) eqn:He.
  - split; [done|]. intros [_ Hn]. apply existsb_exists in He as ([t p] & Hin & Hi).
    apply elem_of_list_In, elem_of_map_to_list in Hin. cbn [snd] in Hi.
    by rewrite (Hn t p Hin) in Hi.
  - split.
    + intros Hv. split; [done|]. intros t p Hp. destruct (inside v p) eqn:Hi; [|done].
      assert (existsb (fun kv => inside v kv.2) (map_to_list (pcs s)) = true); [|congruence].
      apply existsb_exists. exists (t, p). split; [|done].
      by apply elem_of_list_In, elem_of_map_to_list.
    + by intros [? _].
Qed.

Lemma can_borrow_spec c excl s :
  can_borrow c excl s = true <->
  forall v c' e, views s !! v = Some (c', e) -> c' = c -> excl || e = false.
Proof.
  unfold can_borrow. rewrite negb_true_iff. split.
  - intros He v c' e Hv ->. destruct (excl || e) eqn:Hx; [|done].
    assert (existsb (fun kv => conflicting c excl kv.2) (map_to_list (views s)) = true); [|congruence].
    apply existsb_exists. exists (v, (c, e)). split; [by apply elem_of_list_In, elem_of_map_to_list|].
    unfold conflicting. cbn [fst snd]. by rewrite N.eqb_refl.
  - intros Hv. destruct (existsb _ _) eqn:He; [|done].
    apply existsb_exists in He as ([v [c' e]] & Hin & Hc). apply elem_of_list_In, elem_of_map_to_list in Hin.
    unfold conflicting in Hc. cbn [fst snd] in Hc. apply andb_prop in Hc as [Hc1 Hc2].
    apply N.eqb_eq in Hc1. by rewrite (Hv v c' e Hin Hc1) in Hc2.
Qed.

(** ** Moves that only change the program counter of one thread and the lock *)
Record lock_ok (s s' : cst) (t : N) (p : option cpc) : Prop := {
  lo_r : forall t', t' <> t -> (t' ∈ readers s' <-> t' ∈ readers s);
  lo_rt : t ∈ readers s' <-> exists q, p = Some q /\ holds_r q = true;
  lo_w : forall t', t' <> t -> (writer s' = Some t' <-> writer s = Some t');
  lo_wt : writer s' = Some t <-> exists q, p = Some q /\ holds_w q = true;
  lo_excl : forall t, writer s' = Some t -> readers s' = ∅
}.
Definition pcs_move (s s' : cst) (t : N) (p : option cpc) : Prop :=
  pcs s' !! t = p /\ forall t', t' <> t -> pcs s' !! t' = pcs s !! t'.
Definition opt_inside (v : N) (p : option cpc) : bool :=
  match p with Some q => inside v q | None => false end.

Lemma pcs_move_upd s0 s t p : pcs s0 = pcs s -> pcs_move s (upd_pc t p s0) t (Some p).
Proof.
  intros E. split; cbn [upd_pc pcs]; [by rewrite lookup_insert|].
  intros t' Hne. rewrite lookup_insert_ne by done. by rewrite E.
Qed.
Lemma pcs_move_end s0 s t : pcs s0 = pcs s -> pcs_move s (end_pc t s0) t None.
Proof.
  intros E. split; cbn [end_pc pcs]; [by rewrite lookup_delete|].
  intros t' Hne. rewrite lookup_delete_ne by done. by rewrite E.
Qed.

(** The lock fields of the invariant. *)
Lemma CI_lock s s' o t p :
  CI s o -> lock_ok s s' t p -> pcs_move s s' t p ->
  (forall t, t ∈ readers s' <-> exists p, pcs s' !! t = Some p /\ holds_r p = true) /\
  (forall t, writer s' = Some t <-> exists p, pcs s' !! t = Some p /\ holds_w p = true).
Proof.
  intros HI [H1 H2 H3 H4 _] [Hp Ho]. split; intros t'.
  - destruct (decide (t' = t)) as [->|Hne].
    + rewrite Hp. exact H2.
    + rewrite H1, Ho by done. apply (ci_r s o HI).
  - destruct (decide (t' = t)) as [->|Hne].
    + rewrite Hp. exact H4.
    + rewrite H3, Ho by done. apply (ci_w s o HI).
Qed.

(** The views inside of calls do not change. *)
Lemma CI_inside s s' o t p :
  CI s o -> pcs_move s s' t p ->
  (forall v, opt_inside v p = true -> opt_inside v (pcs s !! t) = true) ->
  forall v t1 t2 p1 p2, pcs s' !! t1 = Some p1 -> pcs s' !! t2 = Some p2 ->
    inside v p1 = true -> inside v p2 = true -> t1 = t2.
Proof.
  intros HI [Hp Ho] Hin.
  assert (forall v t1 p1, pcs s' !! t1 = Some p1 -> inside v p1 = true ->
            exists q, pcs s !! t1 = Some q /\ inside v q = true) as Hpre.
  { intros v t1 p1 H1 Hi. destruct (decide (t1 = t)) as [->|Hne].
    - rewrite H1 in Hp. rewrite <- Hp in Hin. specialize (Hin v Hi).
      destruct (pcs s !! t) as [q|]; [|done]. by exists q.
    - rewrite Ho in H1 by done. by exists p1. }
  intros v t1 t2 p1 p2 H1 H2 Hi1 Hi2.
  destruct (Hpre v t1 p1 H1 Hi1) as (q1 & Hq1 & Hj1). destruct (Hpre v t2 p2 H2 Hi2) as (q2 & Hq2 & Hj2).
  exact (ci_inside s o HI v t1 t2 q1 q2 Hq1 Hq2 Hj1 Hj2).
Qed.
Lemma not_inside_move s s' t p v :
  pcs_move s s' t p -> (opt_inside v p = true -> opt_inside v (pcs s !! t) = true) ->
  (forall t' p', pcs s !! t' = Some p' -> inside v p' = false) ->
  (forall t' p', pcs s' !! t' = Some p' -> inside v p' = false).
Proof.
  intros [Hp Ho] Hin Hn t' p' Hp'. destruct (decide (t' = t)) as [->|Hne].
  - rewrite Hp' in Hp. rewrite <- Hp in Hin. destruct (inside v p') eqn:Hi; [|done].
    specialize (Hin Hi). destruct (pcs s !! t) as [q|] eqn:Hq; [|done]. cbn [opt_inside] in Hin.
    by rewrite (Hn t q Hq) in Hin.
  - rewrite Ho in Hp' by done. by apply (Hn t' p').
Qed.

Lemma CI_move s s' o o' t p :
  CI s o ->
  table s' = table s -> freed s' = freed s -> contents s' = contents s -> views s' = views s ->
  next_cell s' = next_cell s -> next_view s' = next_view s -> ub s' = ub s ->
  o_view o' = o_view o -> o_log o' = o_log o ->
  (forall t', t' <> t -> o_wait o' !! t' = o_wait o !! t') ->
  pcs_move s s' t p -> lock_ok s s' t p ->
  (forall v, opt_inside v p = opt_inside v (pcs s !! t)) ->
  (forall c, pcs s !! t <> Some (PRemoved c)) ->
  (forall q, p = Some q -> cpc_ok s' o' t q /\ is_Some (o_wait o' !! t) /\
     forall sid, pc_sid q = Some sid -> o_wait o' !! t = Some sid) ->
  CI s' o'.
Proof.
  intros HI Et Ef Ec Ev Enc Env Eu Eov Eol Hw Hm Hl Hin Hnr Hq.
  destruct (CI_lock s s' o t p HI Hl Hm) as [Hlr Hlw].
  assert (forall sid, log o' sid = log o sid) as Elog by (intros; unfold log; by rewrite Eol).
  assert (forall v, opt_inside v p = true -> opt_inside v (pcs s !! t) = true) as Hin1
    by (intros v; by rewrite Hin).
  pose proof (CI_inside s s' o t p HI Hm Hin1) as Hins.
  assert (forall v, (forall t' p', pcs s' !! t' = Some p' -> inside v p' = false) ->
            (forall t' p', pcs s !! t' = Some p' -> inside v p' = false)) as Hback.
  { intros v Hn t' p' Hp'. destruct Hm as [Hp Ho]. destruct (decide (t' = t)) as [->|Hne].
    - specialize (Hin v). rewrite Hp' in Hin. cbn [opt_inside] in Hin.
      destruct (inside v p') eqn:Hi; [|done].
      destruct p as [q|]; [|done]. cbn [opt_inside] in Hin. by rewrite (Hn t q Hp) in Hin.
    - rewrite <- Ho in Hp' by done. by apply (Hn t' p'). }
  destruct Hm as [Hp Ho].
  split; try done; rewrite ?Et, ?Ef, ?Ec, ?Ev, ?Enc, ?Env, ?Eu, ?Eov.
  - exact (lo_excl _ _ _ _ Hl).
  - intros sid c Hc. rewrite Elog. by apply (ci_table s o HI).
  - apply (ci_inj s o HI).
  - intros sid Hs. rewrite Elog. destruct (ci_none s o HI sid Hs) as [|(t1 & c & Ht1 & Hw1)]; [by left|].
    right. exists t1, c. assert (t1 <> t) as Hne by (intros ->; by apply (Hnr c)).
    rewrite Ho, Hw by done. done.
  - apply (ci_freed s o HI).
  - apply (ci_views s o HI).
  - intros v sid Hv. destruct (ci_uview s o HI v sid Hv) as [H1 H2]. split.
    + unfold view_of. by rewrite Ev, Et.
    + apply (not_inside_move s s' t p v); [by split|by apply Hin1|done].
  - intros v Hv Hn. apply (ci_user s o HI v Hv). by apply Hback.
  - intros t1 p1 H1. destruct (decide (t1 = t)) as [->|Hne].
    + rewrite Hp in H1. by destruct (Hq p1 H1).
    + rewrite Ho in H1 by done. pose proof (ci_pc s o HI t1 p1 H1) as Hok.
      unfold cpc_ok, view_of in *. rewrite ?Et, ?Ef, ?Ec, ?Ev, ?Enc, ?Eov, ?(Hw t1 Hne).
      destruct p1; try done. by setoid_rewrite Elog.
  - intros t1 p1 sid H1 Hs. destruct (decide (t1 = t)) as [->|Hne].
    + rewrite Hp in H1. destruct (Hq p1 H1) as (_ & _ & Hx). by apply Hx.
    + rewrite Ho in H1 by done. rewrite Hw by done. exact (ci_sid s o HI t1 p1 sid H1 Hs).
  - intros t1 p1 H1. destruct (decide (t1 = t)) as [->|Hne].
    + rewrite Hp in H1. by destruct (Hq p1 H1) as (_ & Hx & _).
    + rewrite Ho in H1 by done. rewrite Hw by done. exact (ci_wait s o HI t1 p1 H1).
  - exact (ci_ub s o HI).
Qed.

(** Lock transitions. *)
Definition opt_r (p : option cpc) : bool := match p with Some q => holds_r q | None => false end.
Definition opt_w (p : option cpc) : bool := match p with Some q => holds_w q | None => false end.
Lemma opt_r_spec p : opt_r p = true <-> exists q, p = Some q /\ holds_r q = true.
Proof. destruct p as [q|]; cbn [opt_r]; naive_solver. Qed.
Lemma opt_w_spec p : opt_w p = true <-> exists q, p = Some q /\ holds_w q = true.
Proof. destruct p as [q|]; cbn [opt_w]; naive_solver. Qed.
Lemma r_spec s o t : CI s o -> t ∈ readers s <-> opt_r (pcs s !! t) = true.
Proof. intros HI. rewrite (ci_r s o HI), opt_r_spec. done. Qed.
Lemma w_spec s o t : CI s o -> writer s = Some t <-> opt_w (pcs s !! t) = true.
Proof. intros HI. rewrite (ci_w s o HI), opt_w_spec. done. Qed.

Lemma lock_same s s' o t q :
  CI s o -> readers s' = readers s -> writer s' = writer s ->
  opt_r q = opt_r (pcs s !! t) -> opt_w q = opt_w (pcs s !! t) ->
  lock_ok s s' t q.
Proof.
  intros HI Er Ew H1 H2. split; rewrite ?Er, ?Ew; try done.
  - by rewrite (r_spec s o t HI), <- H1, opt_r_spec.
  - by rewrite (w_spec s o t HI), <- H2, opt_w_spec.
  - apply (ci_excl s o HI).
Qed.
Lemma lock_acquire_r s s' o t q :
  CI s o -> writer s = None -> readers s' = {[t]} ∪ readers s -> writer s' = None ->
  opt_r q = true -> opt_w q = false -> lock_ok s s' t q.
Proof.
  intros HI Hw Er Ew H1 H2. split; rewrite ?Er, ?Ew; try done.
  - set_solver.
  - rewrite <- opt_r_spec, H1. set_solver.
  - intros. by rewrite Hw.
  - by rewrite <- opt_w_spec, H2.
Qed.
Lemma lock_release_r s s' o t q :
  CI s o -> readers s' = readers s ∖ {[t]} -> writer s' = writer s ->
  opt_r (pcs s !! t) = true -> opt_r q = false -> opt_w q = false -> lock_ok s s' t q.
Proof.
  intros HI Er Ew H0 H1 H2. split; rewrite ?Er, ?Ew; try done.
  - set_solver.
  - rewrite <- opt_r_spec, H1. set_solver.
  - rewrite <- opt_w_spec, H2. split; [|done]. intros Hw%(w_spec s o t HI).
    destruct (pcs s !! t) as [[]|]; done.
  - intros t' Hw. rewrite (ci_excl s o HI t' Hw). set_solver.
Qed.
Lemma lock_acquire_w s s' o t q :
  CI s o -> writer s = None -> readers s = ∅ -> readers s' = ∅ -> writer s' = Some t ->
  opt_r q = false -> opt_w q = true -> lock_ok s s' t q.
Proof.
  intros HI Hw Hr Er Ew H1 H2. split; rewrite ?Er, ?Ew; try done.
  - intros. by rewrite Hr.
  - rewrite <- opt_r_spec, H1. set_solver.
  - intros t' Hne. rewrite Hw. naive_solver.
  - rewrite <- opt_w_spec, H2. done.
Qed.
Lemma lock_release_w s s' o t q :
  CI s o -> readers s' = readers s -> writer s' = None ->
  opt_w (pcs s !! t) = true -> opt_r q = false -> opt_w q = false -> lock_ok s s' t q.
Proof.
  intros HI Er Ew H0 H1 H2. apply (w_spec s o t HI) in H0.
  split; rewrite ?Er, ?Ew; try done.
  - rewrite (ci_excl s o HI t H0). rewrite <- opt_r_spec, H1. set_solver.
  - intros t' Hne. rewrite H0. naive_solver.
  - by rewrite <- opt_w_spec, H2.
Qed.

(** While a thread holds the write lock no other thread holds the lock. *)
Lemma writer_alone s o t t' p :
  CI s o -> opt_w (pcs s !! t) = true -> t' <> t -> pcs s !! t' = Some p ->
  holds_r p = false /\ holds_w p = false.
Proof.
  intros HI Hw Hne Hp. apply (w_spec s o t HI) in Hw. split.
  - destruct (holds_r p) eqn:Hr; [|done].
    assert (t' ∈ readers s) as Hin by (apply (ci_r s o HI); by exists p).
    rewrite (ci_excl s o HI t Hw) in Hin. set_solver.
  - destruct (holds_w p) eqn:Hr; [|done].
    assert (writer s = Some t') as Hw' by (apply (ci_w s o HI); by exists p). congruence.
Qed.
(** Calls that do not hold the lock have no obligation. *)
Lemma idle_ok s o t p : holds_r p = false -> holds_w p = false -> cpc_ok s o t p.
Proof. by destruct p. Qed.
Lemma idle_inside v p : holds_r p = false -> holds_w p = false -> inside v p = false.
Proof. by destruct p. Qed.

Lemma touch_id c s : c ∉ freed s -> touch c s = s.
Proof.
  intros Hc. destruct s. unfold touch; cbn in *. rewrite bool_decide_eq_false_2 by done.
  by rewrite orb_false_r.
Qed.
Lemma inside_view s o t p v : CI s o -> pcs s !! t = Some p -> inside v p = true ->
  is_Some (views s !! v) /\ o_view o !! v = None.
Proof.
  intros HI Hp Hi. pose proof (ci_pc s o HI t p Hp) as Hok.
  destruct p as [| | |[v'|]| | | | | |[v'|]| | | |sid c v'| | | | |]; cbn [inside cpc_ok] in *;
    try done; apply N.eqb_eq in Hi as <-.
  - destruct Hok as (sid & _ & (c & e & Hv & _) & Ho). split; [by eexists|done].
  - destruct Hok as (sid & _ & (c & e & Hv & _) & Ho). split; [by eexists|done].
  - destruct Hok as (_ & Hv & Ho & _). split; [by eexists|done].
Qed.
Lemma view_lt s o v : CI s o -> is_Some (views s !! v) -> v < next_view s.
Proof. intros HI [[c e] Hv]. by destruct (ci_views s o HI v c e Hv). Qed.

(** A successful borrow attempt by a thread that holds the lock. *)
Lemma CI_borrow s s' o t p sid c excl q :
  CI s o -> pcs s !! t = Some p -> (holds_r p = true \/ holds_w p = true) ->
  (forall v, inside v p = false) -> (forall c, p <> PRemoved c) ->
  table s !! sid = Some c -> o_wait o !! t = Some sid ->
  s' = upd_pc t q (set_views (<[next_view s := (c, excl)]> (views s)) (next_view s + 1) s) ->
  holds_r q = holds_r p -> holds_w q = holds_w p ->
  (forall v, inside v q = (v =? next_view s)) ->
  (forall sid', pc_sid q = Some sid' -> sid' = sid) ->
  cpc_ok s' o t q ->
  CI s' o.
Proof.
  intros HI Hp Hh Hin Hnr Ht Hw Es Hr1 Hw1 Hiq Hsq Hq.
  assert (pcs_move s s' t (Some q)) as Hm by (subst s'; by apply pcs_move_upd).
  assert (lock_ok s s' t (Some q)) as Hl.
  { apply (lock_same s s' o); subst s'; try done; rewrite Hp; done. }
  destruct (CI_lock s s' o t (Some q) HI Hl Hm) as [Hlr Hlw].
  assert (views s !! next_view s = None) as Hfr.
  { destruct (views s !! next_view s) eqn:E; [|done].
    pose proof (view_lt s o _ HI (ltac:(by eexists))). lia. }
  assert (views s' = <[next_view s := (c, excl)]> (views s)) as Ev by (by subst s').
  assert (table s' = table s) as Et by (by subst s').
  assert (freed s' = freed s) as Ef by (by subst s').
  assert (contents s' = contents s) as Ec by (by subst s').
  assert (next_cell s' = next_cell s) as Enc by (by subst s').
  assert (next_view s' = next_view s + 1) as Env by (by subst s').
  assert (ub s' = ub s) as Eu by (by subst s').
  destruct Hm as [Hpt Hpo].
  assert (forall v x, views s !! v = Some x -> views s' !! v = Some x) as Hkeep.
  { intros v x Hv. rewrite Ev, lookup_insert_ne; [done|]. intros <-. congruence. }
  split; try done; rewrite ?Et, ?Ef, ?Ec, ?Enc, ?Env, ?Eu.
  - exact (lo_excl _ _ _ _ Hl).
  - apply (ci_table s o HI).
  - apply (ci_inj s o HI).
  - intros sid' Hs. destruct (ci_none s o HI sid' Hs) as [|(t1 & c1 & Ht1 & Hw1')]; [by left|].
    right. exists t1, c1. assert (t1 <> t) as Hne by (intros ->; rewrite Hp in Ht1; naive_solver).
    by rewrite Hpo.
  - apply (ci_freed s o HI).
  - intros v c' e' Hv. rewrite Ev in Hv. destruct (decide (v = next_view s)) as [->|Hne].
    + rewrite lookup_insert in Hv. injection Hv as <- <-. split; [lia|]. by exists sid.
    + rewrite lookup_insert_ne in Hv by done. destruct (ci_views s o HI v c' e' Hv). split; [lia|done].
  - intros v sid' Hv. destruct (ci_uview s o HI v sid' Hv) as [(c1 & e1 & H1 & H2) H3]. split.
    + exists c1, e1. split; [by apply Hkeep|by rewrite Et].
    + intros t1 p1 Hp1. destruct (decide (t1 = t)) as [->|Hne].
      * rewrite Hpt in Hp1. injection Hp1 as <-. rewrite Hiq.
        apply N.eqb_neq. intros ->. congruence.
      * rewrite Hpo in Hp1 by done. by apply (H3 t1).
  - intros v Hv Hn. rewrite Ev in Hv. destruct (decide (v = next_view s)) as [->|Hne].
    + specialize (Hn t q Hpt). by rewrite Hiq, N.eqb_refl in Hn.
    + rewrite lookup_insert_ne in Hv by done. apply (ci_user s o HI v Hv).
      intros t1 p1 Hp1. destruct (decide (t1 = t)) as [->|Hne1].
      * rewrite Hp in Hp1. by injection Hp1 as <-.
      * rewrite <- Hpo in Hp1 by done. by apply (Hn t1).
  - assert (forall v t1 p1, pcs s' !! t1 = Some p1 -> inside v p1 = true ->
              (v = next_view s /\ t1 = t) \/ (v <> next_view s /\ pcs s !! t1 = Some p1)) as Hc.
    { intros v t1 p1 Hp1 Hi. destruct (decide (t1 = t)) as [->|Hne].
      - rewrite Hpt in Hp1. injection Hp1 as <-. rewrite Hiq in Hi. apply N.eqb_eq in Hi. by left.
      - rewrite Hpo in Hp1 by done. right. split; [|done].
        destruct (inside_view s o t1 p1 v HI Hp1 Hi) as [H1 _].
        pose proof (view_lt s o v HI H1). lia. }
    intros v t1 t2 p1 p2 H1 H2 Hi1 Hi2.
    destruct (Hc v t1 p1 H1 Hi1) as [[Hv1 ->]|[Hn1 Hs1]];
    destruct (Hc v t2 p2 H2 Hi2) as [[Hv2 ->]|[Hn2 Hs2]]; try done.
    exact (ci_inside s o HI v t1 t2 p1 p2 Hs1 Hs2 Hi1 Hi2).
  - intros t1 p1 H1. destruct (decide (t1 = t)) as [->|Hne].
    + rewrite Hpt in H1. by injection H1 as <-.
    + rewrite Hpo in H1 by done. pose proof (ci_pc s o HI t1 p1 H1) as Hok.
      assert (holds_w p1 = true -> False) as Hnw.
      { intros Hw'. destruct (writer_alone s o t1 t p HI) as [Ha Hb]; try done.
        - by rewrite H1.
        - rewrite Ha, Hb in Hh. naive_solver. }
      destruct p1 as [| | |[v'|]| | | | | |[v'|]| | | |sid1 c1 v'| | | | |];
        cbn [cpc_ok holds_w] in *; try done; try (by destruct Hnw); rewrite ?Et; try done.
      destruct Hok as (sid1 & Hs1 & (c1 & e1 & Hv1 & Ht1) & Ho1).
      exists sid1. split_and!; [done| |done]. exists c1, e1. rewrite Et. split; [by apply Hkeep|done].
  - intros t1 p1 sid1 H1 Hs. destruct (decide (t1 = t)) as [->|Hne].
    + rewrite Hpt in H1. injection H1 as <-. by rewrite (Hsq sid1 Hs).
    + rewrite Hpo in H1 by done. exact (ci_sid s o HI t1 p1 sid1 H1 Hs).
  - intros t1 p1 H1. destruct (decide (t1 = t)) as [->|Hne].
    + by eexists.
    + rewrite Hpo in H1 by done. exact (ci_wait s o HI t1 p1 H1).
  - exact (ci_ub s o HI).
Qed.

(** A view is returned to the user. *)
Lemma CI_return s s' o t p v sid :
  CI s o -> pcs s !! t = Some p -> (p = PGotR (Some v) \/ p = PGotW (Some v)) ->
  o_wait o !! t = Some sid ->
  table s' = table s -> freed s' = freed s -> contents s' = contents s -> views s' = views s ->
  next_cell s' = next_cell s -> next_view s' = next_view s -> ub s' = ub s ->
  pcs_move s s' t None -> lock_ok s s' t None ->
  CI s' {| o_wait := o_wait o; o_view := <[v := sid]> (o_view o); o_log := o_log o |}.
Proof.
  intros HI Hp Hpc Hw Et Ef Ec Ev Enc Env Eu Hm Hl.
  destruct (CI_lock s s' o t None HI Hl Hm) as [Hlr Hlw].
  assert (inside v p = true) as Hi by (destruct Hpc as [-> | ->]; cbn [inside]; apply N.eqb_refl).
  assert (forall v', inside v' p = true -> v' = v) as Hi'.
  { intros v'. destruct Hpc as [-> | ->]; cbn [inside]; apply N.eqb_eq. }
  assert (view_of s sid v) as Hvo.
  { pose proof (ci_pc s o HI t p Hp) as Hok. destruct Hpc as [-> | ->]; cbn [cpc_ok] in Hok;
      destruct Hok as (sid' & Hs' & Hv' & _); congruence. }
  destruct (Hm) as [Hpt Hpo].
  assert (forall t1 p1, pcs s' !! t1 = Some p1 -> t1 <> t /\ pcs s !! t1 = Some p1) as Hback.
  { intros t1 p1 H1. destruct (decide (t1 = t)) as [->|Hne]; [congruence|].
    split; [done|]. by rewrite <- Hpo. }
  split; try done; cbn [o_view o_wait o_log]; rewrite ?Et, ?Ef, ?Ec, ?Ev, ?Enc, ?Env, ?Eu.
  - exact (lo_excl _ _ _ _ Hl).
  - apply (ci_table s o HI).
  - apply (ci_inj s o HI).
  - intros sid' Hs. destruct (ci_none s o HI sid' Hs) as [|(t1 & c1 & Ht1 & Hw1')]; [by left|].
    right. exists t1, c1.
    assert (t1 <> t) as Hne by (intros ->; rewrite Hp in Ht1; destruct Hpc; naive_solver).
    by rewrite Hpo.
  - apply (ci_freed s o HI).
  - apply (ci_views s o HI).
  - intros v' sid' Hv'. destruct (decide (v' = v)) as [->|Hne].
    + rewrite lookup_insert in Hv'. injection Hv' as <-. split.
      * unfold view_of. by rewrite Ev, Et.
      * intros t1 p1 H1. destruct (Hback t1 p1 H1) as [Hne H1'].
        destruct (inside v p1) eqn:Hi1; [|done].
        destruct Hne. exact (ci_inside s o HI v t1 t p1 p H1' Hp Hi1 Hi).
    + rewrite lookup_insert_ne in Hv' by done. destruct (ci_uview s o HI v' sid' Hv') as [H1 H2]. split.
      * unfold view_of. by rewrite Ev, Et.
      * intros t1 p1 H3. destruct (Hback t1 p1 H3) as [_ H3']. by apply (H2 t1).
  - intros v' Hv' Hn. destruct (decide (v' = v)) as [->|Hne]; [by rewrite lookup_insert|].
    rewrite lookup_insert_ne by done. apply (ci_user s o HI v' Hv').
    intros t1 p1 H1. destruct (decide (t1 = t)) as [->|Hne1].
    + rewrite Hp in H1. injection H1 as <-. destruct (inside v' p) eqn:E; [|done].
      by rewrite (Hi' v' E) in Hne.
    + rewrite <- Hpo in H1 by done. by apply (Hn t1).
  - intros v' t1 t2 p1 p2 H1 H2. destruct (Hback t1 p1 H1) as [_ H1'].
    destruct (Hback t2 p2 H2) as [_ H2']. by apply (ci_inside s o HI v' t1 t2 p1 p2).
  - intros t1 p1 H1. destruct (Hback t1 p1 H1) as [Hne H1'].
    pose proof (ci_pc s o HI t1 p1 H1') as Hok.
    assert (inside v p1 = false) as Hnv.
    { destruct (inside v p1) eqn:Hi1; [|done]. destruct Hne.
      exact (ci_inside s o HI v t1 t p1 p H1' Hp Hi1 Hi). }
    destruct p1 as [| | |[v'|]| | | | | |[v'|]| | | |sid1 c1 v'|sid1 c1|c1| | |];
      cbn [cpc_ok inside o_view o_wait] in *; try done; unfold view_of in *;
      rewrite ?Et, ?Ev, ?Ef, ?Ec, ?Enc; try done;
      apply N.eqb_neq in Hnv; rewrite lookup_insert_ne by done; done.
  - intros t1 p1 sid1 H1 Hs. destruct (Hback t1 p1 H1) as [_ H1']. exact (ci_sid s o HI t1 p1 sid1 H1' Hs).
  - intros t1 p1 H1. destruct (Hback t1 p1 H1) as [_ H1']. exact (ci_wait s o HI t1 p1 H1').
  - exact (ci_ub s o HI).
Qed.

(** A user drops a view. *)
Lemma CI_drop s o v :
  CI s o -> is_Some (views s !! v) ->
  (forall t p, pcs s !! t = Some p -> inside v p = false) ->
  CI (set_views (delete v (views s)) (next_view s) s)
     {| o_wait := o_wait o; o_view := delete v (o_view o); o_log := o_log o |}.
Proof.
  intros HI Hv Hn. split; cbn [set_views readers writer table freed contents views next_cell next_view
    pcs ub o_wait o_view o_log].
  - apply (ci_r s o HI).
  - apply (ci_w s o HI).
  - apply (ci_excl s o HI).
  - apply (ci_table s o HI).
  - apply (ci_inj s o HI).
  - apply (ci_none s o HI).
  - apply (ci_freed s o HI).
  - intros v' c e Hv'. apply lookup_delete_Some in Hv' as [_ Hv']. by apply (ci_views s o HI v' c e).
  - intros v' sid Hv'. apply lookup_delete_Some in Hv' as [Hne Hv'].
    destruct (ci_uview s o HI v' sid Hv') as [(c & e & H1 & H2) H3]. split; [|done].
    exists c, e. cbn [set_views views table]. by rewrite lookup_delete_ne.
  - intros v' Hv' Hn'. destruct (decide (v' = v)) as [->|Hne].
    + rewrite lookup_delete in Hv'. by destruct Hv'.
    + rewrite lookup_delete_ne in Hv' by done. rewrite lookup_delete_ne by done.
      by apply (ci_user s o HI v').
  - apply (ci_inside s o HI).
  - intros t1 p1 H1. pose proof (ci_pc s o HI t1 p1 H1) as Hok. specialize (Hn t1 p1 H1).
    destruct p1 as [| | |[v'|]| | | | | |[v'|]| | | |sid1 c1 v'|sid1 c1|c1| | |];
      cbn [cpc_ok inside o_view o_wait] in *; try done.
    + apply N.eqb_neq in Hn. destruct Hok as (sid & H2 & (c & e & H3 & H4) & H5).
      exists sid. split_and!; [done| |by rewrite lookup_delete_ne].
      exists c, e. cbn [set_views views table]. by rewrite lookup_delete_ne.
    + apply N.eqb_neq in Hn. destruct Hok as (sid & H2 & (c & e & H3 & H4) & H5).
      exists sid. split_and!; [done| |by rewrite lookup_delete_ne].
      exists c, e. cbn [set_views views table]. by rewrite lookup_delete_ne.
    + apply N.eqb_neq in Hn. destruct Hok as (H2 & H3 & H4 & H5).
      cbn [set_views views table]. split_and!; try done.
      * by rewrite lookup_delete_ne.
      * by rewrite lookup_delete_ne.
      * intros v'' e Hv''. apply lookup_delete_Some in Hv'' as [_ Hv'']. by apply (H5 v'' e).
    + destruct Hok as (H2 & H3). cbn [set_views views table]. split; [done|].
      intros v'' e Hv''. apply lookup_delete_Some in Hv'' as [_ Hv'']. by apply (H3 v'' e).
  - apply (ci_sid s o HI).
  - apply (ci_wait s o HI).
  - apply (ci_ub s o HI).
Qed.

Lemma log_insert o sid sid' l w vw :
  log {| o_wait := w; o_view := vw; o_log := <[sid := l]> (o_log o) |} sid' =
  if decide (sid' = sid) then l else log o sid'.
Proof.
  unfold log; cbn [o_log]. destruct (decide (sid' = sid)) as [->|Hne].
  - by rewrite lookup_insert.
  - by rewrite lookup_insert_ne.
Qed.

(** A user writes through a view. *)
Lemma CI_write s o v x c sid :
  CI s o -> o_view o !! v = Some sid -> table s !! sid = Some c ->
  CI (write_cell c x s)
     {| o_wait := o_wait o; o_view := o_view o; o_log := <[sid := log o sid ++ [x]]> (o_log o) |}.
Proof.
  intros HI Hv Hc. destruct (ci_table s o HI sid c Hc) as (Hf & Hlt & Hcont).
  split; cbn [write_cell readers writer table freed contents views next_cell next_view
    pcs ub o_wait o_view o_log]; try apply HI.
  - intros sid' c' Hc'. destruct (ci_table s o HI sid' c' Hc') as (Hf' & Hlt' & Hcont').
    rewrite log_insert. split_and!; try done. destruct (decide (sid' = sid)) as [->|Hne].
    + assert (c' = c) as -> by congruence. by rewrite lookup_insert, Hcont.
    + rewrite lookup_insert_ne; [done|]. intros ->. apply Hne. by apply (ci_inj s o HI sid' sid c').
  - intros sid' Hs. rewrite log_insert. destruct (decide (sid' = sid)) as [->|]; [congruence|].
    by apply (ci_none s o HI).
  - intros t1 p1 H1. pose proof (ci_pc s o HI t1 p1 H1) as Hok.
    destruct p1 as [| | |[v'|]| | | | | |[v'|]| | | |sid1 c1 v'|sid1 c1|c1| | |];
      cbn [cpc_ok o_view o_wait] in *; try done.
    destruct Hok as (H2 & H3 & H4 & sid' & H5 & H6 & H7).
    cbn [write_cell freed next_cell table contents]. split_and!; try done.
    exists sid'. rewrite log_insert. destruct (decide (sid' = sid)) as [->|]; [congruence|].
    split_and!; try done. rewrite lookup_insert_ne; [done|]. intros ->. by apply (H4 sid).
Qed.

(** Removal of an entry of the table by the thread that holds the write lock. *)
Lemma CI_del_entry s o t sid c :
  CI s o -> pcs s !! t = Some (PUnlocked sid c) ->
  CI (upd_pc t (PRemoved c) (del_entry sid s)) o.
Proof.
  intros HI Hp. pose proof (ci_pc s o HI t _ Hp) as [Ht Hnv].
  pose proof (ci_sid s o HI t _ sid Hp eq_refl) as Hw.
  destruct (ci_table s o HI sid c Ht) as (Hf & Hlt & Hcont).
  set (s' := upd_pc t (PRemoved c) (del_entry sid s)).
  assert (pcs_move s s' t (Some (PRemoved c))) as Hm by (by apply pcs_move_upd).
  assert (lock_ok s s' t (Some (PRemoved c))) as Hl.
  { apply (lock_same s s' o); try done; rewrite Hp; done. }
  destruct (CI_lock s s' o t _ HI Hl Hm) as [Hlr Hlw].
  assert (opt_w (pcs s !! t) = true) as Hwr by (by rewrite Hp).
  destruct (Hm) as [Hpt Hpo].
  split; try done; cbn [s' upd_pc del_entry readers writer table freed contents views next_cell next_view ub];
    try (apply HI).
  - intros sid' c' Hc'. apply lookup_delete_Some in Hc' as [_ Hc']. by apply (ci_table s o HI).
  - intros s1 s2 c1 H1 H2. apply lookup_delete_Some in H1 as [_ H1]. apply lookup_delete_Some in H2 as [_ H2].
    by apply (ci_inj s o HI s1 s2 c1).
  - intros sid' Hs. destruct (decide (sid' = sid)) as [->|Hne].
    + right. exists t, c. done.
    + rewrite lookup_delete_ne in Hs by done.
      destruct (ci_none s o HI sid' Hs) as [|(t1 & c1 & Ht1 & Hw1)]; [by left|].
      right. exists t1, c1. assert (t1 <> t) as Hne1 by (intros ->; congruence).
      change (pcs s' !! t1 = Some (PRemoved c1) /\ o_wait o !! t1 = Some sid'). by rewrite Hpo.
  - intros v c' e Hv. destruct (ci_views s o HI v c' e Hv) as [H1 [s1 H2]]. split; [done|].
    exists s1. rewrite lookup_delete_ne; [done|]. intros ->. rewrite Ht in H2. injection H2 as <-.
    by apply (Hnv v e).
  - intros v s1 Hv. destruct (ci_uview s o HI v s1 Hv) as [(c1 & e1 & H1 & H2) H3]. split.
    + exists c1, e1. cbn [s' upd_pc del_entry views table]. split; [done|].
      rewrite lookup_delete_ne; [done|]. intros ->. rewrite Ht in H2. injection H2 as <-.
      by apply (Hnv v e1).
    + apply (not_inside_move s s' t (Some (PRemoved c)) v Hm); done.
  - intros v Hv Hn. apply (ci_user s o HI v Hv). intros t1 p1 H1.
    destruct (decide (t1 = t)) as [->|Hne]; [by rewrite Hp in H1; injection H1 as <-|].
    apply (Hn t1). change (pcs s' !! t1 = Some p1). by rewrite Hpo.
  - apply (CI_inside s s' o t (Some (PRemoved c)) HI Hm). done.
  - intros t1 p1 H1. destruct (decide (t1 = t)) as [->|Hne].
    + rewrite Hpt in H1. injection H1 as <-. cbn [cpc_ok s' upd_pc del_entry freed next_cell table contents].
      split_and!; try done.
      * intros s1 H2. apply lookup_delete_Some in H2 as [Hne H2]. apply Hne.
        by apply (ci_inj s o HI sid s1 c).
      * exists sid. rewrite lookup_delete. done.
    + rewrite Hpo in H1 by done. destruct (writer_alone s o t t1 p1 HI Hwr Hne H1).
      by apply idle_ok.
  - intros t1 p1 sid1 H1 Hs. destruct (decide (t1 = t)) as [->|Hne].
    + rewrite Hpt in H1. by injection H1 as <-.
    + rewrite Hpo in H1 by done. exact (ci_sid s o HI t1 p1 sid1 H1 Hs).
  - intros t1 p1 H1. destruct (decide (t1 = t)) as [->|Hne].
    + by exists sid.
    + rewrite Hpo in H1 by done. exact (ci_wait s o HI t1 p1 H1).
Qed.

(** The temporary borrow of remove_unique is dropped. *)
Lemma CI_unlock s o t sid c v :
  CI s o -> pcs s !! t = Some (PLocked sid c v) ->
  CI (upd_pc t (PUnlocked sid c) (set_views (delete v (views s)) (next_view s) s)) o.
Proof.
  intros HI Hp. pose proof (ci_pc s o HI t _ Hp) as (Ht & Hv & Hov & Hall).
  pose proof (ci_sid s o HI t _ sid Hp eq_refl) as Hw.
  set (q := PUnlocked sid c).
  set (s' := upd_pc t q (set_views (delete v (views s)) (next_view s) s)).
  assert (pcs_move s s' t (Some q)) as Hm by (by apply pcs_move_upd).
  assert (lock_ok s s' t (Some q)) as Hl.
  { apply (lock_same s s' o); try done; rewrite Hp; done. }
  destruct (CI_lock s s' o t _ HI Hl Hm) as [Hlr Hlw].
  assert (opt_w (pcs s !! t) = true) as Hwr by (by rewrite Hp).
  destruct (Hm) as [Hpt Hpo].
  split; try done; cbn [s' upd_pc set_views readers writer table freed contents views next_cell next_view ub];
    try (apply HI).
  - intros sid' Hs. destruct (ci_none s o HI sid' Hs) as [|(t1 & c1 & Ht1 & Hw1)]; [by left|].
    right. exists t1, c1. assert (t1 <> t) as Hne1 by (intros ->; congruence).
    change (pcs s' !! t1 = Some (PRemoved c1) /\ o_wait o !! t1 = Some sid'). by rewrite Hpo.
  - intros v' c' e Hv'. apply lookup_delete_Some in Hv' as [_ Hv']. by apply (ci_views s o HI v' c' e).
  - intros v' s1 Hv'. destruct (ci_uview s o HI v' s1 Hv') as [(c1 & e1 & H1 & H2) H3]. split.
    + exists c1, e1. cbn [s' upd_pc set_views views table]. split; [|done].
      rewrite lookup_delete_ne; [done|]. intros ->. congruence.
    + apply (not_inside_move s s' t (Some q) v' Hm); done.
  - intros v' Hv' Hn. destruct (decide (v' = v)) as [->|Hne].
    { rewrite lookup_delete in Hv'. by destruct Hv'. }
    rewrite lookup_delete_ne in Hv' by done. apply (ci_user s o HI v' Hv'). intros t1 p1 H1.
    destruct (decide (t1 = t)) as [->|Hne1].
    + rewrite Hp in H1. injection H1 as <-. cbn [inside]. by apply N.eqb_neq.
    + apply (Hn t1). change (pcs s' !! t1 = Some p1). by rewrite Hpo.
  - apply (CI_inside s s' o t (Some q) HI Hm). done.
  - intros t1 p1 H1. destruct (decide (t1 = t)) as [->|Hne].
    + rewrite Hpt in H1. injection H1 as <-. cbn [q cpc_ok s' upd_pc set_views views table].
      split; [done|]. intros v' e Hv'. apply lookup_delete_Some in Hv' as [Hne Hv'].
      apply Hne. symmetry. by apply (Hall v' e).
    + rewrite Hpo in H1 by done. destruct (writer_alone s o t t1 p1 HI Hwr Hne H1).
      by apply idle_ok.
  - intros t1 p1 sid1 H1 Hs. destruct (decide (t1 = t)) as [->|Hne].
    + rewrite Hpt in H1. injection H1 as <-. cbn [q pc_sid] in Hs. by injection Hs as <-.
    + rewrite Hpo in H1 by done. exact (ci_sid s o HI t1 p1 sid1 H1 Hs).
  - intros t1 p1 H1. destruct (decide (t1 = t)) as [->|Hne].
    + by exists sid.
    + rewrite Hpo in H1 by done. exact (ci_wait s o HI t1 p1 H1).
Qed.

(** A new storage is created by the thread that holds the write lock. *)
Lemma CI_create s o t sid excl :
  CI s o -> pcs s !! t = Some (PCreating sid excl) -> table s !! sid = None ->
  CI (upd_pc t (PBorrowW sid (next_cell s) excl) (new_cell sid s)) o.
Proof.
  intros HI Hp Ht.
  pose proof (ci_sid s o HI t _ sid Hp eq_refl) as Hw.
  assert (opt_w (pcs s !! t) = true) as Hwr by (by rewrite Hp).
  assert (log o sid = []) as Hlog.
  { destruct (ci_none s o HI sid Ht) as [|(t1 & c1 & Ht1 & _)]; [done|].
    destruct (decide (t1 = t)) as [->|Hne]; [congruence|].
    by destruct (writer_alone s o t t1 _ HI Hwr Hne Ht1). }
  set (q := PBorrowW sid (next_cell s) excl). set (s' := upd_pc t q (new_cell sid s)).
  assert (pcs_move s s' t (Some q)) as Hm by (by apply pcs_move_upd).
  assert (lock_ok s s' t (Some q)) as Hl.
  { apply (lock_same s s' o); try done; rewrite Hp; done. }
  destruct (CI_lock s s' o t _ HI Hl Hm) as [Hlr Hlw].
  destruct (Hm) as [Hpt Hpo].
  assert (next_cell s ∉ freed s) as Hnf.
  { intros Hin. pose proof (ci_freed s o HI _ Hin). lia. }
  assert (forall s1, table s !! s1 <> Some (next_cell s)) as Hnt.
  { intros s1 H1. destruct (ci_table s o HI s1 _ H1) as (_ & ? & _). lia. }
  split; try done; cbn [s' upd_pc new_cell readers writer table freed contents views next_cell next_view ub];
    try (apply HI).
  - intros s1 c1 H1. destruct (decide (s1 = sid)) as [->|Hne].
    + rewrite lookup_insert in H1. injection H1 as <-. rewrite lookup_insert, Hlog.
      split_and!; [done|lia|done].
    + rewrite lookup_insert_ne in H1 by done. destruct (ci_table s o HI s1 c1 H1) as (H2 & H3 & H4).
      rewrite lookup_insert_ne by lia. split_and!; [done|lia|done].
  - intros s1 s2 c1 H1 H2.
    destruct (decide (s1 = sid)) as [->|Hn1]; [rewrite lookup_insert in H1|rewrite lookup_insert_ne in H1 by done];
    (destruct (decide (s2 = sid)) as [->|Hn2]; [rewrite lookup_insert in H2|rewrite lookup_insert_ne in H2 by done]).
    + done.
    + injection H1 as <-. by destruct (Hnt s2).
    + injection H2 as <-. by destruct (Hnt s1).
    + by apply (ci_inj s o HI s1 s2 c1).
  - intros s1 H1. destruct (decide (s1 = sid)) as [->|Hne]; [by rewrite lookup_insert in H1|].
    rewrite lookup_insert_ne in H1 by done.
    destruct (ci_none s o HI s1 H1) as [|(t1 & c1 & Ht1 & Hw1)]; [by left|].
    right. exists t1, c1. assert (t1 <> t) as Hne1 by (intros ->; congruence).
    change (pcs s' !! t1 = Some (PRemoved c1) /\ o_wait o !! t1 = Some s1). by rewrite Hpo.
  - intros c1 H1. pose proof (ci_freed s o HI c1 H1). lia.
  - intros v c1 e H1. destruct (ci_views s o HI v c1 e H1) as [H2 [s1 H3]]. split; [done|].
    exists s1. rewrite lookup_insert_ne; [done|]. intros ->. congruence.
  - intros v s1 Hv. destruct (ci_uview s o HI v s1 Hv) as [(c1 & e1 & H1 & H2) H3]. split.
    + exists c1, e1. cbn [s' upd_pc new_cell views table]. split; [done|].
      rewrite lookup_insert_ne; [done|]. intros ->. congruence.
    + apply (not_inside_move s s' t (Some q) v Hm); done.
  - intros v Hv Hn. apply (ci_user s o HI v Hv). intros t1 p1 H1.
    destruct (decide (t1 = t)) as [->|Hne]; [by rewrite Hp in H1; injection H1 as <-|].
    apply (Hn t1). change (pcs s' !! t1 = Some p1). by rewrite Hpo.
  - apply (CI_inside s s' o t (Some q) HI Hm). done.
  - intros t1 p1 H1. destruct (decide (t1 = t)) as [->|Hne].
    + rewrite Hpt in H1. injection H1 as <-. cbn [q cpc_ok s' upd_pc new_cell table].
      by rewrite lookup_insert.
    + rewrite Hpo in H1 by done. destruct (writer_alone s o t t1 p1 HI Hwr Hne H1).
      by apply idle_ok.
  - intros t1 p1 sid1 H1 Hs. destruct (decide (t1 = t)) as [->|Hne].
    + rewrite Hpt in H1. injection H1 as <-. cbn [q pc_sid] in Hs. by injection Hs as <-.
    + rewrite Hpo in H1 by done. exact (ci_sid s o HI t1 p1 sid1 H1 Hs).
  - intros t1 p1 H1. destruct (decide (t1 = t)) as [->|Hne].
    + by exists sid.
    + rewrite Hpo in H1 by done. exact (ci_wait s o HI t1 p1 H1).
Qed.

(** The removed unique is freed and the lock released. *)
Lemma CI_free s o t c sid :
  CI s o -> pcs s !! t = Some (PRemoved c) -> o_wait o !! t = Some sid ->
  CI (end_pc t (set_lock (readers s) None (free c s)))
     {| o_wait := o_wait o; o_view := o_view o; o_log := <[sid := []]> (o_log o) |}.
Proof.
  intros HI Hp Hw. pose proof (ci_pc s o HI t _ Hp) as (Hf & Hlt & Hnt & sid' & Hw' & Hts & Hcont).
  rewrite Hw in Hw'. injection Hw' as <-.
  assert (opt_w (pcs s !! t) = true) as Hwr by (by rewrite Hp).
  set (s' := end_pc t (set_lock (readers s) None (free c s))).
  assert (pcs_move s s' t None) as Hm by (by apply pcs_move_end).
  assert (lock_ok s s' t None) as Hl by (by apply (lock_release_w s s' o)).
  destruct (CI_lock s s' o t _ HI Hl Hm) as [Hlr Hlw].
  destruct (Hm) as [Hpt Hpo].
  assert (forall t1 p1, pcs s' !! t1 = Some p1 -> t1 <> t /\ pcs s !! t1 = Some p1) as Hback.
  { intros t1 p1 H1. destruct (decide (t1 = t)) as [->|Hne]; [congruence|].
    split; [done|]. by rewrite <- Hpo. }
  split; try done; cbn [s' end_pc set_lock free readers writer table freed contents views next_cell next_view
    ub o_wait o_view o_log]; try (apply HI).
  - intros s1 c1 H1. destruct (ci_table s o HI s1 c1 H1) as (H2 & H3 & H4). rewrite log_insert.
    split_and!; [|done|].
    + assert (c1 <> c) by (intros ->; by apply (Hnt s1)). set_solver.
    + destruct (decide (s1 = sid)) as [->|]; [congruence|done].
  - intros s1 H1. rewrite log_insert. destruct (decide (s1 = sid)) as [->|Hne]; [by left|].
    destruct (ci_none s o HI s1 H1) as [|(t1 & c1 & Ht1 & Hw1)]; [by left|].
    right. exists t1, c1. assert (t1 <> t) as Hne1 by (intros ->; congruence).
    change (pcs s' !! t1 = Some (PRemoved c1) /\ o_wait o !! t1 = Some s1). by rewrite Hpo.
  - intros c1 H1. apply elem_of_union in H1 as [H1|H1]; [|by apply (ci_freed s o HI)].
    apply elem_of_singleton in H1. by subst.
  - intros v s1 Hv. destruct (ci_uview s o HI v s1 Hv) as [H1 H3]. split; [exact H1|].
    apply (not_inside_move s s' t None v Hm); done.
  - intros v Hv Hn. apply (ci_user s o HI v Hv). intros t1 p1 H1.
    destruct (decide (t1 = t)) as [->|Hne]; [by rewrite Hp in H1; injection H1 as <-|].
    apply (Hn t1). change (pcs s' !! t1 = Some p1). by rewrite Hpo.
  - apply (CI_inside s s' o t None HI Hm). done.
  - intros t1 p1 H1. destruct (Hback t1 p1 H1) as [Hne H1'].
    destruct (writer_alone s o t t1 p1 HI Hwr Hne H1'). by apply idle_ok.
  - intros t1 p1 sid1 H1 Hs. destruct (Hback t1 p1 H1) as [_ H1']. exact (ci_sid s o HI t1 p1 sid1 H1' Hs).
  - intros t1 p1 H1. destruct (Hback t1 p1 H1) as [_ H1']. exact (ci_wait s o HI t1 p1 H1').
Qed.

(** add_unique when nobody views the unique. *)
Lemma CI_add s o t sid :
  CI s o -> pcs s !! t = Some (PAdding sid) -> no_view o t ->
  CI (end_pc t (set_lock (readers s) None
        (new_cell sid (match table s !! sid with Some old => free old s | None => s end))))
     {| o_wait := o_wait o; o_view := o_view o; o_log := <[sid := []]> (o_log o) |}.
Proof.
  intros HI Hp Hnv.
  pose proof (ci_sid s o HI t _ sid Hp eq_refl) as Hw.
  assert (opt_w (pcs s !! t) = true) as Hwr by (by rewrite Hp).
  set (s0 := match table s !! sid with Some old => free old s | None => s end).
  set (s' := end_pc t (set_lock (readers s) None (new_cell sid s0))).
  assert (pcs s0 = pcs s) as E0 by (unfold s0; by destruct (table s !! sid)).
  assert (pcs_move s s' t None) as Hm by (by apply pcs_move_end).
  assert (lock_ok s s' t None) as Hl by (by apply (lock_release_w s s' o)).
  destruct (CI_lock s s' o t _ HI Hl Hm) as [Hlr Hlw].
  destruct (Hm) as [Hpt Hpo].
  assert (forall t1 p1, pcs s' !! t1 = Some p1 -> t1 <> t /\ pcs s !! t1 = Some p1) as Hback.
  { intros t1 p1 H1. destruct (decide (t1 = t)) as [->|Hne]; [congruence|].
    split; [done|]. by rewrite <- Hpo. }
  assert (table s' = <[sid := next_cell s]> (table s)) as Et
    by (unfold s', s0; by destruct (table s !! sid)).
  assert (contents s' = <[next_cell s := []]> (contents s)) as Ec
    by (unfold s', s0; by destruct (table s !! sid)).
  assert (views s' = views s) as Ev by (unfold s', s0; by destruct (table s !! sid)).
  assert (next_cell s' = next_cell s + 1) as Enc by (unfold s', s0; by destruct (table s !! sid)).
  assert (next_view s' = next_view s) as Env by (unfold s', s0; by destruct (table s !! sid)).
  assert (ub s' = ub s) as Eu by (unfold s', s0; by destruct (table s !! sid)).
  assert (forall c, c ∈ freed s' <-> c ∈ freed s \/ table s !! sid = Some c) as Ef.
  { intros c. unfold s', s0. destruct (table s !! sid) as [old|];
      cbn [end_pc set_lock new_cell free freed]; set_solver. }
  assert (forall v c e, views s !! v = Some (c, e) -> table s !! sid <> Some c) as Hnone.
  { intros v c e Hv Hc. assert (forall t1 p1, pcs s !! t1 = Some p1 -> inside v p1 = false) as Hni.
    { intros t1 p1 H1. destruct (decide (t1 = t)) as [->|Hne].
      - rewrite Hp in H1. by injection H1 as <-.
      - destruct (writer_alone s o t t1 p1 HI Hwr Hne H1). by apply idle_inside. }
    destruct (ci_user s o HI v) as [s1 Hs1]; [by eexists|done|].
    destruct (ci_uview s o HI v s1 Hs1) as [(c1 & e1 & H1 & H2) _].
    assert (c1 = c) as -> by congruence.
    assert (s1 = sid) as -> by (by apply (ci_inj s o HI s1 sid c)).
    by apply (Hnv v sid). }
  assert (forall s1, table s !! s1 <> Some (next_cell s)) as Hnt.
  { intros s1 H1. destruct (ci_table s o HI s1 _ H1) as (_ & ? & _). lia. }
  split; try done; rewrite ?Et, ?Ec, ?Ev, ?Enc, ?Env, ?Eu; cbn [o_wait o_view o_log].
  - intros s1 c1 H1. rewrite log_insert, Ef. destruct (decide (s1 = sid)) as [->|Hne].
    + rewrite lookup_insert in H1. injection H1 as <-. rewrite lookup_insert.
      split_and!; [|lia|done]. intros [H2|H2].
      * pose proof (ci_freed s o HI _ H2). lia.
      * by destruct (Hnt sid).
    + rewrite lookup_insert_ne in H1 by done. destruct (ci_table s o HI s1 c1 H1) as (H2 & H3 & H4).
      rewrite lookup_insert_ne by lia. split_and!; [|lia|done]. intros [H5|H5]; [done|].
      apply Hne. by apply (ci_inj s o HI s1 sid c1).
  - intros s1 s2 c1 H1 H2.
    destruct (decide (s1 = sid)) as [->|Hn1]; [rewrite lookup_insert in H1|rewrite lookup_insert_ne in H1 by done];
    (destruct (decide (s2 = sid)) as [->|Hn2]; [rewrite lookup_insert in H2|rewrite lookup_insert_ne in H2 by done]).
    + done.
    + injection H1 as <-. by destruct (Hnt s2).
    + injection H2 as <-. by destruct (Hnt s1).
    + by apply (ci_inj s o HI s1 s2 c1).
  - intros s1 H1. rewrite log_insert. destruct (decide (s1 = sid)) as [->|Hne]; [by left|].
    rewrite lookup_insert_ne in H1 by done.
    destruct (ci_none s o HI s1 H1) as [|(t1 & c1 & Ht1 & Hw1)]; [by left|].
    right. exists t1, c1. assert (t1 <> t) as Hne1 by (intros ->; congruence). by rewrite Hpo.
  - intros c1 H1. apply Ef in H1 as [H1|H1].
    + pose proof (ci_freed s o HI c1 H1). lia.
    + destruct (ci_table s o HI _ _ H1) as (_ & ? & _). lia.
  - intros v c1 e H1. destruct (ci_views s o HI v c1 e H1) as [H2 [s1 H3]]. split; [done|].
    exists s1. rewrite lookup_insert_ne; [done|]. intros ->. by apply (Hnone v c1 e).
  - intros v s1 Hv. destruct (ci_uview s o HI v s1 Hv) as [(c1 & e1 & H1 & H2) H3]. split.
    + exists c1, e1. rewrite Ev, Et. split; [done|].
      rewrite lookup_insert_ne; [done|]. intros ->. by apply (Hnone v c1 e1).
    + apply (not_inside_move s s' t None v Hm); done.
  - intros v Hv Hn. apply (ci_user s o HI v Hv). intros t1 p1 H1.
    destruct (decide (t1 = t)) as [->|Hne]; [by rewrite Hp in H1; injection H1 as <-|].
    apply (Hn t1). by rewrite Hpo.
  - apply (CI_inside s s' o t None HI Hm). done.
  - intros t1 p1 H1. destruct (Hback t1 p1 H1) as [Hne H1'].
    destruct (writer_alone s o t t1 p1 HI Hwr Hne H1'). by apply idle_ok.
  - intros t1 p1 sid1 H1 Hs. destruct (Hback t1 p1 H1) as [_ H1']. exact (ci_sid s o HI t1 p1 sid1 H1' Hs).
  - intros t1 p1 H1. destruct (Hback t1 p1 H1) as [_ H1']. exact (ci_wait s o HI t1 p1 H1').
  - exact (ci_ub s o HI).
Qed.

Lemma try_borrow_spec c excl s :
  c ∉ freed s ->
  try_borrow c excl s =
    if can_borrow c excl s
    then (set_views (<[next_view s := (c, excl)]> (views s)) (next_view s + 1) s, Some (next_view s))
    else (s, None).
Proof. intros Hc. unfold try_borrow. by rewrite touch_id. Qed.

Lemma CI_step s o t a s' ev :
  CI s o -> c_step s (t, a) = Some (s', ev) -> (ev = CeAdded -> no_view o t) ->
  CI s' (co_step o (t, a, ev)).
Proof.
  intros HI Hst Hsafe. unfold c_step in Hst.
  assert (forall p sid, pcs s !! t = None -> pc_sid p = Some sid -> holds_r p = false -> holds_w p = false ->
    CI (upd_pc t p s) {| o_wait := <[t := sid]> (o_wait o); o_view := o_view o; o_log := o_log o |}) as Hstart.
  { intros p sid Ht Hs Hr Hw. apply (CI_move s _ o _ t (Some p) HI); try done.
    - intros t' Hne. cbn [o_wait]. by rewrite lookup_insert_ne.
    - by apply pcs_move_upd.
    - apply (lock_same s _ o); try done; by rewrite Ht.
    - intros v. rewrite Ht. cbn [opt_inside]. by apply idle_inside.
    - intros c. by rewrite Ht.
    - intros q [= <-]. cbn [o_wait]. rewrite lookup_insert. split_and!.
      + by apply idle_ok.
      + by exists sid.
      + intros sid' Hs'. congruence. }
  destruct a as [sid excl create|sid|sid|v x|v|v|]; destruct (pcs s !! t) as [p|] eqn:Hp; try done.
  - injection Hst as <- <-. by apply Hstart.
  - injection Hst as <- <-. by apply Hstart.
  - injection Hst as <- <-. by apply Hstart.
  - destruct (user_view v s) as [[c [|]]|] eqn:Hu; try done. injection Hst as <- <-.
    apply user_view_spec in Hu as [Hv Hn]. cbn [co_step].
    destruct (ci_user s o HI v (ltac:(by eexists)) Hn) as [sid Hs]. rewrite Hs.
    destruct (ci_uview s o HI v sid Hs) as [(c1 & e1 & H1 & H2) _].
    assert (c1 = c) as -> by congruence.
    destruct (ci_table s o HI sid c H2) as (Hf & _ & _). rewrite touch_id by done.
    by apply (CI_write s o v x c sid).
  - destruct (user_view v s) as [[c e]|] eqn:Hu; try done. injection Hst as <- <-.
    apply user_view_spec in Hu as [Hv Hn]. cbn [co_step].
    destruct (ci_views s o HI v c e Hv) as [_ [sid Hs]].
    destruct (ci_table s o HI sid c Hs) as (Hf & _ & _). by rewrite touch_id.
  - destruct (user_view v s) as [[c e]|] eqn:Hu; try done. injection Hst as <- <-.
    apply user_view_spec in Hu as [Hv Hn]. cbn [co_step].
    destruct (ci_views s o HI v c e Hv) as [_ [sid Hs]].
    destruct (ci_table s o HI sid c Hs) as (Hf & _ & _). rewrite touch_id by done.
    apply CI_drop; [done|by eexists|done].
  - destruct (ci_wait s o HI t p Hp) as [wsid Hwt].
    pose proof (ci_pc s o HI t p Hp) as Hok.
    assert (forall sid, pc_sid p = Some sid -> sid = wsid) as Hsidp.
    { intros sid Hs. pose proof (ci_sid s o HI t p sid Hp Hs). congruence. }
    (* moves that only change the counter *)
    assert (forall q s0, pcs s0 = pcs s -> table s0 = table s -> freed s0 = freed s ->
      contents s0 = contents s -> views s0 = views s -> next_cell s0 = next_cell s ->
      next_view s0 = next_view s -> ub s0 = ub s ->
      lock_ok s (upd_pc t q s0) t (Some q) ->
      (forall v, inside v q = inside v p) -> (forall c, p <> PRemoved c) ->
      cpc_ok (upd_pc t q s0) o t q -> (forall sid, pc_sid q = Some sid -> sid = wsid) ->
      CI (upd_pc t q s0) o) as Hmv.
    { intros q s0 E1 E2 E3 E4 E5 E6 E7 E8 Hl Hin Hnr Hq Hsq.
      apply (CI_move s _ o o t (Some q) HI); try done.
      - by apply pcs_move_upd.
      - intros v. rewrite Hp. apply Hin.
      - intros c. rewrite Hp. intros [= ->]. by apply (Hnr c).
      - intros q' [= <-]. split_and!; [done|by eexists|].
        intros sid Hs. by rewrite (Hsq sid Hs). }
    (* the end of a call that returns no view *)
    assert (forall s0, pcs s0 = pcs s -> table s0 = table s -> freed s0 = freed s ->
      contents s0 = contents s -> views s0 = views s -> next_cell s0 = next_cell s ->
      next_view s0 = next_view s -> ub s0 = ub s ->
      lock_ok s (end_pc t s0) t None ->
      (forall v, inside v p = false) -> (forall c, p <> PRemoved c) ->
      CI (end_pc t s0) o) as Hend.
    { intros s0 E1 E2 E3 E4 E5 E6 E7 E8 Hl Hin Hnr.
      apply (CI_move s _ o o t None HI); try done.
      - by apply pcs_move_end.
      - intros v. rewrite Hp. symmetry. apply Hin.
      - intros c. rewrite Hp. intros [= ->]. by apply (Hnr c). }
    assert (forall q s0, readers s0 = readers s -> writer s0 = writer s ->
      holds_r q = holds_r p -> holds_w q = holds_w p -> lock_ok s (upd_pc t q s0) t (Some q)) as Hsame.
    { intros q s0 H1 H2 H3 H4. apply (lock_same s _ o); try done; by rewrite Hp. }
    destruct p as [sid excl create|sid excl create|sid c excl|[v|]| |sid excl|sid excl|sid excl
      |sid c excl|[v|]|sid|sid|sid c|sid c v|sid c|c|[|]|sid|sid]; cbn [c_continue cpc_ok] in *.
    + (* PAccess *)
      destruct (writer s) eqn:Hw; [done|]. injection Hst as <- <-. cbn [co_step]. rewrite Hwt.
      apply Hmv; try done. by apply (lock_acquire_r s _ o).
    + (* PLooking *)
      injection Hst as <- <-. cbn [co_step]. rewrite Hwt.
      destruct (table s !! sid) as [c|] eqn:Ht; [by apply Hmv; try done; apply Hsame|].
      destruct create; (by apply Hmv; try done; apply Hsame).
    + (* PBorrowR *)
      destruct (ci_table s o HI sid c Hok) as (Hf & _ & _).
      rewrite try_borrow_spec in Hst by done.
      pose proof (Hsidp sid eq_refl) as ->.
      destruct (can_borrow c excl s) eqn:Hcb; injection Hst as <- <-; cbn [co_step]; rewrite Hwt.
      * eapply (CI_borrow s _ o t _ wsid c excl (PGotR (Some (next_view s)))); try done.
        -- by left.
        -- cbn [cpc_ok]. exists wsid. split_and!; [done| |].
           ++ exists c, excl. cbn [upd_pc set_views views table]. by rewrite lookup_insert.
           ++ destruct (o_view o !! next_view s) as [s1|] eqn:E; [|done].
              destruct (ci_uview s o HI _ s1 E) as [(c1 & e1 & H1 & _) _].
              pose proof (view_lt s o _ HI (ltac:(by eexists))). lia.
      * apply Hmv; try done. by apply Hsame.
    + (* PGotR (Some v) *)
      injection Hst as <- <-. cbn [co_step]. rewrite Hwt.
      eapply (CI_return s _ o t (PGotR (Some v)) v wsid); try done.
      * by left.
      * by apply pcs_move_end.
      * apply (lock_release_r s _ o); try done. by rewrite Hp.
    + (* PGotR None *)
      injection Hst as <- <-. cbn [co_step]. rewrite Hwt. apply Hend; try done.
      apply (lock_release_r s _ o); try done. by rewrite Hp.
    + (* PMissR *)
      injection Hst as <- <-. cbn [co_step]. rewrite Hwt. apply Hend; try done.
      apply (lock_release_r s _ o); try done. by rewrite Hp.
    + (* PDropR *)
      injection Hst as <- <-. cbn [co_step]. rewrite Hwt. apply Hmv; try done.
      apply (lock_release_r s _ o); try done. by rewrite Hp.
    + (* PCreate *)
      destruct (writer s) eqn:Hw; [done|]. destruct (bool_decide (readers s = ∅)) eqn:Hr; [|done].
      apply bool_decide_eq_true in Hr. injection Hst as <- <-. cbn [co_step]. rewrite Hwt.
      apply Hmv; try done. by apply (lock_acquire_w s _ o).
    + (* PCreating *)
      injection Hst as <- <-. cbn [co_step]. rewrite Hwt.
      destruct (table s !! sid) as [c|] eqn:Ht; [by apply Hmv; try done; apply Hsame|].
      by apply CI_create.
    + (* PBorrowW *)
      destruct (ci_table s o HI sid c Hok) as (Hf & _ & _).
      rewrite try_borrow_spec in Hst by done.
      pose proof (Hsidp sid eq_refl) as ->.
      destruct (can_borrow c excl s) eqn:Hcb; injection Hst as <- <-; cbn [co_step]; rewrite Hwt.
      * eapply (CI_borrow s _ o t _ wsid c excl (PGotW (Some (next_view s)))); try done.
        -- by right.
        -- cbn [cpc_ok]. exists wsid. split_and!; [done| |].
           ++ exists c, excl. cbn [upd_pc set_views views table]. by rewrite lookup_insert.
           ++ destruct (o_view o !! next_view s) as [s1|] eqn:E; [|done].
              destruct (ci_uview s o HI _ s1 E) as [(c1 & e1 & H1 & _) _].
              pose proof (view_lt s o _ HI (ltac:(by eexists))). lia.
      * apply Hmv; try done. by apply Hsame.
    + (* PGotW (Some v) *)
      injection Hst as <- <-. cbn [co_step]. rewrite Hwt.
      eapply (CI_return s _ o t (PGotW (Some v)) v wsid); try done.
      * by right.
      * by apply pcs_move_end.
      * apply (lock_release_w s _ o); try done. by rewrite Hp.
    + (* PGotW None *)
      injection Hst as <- <-. cbn [co_step]. rewrite Hwt. apply Hend; try done.
      apply (lock_release_w s _ o); try done. by rewrite Hp.
    + (* PRemove *)
      destruct (writer s) eqn:Hw; [done|]. destruct (bool_decide (readers s = ∅)) eqn:Hr; [|done].
      apply bool_decide_eq_true in Hr. injection Hst as <- <-. cbn [co_step]. rewrite Hwt.
      apply Hmv; try done. by apply (lock_acquire_w s _ o).
    + (* PRemoving *)
      injection Hst as <- <-. cbn [co_step]. rewrite Hwt.
      destruct (table s !! sid) as [c|] eqn:Ht; (by apply Hmv; try done; apply Hsame).
    + (* PTryW *)
      destruct (ci_table s o HI sid c Hok) as (Hf & _ & _).
      rewrite try_borrow_spec in Hst by done.
      pose proof (Hsidp sid eq_refl) as ->.
      destruct (can_borrow c true s) eqn:Hcb; injection Hst as <- <-; cbn [co_step]; rewrite Hwt.
      * eapply (CI_borrow s _ o t _ wsid c true (PLocked wsid c (next_view s))); try done.
        -- by right.
        -- cbn [cpc_ok upd_pc set_views views table]. split_and!; [done| | |].
           ++ by rewrite lookup_insert.
           ++ destruct (o_view o !! next_view s) as [s1|] eqn:E; [|done].
              destruct (ci_uview s o HI _ s1 E) as [(c1 & e1 & H1 & _) _].
              pose proof (view_lt s o _ HI (ltac:(by eexists))). lia.
           ++ intros v' e Hv'. destruct (decide (v' = next_view s)) as [->|Hne]; [done|].
              rewrite lookup_insert_ne in Hv' by done.
              by pose proof (proj1 (can_borrow_spec c true s) Hcb v' c e Hv' eq_refl).
      * apply Hmv; try done. by apply Hsame.
    + (* PLocked *)
      destruct Hok as (Ht & Hv & Hov & Hall).
      destruct (ci_table s o HI sid c Ht) as (Hf & _ & _). rewrite touch_id in Hst by done.
      injection Hst as <- <-. cbn [co_step]. rewrite Hwt. by apply CI_unlock.
    + (* PUnlocked *)
      injection Hst as <- <-. cbn [co_step]. rewrite Hwt. by apply CI_del_entry.
    + (* PRemoved *)
      destruct Hok as (Hf & _). rewrite touch_id in Hst by done.
      injection Hst as <- <-. cbn [co_step]. rewrite Hwt. by apply CI_free.
    + (* PRetW true *)
      injection Hst as <- <-. cbn [co_step]. rewrite Hwt. apply Hend; try done.
      apply (lock_release_w s _ o); try done. by rewrite Hp.
    + (* PRetW false *)
      injection Hst as <- <-. cbn [co_step]. rewrite Hwt. apply Hend; try done.
      apply (lock_release_w s _ o); try done. by rewrite Hp.
    + (* PAdd *)
      destruct (writer s) eqn:Hw; [done|]. destruct (bool_decide (readers s = ∅)) eqn:Hr; [|done].
      apply bool_decide_eq_true in Hr. injection Hst as <- <-. cbn [co_step]. rewrite Hwt.
      apply Hmv; try done. by apply (lock_acquire_w s _ o).
    + (* PAdding *)
      pose proof (Hsidp sid eq_refl) as ->. injection Hst as <- <-. cbn [co_step]. rewrite Hwt.
      pose proof (CI_add s o t wsid HI Hp (Hsafe eq_refl)) as Hadd.
      destruct (table s !! wsid) as [old|] eqn:Ht; [|exact Hadd].
      destruct (ci_table s o HI wsid old Ht) as (Hf & _ & _). by rewrite touch_id.
Qed.

Lemma safe_CI tr s : c_reach_safe tr s -> CI s (cobserve tr).
Proof.
  induction 1 as [|tr s t a s' ev Hr IH Hst Hsafe]; [apply CI_init|].
  rewrite cobserve_app. by apply (CI_step s).
Qed.
