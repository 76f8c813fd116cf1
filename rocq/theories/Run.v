(** Model of running a workload: src/world/run_batches.rs and [run_workload],
    [run_batches], [run_default_workload] of src/world.rs.

    A system (or run condition) is an arbitrary terminating program that reads and writes
    whole storages; [V] is the type of the contents of a storage and [E] the type of errors.
    The programs running in one batch interleave at the level of these reads and writes.

    Not modelled: tracing spans, panics inside systems (see RunPanic.v), which thread of the pool runs a
    system, timestamps (Clock.v) and the storages' borrow flags (Borrow.v). *)
From stdpp Require Import prelude countable list gmap.
From Verif Require Import Sched.
Local Open Scope nat_scope.

Section run.
Context {V E : Type}.

(** The storages of a world, by [StorageId]. *)
Notation store := (gmap N V).

Inductive prog (A : Type) :=
| Ret (a : A)
| Rd (s : N) (k : option V → prog A)
| Wr (s : N) (v : option V) (p : prog A).
Global Arguments Ret {A}. Global Arguments Rd {A}. Global Arguments Wr {A}.

Definition put (s : N) (v : option V) (m : store) : store := partial_alter (λ _, v) s m.

(** Running a program alone. *)
Fixpoint exec {A} (p : prog A) (m : store) : store * A :=
  match p with
  | Ret a => (m, a)
  | Rd s k => exec (k (m !! s)) m
  | Wr s v p => exec p (put s v m)
  end.

(** The code of the systems ([Box<dyn Fn(&World) -> Result<(), error::Run>>], by the value of
    the closure, [w_fn]) and of the run conditions ([CBase n]). *)
Context (sysf : N → prog (option E)) (condf : N → prog (E + bool)).

(** A run condition: system_modificator.rs 204-213, 218-224; workload.rs 222-228 ([?] and the
    short-circuit of [&&]). *)
Fixpoint ceval (c : cond) (m : store) : store * (E + bool) :=
  match c with
  | CBase n => exec (condf n) m
  | CNot c =>
      let '(m, r) := ceval c m in
      (m, match r with inl e => inl e | inr b => inr (negb b) end)
  | CAnd c d =>
      let '(m, r) := ceval c m in
      match r with inr true => ceval d m | _ => (m, r) end
  end.

(** [error::RunWorkload]: src/error.rs; a failing system is reported by its index (the code
    looks its name up). [RPanic]: an index out of bounds or an [unwrap] of [None]. *)
Inductive rerr :=
| RMissing
| RWorkload (e : E)
| RSystem (i : nat) (e : E)
| RPanic.

(** What happens during a run; [T] identifies the place of a system in the workload.
    [EvCond t m b]: the run condition of [t] was evaluated in [m] and gave [b]. *)
Inductive event (T : Type) :=
| EvCond (t : T) (m : store) (b : bool)
| EvCondErr (t : T) (m : store) (e : E)
| EvStart (t : T) (f : N)
| EvEnd (t : T) (r : option E).
Global Arguments EvCond {T}. Global Arguments EvCondErr {T}.
Global Arguments EvStart {T}. Global Arguments EvEnd {T}.

(** The evaluation of one entry of [parallel_run_if] or [sequential_run_if]:
    run_batches.rs 25-39, 45-57, 149-163; [name] is the system to blame. *)
Definition eval_rif {T} (ba : batches) (t : T) (name : option nat) (r : option nat) (m : store) :
    store * list (event T) * (rerr + bool) :=
  match r with
  | None => (m, [], inr true)
  | Some c =>
      match ba_sys_rif ba !! c with
      | None => (m, [], inl RPanic)
      | Some c =>
          let '(m', r) := ceval c m in
          match r with
          | inr b => (m', [EvCond t m b], inr b)
          | inl e => (m', [EvCondErr t m e],
                      inl match name with Some i => RSystem i e | None => RPanic end)
          end
      end
  end.

(** ** Without the feature "parallel" *)

(** [run_batches_sequential]: run_batches.rs 131-177. *)
Fixpoint seq_loop (fs : list N) (ba : batches) (i : nat) (l : list (nat * option nat)) (m : store) :
    list (event nat) * store * option rerr :=
  match l with
  | [] => ([], m, None)
  | (ix, r) :: l =>
      let '(m1, evs, c) := eval_rif ba i (Some ix) r m in
      match c with
      | inl e => (evs, m1, Some e)
      | inr false =>
          let '(evs', m2, res) := seq_loop fs ba (S i) l m1 in (evs ++ evs', m2, res)
      | inr true =>
          match fs !! ix with
          | None => (evs, m1, Some RPanic)
          | Some f =>
              let '(m2, r) := exec (sysf f) m1 in
              let evs := evs ++ [EvStart i f; EvEnd i r] in
              match r with
              | Some e => (evs, m2, Some (RSystem ix e))
              | None =>
                  let '(evs', m3, res) := seq_loop fs ba (S i) l m2 in (evs ++ evs', m3, res)
              end
          end
      end
  end.
Definition seq_run (fs : list N) (ba : batches) (m : store) :
    list (event nat) * store * option rerr :=
  seq_loop fs ba 0 (zip (ba_seq ba) (ba_seq_rif ba)) m.

(** ** With the feature "parallel" *)

(** A place in a batch ([batch.0], [batch.1[j]]), and in the workload. *)
Inductive slot := Sgl | Par (j : nat).
Definition task : Type := nat * slot.

(** The run conditions of a batch: run_batches.rs 24-60 (first [batch.0], then [batch.1] until
    an error). *)
Fixpoint eval_pars (ba : batches) (k j : nat) (l : list (nat * option nat)) (m : store) :
    store * list (event task) * (rerr + list bool) :=
  match l with
  | [] => (m, [], inr [])
  | (ix, r) :: l =>
      let '(m1, evs, c) := eval_rif ba (k, Par j) (Some ix) r m in
      match c with
      | inl e => (m1, evs, inl e)
      | inr b =>
          let '(m2, evs', c') := eval_pars ba k (S j) l m1 in
          (m2, evs ++ evs', match c' with inl e => inl e | inr bs => inr (b :: bs) end)
      end
  end.
Definition eval_batch (ba : batches) (k : nat) (b : option nat * list nat)
    (r : option nat * list (option nat)) (m : store) :
    store * list (event task) * (rerr + (bool * list bool)) :=
  let '(m1, evs, c) := eval_rif ba (k, Sgl) b.1 r.1 m in
  match c with
  | inl e => (m1, evs, inl e)
  | inr b0 =>
      let '(m2, evs', c') := eval_pars ba k 0 (zip b.2 r.2) m1 in
      (m2, evs ++ evs', match c' with inl e => inl e | inr bs => inr (b0, bs) end)
  end.

(** [single_system] and [start]: run_batches.rs 62-71. *)
Definition own_task (b : option nat * list nat) (f : bool * list bool) : option (slot * nat) * nat :=
  match (if f.1 then b.1 else None) with
  | Some i => (Some (Sgl, i), 0)
  | None =>
      match b.2, f.2 with
      | i :: _, true :: _ => (Some (Par 0, i), 1)
      | _, _ => (None, 0)
      end
  end.
(** The items [batch.1[start..]] whose condition holds: run_batches.rs 80-86. *)
Definition pool_tasks (b : option nat * list nat) (f : bool * list bool) (start : nat) :
    list (slot * nat) :=
  omap (λ x, if x.2.2 : bool then Some (Par x.1, x.2.1) else None)
    (drop start (imap (λ j x, (j, x)) (zip b.2 f.2))).
Definition batch_tasks (b : option nat * list nat) (f : bool * list bool) : list (slot * nat) :=
  let '(own, start) := own_task b f in option_list own ++ pool_tasks b f start.

(** A batch being run: the systems not started yet, the running ones (with what is left of
    their program) and the finished ones. *)
Record bcfg := {
  b_store : store;
  b_pend : list (slot * nat);
  b_run : list (slot * nat * prog (option E));
  b_done : list (slot * nat * option E)
}.

(** Steps of [rayon::in_place_scope(..)]: run_batches.rs 73-110.  [own] is the slot run by the
    calling thread.  Rayon's [try_for_each] gives up on the items not started yet once one of
    them returned an error ([BSkip]), but may also start them. *)
Inductive bstep (fs : list N) (k : nat) (own : option slot) :
    bcfg → list (event task) → bcfg → Prop :=
| BStart m p1 p2 sl ix f run fin :
    fs !! ix = Some f →
    bstep fs k own {| b_store := m; b_pend := p1 ++ (sl, ix) :: p2; b_run := run; b_done := fin |}
      [EvStart (k, sl) f]
      {| b_store := m; b_pend := p1 ++ p2; b_run := run ++ [((sl, ix), sysf f)]; b_done := fin |}
| BRd m pend r1 r2 x s kont fin :
    bstep fs k own {| b_store := m; b_pend := pend; b_run := r1 ++ (x, Rd s kont) :: r2; b_done := fin |}
      []
      {| b_store := m; b_pend := pend; b_run := r1 ++ (x, kont (m !! s)) :: r2; b_done := fin |}
| BWr m pend r1 r2 x s v p fin :
    bstep fs k own {| b_store := m; b_pend := pend; b_run := r1 ++ (x, Wr s v p) :: r2; b_done := fin |}
      []
      {| b_store := put s v m; b_pend := pend; b_run := r1 ++ (x, p) :: r2; b_done := fin |}
| BEnd m pend r1 r2 x r fin :
    bstep fs k own {| b_store := m; b_pend := pend; b_run := r1 ++ (x, Ret r) :: r2; b_done := fin |}
      [EvEnd (k, x.1) r]
      {| b_store := m; b_pend := pend; b_run := r1 ++ r2; b_done := fin ++ [(x, r)] |}
| BSkip m p1 p2 sl ix run fin x e :
    own ≠ Some sl → (x, Some e) ∈ fin → own ≠ Some x.1 →
    bstep fs k own {| b_store := m; b_pend := p1 ++ (sl, ix) :: p2; b_run := run; b_done := fin |}
      []
      {| b_store := m; b_pend := p1 ++ p2; b_run := run; b_done := fin |}.

Inductive bsteps (fs : list N) (k : nat) (own : option slot) :
    bcfg → list (event task) → bcfg → Prop :=
| bsteps_nil c : bsteps fs k own c [] c
| bsteps_cons c1 tr1 c2 tr2 c3 :
    bstep fs k own c1 tr1 c2 → bsteps fs k own c2 tr2 c3 → bsteps fs k own c1 (tr1 ++ tr2) c3.

(** The result of a batch: the error of the calling thread's system comes first
    (run_batches.rs 101-110), then [result?] (line 112), which is any of the pool's errors. *)
Inductive batch_result (own : option slot) (fin : list (slot * nat * option E)) : option rerr → Prop :=
| BROwn x e : (x, Some e) ∈ fin → own = Some x.1 → batch_result own fin (Some (RSystem x.2 e))
| BRPool x e :
    (x, Some e) ∈ fin → own ≠ Some x.1 →
    (∀ y e', (y, Some e') ∈ fin → own ≠ Some y.1) → batch_result own fin (Some (RSystem x.2 e))
| BROk : (∀ x r, (x, r) ∈ fin → r = None) → batch_result own fin None.

(** [run_batches_parallel]: run_batches.rs 9-127; [k] is the number of the batch. *)
Inductive par_loop (fs : list N) (ba : batches) :
    nat → list ((option nat * list nat) * (option nat * list (option nat))) → store →
    list (event task) → store → option rerr → Prop :=
| PNil k m : par_loop fs ba k [] m [] m None
| PCondErr k b r l m m1 evs e :
    eval_batch ba k b r m = (m1, evs, inl e) →
    par_loop fs ba k ((b, r) :: l) m evs m1 (Some e)
| PPanic k b r l m m1 evs f sl ix :
    eval_batch ba k b r m = (m1, evs, inr f) →
    (sl, ix) ∈ batch_tasks b f → fs !! ix = None →
    par_loop fs ba k ((b, r) :: l) m evs m1 (Some RPanic)
| PFail k b r l m m1 evs f tr m2 fin e :
    eval_batch ba k b r m = (m1, evs, inr f) →
    bsteps fs k (fst <$> (own_task b f).1)
      {| b_store := m1; b_pend := batch_tasks b f; b_run := []; b_done := [] |} tr
      {| b_store := m2; b_pend := []; b_run := []; b_done := fin |} →
    batch_result (fst <$> (own_task b f).1) fin (Some e) →
    par_loop fs ba k ((b, r) :: l) m (evs ++ tr) m2 (Some e)
| PNext k b r l m m1 evs f tr m2 fin tr' m3 res :
    eval_batch ba k b r m = (m1, evs, inr f) →
    bsteps fs k (fst <$> (own_task b f).1)
      {| b_store := m1; b_pend := batch_tasks b f; b_run := []; b_done := [] |} tr
      {| b_store := m2; b_pend := []; b_run := []; b_done := fin |} →
    batch_result (fst <$> (own_task b f).1) fin None →
    par_loop fs ba (S k) l m2 tr' m3 res →
    par_loop fs ba k ((b, r) :: l) m (evs ++ tr ++ tr') m3 res.
Definition par_run (fs : list N) (ba : batches) (m : store) (tr : list (event task))
    (m' : store) (r : option rerr) : Prop :=
  par_loop fs ba 0 (zip (ba_par ba) (ba_par_rif ba)) m tr m' r.

(** ** Entry points *)

(** The workload's own condition, [run_batches]: world.rs 750-775. [inl]: return this. *)
Definition workload_rif (ba : batches) (m : store) : store * (option rerr + unit) :=
  match ba_rif ba with
  | None => (m, inr ())
  | Some c =>
      let '(m, r) := ceval c m in
      (m, match r with inl e => inl (Some (RWorkload e)) | inr false => inl None
                     | inr true => inr () end)
  end.
Definition run_batches_par (fs : list N) (ba : batches) (m : store) (tr : list (event task))
    (m' : store) (r : option rerr) : Prop :=
  match workload_rif ba m with
  | (m1, inl r1) => tr = [] ∧ m' = m1 ∧ r = r1
  | (m1, inr _) => par_run fs ba m1 tr m' r
  end.
Definition run_batches_seq (fs : list N) (ba : batches) (m : store) :
    list (event nat) * store * option rerr :=
  match workload_rif ba m with
  | (m1, inl r1) => ([], m1, r1)
  | (m1, inr _) => seq_run fs ba m1
  end.

(** [run_workload]: world.rs 706-721 (the scheduler is borrowed shared for the whole run, so it
    does not change). *)
Definition run_workload_par (l : label) (sc : sched) (m : store) (tr : list (event task))
    (m' : store) (r : option rerr) : Prop :=
  match sc_workload l sc with
  | None => tr = [] ∧ m' = m ∧ r = Some RMissing
  | Some ba => run_batches_par (f_systems (sc_fns sc)) ba m tr m' r
  end.
Definition run_workload_seq (l : label) (sc : sched) (m : store) :
    list (event nat) * store * option rerr :=
  match sc_workload l sc with
  | None => ([], m, Some RMissing)
  | Some ba => run_batches_seq (f_systems (sc_fns sc)) ba m
  end.
(** [run_default_workload]: world.rs 788-803; [is_empty]: scheduler/mod.rs 92-94. *)
Definition run_default_par (sc : sched) (m : store) (tr : list (event task))
    (m' : store) (r : option rerr) : Prop :=
  if bool_decide (sc_workloads sc = ∅) then tr = [] ∧ m' = m ∧ r = None
  else match default_workload sc with
       | None => tr = [] ∧ m' = m ∧ r = Some RPanic
       | Some ba => run_batches_par (f_systems (sc_fns sc)) ba m tr m' r
       end.
End run.

Notation store V := (gmap N V).
Arguments event : clear implicits.
Arguments rerr : clear implicits.
Arguments bcfg : clear implicits.
Arguments prog : clear implicits.
