(** Model of running a workload whose systems or run conditions may panic:
    src/world/run_batches.rs and [run_workload], [run_batches] of src/world.rs, as in Run.v.

    A program ends with a result, with an error or with a panic.  A panic unwinds the program,
    dropping its views; what it wrote before stays written.  The unwinding is then caught by
    rayon in a job of the pool, and in the closure given to [rayon::in_place_scope] (both run
    under [catch_unwind]); [in_place_scope] waits for all jobs and resumes unwinding.  Within
    [try_for_each] the other half of a [join] still runs; items behind the panicking one
    in its own chunk are not started, so that [BSkip] of Run.v, which lets any item of the pool
    be skipped after another one of the pool failed, covers what can happen.

    Not modelled: a program aborted because it panics while unwinding, and which panic's
    payload is resumed when there are several. *)
From stdpp Require Import prelude countable list gmap.
From Verif Require Import Sched Run.
Local Open Scope nat_scope.

(** How a program can go wrong. *)
Inductive fail (E : Type) := Failed (e : E) | Panicked.
Arguments Failed {E}. Arguments Panicked {E}.

(** How a call ends: [run_workload] returns ([None]: [Ok(())]), or unwinds. *)
Inductive outcome (E : Type) := Returned (r : option (rerr E)) | Unwound.
Arguments Returned {E}. Arguments Unwound {E}.

Section run.
Context {V E : Type}.
Context (sysf : N → prog V (option (fail E))) (condf : N → prog V (fail E + bool)).

(** A failure met on the calling thread outside of a batch's systems: an error is returned by
    [?], a panic unwinds: run_batches.rs 29-39, 51-57, 149-175, world.rs 757-764. *)
Definition ends_call (r : option (rerr (fail E))) : outcome E :=
  match r with
  | None => Returned None
  | Some RMissing => Returned (Some RMissing)
  | Some (RWorkload (Failed e)) => Returned (Some (RWorkload e))
  | Some (RSystem i (Failed e)) => Returned (Some (RSystem i e))
  | Some (RWorkload Panicked) | Some (RSystem _ Panicked) | Some RPanic => Unwound
  end.

(** The result of a batch: run_batches.rs 73-112.  [in_place_scope] resumes the unwinding of
    its closure or of a job before anything is returned; only then come the error of the
    calling thread's system (lines 101-110) and [result?] (line 112). *)
Inductive batch_outcome (own : option slot) (fin : list (slot * nat * option (fail E))) :
    outcome E → Prop :=
| BOPanic x : (x, Some Panicked) ∈ fin → batch_outcome own fin Unwound
| BOOwn x e :
    (∀ y, (y, Some Panicked) ∉ fin) → (x, Some (Failed e)) ∈ fin → own = Some x.1 →
    batch_outcome own fin (Returned (Some (RSystem x.2 e)))
| BOPool x e :
    (∀ y, (y, Some Panicked) ∉ fin) → (x, Some (Failed e)) ∈ fin → own ≠ Some x.1 →
    (∀ y e', (y, Some e') ∈ fin → own ≠ Some y.1) →
    batch_outcome own fin (Returned (Some (RSystem x.2 e)))
| BOOk : (∀ x r, (x, r) ∈ fin → r = None) → batch_outcome own fin (Returned None).

(** [run_batches_parallel]: run_batches.rs 9-127 (unwinding leaves the loop, and
    [thread_pool.scope] at line 121 resumes it). *)
Inductive ppar_loop (fs : list N) (ba : batches) :
    nat → list ((option nat * list nat) * (option nat * list (option nat))) → store V →
    list (event V (fail E) task) → store V → outcome E → Prop :=
| QNil k m : ppar_loop fs ba k [] m [] m (Returned None)
| QCondErr k b r l m m1 evs e :
    eval_batch condf ba k b r m = (m1, evs, inl e) →
    ppar_loop fs ba k ((b, r) :: l) m evs m1 (ends_call (Some e))
| QPanic k b r l m m1 evs f sl ix :
    eval_batch condf ba k b r m = (m1, evs, inr f) →
    (sl, ix) ∈ batch_tasks b f → fs !! ix = None →
    ppar_loop fs ba k ((b, r) :: l) m evs m1 Unwound
| QStop k b r l m m1 evs f tr m2 fin o :
    eval_batch condf ba k b r m = (m1, evs, inr f) →
    bsteps sysf fs k (fst <$> (own_task b f).1)
      {| b_store := m1; b_pend := batch_tasks b f; b_run := []; b_done := [] |} tr
      {| b_store := m2; b_pend := []; b_run := []; b_done := fin |} →
    batch_outcome (fst <$> (own_task b f).1) fin o → o ≠ Returned None →
    ppar_loop fs ba k ((b, r) :: l) m (evs ++ tr) m2 o
| QNext k b r l m m1 evs f tr m2 fin tr' m3 o :
    eval_batch condf ba k b r m = (m1, evs, inr f) →
    bsteps sysf fs k (fst <$> (own_task b f).1)
      {| b_store := m1; b_pend := batch_tasks b f; b_run := []; b_done := [] |} tr
      {| b_store := m2; b_pend := []; b_run := []; b_done := fin |} →
    batch_outcome (fst <$> (own_task b f).1) fin (Returned None) →
    ppar_loop fs ba (S k) l m2 tr' m3 o →
    ppar_loop fs ba k ((b, r) :: l) m (evs ++ tr ++ tr') m3 o.

(** [run_workload]: world.rs 706-721, 750-775. *)
Definition prun_workload_par (l : label) (sc : sched) (m : store V)
    (tr : list (event V (fail E) task)) (m' : store V) (o : outcome E) : Prop :=
  match sc_workload l sc with
  | None => tr = [] ∧ m' = m ∧ o = Returned (Some RMissing)
  | Some ba =>
      match workload_rif condf ba m with
      | (m1, inl r1) => tr = [] ∧ m' = m1 ∧ o = ends_call r1
      | (m1, inr _) =>
          ppar_loop (f_systems (sc_fns sc)) ba 0 (zip (ba_par ba) (ba_par_rif ba)) m1 tr m' o
      end
  end.
(** Without the feature "parallel" everything is on the calling thread: run_batches.rs 131-177. *)
Definition prun_workload_seq (l : label) (sc : sched) (m : store V) :
    list (event V (fail E) nat) * store V * outcome E :=
  let '(tr, m', r) := run_workload_seq sysf condf l sc m in (tr, m', ends_call r).
End run.
