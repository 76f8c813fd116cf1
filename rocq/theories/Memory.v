(** Model of the memory reports: src/sparse_set/memory_usage.rs, src/sparse_set/sparse_array.rs, memory_usage of
    src/entities/mod.rs.

    Simplified: sums and products do not overflow a usize (the memory they count exists); the sizes that depend on the
    component type and on the layout chosen by the compiler are arguments, and so are the capacities of the vectors. *)
From stdpp Require Import prelude list.
From Coq Require Import NArith.
From Verif Require Import EntityId Base SparseSet Entities.
Local Open Scope N_scope.

(** size_of::<EntityId>() (entity_id/mod.rs 9-12, a NonZeroU64), size_of::<TrackingTimestamp>() (tracking.rs 185, a
    u64), size_of::<Option<Box<T>>>() (a pointer). *)
Definition SZ_ID : N := 8.
Definition SZ_TS : N := 8.
Definition SZ_PTR : N := 8.
(** size_of::<(EntityId, TrackingTimestamp)>(). *)
Definition SZ_REM : N := 16.
(** size_of::<T>(), size_of::<(EntityId, TrackingTimestamp, T)>(), size_of::<SparseSet<T>>(). *)
Record sizes := Sizes { sz_comp : N; sz_del : N; sz_self : N }.
(** Vec::capacity of the vectors of a storage. *)
Record caps := Caps {
  c_sparse : N; c_dense : N; c_data : N; c_ins : N; c_mod : N; c_del : N; c_rem : N;
}.

(** The fold over the pages, sparse_array.rs 32-38 and 42-48. *)
Definition pages_bytes (sp : sparse_array) : N :=
  foldl (λ (count : N) array, match array with Some _ => count + BUCKET_SIZE * SZ_ID | None => count end) 0 sp.
(** used_memory, sparse_array.rs 30-39. *)
Definition sa_used (sp : sparse_array) : N := lenN sp * SZ_PTR + pages_bytes sp.
(** reserved_memory, sparse_array.rs 40-49. *)
Definition sa_reserved (sp : sparse_array) (cap : N) : N := cap * SZ_PTR + pages_bytes sp.

(** StorageMemoryUsage, memory_usage.rs 13-23, without the name. *)
Record usage := Usage { u_used : N; u_allocated : N; u_count : N }.

Section set.
Context {T : Type}.
Implicit Types s : sset T.
(** allocated_memory_bytes, sparse_set/memory_usage.rs 20-29. *)
Definition ss_allocated (z : sizes) s (c : caps) : N :=
  sa_reserved (ss_sparse s) (c_sparse c) + c_dense c * SZ_ID + c_data c * sz_comp z + c_ins c * SZ_TS
  + c_mod c * SZ_TS + c_del c * sz_del z + c_rem c * SZ_REM + sz_self z.
(** used_memory_bytes, sparse_set/memory_usage.rs 31-40. *)
Definition ss_used (z : sizes) s : N :=
  sa_used (ss_sparse s) + lenN (ss_dense s) * SZ_ID + lenN (ss_data s) * sz_comp z + lenN (ss_ins s) * SZ_TS
  + lenN (ss_mod s) * SZ_TS + lenN (ss_del s) * sz_del z + lenN (ss_rem s) * SZ_REM + sz_self z.
(** private_memory_usage, sparse_set/memory_usage.rs 11-18; the Storage methods of sparse_set/mod.rs 793-795 and
    thread_local.rs 22-24, 124-126, 225-227 are this. *)
Definition ss_memory_usage (z : sizes) s (c : caps) : usage :=
  Usage (ss_used z s) (ss_allocated z s c) (lenN (ss_dense s)).
(** SparseSetMemory, sparse_set/memory_usage.rs 63-80. *)
Record memory := Memory {
  m_sparse : N; m_dense : N; m_data : N; m_ins : N; m_mod : N; m_del : N; m_rem : N; m_itself : N;
}.
(** detailed_memory_usage, sparse_set/memory_usage.rs 94-122: (base, allocated, used). *)
Definition ss_detailed (z : sizes) s (c : caps) : usage * memory * memory :=
  (ss_memory_usage z s c,
   Memory (sa_reserved (ss_sparse s) (c_sparse c)) (c_dense c * SZ_ID) (c_data c * sz_comp z) (c_ins c * SZ_TS)
     (c_mod c * SZ_TS) (c_del c * sz_del z) (c_rem c * SZ_REM) (sz_self z),
   Memory (sa_used (ss_sparse s)) (lenN (ss_dense s) * SZ_ID) (lenN (ss_data s) * sz_comp z)
     (lenN (ss_ins s) * SZ_TS) (lenN (ss_mod s) * SZ_TS) (lenN (ss_del s) * sz_del z)
     (lenN (ss_rem s) * SZ_REM) (sz_self z)).
End set.

(** memory_usage of Entities, entities/mod.rs 433-441; [self] is size_of::<Entities>(). *)
Definition e_memory_usage (self : N) (es : entities) (cap : N) : usage :=
  Usage (lenN (e_data es) * SZ_ID + self) (cap * SZ_ID + self) (lenN (e_data es)).
