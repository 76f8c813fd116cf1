(** Model of src/entity_id/mod.rs and src/entity_id/serde.rs.

    Two layers:
    - the raw layer: a handle is a 64-bit number ([N]) and each operation is the masks/shifts of
      the source;
    - the pair layer ([eid] = index * generation) used by the rest of the model.
    EntityIdProofs.v proves that the pair layer is an exact abstraction of the raw layer. *)
From Coq Require Import NArith Bool.
Open Scope N_scope.

(** src/entity_id/mod.rs:26-30 *)
Definition GEN_LEN : N := 16.
Definition INDEX_LEN : N := 64 - GEN_LEN.
(** [!0] on u64. *)
Definition U64_MAX : N := 2 ^ 64 - 1.
Definition U16_MAX : N := 2 ^ 16 - 1.
(** [!x] on u64 (bitwise not), used to write the masks as in the source. *)
Definition u64_not (x : N) : N := N.lxor x U64_MAX.
(** [x << k] on u64: bits shifted out are lost. *)
Definition u64_shl (x k : N) : N := N.land (N.shiftl x k) U64_MAX.
Definition u64_shr (x k : N) : N := N.shiftr x k.
(** src/entity_id/mod.rs:28 [!(!0 << INDEX_LEN)] *)
Definition INDEX_MASK : N := u64_not (u64_shl U64_MAX INDEX_LEN).
(** src/entity_id/mod.rs:29 [!(!0 >> GEN_LEN)] *)
Definition GEN_MASK : N := u64_not (u64_shr U64_MAX GEN_LEN).
(** src/entity_id/mod.rs:30 *)
Definition MAX_GEN : N := U16_MAX - 1.

Module Raw.
  (** A raw handle: the content of the NonZeroU64 of src/entity_id/mod.rs:15. *)
  Definition t := N.

  (** src/entity_id/mod.rs:35-37; the subtraction wraps when the low 48 bits are zero (it panics
      in debug builds; such a handle can only be made with [from_inner]). *)
  Definition index (r : t) : N := (N.land r INDEX_MASK + (2 ^ 64 - 1)) mod 2 ^ 64.
  (** src/entity_id/mod.rs:46-51; [None] is the failed assertion. *)
  Definition set_index (r : t) (i : N) : option t :=
    if i <? INDEX_MASK then Some (N.lor (i + 1) (N.land r (u64_not INDEX_MASK))) else None.
  (** src/entity_id/mod.rs:54-56; [as u16] truncates. *)
  Definition gen (r : t) : N := N.land (u64_shr (N.land r GEN_MASK) INDEX_LEN) U16_MAX.
  (** src/entity_id/mod.rs:59-72; [None] is [Err(())], the handle is then unchanged. *)
  Definition bump_gen (r : t) : option t :=
    if gen r <? MAX_GEN - 1
    then Some (N.lor (N.land r (u64_not GEN_MASK)) (u64_shl (gen r + 1) INDEX_LEN))
    else None.
  (** src/entity_id/mod.rs:75-79; [None] is the failed assertion. *)
  Definition new (i : N) : option t := if i <? INDEX_MASK then Some (i + 1) else None.
  (** src/entity_id/mod.rs:81-92 (new_from_parts, new_from_index_and_gen). *)
  Definition new_from_parts (i g : N) : option t :=
    if i <? INDEX_MASK then Some (N.lor (i + 1) (u64_shl g INDEX_LEN)) else None.
  (** src/entity_id/mod.rs:99-102 *)
  Definition dead : t := U64_MAX.
  (** src/entity_id/mod.rs:112-114 *)
  Definition max_index : N := INDEX_MASK - 1.
  (** src/entity_id/mod.rs:122-124 *)
  Definition is_dead (r : t) : bool := N.land r GEN_MASK =? GEN_MASK.
  (** src/entity_id/mod.rs:126-132 *)
  Definition copy_index (r other : t) : t :=
    N.lor (N.land r (u64_not INDEX_MASK)) (N.land other INDEX_MASK).
  (** src/entity_id/mod.rs:134-140 *)
  Definition copy_gen (r other : t) : t :=
    N.lor (N.land r (u64_not GEN_MASK)) (N.land other GEN_MASK).
  (** src/entity_id/mod.rs:142-146 *)
  Definition copy_index_gen (r other : t) : t := N.lor r other.
  (** src/entity_id/mod.rs:149-151 *)
  Definition inner (r : t) : N := r.
  (** src/entity_id/mod.rs:154-156 *)
  Definition from_inner (n : N) : option t := if n =? 0 then None else Some n.

  (** src/entity_id/serde.rs:17-21, human readable: the fields (index, gen). *)
  Definition ser_human (r : t) : N * N := (index r, gen r).
  (** src/entity_id/serde.rs:90,120; [None] is the assertion of new_from_parts. *)
  Definition de_human (p : N * N) : option t := new_from_parts (fst p) (snd p).
  (** src/entity_id/serde.rs:23-24, binary: the u64 minus one. *)
  Definition ser_binary (r : t) : N := r - 1.
  (** src/entity_id/serde.rs:127-129; [None] is the overflow of [non_zero + 1] (debug panic,
      undefined behaviour of new_unchecked(0) in release). *)
  Definition de_binary (n : N) : option t := if n =? U64_MAX then None else Some (n + 1).
End Raw.

(** ** Pair layer: handles as (index, generation). *)
Notation eid := (N * N)%type.
Definition idx (e : eid) : N := fst e.
Definition gen (e : eid) : N := snd e.

(** The handles the crate can make through its constructors: src/entity_id/mod.rs:76,82 asserts
    the index bound, the generation is a u16. *)
Definition eid_wf (e : eid) : Prop := idx e < INDEX_MASK /\ gen e < 2 ^ 16.

(** Encoding of a pair: src/entity_id/mod.rs:84-86. *)
Definition enc (e : eid) : N := (idx e + 1) + gen e * 2 ^ 48.

(** src/entity_id/mod.rs:46-51; callers of this model check the assertion themselves. *)
Definition set_idx (e : eid) (i : N) : eid := (i, gen e).
(** src/entity_id/mod.rs:59-72 *)
Definition bump (e : eid) : option eid :=
  if gen e <? MAX_GEN - 1 then Some (idx e, gen e + 1) else None.
(** src/entity_id/mod.rs:75-79 *)
Definition eid_new (i : N) : eid := (i, 0).
(** src/entity_id/mod.rs:112-114 *)
Definition max_idx : N := INDEX_MASK - 1.
(** src/entity_id/mod.rs:99-102 *)
Definition eid_dead : eid := (max_idx, U16_MAX).
(** src/entity_id/mod.rs:122-124 *)
Definition eid_is_dead (e : eid) : bool := gen e =? U16_MAX.
(** src/entity_id/mod.rs:126-132 *)
Definition copy_idx (e o : eid) : eid := (idx o, gen e).
(** src/entity_id/mod.rs:134-140 *)
Definition copy_gn (e o : eid) : eid := (idx e, gen o).
(** src/entity_id/mod.rs:142-146: bitwise or of the two handles. *)
Definition copy_idx_gen (e o : eid) : eid :=
  (N.lor (idx e + 1) (idx o + 1) - 1, N.lor (gen e) (gen o)).
