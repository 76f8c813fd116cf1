(** Model of the serialization code: src/entity_id/serde.rs, src/views/serde/ser, src/views/serde/de,
    World::serialize and World::deserialize (src/world.rs:1810-1875, the ones of AllStorages,
    src/all_storages/mod.rs:1841-1907, do the same).

    What is between the two sides, the format (serde_json, bincode, ...), is not modelled: a document is
    what the [Serialize] code hands to the format and the format is taken to hand the same to the
    [Deserialize] code.  Two things about the format matter to the code and are parameters: whether
    it is human readable, and whether it presents a struct to the visitor as a map (serde_json) or as a
    sequence (bincode).  The components are serialized by the code of their type. *)
From stdpp Require Import prelude list gmap.
From Coq Require Import NArith.
From Verif Require Import EntityId Base Entities SparseSet Track World Unique.
Open Scope N_scope.

(** Field names: "index", "gen" (src/entity_id/serde.rs:10), "type_name", "data"
    (src/views/serde/ser/view.rs:60-63), any other. *)
Inductive key := KIndex | KGen | KTypeName | KData | KOther (n : N).
(** The part of the serde data model that is used (serde is a dependency; no lines in this crate). *)
Inductive doc :=
| DNum (n : N)
| DText (l : list N)
| DNone
| DSome (d : doc)
| DSeq (l : list doc)
| DMap (l : list (key * doc)).

(** [Serializer::is_human_readable] (src/entity_id/serde.rs:17, 122) and how a struct is presented. *)
Record format := Format { f_human : bool; f_maps : bool }.
Definition json : format := Format true true.
Definition bincode : format := Format false false.

(** What the visitor gets for a struct: src/entity_id/serde.rs:18-21, src/views/serde/ser/view.rs:59-65 *)
Definition d_struct (f : format) (l : list (key * doc)) : doc :=
  if f_maps f then DMap l else DSeq l.*2.

(** src/entity_id/serde.rs:12-27 *)
Definition ser_eid (f : format) (e : eid) : doc :=
  if f_human f then
    let p := Raw.ser_human (enc e) in d_struct f [(KIndex, DNum p.1); (KGen, DNum p.2)]
  else DNum (Raw.ser_binary (enc e)).

(** u64 and u16 of serde (a number out of range is an error); used at src/entity_id/serde.rs:82-88,
    103, 110, 125 *)
Definition de_num (bound : N) (d : doc) : option N :=
  match d with DNum n => if n <? bound then Some n else None | _ => None end.
(** The pair of a raw handle; a handle whose low 48 bits are zero panics in a debug build as soon as
    its index is asked for (src/entity_id/mod.rs:35-37). *)
Definition pair_of (r : N) : res eid :=
  if N.land r INDEX_MASK =? 0 then Panic else Ok (Raw.index r, Raw.gen r).
(** src/entity_id/serde.rs:90, 120 *)
Definition de_parts (i g : N) : res (option eid) :=
  match Raw.de_human (i, g) with Some r => rmap Some (pair_of r) | None => Panic end.
(** src/entity_id/serde.rs:93-121 (and 46-61 for the keys); [None] is [Err] *)
Fixpoint de_fields (l : list (key * doc)) (i g : option N) : res (option eid) :=
  match l with
  | [] => match i, g with Some i, Some g => de_parts i g | _, _ => Ok None end
  | (KIndex, d) :: l =>
      match i, de_num (2 ^ 64) d with None, Some n => de_fields l (Some n) g | _, _ => Ok None end
  | (KGen, d) :: l =>
      match g, de_num (2 ^ 16) d with None, Some n => de_fields l i (Some n) | _, _ => Ok None end
  | _ :: _ => Ok None
  end.
(** src/entity_id/serde.rs:29-131.  Elements after the second one are refused by the format. *)
Definition de_eid (f : format) (d : doc) : res (option eid) :=
  if f_human f then
    match d with
    | DSeq [i; g] =>
        match de_num (2 ^ 64) i, de_num (2 ^ 16) g with Some i, Some g => de_parts i g | _, _ => Ok None end
    | DMap l => de_fields l None None
    | _ => Ok None
    end
  else
    match de_num (2 ^ 64) d with
    | Some n => match Raw.de_binary n with Some r => rmap Some (pair_of r) | None => Ub end
    | None => Ok None
    end.

(** src/views/serde/ser/entities.rs:5-17 (entities_mut.rs the same); the iterator is that of
    src/entities/iterator.rs *)
Definition ser_entities (f : format) (s : entities) : doc := DSeq (ser_eid f <$> e_iter s).
(** src/views/serde/de/entities_mut.rs:45-47: what was spawned before an error stays *)
Fixpoint spawn_docs (f : format) (s : entities) (l : list doc) : res (entities * bool) :=
  match l with
  | [] => Ok (s, true)
  | d :: l =>
      rlet x := de_eid f d in
      match x with
      | Some e => rlet (s, _) := spawn s e in spawn_docs f s l
      | None => Ok (s, false)
      end
  end.
(** src/views/serde/de/entities_mut.rs:26-54; the boolean tells [Ok] from [Err] *)
Definition de_entities (f : format) (s : entities) (d : doc) : res (entities * bool) :=
  match d with DSeq l => spawn_docs f s l | _ => Ok (s, false) end.

Section serde.
Context {V : Type} (kind : N -> tracking).
(** [Serialize] and [Deserialize] of the component types. *)
Context (ser_v : V -> doc) (de_v : doc -> option V).
Implicit Types (s : sset V) (w : world V).

(** One element: src/views/serde/ser/view.rs:45 *)
Definition ser_pair (f : format) (x : eid * V) : doc := DSeq [ser_eid f x.1; ser_v x.2].
(** src/views/serde/ser/view.rs:36-49, 55-78; view_mut.rs:36-56 only calls it.  The iterator over one
    view with its ids gives the dense array and the data side by side (PropsSerde.v proves this of
    the model of the iterators).  [name] is the name of the type. *)
Definition ser_view (f : format) (type_names : bool) (name : list N) s : doc :=
  let data := DSeq (ser_pair f <$> zip (ss_dense s) (ss_data s)) in
  if type_names then d_struct f [(KTypeName, DText name); (KData, data)] else data.

(** A tuple (EntityId, T), at src/views/serde/de/view_mut.rs:91, 143 *)
Definition de_pair (f : format) (d : doc) : res (option (eid * V)) :=
  match d with
  | DSeq [a; b] =>
      rlet x := de_eid f a in
      match x, de_v b with Some e, Some v => Ok (Some (e, v)) | _, _ => Ok None end
  | _ => Ok None
  end.
(** The Vec of src/views/serde/de/view_mut.rs:91 *)
Fixpoint de_pairs (f : format) (l : list doc) : res (option (list (eid * V))) :=
  match l with
  | [] => Ok (Some [])
  | d :: l =>
      rlet x := de_pair f d in
      match x with
      | Some x => rlet r := de_pairs f l in Ok (cons x <$> r)
      | None => Ok None
      end
  end.
(** src/views/serde/de/view_mut.rs:101-107 and 144-148; src/add_component.rs:40-42 ignores
    whether the component was inserted *)
Definition put_pair (override : bool) s (x : eid * V) (t : N) : res (sset V) :=
  if negb override && ss_contains s x.1 then Ok s else rmap fst (ss_insert s x.1 x.2 t).
(** The loop of src/views/serde/de/view_mut.rs:101-107 *)
Fixpoint put_pairs (override : bool) s (l : list (eid * V)) (t : N) : res (sset V) :=
  match l with
  | [] => Ok s
  | x :: l => rlet s := put_pair override s x t in put_pairs override s l t
  end.
(** The loop of src/views/serde/de/view_mut.rs:143-149: what was added before an error stays *)
Fixpoint put_docs (f : format) (override : bool) s (l : list doc) (t : N) : res (sset V * bool) :=
  match l with
  | [] => Ok (s, true)
  | d :: l =>
      rlet x := de_pair f d in
      match x with
      | Some x => rlet s := put_pair override s x t in put_docs f override s l t
      | None => Ok (s, false)
      end
  end.
(** src/views/serde/de/view_mut.rs:86-97: the last "data" counts, the other fields are skipped *)
Fixpoint de_data (f : format) (l : list (key * doc)) (data : option (list (eid * V)))
    : res (option (option (list (eid * V)))) :=
  match l with
  | [] => Ok (Some data)
  | (KData, DSeq x) :: l =>
      rlet x := de_pairs f x in
      match x with Some x => de_data f l (Some x) | None => Ok None end
  | (KData, _) :: l => Ok None
  | _ :: l => de_data f l data
  end.
(** src/views/serde/de/view_mut.rs:50-160.  The visitor for the struct has no [visit_seq]: a sequence is
    refused. *)
Definition de_view (f : format) (type_names override : bool) s (d : doc) (t : N) : res (sset V * bool) :=
  if type_names then
    match d with
    | DMap l =>
        rlet x := de_data f l None in
        match x with
        | Some data => rlet s := put_pairs override s (default [] data) t in Ok (s, true)
        | None => Ok (s, false)
        end
    | _ => Ok (s, false)
    end
  else match d with DSeq l => put_docs f override s l t | _ => Ok (s, false) end.

(** src/world.rs:1859-1875 with EntitiesViewMut; [borrow] takes a timestamp (src/world.rs:396-400) *)
Definition w_load_entities (f : format) w (d : doc) : res (world V * bool) :=
  rlet (es, b) := de_entities f (w_ents w) d in Ok (with_ents (w_tick w) es, b).
(** src/world.rs:1859-1875 with ViewMut (then [type_names] is false and [override] is true,
    src/views/serde/de/view_mut.rs:169-177), or a ViewMutDeserializer on a view borrowed for that *)
Definition w_load_view (f : format) (type_names override : bool) w (i : N) (d : doc) : res (world V * bool) :=
  rlet (s, b) := de_view f type_names override (store_or_new kind (w_stores w) i) d (w_counter w) in
  Ok (with_stores (w_tick w) (<[i := s]> (w_stores w)), b).
(** A saved world: the entities and the views of some types *)
Definition save (f : format) (type_names : bool) (name : N -> list N) w (is : list N) : doc * list (N * doc) :=
  (ser_entities f (w_ents w), (λ i, (i, ser_view f type_names (name i) (store_or_new kind (w_stores w) i))) <$> is).
(** ... and reading it, one document after the other (no function of the crate does this) *)
Fixpoint load_views (f : format) (type_names override : bool) w (l : list (N * doc)) : res (world V * bool) :=
  match l with
  | [] => Ok (w, true)
  | (i, d) :: l =>
      rlet (w, b) := w_load_view f type_names override w i d in
      if b : bool then load_views f type_names override w l else Ok (w, false)
  end.
Definition load (f : format) (type_names override : bool) w (x : doc * list (N * doc)) : res (world V * bool) :=
  rlet (w, b) := w_load_entities f w x.1 in
  if b : bool then load_views f type_names override w x.2 else Ok (w, false).

(** ** Unique components *)
(** src/views/serde/ser/unique.rs:5-12 (and unique_mut.rs, unique_or_default.rs): a view over a unique
    that does not exist cannot be borrowed.  unique_or_init.rs serializes the option. *)
Definition ser_unique (s : ustore V) : doc := ser_v (u_val s).
Definition ser_unique_or_init (o : option (ustore V)) : doc :=
  match o with Some s => DSome (ser_v (u_val s)) | None => DNone end.
(** src/views/serde/de/unique_mut.rs:26-31 (unique_or_default_mut.rs:26-31 calls it): the value is replaced,
    nothing else *)
Definition uw_load (w : uworld V) (i : N) (d : doc) : uworld V * bool :=
  match uw_stores w !! i, de_v d with
  | Some s, Some v =>
      (uw_tick (uw_set w i (UStore v (u_ins s) (u_mod s) (u_last_ins s) (u_last_mod s))), true)
  | _, _ => (uw_tick w, false)
  end.
(** src/views/serde/de/unique_or_init_mut.rs:26-37: through [deref_mut] of the view, and only when the
    unique exists *)
Definition uw_load_or_init (w : uworld V) (i : N) (d : doc) : uworld V * bool :=
  match d with
  | DNone => (uw_tick w, true)
  | DSome d =>
      match de_v d with
      | Some v =>
          match uw_stores w !! i with
          | Some s => (uw_tick (uw_set w i (uv_write s (λ _, v) (uw_counter w))), true)
          | None => (uw_tick w, true)
          end
      | None => (uw_tick w, false)
      end
  | _ => (uw_tick w, false)
  end.
End serde.
