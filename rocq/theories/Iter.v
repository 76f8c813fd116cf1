(** Model of iteration: src/iter, src/or.rs, src/sparse_set/window.rs, src/iter_component.rs.

    A [query] is the expression the user calls [iter] on, a [ship] the value of type
    [IntoShiperator::Shiperator] it becomes, and [iter] the struct Shiperator.

    Simplifications:
    - references are the pair of the storage and the position in it (with the value found there);
      what the user does with an exclusive reference is not part of the iterator's state.  This
      is faithful because a position is visited once, see C46_no_alias.
    - pointers to the dense vector are the list of the entities from there to the end of the vector;
      a read past its end is undefined behaviour.
    - the f32 computations of [sail_time] are arguments [f10], [f05], [f12] and [f20] (conversion to f32
      and back, times 0.5, times 1.2, times 2), which [shiperator] below gives their IEEE 754 meaning.
    - arithmetic overflow panics (debug profile). *)
From stdpp Require Import prelude list.
From Coq Require Import NArith.
From Verif Require Import EntityId Base SparseSet.
Open Scope N_scope.

(** ** Windows, src/sparse_set/window.rs:11-23 (FullRawWindow), 162-175 (FullRawWindowMut) *)
Record window (V : Type) := Window {
  wn_id : N;                 (* which storage *)
  wn_set : sset V;           (* what the pointers point to *)
  wn_sparse_len : N;
  wn_last_ins : N;
  wn_last_mod : N;
  wn_current : N;
}.
Arguments Window {V}. Arguments wn_id {V}. Arguments wn_set {V}. Arguments wn_sparse_len {V}.
Arguments wn_last_ins {V}. Arguments wn_last_mod {V}. Arguments wn_current {V}.

(** from_view, from_view_mut and FullRawWindowMut::new, window.rs:29-48, 86-104, 180-201: the window of a
    view of the storage [s] with the timestamps of the view *)
Definition window_of {V} (i : N) (s : sset V) (times : N * N * N) : window V :=
  Window i s (lenN (ss_sparse s)) times.1.1 times.1.2 times.2.
(** from_owned_view and new_owned, window.rs:51-83, 204-240, used by World::iter: the length of the
    sparse array is taken to be [sparse_set.len()], the number of components *)
Definition window_owned {V} (i : N) (s : sset V) (times : N * N * N) : window V :=
  Window i s (lenN (ss_dense s)) times.1.1 times.1.2 times.2.

(** What an iterator yields, src/iter/output.rs: a reference to the component at a position of a
    storage, an id, an optional reference, nothing, a tuple, one or the other. *)
Inductive out (V : Type) :=
| ORef (i p : N) (v : V)
| OId (e : eid)
| OOpt (o : option (N * N * V))
| OUnit
| OTup (l : list (out V))
| OOne (o : out V)
| OTwo (o : out V).
Arguments ORef {V}. Arguments OId {V}. Arguments OOpt {V}. Arguments OUnit {V}. Arguments OTup {V}.
Arguments OOne {V}. Arguments OTwo {V}.

(** ShiperatorSailor::Index, src/iter/sailor.rs:14-17 *)
Inductive index :=
| XPos (p : N)
| XId (e : eid)
| XOpt (p : option N)
| XTup (l : list index)
| XOne (x : index)
| XTwo (x : index).

(** Inserted, Modified, InsertedOrModified, src/advanced/tracking/iterator_wrapper.rs *)
Inductive mark := MIns | MMod | MInsMod.

(** The types implementing ShiperatorCaptain and ShiperatorSailor. *)
Inductive ship (V : Type) :=
| SWin (w : window V)                              (* FullRawWindow, FullRawWindowMut *)
| SIds (l : list eid)                              (* &[EntityId] *)
| SOpt (w : window V)                              (* Optional *)
| SNot (excl : bool) (w : window V)                (* Not<FullRawWindow>, Not<FullRawWindowMut> *)
| STrack (neg : bool) (k : mark) (w : window V)    (* Inserted.. and Not<Inserted..> *)
| SMixed (mask : N) (ss : list (ship V))           (* src/iter/mixed.rs:10-13 *)
| SOr (a b : ship V) (is_captain past : bool).     (* src/or.rs:91-95 *)
Arguments SWin {V}. Arguments SIds {V}. Arguments SOpt {V}. Arguments SNot {V}. Arguments STrack {V}.
Arguments SMixed {V}. Arguments SOr {V}.

(** The expressions: &view or &view_mut, &mut view_mut, an id slice, as_optional, !, inserted..,
    tuples and |.  A tuple [(T,)] of one is its member (into_shiperator.rs:285-304), [QTuple] is for two or more. *)
Inductive query :=
| QView (i : N)
| QMut (i : N)
| QIds (l : list eid)
| QOpt (i : N)
| QNot (excl : bool) (i : N)
| QTrack (neg : bool) (k : mark) (i : N)
| QTuple (qs : list query)
| QOr (a b : query).

Definition USIZE_MAX : N := 2 ^ 64 - 1.
(** usize addition *)
Definition usize_add (a b : N) : res N := if a + b <=? USIZE_MAX then Ok (a + b) else Panic.
(** u32::count_ones *)
Definition count_ones (mask : N) : nat := length (filter (λ j, N.testbit mask (N.of_nat j)) (seq 0 32)).

Section ship.
Context {V : Type} (f10 f05 f12 f20 : N -> N).
Implicit Types (w : window V) (s : ship V).

(** FullRawWindow::index_of and sparse_index, src/sparse_set/window.rs:107-131 (and 243-267) *)
Definition win_index_of w (e : eid) : res (option N) :=
  if bucket e <? wn_sparse_len w then
    match getN (ss_sparse (wn_set w)) (bucket e) with
    | Some (Some b) =>
        match getN b (bucket_index e) with
        | Some x => Ok (if gen e =? gen x then Some (idx x) else None)
        | None => Ub
        end
    | Some None => Ok None
    | None => Ub
    end
  else Ok None.
(** [&*self.data.add(index)] *)
Definition win_ref w (p : N) : res (out V) :=
  rlet v := get_unchecked (ss_data (wn_set w)) p in Ok (ORef (wn_id w) p v).
(** The tests of src/iter/sailor/tracking.rs:22-24, 86-88, 150-154 *)
Definition win_marked w (k : mark) (p : N) : res bool :=
  let ins := rlet t := get_unchecked (ss_ins (wn_set w)) p in Ok (is_within t (wn_last_ins w) (wn_current w)) in
  let md := rlet t := get_unchecked (ss_mod (wn_set w)) p in Ok (is_within t (wn_last_mod w) (wn_current w)) in
  match k with
  | MIns => ins
  | MMod => md
  | MInsMod => rlet b := ins in if b then Ok true else md
  end.

(** *** ShiperatorSailor *)

(** index_from_usize: src/iter/sailor.rs:46-48, 124-126 and the like, src/iter/mixed.rs:124-129 *)
Fixpoint index_from s (k : N) : res index :=
  match s with
  | SWin _ | SNot _ _ | STrack _ _ _ => Ok (XPos k)
  | SIds _ | SOpt _ | SOr _ _ _ _ => Panic
  | SMixed _ ss =>
      rlet l := (fix go ss := match ss with
                              | [] => Ok []
                              | s :: ss => rlet x := index_from s k in rlet l := go ss in Ok (x :: l)
                              end) ss in
      Ok (XTup l)
  end.

(** indices_of: src/iter/sailor.rs:41-43, 119-121, 141-143; not.rs:15-21, 61-75; tracking.rs:16-28;
    or.rs:19-49; mixed.rs:93-122 (its two branches test the same bits) *)
Fixpoint indices_of s (e : eid) (k : N) : res (option index) :=
  match s with
  | SWin w => rlet o := win_index_of w e in Ok (XPos <$> o)
  | SIds _ => Ok (Some (XId e))
  | SOpt w => rlet o := win_index_of w e in Ok (Some (XOpt o))
  | SNot _ w => rlet o := win_index_of w e in
                Ok (match o with Some _ => None | None => Some (XPos USIZE_MAX) end)
  | STrack neg m w =>
      rlet o := win_index_of w e in
      match o with
      | None => Ok None
      | Some p => rlet b := win_marked w m p in Ok (if xorb neg b then Some (XPos p) else None)
      end
  | SMixed mask ss =>
      rlet l := (fix go j ss :=
                   match ss with
                   | [] => Ok (Some [])
                   | s :: ss =>
                       rlet o := (if N.testbit mask j then rlet x := index_from s k in Ok (Some x)
                                  else indices_of s e k) in
                       match o with
                       | None => Ok None
                       | Some x => rlet l := go (j + 1) ss in Ok (cons x <$> l)
                       end
                   end) 0 ss in
      Ok (XTup <$> l)
  | SOr a b true true =>
      rlet o := indices_of b e k in
      match o with
      | None => Ok None
      | Some x => rlet o := indices_of a e 0 in
                  Ok (match o with Some _ => None | None => Some (XTwo x) end)
      end
  | SOr a b true false => rlet o := indices_of a e k in Ok (XOne <$> o)
  | SOr a b false _ =>
      rlet o0 := indices_of a e k in
      rlet o1 := indices_of b e k in
      Ok (match o0, o1 with
          | None, None => None
          | None, Some x => Some (XTwo x)
          | Some x, _ => Some (XOne x)
          end)
  end.

(** get_sailor_data: src/iter/sailor.rs:36-38, 114-116, 132-138; not.rs:13; tracking.rs:12-14;
    or.rs:11-16; mixed.rs:86-90.  An index of another type cannot be passed. *)
Fixpoint get_sailor s (x : index) : res (out V) :=
  match s, x with
  | SWin w, XPos p | STrack _ _ w, XPos p => win_ref w p
  | SIds _, XId e => Ok (OId e)
  | SOpt w, XOpt None => Ok (OOpt None)
  | SOpt w, XOpt (Some p) => rlet v := get_unchecked (ss_data (wn_set w)) p in Ok (OOpt (Some (wn_id w, p, v)))
  | SNot _ _, XPos _ => Ok OUnit
  | SMixed _ ss, XTup l =>
      rlet r := (fix go ss l := match ss, l with
                                | s :: ss, x :: l => rlet o := get_sailor s x in rlet r := go ss l in Ok (o :: r)
                                | _, _ => Ok []
                                end) ss l in
      Ok (OTup r)
  | SOr a _ _ _, XOne x => rlet o := get_sailor a x in Ok (OOne o)
  | SOr _ b _ _, XTwo x => rlet o := get_sailor b x in Ok (OTwo o)
  | _, _ => Panic
  end.

(** *** ShiperatorCaptain *)

(** get_captain_data: src/iter/captain.rs:36-38, 118-120, 135-137; captain/*.rs ([unreachable!()]);
    mixed.rs:38-42 *)
Fixpoint get_captain s (k : N) : res (out V) :=
  match s with
  | SWin w => win_ref w k
  | SIds l => rlet e := get_unchecked l k in Ok (OId e)
  | SMixed _ ss =>
      rlet r := (fix go ss := match ss with
                              | [] => Ok []
                              | s :: ss => rlet o := get_captain s k in rlet r := go ss in Ok (o :: r)
                              end) ss in
      Ok (OTup r)
  | _ => Panic
  end.
(** next_slice: captain.rs:41 and the like (nothing); captain/or.rs:11-13; mixed.rs:45-49 *)
Fixpoint next_slice s : ship V :=
  match s with
  | SMixed mask ss => SMixed mask (next_slice <$> ss)
  | SOr a b c _ => SOr a b c true
  | s => s
  end.
(** sail_time: captain.rs:44-46, 124-126, 142-144; captain/not.rs:20-22, 44-46, 66-68;
    captain/tracking.rs:18-20; captain/or.rs:16-18; mixed.rs:53-65 *)
Fixpoint sail_time s : res N :=
  match s with
  | SWin w | SOpt w => Ok (lenN (ss_dense (wn_set w)))
  | SIds l => Ok (lenN l)
  | SNot excl w => Ok (if excl then USIZE_MAX else f12 (lenN (ss_dense (wn_set w))))
  | STrack neg _ w =>
      let t := f20 (lenN (ss_dense (wn_set w))) in Ok (if neg then f12 t else t)
  | SMixed mask ss =>
      (fix go j acc ss :=
         match ss with
         | [] => Ok acc
         | s :: ss =>
             rlet t := sail_time s in
             rlet acc := usize_add acc (if N.testbit mask j then f10 t else f05 t) in
             go (j + 1) acc ss
         end) 0 0 ss
  | SOr a b _ _ => rlet ta := sail_time a in rlet tb := sail_time b in usize_add ta tb
  end.
(** is_exact_sized: captain.rs:49-51, 128-130; captain/*.rs; mixed.rs:68-71 *)
Definition is_exact s : bool :=
  match s with
  | SWin _ => true
  | SMixed mask ss => bool_decide (count_ones mask = length ss)
  | _ => false
  end.
(** unpick: captain.rs:54 and the like (nothing, also for what is inside Not and Inserted..);
    captain/or.rs:25-29; mixed.rs:74-80 *)
Fixpoint unpick s : ship V :=
  match s with
  | SMixed _ ss => SMixed 0 (unpick <$> ss)
  | SOr a b _ past => SOr (unpick a) (unpick b) false past
  | s => s
  end.

(** *** RawEntityIdAccess, src/sparse_set/window.rs:291-393 *)
(** [ptr], [follow_up_ptrs] *)
Definition access : Type := list eid * list (list eid * N).
(** window.rs:323-325 *)
Definition acc_get (a : access) (k : N) : res eid := get_unchecked a.1 k.
(** window.rs:329-334 *)
Definition follow_up_len (a : access) : N := foldr (λ f n, f.2 + n) 0 a.2.
(** window.rs:338-346: the last one is popped *)
Definition acc_next_slice (a : access) : option (access * N) :=
  match last a.2 with
  | Some (ptr, len) => Some ((ptr, take (length a.2 - 1) a.2), len)
  | None => None
  end.

(** *** IntoShiperator *)

(** can_captain and can_sailor: src/iter/into_shiperator.rs:129-136, 210-217, 231-238, 423-435;
    into_shiperator/not.rs:25-32, 103-110; tracking.rs; or.rs:33-40 *)
Fixpoint can_captain (q : query) : bool :=
  match q with
  | QView _ | QMut _ | QIds _ | QTrack _ _ _ | QOr _ _ => true
  | QOpt _ | QNot _ _ => false
  | QTuple qs => existsb can_captain qs
  end.
Fixpoint can_sailor (q : query) : bool :=
  match q with
  | QIds _ => false
  | QTuple qs => forallb can_sailor qs
  | _ => true
  end.

(** The driving storage of a tuple, src/iter/into_shiperator.rs:398-405 and src/iter_component.rs:
    515-523: the first of those with the smallest sail time, below usize::MAX. *)
Fixpoint pick_min (j : nat) (l : list (bool * N)) (best : option nat) (min : N) : option nat :=
  match l with
  | [] => best
  | (can, t) :: l => if can && (t <? min) then pick_min (S j) l (Some j) t else pick_min (S j) l best min
  end.
(** src/iter/into_shiperator.rs:364-377: the first that cannot be a sailor *)
Fixpoint pick_unable (j : nat) (l : list bool) : option nat :=
  match l with
  | [] => None
  | can :: l => if can then pick_unable (S j) l else Some j
  end.
(** src/iter/into_shiperator.rs:379-396, 409-425, src/iter_component.rs:527-537: everything else is
    unpicked, the mask is kept when the driving one is exact *)
Definition settle (l : list (ship V * N * access)) (pick : option nat) : ship V * N * access :=
  let ss := imap (λ j x, if decide (pick = Some j) then x.1.1 else unpick x.1.1) l in
  match pick ≫= λ j, (l !! j) ≫= λ x, Some (j, x) with
  | Some (j, (s, len, a)) => (SMixed (if is_exact s then 2 ^ N.of_nat j else 0) ss, len, a)
  | None => (SMixed 0 ss, 0, ([], []))
  end.
(** The sail times of the members, src/iter/into_shiperator.rs:357-359 *)
Fixpoint sail_times (ss : list (ship V)) : res (list N) :=
  match ss with
  | [] => Ok []
  | s :: ss => rlet t := sail_time s in rlet l := sail_times ss in Ok (t :: l)
  end.

(** into_shiperator: src/iter/into_shiperator.rs:116-127, 196-207, 223-229, 316-426;
    into_shiperator/not.rs, tracking.rs; or.rs:11-31.  [env i] is the window of the view [i]. *)
Fixpoint into_ship (env : N -> window V) (q : query) : res (ship V * N * access) :=
  let dense i := ss_dense (wn_set (env i)) in
  match q with
  | QView i | QMut i => Ok (SWin (env i), lenN (dense i), (dense i, []))
  | QIds l => Ok (SIds l, lenN l, (l, []))
  | QOpt i => Ok (SOpt (env i), lenN (dense i), (dense i, []))
  | QNot excl i => Ok (SNot excl (env i), lenN (dense i), (dense i, []))
  | QTrack neg k i => Ok (STrack neg k (env i), lenN (dense i), (dense i, []))
  | QTuple qs =>
      rlet l := (fix go qs := match qs with
                              | [] => Ok []
                              | q :: qs => rlet x := into_ship env q in rlet l := go qs in Ok (x :: l)
                              end) qs in
      let sailors := can_sailor <$> qs in
      let unable := length (filter (λ b, b = false) sailors) in
      if negb (existsb can_captain qs) then Panic
      else if existsb (λ q, negb (can_captain q) && negb (can_sailor q)) qs then Panic
      else if (1 <? unable)%nat then Panic
      else
        rlet ts := sail_times (l.*1.*1) in
        if (unable =? 1)%nat then Ok (settle l (pick_unable 0 sailors))
        else Ok (settle l (pick_min 0 (zip (can_captain <$> qs) ts) None USIZE_MAX))
  | QOr a b =>
      rlet x := into_ship env a in
      rlet y := into_ship env b in
      let '(sa, la, aa) := x in
      let '(sb, lb, ab) := y in
      Ok (SOr sa sb true false, la, (aa.1, [(ab.1, lb)]))
  end.

(** IterComponent::into_shiperator, src/iter_component.rs:75-102 (&T), 194-230 (&mut T), 346-374
    (Mut<T>) and 482-537 (tuples): the types are those of views and tuples of them; there is no test who
    can drive or be looked up. *)
Fixpoint into_component (env : N -> window V) (q : query) : res (ship V * N * access) :=
  let dense i := ss_dense (wn_set (env i)) in
  match q with
  | QView i | QMut i => Ok (SWin (env i), lenN (dense i), (dense i, []))
  | QTuple qs =>
      rlet l := (fix go qs := match qs with
                              | [] => Ok []
                              | q :: qs => rlet x := into_component env q in rlet l := go qs in Ok (x :: l)
                              end) qs in
      rlet ts := sail_times (l.*1.*1) in
      Ok (settle l (pick_min 0 (pair true <$> ts) None USIZE_MAX))
  | _ => Panic
  end.

(** ** Shiperator, src/iter/mod.rs:32-38 *)
Record iter := Iter {
  it_ship : ship V;
  it_acc : access;
  it_exact : bool;
  it_start : N;
  it_end : N;
}.
Implicit Type it : iter.
(** IntoIter::iter, src/iter/into_shiperator.rs:78-90 *)
Definition q_iter (env : N -> window V) (q : query) : res iter :=
  rlet x := into_ship env q in
  let '(s, len, a) := x in Ok (Iter s a (is_exact s) 0 len).

(** into_iter and IntoIterRef::iter, src/iter_component.rs:50-73, iter_component/iter_ref.rs:33-50 *)
Definition c_iter (env : N -> window V) (q : query) : res iter :=
  rlet x := into_component env q in
  let '(s, len, a) := x in Ok (Iter s a (is_exact s) 0 len).

Definition with_range it (st en : N) : iter := Iter (it_ship it) (it_acc it) (it_exact it) st en.
(** src/iter/mod.rs:47-55: switch to the next slice, [None] if there is none *)
Definition it_next_slice it : option iter :=
  match acc_next_slice (it_acc it) with
  | Some (a, len) => Some (Iter (next_slice (it_ship it)) a (it_exact it) 0 len)
  | None => None
  end.
(** src/iter/mod.rs:60-68: the item at position [k] of the current slice, if any *)
Definition item_at it (k : N) : res (option (out V)) :=
  if it_exact it then rlet o := get_captain (it_ship it) k in Ok (Some o)
  else
    rlet e := acc_get (it_acc it) k in
    rlet x := indices_of (it_ship it) e k in
    match x with
    | Some x => rlet o := get_sailor (it_ship it) x in Ok (Some o)
    | None => Ok None
    end.

(** The number of positions left; bounds the rounds of the loops of [next] and [next_back]. *)
Definition it_left it : nat := N.to_nat (it_end it - it_start it + follow_up_len (it_acc it)).

(** src/iter/mod.rs:44-70.  The loop reads one position per round; when there are more rounds than
    positions it has left the slice, which is undefined behaviour. *)
Fixpoint next_loop (fuel : nat) it : res (iter * option (out V)) :=
  match fuel with
  | O => Ub
  | S fuel =>
      match (if it_start it =? it_end it then it_next_slice it else Some it) with
      | None => Ok (it, None)
      | Some it =>
          let it' := with_range it (it_start it + 1) (it_end it) in
          rlet o := item_at it (it_start it) in
          match o with
          | Some x => Ok (it', Some x)
          | None => next_loop fuel it'
          end
      end
  end.
Definition it_next it : res (iter * option (out V)) := next_loop (S (it_left it)) it.

(** src/iter/mod.rs:125-150 *)
Fixpoint back_loop (fuel : nat) it : res (iter * option (out V)) :=
  match fuel with
  | O => Ub
  | S fuel =>
      match (if it_start it =? it_end it then it_next_slice it else Some it) with
      | None => Ok (it, None)
      | Some it =>
          if it_end it =? 0 then Panic   (* end -= 1 *)
          else
            let it' := with_range it (it_start it) (it_end it - 1) in
            rlet o := item_at it (it_end it - 1) in
            match o with
            | Some x => Ok (it', Some x)
            | None => back_loop fuel it'
            end
      end
  end.
Definition it_next_back it : res (iter * option (out V)) := back_loop (S (it_left it)) it.

(** src/iter/mod.rs:104-119, the [while] loops of fold: the items at positions [k], [k+1], .. *)
Fixpoint fold_range it (k : N) (n : nat) : res (list (out V)) :=
  match n with
  | O => Ok []
  | S n => rlet o := item_at it k in rlet l := fold_range it (k + 1) n in Ok (option_list o ++ l)
  end.
(** src/iter/mod.rs:171-186, the [while] loops of rfold: positions [k + n - 1] down to [k] *)
Fixpoint rfold_range it (k : N) (n : nat) : res (list (out V)) :=
  match n with
  | O => Ok []
  | S n => rlet o := item_at it (k + N.of_nat n) in rlet l := rfold_range it k n in Ok (option_list o ++ l)
  end.
(** src/iter/mod.rs:84-120 (fold) and 153-187 (rfold), as the list of the visited items; [range] is
    the inner loop.  One round per slice. *)
Fixpoint fold_slices {A} (range : iter -> N -> nat -> res (list A)) (next : iter -> option iter) (fuel : nat) it
  : res (list A) :=
  match fuel with
  | O => Ub
  | S fuel =>
      match (if it_start it =? it_end it then next it else Some it) with
      | None => Ok []
      | Some it =>
          rlet l := range it (it_start it) (N.to_nat (it_end it - it_start it)) in
          rlet r := fold_slices range next fuel (with_range it (it_end it) (it_end it)) in
          Ok (l ++ r)
      end
  end.
Definition slices_fuel it : nat := S (S (length (it_acc it).2)).
Definition it_fold it : res (list (out V)) := fold_slices fold_range it_next_slice (slices_fuel it) it.
Definition it_rfold it : res (list (out V)) := fold_slices rfold_range it_next_slice (slices_fuel it) it.

(** src/iter/mod.rs:73-81 *)
Definition it_size_hint it : N * N :=
  let max := it_end it - it_start it + follow_up_len (it_acc it) in
  (if it_exact it then max else 0, max).

(** ** WithId, src/iter/with_id.rs *)
(** with_id.rs:26-34 *)
Definition wi_next it : res (iter * option (eid * out V)) :=
  rlet (it', o) := it_next it in
  match o with
  | Some x => rlet e := acc_get (it_acc it') (it_start it' - 1) in Ok (it', Some (e, x))
  | None => Ok (it', None)
  end.
(** with_id.rs:93-101 *)
Definition wi_next_back it : res (iter * option (eid * out V)) :=
  rlet (it', o) := it_next_back it in
  match o with
  | Some x => rlet e := acc_get (it_acc it') (it_end it' + 1) in Ok (it', Some (e, x))
  | None => Ok (it', None)
  end.
(** with_id.rs:55-78: the item at position [k] with the id there *)
Definition wi_item it (k : N) : res (option (eid * out V)) :=
  rlet e := acc_get (it_acc it) k in
  rlet o := item_at it k in
  Ok (pair e <$> o).
Fixpoint wi_range it (k : N) (n : nat) : res (list (eid * out V)) :=
  match n with
  | O => Ok []
  | S n => rlet o := wi_item it k in rlet l := wi_range it (k + 1) n in Ok (option_list o ++ l)
  end.
Fixpoint wi_rrange it (k : N) (n : nat) : res (list (eid * out V)) :=
  match n with
  | O => Ok []
  | S n => rlet o := wi_item it (k + N.of_nat n) in rlet l := wi_rrange it k n in Ok (option_list o ++ l)
  end.
(** with_id.rs:46-53: like [it_next_slice] without [shiperator.next_slice()] *)
Definition wi_next_slice it : option iter :=
  match acc_next_slice (it_acc it) with
  | Some (a, len) => Some (Iter (it_ship it) a (it_exact it) 0 len)
  | None => None
  end.
(** with_id.rs:40-80 *)
Definition wi_fold it : res (list (eid * out V)) := fold_slices wi_range wi_next_slice (slices_fuel it) it.
(** with_id.rs:103-143 *)
Definition wi_rfold it : res (list (eid * out V)) := fold_slices wi_rrange it_next_slice (slices_fuel it) it.

(** ** Parallel iteration *)
(** RawEntityIdAccess::split_at, src/sparse_set/window.rs:350-384: [position] finds the slice the
    split point is in, [remaining] is how many elements of it go to the left. *)
Fixpoint split_point (l : list (list eid * N)) (j : nat) (total count : N) : option (nat * N) :=
  match l with
  | [] => None
  | (_, len) :: l =>
      if count <=? total + len then Some (j, count - total) else split_point l (S j) (total + len) count
  end.
Definition acc_split_at (a : access) (count : N) : res (access * access) :=
  let '(j, remaining) := default (O, 0) (split_point a.2 0 0 count) in
  let lf := take j a.2 in
  let rt := drop j a.2 in
  if remaining =? 0 then Ok ((a.1, lf), (a.1, rt))
  else match rt with
       | (ptr, len) :: rt =>
           if remaining <=? len
           then Ok ((a.1, lf ++ [(ptr, remaining)]), (a.1, (ptr, len - remaining) :: rt))
           else Panic
       | [] => Panic
       end.
(** UnindexedProducer::split, src/iter/parallel.rs:11-40 *)
Definition it_split it : res (iter * option iter) :=
  let follow := follow_up_len (it_acc it) in
  let remaining := it_end it - it_start it in
  if remaining + follow <=? 1 then Ok (it, None)
  else
    let new_end := it_start it + remaining / 2 in
    rlet (l, r) := acc_split_at (it_acc it) (follow / 2) in
    Ok (Iter (it_ship it) l (it_exact it) (it_start it) new_end,
        Some (Iter (it_ship it) r (it_exact it) new_end (it_end it))).
End ship.
Arguments iter : clear implicits.

(** ** The f32 arithmetic of sail_time *)
(** [x as f32], exact below 2^24, then the nearest number with a mantissa of 24 bits, ties to even *)
Definition round24 (x : N) : N :=
  let k := N.log2 x - 23 in
  let q := x / 2 ^ k in
  let r := x mod 2 ^ k in
  if (2 * r <? 2 ^ k) || ((2 * r =? 2 ^ k) && N.even q) then q * 2 ^ k else (q + 1) * 2 ^ k.
(** [x as f32 as usize], saturating, src/iter/mixed.rs:56-59 *)
Definition f32_id (x : N) : N := N.min USIZE_MAX (round24 x).
(** NON_CAPTAIN_FACTOR = 0.5, mixed.rs:7, 61 *)
Definition f32_half (x : N) : N := N.min USIZE_MAX (round24 x / 2).
(** NOT_FACTOR = 1.2, src/iter/captain/not.rs:7, 21, 72; as an f32 it is 10066330 / 2^23 *)
Definition f32_not (x : N) : N := N.min USIZE_MAX (round24 (round24 x * 10066330) / 2 ^ 23).
(** TRACKING_FACTOR = 2.0, src/iter/captain/tracking.rs:4, 20 *)
Definition f32_track (x : N) : N := N.min USIZE_MAX (2 * round24 x).

(** IntoIter::iter as compiled *)
Definition shiperator {V} (env : N -> window V) (q : query) : res (iter V) :=
  q_iter f32_id f32_half f32_not f32_track env q.
(** IntoIterRef::iter as compiled *)
Definition component_iter {V} (env : N -> window V) (q : query) : res (iter V) :=
  c_iter f32_id f32_half f32_not f32_track env q.
