(* Specification vocabulary for layouts, packing and copying *)
From Coq Require Import ZArith List Bool Lia Sorted.
From Verif Require Import Base Model_Space Model_RangeList Model_Mem Model_Layout Spec_Space Spec_Type.
Import ListNotations.
Open Scope Z_scope.

(* lexicographic order of indexes: first dimension fastest *)
Definition LexLt (d : nat) (i j : index) : Prop :=
  ((2 < d)%nat /\ i2 i < i2 j) \/
  (((2 < d)%nat -> i2 i = i2 j) /\ (1 < d)%nat /\ i1 i < i1 j) \/
  (((2 < d)%nat -> i2 i = i2 j) /\ ((1 < d)%nat -> i1 i = i1 j) /\ i0 i < i0 j).

(* the list of all indexes of a box, in lexicographic order *)
Definition Enumerates (d : nat) (b : box) (L : list index) : Prop :=
  (forall i, In i L <-> InBox d i b /\ canon d i) /\ StronglySorted (LexLt d) L.

(* a non-empty range of the space with fewer than 2^64 indexes *)
Definition GoodRange (sp : space) (r : range) : Prop :=
  r_space r = Some sp /\ NonEmpty (sp_dims sp) (r_box r) /\
  exists n, HasCount (sp_dims sp) (r_box r) n /\ n < two64.

(* the layouts that can exist: created for a list of ranges, then entries possibly
   replaced by reuse of entries of other layouts *)
Inductive Built (sp : space) : lexlayout -> Prop :=
| Built_new ranges l : ranges <> [] -> Forall (GoodRange sp) ranges -> new_layout_lex ranges = Ok l -> Built sp l
| Built_reuse l n old nold l' : Built sp l -> Built sp old -> reuse_lex l n old nold = Ok (true, l') -> Built sp l'.

(* section n of the layout is for box b *)
Definition SectionBox (l : lexlayout) (n : Z) (b : box) : Prop :=
  0 <= n /\ exists e, nth_error (lx_e l) (Z.to_nat n) = Some e /\ r_box (le_range e) = b.

(* the mapping stores the element of index i at address a *)
Definition AddrOf (mp : lmap) (i : index) (a : Z) : Prop :=
  exists o, offset_lex (lm_layout mp) (lm_sec mp) i = Ok o /\ a = lm_start mp + o * lm_es mp.

(* the value (bytes) of index i in the mapping *)
Definition ValueAt (mp : lmap) (m : mem) (i : index) (v : list Z) : Prop :=
  exists a, AddrOf mp i a /\ v = mread m a (Z.to_nat (lm_es mp)).

(* a proper mapping for a section with box B with N indexes: elements have a size, its required
   range is part of the box *)
Definition GoodMap (sp : space) (mp : lmap) (B : box) (N : Z) : Prop :=
  Built sp (lm_layout mp) /\ SectionBox (lm_layout mp) (lm_sec mp) B /\ HasCount (sp_dims sp) B N /\
  0 < lm_es mp /\ r_space (lm_req mp) = Some sp /\ SubBox (sp_dims sp) (r_box (lm_req mp)) B.

(* extents of the first section of the layout and of B agree: where the specialised functions,
   which always use the strides of the first section, work *)
Definition SameExtent (d : nat) (l : lexlayout) (B : box) : Prop :=
  forall b, SectionBox l 0 b ->
  ((1 < d)%nat -> i0 (b_to B) - i0 (b_from B) = i0 (b_to b) - i0 (b_from b)) /\
  ((2 < d)%nat -> i1 (b_to B) - i1 (b_from B) = i1 (b_to b) - i1 (b_from b)).

(* areas [p,p+n) and [q,q+k) do not overlap *)
Definition Away (p n q k : Z) : Prop := p + n <= q \/ q + k <= p.

(* index equality on the used dimensions *)
Definition SameIndex (d : nat) (i j : index) : Prop :=
  i0 i = i0 j /\ ((1 < d)%nat -> i1 i = i1 j) /\ ((2 < d)%nat -> i2 i = i2 j).

(* Packing a range piece by piece. [pk m i buf size] is the pack function; each call may use a
   different buffer. The produced chunks are the bytes found in the buffer after each call. *)
Inductive PackRun (pk : mem -> index -> Z -> Z -> outcome (mem * index * Z)) (es : Z) (okbuf : Z -> Z -> Prop)
  : mem -> index -> list (list Z) -> mem -> index -> Prop :=
| PackRun_nil m i : PackRun pk es okbuf m i [] m i
| PackRun_cons m i buf size m1 i1 n cs m2 i2 :
    es <= size -> okbuf buf size -> pk m i buf size = Ok (m1, i1, n) ->
    PackRun pk es okbuf m1 i1 cs m2 i2 ->
    PackRun pk es okbuf m i (mread m1 buf (Z.to_nat (n * es)) :: cs) m2 i2.

(* Unpacking piece by piece: each chunk is received into a buffer, then unpacked *)
Inductive UnpackRun (up : mem -> index -> Z -> Z -> outcome (mem * index * Z)) (okbuf : Z -> Z -> Prop)
  : mem -> index -> list (list Z) -> mem -> index -> Prop :=
| UnpackRun_nil m i : UnpackRun up okbuf m i [] m i
| UnpackRun_cons m i buf c m1 i1 n cs m2 i2 :
    okbuf buf (Z.of_nat (length c)) ->
    up (mwrite m buf c) i buf (Z.of_nat (length c)) = Ok (m1, i1, n) ->
    UnpackRun up okbuf m1 i1 cs m2 i2 ->
    UnpackRun up okbuf m i (c :: cs) m2 i2.

(* the pack (unpack) functions of a layout for a mapping and a range: the specialised one or,
   e.g. if LAIK_LAYOUT_GENERIC is set, the generic one (layout.c:248-258) *)
Definition PackOf (sp : space) (mp : lmap) (B : box) (r : range) (pk : mem -> index -> Z -> Z -> outcome (mem * index * Z)) :=
  (pk = (fun m i buf size => pack_gen (gmap_of mp) r m i buf size)) \/
  (SameExtent (sp_dims sp) (lm_layout mp) B /\ pk = (fun m i buf size => pack_lex mp r m i buf size)).
Definition UnpackOf (sp : space) (mp : lmap) (B : box) (r : range) (up : mem -> index -> Z -> Z -> outcome (mem * index * Z)) :=
  (up = (fun m i buf size => unpack_gen (gmap_of mp) r m i buf size)) \/
  (SameExtent (sp_dims sp) (lm_layout mp) B /\ up = (fun m i buf size => unpack_lex mp r m i buf size)).

(* index i is the one at position k of the enumeration L of box b; after the last one: the end *)
Definition At (d : nat) (b : box) (L : list index) (i : index) (k : nat) : Prop :=
  (k <= length L)%nat /\
  match nth_error L k with Some j => SameIndex d i j | None => SameIndex d i (b_to b) end.

(* buffers lie in a scratch area not overlapping with the memory of the mapping *)
Definition Scratch (sb sn : Z) (buf size : Z) : Prop := sb <= buf /\ buf + size <= sb + sn.
Definition Separate (mp : lmap) (N sb sn : Z) : Prop := Away sb sn (lm_start mp) (N * lm_es mp).

(* same result of two pack functions: same memory, same count, same position *)
Definition SameResult (d : nat) (x y : outcome (mem * index * Z)) : Prop :=
  match x, y with
  | Ok (m, i, n), Ok (m', i', n') => m = m' /\ n = n' /\ SameIndex d i i'
  | Abort, Abort | Panic, Panic | UB, UB | NoFuel, NoFuel => True
  | _, _ => False
  end.

(* address a belongs to an element of an index of box b in the mapping *)
Definition Inside (d : nat) (mp : lmap) (b : box) (a : Z) : Prop :=
  exists i p, InBox d i b /\ AddrOf mp i p /\ p <= a < p + lm_es mp.
