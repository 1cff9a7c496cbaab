(* Model of the index and range functions of src/space.c *)
From Coq Require Import ZArith List Bool Lia.
From Verif Require Import Base.
Import ListNotations.
Open Scope Z_scope.

(* include/laik/space.h: Laik_Index. Always 3 coordinates; a d-dimensional
   space only uses the first d. Borders are unbounded Z instead of int64_t. *)
Record index := mkIdx { i0 : Z; i1 : Z; i2 : Z }.

(* from/to part of include/laik/space.h: Laik_Range (half-open box) *)
Record box := mkBox { b_from : index; b_to : index }.

(* include/laik/space-internal.h: struct _Laik_Space. Only identity (the
   pointer), dimension and borders are kept. *)
Record space := mkSpace { sp_id : nat; sp_dims : nat; sp_box : box }.

(* include/laik/space.h: Laik_Range. A NULL space pointer is None. *)
Record range := mkRange { r_space : option space; r_box : box }.

(* space.c:77-87 laik_index_isEqual *)
Definition index_isEqual (dims : nat) (a b : index) : bool :=
  if negb (i0 a =? i0 b) then false else
  if Nat.eqb dims 1 then true else
  if negb (i1 a =? i1 b) then false else
  if Nat.eqb dims 2 then true else
  if negb (i2 a =? i2 b) then false else true.

(* space.c:61-73 laik_add_index / laik_sub_index *)
Definition add_index (a b : index) : index :=
  mkIdx (i0 a + i0 b) (i1 a + i1 b) (i2 a + i2 b).
Definition sub_index (a b : index) : index :=
  mkIdx (i0 a - i0 b) (i1 a - i1 b) (i2 a - i2 b).

(* space.c:141-161 laik_range_isEmpty, the part after the space test *)
Definition box_isEmpty (dims : nat) (b : box) : bool :=
  if i0 (b_from b) >=? i0 (b_to b) then true else
  if Nat.ltb 1 dims then
    (if i1 (b_from b) >=? i1 (b_to b) then true else
     if Nat.ltb 2 dims then
       (if i2 (b_from b) >=? i2 (b_to b) then true else false)
     else false)
  else false.

(* space.c:165-174 intersectRange; None = returns false *)
Definition intersectRange (from1 to1 from2 to2 : Z) : option (Z * Z) :=
  if from1 >=? to2 then None else
  if from2 >=? to1 then None else
  Some (if from1 >? from2 then from1 else from2,
        if to1 >? to2 then to2 else to1).

(* space.c:177-205 laik_range_intersect after the space tests. The C code
   returns a pointer to a static range; the model returns the value. [g] are the
   left-over values of the static variable for coordinates that are not written. *)
Definition box_intersect_g (g : box) (dims : nat) (a b : box) : option box :=
  match intersectRange (i0 (b_from a)) (i0 (b_to a)) (i0 (b_from b)) (i0 (b_to b)) with
  | None => None
  | Some (f0, t0) =>
    if Nat.ltb 1 dims then
      match intersectRange (i1 (b_from a)) (i1 (b_to a)) (i1 (b_from b)) (i1 (b_to b)) with
      | None => None
      | Some (f1, t1) =>
        if Nat.ltb 2 dims then
          match intersectRange (i2 (b_from a)) (i2 (b_to a)) (i2 (b_from b)) (i2 (b_to b)) with
          | None => None
          | Some (f2, t2) => Some (mkBox (mkIdx f0 f1 f2) (mkIdx t0 t1 t2))
          end
        else Some (mkBox (mkIdx f0 f1 (i2 (b_from g))) (mkIdx t0 t1 (i2 (b_to g))))
      end
    else Some (mkBox (mkIdx f0 (i1 (b_from g)) (i2 (b_from g)))
                     (mkIdx t0 (i1 (b_to g)) (i2 (b_to g))))
  end.

(* the same with zero left-overs: used by the rest of the model, where the
   unused coordinates are never looked at *)
Definition zbox : box := mkBox (mkIdx 0 0 0) (mkIdx 0 0 0).
Definition box_intersect (dims : nat) (a b : box) : option box :=
  box_intersect_g zbox dims a b.

(* space.c:208-226 laik_range_expand after the space tests *)
Definition box_expand (dims : nat) (dst src : box) : box :=
  let f0 := if i0 (b_from src) <? i0 (b_from dst) then i0 (b_from src) else i0 (b_from dst) in
  let t0 := if i0 (b_to src) >? i0 (b_to dst) then i0 (b_to src) else i0 (b_to dst) in
  if Nat.eqb dims 1 then
    mkBox (mkIdx f0 (i1 (b_from dst)) (i2 (b_from dst)))
          (mkIdx t0 (i1 (b_to dst)) (i2 (b_to dst))) else
  let f1 := if i1 (b_from src) <? i1 (b_from dst) then i1 (b_from src) else i1 (b_from dst) in
  let t1 := if i1 (b_to src) >? i1 (b_to dst) then i1 (b_to src) else i1 (b_to dst) in
  if Nat.eqb dims 2 then
    mkBox (mkIdx f0 f1 (i2 (b_from dst))) (mkIdx t0 t1 (i2 (b_to dst))) else
  let f2 := if i2 (b_from src) <? i2 (b_from dst) then i2 (b_from src) else i2 (b_from dst) in
  let t2 := if i2 (b_to src) >? i2 (b_to dst) then i2 (b_to src) else i2 (b_to dst) in
  mkBox (mkIdx f0 f1 f2) (mkIdx t0 t1 t2).

(* one dimension of laik_range_within_range (space.c:237-241, 244-248, 251-255):
   the check fails only if [f1,t1) is not empty *)
Definition within1 (f1 t1 f2 t2 : Z) : bool :=
  if f1 <? t1 then
    (if f1 <? f2 then false else if t1 >? t2 then false else true)
  else true.

(* space.c:229-257 laik_range_within_range after the space tests *)
Definition box_within (dims : nat) (a b : box) : bool :=
  if negb (within1 (i0 (b_from a)) (i0 (b_to a)) (i0 (b_from b)) (i0 (b_to b))) then false else
  if Nat.eqb dims 1 then true else
  if negb (within1 (i1 (b_from a)) (i1 (b_to a)) (i1 (b_from b)) (i1 (b_to b))) then false else
  if Nat.eqb dims 2 then true else
  if negb (within1 (i2 (b_from a)) (i2 (b_to a)) (i2 (b_from b)) (i2 (b_to b))) then false else true.

(* space.c:266-276 laik_range_isEqual after the space tests *)
Definition box_isEqual (dims : nat) (a b : box) : bool :=
  if negb (index_isEqual dims (b_from a) (b_from b)) then false else
  if negb (index_isEqual dims (b_to a) (b_to b)) then false else true.

Definition two64 : Z := 2 ^ 64.

(* space.c:280-297 laik_range_size after the space test; uint64_t arithmetic
   wraps around *)
Definition box_size (dims : nat) (b : box) : outcome Z :=
  cassert (i0 (b_to b) >=? i0 (b_from b)) (
  let s := (i0 (b_to b) - i0 (b_from b)) mod two64 in
  if Nat.ltb 1 dims then
    cassert (i1 (b_to b) >=? i1 (b_from b)) (
    let s := (s * ((i1 (b_to b) - i1 (b_from b)) mod two64)) mod two64 in
    if Nat.ltb 2 dims then
      cassert (i2 (b_to b) >=? i2 (b_from b)) (
      Ok ((s * ((i2 (b_to b) - i2 (b_from b)) mod two64)) mod two64))
    else Ok s)
  else Ok s).

Definition index_eqb (a b : index) : bool := (i0 a =? i0 b) && (i1 a =? i1 b) && (i2 a =? i2 b).

(* pointer equality of spaces. The identity [sp_id] stands for the pointer; the content
   is compared as well, so that equal spaces are equal values (two spaces with the same
   pointer always have the same content) *)
Definition space_eq (a b : space) : bool :=
  Nat.eqb (sp_id a) (sp_id b) && Nat.eqb (sp_dims a) (sp_dims b) &&
  index_eqb (b_from (sp_box a)) (b_from (sp_box b)) && index_eqb (b_to (sp_box a)) (b_to (sp_box b)).

(* space.c:141-161 laik_range_isEmpty *)
Definition range_isEmpty (r : range) : bool :=
  match r_space r with None => true | Some s => box_isEmpty (sp_dims s) (r_box r) end.

(* space.c:177-205 laik_range_intersect: Ok None = NULL pointer, a result with
   r_space = None is the invalid range. [g]: old content of the static result. *)
Definition range_intersect (g : box) (a b : range) : outcome (option range) :=
  match r_space a, r_space b with
  | Some s1, Some s2 =>
      cassert (space_eq s1 s2)
        (Ok (option_map (mkRange (Some s1))
               (box_intersect_g g (sp_dims s1) (r_box a) (r_box b))))
  | _, _ => Ok (Some (mkRange None g))
  end.

(* space.c:208-226 laik_range_expand: new value of dst *)
Definition range_expand (dst src : range) : outcome range :=
  match r_space dst with
  | None => Ok dst
  | Some sd =>
      match r_space src with
      | None => Abort
      | Some ss => cassert (space_eq ss sd)
                     (Ok (mkRange (Some sd) (box_expand (sp_dims ss) (r_box dst) (r_box src))))
      end
  end.

(* space.c:229-257 laik_range_within_range *)
Definition range_within_range (a b : range) : outcome bool :=
  match r_space a, r_space b with
  | Some s1, Some s2 => cassert (space_eq s1 s2) (Ok (box_within (sp_dims s1) (r_box a) (r_box b)))
  | _, _ => Ok false
  end.

(* space.c:330-399 the range stored in a space created by laik_new_space_*d has
   the space itself as its space pointer *)
Definition space_asrange (s : space) : range := mkRange (Some s) (sp_box s).

(* space.c:260-263 laik_range_within_space *)
Definition range_within_space (r : range) (s : space) : outcome bool :=
  range_within_range r (space_asrange s).

(* space.c:266-276 laik_range_isEqual *)
Definition range_isEqual (a b : range) : bool :=
  match r_space a, r_space b with
  | Some s1, Some s2 =>
      if negb (space_eq s1 s2) then false else box_isEqual (sp_dims s1) (r_box a) (r_box b)
  | _, _ => false
  end.

(* space.c:280-297 laik_range_size *)
Definition range_size (r : range) : outcome Z :=
  match r_space r with None => Ok 0 | Some s => box_size (sp_dims s) (r_box r) end.
