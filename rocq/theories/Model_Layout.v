(* Model of src/layout.c and src/layout_lex.c *)
From Coq Require Import ZArith List Bool Lia.
From Verif Require Import Base Model_Space Model_RangeList Model_Mem.
Import ListNotations.
Open Scope Z_scope.

(* ---------- generic functions, layout.c ---------- *)

(* layout.c:37-52 next_lex: return value and new index *)
Definition next_lex (dims : nat) (b : box) (i : index) : bool * index :=
  let x := i0 i + 1 in
  if x <? i0 (b_to b) then (true, mkIdx x (i1 i) (i2 i)) else
  if Nat.eqb dims 1 then (false, mkIdx x (i1 i) (i2 i)) else
  let y := i1 i + 1 in
  let x := i0 (b_from b) in
  if y <? i1 (b_to b) then (true, mkIdx x y (i2 i)) else
  if Nat.eqb dims 2 then (false, mkIdx x y (i2 i)) else
  let z := i2 i + 1 in
  let y := i1 (b_from b) in
  (z <? i2 (b_to b), mkIdx x y z).

(* what the generic functions use of a mapping (include/laik/data-internal.h
   Laik_Mapping): the offset function of its layout for its section, start address,
   element size, required range *)
Record gmap := mkGmap {
  gm_dims : nat; gm_off : index -> outcome Z; gm_start : Z; gm_es : Z; gm_req : range }.

(* layout.c:74-93 the loop of laik_layout_copy_gen; result: memory and count *)
Fixpoint copy_gen_loop (fuel : nat) (dims : nat) (b : box) (fo to_ : gmap) (m : mem) (i : index) (count : Z)
  : outcome (mem * Z) :=
  match fuel with
  | O => NoFuel
  | S n =>
    do f <- gm_off fo i;
    do t <- gm_off to_ i;
    do m1 <- memcpy m (gm_start to_ + t * gm_es fo) (gm_start fo + f * gm_es fo) (gm_es fo);
    match next_lex dims b i with
    | (true, j) => copy_gen_loop n dims b fo to_ m1 j (count + 1)
    | (false, _) => Ok (m1, count + 1)
    end
  end.

(* layout.c:55-95 laik_layout_copy_gen. The log output is dropped. *)
Definition copy_gen (sp : space) (b : box) (fo to_ : gmap) (m : mem) : outcome mem :=
  cassert (gm_es fo =? gm_es to_) (
  do s <- box_size (sp_dims sp) b;
  do r <- copy_gen_loop (S (Z.to_nat s)) (sp_dims sp) b fo to_ m (b_from b) 0;
  cassert (snd r =? s) (Ok (fst r))).

(* direction of the element copy: pack copies from the mapping to the buffer *)
Definition cp_pack (es : Z) (m : mem) (ptr buf : Z) : outcome mem := memcpy m buf ptr es.
Definition cp_unpack (es : Z) (m : mem) (ptr buf : Z) : outcome mem := memcpy m ptr buf es.

(* layout.c:126-147, 189-210: the loop of laik_layout_pack_gen and laik_layout_unpack_gen *)
Fixpoint gen_loop (fuel : nat) (cp : mem -> Z -> Z -> outcome mem) (dims : nat) (b : box) (g : gmap)
    (m : mem) (i : index) (buf size count : Z) : outcome (mem * index * Z) :=
  match fuel with
  | O => NoFuel
  | S n =>
    if size >=? gm_es g then
      do o <- gm_off g i;
      do m1 <- cp m (gm_start g + o * gm_es g) buf;
      match next_lex dims b i with
      | (true, j) => gen_loop n cp dims b g m1 j (buf + gm_es g) (size - gm_es g) (count + 1)
      | (false, _) => Ok (m1, b_to b, count + 1)
      end
    else Ok (m, i, count)
  end.

(* layout.c:100-157 laik_layout_pack_gen: new memory, new index, number of elements. The
   range has the space of the mapping's required range *)
Definition pack_gen (g : gmap) (r : range) (m : mem) (i : index) (buf size : Z) : outcome (mem * index * Z) :=
  if index_isEqual (gm_dims g) i (b_to (r_box r)) then Ok (m, i, 0) else
  do w <- range_within_range r (gm_req g);
  cassert w (
  gen_loop (S (Z.to_nat size)) (cp_pack (gm_es g)) (match r_space r with Some s => sp_dims s | None => 0 end)
    (r_box r) g m i buf size 0).

(* layout.c:162-218 laik_layout_unpack_gen *)
Definition unpack_gen (g : gmap) (r : range) (m : mem) (i : index) (buf size : Z) : outcome (mem * index * Z) :=
  cassert (size >? 0) (
  cassert (negb (index_isEqual (gm_dims g) i (b_to (r_box r)))) (
  do w <- range_within_range r (gm_req g);
  cassert w (
  gen_loop (S (Z.to_nat size)) (cp_unpack (gm_es g)) (match r_space r with Some s => sp_dims s | None => 0 end)
    (r_box r) g m i buf size 0))).

(* ---------- lexicographical layout, layout_lex.c ---------- *)

(* layout_lex.c:28-33 Lex_Entry. Counts and strides (uint64_t) are unbounded integers. *)
Record lexentry := mkLe { le_range : range; le_count : Z; le_s0 : Z; le_s1 : Z; le_s2 : Z }.
(* layout_lex.c:35-39 Laik_Layout_Lex *)
Record lexlayout := mkLex { lx_dims : nat; lx_count : Z; lx_e : list lexentry }.

(* layout_lex.c:503-528 one entry of laik_new_layout_lex *)
Definition new_lexentry (dims : nat) (r : range) : outcome lexentry :=
  let b := r_box r in
  do c <- range_size r;
  cassert (i0 (b_from b) <? i0 (b_to b)) (
  let w0 := i0 (b_to b) - i0 (b_from b) in
  let w1 := i1 (b_to b) - i1 (b_from b) in
  cassert (if Nat.ltb 1 dims then i1 (b_from b) <? i1 (b_to b) else true) (
  cassert (if Nat.ltb 2 dims then i2 (b_from b) <? i2 (b_to b) else true) (
  Ok (mkLe r c 1 (if Nat.ltb 1 dims then w0 else 0) (if Nat.ltb 2 dims then w0 * w1 else 0))))).

Fixpoint new_lexentries (dims : nat) (l : list range) : outcome (list lexentry) :=
  match l with
  | [] => Ok []
  | r :: l' => do e <- new_lexentry dims r; do es <- new_lexentries dims l'; Ok (e :: es)
  end.

(* layout_lex.c:483-531 laik_new_layout_lex; the dimension is taken from the first range *)
Definition new_layout_lex (ranges : list range) : outcome lexlayout :=
  match ranges with
  | [] => UB
  | r :: _ =>
    match r_space r with
    | None => UB
    | Some s =>
      do es <- new_lexentries (sp_dims s) ranges;
      Ok (mkLex (sp_dims s) (fold_left Z.add (map le_count es) 0) es)
    end
  end.

(* layout_lex.c:61-81 section_lex *)
Fixpoint section_loop (dims : nat) (i : index) (n : Z) (l : list lexentry) : Z :=
  match l with
  | [] => -1
  | e :: l' =>
    let b := r_box (le_range e) in
    if (i0 i <? i0 (b_from b)) || (i0 i >=? i0 (b_to b)) then section_loop dims i (n + 1) l' else
    if Nat.ltb 1 dims && ((i1 i <? i1 (b_from b)) || (i1 i >=? i1 (b_to b))) then section_loop dims i (n + 1) l' else
    if Nat.ltb 2 dims && ((i2 i <? i2 (b_from b)) || (i2 i >=? i2 (b_to b))) then section_loop dims i (n + 1) l' else
    n
  end.
Definition section_lex (l : lexlayout) (i : index) : Z := section_loop (lx_dims l) i 0 (lx_e l).

(* layout_lex.c:85-90 mapno_lex *)
Definition mapno_lex (l : lexlayout) (n : Z) : outcome Z :=
  cassert (n <? Z.of_nat (length (lx_e l))) (Ok n).

(* layout_lex.c:98-109 the offset in an entry *)
Definition lexoff (dims : nat) (e : lexentry) (i : index) : Z :=
  let b := r_box (le_range e) in
  (i0 i - i0 (b_from b)) +
  (if Nat.ltb 1 dims then (i1 i - i1 (b_from b)) * le_s1 e +
     (if Nat.ltb 2 dims then (i2 i - i2 (b_from b)) * le_s2 e else 0) else 0).

(* layout_lex.c:94-111 offset_lex *)
Definition offset_lex (l : lexlayout) (n : Z) (i : index) : outcome Z :=
  cassert ((0 <=? n) && (n <? Z.of_nat (length (lx_e l)))) (
  do e <- aread (lx_e l) n;
  let off := lexoff (lx_dims l) e i in
  cassert ((0 <=? off) && (off <? le_count e)) (Ok off)).

(* layout_lex.c:535-543 laik_layout_lex_stride *)
Definition lex_stride (l : lexlayout) (n d : Z) : outcome Z :=
  cassert ((0 <=? n) && (n <? Z.of_nat (length (lx_e l)))) (
  cassert ((0 <=? d) && (d <? Z.of_nat (lx_dims l))) (
  do e <- aread (lx_e l) n;
  Ok (if d =? 0 then le_s0 e else if d =? 1 then le_s1 e else le_s2 e))).

(* layout_lex.c:140-172 reuse_lex: return value and the (possibly changed) new layout. An
   invalid [nold] is an access outside of the array *)
Definition reuse_lex (l : lexlayout) (n : Z) (old : lexlayout) (nold : Z) : outcome (bool * lexlayout) :=
  cassert ((0 <=? n) && (n <? Z.of_nat (length (lx_e l)))) (
  do en <- aread (lx_e l) n;
  do eo <- aread (lx_e old) nold;
  do w <- range_within_range (le_range en) (le_range eo);
  if negb w then Ok (false, l) else
  Ok (true, mkLex (lx_dims l) (lx_count l + (le_count eo - le_count en))
              (upd (Z.to_nat n) (mkLe (le_range eo) (le_count eo) (le_s0 eo) (le_s1 eo) (le_s2 eo)) (lx_e l)))).

(* a mapping with lexicographical layout: layout, layoutSection, start, element size,
   requiredRange *)
Record lmap := mkLmap { lm_layout : lexlayout; lm_sec : Z; lm_start : Z; lm_es : Z; lm_req : range }.

(* the same mapping as seen by the generic functions *)
Definition gmap_of (mp : lmap) : gmap :=
  mkGmap (lx_dims (lm_layout mp)) (offset_lex (lm_layout mp) (lm_sec mp)) (lm_start mp) (lm_es mp) (lm_req mp).

(* layout_lex.c:221-231 the loops of copy_lex: [n1] rows *)
Fixpoint copy_rows (n1 : nat) (len fs ts : Z) (m : mem) (fp tp : Z) : outcome mem :=
  match n1 with
  | O => Ok m
  | S n => do m1 <- memcpy m tp fp len; copy_rows n len fs ts m1 (fp + fs) (tp + ts)
  end.
Fixpoint copy_planes (n2 n1 : nat) (len fs1 ts1 fs2 ts2 : Z) (m : mem) (fp tp : Z) : outcome mem :=
  match n2 with
  | O => Ok m
  | S n => do m1 <- copy_rows n1 len fs1 ts1 m fp tp; copy_planes n n1 len fs1 ts1 fs2 ts2 m1 (fp + fs2) (tp + ts2)
  end.

(* layout_lex.c:176-232 copy_lex. The strides are those of entry 0 whatever the section. *)
Definition copy_lex (b : box) (fo to_ : lmap) (m : mem) : outcome mem :=
  do fe <- aread (lx_e (lm_layout fo)) 0;
  do te <- aread (lx_e (lm_layout to_)) 0;
  let es := lm_es fo in
  cassert (es =? lm_es to_) (
  let dims := lx_dims (lm_layout fo) in
  cassert (Nat.eqb dims (lx_dims (lm_layout to_))) (
  let c0 := i0 (b_to b) - i0 (b_from b) in
  let c1 := if Nat.ltb dims 2 then 1 else i1 (b_to b) - i1 (b_from b) in
  let c2 := if Nat.ltb dims 3 then 1 else i2 (b_to b) - i2 (b_from b) in
  cassert (negb (c0 * c1 * c2 =? 0)) (
  do fo_ <- offset_lex (lm_layout fo) (lm_sec fo) (b_from b);
  do to__ <- offset_lex (lm_layout to_) (lm_sec to_) (b_from b);
  copy_planes (Z.to_nat c2) (Z.to_nat c1) (c0 * es) (le_s1 fe * es) (le_s1 te * es) (le_s2 fe * es) (le_s2 te * es)
    m (lm_start fo + fo_ * es) (lm_start to_ + to__ * es)))).

(* layout_lex.c:290-325, 412-447: the loops of pack_lex and unpack_lex. State: memory, idxPtr,
   buf, size, count; the loops return the state, the stop flag and the loop variables *)
Record pst := mkPst { p_mem : mem; p_ptr : Z; p_buf : Z; p_size : Z; p_cnt : Z }.

Fixpoint lex_row (n : nat) (cp : mem -> Z -> Z -> outcome mem) (es : Z) (s : pst) (x : Z) : outcome (pst * bool * Z) :=
  match n with
  | O => Ok (s, false, x)
  | S n' =>
    if p_size s <? es then Ok (s, true, x) else
    do m1 <- cp (p_mem s) (p_ptr s) (p_buf s);
    lex_row n' cp es (mkPst m1 (p_ptr s + es) (p_buf s + es) (p_size s - es) (p_cnt s + 1)) (x + 1)
  end.
Definition skip (s : pst) (d : Z) : pst := mkPst (p_mem s) (p_ptr s + d) (p_buf s) (p_size s) (p_cnt s).
Fixpoint lex_plane (n : nat) cp (es from0 to0 skip0 : Z) (s : pst) (x y : Z) : outcome (pst * bool * Z * Z) :=
  match n with
  | O => Ok (s, false, x, y)
  | S n' =>
    do r <- lex_row (Z.to_nat (to0 - x)) cp es s x;
    match r with
    | (s1, true, x1) => Ok (s1, true, x1, y)
    | (s1, false, _) => lex_plane n' cp es from0 to0 skip0 (skip s1 (skip0 * es)) from0 (y + 1)
    end
  end.
Fixpoint lex_cube (n : nat) cp (es from0 to0 from1 to1 skip0 skip1 : Z) (s : pst) (x y z : Z)
  : outcome (pst * bool * Z * Z * Z) :=
  match n with
  | O => Ok (s, false, x, y, z)
  | S n' =>
    do r <- lex_plane (Z.to_nat (to1 - y)) cp es from0 to0 skip0 s x y;
    match r with
    | (s1, true, x1, y1) => Ok (s1, true, x1, y1, z)
    | (s1, false, x1, _) => lex_cube n' cp es from0 to0 from1 to1 skip0 skip1 (skip s1 (skip1 * es)) x1 from1 (z + 1)
    end
  end.

(* layout_lex.c:250-357, 373-479: common part of pack_lex and unpack_lex. *)
Definition lex_loop (cp : mem -> Z -> Z -> outcome mem) (mp : lmap) (r : range) (m : mem) (i : index) (buf size : Z)
  : outcome (mem * index * Z) :=
  let es := lm_es mp in
  let dims := lx_dims (lm_layout mp) in
  let b := r_box r in
  do e <- aread (lx_e (lm_layout mp)) 0;
  cassert (le_s0 e =? 1) (
  cassert (if Nat.ltb 1 dims then le_s0 e <=? le_s1 e else true) (
  cassert (if Nat.ltb 2 dims then le_s1 e <=? le_s2 e else true) (
  do w <- range_within_range r (lm_req mp);
  cassert w (
  do off <- offset_lex (lm_layout mp) (lm_sec mp) i;
  let from0 := i0 (b_from b) in
  let from1 := if Nat.ltb dims 2 then 0 else i1 (b_from b) in
  let to0 := i0 (b_to b) in
  let to1 := if Nat.ltb dims 2 then 1 else i1 (b_to b) in
  let to2 := if Nat.ltb dims 3 then 1 else i2 (b_to b) in
  let x := i0 i in
  let y := if Nat.ltb dims 2 then 0 else i1 i in
  let z := if Nat.ltb dims 3 then 0 else i2 i in
  let skip0 := le_s1 e - (to0 - from0) in
  let skip1 := le_s2 e - le_s1 e * (to1 - from1) in
  do q <- lex_cube (Z.to_nat (to2 - z)) cp es from0 to0 from1 to1 skip0 skip1
            (mkPst m (lm_start mp + off * es) buf size 0) x y z;
  match q with
  | (s, true, x1, y1, z1) => Ok (p_mem s, mkIdx x1 y1 z1, p_cnt s)
  | (s, false, _, _, z1) => Ok (p_mem s, mkIdx to0 to1 z1, p_cnt s)
  end)))).

(* layout_lex.c:236-357 pack_lex *)
Definition pack_lex (mp : lmap) (r : range) (m : mem) (i : index) (buf size : Z) : outcome (mem * index * Z) :=
  if index_isEqual (lx_dims (lm_layout mp)) i (b_to (r_box r)) then Ok (m, i, 0)
  else lex_loop (cp_pack (lm_es mp)) mp r m i buf size.

(* layout_lex.c:359-479 unpack_lex *)
Definition unpack_lex (mp : lmap) (r : range) (m : mem) (i : index) (buf size : Z) : outcome (mem * index * Z) :=
  cassert (size >? 0) (
  cassert (negb (index_isEqual (lx_dims (lm_layout mp)) i (b_to (r_box r)))) (
  lex_loop (cp_unpack (lm_es mp)) mp r m i buf size)).
