(* Model of the encoding of index spaces in the space store (src/space.c). Strings are lists of
   bytes. Not modelled: the callbacks updating existing space objects, names of spaces. *)
From Coq Require Import ZArith List Bool Lia.
From Verif Require Import Base Model_Space Model_KVS.
Import ListNotations.
Open Scope Z_scope.

(* printf conversion %ld: decimal digits, most significant first; [n] is fuel *)
Fixpoint print_nat (n : nat) (z : Z) : list Z :=
  match n with
  | O => []
  | S n' => if z <? 10 then [48 + z] else print_nat n' (z / 10) ++ [48 + z mod 10]
  end.
Definition print_dec (z : Z) : list Z :=
  if z <? 0 then 45 :: print_nat (S (Z.to_nat (Z.log2 (- z)))) (- z) else print_nat (S (Z.to_nat (Z.log2 z))) z.

(* items of a format string: a character, or %ld *)
Inductive fitem := FChar (c : Z) | FInt.

(* sprintf with a format of characters and %ld *)
Fixpoint print_fmt (f : list fitem) (args : list Z) : list Z :=
  match f with
  | [] => []
  | FChar c :: f' => c :: print_fmt f' args
  | FInt :: f' => match args with a :: args' => print_dec a ++ print_fmt f' args' | [] => [] end
  end.

(* scanf conversion %ld (C17 7.21.6.2): skips white space, reads an optional sign and the longest
   sequence of digits. Values which do not fit are clamped (as in glibc). None: matching failure. *)
Definition is_space (c : Z) : bool := (c =? 32) || ((9 <=? c) && (c <=? 13)).
Definition is_digit (c : Z) : bool := (48 <=? c) && (c <=? 57).
Fixpoint skip_space (l : list Z) : list Z :=
  match l with c :: l' => if is_space c then skip_space l' else l | [] => [] end.
Fixpoint scan_nat (acc : Z) (l : list Z) : Z * list Z :=
  match l with
  | c :: l' => if is_digit c then scan_nat (acc * 10 + (c - 48)) l' else (acc, l)
  | [] => (acc, [])
  end.
Definition clamp (z : Z) : Z := Z.max (- 2 ^ 63) (Z.min (2 ^ 63 - 1) z).
Definition scan_dec (l : list Z) : option (Z * list Z) :=
  let l1 := skip_space l in
  let '(neg, l2) := match l1 with
                    | c :: t => if c =? 45 then (true, t) else if c =? 43 then (false, t) else (false, l1)
                    | [] => (false, l1)
                    end in
  match l2 with
  | c :: _ => if is_digit c then let '(v, r) := scan_nat 0 l2 in Some (clamp (if neg then - v else v), r) else None
  | [] => None
  end.

(* sscanf: the values assigned, in order; it ends at the first mismatch *)
Fixpoint scan_fmt (f : list fitem) (l : list Z) : list Z :=
  match f with
  | [] => []
  | FChar c :: f' => match l with x :: l' => if x =? c then scan_fmt f' l' else [] | [] => [] end
  | FInt :: f' => match scan_dec l with Some (v, l') => v :: scan_fmt f' l' | None => [] end
  end.

(* space-internal.h struct _Laik_Space: address of the object, dims, and its range, i.e. the space
   pointer in this range (NULL is None), and the borders *)
Record sobj := mkSo { so_id : nat; so_dims : nat; so_rspace : option nat; so_box : box }.

(* space.c:330-352 laik_new_space: the range is left as malloc returned it [junk] *)
Definition new_space (id : nat) (junk : option nat * box) : sobj := mkSo id 0 (fst junk) (snd junk).

(* space.c:355-399 laik_new_space_1d/2d/3d with laik_range_init_1d/2d/3d (89-135) *)
Definition new_space_1d (id : nat) (s1 : Z) : sobj := mkSo id 1 (Some id) (mkBox (mkIdx 0 0 0) (mkIdx s1 0 0)).
Definition new_space_2d (id : nat) (s1 s2 : Z) : sobj := mkSo id 2 (Some id) (mkBox (mkIdx 0 0 0) (mkIdx s1 s2 0)).
Definition new_space_3d (id : nat) (s1 s2 s3 : Z) : sobj := mkSo id 3 (Some id) (mkBox (mkIdx 0 0 0) (mkIdx s1 s2 s3)).

(* the formats in space.c:423-433 and 443-456, after the digit for the dimension *)
Definition fmt1 : list fitem := [FChar 40; FInt; FChar 47; FInt; FChar 41].
Definition fmt2 : list fitem := [FChar 40; FInt; FChar 44; FInt; FChar 47; FInt; FChar 44; FInt; FChar 41].
Definition fmt3 : list fitem :=
  [FChar 40; FInt; FChar 44; FInt; FChar 44; FInt; FChar 47; FInt; FChar 44; FInt; FChar 44; FInt; FChar 41].

(* space.c:417-437 laik_space_serialize: the string, without terminating zero. Writing behind the
   end of the static buffer of 100 bytes is undefined. *)
Definition space_serialize (s : sobj) : outcome (list Z) :=
  let f := b_from (so_box s) in let t := b_to (so_box s) in
  let put l := if Z.of_nat (length l) + 1 >? 100 then UB else Ok l in
  match so_dims s with
  | 1%nat => put (49 :: print_fmt fmt1 [i0 f; i0 t])
  | 2%nat => put (50 :: print_fmt fmt2 [i0 f; i1 f; i0 t; i1 t])
  | 3%nat => put (51 :: print_fmt fmt3 [i0 f; i1 f; i2 f; i0 t; i1 t; i2 t])
  | _ => Abort
  end.

(* assign scanned values to the given coordinates, as far as there are some *)
Definition or_old (vs : list Z) (k : nat) (old : Z) : Z := match nth_error vs k with Some v => v | None => old end.

(* space.c:439-459 laik_space_set on a C string. Even if it fails, dims and some borders may have been set. *)
Definition space_set (s : sobj) (v : list Z) : bool * sobj :=
  let f := b_from (so_box s) in let t := b_to (so_box s) in
  match v with
  | [] => (false, s)
  | c :: r =>
      if (c <? 49) || (c >? 51) then (false, s) else
      if c - 48 =? 1 then
        let vs := scan_fmt fmt1 r in
        (Nat.eqb (length vs) 2,
         mkSo (so_id s) 1 (so_rspace s) (mkBox (mkIdx (or_old vs 0 (i0 f)) (i1 f) (i2 f)) (mkIdx (or_old vs 1 (i0 t)) (i1 t) (i2 t))))
      else if c - 48 =? 2 then
        let vs := scan_fmt fmt2 r in
        (Nat.eqb (length vs) 4,
         mkSo (so_id s) 2 (so_rspace s) (mkBox (mkIdx (or_old vs 0 (i0 f)) (or_old vs 1 (i1 f)) (i2 f))
                                               (mkIdx (or_old vs 2 (i0 t)) (or_old vs 3 (i1 t)) (i2 t))))
      else
        let vs := scan_fmt fmt3 r in
        (Nat.eqb (length vs) 6,
         mkSo (so_id s) 3 (so_rspace s) (mkBox (mkIdx (or_old vs 0 (i0 f)) (or_old vs 1 (i1 f)) (or_old vs 2 (i2 f)))
                                               (mkIdx (or_old vs 3 (i0 t)) (or_old vs 4 (i1 t)) (or_old vs 5 (i2 t)))))
  end.

(* space.c:487-497 laik_spacestore_set: the value written to the store under the name of the space *)
Definition spacestore_set (st : store) (name : list Z) (s : sobj) : outcome store :=
  do v <- space_serialize s; kvs_set st name (v ++ [0]).

(* space.c:499-514 laik_spacestore_get if there is no space object for the entry yet: a new object *)
Definition spacestore_get (st : store) (name : list Z) (id : nat) (junk : option nat * box) : outcome (option sobj) :=
  do r <- kvs_entry st name;
  match r with
  | None => Ok None
  | Some _ =>
      do v <- kvs_get st name;
      match v with
      | None => UB                             (* v[0] with v = NULL *)
      | Some v => let '(res, s) := space_set (new_space id junk) (cstr v) in cassert res (Ok (Some s))
      end
  end.
