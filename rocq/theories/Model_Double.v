(* IEEE 754 doubles as used by the block, reassign and grid partitioners *)
From Coq Require Import ZArith List Bool Floats.SpecFloat.
From Verif Require Import Base Model_Space Model_RangeList Model_Partitioner.
Open Scope Z_scope.

(* binary64, round to nearest even, without any exception handling; [spec_float] is the
   standard library's executable specification of the format *)
Definition dbl_ofZ (z : Z) : spec_float :=
  match z with
  | 0 => S754_zero false
  | _ => binary_normalize 53 1024 z 0 false
  end.
Definition dbl_add := SFadd 53 1024.
Definition dbl_sub := SFsub 53 1024.
Definition dbl_mul := SFmul 53 1024.
Definition dbl_div := SFdiv 53 1024.
Definition dbl_ge (a b : spec_float) : bool := SFleb b a.
Definition dbl_mhalf : spec_float := S754_finite true (2 ^ 52) (-53).

(* conversion to an integer type: towards zero. Values outside of the integer type
   (undefined behaviour in C) give 0 here; not a number as well *)
Definition dbl_trunc (x : spec_float) : Z :=
  match x with
  | S754_finite s m e =>
    let a := if 0 <=? e then Z.pos m * 2 ^ e else Z.pos m / 2 ^ (- e) in
    if s then - a else a
  | _ => 0
  end.

Definition ieee : warith spec_float :=
  mkWarith spec_float dbl_add dbl_sub dbl_mul dbl_div dbl_ge dbl_ofZ dbl_mhalf.

(* partitioner.c:449-451, 459-460, 467-468, 475-476: block borders of the grid
   partitioner. "ss->from.i[d] + k * step" is computed in doubles *)
Definition grid_borders (nb : nat -> Z) (sp : space) (d : nat) (k : Z) : Z :=
  let from := idx_get (b_from (sp_box sp)) d in
  let to := idx_get (b_to (sp_box sp)) d in
  let step := dbl_div (dbl_ofZ (to - from)) (dbl_ofZ (nb d)) in
  dbl_trunc (dbl_add (dbl_ofZ from) (dbl_mul (dbl_ofZ k) step)).

Definition grid_nb (xb yb zb : Z) (d : nat) : Z :=
  match d with O => xb | 1%nat => yb | _ => zb end.

(* the grid partitioner with these borders *)
Definition grid_ieee (xb yb zb : Z) : partitioner :=
  grid_partitioner xb yb zb (grid_borders (grid_nb xb yb zb)).
