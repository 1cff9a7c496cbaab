(* Model of src/type.c: initialisation and reduction functions of the predefined types *)
From Coq Require Import ZArith List Bool Lia Floats.SpecFloat.
From Verif Require Import Base Model_Space Model_RangeList Model_Partitioner Model_Group
  Model_Transition Model_Mem.
Import ListNotations.
Open Scope Z_scope.

(* ---------- integer types ---------- *)

(* an integer type: number of bytes, signed *)
Record itype := mkIt { it_size : nat; it_signed : bool }.
(* type.c:703-724 laik_type_init; signed char is used for laik_Char *)
Definition T_char := mkIt 1 true.
Definition T_uchar := mkIt 1 false.
Definition T_int32 := mkIt 4 true.
Definition T_uint32 := mkIt 4 false.
Definition T_int64 := mkIt 8 true.
Definition T_uint64 := mkIt 8 false.

Definition it_mod (T : itype) : Z := 2 ^ (8 * Z.of_nat (it_size T)).
Definition it_min (T : itype) : Z := if it_signed T then - (it_mod T / 2) else 0.
Definition it_max (T : itype) : Z := if it_signed T then it_mod T / 2 - 1 else it_mod T - 1.

(* conversion to the type: the value with the same low bits (implementation-defined for
   signed types; this is what gcc and clang do) *)
Definition it_wrap (T : itype) (z : Z) : Z :=
  if it_signed T then (z + it_mod T / 2) mod it_mod T - it_mod T / 2 else z mod it_mod T.

Definition it_load (T : itype) (bs : list Z) : Z := it_wrap T (dec_le bs).
Definition it_store (T : itype) (v : Z) : list Z := enc_le (it_size T) v.

(* result of + and *: types smaller than int are computed in int (where the result always
   fits) and converted back; unsigned types wrap; overflow of int32_t and int64_t is
   undefined *)
Definition it_arith (T : itype) (z : Z) : outcome Z :=
  if Nat.ltb (it_size T) 4 then Ok (it_wrap T z)
  else if it_signed T then
    (if (it_min T <=? z) && (z <=? it_max T) then Ok z else UB)
  else Ok (it_wrap T z).

(* type.c:62-70, 138-146, 213-221, 288-296, 363-371, 438-446: the value v written by
   laik_*_init; None = assert(0). ~0 is -1, converted to the type *)
Definition it_initval (T : itype) (o : redop) : option Z :=
  match o with
  | RO_Sum | RO_Or => Some 0
  | RO_Prod => Some 1
  | RO_And => Some (it_wrap T (-1))
  | RO_Min => Some (it_min T)
  | RO_Max => Some (it_max T)
  | _ => None
  end.

(* type.c:95-127 (and the same for the other types): one element of the loops;
   None = assert(0) *)
Definition it_op (T : itype) (o : redop) : option (Z -> Z -> outcome Z) :=
  match o with
  | RO_Sum => Some (fun a b => it_arith T (a + b))
  | RO_Prod => Some (fun a b => it_arith T (a * b))
  | RO_Or => Some (fun a b => Ok (Z.lor a b))
  | RO_And => Some (fun a b => Ok (Z.land a b))
  | RO_Min => Some (fun a b => Ok (if a <? b then a else b))
  | RO_Max => Some (fun a b => Ok (if a >? b then a else b))
  | _ => None
  end.

(* ---------- floating point types ---------- *)

(* precision, maximal exponent, number of bytes *)
Record ftype := mkFt { ft_prec : Z; ft_emax : Z; ft_size : nat }.
Definition T_double := mkFt 53 1024 8.
Definition T_float := mkFt 24 128 4.

Definition ft_mbits (F : ftype) : Z := ft_prec F - 1.                                (* 52 / 23 *)
Definition ft_ebits (F : ftype) : Z := 8 * Z.of_nat (ft_size F) - ft_prec F.         (* 11 / 8 *)
Definition ft_emin (F : ftype) : Z := 3 - ft_emax F - ft_prec F.                     (* -1074 / -149 *)

(* IEEE 754 interchange format; the payload of a NaN is dropped *)
Definition ft_ofbits (F : ftype) (z : Z) : spec_float :=
  let man := z mod 2 ^ ft_mbits F in
  let ex := (z / 2 ^ ft_mbits F) mod 2 ^ ft_ebits F in
  let sg := (z / 2 ^ (ft_mbits F + ft_ebits F)) mod 2 =? 1 in
  if ex =? 2 ^ ft_ebits F - 1 then (if man =? 0 then S754_infinity sg else S754_nan)
  else if ex =? 0 then
    match man with Zpos p => S754_finite sg p (ft_emin F) | _ => S754_zero sg end
  else match man + 2 ^ ft_mbits F with Zpos p => S754_finite sg p (ex - 1 + ft_emin F) | _ => S754_zero sg end.
Definition ft_tobits (F : ftype) (x : spec_float) : Z :=
  let sgn (s : bool) := if s then 2 ^ (ft_mbits F + ft_ebits F) else 0 in
  match x with
  | S754_zero s => sgn s
  | S754_infinity s => sgn s + (2 ^ ft_ebits F - 1) * 2 ^ ft_mbits F
  | S754_nan => (2 ^ ft_ebits F - 1) * 2 ^ ft_mbits F + 2 ^ (ft_mbits F - 1)
  | S754_finite s m e =>
    if Z.pos m <? 2 ^ ft_mbits F then sgn s + Z.pos m
    else sgn s + (e - ft_emin F + 1) * 2 ^ ft_mbits F + (Z.pos m - 2 ^ ft_mbits F)
  end.

Definition ft_load (F : ftype) (bs : list Z) : spec_float := ft_ofbits F (dec_le bs).
Definition ft_store (F : ftype) (x : spec_float) : list Z := enc_le (ft_size F) (ft_tobits F x).

(* DBL_MAX, FLT_MAX *)
Definition ft_max (F : ftype) (neg : bool) : spec_float :=
  S754_finite neg (Z.to_pos (2 ^ ft_prec F - 1)) (ft_emax F - ft_prec F).
Definition ft_one (F : ftype) : spec_float :=
  S754_finite false (Z.to_pos (2 ^ ft_mbits F)) (- ft_mbits F).

(* type.c:512-519, 575-582 *)
Definition ft_initval (F : ftype) (o : redop) : option spec_float :=
  match o with
  | RO_Sum => Some (S754_zero false)
  | RO_Prod => Some (ft_one F)
  | RO_Min => Some (ft_max F true)
  | RO_Max => Some (ft_max F false)
  | _ => None
  end.

(* type.c:542-566, 605-629 *)
Definition ft_op (F : ftype) (o : redop) : option (spec_float -> spec_float -> outcome spec_float) :=
  match o with
  | RO_Sum => Some (fun a b => Ok (SFadd (ft_prec F) (ft_emax F) a b))
  | RO_Prod => Some (fun a b => Ok (SFmul (ft_prec F) (ft_emax F) a b))
  | RO_Min => Some (fun a b => Ok (if SFltb a b then a else b))
  | RO_Max => Some (fun a b => Ok (if SFltb b a then a else b))
  | _ => None
  end.

(* ---------- the functions, on memory ---------- *)

(* type.c:71-72: for(i = 0; i < count; i++) p[i] = v; *)
Fixpoint fill (n : nat) (m : mem) (p : Z) (bs : list Z) : mem :=
  match n with
  | O => m
  | S n' => fill n' (mwrite m p bs) (p + Z.of_nat (length bs)) bs
  end.

(* type.c:95-127: for(i = 0; i < count; i++) pout[i] = pin1[i] op pin2[i]; *)
Fixpoint red_loop {V} (sz : nat) (ld : list Z -> V) (st : V -> list Z) (f : V -> V -> outcome V)
    (n : nat) (m : mem) (out in1 in2 : Z) : outcome mem :=
  match n with
  | O => Ok m
  | S n' =>
    do v <- f (ld (mread m in1 sz)) (ld (mread m in2 sz));
    red_loop sz ld st f n' (mwrite m out (st v)) (out + Z.of_nat sz) (in1 + Z.of_nat sz) (in2 + Z.of_nat sz)
  end.

(* type.c:57-73 laik_char_init and the other laik_<int>_init *)
Definition it_init (T : itype) (m : mem) (base : Z) (count : Z) (o : redop) : outcome mem :=
  match it_initval T o with
  | None => Abort
  | Some v => Ok (fill (Z.to_nat count) m base (it_store T v))
  end.

(* type.c:508-523, 571-586 laik_double_init, laik_float_init *)
Definition ft_init (F : ftype) (m : mem) (base : Z) (count : Z) (o : redop) : outcome mem :=
  match ft_initval F o with
  | None => Abort
  | Some v => Ok (fill (Z.to_nat count) m base (ft_store F v))
  end.

(* the common structure of all laik_*_reduce functions, with the functions used if both
   inputs or one input is missing *)
Definition gen_reduce (sz : Z) (m : mem) (out in1 in2 : option Z) (count : Z)
    (init0 : Z -> outcome mem) (loop : Z -> Z -> Z -> outcome mem) : outcome mem :=
  match out with
  | None => Abort
  | Some po =>
    match in1, in2 with
    | Some p1, None => memcpy m po p1 (count * sz)
    | None, Some p2 => memcpy m po p2 (count * sz)
    | None, None => init0 po
    | Some p1, Some p2 => loop po p1 p2
    end
  end.

(* type.c:75-128 laik_char_reduce, 149-203 laik_uchar_reduce, 224-278 laik_int32_reduce,
   299-353 laik_uint32_reduce, 374-428 laik_int64_reduce, 449-503 laik_uint64_reduce. With
   both inputs missing all of them call laik_char_init. *)
Definition it_reduce (T : itype) (m : mem) (out in1 in2 : option Z) (count : Z) (o : redop) : outcome mem :=
  gen_reduce (Z.of_nat (it_size T)) m out in1 in2 count
    (fun po => it_init T_char m po count o)
    (fun po p1 p2 =>
       match it_op T o with
       | None => Abort
       | Some f => red_loop (it_size T) (it_load T) (it_store T) f (Z.to_nat count) m po p1 p2
       end).

(* type.c:525-566 laik_double_reduce, 588-629 laik_float_reduce *)
Definition ft_reduce (F : ftype) (m : mem) (out in1 in2 : option Z) (count : Z) (o : redop) : outcome mem :=
  gen_reduce (Z.of_nat (ft_size F)) m out in1 in2 count
    (fun po => ft_init F m po count o)
    (fun po p1 p2 =>
       match ft_op F o with
       | None => Abort
       | Some f => red_loop (ft_size F) (ft_load F) (ft_store F) f (Z.to_nat count) m po p1 p2
       end).
