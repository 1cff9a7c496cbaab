(* Memory: bytes addressed by integers. Used by the models of type.c, layout*.c,
   action.c and the executors. Allocation is not tracked: reads and writes are
   defined everywhere; theorems say which bytes may change. *)
From Coq Require Import ZArith List Bool Lia.
From Verif Require Import Base Model_Partitioner.
Import ListNotations.
Open Scope Z_scope.

(* byte at each address *)
Definition mem := Z -> Z.

(* the [n] bytes from address [p] *)
Definition mread (m : mem) (p : Z) (n : nat) : list Z := map (fun k => m (p + Z.of_nat k)) (seq 0 n).

(* write the bytes [bs] from address [p] *)
Definition mwrite (m : mem) (p : Z) (bs : list Z) : mem :=
  fun a => if (p <=? a) && (a <? p + Z.of_nat (length bs)) then nth (Z.to_nat (a - p)) bs 0 else m a.

(* C's memcpy: overlapping areas and sizes which do not fit are undefined *)
Definition memcpy (m : mem) (dst src n : Z) : outcome mem :=
  if n <? 0 then UB else
  if (n >? 0) && (dst <? src + n) && (src <? dst + n) then UB
  else Ok (mwrite m dst (mread m src (Z.to_nat n))).

(* little-endian encoding in [n] bytes, keeping the low bits; decoding *)
Fixpoint enc_le (n : nat) (z : Z) : list Z :=
  match n with O => [] | S n' => z mod 256 :: enc_le n' (z / 256) end.
Fixpoint dec_le (l : list Z) : Z :=
  match l with [] => 0 | b :: l' => b + 256 * dec_le l' end.
