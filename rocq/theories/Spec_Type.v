(* Vocabulary for the properties of the predefined types *)
From Coq Require Import ZArith List Bool Lia Permutation Floats.SpecFloat.
From Verif Require Import Base Model_Transition Model_Mem Model_Type.
Import ListNotations.
Open Scope Z_scope.

(* the six predefined integer types *)
Definition IntType (T : itype) : Prop :=
  In T [T_char; T_uchar; T_int32; T_uint32; T_int64; T_uint64].

(* memory consists of bytes *)
Definition Bytes (m : mem) : Prop := forall a, 0 <= m a < 256.

(* value of element i of an array at address p *)
Definition ielem (T : itype) (m : mem) (p i : Z) : Z :=
  it_load T (mread m (p + i * Z.of_nat (it_size T)) (it_size T)).
Definition felem (F : ftype) (m : mem) (p i : Z) : spec_float :=
  ft_load F (mread m (p + i * Z.of_nat (ft_size F)) (ft_size F)).

(* an IEEE value of the format: sizes of mantissa and exponent as produced by loading *)
Definition FVal (F : ftype) (x : spec_float) : Prop :=
  match x with
  | S754_finite s m e =>
    (Z.pos m < 2 ^ ft_mbits F /\ e = ft_emin F) \/
    (2 ^ ft_mbits F <= Z.pos m < 2 ^ ft_prec F /\ ft_emin F <= e <= ft_emax F - ft_prec F)
  | _ => True
  end.

(* the two predefined floating point types *)
Definition FType (F : ftype) := F = T_double \/ F = T_float.

(* the value is representable *)
Definition Fits (T : itype) (z : Z) : Prop :=
  if it_signed T then - 2 ^ (8 * Z.of_nat (it_size T) - 1) <= z < 2 ^ (8 * Z.of_nat (it_size T) - 1)
  else 0 <= z < 2 ^ (8 * Z.of_nat (it_size T)).

(* the operations as functions on integers *)
Definition math_op (o : redop) : option (Z -> Z -> Z) :=
  match o with
  | RO_Sum => Some Z.add | RO_Prod => Some Z.mul | RO_Min => Some Z.min | RO_Max => Some Z.max
  | RO_And => Some Z.land | RO_Or => Some Z.lor | _ => None
  end.

(* types for which overflow of + and * is undefined in C *)
Definition Strict (T : itype) : Prop := T = T_int32 \/ T = T_int64.

(* r is the result z reduced to the type: representable and the same low bits *)
Definition Reduced (T : itype) (z r : Z) : Prop :=
  Fits T r /\ r mod 2 ^ (8 * Z.of_nat (it_size T)) = z mod 2 ^ (8 * Z.of_nat (it_size T)).

(* two areas of n bytes are the same or do not overlap *)
Definition SameOrApart (p q n : Z) : Prop := p = q \/ p + n <= q \/ q + n <= p.
Definition Apart (p q n : Z) : Prop := p + n <= q \/ q + n <= p.

(* bytes outside of [p, p+n) are the same *)
Definition OnlyChanges (p n : Z) (m m' : mem) : Prop := forall a, a < p \/ p + n <= a -> m' a = m a.

(* a way to combine a number of inputs *)
Inductive tree (V : Type) := Leaf (v : V) | Node (l r : tree V).
Arguments Leaf {V}. Arguments Node {V}.
Fixpoint leaves {V} (t : tree V) : list V :=
  match t with Leaf v => [v] | Node l r => leaves l ++ leaves r end.
Fixpoint combine_tree {V} (f : V -> V -> outcome V) (t : tree V) : outcome V :=
  match t with
  | Leaf v => Ok v
  | Node l r => do a <- combine_tree f l; do b <- combine_tree f r; f a b
  end.
