(* Specification vocabulary for index sets. Independent of how the code works. *)
From Coq Require Import ZArith List.
From Verif Require Import Base Model_Space.
Import ListNotations.
Open Scope Z_scope.

(* LAIK index spaces have 1, 2 or 3 dimensions *)
Definition valid_dims (d : nat) : Prop := (d = 1 \/ d = 2 \/ d = 3)%nat.

(* index [i] lies in the half-open box [b]; only the used dimensions count *)
Definition InBox (d : nat) (i : index) (b : box) : Prop :=
  (i0 (b_from b) <= i0 i < i0 (b_to b)) /\
  ((1 < d)%nat -> i1 (b_from b) <= i1 i < i1 (b_to b)) /\
  ((2 < d)%nat -> i2 (b_from b) <= i2 i < i2 (b_to b)).

Definition NonEmpty (d : nat) (b : box) : Prop := exists i, InBox d i b.

Definition SubBox (d : nat) (a b : box) : Prop := forall i, InBox d i a -> InBox d i b.

Definition DisjBox (d : nat) (a b : box) : Prop := forall i, InBox d i a -> InBox d i b -> False.

(* representative of an index: unused coordinates are 0 *)
Definition canon (d : nat) (i : index) : Prop :=
  ((d <= 1)%nat -> i1 i = 0) /\ ((d <= 2)%nat -> i2 i = 0).

(* the box has exactly [n] indexes: there is a duplicate free list of length n
   of all of them *)
Definition HasCount (d : nat) (b : box) (n : Z) : Prop :=
  exists l : list index,
    NoDup l /\ (forall i, In i l <-> InBox d i b /\ canon d i) /\ Z.of_nat (length l) = n.

(* from <= to in all used dimensions *)
Definition Ordered (d : nat) (b : box) : Prop :=
  i0 (b_from b) <= i0 (b_to b) /\
  ((1 < d)%nat -> i1 (b_from b) <= i1 (b_to b)) /\
  ((2 < d)%nat -> i2 (b_from b) <= i2 (b_to b)).

(* two boxes have the same indexes *)
Definition EqBox (d : nat) (a b : box) : Prop := forall i, InBox d i a <-> InBox d i b.
