(* Vocabulary for C44 *)
From Coq Require Import ZArith List Bool.
From Verif Require Import Base Model_Space Model_SpaceStore.
Import ListNotations.
Open Scope Z_scope.

(* value of type int64_t *)
Definition Int64 (z : Z) : Prop := - 2 ^ 63 <= z < 2 ^ 63.
Definition Index64 (i : index) : Prop := Int64 (i0 i) /\ Int64 (i1 i) /\ Int64 (i2 i).
(* a space with 1 to 3 dimensions and 64-bit borders *)
Definition Space64 (s : sobj) : Prop :=
  (so_dims s = 1%nat \/ so_dims s = 2%nat \/ so_dims s = 3%nat) /\ Index64 (b_from (so_box s)) /\ Index64 (b_to (so_box s)).

(* same borders in the first d dimensions *)
Definition same_to (d : nat) (a b : index) : Prop :=
  i0 a = i0 b /\ ((2 <= d)%nat -> i1 a = i1 b) /\ ((3 <= d)%nat -> i2 a = i2 b).
(* two space objects (maybe of different processes) describe the same index space *)
Definition SameSpace (s t : sobj) : Prop :=
  so_dims s = so_dims t /\ same_to (so_dims s) (b_from (so_box s)) (b_from (so_box t)) /\ same_to (so_dims s) (b_to (so_box s)) (b_to (so_box t)).
