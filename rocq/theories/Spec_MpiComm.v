(* What is expected of communicators of groups *)
From Coq Require Import ZArith List Bool.
From Verif Require Import Base Model_Space Model_RangeList Model_Partitioner Model_Group Spec_Group Model_MpiComm.
Import ListNotations.
Open Scope Z_scope.

(* lists of processes to remove name processes of the group they are applied to. [n]: size
   of the group *)
Fixpoint ValidPath (n : Z) (path : list (Z * list Z)) : Prop :=
  match path with
  | [] => True
  | (_, rm) :: r => (forall x, In x rm -> 0 <= x < n) /\ ValidPath (n - Z.of_nat (length (nodup Z.eq_dec rm))) r
  end.

(* location [lid] is left in the group of size [n] after the shrinks. [locs]: its
   locations *)
Fixpoint left_over (locs : list Z) (path : list (Z * list Z)) : list Z :=
  match path with
  | [] => locs
  | (_, rm) :: r =>
      left_over (flat_map (fun t => if in_dec Z.eq_dec (Z.of_nat t) rm then [] else [nth t locs 0]) (seq 0 (length locs))) r
  end.

(* in communicator [c], each process of [g] has its process number as MPI rank, and there
   are no other processes *)
Definition SameRanks (g : group) (c : comm) : Prop :=
  Z.of_nat (length c) = g_size g /\
  forall t lid, At g t lid <-> 0 <= t /\ nth_error c (Z.to_nat t) = Some lid.
