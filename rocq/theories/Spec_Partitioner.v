(* Specification vocabulary for partitioners *)
From Coq Require Import ZArith List Permutation Sorted.
From Verif Require Import Base Model_Space Spec_Space Model_RangeList Spec_RangeList Model_Partitioner.
Import ListNotations.
Open Scope Z_scope.

(* the three sort calls are correct sorts *)
Definition good_sorts (q : sorts) : Prop :=
  is_qsort trgen_cmp (q_gen q) /\ is_qsort tss1d_cmp (q_si q) /\ is_qsort trgen_cmpfrom (q_from q).

(* call [c] gives index [i] to process [t] *)
Definition Gives (d : nat) (c : acall) (t : Z) (i : index) : Prop :=
  match c with
  | ACrange t' r _ => t' = t /\ InBox d i (r_box r)
  | ACidx t' x => t' = t /\ i0 i = x
  end.

(* one of the calls does *)
Definition Given (d : nat) (h : list acall) (t : Z) (i : index) : Prop :=
  exists c, In c h /\ Gives d c t i.

(* the intervals of [l] follow each other without gap, from [a] to [b]; none is empty *)
Fixpoint Consec (a b : Z) (l : list (Z * Z)) : Prop :=
  match l with
  | [] => a = b
  | (f, t) :: r => f = a /\ f < t /\ Consec t b r
  end.

(* index [i] is at most [d] away from [j] in every used dimension *)
Definition Near (dims : nat) (d : Z) (i j : index) : Prop :=
  Z.abs (i0 i - i0 j) <= d /\
  ((1 < dims)%nat -> Z.abs (i1 i - i1 j) <= d) /\
  ((2 < dims)%nat -> Z.abs (i2 i - i2 j) <= d).

(* [i] differs from [j] in at most one dimension, there by at most [d] *)
Definition NearAxis (dims : nat) (d : Z) (i j : index) : Prop :=
  exists k, (k < dims)%nat /\ Z.abs (idx_get i k - idx_get j k) <= d /\
    forall k', (k' < dims)%nat -> k' <> k -> idx_get i k' = idx_get j k'.

(* a partitioning has no empty ranges *)
Definition NoEmpty (l : rlist) : Prop :=
  forall t n x, rl_tidrange l t n = Ok (Some x) -> NonEmpty (sp_dims (rl_space l)) (t_box x).

(* every index has at most one owner *)
Definition Unique (l : rlist) : Prop :=
  forall t u i, Owns l t i -> Owns l u i -> t = u.

(* The maps between a group of [m] processes and its parent of [n] processes:
   every process of the group is a process of the parent, and a process of the parent is
   in the group or has entry -1. *)
Record ParentMaps (n m : Z) (toParent fromParent : list Z) : Prop := {
  pm_toLen : Z.of_nat (length toParent) = m;
  pm_fromLen : Z.of_nat (length fromParent) = n;
  pm_to : forall k t, 0 <= k -> nth_error toParent (Z.to_nat k) = Some t ->
     0 <= t < n /\ nth_error fromParent (Z.to_nat t) = Some k;
  pm_from : forall t k, 0 <= t -> nth_error fromParent (Z.to_nat t) = Some k ->
     k = -1 \/ 0 <= k < m /\ nth_error toParent (Z.to_nat k) = Some t }.

(* process [t] of the parent is still in group [g] *)
Definition Remains (g : group) (t : Z) : Prop :=
  0 <= t /\ exists k, nth_error (g_fromParent g) (Z.to_nat t) = Some k /\ 0 <= k.

(* no index is in two ranges *)
Definition Disjoint (l : rlist) : Prop :=
  forall t n x u m y i, rl_tidrange l t n = Ok (Some x) -> rl_tidrange l u m = Ok (Some y) ->
    InBox (sp_dims (rl_space l)) i (t_box x) -> InBox (sp_dims (rl_space l)) i (t_box y) -> t = u /\ n = m.

(* process [t] has a range with box [b] and tag [g] *)
Definition HasRange (l : rlist) (t : Z) (b : box) (g : Z) : Prop :=
  exists n x, rl_tidrange l t n = Ok (Some x) /\ t_box x = b /\ t_tag x = g.

(* the ranges of process [me] (1d) are enumerated with ascending borders *)
Definition Ascending (l : rlist) (me : Z) : Prop :=
  forall n m x y, n <= m -> rl_tidrange l me n = Ok (Some x) -> rl_tidrange l me m = Ok (Some y) ->
    i0 (b_from (t_box x)) <= i0 (b_from (t_box y)) /\ i0 (b_to (t_box x)) <= i0 (b_to (t_box y)).
