(* Specification vocabulary for partitionings / range lists *)
From Coq Require Import ZArith List Permutation Sorted.
From Verif Require Import Base Model_Space Spec_Space Model_RangeList.
Import ListNotations.
Open Scope Z_scope.

(* one call of laik_rangelist_append / laik_append_range by a partitioner *)
Record appcall := mkApp { a_task : Z; a_range : range; a_tag : Z }.

(* a history of append calls on a fresh list, then freezing *)
Definition run_appends (s : space) (tids : Z) (h : list appcall) : outcome rlist :=
  ofold (fun l a => rl_append l (a_task a) (a_range a) (a_tag a)) h (rl_new s tids).
Definition run_singles (s : space) (tids : Z) (h : list tsi) : outcome rlist :=
  ofold (fun l a => rl_append_single1d l (si_task a) (si_idx a)) h (rl_new s tids).

(* [q] is a correct implementation of qsort with comparison function [cmp] *)
Definition is_qsort {A} (cmp : A -> A -> Z) (q : list A -> list A) : Prop :=
  forall l, Permutation l (q l) /\ StronglySorted (fun a b => cmp a b <= 0) (q l).

(* what a user can observe: process t owns index i if one of the ranges reported
   for t contains i *)
Definition Owns (l : rlist) (t : Z) (i : index) : Prop :=
  exists n x, rl_tidrange l t n = Ok (Some x) /\ InBox (sp_dims (rl_space l)) i (t_box x).

(* index i was appended for t *)
Definition Appended (s : space) (h : list appcall) (t : Z) (i : index) : Prop :=
  exists a, In a h /\ a_task a = t /\ InBox (sp_dims s) i (r_box (a_range a)).

(* some sort functions, to show that the assumption is_qsort can be met:
   insertion sort *)
Fixpoint ins {A} (cmp : A -> A -> Z) (x : A) (l : list A) : list A :=
  match l with
  | [] => [x]
  | y :: l' => if cmp x y <=? 0 then x :: l else y :: ins cmp x l'
  end.
Definition isort {A} (cmp : A -> A -> Z) (l : list A) : list A := fold_right (ins cmp) [] l.

(* the frozen lists a program can obtain: by appending ranges or single indexes
   and freezing, and by migrating such a list to another group *)
Inductive FrozenList : rlist -> Prop :=
| FL_gen s tids h l qg qs m l' :
    valid_dims (sp_dims s) -> 0 <= tids ->
    is_qsort trgen_cmp qg ->
    run_appends s tids h = Ok l -> rl_freeze qg qs l m = Ok l' -> FrozenList l'
| FL_single s tids h l qg qs m l' :
    valid_dims (sp_dims s) -> 0 <= tids ->
    is_qsort trgen_cmp qg -> is_qsort tss1d_cmp qs ->
    run_singles s tids h = Ok l -> rl_freeze qg qs l m = Ok l' -> FrozenList l'
| FL_migrate l qg idmap n l' :
    FrozenList l -> is_qsort trgen_cmp qg -> 0 <= n ->
    rl_migrate qg l idmap n = Ok l' -> FrozenList l'.

(* the states of a list after any number of queries by map number, for process t.
   (The code caches offsets for one process, so the queries change the list.) *)
Inductive MapQueried (t : Z) (l0 : rlist) : rlist -> Prop :=
| MQ_start : MapQueried t l0 l0
| MQ_range l m n l' r : MapQueried t l0 l -> rl_tidmaprange l t m n = Ok (l', r) -> MapQueried t l0 l'
| MQ_count l m l' r : MapQueried t l0 l -> rl_tidmaprangecount l t m = Ok (l', r) -> MapQueried t l0 l'.

(* same coordinates in the used dimensions *)
Definition SameIndex (d : nat) (a b : index) : Prop :=
  i0 a = i0 b /\ ((1 < d)%nat -> i1 a = i1 b) /\ ((2 < d)%nat -> i2 a = i2 b).

(* two lists report the same ranges for every process, in the same order *)
Definition SameRanges (l1 l2 : rlist) : Prop :=
  rl_tids l1 = rl_tids l2 /\
  forall t n, 0 <= t < rl_tids l1 ->
    match rl_tidrange l1 t n, rl_tidrange l2 t n with
    | Ok (Some x), Ok (Some y) =>
        SameIndex (sp_dims (rl_space l1)) (b_from (t_box x)) (b_from (t_box y)) /\
        SameIndex (sp_dims (rl_space l1)) (b_to (t_box x)) (b_to (t_box y))
    | Ok None, Ok None => True
    | _, _ => False
    end.
