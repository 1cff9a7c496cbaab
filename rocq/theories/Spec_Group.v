(* Specification vocabulary for process groups *)
From Coq Require Import ZArith List Permutation Sorted.
From Verif Require Import Base Model_Space Spec_Space Model_RangeList Spec_RangeList Model_Partitioner
  Spec_Partitioner Model_Group.
Import ListNotations.
Open Scope Z_scope.

(* process [t] of group [g] runs at location [lid] *)
Definition At (g : group) (t lid : Z) : Prop :=
  0 <= t < g_size g /\ nth_error (g_loc g) (Z.to_nat t) = Some lid.

(* a group: different locations (numbers of processes at program start) *)
Record Group (g : group) : Prop := {
  gr_len : Z.of_nat (length (g_loc g)) = g_size g;
  gr_nodup : NoDup (g_loc g);
  gr_pos : forall lid, In lid (g_loc g) -> 0 <= lid }.

(* [myid] is the own process id: the process at location [myloc], or -1 *)
Definition IsMyId (g : group) (myloc : Z) : Prop :=
  At g (g_myid g) myloc \/ g_myid g = -1 /\ forall t, ~ At g t myloc.

(* [to] maps every process of [g] to the process of [p] at the same location, or to -1 if
   there is none *)
Definition LocMap (g p : group) (to : list Z) : Prop :=
  Z.of_nat (length to) = g_size g /\
  forall t lid, At g t lid ->
    exists u, nth_error to (Z.to_nat t) = Some u /\
      (At p u lid \/ u = -1 /\ forall v, ~ At p v lid).

(* the same group, seen by processes of the group: only the own id differs *)
Definition with_myid (g : group) (m : Z) : group :=
  mkGroup (g_id g) (g_size g) m (g_parent g) (g_toParent g) (g_fromParent g)
    (g_parent2 g) (g_toParent2 g) (g_fromParent2 g) (g_loc g).

(* what process [t] owns is the same as what process [u] owns *)
Definition SameShare (l l' : rlist) (t u : Z) : Prop :=
  (forall i, Owns l t i <-> Owns l' u i) /\
  (forall b g, HasRange l t b g <-> HasRange l' u b g).

(* process [t] has no ranges *)
Definition NoRanges (l : rlist) (t : Z) : Prop := forall b g, ~ HasRange l t b g.

(* the lists of a partitioning were made for its group *)
Definition Stored (p : partg) : Prop :=
  forall i l, In (i, l) (pa_lists p) -> FrozenList l /\ rl_tids l = g_size (pa_group p) /\ rl_space l = pa_space p /\
    forall t, i = RIsingle t -> 0 <= t < g_size (pa_group p).

(* what the API tells a process about its own ranges *)
Definition MyRange (p : partg) (b : box) (g : Z) : Prop :=
  exists n x, my_range p n = Ok (Some x) /\ t_box x = b /\ t_tag x = g.

(* the lists of p' are those of p, with processes renamed such that they stay at their
   location *)
Definition Renamed (oldg newg : group) (e e' : rlinfo * rlist) : Prop :=
  FrozenList (snd e') /\ rl_tids (snd e') = g_size newg /\ rl_space (snd e') = rl_space (snd e) /\
  (forall t u lid, At oldg t lid -> At newg u lid -> SameShare (snd e) (snd e') t u) /\
  (forall u lid, At newg u lid -> (forall t, ~ At oldg t lid) -> NoRanges (snd e') u) /\
  match fst e with
  | RIsingle t => exists u, fst e' = RIsingle u /\
      forall lid, At oldg t lid -> At newg u lid \/ u = -1 /\ forall v, ~ At newg v lid
  | i => fst e' = i
  end.
