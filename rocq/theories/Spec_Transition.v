(* Specification vocabulary for transitions between partitionings *)
From Coq Require Import ZArith List Bool Permutation Sorted.
From Verif Require Import Base Model_Space Spec_Space Model_RangeList Spec_RangeList Model_Partitioner Spec_Partitioner
  Model_Group Model_Transition.
Import ListNotations.
Open Scope Z_scope.

(* What C promises for qsort: if the comparison is consistent on the elements of the array
   (signs are antisymmetric, "not greater" is transitive), the result is sorted. *)
Definition ConsistentOn {A} (cmp : A -> A -> Z) (l : list A) : Prop :=
  (forall a b, In a l -> In b l -> Z.sgn (cmp a b) = - Z.sgn (cmp b a)) /\
  (forall a b c, In a l -> In b l -> In c l -> cmp a b <= 0 -> cmp b c <= 0 -> cmp a c <= 0).
Definition c_qsort {A} (cmp : A -> A -> Z) (q : list A -> list A) : Prop :=
  forall l, Permutation l (q l) /\ (ConsistentOn cmp l -> StronglySorted (fun a b => cmp a b <= 0) (q l)).

(* The ranges of one process do not overlap *)
Definition OwnDisjoint (l : rlist) : Prop :=
  forall t n m x y i, rl_tidrange l t n = Ok (Some x) -> rl_tidrange l t m = Ok (Some y) ->
    InBox (sp_dims (rl_space l)) i (t_box x) -> InBox (sp_dims (rl_space l)) i (t_box y) -> n = m.

(* [s] is the only owner of [i] *)
Definition OnlyOwner (l : rlist) (s : Z) (i : index) : Prop := forall t, Owns l t i <-> t = s.

(* Two lists of ranges a 1d transition can be calculated from: not more than 65536 processes,
   a space smaller than 2^31, no empty ranges, own ranges not overlapping *)
Record Good1d (sp : space) (gsize : Z) (fl tl : rlist) : Prop := {
  gd_fl : FrozenList fl; gd_tl : FrozenList tl;
  gd_flsp : rl_space fl = sp; gd_tlsp : rl_space tl = sp; gd_dims : sp_dims sp = 1%nat;
  gd_fltids : rl_tids fl = gsize; gd_tltids : rl_tids tl = gsize; gd_size : gsize <= 65536;
  gd_width : i0 (b_to (sp_box sp)) - i0 (b_from (sp_box sp)) < 2 ^ 31;
  gd_flne : NoEmpty fl; gd_tlne : NoEmpty tl; gd_fld : OwnDisjoint fl; gd_tld : OwnDisjoint tl }.

(* The two partitionings as seen by process [me] of [gsize] processes: the ranges used for
   a transition from [f] to [t] are [fl] and [tl] *)
Record Sees (sp : space) (gsize me : Z) (fl tl : rlist) (f t : npart) : Prop := {
  se_f : space_eq (pa_space (np_p f)) sp = true;
  se_t : space_eq (pa_space (np_p t)) sp = true;
  se_g : g_id (pa_group (np_p t)) = g_id (pa_group (np_p f));
  se_size : g_size (pa_group (np_p f)) = gsize;
  se_me : g_myid (pa_group (np_p f)) = me;
  se_in : 0 <= me < gsize;
  se_fl : find_inter (np_name t) (pa_lists (np_p f)) = Some fl;
  se_tl : find_inter (np_name f) (pa_lists (np_p t)) = Some tl }.

(* number of operations on index [i] *)
Definition inb (i : index) (b : box) : bool := (i0 (b_from b) <=? i0 i) && (i0 i <? i0 (b_to b)).
Definition nlocal (o : tops) (i : index) : nat := length (filter (fun x => inb i (lo_box x)) (tp_local o)).
Definition nsend (o : tops) (to : Z) (i : index) : nat :=
  length (filter (fun x => inb i (sd_box x) && (sd_to x =? to)) (tp_send o)).
Definition nrecv (o : tops) (from : Z) (i : index) : nat :=
  length (filter (fun x => inb i (rc_box x) && (rc_from x =? from)) (tp_recv o)).
Definition nred (o : tops) (i : index) : nat := length (filter (fun x => inb i (rd_box x)) (tp_red o)).

(* the processes of a group number: -1 are all, other numbers are positions in the group list
   (compare trans_isInGroup) *)
Definition members (gsize : Z) (o : tops) (k : Z) : option (list Z) :=
  if k =? -1 then Some (zcount gsize) else if k <? 0 then None else nth_error (tp_groups o) (Z.to_nat k).

(* [n] is 1 if [P], 0 otherwise *)
Definition OneIf (n : nat) (P : Prop) : Prop := (P -> n = 1%nat) /\ (~ P -> n = 0%nat).

(* the group [g] has exactly the owners of [i], each once, ascending *)
Definition IsOwners (l : rlist) (i : index) (g : option (list Z)) : Prop :=
  exists ts, g = Some ts /\ StronglySorted Z.lt ts /\ forall t, In t ts <-> Owns l t i.

(* a local number (mapNo) names a map of [me] with a range around box [b] *)
Definition InMap (l : rlist) (me mapNo : Z) (b : box) : Prop :=
  exists n x, rl_tidrange l me n = Ok (Some x) /\ t_mapNo x = mapNo /\
    i0 (b_from (t_box x)) <= i0 (b_from b) /\ i0 (b_to b) <= i0 (b_to (t_box x)).

(* everything that process [me] does with index [i] *)
Record TransAt (gsize me : Z) (red : redop) (fl tl : rlist) (o : tops) (i : index) : Prop := {
  ta_local : OneIf (nlocal o i) (OnlyOwner fl me i /\ Owns tl me i);
  ta_send : forall t, OneIf (nsend o t i) (OnlyOwner fl me i /\ Owns tl t i /\ t <> me);
  ta_recv : forall s, OneIf (nrecv o s i) (OnlyOwner fl s i /\ s <> me /\ Owns tl me i);
  ta_red : OneIf (nred o i) ((forall s, ~ OnlyOwner fl s i) /\ (Owns fl me i \/ Owns tl me i));
  ta_redgroups : forall x, In x (tp_red o) -> inb i (rd_box x) = true ->
    rd_redOp x = red /\ IsOwners fl i (members gsize o (rd_in x)) /\ IsOwners tl i (members gsize o (rd_out x)) }.

(* all operations refer to existing, non-empty ranges of own maps *)
Record MapsOk (me : Z) (fl tl : rlist) (o : tops) : Prop := {
  mo_local : forall x, In x (tp_local o) -> InMap fl me (lo_fromMapNo x) (lo_box x) /\ InMap tl me (lo_toMapNo x) (lo_box x);
  mo_send : forall x, In x (tp_send o) -> InMap fl me (sd_mapNo x) (sd_box x);
  mo_recv : forall x, In x (tp_recv o) -> InMap tl me (rc_mapNo x) (rc_box x);
  mo_red : forall x i, In x (tp_red o) -> inb i (rd_box x) = true ->
     (Owns fl me i -> InMap fl me (rd_inMapNo x) (rd_box x)) /\ (Owns tl me i -> InMap tl me (rd_outMapNo x) (rd_box x));
  mo_nonempty : forall b, In b (map lo_box (tp_local o) ++ map sd_box (tp_send o) ++ map rc_box (tp_recv o) ++ map rd_box (tp_red o)) ->
     i0 (b_from b) < i0 (b_to b) }.

(* Index [i] can be handled by process [me]: nothing to do, or exactly one owner and the
   reduction is not a custom one, or some other number of owners and there is a reduction *)
Definition Handled (me : Z) (red : redop) (fl tl : rlist) (i : index) : Prop :=
  Owns fl me i \/ Owns tl me i ->
  ((exists s, OnlyOwner fl s i) -> forall n, red <> RO_Custom n) /\
  ((forall s, ~ OnlyOwner fl s i) -> red <> RO_None).

(* the messages from one process to another, in order *)
Definition sent_to (o : tops) (q : Z) : list box := map sd_box (filter (fun x => sd_to x =? q) (tp_send o)).
Definition expected_from (o : tops) (p : Z) : list box := map rc_box (filter (fun x => rc_from x =? p) (tp_recv o)).

(* the reductions of a process with resolved groups, and those another process takes part in *)
Definition reductions (gsize : Z) (o : tops) : list (box * redop * option (list Z) * option (list Z)) :=
  map (fun x => (rd_box x, rd_redOp x, members gsize o (rd_in x), members gsize o (rd_out x))) (tp_red o).
Definition has_member (t : Z) (g : option (list Z)) : bool :=
  match g with Some ts => existsb (Z.eqb t) ts | None => false end.
Definition with_member (t : Z) (l : list (box * redop * option (list Z) * option (list Z))) :=
  filter (fun x => has_member t (snd (fst x)) || has_member t (snd x)) l.

(* ---------- 2d and 3d ---------- *)

(* the two partitionings as seen by process [me], with all ranges known *)
Record SeesAll (sp : space) (gsize me : Z) (fl tl : rlist) (f t : npart) : Prop := {
  sa_f : space_eq (pa_space (np_p f)) sp = true;
  sa_t : space_eq (pa_space (np_p t)) sp = true;
  sa_g : g_id (pa_group (np_p t)) = g_id (pa_group (np_p f));
  sa_size : g_size (pa_group (np_p f)) = gsize;
  sa_me : g_myid (pa_group (np_p f)) = me;
  sa_in : 0 <= me < gsize;
  sa_fl : pa_all (np_p f) = Some fl;
  sa_tl : pa_all (np_p t) = Some tl }.

Record GoodNd (sp : space) (gsize : Z) (fl tl : rlist) : Prop := {
  gn_fl : FrozenList fl; gn_tl : FrozenList tl;
  gn_flsp : rl_space fl = sp; gn_tlsp : rl_space tl = sp; gn_dims : sp_dims sp = 2%nat \/ sp_dims sp = 3%nat;
  gn_fltids : rl_tids fl = gsize; gn_tltids : rl_tids tl = gsize }.

(* what process [me] does with index [i] *)
Record NdAt (d : nat) (me : Z) (fl tl : rlist) (o : tops) (i : index) : Prop := {
  na_local : (exists x, In x (tp_local o) /\ InBox d i (lo_box x)) <-> Owns fl me i /\ Owns tl me i;
  na_send : forall t, (exists x, In x (tp_send o) /\ sd_to x = t /\ InBox d i (sd_box x)) <-> t <> me /\ Owns fl me i /\ Owns tl t i;
  na_recv : forall s, (exists x, In x (tp_recv o) /\ rc_from x = s /\ InBox d i (rc_box x)) <-> s <> me /\ Owns fl s i /\ Owns tl me i;
  na_red : tp_red o = []; na_init : tp_init o = [] }.

(* operation numbers name ranges of the process *)
Definition InRange (d : nat) (l : rlist) (me rangeNo mapNo : Z) (b : box) : Prop :=
  exists x, rl_tidrange l me rangeNo = Ok (Some x) /\ t_mapNo x = mapNo /\ SubBox d b (t_box x).
Record NdMaps (d : nat) (me : Z) (fl tl : rlist) (o : tops) : Prop := {
  nm_local : forall x, In x (tp_local o) ->
     InRange d fl me (lo_fromRangeNo x) (lo_fromMapNo x) (lo_box x) /\ InRange d tl me (lo_toRangeNo x) (lo_toMapNo x) (lo_box x);
  nm_send : forall x, In x (tp_send o) -> InRange d fl me (sd_rangeNo x) (sd_mapNo x) (sd_box x);
  nm_recv : forall x, In x (tp_recv o) -> InRange d tl me (rc_rangeNo x) (rc_mapNo x) (rc_box x) }.

(* a process has at most one range *)
Definition AtMostOne (l : rlist) (t : Z) : Prop := rl_tidrange l t 1 = Ok None.

(* index [i] is in at most one of the boxes *)
Definition AtMostOnce (d : nat) (i : index) (l : list box) : Prop :=
  forall n m x y, nth_error l n = Some x -> nth_error l m = Some y -> InBox d i x -> InBox d i y -> n = m.
