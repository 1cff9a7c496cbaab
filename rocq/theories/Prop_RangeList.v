(* Properties C04-C09 and the list part of C18: range lists *)
From Coq Require Import ZArith List Bool Lia Permutation Sorted.
From Verif Require Import Base Model_Space Spec_Space Proof_Space Model_RangeList Spec_RangeList
  Proof_RangeList Proof_RangeList2 Proof_RangeList3 Proof_RangeList4 Proof_RangeList5 Proof_Cover.
Import ListNotations.
Open Scope Z_scope.

(* ---------- C04: freezing keeps who owns what ---------- *)

(* Ranges in any order, tagged or not, with or without merging: a process is
   reported to own an index iff the index was appended for it. *)
Theorem C04_freeze_ownership : forall s tids h l qg qs m l',
  0 <= tids -> is_qsort trgen_cmp qg ->
  run_appends s tids h = Ok l -> rl_freeze qg qs l m = Ok l' ->
  forall t i, Owns l' t i <-> Appended s h t i.
Proof. exact freeze_owns_gen. Qed.

(* Freezing succeeds; merging only for a 1d list with at least one range *)
Theorem C04_freeze_succeeds : forall s tids h l qg qs m,
  0 <= tids -> is_qsort trgen_cmp qg -> run_appends s tids h = Ok l ->
  (m = true -> h <> [] /\ sp_dims s = 1%nat) ->
  exists l', rl_freeze qg qs l m = Ok l'.
Proof. exact freeze_total_gen. Qed.

Theorem C04_freeze_merge_aborts : forall s tids h l qg qs,
  run_appends s tids h = Ok l -> is_qsort trgen_cmp qg ->
  (h = [] \/ sp_dims s <> 1%nat) -> rl_freeze qg qs l true = Abort.
Proof. exact freeze_fails. Qed.

(* Lists built from single indexes: same, and freezing always combines neighbours *)
Theorem C04_freeze_single_indexes : forall s tids h l qg qs m,
  0 <= tids -> is_qsort tss1d_cmp qs -> h <> [] -> sp_dims s = 1%nat ->
  run_singles s tids h = Ok l ->
  exists l', rl_freeze qg qs l m = Ok l' /\
    (forall t i, Owns l' t i <-> In (mkTsi t (i0 i)) h) /\
    (forall t n k x y, 0 <= t < tids -> n < k ->
       rl_tidrange l' t n = Ok (Some x) -> rl_tidrange l' t k = Ok (Some y) ->
       i0 (b_to (t_box x)) < i0 (b_from (t_box y)) /\ t_mapNo x = 0 /\ t_mapNo y = 0).
Proof. exact freeze_owns_singles. Qed.

Definition ex_space1 : space := mkSpace 7 1 (mkBox (mkIdx 0 0 0) (mkIdx 20 0 0)).
Definition ex_r (a b : Z) : range := mkRange (Some ex_space1) (mkBox (mkIdx a 0 0) (mkIdx b 0 0)).
Definition ex_hist : list appcall :=
  [mkApp 1 (ex_r 10 15) 0; mkApp 0 (ex_r 3 10) 0; mkApp 1 (ex_r 15 20) 0; mkApp 0 (ex_r 0 5) 0;
   mkApp 2 (ex_r 4 4) 3].

Example C04_case : exists l l',
  is_qsort trgen_cmp (isort trgen_cmp) /\
  run_appends ex_space1 3 ex_hist = Ok l /\
  rl_freeze (isort trgen_cmp) (isort tss1d_cmp) l true = Ok l' /\
  rl_tidrange l' 0 0 = Ok (Some (mkTrg 0 (mkBox (mkIdx 0 0 0) (mkIdx 10 0 0)) 0 0)) /\
  rl_tidrangecount l' 1 = Ok 1.
Proof.
  eexists _, _. split; [exact isort_trgen|]. split; [vm_compute; reflexivity|].
  split; [vm_compute; reflexivity|]. split; vm_compute; reflexivity.
Qed.

Example C04_case_single : exists l,
  is_qsort tss1d_cmp (isort tss1d_cmp) /\
  run_singles ex_space1 3 [mkTsi 1 5; mkTsi 0 3; mkTsi 1 4; mkTsi 1 5; mkTsi 1 9] = Ok l /\
  exists l', rl_freeze (isort trgen_cmp) (isort tss1d_cmp) l false = Ok l' /\
  rl_tidrangecount l' 1 = Ok 2.
Proof.
  eexists. split; [exact isort_tss1d|]. split; [vm_compute; reflexivity|].
  eexists. split; vm_compute; reflexivity.
Qed.

(* ---------- C05: enumeration by process ---------- *)

(* Without merging: the ranges reported for t are exactly those appended for t (as a
   multiset of box and tag), ordered by tag and then by start. *)
Theorem C05_enumeration : forall s tids h l qg qs l' t,
  is_qsort trgen_cmp qg -> run_appends s tids h = Ok l ->
  rl_freeze qg qs l false = Ok l' -> 0 <= t < tids ->
  exists xs : list trg,
    rl_tidrangecount l' t = Ok (Z.of_nat (length xs)) /\
    (forall n, rl_tidrange l' t n = Ok (if n <? 0 then None else nth_error xs (Z.to_nat n))) /\
    Permutation (map (fun x => (t_box x, t_tag x)) xs)
      (map (fun a => (r_box (a_range a), a_tag a)) (filter (fun a => a_task a =? t) h)) /\
    (forall x, In x xs -> t_task x = t) /\
    StronglySorted (fun a b => t_tag a < t_tag b \/
        t_tag a = t_tag b /\ i0 (b_from (t_box a)) <= i0 (b_from (t_box b))) xs.
Proof. exact enumeration_gen. Qed.

(* Any frozen list: count and n-th range agree, never fail for a valid process, and
   report nothing of another process *)
Theorem C05_enumeration_consistent : forall l t, FrozenList l -> 0 <= t < rl_tids l ->
  exists xs : list trg,
    rl_tidrangecount l t = Ok (Z.of_nat (length xs)) /\
    (forall n, rl_tidrange l t n = Ok (if n <? 0 then None else nth_error xs (Z.to_nat n))) /\
    (forall x, In x xs -> t_task x = t) /\
    (forall i, Owns l t i <-> exists x, In x xs /\ InBox (sp_dims (rl_space l)) i (t_box x)).
Proof. exact enumeration_any. Qed.

Example C05_case : exists l l',
  run_appends ex_space1 3 ex_hist = Ok l /\
  rl_freeze (isort trgen_cmp) (isort tss1d_cmp) l false = Ok l' /\
  rl_tidrangecount l' 0 = Ok 2 /\ FrozenList l'.
Proof.
  eexists _, _. split; [vm_compute; reflexivity|].
  split; [vm_compute; reflexivity|]. split; [vm_compute; reflexivity|].
  eapply (FL_gen ex_space1 3 ex_hist _ (isort trgen_cmp) (isort tss1d_cmp) false).
  - left; reflexivity.
  - lia.
  - exact isort_trgen.
  - vm_compute; reflexivity.
  - vm_compute; reflexivity.
Qed.

(* ---------- C06: merged ranges neither overlap nor touch ---------- *)

Theorem C06_merge : forall s tids h l qg qs l',
  0 <= tids -> is_qsort trgen_cmp qg -> run_appends s tids h = Ok l ->
  rl_freeze qg qs l true = Ok l' ->
  forall t n m x y, 0 <= t < tids -> n < m ->
    rl_tidrange l' t n = Ok (Some x) -> rl_tidrange l' t m = Ok (Some y) ->
    t_tag x = t_tag y -> i0 (b_to (t_box x)) < i0 (b_from (t_box y)).
Proof. exact merge_separates. Qed.

Example C06_case : exists l l',
  run_appends ex_space1 3 (mkApp 0 (ex_r 18 19) 0 :: ex_hist) = Ok l /\
  rl_freeze (isort trgen_cmp) (isort tss1d_cmp) l true = Ok l' /\
  rl_tidrangecount l' 0 = Ok 2.
Proof. eexists _, _. vmsplit. Qed.

(* ---------- C07: map numbers by tag ---------- *)

Theorem C07_map_numbers : forall s tids h l qg qs m l',
  0 <= tids -> is_qsort trgen_cmp qg -> run_appends s tids h = Ok l ->
  rl_freeze qg qs l m = Ok l' ->
  (forall a, In a h -> a_tag a <> -1) ->
  forall t, 0 <= t < tids ->
  (forall x, rl_tidrange l' t 0 = Ok (Some x) -> t_mapNo x = 0) /\
  (forall n x y, rl_tidrange l' t n = Ok (Some x) -> rl_tidrange l' t (n + 1) = Ok (Some y) ->
     t_mapNo y = t_mapNo x \/ t_mapNo y = t_mapNo x + 1) /\
  (forall n k x y, n <> k -> rl_tidrange l' t n = Ok (Some x) -> rl_tidrange l' t k = Ok (Some y) ->
     (t_mapNo x = t_mapNo y <-> t_tag x = t_tag y /\ t_tag x <> 0)).
Proof. exact map_numbers_gen. Qed.

(* Enumeration by map number agrees with the enumeration of all ranges, at any
   point of a sequence of such queries *)
Theorem C07_map_enumeration : forall s tids h l qg qs m l',
  0 <= tids -> is_qsort trgen_cmp qg -> run_appends s tids h = Ok l ->
  rl_freeze qg qs l m = Ok l' ->
  (forall a, In a h -> a_tag a <> -1) ->
  forall t, 0 <= t < tids ->
  exists (xs : list trg) (c : Z),
    (forall n, rl_tidrange l' t n = Ok (if n <? 0 then None else nth_error xs (Z.to_nat n))) /\
    rl_tidmapcount l' t = Ok c /\ 0 <= c /\
    (forall k, 0 <= k < c <-> exists x, In x xs /\ t_mapNo x = k) /\
    forall l2, MapQueried t l' l2 ->
      (forall k n, exists l3, rl_tidmaprange l2 t k n =
        Ok (l3, if n <? 0 then None else nth_error (filter (fun x => t_mapNo x =? k) xs) (Z.to_nat n))) /\
      (forall k l3 r, rl_tidmaprangecount l2 t k = Ok (l3, r) ->
         r = Z.of_nat (length (filter (fun x => t_mapNo x =? k) xs))).
Proof. exact maps_enumeration. Qed.

Definition ex_tagged : list appcall :=
  [mkApp 0 (ex_r 10 15) 5; mkApp 0 (ex_r 3 10) 2; mkApp 0 (ex_r 15 20) 0; mkApp 1 (ex_r 0 5) 0;
   mkApp 0 (ex_r 0 2) 5].

Example C07_case : exists l l',
  run_appends ex_space1 2 ex_tagged = Ok l /\
  rl_freeze (isort trgen_cmp) (isort tss1d_cmp) l false = Ok l' /\
  map t_mapNo (rl_trs l') = [0; 1; 2; 2; 0] /\ rl_tidmapcount l' 0 = Ok 3 /\
  (forall a, In a ex_tagged -> a_tag a <> -1) /\
  exists l2 x, rl_tidmaprange l' 0 2 1 = Ok (l2, Some x) /\ i0 (b_from (t_box x)) = 10.
Proof.
  eexists _, _. split; [vm_compute; reflexivity|]. split; [vm_compute; reflexivity|].
  split; [vm_compute; reflexivity|]. split; [vm_compute; reflexivity|]. split.
  - intros a Ha. simpl in Ha. repeat destruct Ha as [<-|Ha]; simpl; lia.
  - eexists _, _. split; vm_compute; reflexivity.
Qed.

(* Tag -1 is the code's initial "last tag": a process whose smallest tag is -1 gets
   map number -1, so the map count does not match *)
Theorem C07_tag_minus_one_refuted : exists s tids h l l' x,
  0 <= tids /\ run_appends s tids h = Ok l /\
  rl_freeze (isort trgen_cmp) (isort tss1d_cmp) l false = Ok l' /\
  rl_tidrange l' 0 0 = Ok (Some x) /\ t_mapNo x = -1 /\ rl_tidmapcount l' 0 = Ok 0.
Proof.
  exists ex_space1, 1, [mkApp 0 (ex_r 0 20) (-1)]. eexists _, _, _.
  split; [lia|]. vmsplit.
Qed.

(* ---------- C08: coverage check ---------- *)

(* "covered" is never wrong *)
Theorem C08_coverage_sound : forall qf l,
  valid_dims (sp_dims (rl_space l)) -> is_qsort trgen_cmpfrom qf ->
  rl_coversSpace qf l = Ok true ->
  forall i, InBox (sp_dims (rl_space l)) i (sp_box (rl_space l)) ->
    exists x, In x (rl_trs l) /\ InBox (sp_dims (rl_space l)) i (t_box x).
Proof. exact covers_sound. Qed.

(* "not covered" is not wrong if no range is empty *)
Theorem C08_coverage_complete : forall qf l b,
  valid_dims (sp_dims (rl_space l)) -> is_qsort trgen_cmpfrom qf ->
  NonEmpty (sp_dims (rl_space l)) (sp_box (rl_space l)) ->
  Forall (fun x => NonEmpty (sp_dims (rl_space l)) (t_box x)) (rl_trs l) ->
  rl_coversSpace qf l = Ok b ->
  (forall i, InBox (sp_dims (rl_space l)) i (sp_box (rl_space l)) ->
    exists x, In x (rl_trs l) /\ InBox (sp_dims (rl_space l)) i (t_box x)) ->
  b = true.
Proof. exact covers_complete. Qed.

(* in 1d a covering list is always recognised, whatever the number of ranges *)
Theorem C08_coverage_1d_complete : forall qf l,
  sp_dims (rl_space l) = 1%nat -> is_qsort trgen_cmpfrom qf ->
  NonEmpty 1 (sp_box (rl_space l)) ->
  Forall (fun x => NonEmpty 1 (t_box x)) (rl_trs l) ->
  (forall i, InBox 1 i (sp_box (rl_space l)) -> exists x, In x (rl_trs l) /\ InBox 1 i (t_box x)) ->
  rl_coversSpace qf l = Ok true.
Proof. exact covers_1d_total. Qed.

Definition ex_space3 : space := mkSpace 8 3 (mkBox (mkIdx 0 0 0) (mkIdx 10 10 10)).
Definition ex_list3 (bs : list box) : rlist :=
  set_trange (rl_new ex_space3 1) (Some (map (fun b => mkTrg 0 b 0 0) bs)).
Definition bx (a b c d e f : Z) : box := mkBox (mkIdx a b c) (mkIdx d e f).

Example C08_case :
  is_qsort trgen_cmpfrom (isort trgen_cmpfrom) /\
  rl_coversSpace (isort trgen_cmpfrom)
    (ex_list3 [bx 0 0 0 10 3 10; bx 0 3 0 4 10 10; bx 4 3 0 10 10 6; bx 3 2 5 10 10 10]) = Ok true /\
  rl_coversSpace (isort trgen_cmpfrom)
    (ex_list3 [bx 0 0 0 10 3 10; bx 0 3 0 4 10 10; bx 4 3 0 10 10 6; bx 3 2 7 10 10 10]) = Ok false.
Proof. split; [exact isort_from|]. split; vm_compute; reflexivity. Qed.

(* With an empty range, a covering list can be reported as not covering *)
Theorem C08_empty_range_refuted : exists l,
  rl_coversSpace (isort trgen_cmpfrom) l = Ok false /\
  valid_dims (sp_dims (rl_space l)) /\
  forall i, InBox (sp_dims (rl_space l)) i (sp_box (rl_space l)) ->
    exists x, In x (rl_trs l) /\ InBox (sp_dims (rl_space l)) i (t_box x).
Proof.
  exists (ex_list3 [bx 0 3 4 10 3 6; bx 0 0 0 10 3 10; bx 0 3 0 10 10 10]).
  split; [vm_compute; reflexivity|]. split; [right; right; reflexivity|].
  intros i Hi. unfold InBox in Hi; simpl in Hi.
  destruct (Z_lt_dec (i1 i) 3).
  - exists (mkTrg 0 (bx 0 0 0 10 3 10) 0 0). split; [simpl; auto|]. unfold InBox; simpl. lia.
  - exists (mkTrg 0 (bx 0 3 0 10 10 10) 0 0). split; [simpl; auto|]. unfold InBox; simpl. lia.
Qed.

(* More than COVERLIST_MAX pieces: the check ends the program, also for a list that
   covers the space (2d, rows in an order which leaves many gaps) *)
Definition ex_space2 : space := mkSpace 9 2 (mkBox (mkIdx 0 0 0) (mkIdx 10 200 0)).
Definition row_range (f : Z -> Z) (k : nat) : trg :=
  mkTrg 0 (bx 0 (f (Z.of_nat k)) 0 10 (f (Z.of_nat k) + 1) 0) 0 0.
Definition ex_rows (n : nat) : list trg :=
  map (row_range (fun k => 2 * k)) (rev (seq 0 n)) ++ map (row_range (fun k => 2 * k + 1)) (rev (seq 0 n)).
Lemma ex_rows_cover n i : 0 <= i0 i < 10 -> 0 <= i1 i < 2 * Z.of_nat n ->
  exists x, In x (ex_rows n) /\ InBox 2 i (t_box x).
Proof.
  intros H0 H1. unfold ex_rows.
  set (k := Z.to_nat (i1 i / 2)).
  assert (Hk : Z.of_nat k = i1 i / 2).
  { unfold k. rewrite Z2Nat.id; auto. apply Z.div_pos; lia. }
  pose proof (Z.div_mod (i1 i) 2 ltac:(lia)). pose proof (Z.mod_pos_bound (i1 i) 2 ltac:(lia)).
  assert (Hk2 : In k (rev (seq 0 n))).
  { rewrite <- in_rev. apply in_seq. lia. }
  destruct (Z.eq_dec (i1 i mod 2) 0).
  - exists (row_range (fun k => 2 * k) k). split.
    + apply in_app_iff. left. apply in_map. auto.
    + unfold InBox, row_range; simpl. lia.
  - exists (row_range (fun k => 2 * k + 1) k). split.
    + apply in_app_iff. right. apply in_map. auto.
    + unfold InBox, row_range; simpl. lia.
Qed.
Theorem C08_coverage_abort_refuted : exists l,
  rl_coversSpace (isort trgen_cmpfrom) l = Abort /\
  valid_dims (sp_dims (rl_space l)) /\
  forall i, InBox (sp_dims (rl_space l)) i (sp_box (rl_space l)) ->
    exists x, In x (rl_trs l) /\ InBox (sp_dims (rl_space l)) i (t_box x).
Proof.
  exists (set_trange (rl_new ex_space2 1) (Some (ex_rows 100))).
  split; [vm_compute; reflexivity|]. split; [right; left; reflexivity|].
  intros i Hi. apply (ex_rows_cover 100 i); unfold InBox in Hi; simpl in Hi; lia.
Qed.

(* ---------- C09: isAll, isSingle, isEqual ---------- *)

Theorem C09_isAll : forall l, FrozenList l -> rl_isAll l = true ->
  forall t i, 0 <= t < rl_tids l -> InBox (sp_dims (rl_space l)) i (sp_box (rl_space l)) -> Owns l t i.
Proof. exact isAll_sound'. Qed.

Theorem C09_isSingle : forall l t, FrozenList l -> rl_isSingle l = Ok t -> t <> -1 ->
  0 <= t < rl_tids l /\
  (forall i, InBox (sp_dims (rl_space l)) i (sp_box (rl_space l)) -> Owns l t i) /\
  (forall u i, Owns l u i -> u = t).
Proof. exact isSingle_sound'. Qed.

Theorem C09_isEqual : forall l1 l2, FrozenList l1 -> FrozenList l2 -> rl_space l1 = rl_space l2 ->
  exists b, rl_isEqual l1 l2 = Ok b /\ (b = true <-> SameRanges l1 l2).
Proof. exact isEqual_exact'. Qed.

Theorem C09_isEqual_ownership : forall l1 l2, FrozenList l1 -> FrozenList l2 -> rl_space l1 = rl_space l2 ->
  exists b, rl_isEqual l1 l2 = Ok b /\ (b = true -> forall t i, Owns l1 t i <-> Owns l2 t i).
Proof. exact isEqual_sound'. Qed.

Definition fz (tids : Z) (h : list appcall) : outcome rlist :=
  do l <- run_appends ex_space1 tids h;
  rl_freeze (isort trgen_cmp) (isort tss1d_cmp) l false.
Lemma fz_frozen tids h l : 0 <= tids -> fz tids h = Ok l -> FrozenList l.
Proof.
  intros Ht H. unfold fz in H. apply obind_ok in H. destruct H as [l0 [H1 H2]].
  eapply FL_gen; eauto using isort_trgen. left; reflexivity.
Qed.
Example C09_case : exists l1 l2 l3,
  fz 2 [mkApp 1 (ex_r 0 20) 0; mkApp 0 (ex_r 0 20) 3] = Ok l1 /\ FrozenList l1 /\ rl_isAll l1 = true /\
  fz 2 [mkApp 1 (ex_r 0 20) 0] = Ok l2 /\ FrozenList l2 /\ rl_isSingle l2 = Ok 1 /\
  fz 2 [mkApp 0 (ex_r 0 20) 0; mkApp 1 (ex_r 0 20) 0] = Ok l3 /\ FrozenList l3 /\
  rl_isEqual l1 l3 = Ok true /\ rl_isEqual l1 l2 = Ok false.
Proof.
  eexists _, _, _. 
  assert (E1 : exists l, fz 2 [mkApp 1 (ex_r 0 20) 0; mkApp 0 (ex_r 0 20) 3] = Ok l) by (eexists; vm_compute; reflexivity).
  assert (E2 : exists l, fz 2 [mkApp 1 (ex_r 0 20) 0] = Ok l) by (eexists; vm_compute; reflexivity).
  assert (E3 : exists l, fz 2 [mkApp 0 (ex_r 0 20) 0; mkApp 1 (ex_r 0 20) 0] = Ok l) by (eexists; vm_compute; reflexivity).
  split; [vm_compute; reflexivity|]. split.
  { eapply (fz_frozen 2 [mkApp 1 (ex_r 0 20) 0; mkApp 0 (ex_r 0 20) 3]); [lia|vm_compute; reflexivity]. }
  split; [vm_compute; reflexivity|]. split; [vm_compute; reflexivity|]. split.
  { eapply (fz_frozen 2 [mkApp 1 (ex_r 0 20) 0]); [lia|vm_compute; reflexivity]. }
  split; [vm_compute; reflexivity|]. split; [vm_compute; reflexivity|]. split.
  { eapply (fz_frozen 2 [mkApp 0 (ex_r 0 20) 0; mkApp 1 (ex_r 0 20) 0]); [lia|vm_compute; reflexivity]. }
  split; vm_compute; reflexivity.
Qed.

(* ---------- C18 (list part): migration renumbers processes ---------- *)

Theorem C18_list_migrate : forall l qg idmap n l',
  FrozenList l -> is_qsort trgen_cmp qg -> 0 <= n -> rl_migrate qg l idmap n = Ok l' ->
  FrozenList l' /\ rl_space l' = rl_space l /\ rl_tids l' = n /\
  (forall u i, Owns l' u i <-> exists t, aread idmap t = Ok u /\ Owns l t i).
Proof.
  intros l qg idmap n l' F Hq Hn H. destruct (FrozenList_Frozen _ F) as [F1 F2].
  destruct (migrate_ok l qg idmap n l' F1 Hq Hn H) as [_ R]. split; auto.
  eapply FL_migrate; eauto.
Qed.

Example C18_list_case : exists l l',
  fz 3 [mkApp 2 (ex_r 0 10) 0; mkApp 0 (ex_r 10 20) 0] = Ok l /\
  rl_migrate (isort trgen_cmp) l [1; -1; 0] 2 = Ok l' /\
  map t_task (rl_trs l') = [0; 1].
Proof. eexists _, _. vmsplit. Qed.

Print Assumptions C04_freeze_ownership.
Print Assumptions C04_freeze_succeeds.
Print Assumptions C04_freeze_merge_aborts.
Print Assumptions C04_freeze_single_indexes.
Print Assumptions C05_enumeration.
Print Assumptions C05_enumeration_consistent.
Print Assumptions C06_merge.
Print Assumptions C07_map_numbers.
Print Assumptions C07_map_enumeration.
Print Assumptions C07_tag_minus_one_refuted.
Print Assumptions C08_coverage_sound.
Print Assumptions C08_coverage_complete.
Print Assumptions C08_coverage_1d_complete.
Print Assumptions C08_empty_range_refuted.
Print Assumptions C08_coverage_abort_refuted.
Print Assumptions C09_isAll.
Print Assumptions C09_isSingle.
Print Assumptions C09_isEqual.
Print Assumptions C09_isEqual_ownership.
Print Assumptions C18_list_migrate.
