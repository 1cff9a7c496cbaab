(* Property C63: the queries on a partitioning give the same answers whichever range lists it stores *)
From Coq Require Import ZArith List Bool Lia Permutation Sorted ZifyBool ZifyNat.
From Verif Require Import Base ListFacts Model_Space Spec_Space Proof_Space Model_RangeList Spec_RangeList
  Proof_RangeList Proof_RangeList2 Proof_RangeList3 Proof_RangeList4 Proof_RangeList5 Model_Partitioner Spec_Partitioner Proof_Partitioner Proof_Filter
  Model_Group Model_Parting Spec_Parting Proof_Parting.
From Verif Require Prop_Partitioner.
Import ListNotations.
Open Scope Z_scope.

(* what is assumed of the partitioning: the partitioner asks for the ranges [cs], in range
   calls without merging and without the tag -1 (see C07), and [T] are these ranges in order *)
Record Usual (s : space) (g : group) (pr : partitioner) (other : option opart) (cs : list acall) (T : list prange) : Prop := {
  us_dims : valid_dims (sp_dims s);
  us_size : 0 <= g_size g;
  us_me : g_myid g < g_size g;
  us_merge : pr_merge pr = false;
  us_run : pr_run pr (mkParams s g other) = Ok cs;
  us_ranges : Forall (fun c => exists t r tag, c = ACrange t r tag) cs;
  us_tags : forall a, In a (asked cs) -> p_tag a <> -1;
  us_ties : NoTies (asked cs);
  us_T : Ordered cs T }.

Lemma is_ranges cs : Forall (fun c => exists t r tag, c = ACrange t r tag) cs -> Forall (fun c => is_range c = true) cs.
Proof. apply Forall_impl. intros c [t [r [tg ->]]]. reflexivity. Qed.

(* every answer of every life *)
Theorem C63_answers : forall s g pr other cs T h p ans, Usual s g pr other cs T -> Forall GoodCall h ->
  plife (new_empty_partitioning g s pr other) h = Ok (p, ans) ->
  Forall2 (RightAnswer s (g_size g) (Given (sp_dims s) cs) T (own_of (g_myid g) T)) h ans.
Proof.
  intros s g pr other cs T h p ans [U1 U2 U3 U4 U5 U6 U7 U8 U9] G H.
  refine (proj2 (life_ok s g pr other cs T U1 U2 U3 U4 U5 (is_ranges _ U6) U7 U8 U9 h [] _ p ans G _ H)).
  apply inv_new.
Qed.

(* the order exists, and there is only one *)
Theorem C63_order : forall cs, exists T, Ordered cs T /\ (NoTies (asked cs) -> forall T', Ordered cs T' -> T' = T).
Proof.
  intros cs.
  assert (E : exists T, Ordered cs T).
  { destruct (isort_trgen (map (fun a => mkTrg (p_task a) (p_box a) (p_tag a) 0) (asked cs))) as [P S].
    set (l := isort trgen_cmp _) in *. exists (map seen l). split.
    - eapply Permutation_trans; [|apply Permutation_map; exact P]. rewrite map_map. unfold seen. simpl.
      erewrite map_ext; [rewrite map_id; apply Permutation_refl|]. intros [[t b] tg]. reflexivity.
    - clear P. clearbody l. induction S; simpl; constructor; auto. apply Forall_map. rewrite Forall_forall in *. intros x Hx.
      specialize (H x Hx). apply trgen_cmp_le in H. unfold Before, seen, p_task, p_tag, p_box. simpl. lia. }
  destruct E as [T HT]. exists T. split; auto. intros N T' H'. symmetry. apply sorted_unique; try apply HT; try apply H'.
  - eapply Permutation_trans; [apply Permutation_sym, HT|apply H'].
  - destruct HT as [P _]. intros a b Ha Hb. apply N; eapply Permutation_in; try (apply Permutation_sym; exact P); auto.
Qed.

(* which queries are answered: own ranges need a run storing own or all ranges, and queries
   about all processes need a run storing all; without, the program ends *)
Theorem C63_defined : forall s g pr other cs T h p ans, Usual s g pr other cs T -> Forall GoodCall h ->
  plife (new_empty_partitioning g s pr other) h = Ok (p, ans) ->
  let maps := map_total (own_of (g_myid g) T) in
  (0 <= g_myid g -> StoresOwn h -> forall c, OwnQuery (sp_dims s) maps c -> exists p' a, pstep p c = Ok (p', a)) /\
  (0 <= g_myid g -> StoresOwn h -> forall m, ~ 0 <= m < maps -> pstep p (PMyMapRangeCount m) = Abort) /\
  (0 <= g_myid g -> ~ StoresOwn h -> forall c m, OwnQuery (sp_dims s) m c -> pstep p c = Abort) /\
  (g_myid g < 0 -> forall c m, OwnQuery (sp_dims s) m c -> exists a, pstep p c = Ok (p, a)) /\
  (StoresAll h -> forall c, AllQuery c -> exists a, pstep p c = Ok (p, a)) /\
  (~ StoresAll h -> forall c, AllQuery c -> pstep p c = Abort) /\
  (forall q0 l q, good_sorts q0 -> good_sorts q -> run_partitioner q0 pr (mkParams s g other) None = Ok l ->
     exists p', pstep p (PStoreMy q) = Ok (p', ANothing)).
Proof.
  intros s g pr other cs T h p ans [U1 U2 U3 U4 U5 U6 U7 U8 U9] G H maps. pose proof (is_ranges _ U6) as U6'.
  assert (I : PInv s g pr other cs T h p).
  { refine (proj1 (life_ok s g pr other cs T U1 U2 U3 U4 U5 U6' U7 U8 U9 h [] _ p ans G _ H)). apply inv_new. }
  assert (Hs : pa_space (po_part p) = s) by apply I. assert (Hg : pa_group (po_part p) = g) by apply I.
  conjs.
  - intros Hm St c Hc. destruct (own_defined s g pr other cs T U3 U4 h p Hm I St) as [D1 [D2 [D3 [D4 [D5 D6]]]]].
    destruct c; simpl in Hc; try tauto; cbn [pstep].
    + destruct D1 as [z ->]. simpl. eauto.
    + destruct (D2 n) as [z ->]. simpl. eauto.
    + destruct D3 as [z ->]. simpl. eauto.
    + destruct (D5 m Hc) as [z ->]. simpl. eauto.
    + destruct (D4 m n) as [z ->]. simpl. eauto.
    + unfold my_range_nd. rewrite Hs, Hc, Nat.eqb_refl. cbn [cassert]. destruct (D2 n) as [z ->]. simpl. eauto.
  - intros Hm St m Hc. destruct (own_defined s g pr other cs T U3 U4 h p Hm I St) as [D1 [D2 [D3 [D4 [D5 D6]]]]].
    cbn [pstep]. rewrite D6; auto.
  - intros Hm St c m Hc. destruct (own_undefined s g pr other cs T U3 U4 h p Hm I St) as [D1 [D2 [D3 [D4 D5]]]].
    destruct c; simpl in Hc; try tauto; cbn [pstep]; rewrite ?D1, ?D2, ?D3, ?D4, ?D5; auto.
    unfold my_range_nd. rewrite Hs, Hc, Nat.eqb_refl. cbn [cassert]. rewrite D2. reflexivity.
  - intros Hm c m Hc. assert (Hb : (g_myid g <? 0) = true) by lia.
    destruct c; simpl in Hc; try tauto; cbn [pstep];
      unfold my_rangecount, my_range_nd, my_range, my_mapcount, my_maprangecount, my_maprange; rewrite ?Hs, ?Hg, ?Hb; simpl; eauto.
    rewrite Hc, Nat.eqb_refl. simpl. eauto.
  - intros St c Hc. destruct (all_defined s g pr other cs T h p I) as [D _]. destruct (D St) as [l El].
    assert (L : LAll s g cs T l) by (eapply all_trs; eauto).
    pose proof (la_frozen _ _ _ _ _ L) as F. pose proof (fz_count _ F) as Fc.
    destruct c; simpl in Hc; try tauto; cbn [pstep];
      unfold parting_rangecount, parting_taskrange, parting_isAll, parting_isSingle; rewrite El; simpl; eauto.
    + unfold rl_taskrange. destruct (n >=? rl_count l) eqn:E; simpl; eauto.
      destruct (nth_error (rl_trs l) (Z.to_nat n)) as [x|] eqn:Ex.
      * rewrite (proj2 (aread_ok _ _ _) (conj Hc Ex)). simpl. eauto.
      * apply nth_error_None in Ex. lia.
    + unfold rl_isSingle. destruct (rl_count l =? 1) eqn:E; simpl; eauto.
      destruct (nth_error (rl_trs l) 0) as [x|] eqn:Ex.
      * rewrite (proj2 (aread_ok (rl_trs l) 0 x) (conj (Z.le_refl 0) Ex)). simpl. destruct (negb _); simpl; eauto.
      * apply nth_error_None in Ex. lia.
  - intros St c Hc. destruct (all_defined s g pr other cs T h p I) as [_ D]. specialize (D St).
    destruct c; simpl in Hc; try tauto; cbn [pstep];
      unfold parting_rangecount, parting_taskrange, parting_isAll, parting_isSingle; rewrite D; reflexivity.
  - intros q0 l q Hq0 Hq R. cbn [pstep].
    destruct (store_my_defined s g pr other cs T U1 U2 U4 q0 l h p q Hq0 Hq R I) as [p' ->]. simpl. eauto.
Qed.

(* so the answers about own ranges do not depend on what is stored, nor on earlier calls *)
Theorem C63_same : forall s g pr other cs T h1 h2 p1 p2 ans1 ans2 c p1' p2' a1 a2, Usual s g pr other cs T ->
  Forall GoodCall h1 -> Forall GoodCall h2 ->
  plife (new_empty_partitioning g s pr other) h1 = Ok (p1, ans1) ->
  plife (new_empty_partitioning g s pr other) h2 = Ok (p2, ans2) ->
  OwnQuery (sp_dims s) (map_total (own_of (g_myid g) T)) c ->
  pstep p1 c = Ok (p1', a1) -> pstep p2 c = Ok (p2', a2) -> SameAnswer a1 a2.
Proof.
  intros s g pr other cs T h1 h2 p1 p2 ans1 ans2 c p1' p2' a1 a2 U G1 G2 H1 H2 Hc S1 S2.
  assert (K : forall h p ans p' a, Forall GoodCall h -> plife (new_empty_partitioning g s pr other) h = Ok (p, ans) ->
     pstep p c = Ok (p', a) -> RightAnswer s (g_size g) (Given (sp_dims s) cs) T (own_of (g_myid g) T) c a).
  { intros h p ans p' a G H S. destruct U as [U1 U2 U3 U4 U5 U6 U7 U8 U9]. pose proof (is_ranges _ U6) as U6'.
    assert (I : PInv s g pr other cs T h p).
    { refine (proj1 (life_ok s g pr other cs T U1 U2 U3 U4 U5 U6' U7 U8 U9 h [] _ p ans G _ H)). apply inv_new. }
    refine (proj2 (step_ok s g pr other cs T U1 U2 U3 U4 U5 U6' U7 U8 U9 h p c p' a _ I S)).
    destruct c; simpl in Hc; try tauto; exact Logic.I. }
  pose proof (K _ _ _ _ _ G1 H1 S1) as R1. pose proof (K _ _ _ _ _ G2 H2 S2) as R2.
  destruct c; simpl in Hc; try tauto; destruct a1; cbn [RightAnswer] in R1; try tauto; destruct a2; cbn [RightAnswer] in R2; try tauto;
    cbn [SameAnswer]; try congruence. destruct R1, R2. split; congruence.
Qed.

(* laik_new_partitioning is such a life *)
Theorem C63_new : forall q pr g s other p, new_partitioning q pr g s other = Ok p ->
  plife (new_empty_partitioning g s pr other) [PStoreAll q] = Ok (p, [ANothing]).
Proof. intros q pr g s other p H. unfold new_partitioning in H. simpl. rewrite H. reflexivity. Qed.

(* the number of ranges over all maps is the number of ranges: every own range is found
   under exactly one map *)
Theorem C63_by_map : forall own : list prange, 
  (forall y, In y (numbered own) -> 0 <= snd y < map_total own) /\
  map fst (numbered own) = own.
Proof.
  intros own.
  assert (Mono : forall tags a b, (a <= b)%nat -> 0 <= map_no tags a <= map_no tags b).
  { intros tags a b H. induction H as [|b H IH].
    - split; [|lia]. induction a as [|a IH]; cbn [map_no]; [lia|]. destruct (_ && _); lia.
    - cbn [map_no]. destruct (_ && _); lia. }
  split.
  - intros [x m] Hy. unfold numbered in Hy. apply in_combine_r in Hy. apply in_map_iff in Hy. destruct Hy as [n [<- Hn]].
    apply in_seq in Hn. unfold map_total. destruct (length own) as [|k] eqn:E; [simpl in Hn; lia|]. simpl snd.
    pose proof (Mono (map p_tag own) n k ltac:(lia)). lia.
  - unfold numbered. generalize (map_no (map p_tag own)). intros f.
    assert (H : forall k (l : list prange), map fst (combine l (map f (seq k (length l)))) = l).
    { intros k l. revert k. induction l as [|x l IH]; intros k; simpl; auto. rewrite IH. auto. }
    apply H.
Qed.

(* ---- a case: 3 processes, tagged ranges ---- *)
Definition pt_sp : space := Prop_Partitioner.exsp 20.
Definition pt_g : group := Prop_Partitioner.exgroup 3 1.
Definition pt_r (a b : Z) : range := Prop_Partitioner.exrng 20 a b.
Definition pt_cs : list acall :=
  [ACrange 1 (pt_r 12 15) 5; ACrange 0 (pt_r 0 6) 1; ACrange 1 (pt_r 6 10) 2; ACrange 1 (pt_r 10 12) 5; ACrange 2 (pt_r 15 20) 1].
Definition pt_pr : partitioner := Prop_Partitioner.fixed pt_cs false.
Definition pt_h : list pcall :=
  [PStoreMy Prop_Partitioner.exq; PMyRangeCount; PMyMapRange 1 1; PStoreInter Prop_Partitioner.exq 9 None; PStoreAll Prop_Partitioner.exq;
   PMyMapRange 1 1; PMyMapCount; PMyMapRangeCount 1; PMyRangeNd 1 1; PMyRangeNd 1 3; PRangeCount; PTaskRange 4; PIsAll;
   PCoversSpace Prop_Partitioner.exq].

Lemma pt_usual : exists T, Usual pt_sp pt_g pt_pr None pt_cs T.
Proof.
  destruct (C63_order pt_cs) as [T [HT _]]. exists T. constructor; auto; simpl; try lia.
  - left; reflexivity.
  - unfold pt_cs. repeat (constructor; [eauto|]). constructor.
  - intros a Ha. repeat destruct Ha as [<-|Ha]; unfold p_tag; simpl; try lia.
  - intros a b Ha Hb. simpl in Ha, Hb.
    repeat destruct Ha as [<-|Ha]; try tauto; repeat destruct Hb as [<-|Hb]; try tauto; unfold p_task, p_tag, p_box; simpl; try discriminate; auto; lia.
Qed.

Example C63_case : (exists T, Usual pt_sp pt_g pt_pr None pt_cs T) /\ Forall GoodCall pt_h /\
  (exists p ans, plife (new_empty_partitioning pt_g pt_sp pt_pr None) pt_h = Ok (p, ans) /\
     nth_error ans 1 = Some (AInt 3) /\ nth_error ans 6 = Some (AInt 2) /\ nth_error ans 7 = Some (AInt 2) /\
     (exists x, nth_error ans 8 = Some (ABorders x [10; 12])) /\ nth_error ans 9 = Some (ABorders None [0; 0])) /\
  StoresOwn pt_h.
Proof.
  split; [apply pt_usual|]. split.
  { unfold pt_h. repeat (constructor; [try exact Prop_Partitioner.exq_good; exact Logic.I|]). constructor. }
  split.
  - eexists. eexists. split; [vm_compute; reflexivity|]. simpl. eauto 10.
  - left. exists Prop_Partitioner.exq. simpl. tauto.
Qed.

(* Without NoTies the order of two own ranges with the same tag and first coordinate is
   left to the sorting function: a stored list and a second one need not agree *)
Definition pt_q : sorts := mkSorts (fun l => isort trgen_cmp (rev l)) (isort tss1d_cmp) (isort trgen_cmpfrom).
Definition pt_sp2 : space := mkSpace 7 2 (mkBox (mkIdx 0 0 0) (mkIdx 4 4 0)).
Definition pt_r2 (a b : Z) : range := mkRange (Some pt_sp2) (mkBox (mkIdx 0 a 0) (mkIdx 4 b 0)).
Definition pt_cs2 : list acall := [ACrange 1 (pt_r2 0 2) 1; ACrange 1 (pt_r2 2 4) 1].
Theorem C63_ties_refuted : exists s g pr q q' p1 p2 x y,
  good_sorts q /\ good_sorts q' /\ pr_merge pr = false /\
  new_partitioning q pr g s None = Ok p1 /\ new_partitioning q' pr g s None = Ok p2 /\
  my_range (po_part p1) 0 = Ok (Some x) /\ my_range (po_part p2) 0 = Ok (Some y) /\ t_box x <> t_box y.
Proof.
  exists pt_sp2, pt_g, (Prop_Partitioner.fixed pt_cs2 false), Prop_Partitioner.exq, pt_q.
  eexists _, _, _, _. split; [apply Prop_Partitioner.exq_good|]. split.
  - destruct Prop_Partitioner.exq_good as [Q1 [Q2 Q3]]. split; [|split; auto]. intros l. simpl.
    destruct (Q1 (rev l)) as [P S]. split; auto. eapply Permutation_trans; [apply Permutation_rev|exact P].
  - split; [reflexivity|]. split; [vm_compute; reflexivity|]. split; [vm_compute; reflexivity|].
    split; [vm_compute; reflexivity|]. split; [vm_compute; reflexivity|]. simpl. discriminate.
Qed.

Print Assumptions C63_answers.
Print Assumptions C63_order.
Print Assumptions C63_defined.
Print Assumptions C63_same.
Print Assumptions C63_new.
Print Assumptions C63_by_map.
Print Assumptions C63_case.
Print Assumptions C63_ties_refuted.
