(* Proofs about reservations: groups of ranges and their numbers *)
From Coq Require Import ZArith List Bool Lia Sorted Permutation ZifyBool ZifyNat.
From Verif Require Import Base ListFacts Model_Space Model_RangeList Model_Mem Model_Layout Model_Partitioner Model_Transition Model_Data Model_Reservation
  Spec_Space Spec_RangeList Spec_Partitioner Spec_Type Spec_Layout Spec_Data Spec_Reservation
  Proof_Space Proof_RangeList Proof_RangeList2 Proof_RangeList3 Proof_RangeList4 Proof_RangeList5 Proof_Partitioner2 Proof_Layout Proof_Layout2 Proof_Data.
Import ListNotations.
Open Scope Z_scope.

(* the result of updating map offsets *)
Record Offs (sp : space) (p : part) (r : rlist) : Prop := {
  of_tid : rl_map_tid r = pt_me p;
  of_sp : rl_space r = sp;
  of_nn : 0 <= rl_map_count r;
  of_mc : rl_tidmapcount (pt_ranges p) (pt_me p) = Ok (rl_map_count r);
  of_no : forall x, OwnRange p x -> 0 <= t_mapNo x < rl_map_count r;
  of_map : forall k, 0 <= k < rl_map_count r -> exists a b,
    aread (rl_map_off r) k = Ok a /\ aread (rl_map_off r) (k + 1) = Ok b /\ a < b /\
    (forall o, a <= o < b -> exists x, aread (rl_trs r) o = Ok x /\ OwnRange p x /\ t_mapNo x = k) /\
    (forall x, OwnRange p x -> t_mapNo x = k -> exists o, a <= o < b /\ aread (rl_trs r) o = Ok x) }.

Lemma offs_ok sp p : Reservable sp p -> exists r, updateMapOffsets (pt_ranges p) (pt_me p) = Ok r /\ Offs sp p r.
Proof.
  intros [Own Fr _ _ _]. destruct Own as [Fz Esp Hme Hne Hfirst Hnext _].
  destruct (FrozenList_Frozen _ Fz) as [F Hd].
  set (l := pt_ranges p) in *. set (me := pt_me p) in *. set (M := mine me (rl_trs l)).
  assert (Htr : forall n, rl_tidrange l me n = Ok (if n <? 0 then None else nth_error M (Z.to_nat n))) by (intros; apply frozen_tidrange; auto).
  assert (Hin : forall x, OwnRange p x <-> In x M).
  { intros x. unfold OwnRange. fold l me. split.
    - intros [n Hn]. rewrite Htr in Hn. destruct (n <? 0); [discriminate|]. injection Hn as Hn. eapply nth_error_In; eauto.
    - intros Hx. apply In_nth_error in Hx. destruct Hx as [n Hn]. exists (Z.of_nat n). rewrite Htr.
      replace (Z.of_nat n <? 0) with false by lia. rewrite Nat2Z.id, Hn. reflexivity. }
  assert (HM : mapsOK M).
  { apply steps_mapsOK.
    - intros x Hx. apply Hfirst. rewrite Htr. change (Z.to_nat 0) with O. rewrite Hx. reflexivity.
    - intros n x y Hx Hy. apply (Hnext (Z.of_nat n)); rewrite Htr.
      + replace (Z.of_nat n <? 0) with false by lia. now rewrite Nat2Z.id, Hx.
      + replace (Z.of_nat n + 1 <? 0) with false by lia. replace (Z.to_nat (Z.of_nat n + 1)) with (S n) by lia. now rewrite Hy. }
  assert (HC : cacheOK me l) by (left; auto).
  destruct (updateMapOffsets_ok l me F Hme HM HC) as [r [U1 [U2 [U3 [U4 [U5 [U6 [U7 [U8 U9]]]]]]]]].
  exists r. split; auto.
  destruct (tidmapcount_ok l me F Hme HM) as [c [C1 [C2 C3]]]. fold M in C3.
  assert (Hup : updateMapOffsets r me = Ok r) by (unfold updateMapOffsets; replace (rl_map_tid r =? me) with true by lia; reflexivity).
  assert (HM' : mapsOK (mine me (rl_trs r))) by (rewrite U4; auto).
  assert (Hml : forall x, nth_error M (length M - 1) = Some x -> aread (rl_trs l) (cnt_lt (me + 1) (rl_trs l) - 1) = Ok x) by (intros x Hx; apply (mine_last_read l me x F Hme Hx)).
  assert (Hc : rl_map_count r = c).
  { destruct U3 as [U3|[_ [K1 _]]]; [lia|]. rewrite U4 in K1. fold M in K1.
    unfold rl_tidmapcount in C1. destruct (fz_off _ F) as [offs [Ho [Hl Hr]]]. rewrite Ho in C1.
    replace ((0 <=? me) && (me <? rl_tids l)) with true in C1 by lia. cbn [cassert] in C1.
    rewrite (Hr me), (Hr (me + 1)) in C1 by lia. cbn [obind] in C1.
    pose proof (mine_length _ me (fz_sorted _ F)) as ML. fold M in ML.
    clearbody M. destruct (Nat.eq_dec (length M) 0) as [E0|E0].
    - replace (_ =? _) with true in C1 by lia. injection C1 as <-. destruct M; auto; discriminate.
    - replace (_ =? _) with false in C1 by lia.
      destruct (nth_error M (length M - 1)) as [x|] eqn:Ex.
      + rewrite (Hml x eq_refl) in C1. cbn [obind] in C1. injection C1 as <-. rewrite K1. destruct M; auto. now elim E0.
      + apply nth_error_None in Ex. lia. }
  split; auto.
  - congruence.
  - lia.
  - fold l me. congruence.
  - intros x Hx. rewrite Hc. apply C3. exists x. split; auto. now apply Hin.
  - intros k Hk.
    assert (Hq : forall n, exists l', rl_tidmaprange r me k n = Ok (l', if n <? 0 then None else nth_error (mapped k M) (Z.to_nat n))).
    { intros n. destruct (tidmaprange_ok r me k n U9 ltac:(lia) HM' U3) as [l' [T _]]. rewrite U4 in T. eauto. }
    destruct U3 as [U3|[_ [K1 K2]]]; [lia|]. rewrite U4 in K2. fold M in K2.
    assert (NE : M <> []).
    { intros E. assert (0 <= k < c) by lia. apply C3 in H. destruct H as [x [H _]]. rewrite E in H. destruct H. }
    assert (Ka := K2 NE k ltac:(lia)). assert (Kb := K2 NE (k + 1) ltac:(lia)).
    set (a := cnt_lt me (rl_trs l) + cnt_lt k (map remap M)) in *. set (b := cnt_lt me (rl_trs l) + cnt_lt (k + 1) (map remap M)) in *.
    clearbody a b.
    assert (Hq' : forall n, 0 <= n -> (n < b - a -> exists x, nth_error (mapped k M) (Z.to_nat n) = Some x /\ aread (rl_trs r) (a + n) = Ok x) /\
       (b - a <= n -> nth_error (mapped k M) (Z.to_nat n) = None)).
    { intros n Hn. destruct (Hq n) as [l' T]. unfold rl_tidmaprange in T. destruct (fz_off _ U9) as [offs [Ho _]]. rewrite Ho, Hup in T. cbn [obind] in T.
      replace ((k <? 0) || (k >=? rl_map_count r)) with false in T by lia. rewrite Ka, Kb in T. cbn [obind] in T.
      replace (n <? 0) with false in T by lia. cbn [orb] in T. split; intros HH.
      - replace (n >=? b - a) with false in T by lia.
        destruct (aread (rl_trs r) (a + n)) as [x| | | |] eqn:Ex; try discriminate. cbn [obind] in T.
        apply cassert_ok in T. destruct T as [_ T]. apply cassert_ok in T. destruct T as [_ T].
        unfold rl_taskrange in T. rewrite Ex in T. apply aread_ok in Ex. destruct Ex as [X1 X2]. pose proof (nth_error_Some_lt _ _ _ X2).
        rewrite (fz_count _ U9) in T. replace (_ >=? _) with false in T by lia. cbn [obind] in T. injection T as _ T. exists x. split; auto.
      - replace (n >=? b - a) with true in T by lia. injection T as _ T. auto. }
    exists a, b. conjs; auto.
    + destruct (proj1 (C3 k) ltac:(lia)) as [x [X1 X2]].
      assert (X3 : In x (mapped k M)) by (apply filter_In; split; auto; lia). apply In_nth_error in X3. destruct X3 as [n Hn].
      destruct (Z_lt_dec a b); auto. destruct (Hq' (Z.of_nat n) ltac:(lia)) as [_ Q]. rewrite Nat2Z.id in Q. rewrite Q in Hn by lia. discriminate.
    + intros o Ho. destruct (Hq' (o - a) ltac:(lia)) as [Q _]. destruct (Q ltac:(lia)) as [x [X1 X2]]. exists x.
      replace (a + (o - a)) with o in X2 by lia. apply nth_error_In in X1. apply filter_In in X1. destruct X1 as [X1 X3]. conjs; auto; [now apply Hin|lia].
    + intros x Hx Hk'. apply Hin in Hx. assert (X3 : In x (mapped k M)) by (apply filter_In; split; auto; lia).
      apply In_nth_error in X3. destruct X3 as [n Hn]. destruct (Hq' (Z.of_nat n) ltac:(lia)) as [Q Q']. rewrite Nat2Z.id in *.
      destruct (Z_lt_dec (Z.of_nat n) (b - a)) as [L|L].
      * destruct (Q L) as [y [Y1 Y2]]. exists (a + Z.of_nat n). split; [lia|]. congruence.
      * rewrite Q' in Hn by lia. discriminate.
Qed.

Lemma ofold_total {S X} (f : S -> X -> outcome S) (P : list X -> S -> Prop) l s0 :
  P [] s0 -> (forall pre x post s, l = pre ++ x :: post -> P pre s -> exists s', f s x = Ok s' /\ P (pre ++ [x]) s') ->
  exists s1, ofold f l s0 = Ok s1 /\ P l s1.
Proof.
  intros H0 H.
  assert (G : forall post pre s, l = pre ++ post -> P pre s -> exists s1, ofold f post s = Ok s1 /\ P l s1).
  { induction post as [|x post IH]; intros pre s E HP.
    - rewrite app_nil_r in E. subst pre. exists s. split; auto.
    - destruct (H pre x post s E HP) as [s' [S1 S2]]. cbn [ofold]. rewrite S1. cbn [obind].
      apply (IH (pre ++ [x])); auto. now rewrite <- app_assoc. }
  apply (G l [] s0); auto.
Qed.

(* numbers of groups *)
Lemma number_ok : forall l no last, -1 <= no -> (no = -1 -> Forall (fun g => last < mg_tag g) l) ->
  Forall (fun g => last <= mg_tag g) l -> StronglySorted (fun a b => mygroup_cmp a b <= 0) l ->
  exists r n, ra_number no last l = Ok (r, n) /\ no <= n /\
    map (fun g => (mg_part g, mg_map g, mg_tag g)) r = map (fun g => (mg_part g, mg_map g, mg_tag g)) l /\
    (forall g, In g r -> no <= mg_res g <= n /\ 0 <= mg_res g /\ (mg_res g = no <-> mg_tag g = last)) /\
    (forall g g', In g r -> In g' r -> (mg_res g = mg_res g' <-> mg_tag g = mg_tag g')) /\
    (forall k, no < k <= n -> exists g, In g r /\ mg_res g = k).
Proof.
  induction l as [|g l IH]; intros no last Hno H1 H2 Hs.
  - exists [], no. cbn. conjs; auto; try lia; try (intros ? []); intros; lia.
  - inversion Hs as [|? ? Hs1 Hs2]; subst. inversion H2 as [|? ? G1 G2]; subst.
    cbn [ra_number]. set (no' := if negb (mg_tag g =? last) then no + 1 else no).
    assert (Hno' : 0 <= no').
    { unfold no'. destruct (mg_tag g =? last) eqn:E; cbn [negb]; [|lia].
      destruct (Z.eq_dec no (-1)) as [X|X]; [|lia]. specialize (H1 X). inversion H1; subst. lia. }
    assert (Hno2 : no <= no' /\ (no' = no <-> mg_tag g = last)).
    { unfold no'. destruct (mg_tag g =? last) eqn:E; cbn [negb]; lia. }
    assert (Hno3 : no' <= no + 1) by (unfold no'; destruct (negb _); lia).
    replace (no' >=? 0) with true by lia. cbn [cassert].
    destruct (IH no' (mg_tag g)) as (r & n & R1 & R2 & R3 & R4 & R5 & R6).
    + lia.
    + intros; lia.
    + eapply Forall_impl; [|exact Hs2]. unfold mygroup_cmp. intros; lia.
    + auto.
    + rewrite R1. cbn [obind fst snd]. eexists. exists n. split; [reflexivity|].
      assert (Hge : forall g', In g' r -> mg_tag g <= mg_tag g').
      { intros g' Hg'. assert (X : In (mg_part g', mg_map g', mg_tag g') (map (fun g => (mg_part g, mg_map g, mg_tag g)) l)).
        { rewrite <- R3. now apply in_map with (f := fun g => (mg_part g, mg_map g, mg_tag g)). }
        apply in_map_iff in X. destruct X as [g2 [X1 X2]]. injection X1 as _ _ X3.
        rewrite Forall_forall in Hs2. specialize (Hs2 _ X2). unfold mygroup_cmp in Hs2. lia. }
      conjs.
      * lia.
      * cbn. now rewrite R3.
      * intros g' [<-|Hg']; cbn [mg_res mg_tag].
        -- conjs; try lia.
        -- destruct (R4 g' Hg') as (Q1 & Q2 & Q3). specialize (Hge g' Hg'). conjs; lia.
      * intros g1 g2 [<-|Hg1] [<-|Hg2]; cbn [mg_res mg_tag]; try tauto.
        -- destruct (R4 g2 Hg2) as (_ & _ & Q3). split; intros; symmetry; apply Q3; auto.
        -- destruct (R4 g1 Hg1) as (_ & _ & Q3). exact Q3.
        -- apply R5; auto.
      * intros k Hk. destruct (Z.eq_dec k no') as [->|Hk'].
        -- eexists. split; [left; reflexivity|reflexivity].
        -- destruct (R6 k ltac:(lia)) as [g' [X1 X2]]. exists g'. split; auto. now right.
Qed.

Lemma counting_in a n k : In k (counting a n) <-> a <= k < a + Z.of_nat n.
Proof.
  unfold counting. rewrite in_map_iff. split.
  - intros [j [<- Hj]]. apply in_seq in Hj. lia.
  - intros H. exists (Z.to_nat (k - a)). split; [lia|]. apply in_seq. lia.
Qed.
Lemma counting_nodup a n : NoDup (counting a n).
Proof. unfold counting. apply FinFun.Injective_map_NoDup; [|apply seq_NoDup]. intros x y H. lia. Qed.

(* the tag of map k *)
Definition TagOf (p : part) (k t : Z) : Prop := forall x, OwnRange p x -> t_mapNo x = k -> t_tag x = t.

Lemma groups_of_ok sp p r i : Reservable sp p -> Offs sp p r -> forall ks, (forall k, In k ks -> 0 <= k < rl_map_count r) ->
  exists gs, ra_groups_of i r ks = Ok gs /\ map (fun g => (mg_part g, mg_map g)) gs = map (fun k => (i, k)) ks /\
    forall g, In g gs -> TagOf p (mg_map g) (mg_tag g) /\ 0 <= mg_tag g.
Proof.
  intros HR HO. induction ks as [|k ks IH]; intros Hk.
  - exists []. cbn. conjs; auto. intros ? [].
  - destruct IH as (gs & G1 & G2 & G3); [intros; apply Hk; now right|].
    destruct (of_map _ _ _ HO k (Hk k (or_introl eq_refl))) as (a & b & A & B & L & M1 & _).
    destruct (M1 a ltac:(lia)) as (x & X1 & X2 & X3).
    cbn [ra_groups_of]. rewrite A. cbn [obind]. rewrite X1. cbn [obind].
    replace (if rl_map_count r >? 1 then t_tag x >? 0 else true) with true.
    2:{ destruct (rl_map_count r >? 1) eqn:E; auto.
        destruct (of_map _ _ _ HO 1 ltac:(lia)) as (a1 & b1 & _ & _ & L1 & M2 & _). destruct (M2 a1 ltac:(lia)) as (y & _ & Y2 & Y3).
        pose proof (rp_pos _ _ HR y x Y2 X2 ltac:(lia)). lia. }
    cbn [cassert]. rewrite G1. cbn [obind]. eexists. split; [reflexivity|]. split; [cbn; now rewrite G2|].
    intros g [<-|Hg]; auto. cbn [mg_map mg_tag]. split; [|now apply (rp_tag _ _ HR)].
    intros y Y1 Y2. symmetry. apply (rp_same _ _ HR); auto. lia.
Qed.

Definition key (g : mygroup) : nat * Z := (mg_part g, mg_map g).

Lemma groups_ok sp : forall ps rs i, Forall2 (fun p r => Reservable sp p /\ Offs sp p r) ps rs ->
  exists gs, ra_groups i rs = Ok gs /\ NoDup (map key gs) /\
    (forall j k, In (j, k) (map key gs) <-> exists r, (i <= j)%nat /\ nth_error rs (j - i) = Some r /\ 0 <= k < rl_map_count r) /\
    (forall g, In g gs -> exists p, nth_error ps (mg_part g - i) = Some p /\ TagOf p (mg_map g) (mg_tag g) /\ 0 <= mg_tag g).
Proof.
  intros ps rs i H. revert i. induction H as [|p r ps rs [HR HO] HF IH]; intros i.
  - exists []. cbn. conjs; auto; try constructor; try tauto.
    intros (r & _ & E & _). destruct (j - i)%nat; discriminate.
  - destruct (IH (S i)) as (gs & G1 & G2 & G3 & G4).
    assert (Hk : forall k, In k (counting 0 (Z.to_nat (rl_map_count r))) <-> 0 <= k < rl_map_count r).
    { intros k. rewrite counting_in. pose proof (of_nn _ _ _ HO). lia. }
    destruct (groups_of_ok sp p r i HR HO _ (fun k => proj1 (Hk k))) as (g0 & A1 & A2 & A3).
    cbn [ra_groups]. rewrite A1. cbn [obind]. rewrite G1. cbn [obind]. eexists. split; [reflexivity|].
    assert (A2' : map key g0 = map (fun k => (i, k)) (counting 0 (Z.to_nat (rl_map_count r)))) by exact A2.
    rewrite map_app, A2'. conjs.
    + apply NoDup_app_intro; auto.
      * apply FinFun.Injective_map_NoDup; [|apply counting_nodup]. intros x y E. congruence.
      * intros [j k] X Y. apply in_map_iff in X. destruct X as [k' [X _]]. injection X as <- <-.
        apply G3 in Y. destruct Y as (r' & Y & _). lia.
    + intros j k. rewrite in_app_iff, in_map_iff, G3. split.
      * intros [(k' & E & K)|(r' & L & E & K)].
        -- injection E as <- <-. exists r. rewrite Nat.sub_diag. conjs; auto; now apply Hk.
        -- exists r'. replace (j - i)%nat with (S (j - S i)) by lia. conjs; auto; lia.
      * intros (r' & L & E & K). destruct (Nat.eq_dec j i) as [->|Hj].
        -- left. rewrite Nat.sub_diag in E. injection E as <-. exists k. split; auto. now apply Hk.
        -- right. exists r'. replace (j - i)%nat with (S (j - S i)) in E by lia. conjs; auto; lia.
    + intros g Hg. apply in_app_iff in Hg. destruct Hg as [Hg|Hg].
      * exists p. assert (E : mg_part g = i).
        { assert (X : In (key g) (map key g0)) by now apply in_map. rewrite A2' in X. apply in_map_iff in X. destruct X as [k [X _]]. unfold key in X. congruence. }
        rewrite E, Nat.sub_diag. split; auto. 
      * destruct (G4 g Hg) as (p' & P1 & P2). exists p'. assert (X : In (key g) (map key gs)) by now apply in_map.
        unfold key in X at 1. apply G3 in X. destruct X as (r' & X & _). replace (mg_part g - i)%nat with (S (mg_part g - S i)) by lia. auto.
Qed.

Lemma offsets_ok sp : forall es, Forall (fun e => Reservable sp (re_part e)) es ->
  exists rs, ra_offsets es = Ok rs /\ Forall2 (fun p r => Reservable sp p /\ Offs sp p r) (map re_part es) rs.
Proof.
  induction es as [|e es IH]; intros H.
  - exists []. split; auto. constructor.
  - inversion H as [|? ? H1 H2]; subst. destruct (IH H2) as (rs & R1 & R2). destruct (offs_ok sp _ H1) as (r & U & O).
    cbn [ra_offsets]. pose proof (or_me _ _ _ (rp_own _ _ H1)). replace (pt_me (re_part e) >=? 0) with true by lia. cbn [cassert].
    rewrite U. cbn [obind]. rewrite (of_tid _ _ _ O), Z.eqb_refl. cbn [cassert].
    replace (if rl_map_count r >? 0 then _ else true) with true.
    2:{ destruct (rl_map_count r >? 0) eqn:E; auto. destruct (of_map _ _ _ O 0 ltac:(lia)) as (a & b & A & _).
        destruct (rl_map_off r); auto; discriminate. }
    cbn [cassert]. rewrite R1. cbn [obind]. eexists. split; [reflexivity|]. constructor; auto.
Qed.
