(* Proofs about Model_RangeList: enumeration of ranges by map number, exactness of isEqual *)
From Coq Require Import ZArith List Bool Lia ZifyBool ZifyNat Permutation Sorted.
From Verif Require Import Base ListFacts Model_Space Spec_Space Proof_Space Model_RangeList Spec_RangeList
  Proof_RangeList Proof_RangeList2 Proof_RangeList3 Proof_RangeList4.
Import ListNotations.
Open Scope Z_scope.

(* --- map offsets: same algorithm as the offsets of single-index lists, with the
   map number in the role of the task --- *)

Definition remap (x : trg) : trg := mkTrg (t_mapNo x) (t_box x) (t_tag x) (t_mapNo x).

Lemma mo_inner_si m l :
  si_inner m (map remap l) = omap (fun r => (fst r, map remap (snd r))) (mo_inner m l).
Proof.
  induction l as [|x l IH]; simpl; auto.
  destruct (t_mapNo x >? m); simpl; auto.
  destruct (t_mapNo x =? m); simpl; auto.
  rewrite IH. destruct (mo_inner m l) as [[a b]| | | |]; simpl; auto.
Qed.

Lemma mo_maps_si n : forall m off l,
  si_tasks n m off (map remap l) = omap (fun r => (fst r, map remap (snd r))) (mo_maps n m off l).
Proof.
  induction n as [|n IH]; simpl; intros m off l; auto.
  rewrite mo_inner_si. destruct (mo_inner m l) as [[a b]| | | |]; simpl; auto.
  rewrite IH. destruct (mo_maps n (m + 1) (off + a) b) as [[c d]| | | |]; simpl; auto.
Qed.

Definition mapped (m : Z) (l : list trg) : list trg := filter (fun x => t_mapNo x =? m) l.

Lemma mapped_remap m l : map remap (mapped m l) = mine m (map remap l).
Proof.
  unfold mapped, mine. induction l as [|x l IH]; simpl; auto.
  destruct (t_mapNo x =? m); simpl; congruence.
Qed.

(* map numbers of the ranges of a process: start with 0, grow in steps of 1 *)
Definition bymap (a b : trg) : Prop := t_mapNo a <= t_mapNo b.

Record mapsOK (M : list trg) : Prop := {
  mk_sorted : StronglySorted bymap M;
  mk_nonneg : Forall (fun x => 0 <= t_mapNo x) M;
  mk_all : forall x m, In x M -> 0 <= m <= t_mapNo x -> exists y, In y M /\ t_mapNo y = m }.

Lemma steps_mapsOK M :
  (forall x, nth_error M 0 = Some x -> t_mapNo x = 0) ->
  (forall n x y, nth_error M n = Some x -> nth_error M (S n) = Some y ->
     t_mapNo y = t_mapNo x \/ t_mapNo y = t_mapNo x + 1) ->
  mapsOK M.
Proof.
  intros H0 Hs.
  assert (Mono : forall k n x y, nth_error M n = Some x -> nth_error M (n + k) = Some y -> t_mapNo x <= t_mapNo y).
  { induction k as [|k IH]; intros n x y Hx Hy.
    - rewrite Nat.add_0_r in Hy. assert (x = y) by congruence. subst; lia.
    - destruct (nth_error M (n + k)) as [z|] eqn:E.
      + specialize (IH _ _ _ Hx E). replace (n + S k)%nat with (S (n + k)) in Hy by lia.
        destruct (Hs _ _ _ E Hy); lia.
      + apply nth_error_None in E. apply nth_error_Some_lt in Hy. lia. }
  constructor.
  - clear H0 Hs. induction M as [|a M IH]; constructor.
    + apply IH. intros k n x y Hx Hy. apply (Mono k (S n)); auto.
    + apply Forall_forall. intros y Hy. apply In_nth_error in Hy. destruct Hy as [k Hk].
      apply (Mono (S k) 0%nat); auto.
  - apply Forall_forall. intros y Hy. apply In_nth_error in Hy. destruct Hy as [k Hk].
    destruct (nth_error M 0) as [x|] eqn:E.
    + pose proof (H0 x eq_refl). pose proof (Mono k 0%nat x y E Hk). lia.
    + apply nth_error_None in E. apply nth_error_Some_lt in Hk. lia.
  - intros x m Hx Hm. apply In_nth_error in Hx. destruct Hx as [k Hk].
    revert x m Hk Hm. induction k as [|k IH]; intros x m Hk Hm.
    + exists x. split; [eapply nth_error_In; eauto|]. rewrite (H0 x Hk) in *. lia.
    + destruct (nth_error M k) as [z|] eqn:E.
      * destruct (Z.eq_dec m (t_mapNo x)).
        { exists x. split; [eapply nth_error_In; eauto|auto]. }
        apply (IH z); auto. destruct (Hs _ _ _ E Hk); lia.
      * apply nth_error_None in E. apply nth_error_Some_lt in Hk. lia.
Qed.

Lemma mapNo_le_last M x y : StronglySorted bymap M -> In x M ->
  nth_error M (length M - 1) = Some y -> t_mapNo x <= t_mapNo y.
Proof.
  intros Hs Hx Hy. apply In_nth_error in Hx. destruct Hx as [k Hk].
  pose proof (nth_error_Some_lt _ _ _ Hk).
  destruct (Nat.eq_dec k (length M - 1)).
  - subst. assert (x = y) by congruence. subst; lia.
  - eapply (StronglySorted_nth bymap M Hs k (length M - 1)); eauto. lia.
Qed.

(* slice of the entries of task t *)
Lemma slice_mine l t : StronglySorted bytask l ->
  aslice l (cnt_lt t l) (cnt_lt (t + 1) l) = mine t l.
Proof.
  intros Hs. unfold aslice.
  apply nth_error_ext. intros k. rewrite sorted_mine_nth by auto.
  rewrite nth_error_firstn, nth_error_skipn.
  destruct (Z.of_nat k <? cnt_lt (t + 1) l - cnt_lt t l) eqn:E.
  - replace (Nat.ltb k _) with true by lia. auto.
  - replace (Nat.ltb k _) with false by lia. auto.
Qed.

(* the map offset cache of a list is empty, or holds the values for process t *)
Definition cacheOK (t : Z) (l : rlist) : Prop :=
  rl_map_tid l = -1 \/
  (rl_map_tid l = t /\
   let M := mine t (rl_trs l) in
   rl_map_count l = match M with [] => 0 | _ => match nth_error M (length M - 1) with Some x => t_mapNo x + 1 | None => 0 end end /\
   (M <> [] -> forall k, 0 <= k <= rl_map_count l ->
      aread (rl_map_off l) k = Ok (cnt_lt t (rl_trs l) + cnt_lt k (map remap M)))).

Lemma Frozen_set_map l a b c : Frozen l -> Frozen (set_map l a b c).
Proof. intros F. destruct F. constructor; auto. Qed.

Lemma mine_last_read l t x : Frozen l -> 0 <= t < rl_tids l ->
  nth_error (mine t (rl_trs l)) (length (mine t (rl_trs l)) - 1) = Some x ->
  aread (rl_trs l) (cnt_lt (t + 1) (rl_trs l) - 1) = Ok x.
Proof.
  intros F Ht H. pose proof (fz_sorted _ F) as Hs.
  pose proof (nth_error_Some_lt _ _ _ H) as HL. pose proof (mine_length _ t Hs) as ML.
  rewrite sorted_mine_nth in H by auto.
  destruct (_ <? _) in H; [|discriminate].
  pose proof (cnt_lt_bound t (rl_trs l)).
  apply aread_ok. split; [lia|]. rewrite <- H. f_equal. lia.
Qed.

Ltac conjs := repeat match goal with |- _ /\ _ => split end.

Lemma updateMapOffsets_ok l t : Frozen l -> 0 <= t < rl_tids l ->
  mapsOK (mine t (rl_trs l)) -> cacheOK t l ->
  exists l', updateMapOffsets l t = Ok l' /\ rl_map_tid l' = t /\ cacheOK t l' /\ rl_trs l' = rl_trs l /\ rl_count l' = rl_count l /\ rl_off l' = rl_off l /\ rl_tids l' = rl_tids l /\ rl_space l' = rl_space l /\ Frozen l'.
Proof.
  intros F Ht HM HC. unfold updateMapOffsets.
  destruct (rl_map_tid l =? t) eqn:Et.
  { exists l. conjs; auto. lia. }
  destruct HC as [HC|[HC _]]; [|lia].
  replace (rl_map_tid l <? 0) with true by lia. simpl.
  replace ((0 <=? t) && (t <? rl_tids l)) with true by lia. simpl.
  destruct (fz_off _ F) as [offs [Ho [Hl Hr]]]. rewrite Ho.
  rewrite (Hr t), (Hr (t + 1)) by lia. simpl.
  pose proof (fz_sorted _ F) as Hs. pose proof (mine_length _ t Hs) as ML.
  rewrite slice_mine by auto. set (M := mine t (rl_trs l)) in *.
  destruct (_ >? _) eqn:Eg.
  - assert (HL : (length M - 1 < length M)%nat) by lia.
    destruct (nth_error M (length M - 1)) as [x|] eqn:Ex.
    2:{ apply nth_error_None in Ex. lia. }
    rewrite (mine_last_read l t x) by auto. simpl.
    rewrite (fz_si _ F). simpl.
    assert (T : exists offs', si_tasks (Z.to_nat (t_mapNo x + 1)) 0 (cnt_lt t (rl_trs l)) (map remap M) = Ok (offs', []) /\
       length offs' = S (Z.to_nat (t_mapNo x + 1)) /\
       (forall k, (k <= Z.to_nat (t_mapNo x + 1))%nat -> nth_error offs' k = Some (cnt_lt t (rl_trs l) + cnt_lt (0 + Z.of_nat k) (map remap M)))).
    { apply si_tasks_ok.
      - pose proof (mk_sorted _ HM) as S0. fold M in S0. clear - S0. induction S0; simpl; constructor; auto.
        apply Forall_map. eapply Forall_impl; [|exact H]. unfold bytask, bymap; simpl; auto.
      - apply Forall_map. apply Forall_forall. intros y Hy. simpl.
        pose proof (mk_nonneg _ HM) as N. rewrite Forall_forall in N. specialize (N y Hy).
        pose proof (mapNo_le_last M y x (mk_sorted _ HM) Hy Ex). lia. }
    destruct T as [offs' [T1 [T2 T3]]]. rewrite mo_maps_si in T1.
    destruct (mo_maps _ _ _ M) as [[o r]| | | |] eqn:Em; simpl in T1; try discriminate.
    injection T1 as -> Er. simpl. apply map_eq_nil in Er. subst r. simpl.
    eexists. split; [reflexivity|]. conjs; auto using Frozen_set_map.
    right. simpl. split; auto. change (rl_trs (set_map l t (t_mapNo x + 1) offs')) with (rl_trs l).
    fold M. rewrite Ex. split; [destruct M; auto; simpl in HL; lia|].
    intros _ k Hk. apply aread_ok. split; [lia|]. rewrite T3 by lia. f_equal. f_equal. f_equal. lia.
  - eexists. split; [reflexivity|]. conjs; auto using Frozen_set_map.
    right. simpl. split; auto. change (rl_trs (set_map l t 0 [])) with (rl_trs l). fold M.
    assert (EM : M = []) by (destruct M; auto; simpl in ML; lia).
    rewrite EM. split; auto. congruence.
Qed.

Lemma tidmaprange_ok l t m n : Frozen l -> 0 <= t < rl_tids l ->
  mapsOK (mine t (rl_trs l)) -> cacheOK t l ->
  exists l', rl_tidmaprange l t m n =
      Ok (l', if n <? 0 then None else nth_error (mapped m (mine t (rl_trs l))) (Z.to_nat n)) /\
    cacheOK t l' /\ rl_trs l' = rl_trs l /\ rl_tids l' = rl_tids l /\ rl_space l' = rl_space l /\ rl_off l' = rl_off l /\ Frozen l'.
Proof.
  intros F Ht HM HC. unfold rl_tidmaprange.
  destruct (fz_off _ F) as [offs [Ho [Hl Hr]]]. rewrite Ho.
  destruct (updateMapOffsets_ok l t F Ht HM HC) as [l' [U1 [U2 [U3 [U4 [U5 [U6 [U7 [U8 U9]]]]]]]]].
  rewrite U1. cbn [obind]. exists l'.
  destruct U3 as [U3|[_ [C1 C2]]]; [lia|]. rewrite U4 in C1, C2.
  set (M := mine t (rl_trs l)) in *.
  assert (CK : cacheOK t l').
  { right. rewrite U4. auto. }
  assert (R : forall P Q R S V W : Prop, P -> Q /\ R /\ S /\ V /\ W -> P /\ Q /\ R /\ S /\ V /\ W) by tauto.
  rewrite <- Ho. apply R; [|conjs; solve [auto]]. clear R.
  assert (Mx : forall y, In y M -> 0 <= t_mapNo y < rl_map_count l').
  { intros y Hy. pose proof (mk_nonneg _ HM) as N. fold M in N. rewrite Forall_forall in N. specialize (N y Hy).
    rewrite C1. destruct M as [|a M'] eqn:EM; [destruct Hy|]. rewrite <- EM in *.
    destruct (nth_error M (length M - 1)) as [x|] eqn:Ex.
    - pose proof (mapNo_le_last M y x (mk_sorted _ HM) Hy Ex). simpl in Ex. lia.
    - apply nth_error_None in Ex. subst M. rewrite EM in Ex. simpl in Ex. lia. }
  destruct ((m <? 0) || (m >=? rl_map_count l')) eqn:Em.
  { assert (E : mapped m M = []).
    { unfold mapped. 
      clear - Mx Em. induction M as [|y M IH]; simpl; auto.
      pose proof (Mx y (or_introl eq_refl)). replace (t_mapNo y =? m) with false by lia.
      apply IH. intros; apply Mx; now right. }
    rewrite E. destruct (n <? 0); auto. destruct (Z.to_nat n); auto. }
  assert (NE : M <> []).
  { intros E. rewrite E in C1. lia. }
  rewrite (C2 NE (m + 1)), (C2 NE m) by lia. cbn [obind].
  assert (SR : StronglySorted bytask (map remap M)).
  { pose proof (mk_sorted _ HM) as S0. fold M in S0. clear - S0. induction S0; simpl; constructor; auto.
    apply Forall_map. eapply Forall_impl; [|exact H]. unfold bytask, bymap; simpl; auto. }
  assert (NE2 : forall k, nth_error (mapped m M) k =
     if Z.of_nat k <? cnt_lt (m + 1) (map remap M) - cnt_lt m (map remap M)
     then nth_error M (Z.to_nat (cnt_lt m (map remap M)) + k) else None).
  { intros k. pose proof (mapped_remap m M) as MR.
    pose proof (sorted_mine_nth (map remap M) m SR k) as SM. rewrite <- MR in SM.
    (* compare positions in M and map remap M *)
    destruct (Z.of_nat k <? cnt_lt (m + 1) (map remap M) - cnt_lt m (map remap M)) eqn:Ek.
    - clear MR. revert SM. clear - SR Ek.
      (* by induction on M, as for sorted_mine_nth *)
      revert k Ek. induction M as [|a M IH]; intros k Ek SM.
      + unfold cnt_lt in Ek; simpl in Ek. lia.
      + simpl in SR. inversion SR as [|? ? SR1 SR2]; subst. unfold mapped. simpl.
        assert (G2 : forall u, cnt_lt u (map remap (a :: M)) = (if t_mapNo a <? u then 1 else 0) + cnt_lt u (map remap M)).
        { intros u. unfold cnt_lt. simpl. destruct (t_mapNo a <? u); simpl; lia. }
        assert (G1 : forall u, u <= t_mapNo a -> cnt_lt u (map remap M) = 0).
        { intros u Hu. apply cnt_lt_none. eapply Forall_impl; [|exact SR2]. unfold bytask. simpl. intros; lia. }
        rewrite !G2 in *. pose proof (cnt_lt_bound m (map remap M)).
        destruct (t_mapNo a =? m) eqn:E.
        * replace (t_mapNo a <? m) with false in * by lia. replace (t_mapNo a <? m + 1) with true in * by lia.
          rewrite (G1 m) in * by lia. destruct k as [|k]; [reflexivity|].
          replace (Z.to_nat (0 + 0) + S k)%nat with (S k) by lia. cbn [nth_error].
          fold (mapped m M). rewrite IH; auto; try lia.
          rewrite mapped_remap, sorted_mine_nth by auto. rewrite (G1 m) by lia.
          replace (Z.of_nat k <? _) with true by lia. auto.
        * destruct (t_mapNo a <? m) eqn:E1.
          -- replace (t_mapNo a <? m + 1) with true in * by lia.
             replace (Z.to_nat (1 + cnt_lt m (map remap M)) + k)%nat with (S (Z.to_nat (cnt_lt m (map remap M)) + k)) by lia.
             cbn [nth_error]. fold (mapped m M). apply IH; auto; try lia.
             rewrite mapped_remap, sorted_mine_nth by auto. replace (Z.of_nat k <? _) with true by lia. auto.
          -- replace (t_mapNo a <? m + 1) with false in * by lia. rewrite !G1 in Ek by lia. lia.
    - apply nth_error_None. apply nth_error_None in SM. rewrite map_length in SM. auto. }
  destruct (n <? 0) eqn:En; [reflexivity|]. cbn [orb].
  rewrite NE2. rewrite Z2Nat.id by lia.
  set (c0 := cnt_lt m (map remap M)) in *. set (c1 := cnt_lt (m + 1) (map remap M)) in *.
  set (b := cnt_lt t (rl_trs l)) in *.
  pose proof (cnt_lt_bound m (map remap M)) as B0. fold c0 in B0.
  pose proof (cnt_lt_bound (m + 1) (map remap M)) as B1. fold c1 in B1.
  rewrite map_length in B0, B1.
  destruct (n >=? _) eqn:En2.
  { replace (n <? c1 - c0) with false by lia. auto. }
  replace (n <? c1 - c0) with true by lia.
  destruct (nth_error M (Z.to_nat c0 + Z.to_nat n)) as [x|] eqn:Ex.
  2:{ apply nth_error_None in Ex. lia. }
  assert (InM : In x (mapped m M)).
  { apply (nth_error_In _ (Z.to_nat n)). rewrite NE2. rewrite Z2Nat.id by lia. replace (n <? _) with true by lia. auto. }
  apply filter_In in InM. destruct InM as [InM Em2]. apply filter_In in InM.
  assert (A : aread (rl_trs l') (b + c0 + n) = Ok x).
  { rewrite U4. unfold M in Ex. rewrite sorted_mine_nth in Ex by (apply (fz_sorted _ F)).
    destruct (_ <? _) in Ex; [|discriminate]. pose proof (cnt_lt_bound t (rl_trs l)). fold b in Ex, H.
    apply aread_ok. split; [lia|]. rewrite <- Ex. f_equal. lia. }
  rewrite A. cbn [obind]. destruct InM as [_ InM]. rewrite InM, Em2. cbn [cassert].
  unfold rl_taskrange. rewrite A.
  apply aread_ok in A. destruct A as [A0 A]. apply nth_error_Some_lt in A.
  rewrite (fz_count _ U9). replace (_ >=? _) with false by lia. reflexivity.
Qed.

Lemma tidmaprangecount_ok l t m : Frozen l -> 0 <= t < rl_tids l ->
  mapsOK (mine t (rl_trs l)) -> cacheOK t l ->
  forall l' r, rl_tidmaprangecount l t m = Ok (l', r) ->
  r = Z.of_nat (length (mapped m (mine t (rl_trs l)))) /\
  cacheOK t l' /\ rl_trs l' = rl_trs l /\ rl_tids l' = rl_tids l /\ rl_space l' = rl_space l /\ rl_off l' = rl_off l /\ Frozen l'.
Proof.
  intros F Ht HM HC l'' r H. unfold rl_tidmaprangecount in H.
  destruct (fz_off _ F) as [offs [Ho [Hl Hr]]]. rewrite Ho in H.
  destruct (updateMapOffsets_ok l t F Ht HM HC) as [l' [U1 [U2 [U3 [U4 [U5 [U6 [U7 [U8 U9]]]]]]]]].
  rewrite U1 in H. cbn [obind] in H. apply cassert_ok in H. destruct H as [Hm H].
  pose proof U3 as CK.
  destruct U3 as [U3|[_ [C1 C2]]]; [lia|]. rewrite U4 in C1, C2.
  assert (NE : mine t (rl_trs l) <> []).
  { intros E. rewrite E in C1. lia. }
  rewrite (C2 NE (m + 1)), (C2 NE m) in H by lia. cbn [obind] in H. injection H as -> <-.
  split; [|conjs; auto].
  rewrite <- (map_length remap), mapped_remap, mine_length; [lia|].
  pose proof (mk_sorted _ HM) as S0. clear - S0. induction S0; simpl; constructor; auto.
  apply Forall_map. eapply Forall_impl; [|exact H]. unfold bytask, bymap; simpl; auto.
Qed.

Lemma MapQueried_ok l0 t : Frozen l0 -> 0 <= t < rl_tids l0 ->
  mapsOK (mine t (rl_trs l0)) -> rl_map_tid l0 = -1 ->
  forall l, MapQueried t l0 l ->
    Frozen l /\ cacheOK t l /\ rl_trs l = rl_trs l0 /\ rl_tids l = rl_tids l0 /\ rl_space l = rl_space l0 /\ rl_off l = rl_off l0.
Proof.
  intros F Ht HM Hi l H. induction H as [|l m n l' r Hq IH Hr|l m l' r Hq IH Hr].
  - conjs; auto. left; auto.
  - destruct IH as [I1 [I2 [I3 [I4 [I5 I6]]]]].
    destruct (tidmaprange_ok l t m n) as [l2 [T1 T2]]; auto; [lia|rewrite I3; auto|].
    rewrite T1 in Hr. injection Hr as -> _. destruct T2 as [T2 [T3 [T4 [T5 [T6 T7]]]]].
    conjs; auto; congruence.
  - destruct IH as [I1 [I2 [I3 [I4 [I5 I6]]]]].
    destruct (tidmaprangecount_ok l t m I1 ltac:(lia) ltac:(rewrite I3; auto) I2 _ _ Hr)
      as [_ [T2 [T3 [T4 [T5 [T6 T7]]]]]].
    conjs; auto; congruence.
Qed.

Lemma tidmapcount_ok l t : Frozen l -> 0 <= t < rl_tids l -> mapsOK (mine t (rl_trs l)) ->
  exists c, rl_tidmapcount l t = Ok c /\ 0 <= c /\
    forall m, 0 <= m < c <-> exists x, In x (mine t (rl_trs l)) /\ t_mapNo x = m.
Proof.
  intros F Ht HM. unfold rl_tidmapcount.
  destruct (fz_off _ F) as [offs [Ho [Hl Hr]]]. rewrite Ho.
  replace ((0 <=? t) && (t <? rl_tids l)) with true by lia. simpl.
  rewrite (Hr t), (Hr (t + 1)) by lia. simpl.
  pose proof (fz_sorted _ F) as Hs. pose proof (mine_length _ t Hs) as ML.
  set (M := mine t (rl_trs l)) in *.
  destruct (_ =? _) eqn:E.
  - exists 0. split; auto. split; [lia|]. intros m. split; [lia|]. intros [x [Hx _]].
    destruct M; [destruct Hx|simpl in ML; lia].
  - pose proof (cnt_lt_mono t (t + 1) (rl_trs l) ltac:(lia)).
    destruct (nth_error M (length M - 1)) as [x|] eqn:Ex.
    2:{ apply nth_error_None in Ex. lia. }
    rewrite (mine_last_read l t x) by auto. simpl. exists (t_mapNo x + 1). split; auto.
    pose proof (nth_error_In _ _ Ex) as Inx.
    pose proof (mk_nonneg _ HM) as N. fold M in N. rewrite Forall_forall in N. 
    pose proof (N x Inx). split; [lia|]. intros m. split.
    + intros Hm. destruct (mk_all _ HM x m Inx) as [y [Y1 Y2]]; [lia|]. eauto.
    + intros [y [Y1 Y2]]. pose proof (N y Y1).
      pose proof (mapNo_le_last M y x (mk_sorted _ HM) Y1 Ex). lia.
Qed.

Lemma freeze_keeps_nocache s tids h l qg qs m l' :
  run_appends s tids h = Ok l -> rl_freeze qg qs l m = Ok l' -> rl_map_tid l' = -1.
Proof.
  intros H Hf.
  assert (H1 : rl_map_tid l = -1 /\ rl_tss1d l = None).
  { unfold run_appends in H.
    refine (ofold_ind _ (fun pre l => rl_map_tid l = -1 /\ rl_tss1d l = None) h _ l _ _ H).
    - split; reflexivity.
    - intros pre x post a b _ [A1 A2] Hs. unfold rl_append in Hs.
      destruct (r_space (a_range x)); [|discriminate].
      apply cassert_ok in Hs. destruct Hs as [_ Hs]. apply cassert_ok in Hs. destruct Hs as [_ Hs].
      apply cassert_ok in Hs. destruct Hs as [_ Hs]. apply obind_ok in Hs. destruct Hs as [w [_ Hs]].
      apply cassert_ok in Hs. destruct Hs as [_ Hs]. injection Hs as <-. split; auto. }
  destruct H1 as [H1 H2]. unfold rl_freeze in Hf. apply cassert_ok in Hf. destruct Hf as [_ Hf].
  rewrite H2 in Hf. apply obind_ok in Hf. destruct Hf as [l2 [Hf1 Hf2]].
  assert (H3 : rl_map_tid l2 = -1).
  { assert (S : rl_map_tid (sortRanges qg l) = -1).
    { unfold sortRanges. destruct (rl_trange l) as [[|]|]; auto. }
    destruct m.
    - unfold mergeSortedRanges in Hf1. destruct (rl_trange _) as [[|]|]; try discriminate.
      + injection Hf1 as <-; auto.
      + apply cassert_ok in Hf1. destruct Hf1 as [_ Hf1]. injection Hf1 as <-. auto.
    - injection Hf1 as <-. auto. }
  unfold updateOffsets in Hf2. apply obind_ok in Hf2. destruct Hf2 as [q [_ Hf2]].
  apply cassert_ok in Hf2. destruct Hf2 as [_ Hf2]. injection Hf2 as <-.
  destruct (rl_trange l2); auto.
Qed.

Lemma maps_enumeration : forall s tids h l qg qs m l',
  0 <= tids -> is_qsort trgen_cmp qg -> run_appends s tids h = Ok l ->
  rl_freeze qg qs l m = Ok l' ->
  (forall a, In a h -> a_tag a <> -1) ->
  forall t, 0 <= t < tids ->
  exists (xs : list trg) (c : Z),
    (* xs are the ranges of t in order, c is the number of maps *)
    (forall n, rl_tidrange l' t n = Ok (if n <? 0 then None else nth_error xs (Z.to_nat n))) /\
    rl_tidmapcount l' t = Ok c /\ 0 <= c /\
    (forall k, 0 <= k < c <-> exists x, In x xs /\ t_mapNo x = k) /\
    forall l2, MapQueried t l' l2 ->
      (forall k n, exists l3, rl_tidmaprange l2 t k n =
        Ok (l3, if n <? 0 then None else nth_error (filter (fun x => t_mapNo x =? k) xs) (Z.to_nat n))) /\
      (forall k l3 r, rl_tidmaprangecount l2 t k = Ok (l3, r) ->
         r = Z.of_nat (length (filter (fun x => t_mapNo x =? k) xs))).
Proof.
  intros s tids h l qg qs m l' Hti Hq H Hf Htag t Ht.
  pose proof (freeze_ok_cond _ _ _ _ _ _ _ _ H Hq Hf) as Hc.
  destruct (freeze_after_appends s tids h l qg qs m H Hq Hti Hc) as [l2 [G1 [G2 [G3 [G4 [G5 [offs G6]]]]]]].
  assert (l2 = l') by congruence. subst l2.
  assert (Ht' : 0 <= t < rl_tids l') by lia.
  destruct (map_numbers_gen s tids h l qg qs m l' Hti Hq H Hf Htag t Ht) as [N1 [N2 _]].
  assert (HM : mapsOK (mine t (rl_trs l'))).
  { apply steps_mapsOK.
    - intros x Hx. apply N1. rewrite frozen_tidrange by auto. rewrite <- Hx. reflexivity.
    - intros n x y Hx Hy. apply (N2 (Z.of_nat n)); rewrite frozen_tidrange by auto.
      + replace (Z.of_nat n <? 0) with false by lia. rewrite Nat2Z.id. congruence.
      + replace (Z.of_nat n + 1 <? 0) with false by lia.
        replace (Z.to_nat (Z.of_nat n + 1)) with (S n) by lia. congruence. }
  destruct (tidmapcount_ok l' t G2 Ht' HM) as [c [C1 [C2 C3]]].
  exists (mine t (rl_trs l')), c. split; [intros; apply frozen_tidrange; auto|].
  split; auto. split; auto. split; auto.
  intros l2 HQ.
  destruct (MapQueried_ok l' t G2 Ht' HM (freeze_keeps_nocache _ _ _ _ _ _ _ _ H Hf) l2 HQ)
    as [Q1 [Q2 [Q3 [Q4 [Q5 Q6]]]]]. split.
  - intros k n. destruct (tidmaprange_ok l2 t k n) as [l3 [T1 _]]; auto; [lia|rewrite Q3; auto|].
    exists l3. rewrite T1, Q3. reflexivity.
  - intros k l3 r Hr.
    destruct (tidmaprangecount_ok l2 t k Q1 ltac:(lia) ltac:(rewrite Q3; auto) Q2 _ _ Hr) as [R _].
    rewrite R, Q3. reflexivity.
Qed.

(* --- isEqual is exact --- *)

Lemma offs_equal_iff n : forall o1 o2, (n <= length o1)%nat -> (n <= length o2)%nat ->
  (forall k, (k < n)%nat -> nth_error o1 k = nth_error o2 k) -> offs_equal n o1 o2 = Ok true.
Proof.
  induction n as [|n IH]; intros o1 o2 H1 H2 H; simpl; auto.
  destruct o1 as [|a o1]; simpl in H1; [lia|]. destruct o2 as [|b o2]; simpl in H2; [lia|].
  pose proof (H 0%nat ltac:(lia)) as E. injection E as ->. rewrite Z.eqb_refl. simpl.
  apply IH; [lia|lia|]. intros k Hk. apply (H (S k)). lia.
Qed.

Definition sameBox (d : nat) (a b : box) : Prop :=
  SameIndex d (b_from a) (b_from b) /\ SameIndex d (b_to a) (b_to b).

Lemma sameBox_spec d a b : valid_dims d -> (box_isEqual d a b = true <-> sameBox d a b).
Proof. intros Hd. rewrite box_isEqual_spec, !index_isEqual_spec by auto. reflexivity. Qed.

Lemma trs_equal_iff d : valid_dims d -> forall l1 l2, length l1 = length l2 ->
  (forall k x y, nth_error l1 k = Some x -> nth_error l2 k = Some y -> t_task x = t_task y) ->
  exists b, trs_equal d l1 l2 = Ok b /\
    (b = true <-> forall k x y, nth_error l1 k = Some x -> nth_error l2 k = Some y -> sameBox d (t_box x) (t_box y)).
Proof.
  intros Hd. induction l1 as [|a l1 IH]; intros [|b l2] Hl Ht; simpl in *; try discriminate; auto.
  - exists true. split; auto. split; auto. intros _ [|k]; discriminate.
  - pose proof (Ht 0%nat a b eq_refl eq_refl) as T0. replace (t_task a =? t_task b) with true by lia. simpl.
    destruct (box_isEqual d (t_box a) (t_box b)) eqn:E; simpl.
    + destruct (IH l2) as [c [R1 R2]]; [lia| |].
      { intros k x y. apply (Ht (S k)). }
      exists c. split; auto. rewrite R2. split.
      * intros H [|k] x y Hx Hy; simpl in *; [|eapply H; eauto].
        injection Hx as <-. injection Hy as <-. apply sameBox_spec; auto.
      * intros H k x y. apply (H (S k)).
    + exists false. split; auto. split; [discriminate|]. intros H.
      specialize (H 0%nat a b eq_refl eq_refl). apply sameBox_spec in H; auto. congruence.
Qed.

Lemma isEqual_exact l1 l2 : valid_dims (sp_dims (rl_space l1)) ->
  rl_space l1 = rl_space l2 -> Frozen l1 -> Frozen l2 ->
  exists b, rl_isEqual l1 l2 = Ok b /\ (b = true <-> SameRanges l1 l2).
Proof.
  intros Hd Hsp F1 F2. unfold rl_isEqual.
  destruct (fz_off l1 F1) as [o1 [O1 [L1 R1]]]. destruct (fz_off l2 F2) as [o2 [O2 [L2 R2]]].
  rewrite O1, O2.
  destruct (rl_tids l1 =? rl_tids l2) eqn:E1; simpl.
  2:{ exists false. split; auto. split; [discriminate|]. intros [H _]. lia. }
  rewrite <- Hsp, space_eq_refl. simpl.
  pose proof (fz_tids l1 F1).
  (* SameRanges in terms of the entries of each task *)
  assert (SR : SameRanges l1 l2 <-> forall t, 0 <= t < rl_tids l1 ->
     Forall2 (fun x y => sameBox (sp_dims (rl_space l1)) (t_box x) (t_box y))
       (mine t (rl_trs l1)) (mine t (rl_trs l2))).
  { unfold SameRanges. split.
    - intros [_ H1] t Ht. specialize (H1 t).
      assert (H2 : forall k, match nth_error (mine t (rl_trs l1)) k, nth_error (mine t (rl_trs l2)) k with
         | Some x, Some y => sameBox (sp_dims (rl_space l1)) (t_box x) (t_box y)
         | None, None => True | _, _ => False end).
      { intros k. specialize (H1 (Z.of_nat k) Ht). rewrite !frozen_tidrange in H1 by (auto; lia).
        replace (Z.of_nat k <? 0) with false in H1 by lia. rewrite Nat2Z.id in H1.
        destruct (nth_error (mine t (rl_trs l1)) k), (nth_error (mine t (rl_trs l2)) k); auto. }
      revert H2. generalize (mine t (rl_trs l1)), (mine t (rl_trs l2)). clear.
      induction l as [|a l IH]; intros [|b l'] H.
      + constructor.
      + destruct (H 0%nat).
      + destruct (H 0%nat).
      + constructor; [apply (H 0%nat)|]. apply IH. intros k. apply (H (S k)).
    - intros H1. split; [lia|]. intros t n Ht. specialize (H1 t Ht).
      rewrite !frozen_tidrange by (auto; lia). destruct (n <? 0); auto.
      revert H1. generalize (Z.to_nat n). intros k H1. clear - H1. revert k.
      induction H1 as [|x y l l' Hxy _ IH]; intros [|k]; simpl; auto. apply IH. }
  assert (SC : SameRanges l1 l2 -> forall t, 0 <= t <= rl_tids l1 -> cnt_lt t (rl_trs l1) = cnt_lt t (rl_trs l2)).
  { rewrite SR. intros H1 t Ht.
    assert (G : forall k, Z.of_nat k <= rl_tids l1 -> cnt_lt (Z.of_nat k) (rl_trs l1) = cnt_lt (Z.of_nat k) (rl_trs l2)).
    { induction k as [|k IH]; intros Hk.
      - rewrite !cnt_lt_none; auto.
        + eapply Forall_impl; [|exact (fz_tasks _ F2)]. simpl. intros; lia.
        + eapply Forall_impl; [|exact (fz_tasks _ F1)]. simpl. intros; lia.
      - pose proof (mine_length (rl_trs l1) (Z.of_nat k) (fz_sorted _ F1)).
        pose proof (mine_length (rl_trs l2) (Z.of_nat k) (fz_sorted _ F2)).
        pose proof (Forall2_len _ _ _ (H1 (Z.of_nat k) ltac:(lia))).
        replace (Z.of_nat (S k)) with (Z.of_nat k + 1) by lia. specialize (IH ltac:(lia)). lia. }
    specialize (G (Z.to_nat t)). rewrite Z2Nat.id in G by lia. apply G. lia. }
  assert (Tot : forall l, Frozen l -> cnt_lt (rl_tids l) (rl_trs l) = rl_count l).
  { intros l F. rewrite (fz_count _ F). apply cnt_lt_all.
    eapply Forall_impl; [|exact (fz_tasks _ F)]. simpl. intros; lia. }
  destruct (rl_count l1 =? rl_count l2) eqn:E2; simpl.
  2:{ exists false. split; auto. split; [discriminate|]. intros HS. specialize (SC HS (rl_tids l1) ltac:(lia)).
      rewrite <- (Tot l1 F1), <- (Tot l2 F2) in E2. replace (rl_tids l2) with (rl_tids l1) in E2 by lia. lia. }
  destruct (offs_equal_spec (Z.to_nat (rl_tids l1)) o1 o2) as [b [B1 B2]]; [lia|lia|].
  rewrite B1. simpl. destruct b; simpl.
  2:{ exists false. split; auto. split; [discriminate|]. intros HS. specialize (SC HS).
      assert (B : offs_equal (Z.to_nat (rl_tids l1)) o1 o2 = Ok true).
      { apply offs_equal_iff; [lia|lia|]. intros k Hk.
        pose proof (R1 (Z.of_nat k) ltac:(lia)) as A1. pose proof (R2 (Z.of_nat k) ltac:(lia)) as A2.
        apply aread_ok in A1, A2. rewrite SC in A1 by lia. rewrite Nat2Z.id in *. destruct A1, A2. congruence. }
      congruence. }
  specialize (B2 eq_refl).
  assert (C : forall t, 0 <= t <= rl_tids l1 -> cnt_lt t (rl_trs l1) = cnt_lt t (rl_trs l2)).
  { intros t Ht. destruct (Z.eq_dec t (rl_tids l1)).
    - subst t. rewrite (Tot l1 F1). replace (rl_tids l1) with (rl_tids l2) by lia. rewrite (Tot l2 F2). lia.
    - pose proof (R1 t Ht) as A1. pose proof (R2 t ltac:(lia)) as A2.
      apply aread_ok in A1. apply aread_ok in A2.
      rewrite B2 in A1 by lia. destruct A1, A2. congruence. }
  assert (TT : forall k x y, nth_error (rl_trs l1) k = Some x -> nth_error (rl_trs l2) k = Some y -> t_task x = t_task y).
  { intros k x y Hx Hy.
    assert (Bx : 0 <= t_task x < rl_tids l1).
    { pose proof (fz_tasks _ F1) as T. rewrite Forall_forall in T. apply T. eapply nth_error_In; eauto. }
    assert (By : 0 <= t_task y < rl_tids l1).
    { pose proof (fz_tasks _ F2) as T. rewrite Forall_forall in T.
      assert (0 <= t_task y < rl_tids l2) by (apply T; eapply nth_error_In; eauto). lia. }
    pose proof (sorted_cnt_nth _ (fz_sorted _ F1) _ _ (t_task y) Hx) as P1.
    pose proof (sorted_cnt_nth _ (fz_sorted _ F2) _ _ (t_task y) Hy) as P2.
    pose proof (sorted_cnt_nth _ (fz_sorted _ F1) _ _ (t_task x) Hx) as P3.
    pose proof (sorted_cnt_nth _ (fz_sorted _ F2) _ _ (t_task x) Hy) as P4.
    rewrite C in P1 by lia. rewrite C in P3 by lia. lia. }
  assert (Hlen : length (rl_trs l1) = length (rl_trs l2)).
  { pose proof (fz_count _ F1). pose proof (fz_count _ F2). lia. }
  destruct (trs_equal_iff _ Hd (rl_trs l1) (rl_trs l2) Hlen TT) as [b [T1 T2]].
  exists b. split; auto. rewrite T2, SR. clear - TT Hlen F1 F2 E1.
  split.
  - intros HB t Ht.
    revert Hlen TT HB. generalize (rl_trs l1), (rl_trs l2). clear.
    induction l as [|a l IH]; intros [|b l'] HL TT HB; simpl in *; try discriminate; [constructor|].
    pose proof (TT 0%nat a b eq_refl eq_refl) as T0. pose proof (HB 0%nat a b eq_refl eq_refl) as B0.
    rewrite T0. destruct (t_task b =? t).
    + constructor; auto. apply IH; [lia| |]; intros k; [apply (TT (S k))|apply (HB (S k))].
    + apply IH; [lia| |]; intros k; [apply (TT (S k))|apply (HB (S k))].
  - intros HF.
    assert (HF' : forall t, Forall2 (fun x y => sameBox (sp_dims (rl_space l1)) (t_box x) (t_box y))
               (mine t (rl_trs l1)) (mine t (rl_trs l2))).
    { intros t. assert (D : 0 <= t < rl_tids l1 \/ ~ (0 <= t < rl_tids l1)) by lia.
      destruct D as [D|D]; auto.
      rewrite !mine_none; [constructor| |].
      - eapply Forall_impl; [|exact (fz_tasks _ F2)]. simpl. intros; lia.
      - eapply Forall_impl; [|exact (fz_tasks _ F1)]. simpl. intros; lia. }
    revert Hlen TT HF'. generalize (rl_trs l1), (rl_trs l2). clear.
    induction l as [|a l IH]; intros [|b l'] HL TT HF k x y Hx Hy; simpl in *; try discriminate.
    { destruct k; discriminate. }
    pose proof (TT 0%nat a b eq_refl eq_refl) as T0.
    assert (HF2 : forall t, Forall2 (fun x y => sameBox (sp_dims (rl_space l1)) (t_box x) (t_box y)) (mine t l) (mine t l')).
    { intros t. specialize (HF t). rewrite T0 in HF. destruct (t_task b =? t); auto.
      inversion HF; auto. }
    destruct k as [|k]; simpl in *.
    + injection Hx as <-. injection Hy as <-. specialize (HF (t_task a)). rewrite T0, Z.eqb_refl in HF.
      inversion HF; auto.
    + eapply (IH l'); eauto. intros j. apply (TT (S j)).
Qed.

Lemma isEqual_exact' l1 l2 : FrozenList l1 -> FrozenList l2 -> rl_space l1 = rl_space l2 ->
  exists b, rl_isEqual l1 l2 = Ok b /\ (b = true <-> SameRanges l1 l2).
Proof.
  intros H1 H2 Hs. destruct (FrozenList_Frozen _ H1), (FrozenList_Frozen _ H2).
  apply isEqual_exact; auto.
Qed.
