(* Access to mapped memory *)
From Coq Require Import ZArith List Bool Lia Sorted Permutation ZifyBool ZifyNat.
From Verif Require Import Base ListFacts Model_Space Model_RangeList Model_Mem Model_Layout Model_Partitioner Model_Transition Model_Data
  Spec_Space Spec_RangeList Spec_Partitioner Spec_Type Spec_Layout Spec_Data
  Proof_Space Proof_RangeList5 Proof_Layout Proof_Layout2 Proof_Layout4 Proof_Layout6 Proof_Data Proof_Data2 Proof_Data3 Proof_Data4 Proof_Data5 Prop_Layout.
Import ListNotations.
Open Scope Z_scope.

Section Access.
  Variable sp : space.
  Variable es : Z.
  Variable ml : mlist.
  Hypothesis Hd : valid_dims (sp_dims sp).
  Hypothesis Hes : 0 < es.
  Hypothesis HG : GoodList sp es ml.
  Let d := sp_dims sp.

  (* everything about a map *)
  Lemma map_facts k m : aread (ml_maps ml) k = Ok m -> exists ly B, m_lay m = None /\ m_sec m = k /\ ml_lay ml = Some ly /\ Built sp ly /\ SectionBox ly k B /\
    Backed sp es ml k m (mkLmap ly k (m_start m) es (m_req m)) B (vol d B) /\ SubBox d (r_box (m_req m)) B /\ NonEmpty d (r_box (m_req m)) /\
    m_count m = vol d (r_box (m_req m)) /\
    m_base m = m_start m + boff d B (b_from (r_box (m_req m))) * es /\ m_base m <> 0 /\ vol d B * es <= m_cap m.
  Proof.
    intros Hk. destruct (gl_maps _ _ _ HG k m Hk) as (M1 & M2 & M3 & lm & B & N & BK).
    destruct (ml_lay ml) as [ly|] eqn:El.
    2:{ destruct BK as [_ L _ _ _ _ _ _ _]. unfold lmap_of, lay_of in L. rewrite M1, El in L. discriminate. }
    destruct (backed_section sp es Hd ml k m lm B N ly BK M1 M2 El) as (Q1 & Q2 & Q3 & Q4 & Q5).
    assert (Elm : lm = mkLmap ly k (m_start m) es (m_req m)).
    { destruct BK as [_ L _ _ _ _ _ _ _]. unfold lmap_of, lay_of in L. rewrite M1, El, M2 in L. congruence. }
    subst lm N. assert (Hne := bk_ne _ _ _ _ _ _ _ _ BK). assert (Hgm := bk_good _ _ _ _ _ _ _ _ BK). destruct Hgm as (_ & _ & _ & _ & _ & Hsub). cbn in Hsub.
    exists ly, B. conjs; auto.
    - exact (vol_of_count _ _ _ Hd Hne (bk_count _ _ _ _ _ _ _ _ BK)).
    - destruct (bk_base _ _ _ _ _ _ _ _ BK) as [o [O1 O2]]. cbn in O1, O2.
      rewrite (offset_ok sp ly k B _ Hd Q1 Q2 (Hsub _ (from_inside sp _ Hne))) in O1. injection O1 as <-. exact O2.
    - exact (bk_cap _ _ _ _ _ _ _ _ BK).
  Qed.

  Lemma get_map_ok k m : aread (ml_maps ml) k = Ok m -> get_map (Some ml) k = Ok (Some m).
  Proof.
    intros Hk. destruct (map_facts k m Hk) as (ly & B & _ & _ & _ & _ & _ & _ & _ & _ & _ & _ & Hb & _).
    unfold get_map. pose proof Hk as Hk'. apply aread_iff in Hk'. destruct Hk' as [K1 K2].
    assert (Z.to_nat k < length (ml_maps ml))%nat by (apply nth_error_Some; congruence).
    replace ((k <? 0) || (k >=? Z.of_nat (length (ml_maps ml)))) with false by lia. rewrite Hk. cbn [obind].
    replace (m_base m =? 0) with false by lia. reflexivity.
  Qed.
  Lemma get_map_none k : (forall m, aread (ml_maps ml) k <> Ok m) -> get_map (Some ml) k = Ok None.
  Proof.
    intros Hk. unfold get_map. destruct ((k <? 0) || (k >=? Z.of_nat (length (ml_maps ml)))) eqn:E; auto. exfalso.
    destruct (nth_error (ml_maps ml) (Z.to_nat k)) as [m|] eqn:F; [|apply nth_error_None in F; lia]. apply (Hk m). apply aread_iff. split; [lia|auto].
  Qed.

  Lemma stride1 ly k B : Built sp ly -> SectionBox ly k B -> (1 < d)%nat -> lex_stride ly k 1 = Ok (w0 B).
  Proof.
    intros HB HS H. destruct (section_entry sp ly k B Hd HB HS) as [e [E1 [E2 [E3 [E4 _]]]]]. destruct (Built_wf sp ly Hd HB) as [W _].
    unfold lex_stride. replace ((0 <=? k) && (k <? Z.of_nat (length (lx_e ly)))) with true by lia. cbn [cassert]. rewrite W. fold d.
    replace ((0 <=? 1) && (1 <? Z.of_nat d)) with true by lia. cbn [cassert]. rewrite E2. cbn [obind].
    change (1 =? 0) with false. change (1 =? 1) with true. cbv iota.
    destruct E4 as (_ & _ & _ & _ & _ & E4 & _). rewrite E4, E3. fold d. replace (Nat.ltb 1 d) with true by lia. reflexivity.
  Qed.
  Lemma stride2 ly k B : Built sp ly -> SectionBox ly k B -> (2 < d)%nat -> lex_stride ly k 2 = Ok (w0 B * w1 B).
  Proof.
    intros HB HS H. destruct (section_entry sp ly k B Hd HB HS) as [e [E1 [E2 [E3 [E4 _]]]]]. destruct (Built_wf sp ly Hd HB) as [W _].
    unfold lex_stride. replace ((0 <=? k) && (k <? Z.of_nat (length (lx_e ly)))) with true by lia. cbn [cassert]. rewrite W. fold d.
    replace ((0 <=? 2) && (2 <? Z.of_nat d)) with true by lia. cbn [cassert]. rewrite E2. cbn [obind].
    change (2 =? 0) with false. change (2 =? 1) with false. cbv iota.
    destruct E4 as (_ & _ & _ & _ & _ & _ & E4). rewrite E4, E3. fold d. replace (Nat.ltb 2 d) with true by lia. reflexivity.
  Qed.

  (* two elements do not overlap *)
  Lemma distinct k j m m' lm lm' B N B' N' i i' a a' : Backed sp es ml k m lm B N -> Backed sp es ml j m' lm' B' N' ->
    InBox d i (r_box (m_req m)) -> InBox d i' (r_box (m_req m')) -> (k <> j \/ ~ SameIndex d i i') ->
    AddrOf lm i a -> AddrOf lm' i' a' -> Away a es a' es /\ m_start m <= a /\ a + es <= m_start m + m_cap m.
  Proof.
    intros BK BK' Hi Hi' Hn Ha Ha'.
    assert (F : forall k m lm B N i a, Backed sp es ml k m lm B N -> InBox d i (r_box (m_req m)) -> AddrOf lm i a ->
       exists ly, ml_lay ml = Some ly /\ SectionBox ly k B /\ a = m_start m + boff d B i * es /\ InBox d i B /\ vol d B * es <= m_cap m).
    { clear - Hd HG Hes. intros k m lm B N i a BK Hi Ha. destruct (gl_maps _ _ _ HG k m (bk_at _ _ _ _ _ _ _ _ BK)) as (M1 & M2 & M3 & _).
      destruct (ml_lay ml) as [ly|] eqn:El.
      2:{ destruct BK as [_ L _ _ _ _ _ _ _]. unfold lmap_of, lay_of in L. rewrite M1, El in L. discriminate. }
      destruct (backed_section sp es Hd ml k m lm B N ly BK M1 M2 El) as (Q1 & Q2 & Q3 & Q4 & Q5).
      assert (Elm : lm = mkLmap ly k (m_start m) es (m_req m)).
      { destruct BK as [_ L _ _ _ _ _ _ _]. unfold lmap_of, lay_of in L. rewrite M1, El, M2 in L. congruence. }
      assert (Hgm := bk_good _ _ _ _ _ _ _ _ BK). destruct Hgm as (_ & _ & _ & _ & _ & Hsub). subst lm. cbn in Hsub.
      exists ly. conjs; auto.
      - destruct Ha as [o [O1 O2]]. cbn in O1, O2. rewrite (offset_ok sp ly k B _ Hd Q1 Q2 (Hsub _ Hi)) in O1. injection O1 as <-. exact O2.
      - subst N. exact (bk_cap _ _ _ _ _ _ _ _ BK). }
    destruct (F _ _ _ _ _ _ _ BK Hi Ha) as (ly & L1 & L2 & L3 & L4 & L5). destruct (F _ _ _ _ _ _ _ BK' Hi' Ha') as (ly' & K1 & K2 & K3 & K4 & K5).
    assert (R := boff_range d B i Hd L4). assert (R' := boff_range d B' i' Hd K4).
    split; [|nia]. destruct (Z.eq_dec k j) as [->|Hkj].
    - destruct Hn as [Hn|Hn]; [easy|]. assert (ly' = ly) by congruence. subst ly'. assert (B' = B) by (apply (section_unique ly j); auto). subst B'.
      assert (m' = m) by (assert (X := bk_at _ _ _ _ _ _ _ _ BK); assert (Y := bk_at _ _ _ _ _ _ _ _ BK'); congruence). subst m'.
      assert (boff d B i <> boff d B i') by (intros E; apply Hn; eapply boff_inj; eauto). unfold Away. nia.
    - assert (A := gl_away _ _ _ HG k j m m' Hkj (bk_at _ _ _ _ _ _ _ _ BK) (bk_at _ _ _ _ _ _ _ _ BK')). unfold Away in *. nia.
  Qed.
End Access.

(* index translation *)
Lemma g2l_some gi : forall l i n li, g2l_loop gi i l = Some (n, li) ->
  exists k m, n = i + Z.of_nat k /\ nth_error l k = Some m /\ i0 (b_from (r_box (m_req m))) <= gi < i0 (b_to (r_box (m_req m))) /\
    li = gi - i0 (b_from (r_box (m_req m))) /\
    forall j m', (j < k)%nat -> nth_error l j = Some m' -> ~ (i0 (b_from (r_box (m_req m'))) <= gi < i0 (b_to (r_box (m_req m')))).
Proof.
  induction l as [|m l IH]; intros i n li H; [discriminate|]. simpl in H.
  destruct (gi <? i0 (b_from (r_box (m_req m)))) eqn:E1; [|destruct (gi >=? i0 (b_to (r_box (m_req m)))) eqn:E2].
  - destruct (IH _ _ _ H) as (k & m' & A & B & C & D & E). exists (S k), m'. conjs; auto; try lia.
    intros [|j] m2 Hj Hm; simpl in Hm; [injection Hm as <-; lia|]. apply (E j); auto. lia.
  - destruct (IH _ _ _ H) as (k & m' & A & B & C & D & E). exists (S k), m'. conjs; auto; try lia.
    intros [|j] m2 Hj Hm; simpl in Hm; [injection Hm as <-; lia|]. apply (E j); auto. lia.
  - injection H as <- <-. exists 0%nat, m. conjs; auto; try lia.
Qed.
Lemma g2l_none gi : forall l i, g2l_loop gi i l = None -> forall m, In m l -> ~ (i0 (b_from (r_box (m_req m))) <= gi < i0 (b_to (r_box (m_req m)))).
Proof.
  induction l as [|m l IH]; intros i H m' Hm; [easy|]. simpl in H.
  destruct (gi <? i0 (b_from (r_box (m_req m)))) eqn:E1; [|destruct (gi >=? i0 (b_to (r_box (m_req m)))) eqn:E2]; try discriminate.
  - destruct Hm as [<-|Hm]; [lia|eauto].
  - destruct Hm as [<-|Hm]; [lia|eauto].
Qed.
