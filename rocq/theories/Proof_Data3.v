(* Switching the mappings of a container *)
From Coq Require Import ZArith List Bool Lia Sorted Permutation ZifyBool ZifyNat.
From Verif Require Import Base Model_Space Model_RangeList Model_Mem Model_Layout Model_Partitioner Model_Transition Model_Data
  Spec_Space Spec_RangeList Spec_Partitioner Spec_Type Spec_Layout Spec_Data
  Proof_Space Proof_RangeList5 Proof_Layout Proof_Layout2 Proof_Data Proof_Data2 Prop_Layout.
Import ListNotations.
Open Scope Z_scope.

Section Switch.
  Variable sp : space.
  Variable es : Z.
  Hypothesis Hd : valid_dims (sp_dims sp).
  Hypothesis Hes : 0 < es.
  Let d := sp_dims sp.

  Definition OldOk (fl : option mlist) : Prop := match fl with None => True | Some f => GoodList sp es f \/ RawList sp f end.

  Definition TookO (fl0 fl1 : mlist) (ly' : lexlayout) (k : Z) (b : box) (m' : mapping) (j : Z) : Prop :=
    exists f B lf, aread (ml_maps fl0) j = Ok f /\ aread (ml_maps fl1) j = Ok (grab f k) /\ ml_lay fl0 = Some lf /\ Built sp lf /\
      SectionBox lf j B /\ SectionBox ly' k B /\ SubBox d b B /\ m' = taken sp es k b B f /\ GoodList sp es fl0.

  Definition Mid (tl t1 : mlist) (fl fl' : option mlist) : Prop :=
    ml_res t1 = None /\ length (ml_maps t1) = length (ml_maps tl) /\
    (ml_maps tl <> [] -> exists ly', ml_lay t1 = Some ly' /\ Built sp ly' /\
       forall k m b, aread (ml_maps tl) k = Ok m -> m = raw sp k b -> exists m', aread (ml_maps t1) k = Ok m' /\
         ((m' = m /\ SectionBox ly' k b) \/ exists f0 f1 j, fl = Some f0 /\ fl' = Some f1 /\ TookO f0 f1 ly' k b m' j)) /\
    match fl, fl' with
    | None, None => True
    | Some f, Some f' => ml_res f' = None /\ ml_lay f' = ml_lay f /\ length (ml_maps f') = length (ml_maps f) /\
        (forall j m, aread (ml_maps f) j = Ok m -> aread (ml_maps f') j = Ok m \/ exists k, 0 <= k /\ aread (ml_maps f') j = Ok (grab m k)) /\
        (forall j m', aread (ml_maps f') j = Ok m' -> 0 <= m_reused m' -> exists m b ly m1, aread (ml_maps tl) (m_reused m') = Ok m /\ m = raw sp (m_reused m') b /\
           ml_lay t1 = Some ly /\ aread (ml_maps t1) (m_reused m') = Ok m1 /\ TookO f f' ly (m_reused m') b m1 j) /\
        Permutation (flat_map own (ml_maps f)) (flat_map own (ml_maps f') ++ flat_map own (ml_maps t1))
    | _, _ => False
    end.

  Lemma backed_section ml k m lm B N ly : Backed sp es ml k m lm B N -> m_lay m = None -> m_sec m = k -> ml_lay ml = Some ly ->
    Built sp ly /\ SectionBox ly k B /\ N = vol d B /\ NonEmpty d B /\ m_base m <> 0.
  Proof.
    intros [A1 A2 A3 A4 A5 A6 A7 A8 A9] H1 H2 H3. unfold lmap_of, lay_of in A2. rewrite H1, H3 in A2. injection A2 as <-.
    destruct A3 as (G1 & G2 & G3 & G4 & G5 & G6). simpl in *. rewrite H2 in *.
    destruct (section_entry sp ly k B Hd G1 G2) as [e [_ [_ [E3 [E4 _]]]]]. destruct E4 as (_ & E4 & _). rewrite E3 in E4.
    conjs; auto; [now apply vol_of_count|].
    destruct A9 as [o [O1 O2]]. simpl in O1, O2. unfold offset_lex in O1. apply cassert_ok in O1. destruct O1 as [_ O1].
    apply Base.obind_ok in O1. destruct O1 as [e' [_ O1]]. apply cassert_ok in O1. destruct O1 as [O1 O3]. injection O3 as <-.
    nia.
  Qed.

  Lemma raw_unique k b b' : raw sp k b = raw sp k b' -> b = b'.
  Proof. unfold raw. congruence. Qed.

  Lemma own_raw (l : list mapping) : (forall m, In m l -> exists k b, m = raw sp k b) -> flat_map own l = [].
  Proof.
    induction l as [|m l IH]; intros H; auto. simpl. destruct (H m (or_introl eq_refl)) as [k [b ->]].
    change (own (raw sp k b)) with (@nil (Z * Z)). simpl. apply IH. intros; apply H; now right.
  Qed.
  Lemma rawlist_in tl m : RawList sp tl -> In m (ml_maps tl) -> exists k b, m = raw sp k b.
  Proof.
    intros [_ [_ R]] Hin. apply In_nth_error in Hin. destruct Hin as [n Hn].
    destruct (R (Z.of_nat n) m) as [b [ly [-> _]]]; [apply aread_nat; auto|]. eauto.
  Qed.

  Lemma mid_trivial tl fl : RawList sp tl -> OldOk fl -> Mid tl tl fl fl.
  Proof.
    intros HR HO. pose proof HR as [R1 [R2 R3]]. split; auto. split; auto. split.
    - intros Hn. destruct (R2 Hn) as [ly [L1 L2]]. exists ly. conjs; auto. intros k m b Hk Hb. exists m. split; auto.
      left. split; auto. destruct (R3 k m Hk) as [b' [ly' [E [_ [_ [E1 E2]]]]]]. assert (ly' = ly) by congruence. subst ly'.
      assert (b' = b) by (apply (raw_unique k); congruence). subst. auto.
    - destruct fl as [f|]; auto. simpl in HO. conjs; auto.
      + destruct HO as [HO|HO]; [apply (gl_res _ _ _ HO)|apply HO].
      + intros j m' Hj Hr. destruct HO as [HO|(_ & _ & HO)].
        * destruct (gl_maps _ _ _ HO j m' Hj) as (_ & _ & E & _). lia.
        * destruct (HO j m' Hj) as (b & ly & -> & _). simpl in Hr. lia.
      + rewrite (own_raw (ml_maps tl)), app_nil_r by (intros; eapply rawlist_in; eauto). auto.
  Qed.

  Lemma find_none ly i lf : forall fm j, (forall f, In f fm -> m_base f = 0) -> reuse_find ly i lf j fm = Ok None.
  Proof. induction fm as [|f fm IH]; intros j H; simpl; auto. rewrite (H f (or_introl eq_refl)). replace (0 =? 0) with true by lia. apply IH. intros; apply H; now right. Qed.
  Lemma loop_none lf fm : (forall f, In f fm -> m_base f = 0) -> forall ts i ly, reuse_loop es lf i ts ly fm = Ok (ts, ly, fm).
  Proof.
    intros H. induction ts as [|t ts IH]; intros i ly; simpl; auto. rewrite find_none by auto. cbn [obind]. rewrite IH. reflexivity.
  Qed.

  Lemma reuse_ok_mid tl fl : RawList sp tl -> OldOk fl -> exists t1 fl', check_map_reuse es tl fl = Ok (t1, fl') /\ Mid tl t1 fl fl'.
  Proof.
    intros HR HO. pose proof HR as [R1 [R2 R3]]. unfold check_map_reuse. destruct fl as [f|].
    2:{ exists tl, None. split; auto. apply mid_trivial; auto. }
    destruct (ml_maps f) as [|f0 fr] eqn:Ef.
    { exists tl, (Some f). split; auto. apply mid_trivial; auto. }
    destruct (ml_maps tl) as [|t0 tr] eqn:Et.
    { exists tl, (Some f). split; auto. rewrite <- Et in *. apply mid_trivial; auto. }
    simpl in HO. destruct (R2 ltac:(discriminate)) as [lt [L1 L2]]. rewrite L1, R1.
    destruct HO as [HO|HO].
    2:{ exists tl, (Some f). rewrite <- Et in *. split; [|apply mid_trivial; simpl; auto].
        pose proof HO as (O1 & O2 & O3). rewrite O1. destruct O2 as [lf [Elf _]]; [rewrite Ef; discriminate|]. rewrite Elf.
        rewrite loop_none.
        - cbn [obind fst snd]. rewrite <- Ef. destruct tl, f; cbn in *. now subst.
        - intros g Hg. rewrite <- Ef in Hg. destruct (rawlist_in f g HO Hg) as (k & b & ->). reflexivity. }
    rewrite (gl_res _ _ _ HO).
    assert (Hf0 : aread (ml_maps f) 0 = Ok f0) by (rewrite Ef; reflexivity).
    destruct (gl_maps _ _ _ HO 0 f0 Hf0) as (M1 & M2 & M3 & lm & B0 & N0 & BK).
    destruct (ml_lay f) as [lf|] eqn:Elf.
    2:{ exfalso. destruct BK as [_ Q _ _ _ _ _ _ _]. unfold lmap_of, lay_of in Q. rewrite M1, Elf in Q. discriminate. }
    destruct (backed_section f 0 f0 lm B0 N0 lf BK M1 M2 Elf) as (HB & _).
    rewrite <- Ef, <- Et.
    assert (HF : forall j g, nth_error (ml_maps f) j = Some g -> exists B, SectionBox lf (Z.of_nat j) B /\ m_alc g = mkRange (Some sp) B /\
      0 < m_start g /\ m_base g <> 0 /\ m_reused g = -1).
    { intros j g Hj. apply aread_nat in Hj. destruct (gl_maps _ _ _ HO _ _ Hj) as (P1 & P2 & P3 & lm' & B & N & BK').
      destruct (backed_section f _ g lm' B N lf BK' P1 P2 Elf) as (_ & Q1 & _ & _ & Q2).
      exists B. conjs; auto; [apply (bk_alc _ _ _ _ _ _ _ _ BK')|apply (bk_start _ _ _ _ _ _ _ _ BK')]. }
    destruct (loop_ok sp es Hd lf (ml_maps f) HB HF (ml_maps tl) 0 lt (ml_maps f) ltac:(lia) L2) as (ts' & ly' & fm' & E1 & E2 & E3 & E4 & _ & _ & E10 & E7 & E8 & E9).
    { split; auto. }
    { intros n t Hn. apply aread_nat in Hn. rewrite Et in Hn. destruct (R3 _ _ Hn) as [b [ly [A1 [A2 [_ [A3 A4]]]]]].
      assert (ly = lt) by congruence. subst ly. simpl. exists b. auto. }
    rewrite E1. cbn [obind fst snd]. exists (mkMl None (Some ly') ts'), (Some (mkMl None (Some lf) fm')). split; auto.
    assert (Tconv : forall k b t' j, Took sp es lf (ml_maps f) ly' fm' k b t' j -> TookO f (mkMl None (Some lf) fm') ly' k b t' (Z.of_nat j)).
    { intros k b t' j (g & B & T1 & T2 & T3 & T4 & T5 & T6). exists g, B, lf. conjs; auto; apply aread_nat; auto. }
    split; [reflexivity|]. split; [exact E4|]. split.
    - intros _. exists ly'. split; auto. split; auto. intros k m b Hk Hb. apply aread_iff in Hk. destruct Hk as [K1 K2].
      destruct (E7 (Z.to_nat k) m b K2) as [t' [T1 T2]].
      { rewrite Hb. f_equal. lia. }
      exists t'. replace (0 + Z.of_nat (Z.to_nat k)) with k in T2 by lia. split; [apply aread_iff; auto|].
      destruct T2 as [T2|[j T2]]; auto. right. exists f, (mkMl None (Some lf) fm'), (Z.of_nat j). auto.
    - cbn [ml_res ml_lay ml_maps]. destruct E3 as [E3a E3b]. conjs; auto.
      + intros j m Hj. apply aread_iff in Hj. destruct Hj as [J1 J2]. destruct (E3b _ _ J2) as [G|[k [K1 G]]].
        * left. apply aread_iff. auto.
        * right. exists k. split; [lia|apply aread_iff; auto].
      + intros j m' Hj Hr. apply aread_iff in Hj. destruct Hj as [J1 J2].
        destruct (E8 _ _ J2 Hr) as (n & t & t' & b & G1 & G2 & G3 & G4 & G5).
        simpl in G4. rewrite G4. exists t, b, ly', t'. simpl in G3. conjs; auto; try (apply aread_nat; auto).
        apply Tconv in G5. replace (Z.of_nat (Z.to_nat j)) with j in G5 by lia. exact G5.
      + assert (Z0 : flat_map own (ml_maps tl) = []) by (apply own_raw; intros; eapply rawlist_in; eauto; rewrite Et in *; auto).
        rewrite Z0, app_nil_r in E9. exact E9.
  Qed.

  (* memory allocated for a map *)
  Definition alloced (k : Z) (b : box) (a : Z) : mapping :=
    mkMapping (mkRange (Some sp) b) (vol d b) None k (mkRange (Some sp) b) (vol d b) a a (vol d b * es) true (-1).

  Lemma alloc_raw k b a : NonEmpty d b -> vol d b < two64 -> 0 < a -> allocate_map es (raw sp k b) a = Ok (alloced k b a).
  Proof.
    intros Hn Hv Ha. assert (P := vol_pos d b Hd Hn). unfold allocate_map, raw. cbn [m_base m_count m_owner].
    fold d. replace (0 =? 0) with true by lia. cbn [negb]. replace (vol d b =? 0) with false by lia. cbn [cassert].
    replace (a =? 0) with false by lia. unfold map_set_allocation. cbn [m_start m_base m_req m_count m_lay m_sec m_reused].
    replace (0 =? 0) with true by lia. cbn [cassert]. unfold range_size. cbn [r_space r_box]. fold d.
    rewrite (box_size_vol d b Hd Hn Hv). cbn [obind]. rewrite Z.eqb_refl. cbn [cassert].
    replace (vol d b * es >=? vol d b * es) with true by lia. reflexivity.
  Qed.

  Lemma alloc_loop_ok addr : forall l i,
    (forall n m, nth_error l n = Some m -> m_base m <> 0 \/
       exists b, m = raw sp (i + Z.of_nat n) b /\ NonEmpty d b /\ vol d b < two64 /\ 0 < addr (i + Z.of_nat n)) ->
    exists l', allocate_loop es None addr i l = Ok l' /\ length l' = length l /\
      (forall n m, nth_error l n = Some m -> exists m', nth_error l' n = Some m' /\
         ((m_base m <> 0 /\ m' = m) \/ (m_base m = 0 /\ exists b, m = raw sp (i + Z.of_nat n) b /\ m' = alloced (i + Z.of_nat n) b (addr (i + Z.of_nat n))))) /\
      Permutation (alloc_blocks es addr i l ++ flat_map own l) (flat_map own l').
  Proof.
    induction l as [|m l IH]; intros i H.
    { exists []. conjs; auto. intros [|n] m E; discriminate. }
    destruct (IH (i + 1)) as (l' & L1 & L2 & L3 & L4).
    { intros n m' Hn. destruct (H (S n) m' Hn) as [G|[b (G1 & G2 & G3 & G4)]]; auto. right. exists b.
      replace (i + 1 + Z.of_nat n) with (i + Z.of_nat (S n)) by lia. auto. }
    assert (G : exists m1, (if negb (m_base m =? 0) then Ok m else cassert (m_owner m) (allocate_map es m (addr i))) = Ok m1 /\
       ((m_base m <> 0 /\ m1 = m) \/ (m_base m = 0 /\ exists b, m = raw sp i b /\ m1 = alloced i b (addr i))) /\
       (if (m_base m =? 0) && negb (m_count m =? 0) then [(addr i, m_count m * es)] else []) ++ own m = own m1).
    { destruct (H 0%nat m eq_refl) as [G|[b (G1 & G2 & G3 & G4)]].
      - exists m. replace (m_base m =? 0) with false by lia. conjs; auto.
      - replace (i + Z.of_nat 0) with i in * by lia. exists (alloced i b (addr i)). subst m.
        change (m_base (raw sp i b)) with 0. change (m_owner (raw sp i b)) with true. replace (0 =? 0) with true by lia. cbn [negb cassert].
        rewrite alloc_raw by auto. conjs; auto.
        + right. eauto.
        + change (m_count (raw sp i b)) with (vol d b). assert (P := vol_pos d b Hd G2). replace (vol d b =? 0) with false by lia.
          cbn [andb negb]. change (own (raw sp i b)) with (@nil (Z * Z)). unfold own, alloced. cbn [m_owner m_start m_cap andb].
          replace (addr i =? 0) with false by lia. reflexivity. }
    destruct G as (m1 & G1 & G2 & G3).
    exists (m1 :: l'). cbn [allocate_loop]. cbn [cassert]. rewrite G1. cbn [obind]. rewrite L1. cbn [obind]. conjs; auto.
    - simpl; lia.
    - intros [|n] m' Hn.
      + injection Hn as <-. exists m1. split; auto. replace (i + Z.of_nat 0) with i by lia. auto.
      + simpl in Hn. destruct (L3 n m' Hn) as [m2 [K1 K2]]. exists m2. split; auto.
        replace (i + 1 + Z.of_nat n) with (i + Z.of_nat (S n)) in K2 by lia. auto.
    - simpl. rewrite <- G3, <- L4, <- !app_assoc. apply Permutation_app_head. rewrite !app_assoc. apply Permutation_app_tail, Permutation_app_comm.
  Qed.

  (* the address of the first index of a box *)
  Lemma good_lm ly k B b st : Built sp ly -> SectionBox ly k B -> NonEmpty d b -> SubBox d b B ->
    GoodMap sp (mkLmap ly k st es (mkRange (Some sp) b)) B (vol d B).
  Proof. intros. unfold GoodMap. cbn. conjs; auto. apply vol_count; auto. eapply nonempty_sub; eauto. Qed.
  Lemma addr_lm ly k B b st i : Built sp ly -> SectionBox ly k B -> InBox d i B ->
    AddrOf (mkLmap ly k st es (mkRange (Some sp) b)) i (st + boff d B i * es).
  Proof. intros. exists (boff d B i). cbn. split; auto. apply offset_ok; auto. Qed.
  Lemma from_inside b : NonEmpty d b -> InBox d (b_from b) b.
  Proof. intros Hn. destruct (nonempty_pos d b Hn) as [A [B C]]. unfold w0, w1, w2 in *. unfold InBox. conjs; intros; try lia; try (specialize (B H); lia); specialize (C H); lia. Qed.
  Lemma boff_from b : boff d b (b_from b) = 0.
  Proof. unfold boff. destruct (Nat.ltb 1 d), (Nat.ltb 2 d); lia. Qed.
  Lemma SubBox_refl' b : SubBox d b b. Proof. intros i; auto. Qed.
End Switch.
