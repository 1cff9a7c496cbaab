(* Result of a switch: all maps are backed, kept addresses, memory accounting *)
From Coq Require Import ZArith List Bool Lia Sorted Permutation ZifyBool ZifyNat.
From Verif Require Import Base ListFacts Model_Space Model_RangeList Model_Mem Model_Layout Model_Partitioner Model_Transition Model_Data
  Spec_Space Spec_RangeList Spec_Partitioner Spec_Type Spec_Layout Spec_Data
  Proof_Space Proof_RangeList5 Proof_Layout Proof_Layout2 Proof_Layout4 Proof_Layout6 Proof_Data Proof_Data2 Proof_Data3 Prop_Layout.
Import ListNotations.
Open Scope Z_scope.

Section Switch.
  Variable sp : space.
  Variable es : Z.
  Hypothesis Hd : valid_dims (sp_dims sp).
  Hypothesis Hes : 0 < es.
  Let d := sp_dims sp.

  (* what happens to the old list *)
  Definition Old (fl fl' : option mlist) : Prop :=
    match fl, fl' with
    | None, None => True
    | Some f, Some f' => ml_res f' = None /\ ml_lay f' = ml_lay f /\ length (ml_maps f') = length (ml_maps f) /\
        (forall j m, aread (ml_maps f) j = Ok m -> aread (ml_maps f') j = Ok m \/ exists k, 0 <= k /\ aread (ml_maps f') j = Ok (grab m k))
    | _, _ => False
    end.
  Definition maps_of (o : option mlist) : list mapping := match o with Some f => ml_maps f | None => [] end.

  Lemma backed_alloced t k b ly a : ml_lay t = Some ly -> Built sp ly -> SectionBox ly k b -> NonEmpty d b ->
    aread (ml_maps t) k = Ok (alloced sp es k b a) -> 0 < a ->
    Backed sp es t k (alloced sp es k b a) (mkLmap ly k a es (mkRange (Some sp) b)) b (vol d b).
  Proof.
    intros H1 H2 H3 H4 H5 H6. split; auto.
    - unfold lmap_of, lay_of. cbn. rewrite H1. reflexivity.
    - apply good_lm; auto. intros i; auto.
    - now apply vol_count.
    - cbn. fold d. lia.
    - cbn [alloced m_base m_req r_box]. replace a with (a + boff d b (b_from b) * es) at 2 by (unfold d; rewrite boff_from; lia).
      apply addr_lm; auto. now apply from_inside.
  Qed.

  Lemma backed_taken t f0 k b B f j ly lf : ml_lay t = Some ly -> Built sp ly -> SectionBox ly k B -> SubBox d b B -> NonEmpty d b ->
    GoodList sp es f0 -> aread (ml_maps f0) j = Ok f -> ml_lay f0 = Some lf -> Built sp lf -> SectionBox lf j B ->
    aread (ml_maps t) k = Ok (taken sp es k b B f) ->
    Backed sp es t k (taken sp es k b B f) (mkLmap ly k (m_start f) es (mkRange (Some sp) b)) B (vol d B) /\
    SamePlace sp es t f0 k j /\ 0 < m_base (taken sp es k b B f).
  Proof.
    intros H1 H2 H3 H4 H5 HG Hf Hlf Bf Sf Ht.
    destruct (gl_maps _ _ _ HG _ _ Hf) as (M1 & M2 & M3 & lm & B' & N & BK).
    destruct (backed_section sp es Hd f0 j f lm B' N lf BK M1 M2 Hlf) as (Q1 & Q2 & Q3 & Q4 & Q5).
    assert (B' = B) by (apply (section_unique lf j); auto). subst B'. change (sp_dims sp) with d in Q3, Q4.
    assert (Hst := bk_start _ _ _ _ _ _ _ _ BK). assert (Hcap := bk_cap _ _ _ _ _ _ _ _ BK).
    assert (BT : Backed sp es t k (taken sp es k b B f) (mkLmap ly k (m_start f) es (mkRange (Some sp) b)) B (vol d B)).
    { split; auto.
      - unfold lmap_of, lay_of. cbn. rewrite H1. reflexivity.
      - apply good_lm; auto.
      - now apply vol_count.
      - cbn. apply (bk_alc _ _ _ _ _ _ _ _ BK).
      - cbn. congruence.
      - cbn [taken m_base m_req r_box]. apply addr_lm; auto. apply H4. now apply from_inside. }
    split; auto. split.
    - assert (Elm : lm = mkLmap lf j (m_start f) es (m_req f)).
      { destruct BK as [_ L _ _ _ _ _ _ _]. unfold lmap_of, lay_of in L. rewrite M1, Hlf, M2 in L. congruence. }
      exists (taken sp es k b B f), f, (mkLmap ly k (m_start f) es (mkRange (Some sp) b)), lm, B, B, (vol d B), N.
      conjs; auto. cbn [taken m_req r_box]. intros i Hi. exists (m_start f + boff d B i * es). assert (Hi' := H4 i Hi).
      assert (R := boff_range d B i Hd Hi'). conjs.
      + apply addr_lm; auto.
      + rewrite Elm. exists (boff d B i). split; auto. cbn. apply offset_ok; auto.
      + nia.
      + subst N. nia.
    - cbn. assert (R := boff_range d B (b_from b) Hd (H4 _ (from_inside sp b H5))). fold d. nia.
  Qed.

  Lemma switch_ok tl fl addr : RawList sp tl -> OldOk sp es fl -> FreshFor es addr tl (blocks_of fl) ->
    exists t1 fl' t, check_map_reuse es tl fl = Ok (t1, fl') /\ allocate_mappings es addr t1 = Ok t /\
      GoodList sp es t /\ map m_req (ml_maps t) = map m_req (ml_maps tl) /\ Old fl fl' /\
      (forall k m, aread (ml_maps t) k = Ok m ->
         (exists f f' j g fj, fl = Some f /\ fl' = Some f' /\ aread (ml_maps f') j = Ok g /\ m_reused g = k /\ SamePlace sp es t f k j /\
            aread (ml_maps f) j = Ok fj /\ m_owner m = m_owner fj) \/
         (exists lm, Backed sp es t k m lm (r_box (m_req m)) (m_count m) /\ m_start m = addr k /\ m_base m = addr k /\ m_cap m = m_count m * es /\ m_owner m = true)) /\
      (forall f f' j g, fl = Some f -> fl' = Some f' -> aread (ml_maps f') j = Ok g -> 0 <= m_reused g -> SamePlace sp es t f (m_reused g) j) /\
      Permutation (flat_map own (maps_of fl) ++ alloc_blocks es addr 0 (ml_maps t1)) (flat_map own (maps_of fl') ++ flat_map own (ml_maps t)).
  Proof.
    intros HR HO HF. destruct (reuse_ok_mid sp es Hd tl fl HR HO) as (t1 & fl' & E1 & M1 & M2 & M3 & M4).
    pose proof HR as (R1 & R2 & R3).
    (* maps after the reuse check *)
    assert (K : forall k m1, aread (ml_maps t1) k = Ok m1 -> exists b ly, aread (ml_maps tl) k = Ok (raw sp k b) /\ NonEmpty d b /\ vol d b < two64 /\
      ml_lay t1 = Some ly /\ Built sp ly /\
      ((m1 = raw sp k b /\ SectionBox ly k b) \/ exists f0 f1 j, fl = Some f0 /\ fl' = Some f1 /\ TookO sp es f0 f1 ly k b m1 j)).
    { intros k m1 Hk. pose proof Hk as Hk0. apply aread_iff in Hk. destruct Hk as [K1 K2].
      assert (Hm : exists m, nth_error (ml_maps tl) (Z.to_nat k) = Some m).
      { destruct (nth_error (ml_maps tl) (Z.to_nat k)) eqn:E; eauto. apply nth_error_None in E.
        assert (Z.to_nat k < length (ml_maps t1))%nat by (apply nth_error_Some; congruence). lia. }
      destruct Hm as [m Hm]. assert (Hk : aread (ml_maps tl) k = Ok m) by (apply aread_iff; auto).
      destruct (R3 k m Hk) as [b [ly0 (Q1 & Q2 & Q3 & _)]].
      destruct M3 as [ly' (L1 & L2 & L3)]; [intros C; rewrite C in Hm; destruct (Z.to_nat k); discriminate|].
      destruct (L3 k m b Hk Q1) as [m' [P1 P2]]. assert (m' = m1) by congruence. subst m' m. exists b, ly'. conjs; auto. }
    assert (Tk : forall f0 f1 ly k b m1 j, fl = Some f0 -> fl' = Some f1 -> ml_lay t1 = Some ly -> Built sp ly -> NonEmpty d b ->
       aread (ml_maps t1) k = Ok m1 -> TookO sp es f0 f1 ly k b m1 j -> forall t, ml_lay t = Some ly -> aread (ml_maps t) k = Ok m1 ->
       (exists lm B N, Backed sp es t k m1 lm B N) /\ SamePlace sp es t f0 k j /\ 0 < m_base m1 /\
       exists f, aread (ml_maps f0) j = Ok f /\ aread (ml_maps f1) j = Ok (grab f k) /\ m_start m1 = m_start f /\ m_cap m1 = m_cap f /\ m_owner m1 = m_owner f /\ m_lay m1 = None /\ m_sec m1 = k /\ m_reused m1 = -1).
    { intros f0 f1 ly k b m1 j -> -> Hly HB Hn Hm1 (f & B & lf & T1 & T2 & T3 & T4 & T5 & T6 & T7 & -> & HO') t Ht1 Ht2.
      destruct (backed_taken t f0 k b B f j ly lf Ht1 HB T6 T7 Hn HO' T1 T3 T4 T5 Ht2) as (Z1 & Z2 & Z3).
      conjs; auto. { eauto. } exists f. conjs; auto. }
    destruct (alloc_loop_ok sp es Hd addr (ml_maps t1) 0) as (l' & A1 & A2 & A3 & A4).
    { intros n m Hn. apply aread_nat in Hn. destruct (K _ _ Hn) as (b & ly & Q1 & Q2 & Q3 & Q4 & Q5 & [[Q6 Q7]|(f0 & f1 & j & Q6 & Q7 & Q8)]).
      - right. exists b. simpl. conjs; auto. apply (HF _ _ Q1).
      - left. destruct (Tk f0 f1 ly _ b m j Q6 Q7 Q4 Q5 Q2 Hn Q8 t1 Q4 Hn) as (_ & _ & Z3 & _). lia. }
    set (t := mkMl None (ml_lay t1) l').
    (* maps after allocation *)
    assert (P : forall k m, aread l' k = Ok m -> exists b ly, aread (ml_maps tl) k = Ok (raw sp k b) /\ NonEmpty d b /\ m_req m = mkRange (Some sp) b /\
      ml_lay t = Some ly /\ Built sp ly /\
      ((m = alloced sp es k b (addr k) /\ SectionBox ly k b /\ 0 < addr k) \/
       exists f0 f1 j, fl = Some f0 /\ fl' = Some f1 /\ aread (ml_maps t1) k = Ok m /\ TookO sp es f0 f1 ly k b m j)).
    { intros k m Hk. apply aread_iff in Hk. destruct Hk as [K1 K2].
      assert (Hm : exists m1, nth_error (ml_maps t1) (Z.to_nat k) = Some m1).
      { destruct (nth_error (ml_maps t1) (Z.to_nat k)) eqn:E; eauto. apply nth_error_None in E.
        assert (Z.to_nat k < length l')%nat by (apply nth_error_Some; congruence). lia. }
      destruct Hm as [m1 Hm]. destruct (A3 _ _ Hm) as [m' [B1 B2]]. assert (m' = m) by congruence. subst m'.
      replace (0 + Z.of_nat (Z.to_nat k)) with k in B2 by lia.
      assert (Hk1 : aread (ml_maps t1) k = Ok m1) by (apply aread_iff; auto).
      destruct (K _ _ Hk1) as (b & ly & Q1 & Q2 & Q3 & Q4 & Q5 & Q6). exists b, ly.
      destruct B2 as [[B2 ->]|[B2 [b' [B3 B4]]]].
      - destruct Q6 as [[Q6 _]|(f0 & f1 & j & Q6 & Q7 & Q8)]; [subst m1; exfalso; apply B2; reflexivity|]. conjs; auto.
        + destruct Q8 as (f & B & lf & _ & _ & _ & _ & _ & _ & _ & -> & _). reflexivity.
        + right. exists f0, f1, j. auto.
      - destruct Q6 as [[Q6 Q7]|(f0 & f1 & j & Q6 & Q7 & Q8)].
        + assert (b' = b) by (eapply raw_unique; rewrite <- B3; exact Q6). subst b'. conjs; auto. { subst m. reflexivity. }
          left. conjs; auto. apply (HF _ _ Q1).
        + exfalso. destruct (Tk f0 f1 ly _ b m1 j Q6 Q7 Q4 Q5 Q2 Hk1 Q8 t1 Q4 Hk1) as (_ & _ & Z3 & _). lia. }
    assert (Hold : forall f j m', fl = Some f -> aread (ml_maps f) j = Ok m' -> In (m_start m', m_cap m') (blocks_of fl)).
    { intros f j m' -> Hj. simpl. unfold blocks. apply in_map_iff. exists m'. split; auto. apply aread_iff in Hj. eapply nth_error_In, Hj. }
    exists t1, fl', t. split; auto. split.
    { unfold allocate_mappings. rewrite M1, A1. reflexivity. }
    assert (GL : GoodList sp es t).
    { split; auto.
      - intros k m Hk. destruct (P k m Hk) as (b & ly & Q1 & Q2 & Q3 & Q4 & Q5 & [(Q6 & Q7 & Q8)|(f0 & f1 & j & Q6 & Q7 & Q8 & Q9)]).
        + subst m. conjs; auto. do 3 eexists. apply (backed_alloced t k b ly); auto.
        + destruct (Tk f0 f1 ly k b m j Q6 Q7 Q4 Q5 Q2 Q8 Q9 t Q4 Hk) as (Z1 & _ & _ & f & _ & _ & _ & _ & _ & Z4 & Z5 & Z6). conjs; auto.
      - intros j k a c Hjk Ha Hc.
        destruct (P j a Ha) as (b & ly & Q1 & Q2 & Q3 & Q4 & Q5 & Q6). destruct (P k c Hc) as (b' & ly' & Q1' & Q2' & Q3' & Q4' & Q5' & Q6').
        destruct Q6 as [(Q6 & Q7 & Q8)|(f0 & f1 & n & Q6 & Q7 & Q8 & Q9)]; destruct Q6' as [(Q6' & Q7' & Q8')|(f0' & f1' & n' & Q6' & Q7' & Q8' & Q9')].
        + subst a c. destruct (HF j _ Q1) as (_ & _ & HH). exact (HH k _ (not_eq_sym Hjk) Q1').
        + destruct (Tk f0' f1' ly' k b' c n' Q6' Q7' Q4' Q5' Q2' Q8' Q9' t Q4' Hc) as (_ & _ & _ & f & G1 & G2 & G3 & G4 & _).
          destruct (HF j _ Q1) as (_ & HH & _). specialize (HH _ (Hold _ _ _ Q6' G1)). rewrite G3, G4. subst a. exact HH.
        + destruct (Tk f0 f1 ly j b a n Q6 Q7 Q4 Q5 Q2 Q8 Q9 t Q4 Ha) as (_ & _ & _ & f & G1 & G2 & G3 & G4 & _).
          destruct (HF k _ Q1') as (_ & HH & _). specialize (HH _ (Hold _ _ _ Q6 G1)). rewrite G3, G4. subst c. unfold AwayB, Away in *. cbn in *. lia.
        + destruct (Tk f0 f1 ly j b a n Q6 Q7 Q4 Q5 Q2 Q8 Q9 t Q4 Ha) as (_ & _ & _ & f & G1 & G2 & G3 & G4 & _).
          destruct (Tk f0' f1' ly' k b' c n' Q6' Q7' Q4' Q5' Q2' Q8' Q9' t Q4' Hc) as (_ & _ & _ & f' & G1' & G2' & G3' & G4' & _).
          assert (f0' = f0) by congruence. assert (f1' = f1) by congruence. subst f0' f1'.
          rewrite G3, G4, G3', G4'. assert (n <> n').
          { intros ->. rewrite G2 in G2'. injection G2' as E2. unfold grab in E2. congruence. }
          destruct Q9 as (? & ? & ? & _ & _ & _ & _ & _ & _ & _ & _ & HO'). eapply (gl_away _ _ _ HO'); eauto. }
    split; auto.
    assert (Hreq : map m_req l' = map m_req (ml_maps tl)).
    { apply nth_error_ext. intros n. rewrite !nth_error_map. destruct (nth_error l' n) as [m|] eqn:E.
      - apply aread_nat in E. destruct (P _ _ E) as (b & ly & Q1 & Q2 & Q3 & _). apply aread_nat in Q1. rewrite Q1. simpl. now rewrite Q3.
      - apply nth_error_None in E. assert (E2 : nth_error (ml_maps tl) n = None) by (apply nth_error_None; lia). now rewrite E2. }
    split; auto. split.
    { unfold Old. destruct fl, fl'; auto. destruct M4 as (U1 & U2 & U3 & U4 & _). auto. }
    split.
    { intros k m Hk. destruct (P k m Hk) as (b & ly & Q1 & Q2 & Q3 & Q4 & Q5 & [(Q6 & Q7 & Q8)|(f0 & f1 & j & Q6 & Q7 & Q8 & Q9)]).
      - right. subst m. eexists. conjs; auto. apply (backed_alloced t k b ly); auto.
      - left. destruct (Tk f0 f1 ly k b m j Q6 Q7 Q4 Q5 Q2 Q8 Q9 t Q4 Hk) as (_ & Z2 & _ & f & Z3 & Z4 & _ & _ & Z5 & _). exists f0, f1, j, (grab f k), f. conjs; auto. }
    split.
    { intros f f' j g -> -> Hg Hr. destruct M4 as (U1 & U2 & U3 & U4 & U5 & U6).
      destruct (U5 j g Hg Hr) as (m & b & ly & m1 & V1 & V2 & V3 & V4 & V5). subst m.
      assert (Nb : NonEmpty d b). { destruct (R3 _ _ V1) as (b' & ly' & W1 & W2 & _). apply raw_unique in W1. now subst b'. }
      destruct (K _ _ V4) as (b2 & ly2 & _ & _ & _ & Q4 & Q5 & _). assert (ly2 = ly) by congruence. subst ly2.
      assert (Hbase : 0 < m_base m1) by (destruct (Tk f f' ly _ b m1 j eq_refl eq_refl Q4 Q5 Nb V4 V5 t1 Q4 V4) as (_ & _ & Z & _); exact Z).
      apply aread_iff in V4. destruct V4 as [V4 V4']. destruct (A3 _ _ V4') as [m' [B1 [[B2 ->]|[B2 _]]]]; [|lia].
      eapply (Tk f f' ly _ b m1 j eq_refl eq_refl Q4 Q5 Nb); auto; apply aread_iff; auto. }
    change (ml_maps t) with l'. rewrite <- A4. destruct fl as [f|], fl' as [f'|]; try tauto.
    - destruct M4 as (_ & _ & _ & _ & _ & U6). simpl. rewrite U6. rewrite <- !app_assoc. apply Permutation_app_head. apply Permutation_app_comm.
    - simpl. assert (E0 : flat_map own (ml_maps t1) = []).
      { apply own_raw with (sp := sp). intros m Hm. apply In_nth_error in Hm. destruct Hm as [n Hn]. apply aread_nat in Hn.
        destruct (K _ _ Hn) as (b & ly & _ & _ & _ & _ & _ & [[Q6 _]|(f0 & f1 & j & Q6 & _)]); [eauto|discriminate]. }
      now rewrite E0, app_nil_r.
  Qed.
End Switch.
