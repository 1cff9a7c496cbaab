(* Histories of switches *)
From Coq Require Import ZArith List Bool Lia Sorted Permutation ZifyBool ZifyNat.
From Verif Require Import Base ListFacts Model_Space Model_RangeList Model_Mem Model_Layout Model_Partitioner Model_Transition Model_Data
  Spec_Space Spec_RangeList Spec_Partitioner Spec_Type Spec_Layout Spec_Data
  Proof_Space Proof_RangeList5 Proof_Layout Proof_Layout2 Proof_Layout4 Proof_Layout6 Proof_Data Proof_Data2 Proof_Data3 Proof_Data4 Prop_Layout.
Import ListNotations.
Open Scope Z_scope.

Section Hist.
  Variable d : dcont.
  Hypothesis Hd : valid_dims (sp_dims (dc_space d)).
  Hypothesis Hes : 0 < dc_es d.
  Hypothesis H0 : dc_map0 d = None.
  Let sp := dc_space d.
  Let es := dc_es d.

  Definition Inv (s : dstate) : Prop :=
    match ds_act s with
    | None => ds_live s = []
    | Some ml => (RawList sp ml /\ ds_live s = []) \/
        (GoodList sp es ml /\ (forall m, In m (ml_maps ml) -> m_owner m = true) /\ Permutation (ds_live s) (blocks ml))
    end.

  Lemma in_aread {A} (l : list A) m : In m l -> exists k, aread l k = Ok m.
  Proof. intros H. apply In_nth_error in H. destruct H as [n H]. exists (Z.of_nat n). now apply aread_nat. Qed.

  Lemma good_pos ml m : GoodList sp es ml -> In m (ml_maps ml) -> 0 < m_start m /\ 0 < m_cap m /\ m_reused m = -1 /\ m_base m <> 0.
  Proof.
    intros HG Hin. destruct (in_aread _ _ Hin) as [k Hk]. destruct (gl_maps _ _ _ HG k m Hk) as (M1 & M2 & M3 & lm & B & N & BK).
    assert (S := bk_start _ _ _ _ _ _ _ _ BK). assert (C := bk_cap _ _ _ _ _ _ _ _ BK).
    destruct (ml_lay ml) as [ly|] eqn:El.
    2:{ destruct BK as [_ L _ _ _ _ _ _ _]. unfold lmap_of, lay_of in L. rewrite M1, El in L. discriminate. }
    destruct (backed_section sp es Hd ml k m lm B N ly BK M1 M2 El) as (_ & _ & -> & NB & Bs).
    assert (P : 0 < vol (sp_dims sp) B) by exact (vol_pos _ B Hd NB). assert (0 < es) by exact Hes. conjs; auto. nia.
  Qed.

  Lemma own_blocks ml : GoodList sp es ml -> (forall m, In m (ml_maps ml) -> m_owner m = true) -> flat_map own (ml_maps ml) = blocks ml.
  Proof.
    intros HG HO. assert (G : forall l, (forall m, In m l -> m_owner m = true /\ 0 < m_start m) -> flat_map own l = map (fun m => (m_start m, m_cap m)) l).
    { induction l as [|m l IH]; intros H; simpl; auto. destruct (H m (or_introl eq_refl)) as [E1 E2]. unfold own at 1. rewrite E1.
      replace (m_start m =? 0) with false by lia. simpl. f_equal. apply IH. intros; apply H; now right. }
    apply G. intros m Hm. split; auto. apply (good_pos ml m HG Hm).
  Qed.

  Lemma starts_nodup ml : GoodList sp es ml -> NoDup (map fst (blocks ml)).
  Proof.
    intros HG. unfold blocks. rewrite map_map. cbn [fst]. apply NoDup_nth_error. intros i j Hi E.
    destruct (nth_error (ml_maps ml) i) as [a|] eqn:Ea; [|apply nth_error_None in Ea; rewrite map_length in Hi; lia].
    rewrite !nth_error_map, Ea in E. destruct (nth_error (ml_maps ml) j) as [b|] eqn:Eb; [|discriminate]. simpl in E. injection E as E.
    destruct (Nat.eq_dec i j) as [|Hn]; auto. exfalso.
    apply aread_nat in Ea, Eb. assert (A := gl_away _ _ _ HG (Z.of_nat i) (Z.of_nat j) a b ltac:(lia) Ea Eb).
    assert (In a (ml_maps ml) /\ In b (ml_maps ml)) as [Ia Ib] by (split; eapply nth_error_In; eapply aread_nat; eauto).
    destruct (good_pos ml a HG Ia) as (P1 & P2 & _), (good_pos ml b HG Ib) as (Q1 & Q2 & _). unfold Away in A. lia.
  Qed.

  (* the old list after the reuse check: what is freed is what is still owned *)
  Lemma freed_own f f' : GoodList sp es f -> (forall m, In m (ml_maps f) -> m_owner m = true) -> Old (Some f) (Some f') ->
    flat_map free_map (ml_maps f') = map fst (flat_map own (ml_maps f')) /\
    filter (freed (flat_map free_map (ml_maps f'))) (blocks f) = flat_map own (ml_maps f').
  Proof.
    intros HG HO (_ & _ & Hl & Hr).
    assert (G : forall m' , In m' (ml_maps f') -> free_map m' = map fst (own m')).
    { intros m' Hm'. destruct (in_aread _ _ Hm') as [j Hj]. pose proof Hj as Hj0. apply aread_iff in Hj. destruct Hj as [J1 J2].
      assert (Hm : exists m, nth_error (ml_maps f) (Z.to_nat j) = Some m).
      { destruct (nth_error (ml_maps f) (Z.to_nat j)) eqn:E; eauto. apply nth_error_None in E. assert (Z.to_nat j < length (ml_maps f'))%nat by (apply nth_error_Some; congruence). lia. }
      destruct Hm as [m Hm]. assert (Ha : aread (ml_maps f) j = Ok m) by (apply aread_iff; auto). assert (Hi := nth_error_In _ _ Hm).
      destruct (good_pos f m HG Hi) as (P1 & P2 & P3 & _). specialize (HO m Hi).
      destruct (Hr j m Ha) as [E|[k [K E]]]; rewrite Hj0 in E; injection E as ->.
      - unfold free_map, own. rewrite HO, P3. replace (m_start m =? 0) with false by lia. reflexivity.
      - unfold free_map, own, grab. cbn [m_owner m_start m_reused]. replace (m_start m =? 0) with false by lia. replace (k >=? 0) with true by lia. reflexivity. }
    assert (E1 : flat_map free_map (ml_maps f') = map fst (flat_map own (ml_maps f'))).
    { revert G. generalize (ml_maps f'). induction l as [|m l IH]; intros G; simpl; auto. rewrite map_app, G by now left. f_equal. apply IH. intros; apply G; now right. }
    split; auto. rewrite E1.
    (* pointwise *)
    assert (ND := starts_nodup f HG).
    assert (Q : forall lf lf' S, length lf' = length lf ->
      (forall n m m', nth_error lf n = Some m -> nth_error lf' n = Some m' -> m_owner m = true /\ 0 < m_start m /\ (m' = m \/ exists k, 0 <= k /\ m' = grab m k)) ->
      NoDup (map m_start lf) -> (forall a, In a S -> ~ In a (map m_start lf)) ->
      filter (freed (S ++ map fst (flat_map own lf'))) (map (fun m => (m_start m, m_cap m)) lf) = flat_map own lf').
    { induction lf as [|m lf IH]; intros [|m' lf'] S L P N D; try discriminate; auto.
      destruct (P 0%nat m m' eq_refl eq_refl) as (P1 & P2 & P3). inversion N as [|? ? N1 N2]; subst.
      assert (Hown' : forall lf0 lf0', length lf0' = length lf0 -> (forall n m m', nth_error lf0 n = Some m -> nth_error lf0' n = Some m' -> (m' = m \/ exists k, 0 <= k /\ m' = grab m k)) ->
        forall a, In a (map fst (flat_map own lf0')) -> In a (map m_start lf0)).
      { clear. induction lf0 as [|x lf0 IH]; intros [|x' lf0'] L P a Ha; try discriminate; auto. simpl in Ha. rewrite map_app in Ha. apply in_app_iff in Ha. destruct Ha as [Ha|Ha].
        - left. destruct (P 0%nat x x' eq_refl eq_refl) as [->|[k [_ ->]]].
          + unfold own in Ha. destruct (m_owner x && negb (m_start x =? 0)); simpl in Ha; [tauto|easy].
          + unfold own, grab in Ha. simpl in Ha. easy.
        - right. apply (IH lf0'); auto. intros n y y' Hy Hy'. apply (P (Datatypes.S n)); auto. }
      simpl in L. injection L as L.
      assert (Hin : forall a, In a (map fst (flat_map own lf')) -> In a (map m_start lf)).
      { apply Hown'; auto. intros n y y' Hy Hy'. apply (P (Datatypes.S n)); auto. }
      specialize (IH lf').
      destruct P3 as [->|[k [K ->]]].
      - simpl. replace (own m) with [(m_start m, m_cap m)] by (unfold own; rewrite P1; replace (m_start m =? 0) with false by lia; reflexivity).
        assert (F : freed (S ++ map fst ([(m_start m, m_cap m)] ++ flat_map own lf')) (m_start m, m_cap m) = true).
        { unfold freed. apply existsb_exists. exists (m_start m). split; [|simpl; lia]. apply in_app_iff. right. now left. }
        rewrite F. cbn [app]. f_equal.
        specialize (IH (S ++ [m_start m]) L). rewrite <- app_assoc in IH. cbn [app] in IH. cbn [map fst]. apply IH; auto.
        + intros n y y' Hy Hy'. apply (P (Datatypes.S n)); auto.
        + intros a Ha Hb. apply in_app_iff in Ha. destruct Ha as [Ha|[<-|[]]]; [|contradiction]. apply (D a Ha). now right.
      - simpl. change (own (grab m k)) with (@nil (Z * Z)). cbn [app].
        assert (F : freed (S ++ map fst (flat_map own lf')) (m_start m, m_cap m) = false).
        { unfold freed. destruct (existsb _ _) eqn:E; auto. apply existsb_exists in E. destruct E as [a [Ha Hb]]. simpl in Hb. assert (a = m_start m) by lia. subst a.
          apply in_app_iff in Ha. destruct Ha as [Ha|Ha]; [exfalso; apply (D _ Ha); now left|]. exfalso. apply N1. auto. }
        rewrite F. apply IH; auto.
        + intros n y y' Hy Hy'. apply (P (Datatypes.S n)); auto.
        + intros a Ha Hb. apply (D a Ha). now right. }
    specialize (Q (ml_maps f) (ml_maps f') [] Hl). cbn [app] in Q. unfold blocks. apply Q.
    - intros n m m' Hm Hm'. assert (Hi := nth_error_In _ _ Hm). split; auto. split; [apply (good_pos f m HG Hi)|].
      apply aread_nat in Hm, Hm'. destruct (Hr _ _ Hm) as [E|[k [K E]]]; rewrite Hm' in E; injection E as ->; eauto.
    - unfold blocks in ND. rewrite map_map in ND. exact ND.
    - intros a [].
  Qed.

  Lemma filter_split {A} (g : A -> bool) l : Permutation l (filter g l ++ filter (fun x => negb (g x)) l).
  Proof.
    induction l as [|x l IH]; simpl; auto. destruct (g x); simpl; [now constructor|]. rewrite <- Permutation_middle. now constructor.
  Qed.
  Lemma filter_perm {A} (g : A -> bool) l l' : Permutation l l' -> Permutation (filter g l) (filter g l').
  Proof. induction 1; simpl; auto; [destruct (g x); auto|destruct (g x), (g y); auto; constructor|now rewrite IHPermutation1]. Qed.

  (* one switch *)
  Lemma step_ok s l me gen ini exec addr o tl t m m' fr : Inv s -> OwnRanges sp l me ->
    prepare_maps d l me = Ok tl -> FreshFor es addr tl (ds_live s) ->
    do_transition gen d ini exec addr o (ds_act s) tl m = Ok (t, m', fr) ->
    Inv (mkDs (Some t) (filter (fun b => negb (freed fr b)) (ds_live s) ++ alloc_calls es addr tl (ds_act s))) /\
    GoodList sp es t /\ (forall a, In a fr -> In a (map fst (ds_live s))) /\ NoDup fr.
  Proof.
    intros HI HO HP HF HT. destruct (prepare_ok d sp l me H0 HO) as (tl' & P1 & P2 & _). assert (tl' = tl) by congruence. subst tl'.
    assert (HO' : OldOk sp es (ds_act s)).
    { unfold Inv, OldOk in *. destruct (ds_act s) as [f|]; auto. destruct HI as [[? _]|[? _]]; auto. }
    assert (HF' : FreshFor es addr tl (blocks_of (ds_act s))).
    { unfold Inv, blocks_of in *. destruct (ds_act s) as [f|]; [|now rewrite HI in HF].
      destruct HI as [[HR HL]|(HG & HO1 & HL)].
      - intros k m1 Hk. destruct (HF k m1 Hk) as (F1 & _ & F2). conjs; auto. intros b Hb. apply in_map_iff in Hb. destruct Hb as [x [<- Hx]].
        destruct (rawlist_in sp f x HR Hx) as (k' & b' & ->). unfold AwayB, Away. simpl. lia.
      - intros k m1 Hk. destruct (HF k m1 Hk) as (F1 & F3 & F2). conjs; auto. intros b Hb. apply F3. eapply Permutation_in; [symmetry; exact HL|auto]. }
    destruct (switch_ok sp es Hd Hes tl (ds_act s) addr P2 HO' HF') as (t1 & fl' & t' & S1 & S2 & S3 & S4 & S5 & S6 & S7 & S8).
    unfold do_transition in HT. fold es in HT. rewrite S1 in HT. cbn [obind fst snd] in HT. rewrite S2 in HT. cbn [obind] in HT.
    apply Base.obind_ok in HT. destruct HT as [m1 [_ HT]]. apply Base.obind_ok in HT. destruct HT as [m2 [_ HT]]. apply Base.obind_ok in HT. destruct HT as [m3 [_ HT]].
    apply Base.obind_ok in HT. destruct HT as [fr' [Hfr HT]]. injection HT as -> _ ->.
    assert (Ea : alloc_calls es addr tl (ds_act s) = alloc_blocks es addr 0 (ml_maps t1)) by (unfold alloc_calls; rewrite S1; reflexivity).
    rewrite Ea.
    assert (Efr : fr = flat_map free_map (maps_of fl')).
    { destruct fl' as [f'|]; [|simpl; congruence]. destruct (ml_res f') eqn:Er.
      - exfalso. unfold Old in S5. destruct (ds_act s); [|easy]. destruct S5 as (E & _). congruence.
      - unfold free_list in Hfr. rewrite Er in Hfr. cbn [cassert] in Hfr. simpl. congruence. }
    (* owners of the new list *)
    assert (Hown : forall x, In x (ml_maps t) -> m_owner x = true).
    { intros x Hx. destruct (in_aread _ _ Hx) as [k Hk].
      destruct (S6 k x Hk) as [(f & f' & j & g & fj & E1 & E2 & E3 & E4 & E5 & E6 & E7)|(lm & _ & _ & _ & _ & E)]; auto.
      rewrite E7. assert (Hj : In fj (ml_maps f)) by (apply aread_iff in E6; eapply nth_error_In, E6).
      unfold Inv in HI. rewrite E1 in HI. destruct HI as [[HR _]|(HG & HO1 & HL)]; auto.
      destruct (rawlist_in sp f fj HR Hj) as (k' & b' & ->). reflexivity. }
    rewrite (own_blocks t S3 Hown) in S8.
    unfold Inv in HI. destruct (ds_act s) as [f|] eqn:Eact.
    - destruct fl' as [f'|]; [|easy]. destruct HI as [[HR HL]|(HG & HO1 & HL)].
      + rewrite HL. simpl in S8, Efr.
        assert (Er : forall m', In m' (ml_maps f') -> own m' = [] /\ free_map m' = []).
        { intros x Hx. destruct (in_aread _ _ Hx) as [j Hj]. destruct S5 as (_ & _ & SL & S5).
          pose proof Hj as Hj0. apply aread_iff in Hj. destruct Hj as [J1 J2].
          assert (Hm : exists y, nth_error (ml_maps f) (Z.to_nat j) = Some y).
          { destruct (nth_error (ml_maps f) (Z.to_nat j)) eqn:E; eauto. apply nth_error_None in E. assert (Z.to_nat j < length (ml_maps f'))%nat by (apply nth_error_Some; congruence). lia. }
          destruct Hm as [y Hy]. assert (Ha : aread (ml_maps f) j = Ok y) by (apply aread_iff; auto).
          destruct (rawlist_in sp f y HR (nth_error_In _ _ Hy)) as (k' & b' & ->).
          destruct (S5 j _ Ha) as [E|[k [K E]]]; rewrite Hj0 in E; injection E as ->; split; reflexivity. }
        assert (Z1 : flat_map own (ml_maps f') = [] /\ flat_map free_map (ml_maps f') = []).
        { clear - Er. induction (ml_maps f') as [|x l IH]; auto. simpl. destruct (Er x (or_introl eq_refl)) as [-> ->]. apply IH. intros; apply Er; now right. }
        destruct Z1 as [Z1 Z2]. rewrite Z1 in S8. rewrite Z2 in Efr. subst fr.
        rewrite (own_raw sp (ml_maps f)) in S8 by (intros mm Hmm; exact (rawlist_in sp f mm HR Hmm)). simpl in S8.
        split; [right; simpl; auto|]. split; auto. split; [intros a []|constructor].
      + destruct (freed_own f f' HG HO1 S5) as [F1 F2]. simpl in S8, Efr. rewrite <- Efr in F1, F2.
        rewrite (own_blocks f HG HO1) in S8.
        conjs; auto.
        * right. conjs; auto. cbn [ds_live]. rewrite (filter_perm _ _ _ HL).
          apply (Permutation_app_inv_l (flat_map own (ml_maps f'))). rewrite <- S8, app_assoc. apply Permutation_app_tail.
          rewrite <- F2. symmetry. apply (filter_split (freed fr) (blocks f)).
        * intros a Ha. rewrite F1 in Ha. rewrite <- F2 in Ha. apply in_map_iff in Ha. destruct Ha as [b [<- Hb]]. apply filter_In in Hb. apply in_map.
          eapply Permutation_in; [symmetry; exact HL|]. tauto.
        * rewrite F1, <- F2. assert (ND := starts_nodup f HG). revert ND. generalize (blocks f). intros bs. induction bs as [|x bs IH]; simpl; intros ND; [constructor|].
          inversion ND as [|? ? N1 N2]; subst. destruct (freed (flat_map free_map (ml_maps f')) x); simpl; auto. constructor; auto. intros C. apply N1.
          apply in_map_iff in C. destruct C as [y [<- Hy]]. apply filter_In in Hy. apply in_map. tauto.
    - destruct fl' as [f'|]; [easy|]. simpl in S8, Efr. subst fr. rewrite HI. simpl. split; [right; simpl; auto|]. split; auto. split; [intros a []|constructor].
  Qed.

  Lemma reached_inv s : Reached d s -> Inv s.
  Proof.
    induction 1.
    - reflexivity.
    - unfold Inv. simpl. left. split; auto. destruct (prepare_ok d sp l me H0 H) as (tl' & P1 & P2 & _). unfold set_initial in H1. cbn [cassert] in H1. congruence.
    - eapply step_ok; eauto.
  Qed.
End Hist.

(* what remains allocated is not freed *)
Lemma alloc_blocks_in es addr : forall l i a n, In (a, n) (alloc_blocks es addr i l) ->
  exists k m, nth_error l k = Some m /\ a = addr (i + Z.of_nat k) /\ n = m_count m * es /\ m_count m <> 0 /\ m_base m = 0.
Proof.
  induction l as [|m l IH]; intros i a n H; [easy|]. simpl in H. apply in_app_iff in H. destruct H as [H|H].
  - destruct ((m_base m =? 0) && negb (m_count m =? 0)) eqn:E; [|easy]. destruct H as [H|[]]. injection H as <- <-.
    exists 0%nat, m. conjs; auto; try lia. f_equal. lia.
  - destruct (IH _ _ _ H) as (k & m' & A & B & C). exists (S k), m'. conjs; try tauto. rewrite B. f_equal. lia.
Qed.

Lemma reuse_raw sp es tl t1 fl fl' k m1 : Mid sp es tl t1 fl fl' -> RawList sp tl -> OldOk sp es fl -> valid_dims (sp_dims sp) -> 0 < es ->
  aread (ml_maps t1) k = Ok m1 -> m_base m1 = 0 -> aread (ml_maps tl) k = Ok m1.
Proof.
  intros (M1 & M2 & M3 & M4) (R1 & R2 & R3) HO Hd Hes Hk Hb. pose proof Hk as Hk0. apply aread_iff in Hk. destruct Hk as [K1 K2].
  assert (Hm : exists m, nth_error (ml_maps tl) (Z.to_nat k) = Some m).
  { destruct (nth_error (ml_maps tl) (Z.to_nat k)) eqn:E; eauto. apply nth_error_None in E.
    assert (Z.to_nat k < length (ml_maps t1))%nat by (apply nth_error_Some; congruence). lia. }
  destruct Hm as [m Hm]. assert (Hk : aread (ml_maps tl) k = Ok m) by (apply aread_iff; auto).
  destruct (R3 k m Hk) as [b [ly0 (Q1 & Q2 & Q3 & _)]].
  destruct M3 as [ly' (L1 & L2 & L3)]; [intros C; rewrite C in Hm; destruct (Z.to_nat k); discriminate|].
  destruct (L3 k m b Hk Q1) as [m' [P1 [[P2 _]|P2]]]; [congruence|]. exfalso. assert (m' = m1) by congruence. subst m'.
  destruct P2 as (f0 & f1 & j & -> & -> & f & B & lf & T1 & T2 & T3 & T4 & T5 & T6 & T7 & -> & HG).
  cbn in Hb. destruct (gl_maps _ _ _ HG _ _ T1) as (_ & _ & _ & lm & B' & N & BK). assert (S := bk_start _ _ _ _ _ _ _ _ BK).
  assert (R := boff_range (sp_dims sp) B (b_from b) Hd (T7 _ (from_inside sp b Q2))). nia.
Qed.

Section Hist2.
  Variable d : dcont.
  Hypothesis Hd : valid_dims (sp_dims (dc_space d)).
  Hypothesis Hes : 0 < dc_es d.
  Hypothesis H0 : dc_map0 d = None.
  Let sp := dc_space d.
  Let es := dc_es d.

  Lemma live_pos s b : Inv d s -> In b (ds_live s) -> 0 < snd b.
  Proof.
    intros HI Hb. unfold Inv in HI. destruct (ds_act s) as [ml|]; [|rewrite HI in Hb; easy]. destruct HI as [[_ HL]|(HG & _ & HP)]; [rewrite HL in Hb; easy|].
    apply (Permutation_in _ HP) in Hb. apply in_map_iff in Hb. destruct Hb as [m [<- Hm]]. apply (good_pos d Hd Hes ml m HG Hm).
  Qed.

  Lemma step_kept s l me gen ini exec addr o tl t m m' fr : Inv d s -> OwnRanges sp l me ->
    prepare_maps d l me = Ok tl -> FreshFor es addr tl (ds_live s) ->
    do_transition gen d ini exec addr o (ds_act s) tl m = Ok (t, m', fr) -> forall x, In x (ml_maps t) -> ~ In (m_start x) fr.
  Proof.
    intros HI HO HP HF HT x Hx C. destruct (step_ok d Hd Hes H0 s l me gen ini exec addr o tl t m m' fr HI HO HP HF HT) as (HI' & HG & Hfr & _).
    fold es in HI'. unfold Inv in HI'. cbn [ds_act ds_live] in HI'. fold sp es in HI'.
    destruct HI' as [[HR _]|(_ & _ & HPm)].
    { destruct (rawlist_in sp t x HR Hx) as (k & b & ->). destruct (good_pos d Hd Hes t _ HG Hx) as (P & _). simpl in P. lia. }
    assert (Hb : In (m_start x, m_cap x) (blocks t)) by (apply in_map_iff; eauto).
    symmetry in HPm. apply (Permutation_in _ HPm) in Hb. apply in_app_iff in Hb. destruct Hb as [Hb|Hb].
    - apply filter_In in Hb. destruct Hb as [_ Hb]. unfold freed in Hb. simpl in Hb.
      assert (existsb (Z.eqb (m_start x)) fr = true) by (apply existsb_exists; exists (m_start x); split; auto; lia). rewrite H in Hb. discriminate.
    - unfold alloc_calls in Hb. destruct (prepare_ok d sp l me H0 HO) as (tl' & P1 & P2 & _). assert (tl' = tl) by congruence. subst tl'.
      assert (HO' : OldOk sp es (ds_act s)).
      { unfold Inv, OldOk in *. destruct (ds_act s) as [f|]; auto. destruct HI as [[? _]|[? _]]; auto. }
      destruct (reuse_ok_mid sp es Hd tl (ds_act s) P2 HO') as (t1 & fl' & E1 & M). rewrite E1 in Hb.
      destruct (alloc_blocks_in es addr _ _ _ _ Hb) as (k & m1 & A1 & A2 & A3 & A4 & A5). replace (0 + Z.of_nat k) with (Z.of_nat k) in A2 by lia.
      apply aread_nat in A1. assert (A6 := reuse_raw sp es tl t1 _ _ _ _ M P2 HO' Hd Hes A1 A5).
      destruct (HF _ _ A6) as (F1 & F2 & _). specialize (Hfr _ C). apply in_map_iff in Hfr. destruct Hfr as [b [B1 B2]].
      assert (P := live_pos s b HI B2). specialize (F2 b B2). unfold AwayB, Away in F2. simpl in F2.
      destruct P2 as (_ & _ & R3). destruct (R3 _ _ A6) as (bb & _ & Em & Nb & _). assert (V := vol_pos _ bb Hd Nb).
      assert (0 < m_count m1) by (subst m1; exact V). assert (0 < es) by exact Hes. nia.
  Qed.
End Hist2.

Lemma fresh_blocks d s addr tl : Inv d s -> FreshFor (dc_es d) addr tl (ds_live s) -> FreshFor (dc_es d) addr tl (blocks_of (ds_act s)).
Proof.
  intros HI HF. unfold Inv, blocks_of in *. destruct (ds_act s) as [f|]; [|now rewrite HI in HF].
  destruct HI as [[HR HL]|(HG & HO1 & HL)].
  - intros k m1 Hk. destruct (HF k m1 Hk) as (F1 & _ & F2). conjs; auto. intros b Hb. apply in_map_iff in Hb. destruct Hb as [x [<- Hx]].
    destruct (rawlist_in _ f x HR Hx) as (k' & b' & ->). unfold AwayB, Away. simpl. lia.
  - intros k m1 Hk. destruct (HF k m1 Hk) as (F1 & F3 & F2). conjs; auto. intros b Hb. apply F3. eapply Permutation_in; [symmetry; exact HL|auto].
Qed.

Lemma covers_req l me tl t : Covers l me tl -> map m_req (ml_maps t) = map m_req (ml_maps tl) -> Covers l me t.
Proof.
  intros [C1 C2 C3] E.
  assert (HL : length (ml_maps t) = length (ml_maps tl)) by (rewrite <- (map_length m_req (ml_maps t)), E; apply map_length).
  assert (N : forall k m, aread (ml_maps t) k = Ok m -> exists m', aread (ml_maps tl) k = Ok m' /\ m_req m' = m_req m).
  { intros k m Hk. apply aread_iff in Hk. destruct Hk as [K1 K2]. assert (H := map_nth_error m_req _ _ K2). rewrite E in H. rewrite nth_error_map in H.
    destruct (nth_error (ml_maps tl) (Z.to_nat k)) as [m'|] eqn:E'; [|discriminate]. exists m'. split; [apply aread_iff; auto|]. simpl in H. congruence. }
  assert (N' : forall k m, aread (ml_maps tl) k = Ok m -> exists m', aread (ml_maps t) k = Ok m' /\ m_req m' = m_req m).
  { intros k m Hk. apply aread_iff in Hk. destruct Hk as [K1 K2]. assert (H := map_nth_error m_req _ _ K2). rewrite <- E in H. rewrite nth_error_map in H.
    destruct (nth_error (ml_maps t) (Z.to_nat k)) as [m'|] eqn:E'; [|discriminate]. exists m'. split; [apply aread_iff; auto|]. simpl in H. congruence. }
  split.
  - now rewrite HL.
  - intros n x Hx. destruct (C2 n x Hx) as (m & Hm & Hs). destruct (N' _ _ Hm) as (m' & A & B). exists m'. rewrite B. auto.
  - intros k m c Hk Hc. destruct (N _ _ Hk) as (m' & A & B). rewrite <- B. eapply C3; eauto.
Qed.
