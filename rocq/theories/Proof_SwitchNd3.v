(* One process of a switch: where its indexes are, local copies. *)
From Coq Require Import ZArith List Bool Lia ZifyBool ZifyNat.
From Verif Require Import Base ListFacts Model_Space Model_RangeList Model_Mem Model_Layout Model_Partitioner Model_Transition Model_Data
  Model_Action Model_ActionTrans Model_ActionExec Model_ActionExec2 Model_Switch Model_KVS Model_SpaceStore Model_Tcp2 Model_Tcp2Exec.
From Verif Require Import Spec_Space Spec_RangeList Spec_Partitioner Spec_Layout Spec_Data Spec_ActionTrans Spec_Reduce Spec_Switch Spec_Tcp2Exec Spec_SwitchNd.
From Verif Require Import Proof_RangeList5 Proof_Layout Proof_Layout2 Proof_Layout4 Proof_Layout6 Proof_Data Proof_Data2 Proof_Data3 Proof_Data4 Proof_Data6 Prop_Layout Proof_Type Proof_Comb3 Proof_Reduce1 Proof_Switch7 Proof_Tcp2Exec1 Proof_SwitchNd1 Proof_SwitchNd2.
Import ListNotations.
Open Scope Z_scope.

Lemma addr_ad lm i a : AddrOf lm i a -> ad lm i = a.
Proof. intros (o & E & ->). unfold ad. rewrite E. reflexivity. Qed.
Lemma samei_dec d i j : {SameIndex d i j} + {~ SameIndex d i j}.
Proof.
  unfold SameIndex. destruct (Z.eq_dec (i0 i) (i0 j)), (Z.eq_dec (i1 i) (i1 j)), (Z.eq_dec (i2 i) (i2 j)), (lt_dec 1 d), (lt_dec 2 d);
    try (left; split; [lia|]; split; intros; lia); right; intros (H0 & H1 & H2); lia.
Qed.

(* process [me] has index [i] in map [lm] *)
Definition Own (sp : space) (es : Z) (l : rlist) (me : Z) (ml : mlist) (lm : lmap) (i : index) : Prop :=
  exists n x m, rl_tidrange l me n = Ok (Some x) /\ InBox (sp_dims sp) i (t_box x) /\ aread (ml_maps ml) (t_mapNo x) = Ok m /\ lmap_of es ml m = Ok lm.

Section Lists.
Variable sp : space.
Variable es : Z.
Let d := sp_dims sp.
Hypothesis Hd : valid_dims d.
Hypothesis Hes : 0 < es.

Record At (ml : mlist) (k : Z) (m : mapping) (lm : lmap) (B : box) : Prop := {
  at_map : aread (ml_maps ml) k = Ok m;
  at_lm : lmap_of es ml m = Ok lm;
  at_view : View sp es lm B;
  at_req : SubBox d (r_box (m_req m)) B;
  at_block : forall i, InBox d i B -> m_start m <= ad lm i /\ ad lm i + es <= m_start m + m_cap m;
  at_start : lm_start lm = m_start m; at_sec : lm_sec lm = k; at_msec : m_sec m = k;
  at_good : exists n, GoodMap sp lm B n /\ n * es <= m_cap m;
  at_base : m_base m <> 0; at_count : 0 < m_count m }.

Lemma map_at ml k m : GoodList sp es ml -> aread (ml_maps ml) k = Ok m -> exists lm B, At ml k m lm B.
Proof.
  intros HG Hk. destruct (map_facts sp es ml Hd HG k m Hk) as (ly & B & M1 & M2 & M3 & M4 & M5 & M6 & M7 & M8 & M9 & M10 & M11 & M12).
  set (lm := mkLmap ly k (m_start m) es (m_req m)) in *. exists lm, B.
  pose proof (bk_good _ _ _ _ _ _ _ _ M6) as G. pose proof (bk_start _ _ _ _ _ _ _ _ M6) as HS.
  assert (V : View sp es lm B).
  { constructor; [reflexivity|cbn; lia|]. exists B, (vol d B). split; [exact G|]. intros i Hi; exact Hi. }
  constructor; auto.
  - apply (bk_lm _ _ _ _ _ _ _ _ M6).
  - intros i Hi. destruct G as (G1 & G2 & G3). unfold ad. rewrite (offset_ok sp _ _ B i Hd G1 G2 Hi). cbv iota.
    destruct (adr_range sp lm B (vol d B) (m_req m) Hd (bk_good _ _ _ _ _ _ _ _ M6) M8 ltac:(intros j Hj; exact Hj) i Hi) as [A1 A2]. unfold adr in A1, A2. unfold lm in A1, A2 |- *. cbn [lm_start lm_es] in *. fold d in A1, A2. change (sp_dims sp) with d. fold d in M12. lia.
  - exists (vol d B). split; auto.
  - rewrite M9. apply vol_pos; auto.
Qed.

Lemma at_fun ml k m lm B m' lm' B' : At ml k m lm B -> At ml k m' lm' B' -> m' = m /\ lm' = lm.
Proof. intros [A1 A2 _ _ _ _ _ _] [B1 B2 _ _ _ _ _ _]. assert (m' = m) by congruence. subst. split; congruence. Qed.

Lemma own_at l me ml lm i : rl_space l = sp -> GoodList sp es ml -> Covers l me ml -> Own sp es l me ml lm i -> exists k m B, At ml k m lm B /\ InBox d i B /\ InBox d i (r_box (m_req m)).
Proof.
  intros Hl HG HC (n & x & m & E1 & E2 & E3 & E4). destruct (map_at ml _ m HG E3) as (lm' & B & A). exists (t_mapNo x), m, B.
  assert (lm' = lm) by (pose proof (at_lm _ _ _ _ _ A); congruence). subst lm'. split; [exact A|].
  destruct (cv_in _ _ _ HC n x E1) as (m' & C1 & C2). assert (m' = m) by congruence. subst m'. rewrite Hl in C2.
  assert (InBox d i (r_box (m_req m))) by (apply C2; exact E2). split; auto. apply (at_req _ _ _ _ _ A). auto.
Qed.

Lemma own_same l me ml lm i j : rl_space l = sp -> GoodList sp es ml -> Covers l me ml -> Own sp es l me ml lm i -> SameIndex d i j -> Own sp es l me ml lm j /\ ad lm i = ad lm j.
Proof.
  intros Hl HG HC HO HS. destruct (own_at l me ml lm i Hl HG HC HO) as (k & m & B & A & A1 & A2). split.
  - destruct HO as (n & x & m' & E1 & E2 & E3 & E4). exists n, x, m'. split; auto. split; auto. apply (in_same d Hd _ i j); auto.
  - apply (ad_same sp es Hd lm B i j (at_view _ _ _ _ _ A) A1 HS).
Qed.

Lemma own_own l me ml lm lm' i j : rl_space l = sp -> GoodList sp es ml -> Covers l me ml -> Own sp es l me ml lm i -> Own sp es l me ml lm' j ->
  SameIndex d i j /\ ad lm i = ad lm' j \/ Away (ad lm i) es (ad lm' j) es.
Proof.
  intros Hl HG HC H1 H2. destruct (own_at l me ml lm i Hl HG HC H1) as (k & m & B & A & A1 & A2). destruct (own_at l me ml lm' j Hl HG HC H2) as (k' & m' & B' & A' & A1' & A2').
  destruct (Z.eq_dec k k') as [<-|Hn].
  - destruct (at_fun _ _ _ _ _ _ _ _ A A') as [-> ->]. destruct (samei_dec d i j) as [Hs|Hs].
    + left. split; auto. apply (own_same l me ml lm i j); auto.
    + right. apply (ad_away sp es Hd lm B i j (at_view _ _ _ _ _ A)); auto. apply (at_req _ _ _ _ _ A). exact A2'.
  - right. pose proof (gl_away _ _ _ HG k k' m m' Hn (at_map _ _ _ _ _ A) (at_map _ _ _ _ _ A')) as W.
    pose proof (at_block _ _ _ _ _ A i A1). pose proof (at_block _ _ _ _ _ A' j A1'). unfold Away in *. lia.
Qed.
End Lists.

Section Proc.
  Variable dc : dcont.
  Let sp := dc_space dc.
  Let es := dc_es dc.
  Let d := sp_dims sp.
  Hypothesis Hd : valid_dims d.
  Hypothesis Hes : 0 < es.
  Variables F F' T : mlist.
  Variables fl tl : rlist.
  Variable me : Z.
  Hypothesis Hfl : rl_space fl = sp.
  Hypothesis Htl : rl_space tl = sp.
  Hypothesis HGF : GoodList sp es F.
  Hypothesis HGT : GoodList sp es T.
  Hypothesis HCF : Covers fl me F.
  Hypothesis HCT : Covers tl me T.
  Hypothesis HOld : Old (Some F) (Some F').
  Hypothesis Place : forall k m, aread (ml_maps T) k = Ok m ->
    (exists j g, aread (ml_maps F') j = Ok g /\ m_reused g = k /\ SamePlace sp es T F k j) \/
    (forall j f, aread (ml_maps F) j = Ok f -> Away (m_start m) (m_cap m) (m_start f) (m_cap f)).
  Hypothesis Reused : forall j g, aread (ml_maps F') j = Ok g -> 0 <= m_reused g -> SamePlace sp es T F (m_reused g) j.

  (* memory of an old map used by a new one *)
  Lemma same_place k j mt lt Bt mf lf Bf : At sp es T k mt lt Bt -> At sp es F j mf lf Bf -> SamePlace sp es T F k j ->
    m_start mt = m_start mf /\ m_cap mt = m_cap mf /\ SubBox d (r_box (m_req mt)) Bf /\ forall i, InBox d i (r_box (m_req mt)) -> ad lt i = ad lf i.
  Proof.
    intros AT AF (mt' & mf' & lt' & lf' & Bt' & Bf' & Nt & Nf & B1 & B2 & E1 & E2 & E3 & E4).
    assert (mt' = mt) by (pose proof (bk_at _ _ _ _ _ _ _ _ B1); pose proof (at_map _ _ _ _ _ _ _ AT); congruence). subst mt'.
    assert (mf' = mf) by (pose proof (bk_at _ _ _ _ _ _ _ _ B2); pose proof (at_map _ _ _ _ _ _ _ AF); congruence). subst mf'.
    assert (lt' = lt) by (pose proof (bk_lm _ _ _ _ _ _ _ _ B1); pose proof (at_lm _ _ _ _ _ _ _ AT); congruence). subst lt'.
    assert (lf' = lf) by (pose proof (bk_lm _ _ _ _ _ _ _ _ B2); pose proof (at_lm _ _ _ _ _ _ _ AF); congruence). subst lf'.
    assert (EB : Bf' = Bf).
    { destruct (at_good _ _ _ _ _ _ _ AF) as (n & G & _). destruct (bk_good _ _ _ _ _ _ _ _ B2) as (_ & S1 & _). destruct G as (_ & S2 & _). exact (section_unique _ _ _ _ S1 S2). }
    subst Bf'. split; [auto|]. split; [auto|]. split; [exact E3|].
    intros i Hi. destruct (E4 i Hi) as (a & A1 & A2 & _). rewrite (addr_ad _ _ _ A1), (addr_ad _ _ _ A2). reflexivity.
  Qed.

  Lemma place_away k mt lt Bt j mf lf Bf : At sp es T k mt lt Bt -> At sp es F j mf lf Bf ->
    SamePlace sp es T F k j /\ (exists g, aread (ml_maps F') j = Ok g /\ m_reused g = k) \/ Away (m_start mt) (m_cap mt) (m_start mf) (m_cap mf).
  Proof.
    intros AT AF. destruct (Place k mt (at_map _ _ _ _ _ _ _ AT)) as [(j' & g & P1 & P2 & P3)|P]; [|right; apply (P j); apply (at_map _ _ _ _ _ _ _ AF)].
    destruct (Z.eq_dec j j') as [<-|Hn]; [left; split; [auto|eauto]|]. right.
    assert (Hj : exists f, aread (ml_maps F) j' = Ok f) by (destruct P3 as (x1 & x2 & x3 & x4 & x5 & x6 & x7 & x8 & _ & P4 & _); exists x2; apply (bk_at _ _ _ _ _ _ _ _ P4)).
    destruct Hj as (f & Hj). destruct (map_at sp es Hd F j' f HGF Hj) as (lf' & Bf' & AF').
    destruct (same_place k j' mt lt Bt f lf' Bf' AT AF' P3) as (Q1 & Q2 & _). rewrite Q1, Q2. apply (gl_away _ _ _ HGF j' j); auto. apply (at_map _ _ _ _ _ _ _ AF).
  Qed.

  Lemma own_sd f t i j : Own sp es fl me F f i -> Own sp es tl me T t j -> SameIndex d i j /\ ad f i = ad t j \/ Away (ad f i) es (ad t j) es.
  Proof.
    intros H1 H2. destruct (own_at sp es Hd fl me F f i Hfl HGF HCF H1) as (k & m & B & A & A1 & A2). destruct (own_at sp es Hd tl me T t j Htl HGT HCT H2) as (k' & m' & B' & A' & A1' & A2').
    destruct (place_away k' m' t B' k m f B A' A) as [[SP _]|W].
    - destruct (same_place k' k m' t B' m f B A' A SP) as (_ & _ & E1 & E2). rewrite (E2 j A2'). destruct (samei_dec d i j) as [Hs|Hs].
      + left. split; auto. apply (own_same sp es Hd fl me F f i j); auto.
      + right. apply (ad_away sp es Hd f B i j (at_view _ _ _ _ _ _ _ A)); auto.
    - right. pose proof (at_block _ _ _ _ _ _ _ A i A1). pose proof (at_block _ _ _ _ _ _ _ A' j A1'). unfold Away in *. lia.
  Qed.

  Lemma same_extent lm B : (exists n, GoodMap sp lm B n) -> lm_sec lm = 0 -> SameExtent d (lm_layout lm) B.
  Proof. intros (n & _ & S & _) E b Hb. rewrite E in S. rewrite (section_unique _ _ _ _ Hb S). split; auto. Qed.

  Lemma copy_nd gen op b mm f t lf lt Bf Bt :
    lo_box op = b -> NonEmpty d b -> vol d b < two64 ->
    At sp es F (lo_fromMapNo op) f lf Bf -> At sp es T (lo_toMapNo op) t lt Bt ->
    SubBox d b (r_box (m_req f)) -> SubBox d b (r_box (m_req t)) ->
    (gen = true \/ lo_fromMapNo op = 0 /\ lo_toMapNo op = 0) ->
    exists mm', copy_map gen dc T F' mm op = Ok mm' /\ Moved d es b lf lt mm mm mm'.
  Proof.
    intros Hb Hn Hv AF AT SF ST Hg. pose proof (at_map _ _ _ _ _ _ _ AF) as Hf. pose proof (at_map _ _ _ _ _ _ _ AT) as Ht.
    destruct (old_map dc F F' HOld _ _ Hf) as (f' & Hf' & EL & EB & ES & EC & EN).
    pose proof Hf as Hfi. pose proof Ht as Hti. apply aread_iff in Hfi, Hti. destruct Hfi as [Hf0 Hfi]. destruct Hti as [Ht0 Hti].
    assert (Lt : (Z.to_nat (lo_toMapNo op) < length (ml_maps T))%nat) by (apply nth_error_Some; congruence).
    assert (Lf : (Z.to_nat (lo_fromMapNo op) < length (ml_maps F'))%nat) by (apply aread_iff in Hf'; apply nth_error_Some; destruct Hf'; congruence).
    assert (HI : InBox d (b_from b) b) by (apply ne_from; auto).
    unfold copy_map. rewrite Hf'. replace (lo_fromMapNo op <? Z.of_nat (length (ml_maps F'))) with true by lia.
    replace (lo_toMapNo op <? Z.of_nat (length (ml_maps T))) with true by lia. rewrite Ht. cbn [obind cassert].
    pose proof (at_count _ _ _ _ _ _ _ AT) as CT. pose proof (at_base _ _ _ _ _ _ _ AF) as BFn. replace (m_count t =? 0) with false by lia. rewrite EB. replace (m_base f =? 0) with false by lia. fold es.
    change (dc_es dc) with es in EL. rewrite EL, (at_lm _ _ _ _ _ _ _ AF), (at_lm _ _ _ _ _ _ _ AT). cbn [obind]. rewrite Hb.
    assert (VF : forall i, InBox d i b -> InBox d i Bf) by (intros i Hi; apply (at_req _ _ _ _ _ _ _ AF), SF, Hi).
    assert (VT : forall i, InBox d i b -> InBox d i Bt) by (intros i Hi; apply (at_req _ _ _ _ _ _ _ AT), ST, Hi).
    destruct (view_adr sp es Hd lf Bf (at_view _ _ _ _ _ _ _ AF)) as (Bf2 & nf & GF & SBF & OF).
    destruct (view_adr sp es Hd lt Bt (at_view _ _ _ _ _ _ _ AT)) as (Bt2 & nt & GT & SBT & OT).
    destruct (at_view _ _ _ _ _ _ _ AF) as [EsF _ _]. destruct (at_view _ _ _ _ _ _ _ AT) as [EsT _ _].
    destruct (m_reused f' =? lo_toMapNo op) eqn:ER.
    - assert (Hr0 : m_reused f' = lo_toMapNo op) by lia. pose proof (Reused _ _ Hf' ltac:(lia)) as SP. rewrite Hr0 in SP.
      destruct (same_place _ _ t lt Bt f lf Bf AT AF SP) as (_ & _ & _ & Q).
      destruct (OF _ (VF _ HI)) as [O1 O2]. destruct (OT _ (VT _ HI)) as [O3 O4].
      rewrite EC, (at_msec _ _ _ _ _ _ _ AF), <- (at_sec _ _ _ _ _ _ _ AF), O1, (at_msec _ _ _ _ _ _ _ AT), <- (at_sec _ _ _ _ _ _ _ AT), O3. cbn [obind].
      pose proof (Q _ (ST _ HI)) as QA. rewrite O2, O4 in QA. unfold adr in QA. fold d in QA. rewrite EsF, EsT, (at_start _ _ _ _ _ _ _ AF), (at_start _ _ _ _ _ _ _ AT) in QA.
      rewrite ES. fold d. replace (m_start f + boff d Bf2 (b_from b) * es =? m_start t + boff d Bt2 (b_from b) * es) with true by lia. cbn [cassert].
      exists mm. split; auto. split; auto. intros i Hi. rewrite (Q i (ST _ Hi)). auto.
    - assert (HA : Away (m_start t) (m_cap t) (m_start f) (m_cap f)).
      { destruct (place_away _ t lt Bt _ f lf Bf AT AF) as [[_ (g & G1 & G2)]|W]; auto. exfalso. rewrite G1 in Hf'. injection Hf' as <-. lia. }
      destruct (at_good _ _ _ _ _ _ _ AF) as (NF & GF' & CF'). destruct (at_good _ _ _ _ _ _ _ AT) as (NT & GT' & CT').
      assert (HC : exists m2, data_copy gen sp b lf lt mm = Ok m2 /\ Copied d lf lt b mm m2).
      { destruct (C36_copy_agree sp lf lt Bf Bt NF NT b (vol d b) mm) as (m2 & E2 & C2 & X); auto.
        - congruence.
        - apply vol_count; auto.
        - rewrite EsF, (at_start _ _ _ _ _ _ _ AF), (at_start _ _ _ _ _ _ _ AT). unfold Away in *. lia.
        - unfold data_copy. destruct gen; [eauto|]. destruct Hg as [Hg|[Hg1 Hg2]]; [discriminate|]. destruct X as (m1 & E1 & C1 & _).
          + apply same_extent; [eauto|]. rewrite (at_sec _ _ _ _ _ _ _ AF). auto.
          + apply same_extent; [eauto|]. rewrite (at_sec _ _ _ _ _ _ _ AT). auto.
          + eauto. }
      destruct HC as (m2 & E2 & C2 & C3). exists m2. split; [exact E2|]. split.
      + intros i Hi. destruct (OF _ (VF _ Hi)) as [O1 O2]. destruct (OT _ (VT _ Hi)) as [O3 O4].
        destruct (C2 i (mread mm (ad lf i) (Z.to_nat es)) Hi) as (p & P1 & P2).
        * exists (ad lf i). rewrite EsF. split; auto. exists (boff d Bf2 i). split; auto.
        * rewrite <- (addr_ad _ _ _ P1), EsT in P2. unfold rdb, bytes. symmetry. exact P2.
      + intros y Hy. apply C3. intros (i & p & Hi & Hp & Hr). apply (Hy i Hi). unfold cell. rewrite (addr_ad _ _ _ Hp). rewrite EsT in Hr. exact Hr.
  Qed.
End Proc.
