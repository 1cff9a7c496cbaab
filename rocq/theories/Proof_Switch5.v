(* Where the elements of a 1d container are before and after a switch. *)
From Coq Require Import ZArith List Bool Lia ZifyBool ZifyNat Sorted Permutation.
From Verif Require Import Base Model_Space Model_Mem Model_RangeList Model_Layout Model_Partitioner Model_Group Model_Transition Model_Data.
From Verif Require Import Spec_Space Spec_RangeList Spec_Partitioner Spec_Layout Spec_Data Spec_Transition.
From Verif Require Import Proof_Space Proof_RangeList5 Proof_Layout Proof_Layout2 Proof_Layout4 Proof_Layout6 Proof_Data Proof_Data2 Proof_Data3 Proof_Data4 Proof_Data5 Prop_Layout Proof_Data6.
Import ListNotations.
Open Scope Z_scope.

(* address of index 0 of a mapping (it need not have it) *)
Definition org (es : Z) (m : mapping) : Z := m_base m - i0 (b_from (r_box (m_req m))) * es.

Section Adr.
  Variable sp : space.
  Variable es : Z.
  Hypothesis Hdim : sp_dims sp = 1%nat.
  Hypothesis Hes : 0 < es.
  Lemma vd1 : valid_dims (sp_dims sp). Proof. rewrite Hdim. left. auto. Qed.

  Lemma inbox1 i b : InBox (sp_dims sp) i b <-> i0 (b_from b) <= i0 i < i0 (b_to b).
  Proof. rewrite Hdim. unfold InBox. split; [tauto|]. intros H. repeat split; try tauto; intros; lia. Qed.

  Lemma backed_addr ml k m lm B N i : Backed sp es ml k m lm B N -> i0 (b_from B) <= i0 i < i0 (b_to B) -> forall a, AddrOf lm i a <-> a = org es m + i0 i * es.
  Proof.
    intros BK Hi. destruct BK as [K1 K2 (G1 & G2 & G3 & G4 & G5 & G6) K4 K5 K6 K7 K8 (o & O1 & O2)].
    assert (Elm : lm_start lm = m_start m /\ lm_es lm = es /\ lm_req lm = m_req m).
    { unfold lmap_of in K2. destruct (lay_of ml m); [|discriminate]. injection K2 as <-. auto. }
    destruct Elm as (L1 & L2 & L3). rewrite L3 in *.
    assert (Hf : InBox (sp_dims sp) (b_from (r_box (m_req m))) B).
    { apply G6. destruct K4 as (j & Hj). apply inbox1. apply inbox1 in Hj. lia. }
    rewrite (offset_ok sp _ _ B _ vd1 G1 G2 Hf) in O1. injection O1 as O1.
    assert (Hi' : InBox (sp_dims sp) i B) by (apply inbox1; auto).
    pose proof (offset_ok sp _ _ B _ vd1 G1 G2 Hi') as Ho.
    assert (Eb : forall j, boff (sp_dims sp) B j = i0 j - i0 (b_from B)) by (intros j; rewrite Hdim; unfold boff; simpl; ring).
    rewrite Eb in *. subst o. rewrite L1, L2 in *. unfold org. intros a. split.
    - intros (o & E1 & E2). rewrite Ho in E1. injection E1 as <-. rewrite L1, L2 in E2. rewrite E2, O2. ring.
    - intros ->. exists (i0 i - i0 (b_from B)). split; auto. rewrite L1, L2, O2. ring.
  Qed.

  Lemma map_space ml k m : GoodList sp es ml -> aread (ml_maps ml) k = Ok m ->
    m_base m <> 0 /\ i0 (b_from (r_box (m_req m))) < i0 (b_to (r_box (m_req m))) /\ m_count m <> 0 /\
    forall z, i0 (b_from (r_box (m_req m))) <= z < i0 (b_to (r_box (m_req m))) -> m_start m <= org es m + z * es /\ org es m + z * es + es <= m_start m + m_cap m.
  Proof.
    intros HG Hk. destruct (map_facts sp es ml vd1 HG k m Hk) as (ly & B & F1 & F2 & F3 & F4 & F5 & F6 & F7 & F8 & F9 & F10 & F11 & F12).
    destruct F8 as (j & Hj). apply inbox1 in Hj.
    assert (Eb : forall j, boff (sp_dims sp) B j = i0 j - i0 (b_from B)) by (intros i; rewrite Hdim; unfold boff; simpl; ring).
    rewrite Eb in F10. assert (Ev : forall b, vol (sp_dims sp) b = i0 (b_to b) - i0 (b_from b)) by (intros b; rewrite Hdim; unfold vol, w0; simpl; ring).
    rewrite Ev in *. split; auto. split; [lia|]. split; [lia|]. intros z Hz.
    assert (HB : InBox (sp_dims sp) (mkIdx z 0 0) B) by (apply F7, inbox1; auto). apply inbox1 in HB. cbn in HB. unfold org. nia.
  Qed.

  Lemma same_org t f k j mt mf : SamePlace sp es t f k j -> aread (ml_maps t) k = Ok mt -> aread (ml_maps f) j = Ok mf ->
    org es mt = org es mf /\ m_start mt = m_start mf /\ m_cap mt = m_cap mf.
  Proof.
    intros (mt' & mf' & lt & lf & Bt & Bf & Nt & Nf & B1 & B2 & E1 & E2 & HS & HA) Ht Hf.
    assert (mt' = mt) by (pose proof (bk_at _ _ _ _ _ _ _ _ B1); congruence). assert (mf' = mf) by (pose proof (bk_at _ _ _ _ _ _ _ _ B2); congruence). subst.
    split; auto. pose proof (bk_ne _ _ _ _ _ _ _ _ B1) as (i & Hi). destruct (HA i Hi) as (a & A1 & A2 & _).
    pose proof (HS i Hi) as Hb. apply inbox1 in Hb. apply (backed_addr _ _ _ _ _ _ _ B2 Hb) in A2.
    assert (Hb' : InBox (sp_dims sp) i Bt).
    { destruct (bk_good _ _ _ _ _ _ _ _ B1) as (_ & _ & _ & _ & _ & G6). apply G6.
      assert (L3 : lm_req lt = m_req mt) by (pose proof (bk_lm _ _ _ _ _ _ _ _ B1) as K2; unfold lmap_of in K2; destruct (lay_of t mt); [injection K2 as <-; auto|discriminate]).
      rewrite L3. auto. }
    apply inbox1 in Hb'. apply (backed_addr _ _ _ _ _ _ _ B1 Hb') in A1. lia.
  Qed.
End Adr.
