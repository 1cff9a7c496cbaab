(* A 1d container over its life: elements of a process, initialisation, switches. *)
From Coq Require Import ZArith List Bool Lia ZifyBool ZifyNat Sorted Permutation.
From Verif Require Import Base ListFacts Model_Space Model_Mem Model_Type Model_RangeList Model_Layout Model_Partitioner Model_Group Model_Transition Model_Data Model_Action Model_ActionTrans Model_ActionExec Model_ActionExec2 Model_Net Model_Switch Model_Container.
From Verif Require Import Spec_Space Spec_RangeList Spec_Partitioner Spec_Type Spec_Layout Spec_Data Spec_Transition Spec_Action Spec_ActionTrans Spec_Async Spec_Reduce Spec_Net Spec_Switch Spec_Container.
From Verif Require Import Proof_RangeList Proof_Partitioner2 Proof_RangeList4 Proof_RangeList5 Proof_Trans1 Proof_Trans6 Proof_Layout Proof_Layout2 Proof_Data Proof_Data3 Proof_Data4 Proof_Data6 Proof_Type Proof_Comb3 Proof_Group Proof_Net Proof_Switch1 Proof_Switch8 Proof_Switch9 Proof_Switch10.
From Verif Require Import Prop_Data Prop_Switch.
Import ListNotations.
Open Scope Z_scope.

Lemma inbox1 gi b : InBox 1 (mkIdx gi 0 0) b <-> i0 (b_from b) <= gi < i0 (b_to b).
Proof. unfold InBox. simpl. intuition lia. Qed.

Section One.
  Variable d : dcont.
  Let sp := dc_space d.
  Let es := dc_es d.
  Hypothesis Hes : 0 < es.
  Hypothesis Hdim : sp_dims sp = 1%nat.
  Variables (l : rlist) (me : Z) (ml : mlist).
  Hypothesis Hsp : rl_space l = sp.
  Hypothesis Fz : FrozenList l.
  Hypothesis OD : OwnDisjoint l.
  Hypothesis HG : GoodList sp es ml.
  Hypothesis HC : Covers l me ml.

  Definition EA (gi a : Z) : Prop := exists n x m, rl_tidrange l me n = Ok (Some x) /\ InBox 1 (mkIdx gi 0 0) (t_box x) /\ aread (ml_maps ml) (t_mapNo x) = Ok m /\
    i0 (b_from (r_box (m_req m))) <= gi < i0 (b_to (r_box (m_req m))) /\ a = m_base m + (gi - i0 (b_from (r_box (m_req m)))) * es.

  Lemma vd : valid_dims (sp_dims sp). Proof. rewrite Hdim. left. auto. Qed.

  Lemma map_1d k m : aread (ml_maps ml) k = Ok m -> get_map_1d (Some ml) k = Ok (m_base m, i0 (b_to (r_box (m_req m))) - i0 (b_from (r_box (m_req m)))) /\
    maplocal2global_1d d (Some ml) k 0 = Ok (i0 (b_from (r_box (m_req m)))) /\ m_base m <> 0 /\ m_count m > 0.
  Proof.
    intros Hk. destruct (map_facts sp es ml vd HG k m Hk) as (ly & B & F1 & F2 & F3 & F4 & F5 & F6 & F7 & F8 & F9 & F10 & F11 & F12).
    assert (Ec : m_count m = i0 (b_to (r_box (m_req m))) - i0 (b_from (r_box (m_req m)))).
    { rewrite F9, Hdim. unfold vol, w0. simpl. lia. }
    assert (m_count m > 0). { rewrite Hdim in F8. destruct F8 as (i & [F8 _]). lia. }
    conjs; auto.
    - unfold get_map_1d. rewrite (get_map_ok sp es ml vd HG k m Hk). cbn [obind]. rewrite Ec. reflexivity.
    - unfold maplocal2global_1d. fold sp. rewrite Hdim. cbn [Nat.eqb cassert]. rewrite Hk. cbn [obind]. replace (0 <? m_count m) with true by lia. cbn [cassert]. f_equal. lia.
  Qed.

  Lemma elem_ea gi a : ElemAt d l me ml gi a <-> EA gi a.
  Proof.
    split.
    - intros (n & x & base & count & lo & A1 & A2 & A3 & A4 & A5 & A6). destruct (cv_in _ _ _ HC n x A1) as (m & Hm & _).
      destruct (map_1d _ m Hm) as (B1 & B2 & _). rewrite B1 in A3. rewrite B2 in A4. injection A3 as <- <-. injection A4 as <-.
      exists n, x, m. conjs; auto; lia.
    - intros (n & x & m & A1 & A2 & A3 & A4 & A5). destruct (map_1d _ m A3) as (B1 & B2 & _). do 5 eexists. conjs; try eassumption; lia.
  Qed.
  Lemma ea_ex n x gi : rl_tidrange l me n = Ok (Some x) -> InBox 1 (mkIdx gi 0 0) (t_box x) ->
    exists m, aread (ml_maps ml) (t_mapNo x) = Ok m /\ EA gi (m_base m + (gi - i0 (b_from (r_box (m_req m)))) * es) /\
      i0 (b_from (r_box (m_req m))) <= gi.
  Proof.
    intros R I. destruct (cv_in _ _ _ HC n x R) as (m & Hm & Hs). rewrite Hsp, Hdim in Hs. assert (J := Hs _ I). apply inbox1 in J.
    exists m. conjs; auto; [|lia]. exists n, x, m. conjs; auto; lia.
  Qed.
  Lemma ea_fun gi a b : EA gi a -> EA gi b -> a = b.
  Proof.
    intros (n & x & m & A1 & A2 & A3 & A4 & ->) (n' & x' & m' & B1 & B2 & B3 & B4 & ->).
    assert (n = n') by (apply (OD me n n' x x' (mkIdx gi 0 0)); auto; rewrite Hsp, Hdim; auto). subst n'. rewrite A1 in B1. injection B1 as <-. rewrite A3 in B3. injection B3 as <-. reflexivity.
  Qed.
  Lemma ea_addr gi n x m : rl_tidrange l me n = Ok (Some x) -> aread (ml_maps ml) (t_mapNo x) = Ok m ->
    i0 (b_from (r_box (m_req m))) <= gi < i0 (b_to (r_box (m_req m))) ->
    exists lm B N, Backed sp es ml (t_mapNo x) m lm B N /\ AddrOf lm (mkIdx gi 0 0) (m_base m + (gi - i0 (b_from (r_box (m_req m)))) * es).
  Proof.
    intros R Hm Hg. destruct (C46_map_1d sp es ml (t_mapNo x) m Hdim Hes HG Hm) as (base & count & lm & B & N & E & BK & K).
    destruct (map_1d _ m Hm) as (E' & _). rewrite E' in E. injection E as <- _. exists lm, B, N. split; auto. destruct K as [_ K].
    apply (K (mkIdx gi 0 0)). apply inbox1. auto.
  Qed.
  Lemma ea_away gi gj a b : EA gi a -> EA gj b -> gi <> gj -> Away a es b es.
  Proof.
    intros (n & x & m & A1 & A2 & A3 & A4 & ->) (n' & x' & m' & B1 & B2 & B3 & B4 & ->) Hne.
    destruct (ea_addr gi n x m A1 A3 A4) as (lm & B & N & K1 & K2). destruct (ea_addr gj n' x' m' B1 B3 B4) as (lm' & B' & N' & K3 & K4).
    refine (proj1 (C46_distinct sp es ml _ _ m m' lm lm' B N B' N' (mkIdx gi 0 0) (mkIdx gj 0 0) _ _ vd Hes HG K1 K3 _ _ _ K2 K4)).
    - rewrite Hdim. apply inbox1. auto.
    - rewrite Hdim. apply inbox1. auto.
    - right. rewrite Hdim. intros [H _]. simpl in H. lia.
  Qed.
  Lemma ea_owns gi : OwnsZ l me gi <-> exists a, EA gi a.
  Proof.
    split.
    - intros (n & x & R & I). rewrite Hsp, Hdim in I. destruct (ea_ex n x gi R I) as (m & _ & H & _). eauto.
    - intros (a & n & x & m & A1 & A2 & _). exists n, x. rewrite Hsp, Hdim. auto.
  Qed.

  (* a write of one element *)
  Lemma write_same m a v : Z.of_nat (length v) = es -> rdb (mwrite m a v) a es = v.
  Proof.
    intros H. transitivity (element es 0 v); [|apply element_whole; lia].
    assert (E := mread_element m a (Z.to_nat es) 0 v). rewrite Z2Nat.id in E by lia. rewrite Z.add_0_r in E.
    rewrite <- E by lia. reflexivity.
  Qed.
  Lemma write_other m a v b : Z.of_nat (length v) = es -> Away a es b es -> rdb (mwrite m a v) b es = rdb m b es.
  Proof. intros H HA. apply rdb_ext. intros x Hx. apply mwrite_keep. rewrite H. unfold region, Away in *. lia. Qed.

  (* initialisation *)
  Variable T : dtype.
  Variable ini : mem -> Z -> Z -> redop -> outcome mem.
  Variable red : redop.
  Hypothesis HE : Elementwise T es red.
  Hypothesis HI : InitBy T ini red.
  Hypothesis Hint : forall x, In x (rl_trs l) -> - 2 ^ 31 <= i0 (b_from (t_box x)) /\ i0 (b_to (t_box x)) < 2 ^ 31.
  Hypothesis NE : NoEmpty l.
  Definition iop (y : Z * trg) : initTOp := mkInitT (t_box (snd y)) (fst y) (t_mapNo (snd y)) red.

  Lemma int32_id z : - 2 ^ 31 <= z < 2 ^ 31 -> int32 z = z.
  Proof. intros H. unfold int32. rewrite Z.mod_small by lia. lia. Qed.
  Lemma init_one y m : rl_tidrange l me (fst y) = Ok (Some (snd y)) -> exists m', init_map d ini ml m (iop y) = Ok m' /\
    (forall gi a, InBox 1 (mkIdx gi 0 0) (t_box (snd y)) -> EA gi a -> rdb m' a es = dt_init T red 1) /\
    (forall gi a, ~ InBox 1 (mkIdx gi 0 0) (t_box (snd y)) -> EA gi a -> rdb m' a es = rdb m a es).
  Proof.
    intros R. destruct y as [n x]. cbn [fst snd] in *. assert (Hx := proj1 (frozen_range_in _ _ _ _ Fz R)). destruct (Hint x Hx) as [I1 I2].
    assert (Hne := NE me n x R). rewrite Hsp, Hdim in Hne. assert (Hlt : i0 (b_from (t_box x)) < i0 (b_to (t_box x))) by (destruct Hne as (i & [H _]); lia).
    set (f := i0 (b_from (t_box x))) in *. set (t := i0 (b_to (t_box x))) in *.
    destruct (ea_ex n x f R) as (k & Hk & HEA & Hlo); [apply inbox1; fold f t; lia|].
    destruct (map_1d _ k Hk) as (_ & _ & Hb & Hc).
    set (A := m_base k + (f - i0 (b_from (r_box (m_req k)))) * es) in *.
    destruct (HI m A (t - f) ltac:(lia)) as (m' & E & Em). exists m'. split; [|split].
    - unfold init_map, iop. cbn [it_mapNo it_box it_redOp fst snd]. rewrite Hk. cbn [obind].
      assert (Hlen : t_mapNo x <? Z.of_nat (length (ml_maps ml)) = true).
      { apply aread_iff in Hk. destruct Hk as [K0 K1]. assert (Z.to_nat (t_mapNo x) < length (ml_maps ml))%nat by (apply nth_error_Some; congruence). lia. }
      rewrite Hlen. cbn [cassert]. replace (m_count k =? 0) with false by lia. replace (m_base k =? 0) with false by lia. cbn [negb cassert].
      fold sp es. rewrite Hdim. cbn [Nat.eqb cassert]. fold f t. rewrite !int32_id by lia.
      replace (f >=? i0 (b_from (r_box (m_req k)))) with true by lia. cbn [cassert]. exact E.
    - intros gi a I H. assert (I' := I). apply inbox1 in I'. fold f t in I'. destruct (ea_ex n x gi R I) as (k' & Hk' & H' & _). rewrite Hk in Hk'. injection Hk' as <-.
      rewrite (ea_fun _ _ _ H H'). rewrite (rdb_ext _ (mwrite m A (dt_init T red (t - f)))) by (intros; apply Em).
      assert (L := proj1 (ew_size _ _ _ HE (t - f) ltac:(lia))).
      replace (m_base k + (gi - i0 (b_from (r_box (m_req k)))) * es) with (A + (gi - f) * es) by (unfold A; ring).
      assert (X := mread_element m A (Z.to_nat es) (gi - f) (dt_init T red (t - f))). rewrite Z2Nat.id in X by lia.
      unfold rdb, bytes. rewrite X by nia. apply (ew_init _ _ _ HE). lia.
    - intros gi a I H. rewrite (rdb_ext _ (mwrite m A (dt_init T red (t - f)))) by (intros; apply Em).
      apply rdb_ext. intros b Hb'. apply mwrite_keep. rewrite (proj1 (ew_size _ _ _ HE (t - f) ltac:(lia))). intros Hr.
      destruct (ar_cell (m_base k - i0 (b_from (r_box (m_req k))) * es) f t es b Hes) as (z & Z1 & Z2).
      { unfold region, A in *. lia. }
      assert (Iz : InBox 1 (mkIdx z 0 0) (t_box x)) by (apply inbox1; fold f t; lia).
      destruct (ea_ex n x z R Iz) as (k' & Hk' & H' & _). rewrite Hk in Hk'. injection Hk' as <-.
      assert (gi <> z) by (intros ->; auto). assert (W := ea_away _ _ _ _ H H' H0). unfold Away, region in *. lia.
  Qed.
  Lemma init_all L : (forall y, In y L -> rl_tidrange l me (fst y) = Ok (Some (snd y))) -> forall m, exists m', ofold (init_map d ini ml) (map iop L) m = Ok m' /\
    (forall gi a y, In y L -> InBox 1 (mkIdx gi 0 0) (t_box (snd y)) -> EA gi a -> rdb m' a es = dt_init T red 1) /\
    (forall gi a, (forall y, In y L -> ~ InBox 1 (mkIdx gi 0 0) (t_box (snd y))) -> EA gi a -> rdb m' a es = rdb m a es).
  Proof.
    induction L as [|y L IH]; intros HL m.
    - exists m. conjs; auto. intros gi a y [].
    - destruct (init_one y m (HL y (or_introl eq_refl))) as (m1 & E1 & A1 & B1). destruct (IH (fun z Hz => HL z (or_intror Hz)) m1) as (m' & E2 & A2 & B2).
      exists m'. split; [cbn [map ofold]; rewrite E1; cbn [obind]; exact E2|]. split.
      + intros gi a z [<-|Hz] I H; [|eapply A2; eauto].
        assert (D : (exists z, In z L /\ InBox 1 (mkIdx gi 0 0) (t_box (snd z))) \/ (forall z, In z L -> ~ InBox 1 (mkIdx gi 0 0) (t_box (snd z)))).
        { clear - L. induction L as [|w L [(z & Z1 & Z2)|IH]]; [right; intros z []|left; exists z; simpl; auto|].
          destruct (Z_le_dec (i0 (b_from (t_box (snd w)))) gi); [destruct (Z_lt_dec gi (i0 (b_to (t_box (snd w)))))|].
          - left. exists w. split; [simpl; auto|]. apply inbox1. lia.
          - right. intros z [<-|Hz]; auto. rewrite inbox1. lia.
          - right. intros z [<-|Hz]; auto. rewrite inbox1. lia. }
        destruct D as [(z & Z1 & Z2)|D]; [eapply A2; eauto|]. rewrite (B2 gi a D H). eapply A1; eauto.
      + intros gi a D H. rewrite (B2 gi a); [|intros z Hz; apply D; right; auto|auto]. apply (B1 gi a); auto. apply D. left. auto.
  Qed.
End One.
