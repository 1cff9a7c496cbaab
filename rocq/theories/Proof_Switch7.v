(* Local copies of a 1d transition, for one process. *)
From Coq Require Import ZArith List Bool Lia ZifyBool ZifyNat Sorted Permutation.
From Verif Require Import Base Model_Space Model_Mem Model_RangeList Model_Layout Model_Partitioner Model_Group Model_Transition Model_Data Model_ActionTrans Model_ActionExec Model_Switch.
From Verif Require Import Spec_Space Spec_RangeList Spec_Partitioner Spec_Layout Spec_Data Spec_Transition Spec_ActionTrans.
From Verif Require Import Proof_Space Proof_RangeList Proof_RangeList5 Proof_Trans1 Proof_Trans2 Proof_Trans3 Proof_Layout Proof_Layout2 Proof_Layout4 Proof_Layout6 Proof_Data Proof_Data2 Proof_Data3 Proof_Data4 Prop_Layout Proof_Type Proof_Comb3 Proof_Reduce1 Proof_Switch5 Proof_Switch6.
Import ListNotations.
Open Scope Z_scope.

(* a list of copies *)
Section Copies.
  Context {Op K : Type}.
  Variable step : mem -> Op -> outcome mem.
  Variables from to n : K -> Z.
  Hypothesis n0 : forall k, 0 <= n k.
  Lemma copies_ok ops ks : Forall2 (fun op k => forall mm, exists mm', step mm op = Ok mm' /\
        (forall x, ~ region (to k) (n k) x -> mm' x = mm x) /\ rdb mm' (to k) (n k) = rdb mm (from k) (n k)) ops ks ->
    NoDup ks ->
    (forall k k', In k ks -> In k' ks -> k <> k' -> apart (region (from k) (n k)) (region (to k') (n k'))) ->
    (forall k k', In k ks -> In k' ks -> k <> k' -> apart (region (to k) (n k)) (region (to k') (n k'))) ->
    forall mm, exists mm', ofold step ops mm = Ok mm' /\
      (forall x, (forall k, In k ks -> ~ region (to k) (n k) x) -> mm' x = mm x) /\
      (forall k, In k ks -> rdb mm' (to k) (n k) = rdb mm (from k) (n k)).
  Proof.
    induction 1 as [|op k ops ks H HF IH]; intros HN S1 S2 mm.
    - exists mm. repeat split; auto. intros k [].
    - inversion HN as [|? ? Hn HN']. subst. destruct (H mm) as (m1 & E1 & K1 & V1).
      destruct (IH HN') with (mm := m1) as (m2 & E2 & K2 & V2); [intros; apply S1; auto; right; auto|intros; apply S2; auto; right; auto|].
      exists m2. cbn [ofold]. rewrite E1. cbn [obind]. split; [exact E2|]. split.
      + intros x Hx. rewrite K2 by (intros; apply Hx; right; auto). apply K1. apply Hx. left; auto.
      + intros k' [<-|Hk'].
        * rewrite <- V1. apply rdb_ext. intros x Hx. apply K2. intros k' Hk' Hr. refine (S2 k k' _ _ _ x Hx Hr); [left; auto|right; auto|congruence].
        * rewrite V2 by auto. apply rdb_ext. intros x Hx. apply K1. intros Hr. refine (S1 k' k _ _ _ x Hx Hr); [right; auto|left; auto|congruence].
  Qed.
End Copies.

Lemma rdb_two m p m' p' n : (forall j, 0 <= j < n -> m (p + j) = m' (p' + j)) -> rdb m p n = rdb m' p' n.
Proof. intros H. unfold rdb, mread. apply map_ext_in. intros k Hk. apply in_seq in Hk. unfold bytes in Hk. apply H. lia. Qed.

Lemma ar_in o i a b es x p : 0 < es -> a <= i < b -> p = o + i * es -> p <= x < p + es -> region (o + a * es) ((b - a) * es) x.
Proof. intros H1 H2 -> H3. unfold region. nia. Qed.
Lemma ar_div j es w : 0 < es -> 0 <= j < w * es -> 0 <= j / es < w.
Proof. intros. split; [apply Z.div_pos; lia|apply Z.div_lt_upper_bound; lia]. Qed.
Lemma ar_eq o a j es : 0 < es -> o + a * es + j = o + (a + j / es) * es + Z.of_nat (Z.to_nat (j mod es)).
Proof. intros H. pose proof (Z.div_mod j es ltac:(lia)) as DM. pose proof (Z.mod_pos_bound j es ltac:(lia)) as MB. rewrite Z2Nat.id by lia. nia. Qed.

Section One.
  Variable d : dcont.
  Let sp := dc_space d.
  Let es := dc_es d.
  Hypothesis Hdim : sp_dims sp = 1%nat.
  Hypothesis Hes : 0 < es.
  Hypothesis Hwid : i0 (b_to (sp_box sp)) - i0 (b_from (sp_box sp)) < 2 ^ 31.
  Variables F F' T : mlist.
  Hypothesis HGF : GoodList sp es F.
  Hypothesis HGT : GoodList sp es T.
  Hypothesis HOld : Old (Some F) (Some F').
  Hypothesis Place : forall k m, aread (ml_maps T) k = Ok m ->
    (exists j g, aread (ml_maps F') j = Ok g /\ m_reused g = k /\ SamePlace sp es T F k j) \/
    (forall j f, aread (ml_maps F) j = Ok f -> Away (m_start m) (m_cap m) (m_start f) (m_cap f)).
  Hypothesis Reused : forall j g, aread (ml_maps F') j = Ok g -> 0 <= m_reused g -> SamePlace sp es T F (m_reused g) j.

  Lemma old_map j f : aread (ml_maps F) j = Ok f -> exists f', aread (ml_maps F') j = Ok f' /\ lmap_of es F' f' = lmap_of es F f /\
    m_base f' = m_base f /\ m_start f' = m_start f /\ m_sec f' = m_sec f /\ m_count f' = m_count f.
  Proof.
    intros Hj. destruct HOld as (H1 & H2 & H3 & H4). destruct (H4 j f Hj) as [E|(k & _ & E)].
    - exists f. split; auto. unfold lmap_of, lay_of. rewrite H2. auto.
    - exists (grab f k). split; auto. unfold lmap_of, lay_of, grab. cbn. rewrite H2. auto.
  Qed.

  Lemma copy_one gen op a b f t mm :
    lo_box op = box1 a b -> a < b -> b - a < 2 ^ 31 ->
    aread (ml_maps F) (lo_fromMapNo op) = Ok f -> aread (ml_maps T) (lo_toMapNo op) = Ok t ->
    i0 (b_from (r_box (m_req f))) <= a -> b <= i0 (b_to (r_box (m_req f))) ->
    i0 (b_from (r_box (m_req t))) <= a -> b <= i0 (b_to (r_box (m_req t))) ->
    exists mm', copy_map gen d T F' mm op = Ok mm' /\
      (forall x, ~ region (org es t + a * es) ((b - a) * es) x -> mm' x = mm x) /\
      rdb mm' (org es t + a * es) ((b - a) * es) = rdb mm (org es f + a * es) ((b - a) * es).
  Proof.
    intros Hb Hab Hsz Hf Ht F1 F2 T1 T2. destruct (old_map _ _ Hf) as (f' & Hf' & EL & EB & ES & EC & EN).
    pose proof Hf as Hfi. pose proof Ht as Hti. apply aread_iff in Hfi, Hti. destruct Hfi as [_ Hfi]. destruct Hti as [_ Hti].
    assert (Lf : (Z.to_nat (lo_fromMapNo op) < length (ml_maps F))%nat) by (apply nth_error_Some; congruence).
    assert (Lt : (Z.to_nat (lo_toMapNo op) < length (ml_maps T))%nat) by (apply nth_error_Some; congruence).
    pose proof HOld as (HO1 & HO2 & HO3 & HO4).
    destruct (gl_maps _ _ _ HGF _ _ Hf) as (_ & SF & _ & lf & BF & NF & KF).
    destruct (gl_maps _ _ _ HGT _ _ Ht) as (_ & ST & RT & lt & BT & NT & KT).
    destruct (map_space sp es Hdim Hes F _ f HGF Hf) as (M1 & M2 & M3 & M4). destruct (map_space sp es Hdim Hes T _ t HGT Ht) as (M5 & M6 & M7 & M8).
    assert (LF : lm_start lf = m_start f /\ lm_es lf = es /\ lm_req lf = m_req f /\ lm_sec lf = m_sec f).
    { pose proof (bk_lm _ _ _ _ _ _ _ _ KF) as X. unfold lmap_of in X. destruct (lay_of F f); [injection X as <-; auto|discriminate]. }
    assert (LT : lm_start lt = m_start t /\ lm_es lt = es /\ lm_req lt = m_req t /\ lm_sec lt = m_sec t).
    { pose proof (bk_lm _ _ _ _ _ _ _ _ KT) as X. unfold lmap_of in X. destruct (lay_of T t); [injection X as <-; auto|discriminate]. }
    destruct LF as (LF1 & LF2 & LF3 & LF4). destruct LT as (LT1 & LT2 & LT3 & LT4).
    assert (SBF : forall z, a <= z < b -> i0 (b_from BF) <= z < i0 (b_to BF)).
    { intros z Hz. destruct (bk_good _ _ _ _ _ _ _ _ KF) as (_ & _ & _ & _ & _ & G6). rewrite LF3 in G6.
      assert (X : InBox (sp_dims sp) (mkIdx z 0 0) BF) by (apply G6, (inbox1 sp Hdim); cbn; lia). apply (inbox1 sp Hdim) in X. cbn in X. lia. }
    assert (SBT : forall z, a <= z < b -> i0 (b_from BT) <= z < i0 (b_to BT)).
    { intros z Hz. destruct (bk_good _ _ _ _ _ _ _ _ KT) as (_ & _ & _ & _ & _ & G6). rewrite LT3 in G6.
      assert (X : InBox (sp_dims sp) (mkIdx z 0 0) BT) by (apply G6, (inbox1 sp Hdim); cbn; lia). apply (inbox1 sp Hdim) in X. cbn in X. lia. }
    assert (AF : forall i, a <= i0 i < b -> AddrOf lf i (org es f + i0 i * es)).
    { intros i Hi. apply (backed_addr sp es Hdim _ _ _ _ _ _ i KF); auto. }
    assert (AT : forall i, a <= i0 i < b -> AddrOf lt i (org es t + i0 i * es)).
    { intros i Hi. apply (backed_addr sp es Hdim _ _ _ _ _ _ i KT); auto. }
    unfold copy_map. cbn [lo_box]. rewrite Hf'. replace (lo_fromMapNo op <? Z.of_nat (length (ml_maps F'))) with true by lia.
    replace (lo_toMapNo op <? Z.of_nat (length (ml_maps T))) with true by lia. rewrite Ht. cbn [obind cassert].
    replace (m_count t =? 0) with false by lia. rewrite EB. replace (m_base f =? 0) with false by lia. fold es.
    rewrite EL, (bk_lm _ _ _ _ _ _ _ _ KF), (bk_lm _ _ _ _ _ _ _ _ KT). cbn [obind].
    destruct (m_reused f' =? lo_toMapNo op) eqn:ER.
    - assert (Hr0 : m_reused f' = lo_toMapNo op) by lia. assert (0 <= lo_toMapNo op) by (apply aread_iff in Ht; lia).
      pose proof (Reused _ _ Hf' ltac:(lia)) as SP. rewrite Hr0 in SP.
      destruct (same_org sp es Hdim T F _ _ t f SP Ht Hf) as (O1 & O2 & O3).
      destruct (AF (b_from (lo_box op))) as (of_ & Q1 & Q2); [rewrite Hb; cbn; lia|].
      destruct (AT (b_from (lo_box op))) as (ot & Q3 & Q4); [rewrite Hb; cbn; lia|].
      rewrite EC, <- LF4, Q1, <- LT4, Q3. cbn [obind]. rewrite ES. rewrite LF1, LF2 in Q2. rewrite LT1, LT2 in Q4.
      replace (m_start f + of_ * es =? m_start t + ot * es) with true by lia. cbn [cassert].
      exists mm. repeat split; auto. rewrite O1. auto.
    - assert (HA : Away (m_start t) (m_cap t) (m_start f) (m_cap f)).
      { destruct (Place _ _ Ht) as [(j & g & P1 & P2 & P3)|P]; [|eauto].
        assert (Hj : exists fj, aread (ml_maps F) j = Ok fj) by (destruct P3 as (x1 & x2 & x3 & x4 & x5 & x6 & x7 & x8 & _ & P4 & _); exists x2; apply (bk_at _ _ _ _ _ _ _ _ P4)).
        destruct Hj as [fj Hj]. destruct (same_org sp es Hdim T F _ _ t fj P3 Ht Hj) as (_ & O2 & O3). rewrite O2, O3.
        apply (gl_away _ _ _ HGF j (lo_fromMapNo op)); auto. intros ->. rewrite P1 in Hf'. injection Hf' as <-. lia. }
      pose proof (bk_cap _ _ _ _ _ _ _ _ KF) as CF. pose proof (bk_cap _ _ _ _ _ _ _ _ KT) as CT.
      assert (NE : NonEmpty (sp_dims sp) (lo_box op)) by (exists (mkIdx a 0 0); apply (inbox1 sp Hdim); rewrite Hb; cbn; lia).
      assert (SF' : SubBox (sp_dims sp) (lo_box op) BF).
      { intros i Hi. apply (inbox1 sp Hdim) in Hi. rewrite Hb in Hi. cbn in Hi. apply (inbox1 sp Hdim). auto. }
      assert (ST' : SubBox (sp_dims sp) (lo_box op) BT).
      { intros i Hi. apply (inbox1 sp Hdim) in Hi. rewrite Hb in Hi. cbn in Hi. apply (inbox1 sp Hdim). auto. }
      assert (HC : exists m2, data_copy gen sp (lo_box op) lf lt mm = Ok m2 /\ Copied (sp_dims sp) lf lt (lo_box op) mm m2).
      { destruct (C36_copy_agree sp lf lt BF BT NF NT (lo_box op) (vol (sp_dims sp) (lo_box op)) mm) as (m2 & E2 & C2 & X); auto.
        - apply vd1; auto.
        - apply (bk_good _ _ _ _ _ _ _ _ KF).
        - apply (bk_good _ _ _ _ _ _ _ _ KT).
        - congruence.
        - apply vol_count; auto. apply vd1; auto.
        - rewrite Hdim, Hb. unfold vol, w0. cbn. unfold two64. lia.
        - rewrite LF1, LT1, LF2. unfold Away in *. lia.
        - unfold data_copy. destruct gen; [eauto|]. destruct X as (m1 & E1 & C1 & _).
          + rewrite Hdim. intros bb _. split; lia.
          + rewrite Hdim. intros bb _. split; lia.
          + eauto. }
      destruct HC as (m2 & E2 & C2 & C3). exists m2. split; [exact E2|]. split.
      + intros x Hx. apply C3. intros (i & p & Hi & Hp & Hr). apply (inbox1 sp Hdim) in Hi. rewrite Hb in Hi. cbn in Hi.
        apply (backed_addr sp es Hdim _ _ _ _ _ _ i KT) in Hp; [|auto]. rewrite LT2 in Hr. apply Hx. eapply ar_in; eauto.
      + apply rdb_two. intros j Hj.
        pose proof (Z.mod_pos_bound j es ltac:(lia)) as MB. pose proof (ar_div j es (b - a) Hes Hj) as Hz.
        set (i := mkIdx (a + j / es) 0 0). assert (Hi : a <= i0 i < b) by (unfold i; cbn [i0]; lia).
        destruct (C2 i (mread mm (org es f + i0 i * es) (Z.to_nat es))) as (p & P1 & P2).
        * apply (inbox1 sp Hdim). rewrite Hb. exact Hi.
        * exists (org es f + i0 i * es). rewrite LF2. split; auto.
        * apply (backed_addr sp es Hdim _ _ _ _ _ _ i KT) in P1; [|auto]. subst p. rewrite LT2 in P2.
          assert (X : nth (Z.to_nat (j mod es)) (mread mm (org es f + i0 i * es) (Z.to_nat es)) 0 = nth (Z.to_nat (j mod es)) (mread m2 (org es t + i0 i * es) (Z.to_nat es)) 0) by (rewrite P2; auto).
          rewrite !mread_nth in X by (clear - MB; lia). unfold i in X. cbn [i0] in X.
          rewrite (ar_eq (org es t)), (ar_eq (org es f)) by auto. auto.
  Qed.
End One.
