(* The mappings used by the TCP2 backend for the segments of a 1d transition, for one process. *)
From Coq Require Import ZArith List Bool Lia ZifyBool ZifyNat Sorted Permutation.
From Verif Require Import Base ListFacts Model_Space Model_Mem Model_RangeList Model_Layout Model_Partitioner Model_Group Model_Transition Model_Data Model_Action Model_ActionTrans Model_ActionExec Model_ActionExec2 Model_Net Model_Switch Model_Tcp2Exec.
From Verif Require Import Spec_Space Spec_RangeList Spec_Partitioner Spec_Layout Spec_Data Spec_Transition Spec_ActionTrans Spec_Reduce Spec_Net Spec_Switch.
From Verif Require Import Proof_RangeList Proof_RangeList4 Proof_RangeList5 Proof_Trans1 Proof_Trans2 Proof_Trans3 Proof_Trans4 Proof_Data Proof_Data3 Proof_Data4 Proof_Data5 Proof_Comb3 Proof_Reduce1 Proof_Reduce3 Proof_Switch2 Proof_Switch4 Proof_Switch5 Proof_Switch6 Proof_Switch7 Proof_Switch8.
From Verif Require Import Proof_Tcp2Exec1 Proof_Tcp2Exec3 Proof_Tcp2Exec4.
Import ListNotations.
Open Scope Z_scope.

Definition nolm : lmap := mkLmap (mkLex 0 0 []) 0 0 0 (mkRange None (box1 0 0)).
(* the mapping of process [p] with index [z] *)
Definition sitem (es : Z) (l : rlist) (p : Z) (ml : mlist) (z : Z) : lmap :=
  match find (has p z) (rl_trs l) with
  | Some x => match tcp_map es (Some ml) (t_mapNo x) with Ok lm => lm | _ => nolm end
  | None => nolm
  end.

Lemma site_find l me ml z j m : (forall y, cov (rl_trs l) me y <= 1) -> Site l me ml z j m -> exists x, find (has me z) (rl_trs l) = Some x /\ t_mapNo x = j.
Proof.
  intros Hone (x & Hx & Ht & Hz & Hk & Hm). destruct (find (has me z) (rl_trs l)) as [y|] eqn:E.
  - apply List.find_some in E. destruct E as [E1 E2].
    assert (x = y) by (apply (ncnt_one (has me z) (rl_trs l)); auto; [apply Hone|unfold has; lia]). subst y. exists x. auto.
  - pose proof (List.find_none _ _ E x Hx) as X. unfold has in X. lia.
Qed.

Section One.
  Variable d : dcont.
  Let sp := dc_space d.
  Let es := dc_es d.
  Hypothesis Hes : 0 < es.
  Variable N : Z.
  Variables fl tl : rlist.
  Hypothesis G : Good1d sp N fl tl.
  Variable sl : list border.
  Hypothesis HP : Permutation (allb (rl_trs fl) (rl_trs tl)) sl.
  Hypothesis HS : StronglySorted ble sl.
  Let D := segs sl.
  Variable me : Z.
  Hypothesis Hme : 0 <= me < N.
  Variables F P : mlist.
  Variable addr : Z -> Z.
  Hypothesis HGF : GoodList sp es F.
  Hypothesis HCF : Covers fl me F.
  Variables t F' : mlist.
  Hypothesis A : Alloc d tl me F P addr t F'.
  Let L (inp : bool) := if inp then rl_trs fl else rl_trs tl.
  Let RL (inp : bool) := if inp then fl else tl.
  Let ml (inp : bool) := if inp then F else t.
  Let ml' (inp : bool) := if inp then F' else t.
  Let ad inp (k : Z * Z) := adr es (RL inp) me (ml inp) (fst k).
  Let hd1 : sp_dims sp = 1%nat := gd_dims _ _ _ _ G.
  Let ins := pins (rl_trs fl) N.
  Let outs := pouts (rl_trs tl) N.

  Lemma one' inp : forall z, cov (rl_trs (RL inp)) me z <= 1.
  Proof. intros z. apply (hone' d N fl tl G me inp z). Qed.

  (* the mapping as known to the layout *)
  Lemma seg_map inp k : In k D -> In me (owners N (L inp) (fst k)) -> exists j m lm B n,
    aread (ml_maps (ml inp)) j = Ok m /\ ad inp k = org es m + fst k * es /\
    (forall z, fst k <= z < snd k -> Site (RL inp) me (ml inp) z j m) /\
    i0 (b_from (r_box (m_req m))) <= fst k /\ snd k <= i0 (b_to (r_box (m_req m))) /\
    Backed sp es (ml inp) j m lm B n /\ tcp_map es (Some (ml' inp)) j = Ok lm /\ sitem es (RL inp) me (ml' inp) (fst k) = lm.
  Proof.
    intros Hk Ho. pose proof (seg_lt sl HS k Hk) as Hlt.
    destruct (seg_site d N fl tl G sl HP HS me Hme F P addr HCF t F' A inp k Hk Ho) as (j & m & J1 & J2 & J3).
    change (aread (ml_maps (ml inp)) j = Ok m) in J1. change (ad inp k = org es m + fst k * es) in J2. change (forall z, fst k <= z < snd k -> Site (RL inp) me (ml inp) z j m) in J3.
    assert (GL : GoodList sp es (ml inp)) by (destruct inp; [exact HGF|apply (al_good _ _ _ _ _ _ _ _ A)]).
    destruct (gl_maps _ _ _ GL j m J1) as (_ & _ & _ & lm & B & n & K).
    exists j, m, lm, B, n. split; [exact J1|]. split; [exact J2|]. split; [exact J3|].
    assert (FZ := fz d N fl tl G inp). assert (HSP := hsp d N fl tl G inp). assert (HM := hme d N fl tl G me Hme inp).
    assert (CV : Covers (RL inp) me (ml inp)) by (destruct inp; [exact HCF|apply (al_cov _ _ _ _ _ _ _ _ A)]).
    destruct (site_req sp hd1 (RL inp) me FZ HSP HM (one' inp) (ml inp) CV _ _ _ (J3 (fst k) ltac:(lia))) as [_ R1].
    destruct (site_req sp hd1 (RL inp) me FZ HSP HM (one' inp) (ml inp) CV _ _ _ (J3 (snd k - 1) ltac:(lia))) as [_ R2].
    split; [lia|]. split; [lia|]. split; [exact K|].
    assert (TM : tcp_map es (Some (ml' inp)) j = Ok lm).
    { assert (Hj := J1). apply aread_iff in Hj. destruct Hj as [Hj0 Hj]. assert (Hl : (Z.to_nat j < length (ml_maps (ml inp)))%nat) by (apply nth_error_Some; congruence).
      unfold tcp_map. destruct inp.
      - destruct (old_map d F F' (al_old _ _ _ _ _ _ _ _ A) j m J1) as (f' & E1 & E2 & _). pose proof (al_old _ _ _ _ _ _ _ _ A) as (_ & _ & EL & _).
        change (ml' true) with F'. change (ml true) with F in *. replace (j <? Z.of_nat (length (ml_maps F'))) with true by lia. cbn [cassert]. rewrite E1. cbn [obind].
        fold es in E2. rewrite E2. apply (bk_lm _ _ _ _ _ _ _ _ K).
      - change (ml' false) with t. change (ml false) with t in *. replace (j <? Z.of_nat (length (ml_maps t))) with true by lia. cbn [cassert]. rewrite J1. cbn [obind]. apply (bk_lm _ _ _ _ _ _ _ _ K). }
    split; [exact TM|]. unfold sitem.
    destruct (site_find (RL inp) me (ml inp) (fst k) j m (one' inp) (J3 (fst k) ltac:(lia))) as (x & X1 & X2). rewrite X1, X2, TM. reflexivity.
  Qed.

  Lemma num_tcp inp k R M : In k D -> In me (owners N (L inp) (fst k)) -> numok (rl_trs fl) (rl_trs tl) me inp (box1 (fst k) (snd k)) R M ->
    tcp_map es (Some (ml' inp)) M = Ok (sitem es (RL inp) me (ml' inp) (fst k)).
  Proof.
    intros Hk Ho HN. destruct (seg_map inp k Hk Ho) as (j & m & lm & B & n & J1 & J2 & J3 & _ & _ & K & T1 & T2). pose proof (seg_lt sl HS k Hk) as Hlt.
    destruct HN as (a & A1 & A2 & A3 & A4 & A5 & A6). cbn in A5, A6.
    assert (Ha : In (fst a) (rl_trs (RL inp))). { rewrite <- (ann_fst (rl_trs (RL inp)) 0 (-1) (-1)). apply in_map. destruct inp; exact A1. }
    assert (CV : Covers (RL inp) me (ml inp)) by (destruct inp; [exact HCF|apply (al_cov _ _ _ _ _ _ _ _ A)]).
    destruct (site_at sp hd1 (RL inp) me (fz d N fl tl G inp) (hme d N fl tl G me Hme inp) (one' inp) (ml inp) CV (fst a) (fst k) Ha A2 ltac:(lia)) as (m' & S').
    destruct (site_fun sp hd1 (RL inp) me (one' inp) (ml inp) _ _ _ _ _ (J3 (fst k) ltac:(lia)) S') as [E1 E2]. rewrite <- A4, <- E1, T2. exact T1.
  Qed.

  Lemma seg_ok inp k : In k D -> In me (owners N (L inp) (fst k)) -> SegOk sp es (sitem es (RL inp) me (ml' inp) (fst k)) (fst k) (snd k) (ad inp k).
  Proof.
    intros Hk Ho. destruct (seg_map inp k Hk Ho) as (j & m & lm & B & n & J1 & J2 & J3 & Q1 & Q2 & K & T1 & T2). rewrite T2.
    assert (LM : lm_start lm = m_start m /\ lm_es lm = es /\ lm_req lm = m_req m).
    { pose proof (bk_lm _ _ _ _ _ _ _ _ K) as X. unfold lmap_of in X. destruct (lay_of (ml inp) m); [injection X as <-; auto|discriminate]. }
    destruct LM as (L1 & L2 & L3).
    assert (SB : forall z, fst k <= z < snd k -> i0 (b_from B) <= z < i0 (b_to B)).
    { intros z Hz. destruct (bk_good _ _ _ _ _ _ _ _ K) as (_ & _ & _ & _ & _ & G6). rewrite L3 in G6.
      assert (X : InBox (sp_dims sp) (mkIdx z 0 0) B) by (apply G6, (inbox1 sp hd1); cbn; lia). apply (inbox1 sp hd1) in X. cbn in X. lia. }
    constructor.
    - exact L2.
    - rewrite L1. pose proof (bk_start _ _ _ _ _ _ _ _ K). lia.
    - exists B, n. split; [apply (bk_good _ _ _ _ _ _ _ _ K)|]. intros i Hi. apply (inbox1 sp hd1) in Hi. cbn in Hi. apply (inbox1 sp hd1). auto.
    - intros z Hz. rewrite J2. apply (backed_addr sp es hd1 _ _ _ _ _ _ _ K); [cbn; auto|]. cbn [i0]. ring.
  Qed.

  Lemma copy_tcp gen k mm : In k D -> snd k - fst k < 2 ^ 31 -> In me (ins k) -> In me (outs k) ->
    exists m', tcp_copy gen sp (box1 (fst k) (snd k)) (sitem es fl me F' (fst k)) (sitem es tl me t (fst k)) mm = Ok m' /\
      (forall y, ~ region (toS d tl me t k) ((snd k - fst k) * es) y -> m' y = mm y) /\
      rdb m' (toS d tl me t k) ((snd k - fst k) * es) = rdb mm (fromS d fl me F k) ((snd k - fst k) * es).
  Proof.
    intros Hk Hw Hi Ho. destruct (seg_map true k Hk Hi) as (j & m & lm & B & n & J1 & J2 & J3 & Q1 & Q2 & K & T1 & T2).
    destruct (seg_map false k Hk Ho) as (j' & m' & lm' & B' & n' & J1' & J2' & J3' & Q1' & Q2' & K' & T1' & T2').
    change (sitem es fl me F' (fst k) = lm) in T2. change (sitem es tl me t (fst k) = lm') in T2'. rewrite T2, T2'.
    pose proof (seg_lt sl HS k Hk) as Hlt. change (aread (ml_maps F) j = Ok m) in J1. change (aread (ml_maps t) j' = Ok m') in J1'.
    destruct (seg_ok true k Hk Hi) as [S1 S2 _ S4]. destruct (seg_ok false k Hk Ho) as [S1' S2' _ S4'].
    change (sitem es (RL true) me (ml' true) (fst k)) with (sitem es fl me F' (fst k)) in *. change (sitem es (RL false) me (ml' false) (fst k)) with (sitem es tl me t (fst k)) in *. rewrite T2 in *. rewrite T2' in *.
    destruct (S4 (fst k) ltac:(lia)) as (of_ & O1 & O2). destruct (S4' (fst k) ltac:(lia)) as (ot & O1' & O2').
    replace (ad true k + (fst k - fst k) * es) with (ad true k) in O2 by ring. replace (ad false k + (fst k - fst k) * es) with (ad false k) in O2' by ring.
    unfold tcp_copy. cbn [b_from box1]. rewrite O1, O1'. cbn [obind]. rewrite <- O2, <- O2', S1, S1', hd1. rewrite Z.eqb_refl. cbn [Nat.eqb]. rewrite !andb_true_r.
    change (toS d tl me t k) with (ad false k). change (fromS d fl me F k) with (ad true k).
    destruct (ad true k =? ad false k) eqn:Ea.
    - exists mm. split; [reflexivity|]. split; [auto|]. replace (ad true k) with (ad false k) by lia. reflexivity.
    - destruct (copy_one d hd1 Hes F F' t HGF (al_good _ _ _ _ _ _ _ _ A) (al_old _ _ _ _ _ _ _ _ A) (al_place _ _ _ _ _ _ _ _ A) (al_reused _ _ _ _ _ _ _ _ A) gen
        (mkLocalT (box1 (fst k) (snd k)) 0 0 j j') (fst k) (snd k) m m' mm eq_refl Hlt Hw J1 J1' Q1 Q2 Q1' Q2') as (m2 & C1 & C2 & C3).
      exists m2. fold es in C2, C3. rewrite <- J2, <- J2' in C3. rewrite <- J2' in C2. split; [|split; [exact C2|exact C3]].
      unfold copy_map in C1. cbn [lo_fromMapNo lo_toMapNo lo_box] in C1.
      destruct (old_map d F F' (al_old _ _ _ _ _ _ _ _ A) j m J1) as (f' & E1 & E2 & E3 & E4 & E5 & E6). rewrite E1, J1' in C1. cbn [obind] in C1.
      destruct (j <? Z.of_nat (length (ml_maps F'))) eqn:B1; [|discriminate]. destruct (j' <? Z.of_nat (length (ml_maps t))) eqn:B2; [|discriminate]. cbn [cassert] in C1.
      destruct (map_space sp es hd1 Hes F j m HGF J1) as (M1 & _). destruct (map_space sp es hd1 Hes t j' m' (al_good _ _ _ _ _ _ _ _ A) J1') as (_ & _ & M2 & _).
      replace (m_count m' =? 0) with false in C1 by lia. rewrite E3 in C1. replace (m_base m =? 0) with false in C1 by lia. cbv iota in C1.
      pose proof (bk_lm _ _ _ _ _ _ _ _ K) as X. pose proof (bk_lm _ _ _ _ _ _ _ _ K') as X'. change (ml true) with F in X. change (ml false) with t in X'.
      fold es in E2. fold es in C1. rewrite E2, X, X' in C1. cbn [obind] in C1.
      destruct (m_reused f' =? j') eqn:ER; [exfalso|exact C1].
      assert (LM : lm_start lm = m_start m /\ lm_sec lm = m_sec m) by (unfold lmap_of in X; destruct (lay_of F m); [injection X as <-; auto|discriminate]).
      assert (LM' : lm_start lm' = m_start m' /\ lm_sec lm' = m_sec m') by (unfold lmap_of in X'; destruct (lay_of t m'); [injection X' as <-; auto|discriminate]).
      destruct LM as [L1 L2]. destruct LM' as [L1' L2']. cbn [b_from box1] in C1. rewrite E5, <- L2, O1, <- L2', O1' in C1. cbn [obind] in C1. rewrite E4 in C1.
      rewrite S1, L1 in O2. rewrite S1', L1' in O2'. replace (m_start m + of_ * es =? m_start m' + ot * es) with false in C1 by lia. discriminate.
  Qed.
End One.
