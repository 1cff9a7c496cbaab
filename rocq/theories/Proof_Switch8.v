(* One process of a switch of a 1d container: segments. *)
From Coq Require Import ZArith List Bool Lia ZifyBool ZifyNat Sorted Permutation.
From Verif Require Import Base ListFacts Model_Space Model_Mem Model_RangeList Model_Layout Model_Partitioner Model_Group Model_Transition Model_Data Model_Action Model_ActionTrans Model_ActionExec Model_ActionExec2 Model_Net Model_Switch.
From Verif Require Import Spec_Space Spec_RangeList Spec_Partitioner Spec_Layout Spec_Data Spec_Transition Spec_ActionTrans Spec_Reduce Spec_Net Spec_Switch.
From Verif Require Import Proof_RangeList Proof_RangeList4 Proof_RangeList5 Proof_Trans1 Proof_Trans2 Proof_Trans3 Proof_Trans4 Proof_Data Proof_Data3 Proof_Data4 Proof_Data5 Proof_Comb3 Proof_Reduce1 Proof_Reduce3 Proof_Switch2 Proof_Switch4 Proof_Switch5 Proof_Switch6 Proof_Switch7.
Import ListNotations.
Open Scope Z_scope.

Lemma ar_cell o a b es x : 0 < es -> region (o + a * es) ((b - a) * es) x -> exists z, a <= z < b /\ o + z * es <= x < o + z * es + es.
Proof.
  intros Hes H. unfold region in H. exists (a + (x - o - a * es) / es).
  pose proof (ar_div (x - o - a * es) es (b - a) Hes ltac:(lia)) as H1.
  pose proof (Z.div_mod (x - o - a * es) es ltac:(lia)) as DM. pose proof (Z.mod_pos_bound (x - o - a * es) es ltac:(lia)) as MB. nia.
Qed.

Section One.
  Variable d : dcont.
  Let sp := dc_space d.
  Let es := dc_es d.
  Hypothesis Hes : 0 < es.
  Hypothesis Hm0 : dc_map0 d = None.
  Variable N : Z.
  Variables fl tl : rlist.
  Hypothesis G : Good1d sp N fl tl.
  Variable red : redop.
  Variable sl : list border.
  Hypothesis HP : Permutation (allb (rl_trs fl) (rl_trs tl)) sl.
  Hypothesis HS : StronglySorted ble sl.
  Let D := segs sl.
  Variable me : Z.
  Hypothesis Hme : 0 <= me < N.
  Variables F P : mlist.
  Variable addr : Z -> Z.
  Variable o : tops.
  Hypothesis HGF : GoodList sp es F.
  Hypothesis HCF : Covers fl me F.
  Hypothesis HOR : OwnRanges sp tl me.
  Hypothesis HPr : prepare_maps d tl me = Ok P.
  Hypothesis HFr : FreshFor es addr P (blocks F).
  Hypothesis HOp : OpsInv (rl_trs fl) (rl_trs tl) N me red D o.
  Let L (inp : bool) := if inp then rl_trs fl else rl_trs tl.
  Let RL (inp : bool) := if inp then fl else tl.
  Let ins := pins (rl_trs fl) N.
  Let outs := pouts (rl_trs tl) N.
  Let n k := pcnt k * es.

  (* what is known after reuse and allocation *)
  Record Alloc (t F' : mlist) : Prop := {
    al_run : exists t1, check_map_reuse es P (Some F) = Ok (t1, Some F') /\ allocate_mappings es addr t1 = Ok t;
    al_good : GoodList sp es t;
    al_cov : Covers tl me t;
    al_old : Old (Some F) (Some F');
    al_place : forall k m, aread (ml_maps t) k = Ok m ->
      (exists j g, aread (ml_maps F') j = Ok g /\ m_reused g = k /\ SamePlace sp es t F k j) \/
      (forall j f, aread (ml_maps F) j = Ok f -> Away (m_start m) (m_cap m) (m_start f) (m_cap f));
    al_reused : forall j g, aread (ml_maps F') j = Ok g -> 0 <= m_reused g -> SamePlace sp es t F (m_reused g) j }.

  Lemma alloc_ok : exists t F', Alloc t F'.
  Proof.
    destruct (prepare_ok d sp tl me Hm0 HOR) as (P' & E & HR & HC). assert (P' = P) by congruence. subst P'.
    assert (Hd : valid_dims (sp_dims sp)) by (rewrite (gd_dims _ _ _ _ G); left; auto).
    destruct (switch_ok sp es Hd Hes P (Some F) addr HR (or_introl HGF) HFr) as (t1 & fl' & t & E1 & E2 & G1 & G2 & G3 & G4 & G5 & _).
    destruct fl' as [F'|]; [|destruct G3]. exists t, F'. constructor; auto.
    - eauto.
    - eapply covers_req; eauto.
    - intros k m Hk. destruct (G4 k m Hk) as [(f & f' & j & g & fj & X1 & X2 & X3 & X4 & X5 & _)|(lm & B & X1 & X2 & X3 & _)].
      + injection X1 as <-. injection X2 as <-. left. eauto.
      + right. intros j f Hj. rewrite X1, X3.
        assert (Hk' : exists mk, aread (ml_maps P) k = Ok mk /\ m_count mk = m_count m).
        { apply aread_iff in Hk. destruct Hk as [K0 K1]. assert (H := map_nth_error m_req _ _ K1). rewrite G2, nth_error_map in H.
          destruct (nth_error (ml_maps P) (Z.to_nat k)) as [mk|] eqn:Em; [|discriminate]. exists mk. split; [apply aread_iff; auto|].
          destruct HR as (_ & _ & R3). destruct (R3 k mk) as (b & ly & R4 & R5 & R6 & _); [apply aread_iff; auto|].
          pose proof (bk_count _ _ _ _ _ _ _ _ B) as C1. pose proof (bk_ne _ _ _ _ _ _ _ _ B) as C2.
          apply (Proof_Layout2.vol_of_count _ _ _ Hd C2) in C1. simpl in H. injection H as H. rewrite C1, <- H, R4. reflexivity. }
        destruct Hk' as (mk & K1 & K2). destruct (HFr k mk K1) as (_ & W & _).
        specialize (W (m_start f, m_cap f)). unfold AwayB in W. cbn [fst snd] in W. rewrite K2 in W. apply W.
        apply aread_iff in Hj. destruct Hj as [_ Hj]. apply nth_error_In in Hj. apply (in_map (fun m => (m_start m, m_cap m))) in Hj. exact Hj.
    - intros j g Hj H0. eapply G5; eauto.
  Qed.

  Lemma hone inp z : cov (L inp) me z <= 1.
  Proof. apply (g_one sp N fl tl G inp me z). Qed.

  Lemma seg_lt k : In k D -> fst k < snd k.
  Proof. apply sg_lt; auto. Qed.
  Lemma seg_nodup : NoDup D.
  Proof.
    assert (S : StronglySorted (fun s s' => snd s <= fst s') D) by (apply sg_sorted; auto).
    assert (HH : forall k, In k D -> fst k < snd k) by apply seg_lt. clear - S HH. induction S as [|k l S IH F1]; constructor.
    - intros Hk. rewrite Forall_forall in F1. specialize (F1 k Hk). specialize (HH k (or_introl eq_refl)). lia.
    - apply IH. intros; apply HH; right; auto.
  Qed.
  Lemma seg_apart k k' z : In k D -> In k' D -> fst k <= z < snd k -> fst k' <= z < snd k' -> k = k'.
  Proof.
    assert (S : StronglySorted (fun s s' => snd s <= fst s') D) by (apply sg_sorted; auto). clear - S.
    induction S as [|a l S IH F1]; intros [] [] Z1 Z2; subst; auto; rewrite Forall_forall in F1; firstorder lia.
  Qed.
  (* a range with the begin of a segment has all of it *)
  Lemma seg_range inp k x : In k D -> In x (L inp) -> tf x <= fst k < tt x -> snd k <= tt x.
  Proof.
    intros Hk Hx H. destruct (border_pos fl tl sl HP inp x Hx) as [B1 B2]. unfold D in Hk. rewrite segs_segsZ in Hk. destruct k as [a b].
    apply segsZ_in in Hk; [|apply pos_sorted; auto]. destruct Hk as (_ & _ & _ & H4). pose proof (H4 _ B2). cbn [fst snd] in *. lia.
  Qed.
  Lemma own_cov inp (k : Z * Z) : In me (owners N (L inp) (fst k)) -> cov (L inp) me (fst k) = 1.
  Proof. intros H. unfold owners in H. apply filter_In in H. destruct H as [_ H]. pose proof (hone inp (fst k)). lia. Qed.

  Section Here.
    Variables t F' : mlist.
    Hypothesis A : Alloc t F'.
    Let ml (inp : bool) := if inp then F else t.
    Definition fromS (k : Z * Z) := adr es fl me F (fst k).
    Definition toS (k : Z * Z) := adr es tl me t (fst k).
    Let ad inp (k : Z * Z) := adr es (RL inp) me (ml inp) (fst k).

    Lemma fz inp : FrozenList (RL inp). Proof. apply (rl_all sp N fl tl G inp). Qed.
    Lemma hsp inp : rl_space (RL inp) = sp. Proof. apply (rl_all sp N fl tl G inp). Qed.
    Lemma hme inp : 0 <= me < rl_tids (RL inp). Proof. destruct (rl_all sp N fl tl G inp) as (_ & _ & H & _). change (rl_tids (RL inp) = N) in H. rewrite H. auto. Qed.
    Lemma hone' inp : forall z, cov (rl_trs (RL inp)) me z <= 1.
    Proof. intros z. destruct inp; [apply (hone true z)|apply (hone false z)]. Qed.
    Lemma cvs inp : Covers (RL inp) me (ml inp). Proof. destruct inp; [exact HCF|apply (al_cov _ _ A)]. Qed.
    Lemma gls inp : GoodList sp es (ml inp). Proof. destruct inp; [exact HGF|apply (al_good _ _ A)]. Qed.
    Let hd1 : sp_dims sp = 1%nat := gd_dims _ _ _ _ G.

    (* all indexes of a segment are in the same map *)
    Lemma seg_site inp k : In k D -> In me (owners N (L inp) (fst k)) ->
      exists j m, aread (ml_maps (ml inp)) j = Ok m /\ ad inp k = org es m + fst k * es /\ forall z, fst k <= z < snd k -> Site (RL inp) me (ml inp) z j m.
    Proof.
      intros Hk Ho. pose proof (own_cov inp k Ho) as Hc. pose proof (seg_lt k Hk) as Hlt.
      assert (EL : rl_trs (RL inp) = L inp) by (destruct inp; reflexivity).
      destruct (site_own sp hd1 (RL inp) me (fz inp) (hme inp) (hone' inp) (ml inp) (cvs inp) (fst k)) as (j & m & S); [rewrite EL; lia|].
      exists j, m. pose proof S as (x & X1 & X2 & X3 & X4 & X5). split; auto. split.
      - apply (site_adr sp es hd1 (RL inp) me (hone' inp) (ml inp) (fst k) j m S).
      - intros z Hz. rewrite EL in X1. pose proof (seg_range inp k x Hk X1 X3) as H1. rewrite <- EL in X1.
        apply (site_seg sp hd1 (RL inp) me (hone' inp) (ml inp) x (fst k) (snd k) z j m); auto; lia.
    Qed.

    Lemma cells inp k x : In k D -> In me (owners N (L inp) (fst k)) -> region (ad inp k) (n k) x ->
      exists z j m, fst k <= z < snd k /\ Site (RL inp) me (ml inp) z j m /\ org es m + z * es <= x < org es m + z * es + es /\ ad inp k = org es m + fst k * es.
    Proof.
      intros Hk Ho Hx. destruct (seg_site inp k Hk Ho) as (j & m & J1 & J2 & J3). rewrite J2 in Hx. unfold n, pcnt in Hx.
      apply ar_cell in Hx; auto. destruct Hx as (z & Z1 & Z2). exists z, j, m. auto.
    Qed.
    (* segments are in the blocks of maps *)
    Lemma in_block inp k : In k D -> In me (owners N (L inp) (fst k)) -> exists b, In b (blocks (ml inp)) /\ fst b <= ad inp k /\ ad inp k + n k <= fst b + snd b.
    Proof.
      intros Hk Ho. destruct (seg_site inp k Hk Ho) as (j & m & J1 & J2 & J3). pose proof (seg_lt k Hk) as Hlt.
      destruct (map_space sp es hd1 Hes (ml inp) j m (gls inp) J1) as (_ & _ & _ & X).
      destruct (site_req sp hd1 (RL inp) me (fz inp) (hsp inp) (hme inp) (hone' inp) (ml inp) (cvs inp) _ _ _ (J3 (fst k) ltac:(lia))) as [_ R1].
      destruct (site_req sp hd1 (RL inp) me (fz inp) (hsp inp) (hme inp) (hone' inp) (ml inp) (cvs inp) _ _ _ (J3 (snd k - 1) ltac:(lia))) as [_ R2].
      exists (m_start m, m_cap m). split.
      - apply aread_iff in J1. destruct J1 as [_ J1]. apply nth_error_In in J1. apply (in_map (fun m => (m_start m, m_cap m))) in J1. exact J1.
      - cbn [fst snd]. pose proof (X _ R1) as X1. pose proof (X _ R2) as X2. rewrite J2. unfold n, pcnt. clear - X1 X2. nia.
    Qed.
    Lemma away_cell a b x : Away a es b es -> a <= x < a + es -> b <= x < b + es -> False.
    Proof. unfold Away. lia. Qed.
    Lemma sep_one inp k k' : In k D -> In k' D -> k <> k' -> In me (owners N (L inp) (fst k)) -> In me (owners N (L inp) (fst k')) ->
      apart (region (ad inp k) (n k)) (region (ad inp k') (n k')).
    Proof.
      intros Hk Hk' Hne Ho Ho' x H1 H2. destruct (cells inp k x Hk Ho H1) as (z & j & m & Z1 & S1 & X1 & _). destruct (cells inp k' x Hk' Ho' H2) as (z' & j' & m' & Z2 & S2 & X2 & _).
      apply (away_cell _ _ x) with (2 := X1) (3 := X2).
      apply (site_sep sp es hd1 Hes (RL inp) me (fz inp) (hsp inp) (hme inp) (hone' inp) (ml inp) (gls inp) (cvs inp) z j m z' j' m' S1 S2).
      intros ->. apply Hne. eapply seg_apart; eauto.
    Qed.
    Lemma place' k m : aread (ml_maps t) k = Ok m ->
      (exists j, SamePlace sp es t F k j) \/ (forall j f, aread (ml_maps F) j = Ok f -> Away (m_start m) (m_cap m) (m_start f) (m_cap f)).
    Proof. intros H. destruct (al_place _ _ A k m H) as [(j & g & _ & _ & X)|X]; eauto. Qed.
    Lemma sep_both k k' x : In k D -> In k' D -> In me (ins k) -> In me (outs k') ->
      region (ad true k) (n k) x -> region (ad false k') (n k') x -> k = k' /\ ad true k = ad false k.
    Proof.
      intros Hk Hk' Ho Ho' H1 H2. destruct (cells true k x Hk Ho H1) as (z & j & m & Z1 & S1 & X1 & E1). destruct (cells false k' x Hk' Ho' H2) as (z' & j' & m' & Z2 & S2 & X2 & E2).
      destruct (old_new sp es hd1 Hes fl tl me (fz true) (fz false) (hsp true) (hsp false) (hme true) (hme false) (hone' true) (hone' false) F t
        (gls true) (gls false) (cvs true) (cvs false) place' z j m z' j' m' S1 S2) as [(Y1 & Y2 & Y3)|W].
      - subst z'. assert (k = k') by (eapply seg_apart; eauto). subst k'. rewrite E1, E2, Y3. auto.
      - exfalso. eapply away_cell; eauto.
    Qed.
    Lemma sep_ft' k k' : In k D -> In k' D -> k <> k' -> In me (ins k) -> In me (outs k') -> apart (region (fromS k) (n k)) (region (toS k') (n k')).
    Proof. intros Hk Hk' Hne Ho Ho' x H1 H2. apply Hne. apply (sep_both k k' x Hk Hk' Ho Ho' H1 H2). Qed.
    Lemma sep_same' k : In k D -> In me (ins k) -> In me (outs k) -> fromS k = toS k \/ apart (region (fromS k) (n k)) (region (toS k) (n k)).
    Proof.
      intros Hk Ho Ho'. destruct (Z.eq_dec (fromS k) (toS k)) as [E|E]; auto. right. intros x H1 H2. apply E. apply (sep_both k k x Hk Hk Ho Ho' H1 H2).
    Qed.

    (* what the transformations of action sequences need to know about the maps *)
    Lemma num_map inp k R M : In k D -> In me (owners N (L inp) (fst k)) -> numok (rl_trs fl) (rl_trs tl) me inp (box1 (fst k) (snd k)) R M ->
      exists m, aread (ml_maps (ml inp)) M = Ok m /\ ad inp k = org es m + fst k * es /\
        i0 (b_from (r_box (m_req m))) <= fst k /\ snd k <= i0 (b_to (r_box (m_req m))) /\ m_base m <> 0.
    Proof.
      intros Hk Ho (a & A1 & A2 & A3 & A4 & A5 & A6). cbn in A5, A6. pose proof (seg_lt k Hk) as Hlt.
      assert (Ha : In (fst a) (rl_trs (RL inp))).
      { rewrite <- (ann_fst (rl_trs (RL inp)) 0 (-1) (-1)). apply in_map. destruct inp; exact A1. }
      destruct (seg_site inp k Hk Ho) as (j & m & J1 & J2 & J3).
      destruct (site_at sp hd1 (RL inp) me (fz inp) (hme inp) (hone' inp) (ml inp) (cvs inp) (fst a) (fst k) Ha A2 ltac:(lia)) as (m' & S').
      destruct (site_fun sp hd1 (RL inp) me (hone' inp) (ml inp) _ _ _ _ _ (J3 (fst k) ltac:(lia)) S') as [E1 E2]. subst j m'. rewrite A4 in *.
      exists m. split; auto. split; auto.
      destruct (site_req sp hd1 (RL inp) me (fz inp) (hsp inp) (hme inp) (hone' inp) (ml inp) (cvs inp) _ _ _ (J3 (fst k) ltac:(lia))) as [_ R1].
      destruct (site_req sp hd1 (RL inp) me (fz inp) (hsp inp) (hme inp) (hone' inp) (ml inp) (cvs inp) _ _ _ (J3 (snd k - 1) ltac:(lia))) as [_ R2].
      split; [lia|]. split; [lia|]. apply (map_space sp es hd1 Hes (ml inp) M m (gls inp) J1).
    Qed.

    (* local copies *)
    Definition isloc (k : Z * Z) : bool := match ins k with [i] => (i =? me) && memb me (outs k) | _ => false end.
    Lemma local_segs : map lo_box (tp_local o) = map (fun k => box1 (fst k) (snd k)) (filter isloc D).
    Proof.
      rewrite (oi_local _ _ _ _ _ _ _ HOp). clear. induction D as [|k l IH]; auto. cbn [flat_map filter]. rewrite IH. unfold sg_local, isloc, ins, outs, pins, pouts.
      destruct (owners N (rl_trs fl) (fst k)) as [|i [|]]; auto. rewrite memb_two. destruct ((i =? me) && memb me (owners N (rl_trs tl) (fst k))); auto.
    Qed.
    Lemma isloc_in k : isloc k = true -> ins k = [me] /\ In me (outs k).
    Proof. unfold isloc. destruct (ins k) as [|i [|]]; try discriminate. intros H. apply andb_prop in H. destruct H as [H1 H2]. apply memb_in in H2. split; auto. f_equal. lia. Qed.

    Lemma width k : In k D -> In me (ins k) -> snd k - fst k < 2 ^ 31.
    Proof.
      intros Hk _. pose proof (gd_width _ _ _ _ G). unfold D in Hk. rewrite segs_segsZ in Hk. destruct k as [a b].
      apply segsZ_in in Hk; [|apply pos_sorted; auto]. destruct Hk as (_ & B1 & B2 & _). cbn [fst snd].
      apply in_map_iff in B1, B2. destruct B1 as (x & <- & X). destruct B2 as (y & <- & Y).
      pose proof (g_border sp N fl tl G x (Permutation_in _ (Permutation_sym HP) X)). pose proof (g_border sp N fl tl G y (Permutation_in _ (Permutation_sym HP) Y)). lia.
    Qed.

    Lemma local_ok gen mm : exists mm', (match tp_local o with [] => Ok mm | _ => copy_maps gen d (tp_local o) t (Some F') mm end) = Ok mm' /\
      (forall x, (forall k, In k D -> isloc k = true -> ~ region (toS k) (n k) x) -> mm' x = mm x) /\
      (forall k, In k D -> isloc k = true -> rdb mm' (toS k) (n k) = rdb mm (fromS k) (n k)).
    Proof.
      assert (EX : exists mm', ofold (copy_map gen d t F') (tp_local o) mm = Ok mm' /\
        (forall x, (forall k, In k (filter isloc D) -> ~ region (toS k) (n k) x) -> mm' x = mm x) /\
        (forall k, In k (filter isloc D) -> rdb mm' (toS k) (n k) = rdb mm (fromS k) (n k))).
      { apply (copies_ok (copy_map gen d t F') fromS toS n).
        - assert (HB := local_segs). assert (HN := oi_lnum _ _ _ _ _ _ _ HOp). assert (HI : forall k, In k (filter isloc D) -> In k D /\ isloc k = true) by (intros k Hk; apply filter_In in Hk; auto).
          revert HB HN HI. generalize (filter isloc D) as ks. generalize (tp_local o) as ops.
          induction ops as [|op ops IH]; intros [|k ks] HB HN HI; try discriminate; constructor.
          + intros m1. inversion HN as [|? ? [N1 N2] _]. subst. injection HB as HB1 HB2. destruct (HI k (or_introl eq_refl)) as [Hk Hl]. destruct (isloc_in k Hl) as [Hi Ho].
            assert (Hi' : In me (ins k)) by (rewrite Hi; left; auto). rewrite HB1 in N1, N2.
            destruct (num_map true k _ _ Hk Hi' (N1 (own_cov true k Hi'))) as (f & F1 & F2 & F3 & F4 & F5).
            destruct (num_map false k _ _ Hk Ho (N2 (own_cov false k Ho))) as (g & T1 & T2 & T3 & T4 & T5).
            destruct (copy_one d hd1 Hes F F' t HGF (al_good _ _ A) (al_old _ _ A) (al_place _ _ A) (al_reused _ _ A) gen op (fst k) (snd k) f g m1) as (m2 & C1 & C2 & C3); auto.
            * apply seg_lt; auto.
            * apply width; auto.
            * exists m2. split; auto. unfold n, pcnt, fromS, toS. fold es in C2, C3. change (adr es fl me F (fst k)) with (ad true k). change (adr es tl me t (fst k)) with (ad false k). rewrite F2, T2. auto.
          + injection HB as HB1 HB2. inversion HN. subst. apply IH; auto. intros k' Hk'. apply HI. right; auto.
        - apply NoDup_filter, seg_nodup.
        - intros k k' Hk Hk' Hne. apply filter_In in Hk, Hk'. destruct Hk as [Hk Lk]. destruct Hk' as [Hk' Lk']. destruct (isloc_in _ Lk) as [I1 O1]. destruct (isloc_in _ Lk') as [I2 O2].
          apply sep_ft'; auto. rewrite I1. left; auto.
        - intros k k' Hk Hk' Hne. apply filter_In in Hk, Hk'. destruct Hk as [Hk Lk]. destruct Hk' as [Hk' Lk']. destruct (isloc_in _ Lk) as [I1 O1]. destruct (isloc_in _ Lk') as [I2 O2].
          apply (sep_one false k k'); auto. }
      destruct EX as (mm' & E & K & V). exists mm'. split; [|split].
      - assert (RES : ml_res F' = None) by apply (al_old _ _ A).
        destruct (tp_local o) as [|x r] eqn:El; [exact E|]. unfold copy_maps. cbn [cassert]. rewrite RES. exact E.
      - intros x Hx. apply K. intros k Hk. apply filter_In in Hk. apply Hx; tauto.
      - intros k Hk Hl. apply V. apply filter_In. auto.
    Qed.

    (* the action sequence *)
    Variable place : Z -> Z.
    Variable T : dtype.
    Variable oth : apar -> instr.
    Let cx := trans_ctx d N me o (Some F') t.
    Hypothesis H32 : forall k, In k D -> pred (rl_trs fl) N k = true -> (length (ins k) <= 32)%nat /\ n k * Z.of_nat (length (ins k)) < 2 ^ 32.
    Hypothesis HO0 : forall k, In k D -> pred (rl_trs fl) N k = true -> outs k = [] -> two (ins k) = true.
    Lemma the_flat : exists a c, split_texec cx o = Ok a /\ flatten cx (mkSeq a 0 [] 0) = Ok (c, mkSeq (flat_acts (rl_trs fl) (rl_trs tl) N me red o fromS toS) 0 [] 0).
    Proof.
      apply (flat_ok (rl_trs fl) (rl_trs tl) N me red D o cx fromS toS); auto.
      - intros k Hk. pose proof (seg_lt k Hk). unfold pcnt. pose proof (gd_width _ _ _ _ G).
        destruct k as [a b]. unfold D in Hk. rewrite segs_segsZ in Hk. apply segsZ_in in Hk; [|apply pos_sorted; auto]. destruct Hk as (_ & B1 & B2 & _). cbn [fst snd] in *.
        apply in_map_iff in B1, B2. destruct B1 as (x & <- & X). destruct B2 as (y & <- & Y).
        pose proof (g_border sp N fl tl G x (Permutation_in _ (Permutation_sym HP) X)). pose proof (g_border sp N fl tl G y (Permutation_in _ (Permutation_sym HP) Y)). lia.
      - intros inp k Hk Ho. apply own_cov; auto.
      - intros k R M Hk Ho Hn. destruct (num_map true k R M Hk Ho Hn) as (f & F1 & F2 & F3 & F4 & F5).
        destruct (old_map d F F' (al_old _ _ A) M f F1) as (f' & X1 & X2 & X3 & X4 & X5 & X6).
        exists (map amap_of (ml_maps F')), (amap_of f'). split; [reflexivity|]. apply aread_iff in X1. destruct X1 as [Y1 Y2].
        split; [apply aread_iff; split; auto; apply map_nth_error; auto|]. unfold amap_of. cbn [am_base am_from].
        assert (RQ : m_req f' = m_req f).
        { pose proof (al_old _ _ A) as (_ & _ & _ & H4). destruct (H4 M f F1) as [E|(kk & _ & E)]; assert (E' : aread (ml_maps F') M = Ok f') by (apply aread_iff; auto); rewrite E' in E; injection E as ->; reflexivity. }
        rewrite X3, RQ. split; auto. split; auto. change (cx_es cx) with es. unfold fromS. change (adr es fl me F (fst k)) with (ad true k). rewrite F2. unfold org. ring.
      - intros k R M Hk Ho Hn. destruct (num_map false k R M Hk Ho Hn) as (f & F1 & F2 & F3 & F4 & F5).
        exists (map amap_of (ml_maps t)), (amap_of f). split; [reflexivity|]. apply aread_iff in F1. destruct F1 as [Y1 Y2].
        split; [apply aread_iff; split; auto; apply map_nth_error; auto|]. unfold amap_of. cbn [am_base am_from].
        split; auto. split; auto. change (cx_es cx) with es. unfold toS. change (adr es tl me t (fst k)) with (ad false k). rewrite F2. unfold org. ring.
    Qed.
    Lemma the_plan : exists s idf u, plan cx o = Ok s /\
      program (den2 cx place T oth) (as_acts s) = repeat skip u ++ prog (rl_trs fl) (rl_trs tl) N me red D cx place T fromS toS idf /\
      Reserved (rl_trs fl) (rl_trs tl) N D cx (as_acts s) idf.
    Proof.
      apply (plan_ok (rl_trs fl) (rl_trs tl) N me red D o cx place T oth fromS toS); auto.
      - intros k Hk. pose proof (seg_lt k Hk). unfold pcnt. pose proof (gd_width _ _ _ _ G).
        destruct k as [a b]. unfold D in Hk. rewrite segs_segsZ in Hk. apply segsZ_in in Hk; [|apply pos_sorted; auto]. destruct Hk as (_ & B1 & B2 & _). cbn [fst snd] in *.
        apply in_map_iff in B1, B2. destruct B1 as (x & <- & X). destruct B2 as (y & <- & Y).
        pose proof (g_border sp N fl tl G x (Permutation_in _ (Permutation_sym HP) X)). pose proof (g_border sp N fl tl G y (Permutation_in _ (Permutation_sym HP) Y)). lia.
      - apply seg_nodup.
      - intros inp k Hk Ho. apply own_cov; auto.
      - intros k R M Hk Ho Hn. destruct (num_map true k R M Hk Ho Hn) as (f & F1 & F2 & F3 & F4 & F5).
        destruct (old_map d F F' (al_old _ _ A) M f F1) as (f' & X1 & X2 & X3 & X4 & X5 & X6).
        exists (map amap_of (ml_maps F')), (amap_of f'). split; [reflexivity|]. apply aread_iff in X1. destruct X1 as [Y1 Y2].
        split; [apply aread_iff; split; auto; apply map_nth_error; auto|]. unfold amap_of. cbn [am_base am_from].
        assert (RQ : m_req f' = m_req f).
        { pose proof (al_old _ _ A) as (_ & _ & _ & H4). destruct (H4 M f F1) as [E|(kk & _ & E)]; assert (E' : aread (ml_maps F') M = Ok f') by (apply aread_iff; auto); rewrite E' in E; injection E as ->; reflexivity. }
        rewrite X3, RQ. split; auto. split; auto. change (cx_es cx) with es. unfold fromS. change (adr es fl me F (fst k)) with (ad true k). rewrite F2. unfold org. ring.
      - intros k R M Hk Ho Hn. destruct (num_map false k R M Hk Ho Hn) as (f & F1 & F2 & F3 & F4 & F5).
        exists (map amap_of (ml_maps t)), (amap_of f). split; [reflexivity|]. apply aread_iff in F1. destruct F1 as [Y1 Y2].
        split; [apply aread_iff; split; auto; apply map_nth_error; auto|]. unfold amap_of. cbn [am_base am_from].
        split; auto. split; auto. change (cx_es cx) with es. unfold toS. change (adr es tl me t (fst k)) with (ad false k). rewrite F2. unfold org. ring.
    Qed.
  End Here.
End One.
