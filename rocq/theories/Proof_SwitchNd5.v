(* All processes of a switch of a 2d or 3d container with the TCP2 backend together. *)
From Coq Require Import ZArith List Bool Lia ZifyBool ZifyNat Sorted Permutation.
From Verif Require Import Base ListFacts Model_Space Model_RangeList Model_Mem Model_Layout Model_Partitioner Model_Group Model_Transition Model_Data
  Model_Action Model_ActionTrans Model_ActionExec Model_ActionExec2 Model_Net Model_Switch Model_KVS Model_SpaceStore Model_Tcp2 Model_Tcp2Exec.
From Verif Require Import Spec_Space Spec_RangeList Spec_Partitioner Spec_Layout Spec_Data Spec_Transition Spec_Action Spec_ActionTrans Spec_Reduce Spec_Switch Spec_Tcp2Exec Spec_SwitchNd.
From Verif Require Import Proof_RangeList Proof_RangeList4 Proof_RangeList5 Proof_Partitioner Proof_Partitioner2 Proof_Layout Proof_Layout2 Proof_Layout4 Proof_Layout6 Proof_Data Proof_Data2 Proof_Data3 Proof_Data4 Proof_Data5 Proof_Data6 Prop_Layout Prop_Data
  Proof_Comb3 Proof_Reduce1 Proof_Switch7 Proof_Switch8 Proof_Tcp2Exec1 Proof_Tcp2Exec2 Proof_Trans6 Proof_Trans7 Proof_SwitchNd1 Proof_SwitchNd2 Proof_SwitchNd3 Proof_SwitchNd4.
Import ListNotations.
Open Scope Z_scope.

Lemma addr_fun lm i a b : AddrOf lm i a -> AddrOf lm i b -> a = b.
Proof. intros (o & E & ->) (o' & E' & ->). congruence. Qed.

Section Elem.
  Variable sp : space.
  Variable es : Z.
  Let d := sp_dims sp.
  Hypothesis Hdim : d = 2%nat \/ d = 3%nat.
  Hypothesis Hes : 0 < es.
  Variable ml : mlist.
  Hypothesis HG : GoodList sp es ml.
  Variables (k : Z) (m : mapping) (lm : lmap) (B : box).
  Hypothesis A : At sp es ml k m lm B.

  Lemma elem_ad i : InBox d i (r_box (m_req m)) -> ElemAt sp es ml k i (ad lm i).
  Proof.
    intros Hi. exists m. split; [apply (at_map _ _ _ _ _ _ _ A)|]. cbv zeta. split; intros Ed.
    - destruct (C46_map_2d sp es ml k m Ed Hes HG (at_map _ _ _ _ _ _ _ A)) as (base & ys & yt & xs & lm' & B' & N & E1 & E2 & E3 & E4 & E5).
      assert (lm' = lm) by (pose proof (bk_lm _ _ _ _ _ _ _ _ E2); pose proof (at_lm _ _ _ _ _ _ _ A); congruence). subst lm'.
      assert (Hi2 : InBox 2 i (r_box (m_req m))) by (rewrite <- Ed; exact Hi). pose proof (proj1 (E4 i) Hi2) as [R1 R2].
      exists base, ys, yt, xs. split; [exact E1|]. split; [lia|]. split; [lia|]. rewrite (addr_ad _ _ _ (E5 i Hi2)). reflexivity.
    - destruct (C46_map_3d sp es ml k m Ed Hes HG (at_map _ _ _ _ _ _ _ A)) as (base & zs & zt & ys & yt & xs & lm' & B' & N & E1 & E2 & E3 & E4 & E5).
      assert (lm' = lm) by (pose proof (bk_lm _ _ _ _ _ _ _ _ E2); pose proof (at_lm _ _ _ _ _ _ _ A); congruence). subst lm'.
      assert (Hi2 : InBox 3 i (r_box (m_req m))) by (rewrite <- Ed; exact Hi). pose proof (proj1 (E4 i) Hi2) as (R1 & R2 & R3).
      exists base, zs, zt, ys, yt, xs. split; [exact E1|]. split; [lia|]. split; [lia|]. split; [lia|]. rewrite (addr_ad _ _ _ (E5 i Hi2)). reflexivity.
  Qed.
  Lemma elem_is i a : InBox d i (r_box (m_req m)) -> ElemAt sp es ml k i a -> a = ad lm i.
  Proof.
    intros Hi (m' & E0 & H2 & H3). assert (m' = m) by (pose proof (at_map _ _ _ _ _ _ _ A); congruence). subst m'. destruct (elem_ad i Hi) as (m' & E0' & H2' & H3'). assert (m' = m) by congruence. subst m'.
    destruct Hdim as [Ed|Ed].
    - destruct (H2 Ed) as (a1 & a2 & a3 & a4 & E1 & _ & _ & ->). destruct (H2' Ed) as (b1 & b2 & b3 & b4 & E1' & _ & _ & E). rewrite E. rewrite E1 in E1'. injection E1' as <- <- <- <-. reflexivity.
    - destruct (H3 Ed) as (a1 & a2 & a3 & a4 & a5 & a6 & E1 & _ & _ & _ & ->). destruct (H3' Ed) as (b1 & b2 & b3 & b4 & b5 & b6 & E1' & _ & _ & _ & E). rewrite E. rewrite E1 in E1'. injection E1' as <- <- <- <- <- <-. reflexivity.
  Qed.
  Lemma view_sub b : SubBox d b B -> View sp es lm b.
  Proof. intros H. destruct (at_view _ _ _ _ _ _ _ A) as [V1 V2 (B' & n & V3 & V4)]. constructor; auto. exists B', n. split; auto. intros i Hi. apply V4, H, Hi. Qed.
End Elem.

Lemma alloc_nd d tl me F P addr : valid_dims (sp_dims (dc_space d)) -> 0 < dc_es d -> dc_map0 d = None -> GoodList (dc_space d) (dc_es d) F -> OwnRanges (dc_space d) tl me ->
  prepare_maps d tl me = Ok P -> FreshFor (dc_es d) addr P (blocks F) -> exists t F', Alloc d tl me F P addr t F'.
Proof.
  intros Hd Hes Hm0 HGF HOR HPr HFr. set (sp := dc_space d) in *. set (es := dc_es d) in *.
  destruct (prepare_ok d sp tl me Hm0 HOR) as (P' & E & HR & HC). assert (P' = P) by congruence. subst P'.
  destruct (switch_ok sp es Hd Hes P (Some F) addr HR (or_introl HGF) HFr) as (t1 & fl' & t & E1 & E2 & G1 & G2 & G3 & G4 & G5 & _).
  destruct fl' as [F'|]; [|destruct G3]. exists t, F'. constructor; auto.
  - eauto.
  - eapply covers_req; eauto.
  - intros k m Hk. destruct (G4 k m Hk) as [(f & f' & j & g & fj & X1 & X2 & X3 & X4 & X5 & _)|(lm & B & X1 & X2 & X3 & _)].
    + injection X1 as <-. injection X2 as <-. left. eauto.
    + right. intros j f Hj. rewrite X1, X3.
      assert (Hk' : exists mk, aread (ml_maps P) k = Ok mk /\ m_count mk = m_count m).
      { apply aread_iff in Hk. destruct Hk as [K0 K1]. assert (H := map_nth_error m_req _ _ K1). rewrite G2, nth_error_map in H.
        destruct (nth_error (ml_maps P) (Z.to_nat k)) as [mk|] eqn:Em; [|discriminate]. exists mk. split; [apply aread_iff; auto|].
        destruct HR as (_ & _ & R3). destruct (R3 k mk) as (b & ly & R4 & R5 & R6 & _); [apply aread_iff; auto|].
        pose proof (bk_count _ _ _ _ _ _ _ _ B) as C1. pose proof (bk_ne _ _ _ _ _ _ _ _ B) as C2.
        apply (Proof_Layout2.vol_of_count _ _ _ Hd C2) in C1. simpl in H. injection H as H. rewrite C1, <- H, R4. reflexivity. }
      destruct Hk' as (mk & K1 & K2). destruct (HFr k mk K1) as (_ & W & _).
      specialize (W (m_start f, m_cap f)). unfold AwayB in W. cbn [fst snd] in W. rewrite K2 in W. apply W.
      apply aread_iff in Hj. destruct Hj as [_ Hj]. apply nth_error_In in Hj. apply (in_map (fun m => (m_start m, m_cap m))) in Hj. exact Hj.
  - intros j g Hj H0. eapply G5; eauto.
Qed.

Section All.
  Variable dc : dcont.
  Let sp := dc_space dc.
  Let es := dc_es dc.
  Let d := sp_dims sp.
  Hypothesis Hes : 0 < es.
  Variable N : Z.
  Variables fl tl : rlist.
  Hypothesis G : GoodNd sp N fl tl.
  Hypothesis NeF : NoEmpty fl.
  Hypothesis NeT : NoEmpty tl.
  Hypothesis U : Unique fl.
  Hypothesis OD : OwnDisjoint fl.
  Hypothesis Ord : forall s t, 0 <= s < N -> 0 <= t < N -> s <> t -> AtMostOne fl s \/ AtMostOne tl t.
  Hypothesis Hsz : exists n, HasCount d (sp_box sp) n /\ n < 2 ^ 31.
  Variable qb : list border -> list border.
  Variable x : Z -> proc.
  Hypothesis HX : forall p, 0 <= p < N -> ReadyNd dc qb N fl tl p (x p).
  Variable bin : Z -> Z -> bool.
  Hypothesis Hfit : FitsNd sp bin es.
  Variable gen : bool.
  Hypothesis Hgen : gen = true \/ OneMap fl /\ OneMap tl.
  Variables t F' : Z -> mlist.
  Hypothesis HA : forall p, 0 <= p < N -> Alloc dc tl p (pc_old (x p)) (pc_next (x p)) (pc_addr (x p)) (t p) (F' p).
  Let m0 p := pc_mem (x p).
  Local Notation F t := (numbered (mine t (rl_trs fl))).
  Local Notation T t := (numbered (mine t (rl_trs tl))).
  Let S p lm i := 0 <= p < N /\ Own sp es fl p (pc_old (x p)) lm i.
  Let D p lm i := 0 <= p < N /\ Own sp es tl p (t p) lm i.

  Lemma Hdim : d = 2%nat \/ d = 3%nat. Proof. apply (gn_dims _ _ _ _ G). Qed.
  Lemma Hd : valid_dims d. Proof. unfold valid_dims. pose proof Hdim. tauto. Qed.
  Lemma Sfl : rl_space fl = sp. Proof. apply G. Qed.
  Lemma Stl : rl_space tl = sp. Proof. apply G. Qed.

  Lemma S_same p f i j : S p f i -> SameIndex d i j -> S p f j /\ ad f i = ad f j.
  Proof. intros [Hp H] HS. destruct (HX p Hp). destruct (own_same sp es Hd fl p (pc_old (x p)) f i j) as [X1 X2]; auto using Sfl. split; auto. split; auto. Qed.
  Lemma D_same p f i j : D p f i -> SameIndex d i j -> D p f j /\ ad f i = ad f j.
  Proof. intros [Hp H] HS. destruct (HA p Hp). destruct (own_same sp es Hd tl p (t p) f i j) as [X1 X2]; auto using Stl. split; auto. split; auto. Qed.
  Lemma DDl p f g i j : D p f i -> D p g j -> SameIndex d i j /\ ad f i = ad g j \/ Away (ad f i) es (ad g j) es.
  Proof. intros [Hp H] [_ H']. destruct (HA p Hp). apply (own_own sp es Hd tl p (t p) f g i j); auto using Stl. Qed.
  Lemma SDl p f g i j : S p f i -> D p g j -> SameIndex d i j /\ ad f i = ad g j \/ Away (ad f i) es (ad g j) es.
  Proof. intros [Hp H] [_ H']. destruct (HA p Hp). destruct (HX p Hp). apply (own_sd dc Hd (pc_old (x p)) (F' p) (t p) fl tl p); auto using Sfl, Stl. Qed.
  Lemma Uql s f s' f' i : S s f i -> S s' f' i -> rdb (m0 s) (ad f i) es = rdb (m0 s') (ad f' i) es.
  Proof.
    intros [Hs (n & y & mp & E1 & E2 & E3 & E4)] [Hs' (n' & y' & mp' & E1' & E2' & E3' & E4')].
    assert (s = s') by (apply (U s s' i); [exists n, y|exists n', y']; rewrite Sfl; auto). subst s'.
    assert (n = n') by (apply (OD s n n' y y' i); rewrite ?Sfl; auto). subst n'. assert (y' = y) by congruence. subst y'. assert (mp' = mp) by congruence. subst mp'. assert (f' = f) by congruence. subst f'. reflexivity.
  Qed.

  Lemma ops_nd p : 0 <= p < N -> NdOps sp N fl tl p (pc_ops (x p)).
  Proof.
    intros Hp. destruct (HX p Hp) as [_ _ _ _ _ X6 (tr & X7 & X8)]. rewrite (nd_unfold qb _ N p fl tl _ _ _ G X6) in X7. destruct (nd_none sp N fl tl G p Hp) as (o & O1 & O2).
    fold sp in X7. rewrite O1 in X7. cbn [obind] in X7. injection X7 as <-. cbn [tr_ops] in X8. rewrite <- X8. exact O2.
  Qed.

  (* maps of ranges *)
  Lemma F_at p k y : 0 <= p < N -> In (k, y) (F p) -> exists m lm B, At sp es (pc_old (x p)) (t_mapNo y) m lm B /\ SubBox d (t_box y) (r_box (m_req m)) /\
    tcp_map es (Some (F' p)) (t_mapNo y) = Ok lm /\ forall i, InBox d i (t_box y) -> S p lm i.
  Proof.
    intros Hp Hy. destruct (inF _ _ _ _ G NeF p k y Hp Hy) as (R & _). destruct (HX p Hp) as [X1 X2 _ _ _ _ _]. destruct (cv_in _ _ _ X2 k y R) as (m & C1 & C2). rewrite Sfl in C2.
    destruct (map_at sp es Hd _ _ m X1 C1) as (lm & B & A). exists m, lm, B. split; [exact A|]. split; [exact C2|]. split.
    - destruct (old_map dc _ _ (al_old _ _ _ _ _ _ _ _ (HA p Hp)) _ _ C1) as (f' & Hf' & EL & _). unfold tcp_map.
      assert (Lf : (Z.to_nat (t_mapNo y) < length (ml_maps (F' p)))%nat) by (apply aread_iff in Hf'; apply nth_error_Some; destruct Hf'; congruence).
      apply aread_iff in C1. replace (t_mapNo y <? Z.of_nat (length (ml_maps (F' p)))) with true by lia. cbn [cassert]. rewrite Hf'. cbn [obind]. fold es in EL. rewrite EL. apply (at_lm _ _ _ _ _ _ _ A).
    - intros i Hi. split; auto. exists k, y, m. split; auto. split; auto. split; auto. apply (at_lm _ _ _ _ _ _ _ A).
  Qed.
  Lemma T_at p k y : 0 <= p < N -> In (k, y) (T p) -> exists m lm B, At sp es (t p) (t_mapNo y) m lm B /\ SubBox d (t_box y) (r_box (m_req m)) /\
    tcp_map es (Some (t p)) (t_mapNo y) = Ok lm /\ forall i, InBox d i (t_box y) -> D p lm i.
  Proof.
    intros Hp Hy. destruct (inT _ _ _ _ G NeT p k y Hp Hy) as (R & _). destruct (HA p Hp) as [_ X1 X2 _ _ _]. destruct (cv_in _ _ _ X2 k y R) as (m & C1 & C2). rewrite Stl in C2.
    destruct (map_at sp es Hd _ _ m X1 C1) as (lm & B & A). exists m, lm, B. split; [exact A|]. split; [exact C2|]. split.
    - unfold tcp_map.
      assert (Lf : (Z.to_nat (t_mapNo y) < length (ml_maps (t p)))%nat) by (pose proof C1 as Q; apply aread_iff in Q; apply nth_error_Some; destruct Q; congruence).
      pose proof C1 as C1'. apply aread_iff in C1'. replace (t_mapNo y <? Z.of_nat (length (ml_maps (t p)))) with true by lia. cbn [cassert]. rewrite C1. cbn [obind]. apply (at_lm _ _ _ _ _ _ _ A).
    - intros i Hi. split; auto. exists k, y, m. split; auto. split; auto. split; auto. apply (at_lm _ _ _ _ _ _ _ A).
  Qed.
  Lemma lmv_is ml k lm : tcp_map es (Some ml) k = Ok lm -> lmv es ml k = lm.
  Proof. unfold lmv. intros ->. reflexivity. Qed.
  Lemma HmF p y : 0 <= p < N -> In y (F p) -> tcp_map es (Some (F' p)) (t_mapNo (snd y)) = Ok (lmv es (F' p) (t_mapNo (snd y))).
  Proof. intros Hp Hy. destruct y as [k y]. destruct (F_at p k y Hp Hy) as (m & lm & B & _ & _ & E & _). cbn [snd]. rewrite (lmv_is _ _ _ E). exact E. Qed.
  Lemma HmT p y : 0 <= p < N -> In y (T p) -> tcp_map es (Some (t p)) (t_mapNo (snd y)) = Ok (lmv es (t p) (t_mapNo (snd y))).
  Proof. intros Hp Hy. destruct y as [k y]. destruct (T_at p k y Hp Hy) as (m & lm & B & _ & _ & E & _). cbn [snd]. rewrite (lmv_is _ _ _ E). exact E. Qed.

  Lemma F_sub p y : 0 <= p < N -> In y (F p) -> SubBox d (t_box (snd y)) (sp_box sp).
  Proof.
    intros Hp Hy. destruct y as [k y]. destruct (inF _ _ _ _ G NeF p k y Hp Hy) as (R & _). destruct (frozen_range_in _ _ _ _ (gn_fl _ _ _ _ G) R) as [H1 _].
    destruct (FrozenList_Frozen _ (gn_fl _ _ _ _ G)) as [Fz _]. unfold d. rewrite <- Sfl. apply (frozen_sub fl); auto. apply G.
  Qed.
  Lemma isect_ok p q a b bx : 0 <= p < N -> 0 <= q < N -> In a (F p) -> In b (T q) -> In bx (isect d a b) -> NonEmpty d bx /\ vol d bx < 2 ^ 31.
  Proof.
    intros Hp Hq Ha Hb Hx.
    assert (Hn : NonEmpty d bx).
    { apply (isect_nonempty sp a b bx); auto; [destruct a as [k a]; apply (inF _ _ _ _ G NeF p k a Hp Ha)|destruct b as [k b]; apply (inT _ _ _ _ G NeT q k b Hq Hb)]. }
    split; auto. destruct Hsz as (n & C1 & C2).
    assert (Hs : SubBox d bx (sp_box sp)). { intros i Hi. apply (F_sub p a Hp Ha). apply (isect_in sp a b bx i Hx) in Hi. apply Hi. }
    pose proof (vol_sub d bx _ Hd Hn Hs) as V. rewrite (vol_of_count _ _ n Hd (nonempty_sub _ _ _ Hn Hs) C1) in C2. lia.
  Qed.

  Lemma nd_code p q : 0 <= p < N -> is_qsort (cmp2phase p) q ->
    tcp_code q (trans_ctx dc N p (pc_ops (x p)) (Some (F' p)) (t p)) (pc_ops (x p)) (Some (F' p)) (t p) = Ok (flat_map (proj1u p) (allm dc N fl tl F' t)).
  Proof. intros Hp Hq. apply (code_nd dc N fl tl G NeF NeT U Ord F' t HmF HmT isect_ok p Hp _ (ops_nd p Hp) q Hq). Qed.

  Lemma in_msgs u s r : 0 <= s < N -> 0 <= r < N -> In u (msgs dc fl tl F' t s r) -> exists a b bx, In a (F s) /\ In b (T r) /\ In bx (isect d a b) /\
    u = UXfer s (lmv es (F' s) (t_mapNo (snd a))) bx r (lmv es (t r) (t_mapNo (snd b))) RO_None.
  Proof.
    intros Hs Hr H. unfold msgs in H. apply in_flat_map in H. destruct H as (a & Ha & H). apply in_flat_map in H. destruct H as (b & Hb & H). apply in_map_iff in H. destruct H as (bx & <- & Hx). exists a, b, bx. auto.
  Qed.
  Lemma all_uok : Forall (fun u => uok N (u, Fresh)) (allm dc N fl tl F' t).
  Proof.
    apply Forall_forall. intros u Hu. apply in_allm in Hu. destruct Hu as (s & r & Hs & Hr & Hn & Hu). apply in_msgs in Hu; auto. destruct Hu as (a & b & bx & _ & _ & _ & ->). cbn. auto.
  Qed.
  Lemma all_UOk : Forall (UOk sp es S D) (allm dc N fl tl F' t).
  Proof.
    apply Forall_forall. intros u Hu. apply in_allm in Hu. destruct Hu as (s & r & Hs & Hr & Hn & Hu). apply in_msgs in Hu; auto. destruct Hu as (a & b & bx & Ha & Hb & Hx & ->).
    destruct (isect_ok s r a b bx Hs Hr Ha Hb Hx) as [V1 V2]. pose proof (fun i => isect_in sp a b bx i Hx) as HI. destruct a as [ka a], b as [kb b]. cbn [snd] in *.
    destruct (F_at s ka a Hs Ha) as (mf & lf & Bf & AF & SF & EF & OF). destruct (T_at r kb b Hr Hb) as (mt & lt & Bt & AT & ST & ET & OT).
    rewrite (lmv_is _ _ _ EF), (lmv_is _ _ _ ET). cbn [UOk].
    split; [apply (view_sub sp es _ _ _ _ _ AF); intros i Hi; apply (at_req _ _ _ _ _ _ _ AF), SF; apply HI in Hi; apply Hi|].
    split; [apply (view_sub sp es _ _ _ _ _ AT); intros i Hi; apply (at_req _ _ _ _ _ _ _ AT), ST; apply HI in Hi; apply Hi|].
    split; [lia|]. split; auto. split; auto. intros i Hi. apply HI in Hi. split; [apply OF|apply OT]; apply Hi.
  Qed.

  Definition WM : list entry := rev (flat_map dst_of (allm dc N fl tl F' t)).
  Lemma nd_run rd code : (forall p, 0 <= p < N -> code p = flat_map (proj1u p) (allm dc N fl tl F' t)) ->
    exists E, TcpEnds rd gen bin sp N (tnet_start code m0) (fun p mm => mm = E p) /\ NInv sp es S D m0 WM E.
  Proof.
    intros Hc. destruct (msgs_run sp es Hd Hes S D m0 S_same D_same SDl DDl Uql rd gen bin Hfit _ all_UOk [] m0 (ninv_start sp es S D m0 Uql)) as (E & HE & HI).
    rewrite app_nil_r in HI. exists E. split; [|exact HI]. apply (all_end rd gen bin sp N _ code m0 E all_uok Hc HE).
  Qed.
  Lemma in_WM p l b : In (p, l, b) WM <-> exists s a y, 0 <= s < N /\ 0 <= p < N /\ s <> p /\ In a (F s) /\ In y (T p) /\ In b (isect d a y) /\ l = lmv es (t p) (t_mapNo (snd y)).
  Proof.
    unfold WM. rewrite <- in_rev, in_flat_map. split.
    - intros (u & Hu & H). apply in_allm in Hu. destruct Hu as (s & r & Hs & Hr & Hn & Hu). apply in_msgs in Hu; auto. destruct Hu as (a & y & bx & Ha & Hy & Hx & ->). cbn [dst_of] in H. destruct H as [H|[]]. injection H as <- <- <-.
      exists s, a, y. auto 10.
    - intros (s & a & y & Hs & Hp & Hn & Ha & Hy & Hb & ->). exists (UXfer s (lmv es (F' s) (t_mapNo (snd a))) b p (lmv es (t p) (t_mapNo (snd y))) RO_None). split; [|left; reflexivity]. apply in_allm. exists s, p. split; auto. split; auto. split; auto.
      apply in_flat_map. exists a. split; auto. apply in_flat_map. exists y. split; auto. unfold xm. apply in_map_iff. exists b. split; [reflexivity|auto].
  Qed.

  (* local copies of process p *)
  Definition loc (p : Z) (o : localTOp) : entry := (p, lmv es (t p) (lo_toMapNo o), lo_box o).
  Lemma local_in p z : 0 <= p < N -> In z (tp_local (pc_ops (x p))) -> exists a y b, In a (F p) /\ In y (T p) /\ In b (isect d a y) /\ z = lo_of a y b.
  Proof.
    intros Hp. rewrite (no_local _ _ _ _ _ _ (ops_nd p Hp)). unfold locals. intros H. apply in_flat_map in H. destruct H as (a & Ha & H). apply in_flat_map in H. destruct H as (y & Hy & H). apply in_map_iff in H. destruct H as (b & <- & Hb).
    exists a, y, b. auto.
  Qed.
  Lemma locals_run p ops : 0 <= p < N -> (forall z, In z ops -> In z (tp_local (pc_ops (x p)))) -> forall W M, NInv sp es S D m0 W M ->
    exists M', ofold (copy_map gen dc (t p) (F' p)) ops (M p) = Ok (M' p) /\ NInv sp es S D m0 (rev (map (loc p) ops) ++ W) M'.
  Proof.
    intros Hp. induction ops as [|z ops IH]; intros Hin W M HI; cbn [ofold map rev app].
    - exists M. split; auto.
    - destruct (local_in p z Hp (Hin z (or_introl eq_refl))) as (a & y & b & Ha & Hy & Hb & Ez).
      destruct (isect_ok p p a y b Hp Hp Ha Hy Hb) as [V1 V2]. pose proof (fun i => isect_in sp a y b i Hb) as HB. destruct a as [ka a], y as [ky y]. cbn [snd] in *.
      destruct (F_at p ka a Hp Ha) as (mf & lf & Bf & AF & SF & EF & OF). destruct (T_at p ky y Hp Hy) as (mt & lt & Bt & AT & ST & ET & OT).
      destruct (HA p Hp) as [_ A2 A3 A4 A5 A6]. destruct (HX p Hp) as [X1 X2 _ _ _ _ _].
      destruct (copy_nd dc Hd (pc_old (x p)) (F' p) (t p) X1 A4 A5 A6 gen z b (M p) mf mt lf lt Bf Bt) as (mm & C1 & C2).
      + rewrite Ez. reflexivity.
      + exact V1.
      + fold sp. fold d. change two64 with (2 ^ 31 * 2 ^ 33). lia.
      + rewrite Ez. exact AF.
      + rewrite Ez. exact AT.
      + intros i Hi. apply SF. apply HB in Hi. apply Hi.
      + intros i Hi. apply ST. apply HB in Hi. apply Hi.
      + destruct Hgen as [Hg|[Hg1 Hg2]]; [left; auto|right]. rewrite Ez. cbn [lo_of lo_fromMapNo lo_toMapNo snd].
        split; [apply (Hg1 p ka); apply (inF _ _ _ _ G NeF p ka a Hp Ha)|apply (Hg2 p ky); apply (inT _ _ _ _ G NeT p ky y Hp Hy)].
      + rewrite C1. cbn [obind].
        assert (HI' : NInv sp es S D m0 ((p, lt, b) :: W) (upd M p mm)).
        { apply (ninv_move sp es Hd Hes S D m0 S_same D_same SDl DDl Uql W M p lf p lt b mm HI); auto. intros i Hi. apply HB in Hi. split; [apply OF|apply OT]; apply Hi. }
        destruct (IH (fun z Hz => Hin z (or_intror Hz)) _ _ HI') as (M' & I1 & I2). exists M'. unfold upd in I1 at 1. rewrite (Z.eqb_refl p) in I1. split; [exact I1|].
        rewrite <- app_assoc. cbn [app]. unfold loc at 2. rewrite Ez. cbn [lo_of lo_toMapNo lo_box snd]. rewrite (lmv_is _ _ _ ET). exact I2.
  Qed.

  Lemma nd_finish ini E p : 0 <= p < N -> NInv sp es S D m0 WM E -> exists m' fr_,
    do_transition gen dc ini (fun _ _ _ => Ok (E p)) (pc_addr (x p)) (pc_ops (x p)) (Some (pc_old (x p))) (pc_next (x p)) (m0 p) = Ok (t p, m', fr_) /\
    (forall n y i s k v, rl_tidrange tl p n = Ok (Some y) -> InBox d i (t_box y) -> HoldsAt sp es fl s (pc_old (x s)) (m0 s) k i v -> HoldsAt sp es tl p (t p) m' n i v) /\
    (forall a, (forall b, In b (blocks (t p)) -> ~ region (fst b) (snd b) a) -> m' a = m0 p a).
  Proof.
    intros Hp HE. pose proof (HA p Hp) as [(t1 & A1 & A2) A3 A4 A5 A6 A7]. pose proof (ops_nd p Hp) as HO.
    unfold do_transition. rewrite A1. cbn [obind fst snd]. rewrite A2. cbn [obind].
    assert (EM : exists M1, (match tp_send (pc_ops (x p)), tp_recv (pc_ops (x p)), tp_red (pc_ops (x p)) with [], [], [] => Ok (m0 p) | _, _, _ => Ok (E p) end) = Ok (M1 p) /\ NInv sp es S D m0 WM M1).
    { destruct (tp_send (pc_ops (x p))) eqn:E1; [|eauto]. destruct (tp_recv (pc_ops (x p))) eqn:E2; [|eauto]. destruct (tp_red (pc_ops (x p))) eqn:E3; [|eauto]. exists (upd E p (m0 p)).
      split; [unfold upd; rewrite (Z.eqb_refl p); auto|]. apply (ninv_idle sp es S D m0 Uql WM E p HE). intros l b Hw. apply in_WM in Hw. destruct Hw as (s & a & y & Hs & _ & Hn & Ha & Hy & Hb & _).
      destruct (isect_ok s p a y b Hs Hp Ha Hy Hb) as [(i & Hi) _]. apply (isect_in sp a y b i Hb) in Hi. destruct Hi as [I1 I2].
      destruct (nd_at sp N fl tl G NeF NeT U p _ Hp HO i) as [_ _ R _ _]. destruct a as [ka a], y as [ky y].
      destruct (proj2 (R s)) as (z & Z1 & _); [|rewrite E2 in Z1; destruct Z1]. split; auto. split; [apply (inF _ _ _ _ G NeF s ka a Hs Ha); auto|apply (inT _ _ _ _ G NeT p ky y Hp Hy); auto]. }
    destruct EM as (M1 & EM & I1). rewrite EM. cbn [obind].
    assert (EL : exists M2, (match tp_local (pc_ops (x p)) with [] => Ok (M1 p) | _ => copy_maps gen dc (tp_local (pc_ops (x p))) (t p) (Some (F' p)) (M1 p) end) = Ok (M2 p) /\
      NInv sp es S D m0 (rev (map (loc p) (tp_local (pc_ops (x p)))) ++ WM) M2).
    { destruct (locals_run p (tp_local (pc_ops (x p))) Hp (fun z Hz => Hz) WM M1 I1) as (M2 & L1 & L2). exists M2. split; [|exact L2].
      destruct (tp_local (pc_ops (x p))) as [|z r] eqn:EL; [exact L1|]. unfold copy_maps. cbn [cassert]. rewrite (proj1 A5). exact L1. }
    destruct EL as (M2 & EL & I2). rewrite EL. cbn [obind]. rewrite (no_init _ _ _ _ _ _ HO). cbn [obind].
    assert (RES : ml_res (F' p) = None) by apply A5. rewrite RES. unfold free_list. rewrite RES. cbn [cassert obind].
    exists (M2 p). eexists. split; [reflexivity|]. destruct I2 as [_ ID IF]. split.
    - intros n y i s k v Hy Hi (a & ad_ & Ra & Ia & Ea & Ev).
      assert (Hs : 0 <= s < N) by (apply (ownsF _ _ _ _ G s i); exists k, a; rewrite Sfl; auto).
      assert (HFa : In (k, a) (F s)) by (apply numbered_range; auto; [apply G|rewrite (gn_fltids _ _ _ _ G); auto]).
      assert (HTy : In (n, y) (T p)) by (apply numbered_range; auto; [apply G|rewrite (gn_tltids _ _ _ _ G); auto]).
      destruct (F_at s k a Hs HFa) as (mf & lf & Bf & AF & SF & EF & OF). destruct (T_at p n y Hp HTy) as (mt & lt & Bt & AT & ST & ET & OT).
      assert (ad_ = ad lf i) by (apply (elem_is sp es Hdim Hes (pc_old (x s)) (rn_old _ _ _ _ _ _ _ (HX s Hs)) _ mf lf Bf AF i); auto). subst ad_.
      exists y, (ad lt i). split; auto. split; auto. split; [apply (elem_ad sp es Hdim Hes (t p) A3 _ mt lt Bt AT i); auto|]. rewrite Ev. symmetry. apply (ID p lt i (OT i Hi)) with (s := s); [|apply OF; auto].
      destruct (isect_some sp (k, a) (n, y) i Ia Hi) as (b & B1 & B2). exists b. split; auto. apply in_app_iff. destruct (Z.eq_dec s p) as [->|Hn].
      + left. rewrite <- in_rev. apply in_map_iff. exists (lo_of (k, a) (n, y) b). split; [unfold loc; cbn [lo_of lo_toMapNo lo_box snd]; rewrite (lmv_is _ _ _ ET); reflexivity|].
        rewrite (no_local _ _ _ _ _ _ HO). unfold locals. apply in_flat_map. exists (k, a). split; auto. apply in_flat_map. exists (n, y). split; auto. apply in_map. auto.
      + right. apply in_WM. exists s, (k, a), (n, y). cbn [snd]. rewrite (lmv_is _ _ _ ET). auto 10.
    - intros a Ha. apply IF. intros l i [_ HO'] Hc. destruct (own_at sp es Hd tl p (t p) l i Stl A3 A4 HO') as (k & m & B & At_ & Bi & _). pose proof (at_block _ _ _ _ _ _ _ At_ i Bi) as Bk.
      apply (Ha (m_start m, m_cap m)).
      + pose proof (at_map _ _ _ _ _ _ _ At_) as Hk. apply aread_iff in Hk. destruct Hk as [_ Hk]. apply nth_error_In in Hk. apply (in_map (fun m => (m_start m, m_cap m))) in Hk. exact Hk.
      + unfold region. cbn [fst snd]. unfold cell, region in Hc. clear - Bk Hc. lia.
  Qed.
End All.
