(* The prepared sequence of a process in a switch without reductions. *)
From Coq Require Import ZArith List Bool Lia ZifyBool ZifyNat Sorted Permutation.
From Verif Require Import Base ListFacts Model_Space Model_Mem Model_Type Model_RangeList Model_Layout Model_Partitioner Model_Group Model_Transition Model_Data Model_Action Model_ActionTrans Model_ActionExec Model_ActionExec2 Model_Net Model_Switch Model_MpiPrepare.
From Verif Require Import Spec_Space Spec_RangeList Spec_Partitioner Spec_Type Spec_Layout Spec_Data Spec_Transition Spec_Action Spec_ActionTrans Spec_Async Spec_Reduce Spec_Net Spec_Switch Spec_MpiPrepare.
From Verif Require Import Proof_RangeList Proof_Partitioner2 Proof_RangeList4 Proof_RangeList5 Proof_Trans1 Proof_Trans2 Proof_Trans3 Proof_Trans4 Proof_Data Proof_Data3 Proof_Type Proof_Comb1 Proof_Comb2 Proof_Comb4 Proof_Action2 Proof_Group Proof_Net Proof_Reduce1 Proof_Reduce2 Proof_Reduce3 Proof_Reduce4 Proof_Switch1 Proof_Switch4 Proof_Switch8 Proof_Switch9 Proof_Switch10.
From Verif Require Import Proof_Action5 Proof_Switch3 Proof_Prepare1 Proof_Prepare2 Proof_Prepare3 Proof_Prepare4 Proof_Prepare5 Proof_CopyArea.
Import ListNotations.
Open Scope Z_scope.

Lemma fop_app {A} (R : A -> A -> Prop) l1 l2 : ForallOrdPairs R l1 -> ForallOrdPairs R l2 -> (forall a b, In a l1 -> In b l2 -> R a b) -> ForallOrdPairs R (l1 ++ l2).
Proof.
  intros H1 H2 HC. induction H1 as [|a l Ha Hl IH]; simpl; auto. constructor.
  - apply Forall_app. split; auto. apply Forall_forall. intros b Hb. apply HC; auto. left; auto.
  - apply IH. intros; apply HC; auto. right; auto.
Qed.
Lemma fop_flat_map {A B} (R : B -> B -> Prop) (f : A -> list B) l : NoDup l -> (forall k, In k l -> ForallOrdPairs R (f k)) ->
  (forall k k' a b, In k l -> In k' l -> k <> k' -> In a (f k) -> In b (f k') -> R a b) -> ForallOrdPairs R (flat_map f l).
Proof.
  intros ND H1 H2. induction l as [|k l IH]; simpl; [constructor|]. apply NoDup_cons_iff in ND. destruct ND as [N1 N2]. apply fop_app.
  - apply H1. left; auto.
  - apply IH; auto; intros; [apply H1; right; auto|]. eapply (H2 k0 k'); eauto; right; auto.
  - intros a b Ha Hb. apply in_flat_map in Hb as (k' & Hk' & Hb). apply (H2 k k'); auto; [left; auto|right; auto|intros <-; auto].
Qed.
Lemma fop_all {A} (R : A -> A -> Prop) l : (forall a b, In a l -> In b l -> R a b) -> ForallOrdPairs R l.
Proof.
  induction l as [|a l IH]; intros H; constructor.
  - apply Forall_forall. intros b Hb. apply H; [left; auto|right; auto].
  - apply IH. intros; apply H; right; auto.
Qed.
Lemma sum_app (l1 l2 : list Z) : fold_right Z.add 0 (l1 ++ l2) = fold_right Z.add 0 l1 + fold_right Z.add 0 l2.
Proof. induction l1; simpl; lia. Qed.

(* a data type with an operation on elements *)
Definition first_dt (es : Z) : dtype := mkDT (fun _ _ a _ => a) (fun _ c => repeat 0 (Z.to_nat (c * es))) (fun _ _ _ _ m => m) (fun _ _ _ _ m => m).
Lemma skipn_repeat {A} (v : A) n m : skipn n (repeat v m) = repeat v (m - n).
Proof. revert n. induction m; intros [|n]; simpl; auto. Qed.
Lemma firstn_repeat {A} (v : A) n m : (n <= m)%nat -> firstn n (repeat v m) = repeat v n.
Proof. revert n. induction m; intros [|n] H; simpl; auto; [lia|]. rewrite IHm by lia. auto. Qed.
Lemma first_elementwise es r : 0 < es -> Elementwise (first_dt es) es r.
Proof.
  intros He. constructor.
  - intros c Hc. unfold Sized. cbn [first_dt dt_red dt_init]. rewrite repeat_length. split; [nia|auto].
  - intros. reflexivity.
  - intros c j Hj. unfold element. cbn [first_dt dt_init]. rewrite skipn_repeat, firstn_repeat by nia. f_equal. lia.
Qed.

Lemma prog1 dn acts : (forall a, In a acts -> a_round a = 1) -> program dn acts = map dn acts.
Proof.
  intros H. unfold program. f_equal.
  assert (E : map Z.of_nat (seq 0 255) = [0; 1] ++ map Z.of_nat (seq 2 253)) by reflexivity. rewrite E, flat_map_app.
  rewrite (flat_map_nil _ (map Z.of_nat (seq 2 253))).
  2:{ intros k Hk. apply in_map_iff in Hk. destruct Hk as (j & <- & Hj). apply in_seq in Hj. apply Proof_Action5.filter_none. intros a Ha. apply H in Ha. unfold in_rd. lia. }
  cbn [flat_map]. rewrite (Proof_Action5.filter_none (in_rd 0)), (Proof_Switch3.filter_all (in_rd 1)) by (intros a Ha; apply H in Ha; unfold in_rd; lia).
  rewrite !app_nil_r. reflexivity.
Qed.

Section Sw.
  Variable d : dcont.
  Let sp := dc_space d.
  Let es := dc_es d.
  Hypothesis Hes : 0 < es.
  Hypothesis Hm0 : dc_map0 d = None.
  Variable N : Z.
  Variables fl tl : rlist.
  Hypothesis G : Good1d sp N fl tl.
  Variable red : redop.
  Variable qb : list border -> list border.
  Hypothesis Hq : c_qsort rb_cmp qb.
  Variable x : Z -> proc.
  Hypothesis HX : forall p, 0 <= p < N -> Ready d qb N fl tl red p (x p).
  Hypothesis H1 : OneOwner fl tl.
  Let T := first_dt es.
  Let D := segs (qb (allb (rl_trs fl) (rl_trs tl))).
  Let ins := pins (rl_trs fl) N.
  Let outs := pouts (rl_trs tl) N.
  Let HP := proj1 (g_sorted _ _ _ _ G qb Hq).
  Let HS := proj2 (g_sorted _ _ _ _ G qb Hq).

  Lemma HT1 : red <> RO_None -> Elementwise T es red.
  Proof. intros _. apply first_elementwise; auto. Qed.
  Lemma HR1 : Reducible es fl tl.
  Proof.
    intros a b ts Hab ND Hl Hi. assert (E : ts = []).
    { destruct ts as [|t ts]; auto. exfalso. set (i := mkIdx a 0 0).
      assert (Hai : a <= i0 i < b) by (cbn; lia). destruct (H1 i t) as (s & Hs); [left; apply (Hi i t Hai); left; auto|].
      assert (t = s) by (apply Hs, (Hi i t Hai); left; auto). subst t. destruct ts as [|t ts]; [apply Hl; reflexivity|].
      assert (t = s) by (apply Hs, (Hi i t Hai); right; left; auto). subst t. apply NoDup_cons_iff in ND. apply (proj1 ND). left; auto. }
    subst ts. cbn. split; [lia|]. split; [lia|]. lia.
  Qed.
  Lemma one_in k p : In k D -> In p (ins k) \/ In p (outs k) -> exists s, ins k = [s].
  Proof.
    intros Hk H. pose proof (seg_lt _ HS k Hk) as Lt. set (i := mkIdx (fst k) 0 0). assert (Hi : fst k <= i0 i < snd k) by (cbn; lia).
    assert (HO : forall t, In t (ins k) <-> Owns fl t i) by (intros t; apply (own_f d N fl tl G qb Hq k i t Hk Hi)).
    assert (HO2 : forall t, In t (outs k) <-> Owns tl t i) by (intros t; apply (own_t d N fl tl G qb Hq k i t Hk Hi)).
    destruct (H1 i p) as (s & Hs); [rewrite <- HO, <- HO2; auto|]. exists s.
    assert (ND : NoDup (ins k)) by apply own_nodup. assert (Hs' : forall t, In t (ins k) <-> t = s) by (intros t; rewrite HO; apply Hs).
    destruct (ins k) as [|a l]; [exfalso; apply (proj2 (Hs' s)); auto|]. assert (a = s) by (apply Hs'; left; auto). subst a.
    destruct l as [|b l]; auto. assert (b = s) by (apply Hs'; right; left; auto). subst b. apply NoDup_cons_iff in ND. exfalso. apply (proj1 ND). left; auto.
  Qed.
  Lemma no_red p : 0 <= p < N -> tp_red (pc_ops (x p)) = [].
  Proof.
    intros Hp. destruct (ops_ok d N fl tl G red qb Hq x HX p Hp) as [HO _]. pose proof (oi_red _ _ _ _ _ _ _ HO) as Q. fold D in Q.
    rewrite (flat_map_nil _ D) in Q; [destruct (tp_red (pc_ops (x p))); auto; discriminate|].
    intros k Hk. unfold sg_red. rewrite !memb_two. fold (pins (rl_trs fl) N k) (pouts (rl_trs tl) N k). fold (ins k) (outs k).
    destruct (memb p (ins k) || memb p (outs k)) eqn:E; [|destruct (ins k) as [|? [|? ?]]; auto].
    destruct (one_in k p Hk) as (s & ->); auto. apply orb_prop in E. destruct E as [E|E]; apply memb_in in E; auto.
  Qed.

  Variables t F' : Z -> mlist.
  Hypothesis HA : forall p, 0 <= p < N -> Alloc d tl p (pc_old (x p)) (pc_next (x p)) (pc_addr (x p)) (t p) (F' p).
  Definition mcx p := trans_ctx d N p (pc_ops (x p)) (Some (F' p)) (t p).
  Let fS p := fromS d fl p (pc_old (x p)).
  Let tS p := toS d tl p (t p).
  Definition msgs p : list action := map (gsnd (fS p)) (map (fun x => (sd_box x, sd_to x)) (tp_send (pc_ops (x p)))) ++
    map (grcv (tS p)) (map (fun x => (rc_box x, rc_from x)) (tp_recv (pc_ops (x p)))).

  Lemma flat_msgs p : 0 <= p < N -> exists a c, split_texec (mcx p) (pc_ops (x p)) = Ok a /\ flatten (mcx p) (mkSeq a 0 [] 0) = Ok (c, mkSeq (msgs p) 0 [] 0).
  Proof.
    intros Hp. destruct (ops_ok d N fl tl G red qb Hq x HX p Hp) as [HO _]. destruct (HX p Hp) as [X1 X2 X3 X4 X5 X6 X7].
    destruct (the_flat d Hes N fl tl G red _ HP HS p Hp (pc_old (x p)) (pc_next (x p)) (pc_addr (x p)) (pc_ops (x p)) X1 X2 HO (t p) (F' p) (HA p Hp) (fun _ => 0)) as (a & c & E1 & E2).
    - intros k Hk Hr. destruct (lim d N fl tl G red qb Hq HR1 x HX k Hk Hr) as (L1 & L2 & _). auto.
    - intros k Hk Hr. apply (lim d N fl tl G red qb Hq HR1 x HX k Hk Hr).
    - exists a, c. split; auto. unfold mcx. rewrite E2. unfold flat_acts. rewrite (no_red p Hp). reflexivity.
  Qed.

  Lemma in_msgs p a : 0 <= p < N -> In a (msgs p) -> a_round a = 1 /\ exists k q, In k D /\ 0 < pcnt k /\ 0 <= q < N /\ q <> p /\
    ((a_par a = BufSend (fS p k) (pcnt k) q /\ ins k = [p]) \/ (a_par a = BufRecv (tS p k) (pcnt k) q /\ ins k = [q] /\ In p (outs k))).
  Proof.
    intros Hp Ha. destruct (ops_ok d N fl tl G red qb Hq x HX p Hp) as [HO _]. unfold msgs in Ha.
    rewrite (oi_send _ _ _ _ _ _ _ HO), (oi_recv _ _ _ _ _ _ _ HO) in Ha. apply in_app_or in Ha. destruct Ha as [Ha|Ha]; apply in_map_iff in Ha as (y & <- & Hy); (split; [reflexivity|]); apply in_flat_map in Hy as (k & Hk & Hy); exists k; pose proof (seg_lt _ HS k Hk) as Lt.
    - unfold sg_send in Hy. fold (pins (rl_trs fl) N k) in Hy. fold (ins k) in Hy. destruct (ins k) as [|i [|j r]] eqn:Ei; try destruct Hy. destruct (i =? p) eqn:E; [|destruct Hy]. assert (i = p) by lia. subst i.
      apply in_map_iff in Hy as (q & <- & Hqq). apply filter_In in Hqq as [Q1 Q2]. exists q. split; auto. split; [unfold pcnt; lia|]. split; [apply (out_range N fl tl k q); exact Q1|]. split; [lia|]. left. unfold gsnd. cbn [a_par fst snd]. rewrite seg_box. auto.
    - unfold sg_recv in Hy. rewrite memb_two in Hy. fold (pins (rl_trs fl) N k) (pouts (rl_trs tl) N k) in Hy. fold (ins k) (outs k) in Hy. destruct (ins k) as [|i [|j r]] eqn:Ei; try destruct Hy. 
      destruct (negb (i =? p) && memb p (outs k)) eqn:E; [|destruct Hy]. destruct Hy as [<-|[]]. apply andb_prop in E as [E1 E2]. apply memb_in in E2.
      exists i. split; auto. split; [unfold pcnt; lia|]. split; [apply (in_range N fl tl k i); fold ins; rewrite Ei; left; auto|]. split; [lia|]. right. unfold grcv. cbn [a_par fst snd]. rewrite seg_box. auto.
  Qed.
  Lemma fS_in p k : In p (ins k) -> fA (rl_trs fl) N p (fS p) k = fS p k.
  Proof. apply (fr_in d N fl x). Qed.
  Lemma tS_in p k : In p (outs k) -> tA (rl_trs tl) N p (tS p) k = tS p k.
  Proof. apply (to_in d N tl t). Qed.

  Lemma msgs_sr p a : 0 <= p < N -> In a (msgs p) -> a_round a = 1 /\ is_sr (a_par a).
  Proof. intros Hp Ha. destruct (in_msgs p a Hp Ha) as (R & k & q & Hk & Hc & Hqq & Hn & [(E & _)|(E & _)]); rewrite E; simpl; auto. Qed.
  Lemma msgs_peer p a k : 0 <= p < N -> In a (msgs p) -> kind_of (a_par a) = Some k -> peer_ok N p k.
  Proof.
    intros Hp Ha Hk. destruct (in_msgs p a Hp Ha) as (_ & k0 & q & _ & _ & Hqq & Hn & [(E & _)|(E & _)]); rewrite E in Hk; injection Hk as <-; simpl; auto.
  Qed.
  Lemma msgs_total p : 0 <= p < N -> Spec_ActionTrans.total (msgs p) = Moved (pc_ops (x p)).
  Proof.
    intros Hp. unfold Spec_ActionTrans.total, msgs, Moved. rewrite map_app, sum_app, !map_map. reflexivity.
  Qed.
  Lemma msgs_indep p : 0 <= p < N -> iarea (mcx p) (msgs p).
  Proof.
    intros Hp. destruct (ops_ok d N fl tl G red qb Hq x HX p Hp) as [HO _]. unfold iarea, msgs. apply fop_app.
    - apply fop_all. intros a b Ha Hb. apply in_map_iff in Ha as (u & <- & _). apply in_map_iff in Hb as (v & <- & _). cbn. repeat split; intros z; tauto.
    - rewrite (oi_recv _ _ _ _ _ _ _ HO). apply fop_map. apply fop_flat_map; [apply seg_nodup; auto| |].
      + intros k Hk. unfold sg_recv. destruct (owners N (rl_trs fl) (fst k)) as [|i [|j r]]; try constructor. destruct (negb (i =? p) && _); repeat constructor.
      + intros k k' u v Hk Hk' Hne Hu Hv.
        assert (XR : forall k u, In u (sg_recv (rl_trs fl) (rl_trs tl) N p k) -> In p (outs k) /\ fst u = box1 (fst k) (snd k)).
        { intros k0 u0 Hy. unfold sg_recv in Hy. rewrite memb_two in Hy. fold (pouts (rl_trs tl) N k0) in Hy. fold (outs k0) in Hy.
          destruct (owners N (rl_trs fl) (fst k0)) as [|i [|j r]]; try destruct Hy. destruct (negb (i =? p) && memb p (outs k0)) eqn:E; [|destruct Hy]. destruct Hy as [<-|[]]. apply andb_prop in E as [E1 E2]. apply memb_in in E2. auto. }
        destruct (XR k u Hu) as [O1 E1]. destruct (XR k' v Hv) as [O2 E2]. unfold grcv. cbn [a_par]. rewrite E1, E2, !seg_box. cbn [msg_rd msg_wr]. change (cx_es (mcx p)) with es.
        pose proof (s_to d Hes N fl tl G red qb Hq x HX t F' HA k k' p Hk Hk' Hne O1 O2) as AP. cbv beta in AP. rewrite (to_in d N tl t k p O1), (to_in d N tl t k' p O2) in AP.
        repeat split; intros z; try tauto. apply AP.
    - intros a b Ha Hb. assert (Ha' : In a (msgs p)) by (unfold msgs; apply in_or_app; auto). assert (Hb' : In b (msgs p)) by (unfold msgs; apply in_or_app; auto).
      destruct (in_msgs p a Hp Ha') as (_ & k & q & Hk & Hc & Hqq & Hn & HH). destruct (in_msgs p b Hp Hb') as (_ & k' & q' & Hk' & Hc' & Hqq' & Hn' & HH').
      apply in_map_iff in Ha as (u & <- & _). apply in_map_iff in Hb as (v & <- & _). destruct HH as [(E & I1)|(E & _)]; [|discriminate]. destruct HH' as [(E' & _)|(E' & I2 & O2)]; [discriminate|].
      rewrite E, E'. cbn [msg_rd msg_wr]. change (cx_es (mcx p)) with es.
      assert (Hne : k <> k') by (intros <-; rewrite I1 in I2; congruence). assert (I1' : In p (ins k)) by (rewrite I1; left; auto).
      pose proof (s_ft d Hes N fl tl G red qb Hq x HX t F' HA k k' p Hk Hk' Hne I1' O2) as AP. cbv beta in AP. rewrite (fr_in d N fl x k p I1'), (to_in d N tl t k' p O2) in AP.
      repeat split; intros z; try tauto. intros Z1 Z2. exact (AP z Z2 Z1).
  Qed.
  Lemma msgs_away p bufs : 0 <= p < N -> BuffersApart bufs (blocks (pc_old (x p)) ++ blocks (t p)) -> away_of (mcx p) (bufs_area bufs) (msgs p).
  Proof.
    intros Hp HB a Ha. destruct (in_msgs p a Hp Ha) as (_ & k & q & Hk & Hc & Hqq & Hn & [(E & I1)|(E & I1 & O1)]); rewrite E; cbn [msg_rd msg_wr]; change (cx_es (mcx p)) with es.
    - assert (I1' : In p (ins k)) by (rewrite I1; left; auto). destruct (fr_block d Hes N fl tl G red qb Hq x HX t F' HA k p Hk I1') as (b & B1 & B2). cbv beta in B2. rewrite (fr_in d N fl x k p I1') in B2. split; intros z; [|tauto]. intros Z1 (e & E1 & E2). apply B2 in Z1. pose proof (HB e b E1 (in_or_app _ _ _ (or_introl B1))) as W.
      unfold AwayB, Away in W. unfold region in Z1, E2. lia.
    - destruct (to_block d Hes N fl tl G red qb Hq x HX t F' HA k p Hk O1) as (b & B1 & B2). cbv beta in B2. rewrite (to_in d N tl t k p O1) in B2. split; intros z; [tauto|]. intros Z1 (e & E1 & E2). apply B2 in Z1. pose proof (HB e b E1 (in_or_app _ _ _ (or_intror B1))) as W.
      unfold AwayB, Away in W. unfold region in Z1, E2. lia.
  Qed.

  Lemma plan_msgs p : 0 <= p < N -> exists s, plan (mcx p) (pc_ops (x p)) = Ok s /\ as_acts s = msgs p.
  Proof.
    intros Hp. destruct (flat_msgs p Hp) as (a & c & E1 & E2). exists (mkSeq (msgs p) 0 [] 0). split; auto. unfold plan. rewrite E1. cbn [obind]. rewrite E2. cbn [obind snd].
    rewrite split_none; auto. cbn [as_acts]. intros b Hb. apply sr_plain. apply (msgs_sr p b Hp Hb).
  Qed.
  Lemma no_reserve p id size : 0 <= p < N -> ~ Reserves (msgs p) id size.
  Proof. intros Hp (r & off & H). apply (msgs_sr p _ Hp) in H. destruct H as [_ H]. destruct H. Qed.

  Definition Arrived (B : area) (p : Z) (m' : mem) : Prop :=
    (forall i, Owns tl p i -> exists s v, OnlyOwner fl s i /\ Holds es fl s (pc_old (x s)) (pc_mem (x s)) i v /\ Holds es tl p (t p) m' i v) /\
    (forall y, (forall b, In b (blocks (t p)) -> ~ region (fst b) (snd b) y) -> ~ B y -> m' y = pc_mem (x p) y).
  Definition Fine (p : Z) (st : pst) : Prop :=
    (forall q, 0 <= q < N -> p_in st (Peer q) = []) /\
    forall (B : area) gen ini st', (forall b y, In b (blocks (pc_old (x p)) ++ blocks (t p)) -> region (fst b) (snd b) y -> ~ B y) ->
      (forall y, ~ B y -> p_mem st' y = p_mem st y) -> exists m' fr,
      do_transition gen d ini (fun _ _ _ => Ok (p_mem st')) (pc_addr (x p)) (pc_ops (x p)) (Some (pc_old (x p))) (pc_next (x p)) (pc_mem (x p)) = Ok (t p, m', fr) /\ Arrived B p m'.

  Lemma expected_one i p v : Owns tl p i -> Expected es T red fl x i v -> exists s, OnlyOwner fl s i /\ Holds es fl s (pc_old (x s)) (pc_mem (x s)) i v.
  Proof.
    intros Ho (ts & vs & ND & HI & HF & ->). destruct (H1 i p (or_intror Ho)) as (s & Hs). exists s. split; auto.
    assert (E : ts = [s]).
    { destruct ts as [|a ts]; [exfalso; apply (proj2 (HI s)), Hs; auto|]. assert (a = s) by (apply Hs, HI; left; auto). subst a.
      destruct ts as [|b ts]; auto. exfalso. apply NoDup_cons_iff in ND. apply (proj1 ND). left. apply Hs, HI. right. left. auto. }
    subst ts. inversion HF as [|? w ? ? W1 W2]; subst. inversion W2; subst. exact W1.
  Qed.

  Lemma base_net place oth : AlwaysEnds N (nstart (fun p => map (den2 (mcx p) (place p) T (oth p)) (msgs p)) (fun p => pc_mem (x p))) Fine.
  Proof.
    assert (Hacts := plan_msgs). change (forall p, 0 <= p < N -> exists s, plan (trans_ctx d N p (pc_ops (x p)) (Some (F' p)) (t p)) (pc_ops (x p)) = Ok s /\ as_acts s = msgs p) in Hacts.
    assert (Hbuf : forall p, 0 <= p < N -> BuffersFor (msgs p) (place p) (blocks (pc_old (x p)) ++ blocks (t p))).
    { intros p Hp. split; [intros id size ? HRs|intros id size ? ? HRs]; destruct (no_reserve p id size Hp HRs). }
    destruct (choice_range (fun _ => 0, 0%nat) (fun p v => program (den2 (mcx p) (place p) T (oth p)) (msgs p) = repeat skip (snd v) ++ prog (rl_trs fl) (rl_trs tl) N p red D (mcx p) (place p) T (fromS d fl p (pc_old (x p))) (toS d tl p (t p)) (fst v) /\
        Reserved (rl_trs fl) (rl_trs tl) N D (mcx p) (msgs p) (fst v)) N) as (iu & HI).
    { intros p Hp. destruct (run_plan d Hes N fl tl G red qb Hq T HR1 x HX t F' HA msgs Hacts place oth p Hp) as (idf & u & E). exists (idf, u). exact E. }
    assert (S := run_stage d Hes N fl tl G red qb Hq T HT1 HR1 x HX t F' HA msgs Hacts place oth Hbuf (fun p => fst (iu p)) (fun p Hp => proj2 (HI p Hp))).
    assert (S2 := stage_seq N _ _ _ _ _ (stage_skips N (fun p => snd (iu p)) (fun p mm => mm = pc_mem (x p))) S).
    assert (S3 := stage_ext N (fun p => map (den2 (mcx p) (place p) T (oth p)) (msgs p)) _ _ _ (fun p Hp => eq_trans (eq_sym (prog1 _ _ (fun a Ha => proj1 (msgs_sr p a Hp Ha)))) (proj1 (HI p Hp))) S2).
    assert (R := stage_run N _ (fun p => pc_mem (x p)) _ _ S3 (fun p _ => eq_refl)).
    intros sched y Hs Hy. destruct (R sched y Hs Hy) as [R1 R2]. split; auto. intros HD p Hp. destruct (R2 HD p Hp) as [Q1 Q2]. split; auto.
    intros B gen ini st' HB HM.
    destruct (finish_b d Hes N fl tl G red qb Hq T HT1 HR1 x HX t F' HA msgs Hacts place oth Hbuf (fun p => fst (iu p)) (fun p Hp => proj2 (HI p Hp)) B gen ini p st' _ Hp HB Q1 HM) as (m' & fr & E & A1 & A2).
    exists m', fr. split; [exact E|]. split.
    - intros i Hi. destruct (A1 i Hi) as (v & V1 & V2). destruct (expected_one i p v Hi V2) as (s & W1 & W2). exists s, v. auto.
    - intros z Z1 Z2. apply A2; auto. intros id size HRs. destruct (no_reserve p id size Hp HRs).
  Qed.

  Lemma den_T cx place oth T' place' oth' a : is_sr (a_par a) -> den2 cx place T oth a = den2 cx place' T' oth' a.
  Proof. destruct a as [r pr]. unfold den2, den. cbn [a_par]. destruct pr; simpl; tauto. Qed.
  Lemma den_msgs p place oth T' place' oth' : 0 <= p < N -> map (den2 (mcx p) place T oth) (msgs p) = map (den2 (mcx p) place' T' oth') (msgs p).
  Proof. intros Hp. apply map_ext_in. intros a Ha. apply den_T. apply (msgs_sr p a Hp Ha). Qed.

  (* the prepared sequence *)
  Lemma prep_one p q rd asyn b1 b2 b3 : 0 <= p < N -> Moved (pc_ops (x p)) * es < 2 ^ 32 -> is_qsort cmp_rounds (so_rounds1 q) -> is_qsort (cmp2phase p) (so_2phases q) ->
    is_qsort cmp_rounds (so_rounds2 q) -> exists F bufs nce,
    mpi_prepare rd asyn q b1 b2 b3 (mcx p) (pc_ops (x p)) =
      (if asyn then do l10 <- async F; do l11 <- sort_rounds (so_rounds2 q) (snd l10); Ok (mkSeq (snd l11) 0 bufs nce) else Ok (mkSeq F 0 bufs nce)) /\
    (bufs = [] \/ exists n, bufs = [(b1, n)] /\ 0 < n <= Moved (pc_ops (x p)) * es) /\
    by_round F /\ Prepared (peer_ok N p) F /\ key_order N p F /\ (forall a, In a F -> a_round a <= 5) /\
    (BuffersApart bufs (blocks (pc_old (x p)) ++ blocks (t p)) -> ForallOrdPairs (Asy (mcx p)) F) /\
    (BuffersApart bufs (blocks (pc_old (x p)) ++ blocks (t p)) -> forall place T' oth, together (den2 (mcx p) place T' oth) F /\
       forall place' oth' st, SameRun (bufs_area bufs) (exec_is (map (den2 (mcx p) place' T oth') (msgs p)) st) (exec_is (map (den2 (mcx p) place T' oth) F) st)).
  Proof.
    intros Hp HM Q1 Q2 Q3. destruct (flat_msgs p Hp) as (a & c & E1 & E2). unfold mpi_prepare. rewrite E1. cbn [obind].
    destruct a as [|a0 ar].
    - assert (E : msgs p = []) by (cbn in E2; injection E2 as _ E2; auto). exists [], [], 0. split; [|split; [auto|split; [constructor|split; [|split; [constructor|split; [intros b []|split; [intros _; constructor|]]]]]]].
      + destruct asyn; auto.
      + constructor; [intros b []|exists 0; intros b k []|constructor].
      + intros HB place T' oth. split; [split; constructor|]. intros place' oth' st. rewrite E. cbn. repeat split; auto.
    - rewrite E2. cbn [obind snd].
      destruct (passes_ok N p 1 (mcx p) (msgs p) q Hp Hes ltac:(lia) (fun b Hb => msgs_sr p b Hp Hb) ltac:(rewrite msgs_total by auto; exact HM) (fun b k Hb Hk => msgs_peer p b k Hp Hb Hk) Q1 Q2 rd asyn b1 b2 b3) as (F & bufs & nce & P1 & P2 & P3 & P4 & P5 & PR & PA & P6).
      exists F, bufs, nce. split; [exact P1|]. split; [rewrite msgs_total in P2 by auto; exact P2|]. split; auto. split; auto. split; auto. split; [intros a Ha; specialize (PR a Ha); lia|]. split; [intros HB; apply PA; [exact (msgs_indep p Hp)|exact (msgs_away p bufs Hp HB)]|].
      intros HB place T' oth. destruct (P6 (msgs_indep p Hp) (msgs_away p bufs Hp HB) place T' oth) as [P7 P8]. split; auto.
      intros place' oth' st. rewrite (den_msgs p place' oth' T' place oth Hp). apply P8.
  Qed.
End Sw.
