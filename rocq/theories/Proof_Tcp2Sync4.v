(* C54: every step keeps the invariant *)
From Coq Require Import ZArith List Bool Lia ZifyBool ZifyNat Sorted Permutation.
From Verif Require Import Base ListFacts Model_RangeList Model_KVS Model_SpaceStore Model_Tcp2 Model_Switch Spec_RangeList Spec_KVS Model_Tcp2Sync Spec_Tcp2Sync
  Proof_KVS Proof_KVS2 Proof_KVS3 Proof_KVS5 Proof_KVS6 Proof_KVS8 Proof_Tcp2Sync1 Proof_Tcp2Sync2 Proof_Tcp2Sync3.
Import ListNotations.
Open Scope Z_scope.

Lemma common_snoc N dn r : common N (dn ++ [r]) = after N (common N dn) r.
Proof. unfold common, after. rewrite flat_map_app, fold_left_app. cbn [flat_map]. rewrite app_nil_r. reflexivity. Qed.

Lemma post_nil p w a b : post p [] w a b = w a b.
Proof. reflexivity. Qed.
Lemma post_to0 l ms w a b : l <> 0 -> post l (map (fun m => (0, m)) ms) w a b = if (a =? l) && (b =? 0) then w a b ++ ms else w a b.
Proof.
  intros Hl. rewrite post_wire. destruct (a =? l) eqn:Ea; cbn [andb]; [|apply app_nil_r]. destruct (b =? 0) eqn:Eb.
  - f_equal. induction ms as [|m ms IH]; [reflexivity|]. cbn [map filter fst]. destruct (0 =? b) eqn:E; [|lia]. cbn. f_equal. auto.
  - replace (filter (fun m => fst m =? b) (map (fun m => (0, m)) ms)) with (@nil (Z * list Z)); [apply app_nil_r|].
    induction ms as [|m ms IH]; [reflexivity|]. cbn [map filter fst]. destruct (0 =? b) eqn:E; [lia|auto].
Qed.

Section Steps.
Variable name : list Z.
Variable q : list kentry -> list kentry.
Variable N : Z.
Variable rounds : list round.
Hypothesis NF : NameFits name.
Hypothesis Q : is_qsort kvs_cmp q.
Hypothesis PF : PrefixFree CString.
Hypothesis HN : 1 <= N.
Hypothesis HRO : Forall (RoundOk N) rounds.
Hypothesis HSM : forall dn rds, rounds = dn ++ rds -> Small (common N dn).
Notation SInv := (SInv name N rounds).
Notation step := (sstep name q N).

Definition act_ok (a : sact) : Prop := match a with Go => True | Msg r => 0 <= r < N end.

Lemma rds_ok dn rds : rounds = dn ++ rds -> Forall (RoundOk N) rds.
Proof. intros E. rewrite E, Forall_app in HRO. apply HRO. Qed.
Lemma small_after dn rds : rounds = dn ++ rds -> forall r rs, rds = r :: rs -> Small (after N (common N dn) r).
Proof. intros E r rs ->. rewrite <- common_snoc. apply HSM with (rds := rs). rewrite E, <- app_assoc. reflexivity. Qed.

(* replacing the state of one client *)
Lemma MRun_upd B rds s s' l : MRun N B rds s -> 1 <= l < N -> CI B rds l (sn_proc s' l) (sn_wire s' 0 l) (sn_wire s' l 0) ->
  (forall p, p <> l -> sn_proc s' p = sn_proc s p) -> (forall b, b <> l -> sn_wire s' 0 b = sn_wire s 0 b) -> (forall a, a <> l -> sn_wire s' a 0 = sn_wire s a 0) ->
  MRun N B rds s'.
Proof.
  intros (H1 & H2 & H3) Hl HC P1 P2 P3. unfold MRun. rewrite (P1 0) by lia. split; auto. split; auto. intros l' Hl'.
  destruct (Z.eq_dec l' l) as [->|Hn]; auto. rewrite P1, P2, P3 by auto. auto.
Qed.

Lemma MGather_upd B rds s s' l : MGather name N B rds s -> 1 <= l < N -> (sq_ph (sn_proc s 0) <> PGather l) -> 
  (CI B rds l (sn_proc s l) (sn_wire s 0 l) (sn_wire s l 0) -> CI B rds l (sn_proc s' l) (sn_wire s' 0 l) (sn_wire s' l 0)) ->
  (Sent B rds l (sn_proc s l) -> sn_wire s 0 l = [] -> sn_wire s l 0 = [] -> Sent B rds l (sn_proc s' l) /\ sn_wire s' 0 l = [] /\ sn_wire s' l 0 = []) ->
  (forall p, p <> l -> sn_proc s' p = sn_proc s p) -> (forall b, b <> l -> sn_wire s' 0 b = sn_wire s 0 b) -> (forall a, a <> l -> sn_wire s' a 0 = sn_wire s a 0) ->
  MGather name N B rds s'.
Proof.
  intros (r & rs & lid & E & Hlid & H) Hl Hph HC HS P1 P2 P3. cbv zeta in H. destruct H as (H1 & H2 & H3 & H4 & H5 & H6 & H7 & H8).
  assert (lid <> l) by congruence. exists r, rs, lid. split; auto. split; auto. cbv zeta. rewrite (P1 0) by lia. do 5 (split; [auto|]). split; [|split].
  - intros l' Hl'. destruct (Z.eq_dec l' l) as [->|Hn]; [|rewrite P1, P2, P3 by auto; auto]. destruct (H6 l Hl') as (X1 & X2 & X3). auto.
  - intros l' Hl'. destruct (Z.eq_dec l' l) as [->|Hn]; [|rewrite P1, P2, P3 by auto; auto]. auto.
  - rewrite P1, P2, P3 by auto. auto.
Qed.

(* a message for a client *)
Lemma step_client_msg s l : SInv s -> 1 <= l < N -> step s l (Msg 0) = Ok None \/ exists s', step s l (Msg 0) = Ok (Some s') /\ SInv s'.
Proof.
  intros (W1 & W2 & dn & rds & E & HM) Hl. assert (RO := rds_ok dn rds E). unfold sstep. destruct (sn_wire s 0 l) as [|m w] eqn:Ew; [auto|]. right.
  assert (Main : forall x', got_kvs 0 (sn_proc s l) m = Ok x' ->
    (let s' := mkSn (supd (sn_proc s) l x') (supd2 (sn_wire s) 0 l w) in MRun N (common N dn) rds s' \/ MGather name N (common N dn) rds s') ->
    exists s', (do x <- got_kvs 0 (sn_proc s l) m; Ok (Some (mkSn (supd (sn_proc s) l x) (supd2 (sn_wire s) 0 l w)))) = Ok (Some s') /\ SInv s').
  { intros x' G1 G2. rewrite G1. cbn [obind]. eexists. split; [reflexivity|]. split; [|split].
    - intros a b Ha Hb. cbn. rewrite supd2_other by auto. auto.
    - cbn. rewrite supd2_other by lia. auto.
    - exists dn, rds. split; auto. }
  assert (PP : forall x' p, p <> l -> supd (sn_proc s) l x' p = sn_proc s p) by (intros; apply supd_other; auto).
  assert (PW : forall b, b <> l -> supd2 (sn_wire s) 0 l w 0 b = sn_wire s 0 b) by (intros; apply supd2_other; auto).
  assert (PV : forall a, a <> l -> supd2 (sn_wire s) 0 l w a 0 = sn_wire s a 0) by (intros; apply supd2_other; lia).
  assert (PV' : supd2 (sn_wire s) 0 l w l 0 = sn_wire s l 0) by (apply supd2_other; lia).
  assert (HCI : CI (common N dn) rds l (sn_proc s l) (sn_wire s 0 l) (sn_wire s l 0) -> exists x', got_kvs 0 (sn_proc s l) m = Ok x' /\ CI (common N dn) rds l x' w (sn_wire s l 0)).
  { rewrite Ew. intros (C1 & C2 & C3). destruct (CB_msg PF (common N dn) rds l (sn_proc s l) m w C3) as (x' & G1 & G2 & G3). exists x'. split; auto. split; auto. split; auto. congruence. }
  destruct HM as [HM|HM].
  - destruct (HCI (proj2 (proj2 HM) l Hl)) as (x' & G1 & G2). apply (Main x' G1). cbn. left. eapply MRun_upd; eauto; cbn; auto. rewrite supd_same, supd2_same, PV'. auto.
  - assert (HM' := HM). destruct HM as (r & rs & lid & E1 & Hlid & H). cbv zeta in H. destruct H as (H1 & H2 & H3 & H4 & H5 & H6 & H7 & H8).
    destruct (Z_lt_ge_dec l lid) as [Hlt|Hge]; [destruct (H6 l ltac:(lia)) as (_ & X & _); congruence|].
    destruct (Z.eq_dec l lid) as [->|Hne].
    + destruct H8 as [(HT & H8)|(_ & X & _)]; [|congruence]. destruct HT as (T1 & HT). rewrite Ew in HT.
      assert (GG : exists x', got_kvs 0 (sn_proc s lid) m = Ok x' /\ Tok name (common N dn) rds lid x' w (sn_wire s lid 0)).
      { destruct HT as [(T2 & pre & T3 & T4)|(_ & X & _)]; [|discriminate]. destruct pre as [|m0 pre].
        - change (m :: w = [str_allow ++ name]) in T3. injection T3 as -> ->. exists (with_name (sn_proc s lid) (Some name)). split; [apply got_allow; auto|]. split; [exact T1|]. right. split; [reflexivity|]. split; [reflexivity|]. apply CB_name; auto.
        - change (m :: w = m0 :: pre ++ [str_allow ++ name]) in T3. injection T3 as <- ->. destruct (CB_msg PF (common N dn) rds lid (sn_proc s lid) m pre T4) as (x' & G1 & G2 & G3). exists x'. split; auto. split; auto. left. split; [congruence|].
          exists pre. auto. }
      destruct GG as (x' & G1 & G2). apply (Main x' G1). cbn. right. exists r, rs, lid. split; auto. split; auto. cbv zeta. cbn. rewrite (PP x' 0) by lia.
      do 5 (split; [auto|]). split; [|split].
      * intros l' Hl'. rewrite PP, PW, PV by lia. auto.
      * intros l' Hl'. rewrite PP, PW, PV by lia. auto.
      * left. rewrite supd_same, supd2_same, PV'. auto.
    + destruct (HCI (H7 l ltac:(lia))) as (x' & G1 & G2). apply (Main x' G1). cbn. right. apply (MGather_upd _ _ s _ l); auto; cbn; auto.
      * rewrite H1. congruence.
      * intros _. rewrite supd_same, supd2_same, PV'. auto.
      * intros _ X. congruence.
Qed.

(* a message for LID 0 *)
Lemma step_master_msg s l : SInv s -> 0 <= l < N -> step s 0 (Msg l) = Ok None \/ exists s', step s 0 (Msg l) = Ok (Some s') /\ SInv s'.
Proof.
  intros (W1 & W2 & dn & rds & E & HM) Hl. assert (RO := rds_ok dn rds E). unfold sstep. destruct (Z.eq_dec l 0) as [->|Hl0]; [rewrite W2; auto|].
  destruct (sn_wire s l 0) as [|m w] eqn:Ew; [auto|]. right. destruct HM as [HM|HM].
  { destruct (proj2 (proj2 HM) l ltac:(lia)) as (X & _). congruence. }
  destruct HM as (r & rs & lid & E1 & Hlid & H). cbv zeta in H. destruct H as (H1 & H2 & H3 & H4 & H5 & H6 & H7 & H8).
  destruct (Z_lt_ge_dec l lid) as [Hlt|Hge]; [destruct (H6 l ltac:(lia)) as (_ & _ & X); congruence|].
  destruct (Z.eq_dec l lid) as [->|Hne]; [|destruct (H7 l ltac:(lia)) as (X & _); congruence].
  destruct H8 as [((X & _) & _)|(HS & HW & D & HD & HK)]; [congruence|]. rewrite Ew in HD.
  destruct (Rem_got lid _ _ _ _ _ PF HD H5 H2) as (x' & D' & G1 & G2 & G3 & G4 & G5 & G6 & G7 & G8 & G9). rewrite G1. cbn [obind]. eexists. split; [reflexivity|].
  split; [|split].
  - intros a b Ha Hb. cbn. rewrite supd2_other by auto. auto.
  - cbn. rewrite supd2_other by lia. auto.
  - exists dn, rds. split; auto. right. exists r, rs, lid. split; auto. split; auto. cbv zeta. cbn. rewrite supd_same. split; [congruence|]. split; auto. split; [congruence|]. split; [congruence|]. split; auto. split; [|split].
    + intros l' Hl'. rewrite supd_other, !supd2_other by lia. auto.
    + intros l' Hl'. rewrite supd_other, !supd2_other by lia. auto.
    + right. rewrite supd_other, supd2_same, supd2_other by lia. split; auto. split; auto. exists D'. split; auto.
      intros k. destruct (HK k) as [[X|X]|(X1 & X2)].
      * destruct (G8 k X) as [Y|(Y1 & Y2)]; [auto|]. right. split; auto.
      * left. auto.
      * right. destruct (G9 k) as [Y|(Y1 & Y2)]; [|split; auto]. unfold seen, flagged in *. rewrite Y. split; auto.
Qed.

(* a client runs *)
Lemma step_client_go s l : SInv s -> 1 <= l < N -> step s l Go = Ok None \/ exists s', step s l Go = Ok (Some s') /\ SInv s'.
Proof.
  intros (W1 & W2 & dn & rds & E & HM) Hl. assert (RO := rds_ok dn rds E). assert (SM := small_after dn rds E). unfold sstep.
  set (B := common N dn) in *.
  assert (Quiet : forall x', (let s' := mkSn (supd (sn_proc s) l x') (sn_wire s) in MRun N B rds s' \/ MGather name N B rds s') -> go name q N l (sn_proc s l) = Ok (Some (x', [])) ->
     exists s', (do y <- go name q N l (sn_proc s l); match y with None => Ok None | Some (x, ms) => Ok (Some (mkSn (supd (sn_proc s) l x) (post l ms (sn_wire s)))) end) = Ok (Some s') /\ SInv s').
  { intros x' G1 G2. rewrite G2. cbn [obind]. eexists. split; [reflexivity|]. split; [|split]; cbn; auto. exists dn, rds. split; auto. }
  assert (PP : forall x' p, p <> l -> supd (sn_proc s) l x' p = sn_proc s p) by (intros; apply supd_other; auto).
  assert (HCI : CI B rds l (sn_proc s l) (sn_wire s 0 l) (sn_wire s l 0) -> go name q N l (sn_proc s l) = Ok None \/
                exists x', go name q N l (sn_proc s l) = Ok (Some (x', [])) /\ CI B rds l x' (sn_wire s 0 l) (sn_wire s l 0)).
  { intros (C1 & C2 & C3). destruct (client_go name q N Q PF B rds RO l (sn_proc s l) _ SM Hl C3 (or_introl C2)) as [G|[(x' & G1 & G2 & G3)|(X & _)]]; auto; [|congruence].
    right. exists x'. split; auto. split; auto. split; auto. congruence. }
  destruct HM as [HM|HM].
  - destruct (HCI (proj2 (proj2 HM) l Hl)) as [G|(x' & G1 & G2)]; [rewrite G; auto|]. right. apply (Quiet x'); auto. cbn. left. eapply MRun_upd; eauto; cbn; auto. rewrite supd_same. auto.
  - assert (HM' := HM). destruct HM as (r & rs & lid & E1 & Hlid & H). cbv zeta in H. destruct H as (H1 & H2 & H3 & H4 & H5 & H6 & H7 & H8).
    assert (HSE : Sent B rds l (sn_proc s l) -> go name q N l (sn_proc s l) = Ok None).
    { intros (S1 & S2 & S3 & S4 & _). unfold go. rewrite S1. unfold waits. rewrite S3. reflexivity. }
    destruct (Z_lt_ge_dec l lid) as [Hlt|Hge]; [destruct (H6 l ltac:(lia)) as (X & _); rewrite (HSE X); auto|].
    destruct (Z.eq_dec l lid) as [->|Hne].
    + destruct H8 as [(HT & K1 & K2 & HK)|(X & _)]; [|rewrite (HSE X); auto]. assert (HT' := HT). destruct HT as (T1 & HT).
      assert (GG : go name q N lid (sn_proc s lid) = Ok None \/ (exists x', go name q N lid (sn_proc s lid) = Ok (Some (x', [])) /\ Tok name B rds lid x' (sn_wire s 0 lid) (sn_wire s lid 0)) \/
        (sn_wire s 0 lid = [] /\ exists x' D, go name q N lid (sn_proc s lid) = Ok (Some (x', map (fun m => (0, m)) (cmsg (zlen D) :: map dmsg D))) /\
          Sent B rds lid x' /\ zlen D < 2 ^ 31 /\ (forall k v, In (k, v) D -> Fit k v /\ after N B r k = Some v) /\ (forall k, fold_left map_op (r lid) B k <> B k -> inD D k))).
      { destruct HT as [(T2 & pre & T3 & T4)|(T2 & T3 & T4)].
        - destruct (client_go name q N Q PF B rds RO lid (sn_proc s lid) pre SM Hl T4 (or_introl T2)) as [G|[(x' & G1 & G2 & G3)|(X & _)]]; auto; [|congruence].
          right; left. exists x'. split; auto. split; auto. left. split; [congruence|]. exists pre. auto.
        - destruct (client_go name q N Q PF B rds RO lid (sn_proc s lid) [] SM Hl T4 (or_intror (conj T2 eq_refl))) as [G|[(x' & G1 & G2 & G3)|(X & x' & r' & rs' & D & E' & G1 & G2 & G3 & G4 & G5)]]; auto.
          + right; left. exists x'. split; auto. split; auto. right. split; [congruence|]. auto.
          + right; right. split; auto. assert (r' = r) by congruence. subst r'. exists x', D. auto. }
      destruct GG as [G|[(x' & G1 & G2)|(Ew & x' & D & G1 & G2 & G3 & G4 & G5)]]; [rewrite G; auto| |].
      * right. apply (Quiet x'); auto. cbn. right. exists r, rs, lid. split; auto. split; auto. cbv zeta. cbn. rewrite (PP x' 0) by lia. do 5 (split; [auto|]). split; [|split].
        -- intros l' Hl'. rewrite PP by lia. auto.
        -- intros l' Hl'. rewrite PP by lia. auto.
        -- left. rewrite supd_same. auto.
      * right. rewrite G1. cbn [obind]. eexists. split; [reflexivity|].
        assert (Hl0 : lid <> 0) by lia.
        split; [|split].
        -- intros a b Ha Hb. cbn [sn_wire]. rewrite post_to0 by auto. destruct (b =? 0) eqn:Eb; [lia|]. rewrite andb_false_r. auto.
        -- cbn [sn_wire]. rewrite post_to0 by auto. destruct (0 =? lid) eqn:Eb; [lia|]. auto.
        -- exists dn, rds. split; auto. right. exists r, rs, lid. split; auto. split; auto. cbv zeta. cbn [sn_proc sn_wire]. rewrite (PP x' 0) by lia. do 5 (split; [auto|]). split; [|split].
           ++ intros l' Hl'. rewrite PP, !post_to0 by lia. destruct (0 =? lid) eqn:Ea; [lia|]. destruct (l' =? lid) eqn:Eb; [lia|]. cbn [andb]. auto.
           ++ intros l' Hl'. rewrite PP, !post_to0 by lia. destruct (0 =? lid) eqn:Ea; [lia|]. destruct (l' =? lid) eqn:Eb; [lia|]. cbn [andb]. auto.
           ++ right. rewrite supd_same, !post_to0 by lia. destruct (0 =? lid) eqn:Ea; [lia|]. rewrite Z.eqb_refl. change (0 =? 0) with true. cbn [andb]. split; auto. split; auto.
              exists D. split.
              ** split; auto. split; auto. left. rewrite T1. auto.
              ** intros k. destruct (HK k) as [(l' & X1 & X2)|X]; auto. left. destruct (Z.eq_dec l' lid) as [->|Hn']; [left; auto|]. right. exists l'. split; auto. lia.
    + destruct (HCI (H7 l ltac:(lia))) as [G|(x' & G1 & G2)]; [rewrite G; auto|]. right. apply (Quiet x'); auto. cbn. right. apply (MGather_upd _ _ s _ l); auto; cbn; auto.
      * rewrite H1. congruence.
      * intros _. rewrite supd_same. auto.
      * intros X _ _. rewrite (HSE X) in G1. discriminate.
Qed.
End Steps.
