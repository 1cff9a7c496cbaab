(* C54: a step of LID 0 keeps the invariant *)
From Coq Require Import ZArith List Bool Lia ZifyBool ZifyNat Sorted Permutation.
From Verif Require Import Base ListFacts Model_RangeList Model_KVS Model_SpaceStore Model_Tcp2 Model_Switch Spec_RangeList Spec_KVS Model_Tcp2Sync Spec_Tcp2Sync
  Proof_KVS Proof_KVS2 Proof_KVS3 Proof_KVS5 Proof_KVS6 Proof_KVS8 Proof_Tcp2Sync1 Proof_Tcp2Sync2 Proof_Tcp2Sync3 Proof_Tcp2Sync4.
Import ListNotations.
Open Scope Z_scope.

Lemma bex_dec (P : Z -> Prop) (D : forall l, P l \/ ~ P l) a b : (exists l, a <= l < b /\ P l) \/ (forall l, a <= l < b -> ~ P l).
Proof.
  destruct (Z_lt_ge_dec b a) as [H|H]; [right; lia|]. remember (Z.to_nat (b - a)) as n eqn:E. revert b H E. induction n as [|n IH]; intros b H E; [right; lia|].
  destruct (IH (b - 1)) as [(l & X & Y)|X]; [lia|lia|left; exists l; split; auto; lia|]. destruct (D (b - 1)) as [Y|Y]; [left; exists (b - 1); split; auto; lia|].
  right. intros l Hl. destruct (Z.eq_dec l (b - 1)) as [->|Hn]; auto. apply X. lia.
Qed.

Section Steps.
Variable name : list Z.
Variable q : list kentry -> list kentry.
Variable N : Z.
Variable rounds : list round.
Hypothesis NF : NameFits name.
Hypothesis Q : is_qsort kvs_cmp q.
Hypothesis PF : PrefixFree CString.
Hypothesis HN : 1 <= N.
Hypothesis HRO : Forall (RoundOk N) rounds.
Hypothesis HSM : forall dn rds, rounds = dn ++ rds -> Small (common N dn).
Notation SInv := (SInv name N rounds).
Notation step := (sstep name q N).

Lemma finish s dn r rs x : rounds = dn ++ r :: rs -> (forall a b, a <> 0 -> b <> 0 -> sn_wire s a b = []) -> sn_wire s 0 0 = [] ->
  sq_prog x = program rs 0 -> TS (after N (common N dn) r) (sq_st x) -> Know (common N dn) (after N (common N dn) r) (sq_st x) (fun _ => False) -> sq_name x = None ->
  (forall l, 1 <= l < N -> Sent (common N dn) (r :: rs) l (sn_proc s l) /\ sn_wire s 0 l = [] /\ sn_wire s l 0 = []) ->
  exists x' ms, ask name q N N x = Ok (x', ms) /\ SInv (mkSn (supd (sn_proc s) 0 x') (post 0 ms (sn_wire s))).
Proof.
  intros E W1 W2 P1 P2 P3 P4 P5. assert (RO := rds_ok N rounds HRO _ _ E). assert (SM := small_after N rounds HSM _ _ E r rs eq_refl).
  destruct (ask_end name q N Q (common N dn) x _ rs SM P1 P2 P3 P4) as (x' & D & A1 & A2 & A3 & A4 & A5 & A6). eexists x', _. split; [exact A1|]. split; [|split].
  - intros a b Ha Hb. cbn [sn_wire]. rewrite post_wire. destruct (a =? 0) eqn:Ea; [lia|]. rewrite app_nil_r. auto.
  - cbn [sn_wire]. rewrite post_wire. rewrite W2. cbn [app]. change (0 =? 0) with true. cbn iota. apply bcast_other. lia.
  - exists (dn ++ [r]), rs. split; [rewrite <- app_assoc; exact E|]. left. rewrite common_snoc. split; [|split]; cbn [sn_proc sn_wire]; rewrite ?supd_same; auto.
    intros l Hl. destruct (P5 l Hl) as (S1 & S2 & S3). rewrite supd_other by lia. rewrite !post_wire, S2, S3. destruct (l =? 0) eqn:El; [lia|]. change (0 =? 0) with true. cbn iota. cbn [app].
    rewrite bcast_filter by lia. split; auto. split; [apply S1|]. left. apply (Sent_Late name N _ _ RO l _ r rs D eq_refl Hl S1); auto.
Qed.

Lemma post_one w a b l m : post 0 [(l, m)] w a b = if (a =? 0) && (b =? l) then w a b ++ [m] else w a b.
Proof.
  rewrite post_wire. destruct (a =? 0) eqn:Ea; cbn [andb]; [|apply app_nil_r]. cbn [filter fst]. destruct (l =? b) eqn:Eb.
  - destruct (b =? l) eqn:Ec; [|lia]. reflexivity.
  - destruct (b =? l) eqn:Ec; [lia|]. apply app_nil_r.
Qed.

(* LID 0 asks the next process *)
Lemma more s dn r rs x lid : rounds = dn ++ r :: rs -> (forall a b, a <> 0 -> b <> 0 -> sn_wire s a b = []) -> sn_wire s 0 0 = [] -> 1 <= lid < N ->
  sq_kvs x = true -> sq_prog x = program rs 0 -> TS (after N (common N dn) r) (sq_st x) ->
  Know (common N dn) (after N (common N dn) r) (sq_st x) (fun k => exists l, lid <= l < N /\ fold_left map_op (r l) (common N dn) k <> common N dn k) -> sq_name x = None ->
  (forall l, 1 <= l < lid -> Sent (common N dn) (r :: rs) l (sn_proc s l) /\ sn_wire s 0 l = [] /\ sn_wire s l 0 = []) ->
  (forall l, lid <= l < N -> CI (common N dn) (r :: rs) l (sn_proc s l) (sn_wire s 0 l) (sn_wire s l 0)) ->
  exists x' ms, ask name q N lid x = Ok (x', ms) /\ SInv (mkSn (supd (sn_proc s) 0 x') (post 0 ms (sn_wire s))).
Proof.
  intros E W1 W2 Hlid P0 P1 P2 P3 P4 P5 P6. rewrite ask_more by (auto; lia). eexists _, _. split; [reflexivity|]. split; [|split].
  - intros a b Ha Hb. cbn [sn_wire]. rewrite post_one. destruct (a =? 0) eqn:Ea; [lia|]. cbn [andb]. auto.
  - cbn [sn_wire]. rewrite post_one. destruct (0 =? lid) eqn:Ea; [lia|]. rewrite andb_false_r. auto.
  - exists dn, (r :: rs). split; auto. right. exists r, rs, lid. split; auto. split; auto. cbv zeta. cbn [sn_proc sn_wire]. rewrite supd_same. cbn [sq_ph sq_kvs sq_name sq_prog sq_st sq_chg sq_rcv].
    do 5 (split; [auto|]). split; [|split].
    + intros l Hl. rewrite supd_other, !post_one by lia. destruct (l =? 0) eqn:E1; [lia|]. destruct (l =? lid) eqn:E2; [lia|]. rewrite andb_false_r. cbn [andb]. auto.
    + intros l Hl. rewrite supd_other, !post_one by lia. destruct (l =? 0) eqn:E1; [lia|]. destruct (l =? lid) eqn:E2; [lia|]. rewrite andb_false_r. cbn [andb]. apply P6. lia.
    + left. rewrite supd_other, !post_one by lia. destruct (lid =? 0) eqn:E1; [lia|]. rewrite (Z.eqb_refl lid). change (0 =? 0) with true. cbn [andb]. destruct (P6 lid ltac:(lia)) as (C1 & C2 & C3).
      split; [|split; [reflexivity|split; [reflexivity|exact P3]]]. split; [exact C1|]. left. split; [exact C2|]. exists (sn_wire s 0 lid). auto.
Qed.

Lemma step_master_go s : SInv s -> step s 0 Go = Ok None \/ exists s', step s 0 Go = Ok (Some s') /\ SInv s'.
Proof.
  intros (W1 & W2 & dn & rds & E & HM). assert (RO := rds_ok N rounds HRO dn rds E). unfold sstep.
  assert (Asked : forall x lid, (exists x' ms, ask name q N lid x = Ok (x', ms) /\ SInv (mkSn (supd (sn_proc s) 0 x') (post 0 ms (sn_wire s)))) ->
     exists s', (do y <- do y <- ask name q N lid x; Ok (Some y); match y with None => Ok None | Some (x, ms) => Ok (Some (mkSn (supd (sn_proc s) 0 x) (post 0 ms (sn_wire s)))) end) = Ok (Some s') /\ SInv s').
  { intros x lid (x' & ms & A1 & A2). rewrite A1. cbn [obind]. eexists. split; [reflexivity|exact A2]. }
  destruct HM as [(M1 & M2 & M3)|HM].
  - destruct M2 as (R1 & R2 & h1 & h2 & R3 & R4 & R5). unfold go. rewrite R1.
    destruct (RI_run q N Q PF (common N dn) rds RO h1 h2 0 (sn_proc s 0) R3 R4 R5 ltac:(lia) R1) as [(X1 & X2)|[(o & h2' & s' & X1 & tl & X2 & X3 & X4 & X5)|(r & rs & -> & X2 & X3)]].
    + rewrite X2. left. reflexivity.
    + rewrite X2, X3. cbn [obind]. right. eexists. split; [reflexivity|]. split; [|split]; cbn; auto. exists dn, rds. split; auto. left. split; [|split]; cbn; rewrite ?supd_same; cbn; auto.
      * split; cbn; auto. split; auto. exists (h1 ++ [o]), h2'. split; auto. split; auto. intros Y. destruct h1; discriminate.
      * intros l Hl. rewrite supd_other by lia. auto.
    + rewrite X2, R2, M1. cbn [negb cassert]. change (0 >? 0) with false. cbn iota.
      match goal with |- context [ask _ _ _ 1 ?x] => remember x as x1 eqn:E1 end.
      assert (IS : InSync (common N dn) (r :: rs) 0 x1) by (subst x1; split; cbn; auto; exists r, rs, (sn_proc s 0).(sq_st); auto).
      destruct (InSync_TS N _ _ RO 0 x1 r rs eq_refl ltac:(lia) IS) as (I1 & I2 & I3 & I4).
      assert (RR : RoundOk N r) by (inversion RO; auto).
      assert (KN : Know (common N dn) (after N (common N dn) r) (sq_st x1) (fun k => exists l, 1 <= l < N /\ fold_left map_op (r l) (common N dn) k <> common N dn k)).
      { intros k. destruct (bex_dec (fun l => fold_left map_op (r l) (common N dn) k <> common N dn k)) with (a := 1) (b := N) as [X|X]; auto.
        { intros l. destruct (option_list_dec (fold_left map_op (r l) (common N dn) k) (common N dn k)); auto. }
        right. rewrite I3. destruct (option_list_dec (fold_left map_op (r 0) (common N dn) k) (common N dn k)) as [Y|Y].
        - assert (AS : after N (common N dn) r k = common N dn k).
          { apply after_same; auto. intros p Hp. destruct (Z.eq_dec p 0) as [->|Hp0]; auto. specialize (X p ltac:(lia)). cbn in X.
            destruct (option_list_dec (fold_left map_op (r p) (common N dn) k) (common N dn k)); auto. exfalso; auto. }
          rewrite AS. split; [exact Y|]. intros Z9. exfalso. auto.
        - split; [|intros _; apply I4; auto]. symmetry. apply after_chg; auto. lia. }
      right. apply Asked. clear Asked. destruct (Z.eq_dec N 1) as [HN1|HN1].
      * assert (AE : ask name q N 1 x1 = ask name q N N x1) by (rewrite HN1; reflexivity). rewrite AE. apply (finish s dn r rs); auto.
        -- intros k. destruct (KN k) as [(l & X & _)|X]; [lia|auto].
        -- subst x1; auto.
        -- intros l Hl. lia.
      * apply (more s dn r rs); auto; try lia.
        -- subst x1; auto.
        -- subst x1; auto.
  - destruct HM as (r & rs & lid & -> & Hlid & H). cbv zeta in H. destruct H as (H1 & H2 & H3 & H4 & H5 & H6 & H7 & H8). unfold go. rewrite H1.
    destruct (waits (sn_proc s 0)) eqn:Ew; [left; reflexivity|]. right. apply Asked. destruct H8 as [(_ & C1 & C2 & _)|(HS & HW & D & HD & HK)].
    { unfold waits in Ew. rewrite C1 in Ew. discriminate. }
    destruct (Rem_done _ _ _ _ HD Ew) as (-> & HW2).
    assert (SA : forall l, 1 <= l < lid + 1 -> Sent (common N dn) (r :: rs) l (sn_proc s l) /\ sn_wire s 0 l = [] /\ sn_wire s l 0 = []).
    { intros l Hl. destruct (Z.eq_dec l lid) as [->|Hn]; auto. apply H6. lia. }
    assert (KN : Know (common N dn) (after N (common N dn) r) (sq_st (sn_proc s 0)) (fun k => exists l, lid + 1 <= l < N /\ fold_left map_op (r l) (common N dn) k <> common N dn k)).
    { intros k. destruct (HK k) as [[(v & [])|(l & X1 & X2)]|X]; auto. left. exists l. split; auto. lia. }
    destruct (Z.eq_dec (lid + 1) N) as [HN1|HN1].
    + rewrite HN1. apply (finish s dn r rs); auto.
      * intros k. destruct (KN k) as [(l & X & _)|X]; [lia|auto].
      * intros l Hl. apply SA. lia.
    + apply (more s dn r rs); auto; try lia. intros l Hl. apply H7. lia.
Qed.

Lemma step_ok s p a : SInv s -> 0 <= p < N -> act_ok N a -> step s p a = Ok None \/ exists s', step s p a = Ok (Some s') /\ SInv s'.
Proof.
  intros H Hp Ha. destruct (Z.eq_dec p 0) as [->|Hp0].
  - destruct a as [|l]; [apply step_master_go; auto|]. apply step_master_msg; auto.
  - destruct a as [|l]; [apply step_client_go; auto; lia|]. destruct (Z.eq_dec l 0) as [->|Hl]; [apply step_client_msg; auto; lia|].
    left. unfold sstep. destruct H as (W1 & _). rewrite W1 by auto. reflexivity.
Qed.

Lemma start_ok s : snet_start (program rounds) = Ok s -> SInv s.
Proof.
  unfold snet_start. destruct (new_LInv CString) as (s0 & E0 & L & Z0). rewrite E0. cbn [obind]. intros [= <-]. split; [|split]; cbn [sn_wire]; auto.
  exists [], rounds. split; auto. left. destruct L as (L1 & L2 & L3 & L4 & L5 & L6 & _).
  assert (RP : forall l, RunP (common N []) rounds l (mkSq (program rounds l) PUser s0 false None 0 0)).
  { intros l. split; [reflexivity|]. split; [reflexivity|]. destruct (Cur_start N rounds HRO l) as (h2 & X). exists [], h2. cbn [sq_st sq_prog]. split; [|split]; auto.
    - split; auto. split; auto. split; [eauto|]. intros k. rewrite Z0. reflexivity.
    - intros _. destruct L1 as (_ & L1 & _). unfold used in *. rewrite Z0 in *. cbn in *. lia. }
  split; [|split]; cbn [sn_proc sn_wire]; auto. intros l Hl. split; auto. split; auto. right; left. auto.
Qed.
End Steps.
