(* Location strings with the TCP2 backend *)
From Coq Require Import ZArith List Bool Lia ZifyBool ZifyNat Sorted Permutation.
From Verif Require Import Base Model_RangeList Model_KVS Spec_RangeList Spec_KVS Proof_RangeList5 Proof_KVS Proof_KVS2 Proof_KVS3 Proof_KVS5.
From Verif Require Import Model_SpaceStore Spec_SpaceStore Proof_SpaceStore Model_Tcp2 Proof_Tcp2 Proof_Tcp3 Model_Switch.
From Verif Require Import Model_Tcp2Sync Spec_Tcp2Sync Proof_Tcp2Sync1 Proof_Tcp2Sync2 Proof_Tcp2Sync6 Model_Location Proof_Location1 Proof_Location2.
Import ListNotations.
Open Scope Z_scope.

(* laik_kvs_set, in sync or not *)
Lemma set_any s k v s' : KI s -> kvs_set s k v = Ok s' ->
  (s' = s /\ exists t, seen (ks_ent s) k = Some (v ++ t)) \/
  (KI s' /\ ks_insync s' = ks_insync s /\ forall k', seen (ks_ent s') k' = if keq k' k then Some v else seen (ks_ent s) k').
Proof.
  intros HK. unfold kvs_set. destruct (kvs_entry_spec s k HK) as [r [-> R]]. cbn [obind].
  assert (G : forall s i e s', KI s -> nth_error (ks_ent s) i = Some e -> ke_key e = k -> kvs_store_value s i e k v = Ok s' ->
     KI s' /\ ks_insync s' = ks_insync s /\ forall k', seen (ks_ent s') k' = if keq k' k then Some v else seen (ks_ent s) k').
  { clear s s' HK R. intros s i e s' HK Hi Hk E. unfold kvs_store_value in E. destruct (ke_upd e && ks_insync s); [discriminate|].
    assert (S1 : forall b k', seen (ks_ent (put_entry s i (mkKe (ke_key e) (Some v) b))) k' = if keq k' k then Some v else seen (ks_ent s) k').
    { intros b k'. unfold seen. cbn [put_entry ks_ent]. destruct HK as (N & _). rewrite (look_upd _ i e) by auto. rewrite Hk. destruct (keq k' k); reflexivity. }
    assert (K1 : forall b, KI (put_entry s i (mkKe (ke_key e) (Some v) b))) by (intros b; apply (KI_put s i e); auto).
    destruct (ks_insync s) eqn:En.
    - injection E as <-. split; [apply K1|split; [exact En|apply S1]].
    - apply obind_ok in E. destruct E as (c & _ & E). injection E as <-. split; [apply (K1 true)|split; [exact En|apply (S1 true)]]. }
  destruct r as [i|].
  - destruct R as [e [E1 [E2 E3]]]. rewrite E1. intros E.
    destruct (ke_val e) as [old|] eqn:Eo; [|right; eapply G; eauto].
    destruct (memcmp_cases old v) as [[M [t ->]]|[[M _]|[M _]]]; rewrite M in E; cbn [obind] in E; [|right; eapply G; eauto|discriminate].
    left. injection E as <-. split; auto. exists t. unfold seen. rewrite E3. reflexivity.
  - set (size := if used s =? ks_size s then ks_size s * 2 else ks_size s). intros E. right.
    assert (Hs : used s < size /\ 0 < size).
    { destruct HK as (_ & _ & _ & P1 & P2). unfold size. destruct (used s =? ks_size s) eqn:E0; unfold used in *; lia. }
    destruct (used s >=? size) eqn:E0; [lia|].
    destruct (G _ _ _ _ (KI_snoc s k size HK R (proj1 Hs) (proj2 Hs)) (nth_error_app_last (ks_ent s) (mkKe k None false)) eq_refl E) as (A & B & C). conjs; auto.
    intros k'. rewrite C. cbn [ks_ent]. destruct (keq k' k) as [->|Nk]; auto. unfold seen.
    rewrite look_app by (simpl; now apply look_none). simpl. destruct (keq k' k); congruence.
Qed.
Lemma set_updated_seen s k v s' : set_updated s k v = Ok s' -> KI s ->
  exists s1, kvs_sets s k v = Ok s1 /\ (KI s1 -> KI s' /\ ks_insync s' = ks_insync s1 /\ forall k', seen (ks_ent s') k' = seen (ks_ent s1) k').
Proof.
  intros E HK. unfold set_updated in E. apply obind_ok in E. destruct E as (s1 & E1 & E). exists s1. split; auto. intros K1.
  destruct (kvs_entry_spec s1 k K1) as [r [Er R]]. rewrite Er in E. cbn [obind] in E. destruct r as [i|]; [|discriminate]. destruct R as (e & R1 & R2 & R3). rewrite R1 in E. injection E as <-.
  split; [apply (KI_put s1 i e); auto|]. split; [reflexivity|]. intros k'. unfold seen. cbn [put_entry ks_ent]. destruct K1 as (N & _). rewrite (look_upd _ i e) by auto. cbn [ke_key ke_val ke_upd]. rewrite R2.
  destruct (keq k' k) as [->|]; auto. rewrite R3. reflexivity.
Qed.

Section Tcp2.
  Variable n : Z.
  Hypothesis Hn : 0 <= n <= 10 ^ 9.

  Definition okmsg (m : list Z) : Prop := forall k v, data_of m = Some (k, v) -> LK n k.
  Definition okstep (x : kstep) : Prop := match x with SOp (OSets k v) => LK n k /\ ~ In 0 v | SOp _ => False | SSync => True end.
  Definition PInv (x : sproc) (u : locs) : Prop :=
    KI (sq_st x) /\ Agree n (sq_st x) u /\ Keys n (sq_st x) /\ ks_insync (sq_st x) = sq_kvs x /\ Forall okstep (sq_prog x) /\ (sq_ph x = PUser -> sq_kvs x = false).

  Lemma LK_word k : LK n k -> k <> [] /\ Forall (fun c => is_space c = false) k /\ (length k <= 30)%nat.
  Proof.
    intros (l & Hl & ->). split; [|split].
    - assert (X := key_len l ltac:(lia)). destruct (locationkey l); [simpl in X; lia|discriminate].
    - rewrite key_print by lia. eapply Forall_impl; [|apply print_dec_range; lia]. intros c Hc. cbn beta in Hc. unfold is_space. lia.
    - rewrite key_print by lia. assert (X := print9 l ltac:(lia)). lia.
  Qed.
  Lemma data_ok k s : LK n k -> okmsg (str_data ++ k ++ [32] ++ s).
  Proof.
    intros HK k' v. destruct (LK_word k HK) as (W1 & W2 & W3). unfold data_of. cbn [str_data app tl].
    change (skip1 32 (skip1 115 (skip1 118 (118 :: 115 :: 32 :: 100 :: 97 :: 116 :: 97 :: 32 :: k ++ 32 :: s)))) with (100 :: 97 :: 116 :: 97 :: 32 :: k ++ 32 :: s).
    cbn match. change (100 =? 100) with true. cbn match.
    change (100 :: 97 :: 116 :: 97 :: 32 :: k ++ 32 :: s) with ([100; 97; 116; 97] ++ 32 :: k ++ 32 :: s).
    rewrite scan_word_app; [|discriminate|repeat constructor|cbn; lia|right; reflexivity].
    rewrite scan_word_sp; [|auto|auto|auto|right; reflexivity].
    destruct (take_line _ _); [discriminate|]. intros [= <- _]. auto.
  Qed.
  Lemma allow_ok name c : kvs_allow_cmd name = Ok c -> okmsg c.
  Proof. unfold kvs_allow_cmd, into_msg. destruct (_ >? _); [discriminate|]. intros [= <-] k v. discriminate. Qed.
  Lemma upd_ok s ms : KI s -> Keys n s -> upd_cmds s = Ok ms -> Forall okmsg ms.
  Proof.
    intros HK HS E. unfold upd_cmds in E. apply obind_ok in E. destruct E as (c & E1 & E). apply obind_ok in E. destruct E as (d & E2 & E). injection E as <-. constructor.
    - unfold kvs_changes_cmd, into_msg in E1. destruct (_ >? _) in E1; [discriminate|]. injection E1 as <-. intros k v. discriminate.
    - assert (F : Forall (fun e => In e (ks_ent s)) (filter ke_upd (ks_ent s))) by (apply Forall_forall; intros e He; apply filter_In in He; tauto).
      revert d E2 F. generalize (filter ke_upd (ks_ent s)). induction l as [|e l IH]; intros d E2 F; cbn [omapm] in E2.
      + injection E2 as <-. constructor.
      + inversion F as [|? ? F1 F2]; subst. apply obind_ok in E2. destruct E2 as (m & M1 & E2). apply obind_ok in E2. destruct E2 as (d' & M2 & E2). injection E2 as <-. constructor; auto.
        unfold kvs_data_cmd in M1. apply obind_ok in M1. destruct M1 as (str & M0 & M1). unfold into_msg in M1. destruct (_ >? _) in M1; [discriminate|]. injection M1 as <-.
        apply data_ok. apply HS. destruct HK as (ND & _). 
        assert (X : look (ks_ent s) (ke_key e) = Some (ke_val e, ke_upd e)).
        { clear - ND F1. revert ND F1. generalize (ks_ent s). intros l. induction l as [|a l IH]; [intros _ []|]. cbn [map look]. intros ND [->|H]; [destruct (keq (ke_key e) (ke_key e)); congruence|]. inversion ND; subst.
          destruct (keq (ke_key e) (ke_key a)) as [E|_]; auto. exfalso. apply H2. rewrite <- E. apply in_map. auto. }
        unfold seen. rewrite X. intros Ev. rewrite Ev in M0. discriminate.
  Qed.

  Lemma leave_ok q x u s y : is_qsort kvs_cmp q -> PInv x u -> s = sq_st x -> sync_leave q x s = Ok y -> PInv y u.
  Proof.
    intros Q (A & B & C & D & E & F) -> H. unfold sync_leave in H. apply obind_ok in H. destruct H as (s' & H1 & H). injection H as <-. destruct (sync_end_seen q _ _ Q A H1) as (K & S).
    assert (I : ks_insync s' = false) by (unfold sync_end in H1; apply obind_ok in H1; destruct H1 as (c & _ & H1); injection H1 as <-; reflexivity).
    unfold PInv. cbn [sq_st sq_kvs sq_prog sq_ph]. split; [exact K|]. split; [|split; [|auto]].
    - destruct B as (B1 & B2 & B3). split; [exact B1|]. split; [exact B2|]. intros l Hl. rewrite S. auto.
    - intros k Hk. rewrite S in Hk. auto.
  Qed.
  Lemma ask_ok name q N lid x u y : is_qsort kvs_cmp q -> PInv x u -> sq_kvs x = true -> ask name q N lid x = Ok y -> PInv (fst y) u /\ Forall (fun m => okmsg (snd m)) (snd y).
  Proof.
    intros Q HP Hk H. unfold ask in H. destruct (lid <? N).
    - apply obind_ok in H. destruct H as (c & H1 & H). injection H as <-. cbn [fst snd]. split; [|constructor; [apply (allow_ok name); auto|constructor]].
      destruct HP as (A & B & C & D & E & F). unfold PInv. cbn [sq_st sq_kvs sq_prog sq_ph]. conjs; auto. discriminate.
    - apply obind_ok in H. destruct H as (ms & H1 & H). apply obind_ok in H. destruct H as (x' & H2 & H). injection H as <-. cbn [fst snd]. split; [apply (leave_ok q x u (sq_st x)); auto|].
      assert (F := upd_ok (sq_st x) ms (proj1 HP) (proj1 (proj2 (proj2 HP))) H1). apply Forall_forall. intros m Hm. apply in_flat_map in Hm. destruct Hm as (m0 & M1 & M2). apply in_map_iff in M2. destruct M2 as (l & <- & _). rewrite Forall_forall in F. auto.
  Qed.

  Lemma go_ok name q N p x u y : is_qsort kvs_cmp q -> PInv x u -> go name q N p x = Ok (Some y) ->
    exists u', match sq_ph x, sq_prog x with PUser, SOp (OSets k v) :: _ => put_loc u (atoi k) v | _, _ => Ok u end = Ok u' /\
      PInv (fst y) u' /\ Forall (fun m => okmsg (snd m)) (snd y).
  Proof.
    intros Q HP H. assert (HP' := HP). destruct HP' as (A & B & C & D & E & F). unfold go in H. destruct (sq_ph x) eqn:Ep.
    - specialize (F eq_refl). destruct (sq_prog x) as [|[o|] r] eqn:Er; [discriminate| |].
      + inversion E as [|? ? E1 E2]; subst. destruct o as [|k v| | |]; try contradiction. destruct E1 as (LKk & Hz). apply obind_ok in H. destruct H as (s & H1 & H). injection H as <-. cbn [exec_op] in H1. unfold kvs_sets in H1.
        destruct (set_any _ _ _ _ A H1) as [(-> & t & St)|(S1 & S2 & S3)].
        * (* already set *)
          destruct (put_agree n Hn (sq_st x) (sq_st x) u k ((v ++ [0]) ++ t) v B LKk) as (u' & U1 & U2).
          { rewrite <- app_assoc. cbn [app]. apply cstr_app. exact Hz. }
          { intros k'. destruct (keq k' k) as [->|]; auto. }
          exists u'. split; [exact U1|]. split; [|constructor]. unfold PInv. cbn [fst sq_st sq_kvs sq_prog sq_ph]. conjs; auto.
        * destruct (put_agree n Hn (sq_st x) s u k (v ++ [0]) v B LKk (cstr_app v [] Hz) S3) as (u' & U1 & U2).
          exists u'. split; [exact U1|]. split; [|constructor]. unfold PInv. cbn [fst sq_st sq_kvs sq_prog sq_ph]. conjs; auto; [|congruence].
          intros k' Hk'. rewrite S3 in Hk'. destruct (keq k' k) as [->|]; auto.
      + inversion E as [|? ? E1 E2]; subst. destruct (negb (sq_kvs x)); [|discriminate]. cbn [cassert] in H. destruct (match sq_name x with Some n0 => same_name name n0 | None => true end); [|discriminate]. cbn [cassert] in H.
        exists u. split; [reflexivity|]. destruct (p >? 0).
        * injection H as <-. cbn [fst snd]. split; [|constructor]. unfold PInv. cbn [sq_st sq_kvs sq_prog sq_ph]. conjs; auto. discriminate.
        * apply obind_ok in H. destruct H as (z & H1 & H). injection H as <-.
          assert (P1 : PInv (mkSq r PAllow (sync_begin (sq_st x)) true (sq_name x) (sq_chg x) (sq_rcv x)) u).
          { unfold PInv. cbn [sq_st sq_kvs sq_prog sq_ph]. conjs; auto. discriminate. }
          unfold ask in H1. unfold sync_leave in H1. cbn [sq_prog sq_st sq_kvs sq_name sq_chg sq_rcv] in H1.
          exact (ask_ok name q N 1 _ u z Q P1 eq_refl H1).
    - destruct (sq_name x); [|discriminate]. destruct (same_name name l); [|discriminate]. cbn [cassert] in H. apply obind_ok in H. destruct H as (ms & H1 & H). injection H as <-. exists u. split; [reflexivity|]. cbn [fst snd]. split.
      + unfold PInv. cbn [sq_st sq_kvs sq_prog sq_ph]. conjs; auto. discriminate.
      + assert (G := upd_ok (sq_st x) ms A C H1). apply Forall_forall. intros m Hm. apply in_map_iff in Hm. destruct Hm as (m0 & <- & Hm). rewrite Forall_forall in G. auto.
    - destruct (waits x); [discriminate|]. apply obind_ok in H. destruct H as (z & H1 & H). injection H as <-. exists u. split; [reflexivity|]. cbn [fst snd]. split; [apply (leave_ok q x u (sq_st x)); auto|constructor].
    - destruct (waits x); [discriminate|]. apply obind_ok in H. destruct H as (z & H1 & H). injection H as <-. exists u. split; [reflexivity|].
      destruct (sq_kvs x) eqn:Ek; [exact (ask_ok name q N (lid + 1) x u z Q HP Ek H1)|].
      (* not reached: waiting processes are in laik_kvs_sync *)
      unfold ask in H1. destruct (lid + 1 <? N).
      + apply obind_ok in H1. destruct H1 as (c & H2 & H1). injection H1 as <-. cbn [fst snd]. split; [|constructor; [apply (allow_ok name); auto|constructor]].
        unfold PInv. cbn [sq_st sq_kvs sq_prog sq_ph]. conjs; auto. congruence.
      + apply obind_ok in H1. destruct H1 as (ms & H2 & H1). apply obind_ok in H1. destruct H1 as (x' & H3 & H1). injection H1 as <-. cbn [fst snd]. split; [apply (leave_ok q x u (sq_st x)); auto|].
        assert (G := upd_ok (sq_st x) ms A C H2). apply Forall_forall. intros m Hm. apply in_flat_map in Hm. destruct Hm as (m0 & M1 & M2). apply in_map_iff in M2. destruct M2 as (l & <- & _). rewrite Forall_forall in G. auto.
  Qed.

  Lemma msg_ok lid x u m x' : PInv x u -> okmsg m -> got_kvs lid x m = Ok x' -> exists u', got_kvs_cb update_location lid x u m = Ok (x', u') /\ PInv x' u'.
  Proof.
    intros HP HM H. assert (HP' := HP). destruct HP' as (A & B & C & D & E & F). unfold got_kvs_cb. rewrite H.
    destruct (data_of m) as [[k v]|] eqn:Ed.
    - assert (HL := HM k v Ed). unfold data_of in Ed. unfold got_kvs in H. destruct (skip1 32 (skip1 115 (skip1 118 (tl m)))) as [|c r] eqn:Em; [discriminate|].
      destruct (c =? 100) eqn:Ec; [|discriminate]. assert (c = 100) by lia. subst c. change (100 =? 97) with false in H. change (100 =? 99) with false in H. cbn match in H. unfold got_kvs_data in H.
      destruct (scan_word 20 (100 :: r)) as [[w1 l1]|]; [|discriminate]. destruct (scan_word 30 l1) as [[k0 l2]|]; [|discriminate]. destruct (take_line 100 (skip_space l2)) as [|c0 v0] eqn:Et; [discriminate|]. injection Ed as -> <-.
      destruct (sq_kvs x) eqn:Ek; [|discriminate]. destruct (sq_chg x >? 0); [|discriminate]. destruct (sq_rcv x <? sq_chg x); [|discriminate]. cbn [cassert] in H.
      apply obind_ok in H. destruct H as (s' & H1 & H). injection H as <-. destruct (set_updated_seen _ _ _ _ H1 A) as (s1 & S1 & S2). unfold kvs_sets in S1.
      pose proof (set_sync (sq_st x) k ((c0 :: v0) ++ [0]) A D) as X. rewrite S1 in X. destruct X as [(X1 & -> & _)|(X1 & X2 & X3 & X4)].
      + rewrite X1. cbn [obind]. exists u. split; [reflexivity|]. destruct (S2 A) as (T1 & T2 & T3). unfold PInv. cbn [sq_st sq_kvs sq_prog sq_ph]. conjs; auto; try congruence.
        * destruct B as (B1 & B2 & B3). split; [exact B1|]. split; [exact B2|]. intros l Hl. rewrite T3. auto.
        * intros k' Hk'. rewrite T3 in Hk'. auto.
      + rewrite X1. cbn [obind]. destruct (S2 X2) as (T1 & T2 & T3).
        destruct (update_agree n Hn (sq_st x) s' u k ((c0 :: v0) ++ [0]) B HL) as (u' & U1 & U2).
        { intros k'. rewrite T3. apply X4. }
        rewrite U1. cbn [obind]. exists u'. split; [reflexivity|]. unfold PInv. cbn [sq_st sq_kvs sq_prog sq_ph]. conjs; auto; try congruence.
        intros k' Hk'. rewrite T3, X4 in Hk'. destruct (keq k' k) as [->|]; auto.
    - cbn [obind]. exists u. split; [reflexivity|]. unfold data_of in Ed. unfold got_kvs in H. destruct (skip1 32 (skip1 115 (skip1 118 (tl m)))) as [|c r] eqn:Em; [injection H as <-; auto|].
      destruct (c =? 97).
      { unfold got_kvs_allow in H. destruct (negb (lid =? 0)); [injection H as <-; auto|]. destruct (scan_word 20 (c :: r)) as [[w1 l1]|]; [|injection H as <-; auto]. destruct (scan_word 29 l1) as [[w2 l2]|]; [|injection H as <-; auto].
        destruct (match sq_name x with None => true | Some _ => false end); [|discriminate]. injection H as <-. exact HP. }
      destruct (c =? 99).
      { unfold got_kvs_changes in H. destruct (scan_word 20 (c :: r)) as [[w1 l1]|]; [|injection H as <-; auto]. destruct (scan_dec l1) as [[w2 l2]|]; [|injection H as <-; auto].
        destruct (negb (sq_kvs x)); [discriminate|]. destruct (sq_chg x =? -1); [|discriminate]. destruct (sq_rcv x =? 0); [|discriminate]. injection H as <-. exact HP. }
      destruct (c =? 100); [|injection H as <-; auto]. unfold got_kvs_data in H.
      destruct (scan_word 20 (c :: r)) as [[w1 l1]|]; [|injection H as <-; auto]. destruct (scan_word 30 l1) as [[k0 l2]|]; [|injection H as <-; auto]. destruct (take_line 100 (skip_space l2)) as [|c0 v0] eqn:Et; [injection H as <-; auto|discriminate Ed].
  Qed.

  Definition NInv (s : lnet) : Prop :=
    (forall p, PInv (sn_proc (ln_net s) p) (ln_locs s p)) /\ (forall a b, Forall okmsg (sn_wire (ln_net s) a b)).

  Lemma lset_same L p u : lset L p u p = u.
  Proof. unfold lset. now rewrite Z.eqb_refl. Qed.
  Lemma upd_inv s p x u wi : NInv s -> PInv x u -> (forall a b, Forall okmsg (wi a b)) -> NInv (mkLn (mkSn (supd (sn_proc (ln_net s)) p x) wi) (lset (ln_locs s) p u)).
  Proof.
    intros (H1 & H2) HP HW. split; cbn [ln_net ln_locs sn_proc sn_wire]; auto. intros r. unfold supd, lset. destruct (r =? p); auto.
  Qed.

  Lemma step_sim name q N s p a y : is_qsort kvs_cmp q -> NInv s -> sstep name q N (ln_net s) p a = Ok y ->
    match y with
    | None => lstep name q N s p a = Ok None \/ (a = Go /\ exists u, lstep name q N s p a = Ok u /\ u = None)
    | Some s' => exists L, lstep name q N s p a = Ok (Some (mkLn s' L)) /\ NInv (mkLn s' L)
    end.
  Proof.
    intros Q HI E. destruct HI as (H1 & H2). destruct a as [|r].
    - assert (E' := E). cbn [sstep] in E. apply obind_ok in E. destruct E as ([[x ms]|] & E1 & E).
      + injection E as <-. destruct (go_ok name q N p _ _ _ Q (H1 p) E1) as (u' & U1 & U2 & U3). cbn [fst snd] in *.
        exists (lset (ln_locs s) p u'). unfold lstep. rewrite U1. cbn [obind]. rewrite E'. cbn [obind]. split; [reflexivity|]. apply upd_inv; [split; auto|auto|].
        intros a b. rewrite post_wire. apply Forall_app. split; auto. destruct (a =? p); [|constructor]. apply Forall_forall. intros m Hm. apply in_map_iff in Hm. destruct Hm as (m0 & <- & Hm). apply filter_In in Hm. rewrite Forall_forall in U3. apply U3. tauto.
      + injection E as <-. left. unfold lstep. assert (X : match sq_ph (sn_proc (ln_net s) p), sq_prog (sn_proc (ln_net s) p) with PUser, SOp (OSets k v) :: _ => put_loc (ln_locs s p) (atoi k) v | _, _ => Ok (ln_locs s p) end = Ok (ln_locs s p)).
        { unfold go in E1. destruct (sq_ph (sn_proc (ln_net s) p)); auto. destruct (sq_prog (sn_proc (ln_net s) p)) as [|[o|] r]; auto. apply obind_ok in E1. destruct E1 as (z & _ & E1). discriminate. }
        rewrite X. cbn [obind]. rewrite E'. reflexivity.
    - cbn [sstep] in E. unfold lstep. specialize (H2 r p) as W. destruct (sn_wire (ln_net s) r p) as [|m w] eqn:Ew; [injection E as <-; left; reflexivity|].
      apply obind_ok in E. destruct E as (x & E1 & E). injection E as <-. inversion W as [|? ? W1 W2]; subst. destruct (msg_ok r _ _ m x (H1 p) W1 E1) as (u' & U1 & U2). rewrite U1. cbn [obind fst snd].
      exists (lset (ln_locs s) p u'). split; [reflexivity|]. apply upd_inv; [split; auto|auto|]. intros a b. unfold supd2. destruct ((a =? r) && (b =? p)); auto.
  Qed.
  Lemma run_sim name q N : is_qsort kvs_cmp q -> forall l s t, NInv s -> srun name q N (ln_net s) l = Ok t -> exists s', lrun name q N s l = Ok s' /\ ln_net s' = t /\ NInv s'.
  Proof.
    intros Q. induction l as [|[p a] l IH]; intros s t HI E; cbn [srun] in E.
    - injection E as <-. exists s. auto.
    - apply obind_ok in E. destruct E as (y & E1 & E2). assert (X := step_sim name q N s p a y Q HI E1). cbn [lrun]. destruct y as [s1|].
      + destruct X as (L & X1 & X2). rewrite X1. cbn [obind]. apply IH; auto.
      + destruct X as [X|(_ & u & X & ->)]; rewrite X; cbn [obind]; apply IH; auto.
  Qed.
End Tcp2.
