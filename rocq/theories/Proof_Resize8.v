(* The invariant holds in all states reached; consequences *)
From Coq Require Import ZArith List Bool Lia ZifyBool ZifyNat Wellfounded.
From Verif Require Import Base Model_Space Model_RangeList Model_Partitioner Model_Resize Model_Startup Spec_Resize Proof_Resize1 Proof_Resize2 Proof_Resize3 Proof_Resize4 Proof_Resize5 Proof_Resize6 Proof_Resize7 Proof_Startup Proof_Group.
Import ListNotations.
Open Scope Z_scope.

(** location IDs given *)
Lemma lids_world n regs log : fst (lids_after n regs log) = world_after n log.
Proof.
  induction log as [|rs log IH] using rev_ind; [reflexivity|]. unfold lids_after, world_after in *. rewrite !fold_left_app. simpl.
  rewrite IH. auto.
Qed.
Lemma lid_nlog n regs log rs q : lid_of n regs (nlog log rs) q = give (NL n log) (joins rs) (lid_of n regs log) q.
Proof.
  unfold nlog. destruct rs as [|r rs]; [reflexivity|]. unfold lid_of, lids_after. rewrite fold_left_app. simpl fold_left. cbn [snd].
  f_equal. fold (lids_after n regs log). rewrite lids_world. reflexivity.
Qed.
Lemma give_ext k l f g : (forall q, f q = g q) -> forall q, give k l f q = give k l g q.
Proof.
  revert k f g. induction l as [|x l IH]; intros k f g H q; simpl; auto. apply IH. intros y. unfold setz. destruct (y =? x); auto.
Qed.

Lemma ofold_keep {S X Y} (h : S -> Y) (f : S -> X -> outcome S) l s s' :
  (forall s x s', f s x = Ok s' -> h s' = h s) -> ofold f l s = Ok s' -> h s' = h s.
Proof.
  intros H. revert s. induction l as [|x l IH]; intros s E; simpl in E; [congruence|].
  apply obind_ok in E. destruct E as (s1 & E1 & E2). apply H in E1. apply IH in E2. congruence.
Qed.
Lemma finish_fdlid m m' : finish_master m = Ok m' -> m_fdlid m' = m_fdlid m.
Proof.
  unfold finish_master. destruct (d_inst (m_d m)); [|discriminate]. destruct (w_parent _); [|congruence].
  intros E. apply obind_ok in E. destruct E as (d & _ & E). injection E as <-. auto.
Qed.
Lemma addreq_fdlid m r m' : add_req m r = Ok m' -> m_fdlid m' = m_fdlid m.
Proof. unfold add_req, cassert. destruct (_ <? _); [|discriminate]. intros E; injection E as <-. auto. Qed.
Lemma end_fdlid junk a r m m' out : master_end junk a r m = Ok (m', out) -> m_fdlid m' = m_fdlid m.
Proof.
  unfold master_end, cassert. destruct (d_inst (m_d m)); [|discriminate]. destruct (_ =? _); [|discriminate]. destruct (_ =? _); [|discriminate].
  destruct (negb _); [intros E; injection E as <- _; auto|]. intros E. apply obind_ok in E. destruct E as (b & _ & E).
  destruct (_ =? _); [|discriminate]. apply obind_ok in E. destruct E as (i' & _ & E). injection E as <- _. auto.
Qed.
Lemma cmd_fdlid m q c m' out : d_st (m_d m) <> PsInResize1 -> master_cmd m q c = Ok (m', out) -> m_fdlid m' = m_fdlid m /\ out = [].
Proof.
  intros Hs. destruct c; cbn [master_cmd].
  { unfold got_register. destruct (0 <=? m_fdlid m q); [intros E; injection E as <- <-; auto|].
    destruct (d_st (m_d m)); try tauto; destruct (m_fdst m q); intros E; try discriminate; injection E as <- <-; auto. }
  all: destruct (m_fdlid m q <? 0); try (intros E; injection E as <- <-; auto; fail).
  - intros E; injection E as <- <-. unfold got_ok. destruct (d_peer (m_d m) (m_fdlid m q)); auto.
  - unfold omap, got_enterresize, cassert. destruct (_ && _); [|discriminate]. destruct (d_peer _ _); intros E; try discriminate. injection E as <- <-. auto.
Qed.

Lemma handled_in s log : s_mpc s = MIn -> log ++ handled s EvGoM = nlog log (m_reqs (s_m s)).
Proof. intros E. unfold handled, nlog. rewrite E. destruct (m_reqs (s_m s)); [apply app_nil_r|auto]. Qed.
Lemma handled_not s log : s_mpc s <> MIn -> log ++ handled s EvGoM = log.
Proof. intros E. unfold handled. destruct (s_mpc s); try tauto; apply app_nil_r. Qed.

Section All.
  Variables (next junk : Z -> Z) (n0 : Z).
  Hypothesis Hn0 : 1 <= n0 <= max_peers.
  Hypothesis Hnext : forall p, next p <> -1.
  Notation WL := (WL n0). Notation NL := (NL n0).
  Notation Inv := (Inv next junk n0).

  Lemma n0_nonneg : 0 <= n0. Proof. lia. Qed.

  Lemma inv_goM s log r : Inv s log -> fine n0 log s EvGoM -> exec next junk s EvGoM = Some r ->
    exists s', r = Ok s' /\ Inv s' (log ++ handled s EvGoM) /\
      match s_mpc s with MIn => (exists a b, s_mpc s' = MWaitOk a b) /\ (forall q, m_fdlid (s_m s') q = give (NL log) (joins (m_reqs (s_m s))) (m_fdlid (s_m s)) q)
      | _ => s_mpc s' = MApp end.
  Proof.
    intros (HF & P & HM) Hf He. cbn [exec] in He. unfold fine in Hf. unfold Mode in HM.
    destruct (s_mpc s) as [| |a r0] eqn:Epc; [discriminate| |].
    - destruct (waits_in (s_m s)) eqn:Ew; [discriminate|]. injection He as <-.
      destruct (inv_mid next junk n0 n0_nonneg Hnext log P (s_m s) (s_n s) (s_down s) (s_up s) HF HM Ew Hf) as (m' & out & E & EG & A & B).
      rewrite E. cbn [obind]. eexists. split; [reflexivity|]. rewrite handled_in by auto. split; [|split; [eexists; eexists; reflexivity|exact EG]].
      split; [exact A|]. exists P. simpl. exists log, (m_reqs (s_m s)). auto.
    - destruct (waits_ok (s_m s)) eqn:Ew; [discriminate|]. injection He as <-. destruct HM as (cur & rs & -> & HM).
      destruct (inv_end next junk n0 n0_nonneg Hnext cur rs P a r0 (s_m s) (s_n s) (s_down s) (s_up s) HF HM Ew) as (m' & out & E & A & B).
      rewrite E. cbn [obind fst snd]. eexists. split; [reflexivity|]. rewrite handled_not by congruence. split; [|auto].
      split; [exact A|]. exists (next P). exact B.
  Qed.

  Lemma inv_exec s log ev r : Inv s log -> fine n0 log s ev -> exec next junk s ev = Some r ->
    exists s', r = Ok s' /\ Inv s' (log ++ handled s ev).
  Proof.
    intros HI Hf He.
    assert (HL : handled s ev = [] -> (exists s', r = Ok s' /\ Inv s' log) -> exists s', r = Ok s' /\ Inv s' (log ++ handled s ev)).
    { intros -> (s' & A & B). exists s'. rewrite app_nil_r. auto. }
    destruct ev.
    - apply HL; [auto|]. eapply inv_callM; eauto; lia.
    - apply HL; [auto|]. eapply (inv_local next junk n0); eauto; try reflexivity; try lia.
    - apply HL; [auto|]. eapply inv_finishM; eauto; lia.
    - apply HL; [auto|]. eapply (inv_local next junk n0); eauto; try reflexivity; try lia.
    - destruct (inv_goM s log r HI Hf He) as (s' & A & B & _). eauto.
    - apply HL; [auto|]. eapply (inv_local next junk n0); eauto; try reflexivity; try lia.
    - apply HL; [auto|]. eapply (inv_local next junk n0); eauto; try reflexivity; try lia.
    - apply HL; [auto|]. eapply inv_up; eauto; lia.
    - apply HL; [auto|]. eapply inv_cut; eauto; lia.
    - apply HL; [auto|]. eapply inv_join; eauto; lia.
  Qed.

  Lemma reach_inv regs s log : reach next junk n0 regs s log -> Inv s log.
  Proof.
    induction 1 as [t HT Hd|s log ev s' HR IH Hf He]; [apply (done_inv next junk n0 Hn0 t regs HT Hd)|].
    destruct (inv_exec s log ev (Ok s') IH Hf He) as (s2 & E & HI). injection E as ->. auto.
  Qed.

  Lemma st_not1 s log : Inv s log -> d_st (m_d (s_m s)) <> PsInResize1.
  Proof.
    intros (_ & P & HM). unfold Mode in HM. destruct (s_mpc s).
    - rewrite (o_st _ _ _ _ _ _ _ _ _ _ HM). discriminate.
    - rewrite (o_st _ _ _ _ _ _ _ _ _ _ HM). discriminate.
    - destruct HM as (cur & rs & _ & HM). rewrite (r_st _ _ _ _ _ _ _ _ _ _ _ _ HM). discriminate.
  Qed.

  Lemma exec_fdlid s log ev s' : Inv s log -> exec next junk s ev = Some (Ok s') -> (ev = EvGoM -> s_mpc s <> MIn) ->
    m_fdlid (s_m s') = m_fdlid (s_m s).
  Proof.
    intros HI He Hne. pose proof (st_not1 s log HI) as Hs. destruct ev; cbn [exec] in He.
    - destruct (s_mpc s); try discriminate. injection He as He. apply obind_ok in He. destruct He as (m' & E & He). injection He as <-. simpl.
      unfold master_call in E. apply obind_ok in E. destruct E as (d1 & _ & E). apply obind_ok in E. destruct E as (m1 & E1 & E). apply finish_fdlid in E1.
      apply obind_ok in E. destruct E as (m2 & E2 & E). unfold make_progress in E2.
      apply (ofold_keep m_fdlid) in E2.
      + apply obind_ok in E. destruct E as (r & _ & E). destruct r; [|discriminate]. injection E as <-. simpl. rewrite E2, E1. auto.
      + intros m x m3 H. unfold collect_step in H. destruct (m_fdst m x); try (injection H as <-; auto; fail). apply addreq_fdlid in H. auto.
    - destruct (s_n s q) as [[d pc]|]; [|discriminate]. destruct pc; try discriminate. injection He as He. apply obind_ok in He. destruct He as ([[d' w] o] & _ & He). injection He as <-. auto.
    - destruct (s_mpc s); try discriminate. injection He as He. apply obind_ok in He. destruct He as (m' & E & He). injection He as <-. simpl. eapply finish_fdlid; eauto.
    - destruct (s_n s q) as [[d pc]|]; [|discriminate]. destruct pc; try discriminate. injection He as He. apply obind_ok in He. destruct He as (d' & _ & He). injection He as <-. auto.
    - destruct (s_mpc s) eqn:Epc; try discriminate.
      + exfalso. apply Hne; auto.
      + destruct (waits_ok (s_m s)); [discriminate|]. injection He as He. apply obind_ok in He. destruct He as ([m' out] & E & He). injection He as <-. simpl. eapply end_fdlid; eauto.
    - destruct (s_n s q) as [n|]; [|discriminate]. destruct (may_go n); [|discriminate]. injection He as He. apply obind_ok in He. destruct He as (d' & _ & He). injection He as <-. auto.
    - destruct (s_n s q) as [n|]; [|discriminate]. destruct (s_down s q); [discriminate|]. injection He as He. apply obind_ok in He. destruct He as (d' & _ & He). injection He as <-. auto.
    - destruct (s_up s q) as [|c rest]; [discriminate|]. injection He as He. apply obind_ok in He. destruct He as ([m' out] & E & He). injection He as <-. simpl. eapply cmd_fdlid; eauto.
    - injection He as He. apply obind_ok in He. destruct He as (m' & E & He). injection He as <-. simpl. unfold got_cutoff in E. apply (ofold_keep m_fdlid) in E; auto.
      intros m x m3 H. unfold cut_step in H.
      destruct (d_peer (m_d m) x); try (injection H as <-; auto; fail);
        (destruct (pat x); [|injection H as <-; auto; fail]; destruct (x =? 0); [injection H as <-; auto; fail|]; eapply addreq_fdlid; eauto).
    - destruct (s_n s q); [discriminate|]. destruct (_ && _); [|discriminate]. injection He as <-. auto.
  Qed.

  Lemma reach_lids regs s log : reach next junk n0 regs s log -> forall q, m_fdlid (s_m s) q = lid_of n0 regs log q.
  Proof.
    induction 1 as [t HT Hd|s log ev s' HR IH Hf He]; [apply (done_inv next junk n0 Hn0 t regs HT Hd)|]. pose proof (reach_inv regs s log HR) as HI.
    assert (HC : (ev = EvGoM /\ s_mpc s = MIn) \/ ((ev = EvGoM -> s_mpc s <> MIn) /\ handled s ev = [])).
    { unfold handled. destruct ev; try (right; split; [discriminate|reflexivity]). destruct (s_mpc s); [right|left|right]; split; auto; try discriminate; intros _; discriminate. }
    destruct HC as [(-> & Epc)|(Hne & Eh)].
    - destruct (inv_goM s log (Ok s') HI Hf He) as (s2 & E & _ & HG). injection E as <-. rewrite Epc in HG. destruct HG as (_ & HG).
      intros q. rewrite HG, handled_in, lid_nlog by auto. apply give_ext. auto.
    - rewrite Eh, app_nil_r, (exec_fdlid s log ev s' HI He Hne). auto.
  Qed.

  (** what the application sees *)
  Lemma member_app s log : Inv s log -> exists P,
    (forall q n, s_n s q = Some n -> np_pc n = NApp -> 0 <= m_fdlid (s_m s) q /\
      ((In (m_fdlid (s_m s) q) (WL log) /\ Settled n0 log P (m_fdlid (s_m s) q) (np_d n) /\ forall a r, s_mpc s <> MWaitOk a r) \/
       (~ In (m_fdlid (s_m s) q) (WL log) /\ Gone n0 log (m_fdlid (s_m s) q) (np_d n)))) /\
    match s_mpc s with
    | MWaitOk _ _ => True
    | pc => exists i, d_inst (m_d (s_m s)) = Some i /\ i_epoch i = zlen log /\ world_ok n0 log 0 i /\
              i_phase i = match pc with MApp => P | _ => next P end
    end.
  Proof.
    intros (HF & P & HM). exists P. split.
    - intros q n Hn Hpc. destruct (Z_lt_le_dec (m_fdlid (s_m s) q) 0) as [Hl|Hl].
      { destruct (f_unreg _ _ _ _ HF q n Hn Hl) as (-> & _). discriminate. }
      split; auto. unfold Mode in HM. set (l := m_fdlid (s_m s) q) in *.
      assert (HO : forall inr, OpenM next junk n0 log P inr (s_m s) (s_n s) (s_down s) (s_up s) ->
         (In l (WL log) /\ Settled n0 log P l (np_d n)) \/ (~ In l (WL log) /\ Gone n0 log l (np_d n))).
      { intros inr HO. pose proof (o_sess _ _ _ _ _ _ _ _ _ _ HO q n Hn Hl) as HS. cbv zeta in HS. fold l in HS. destruct (zin l (WL log)) eqn:Ez.
        - apply zin_In in Ez. left. split; auto. unfold sessA in HS. destruct (d_peer (m_d (s_m s)) l); try tauto.
          + destruct HS as [(_ & HS)|(_ & _ & HS & _)]; [|congruence]. eapply arrives_app; eauto.
          + destruct HS as (_ & _ & HS & _). congruence.
        - apply zin_not in Ez. right. split; auto. destruct HS as (_ & HS). eapply arrives_app; eauto. }
      destruct (s_mpc s) as [| |a r0] eqn:Epc.
      + destruct (HO _ HM) as [(A & B)|(A & B)]; [left|right; auto]. split; auto. split; auto. discriminate.
      + destruct (HO _ HM) as [(A & B)|(A & B)]; [left|right; auto]. split; auto. split; auto. discriminate.
      + right. destruct HM as (cur & rs & -> & HM). pose proof (r_sess _ _ _ _ _ _ _ _ _ _ _ _ HM q n Hn Hl) as HS. cbv zeta in HS. fold l in HS.
        destruct (zin l (WL cur)) eqn:Ez; [destruct HS; congruence|]. destruct (NL cur <=? l) eqn:Ek; [destruct HS; congruence|].
        split.
        * apply zin_not in Ez. rewrite WL_next. intros [(C & _)|C]; [tauto|]. lia.
        * destruct HS as (_ & HS). eapply arrives_app; eauto.
    - unfold Mode in HM. destruct (s_mpc s); auto; destruct (o_inst _ _ _ _ _ _ _ _ _ _ HM) as (i & I1 & I2 & I3 & I4 & _); exists i; auto.
  Qed.

  (* the requests a cutoff adds *)
  Lemma cutoff_adds s log pat : Inv s log -> fine n0 log s (EvCut pat) -> (forall a r, s_mpc s <> MWaitOk a r) ->
    exists m' ls, got_cutoff pat (s_m s) = Ok m' /\ m_reqs m' = m_reqs (s_m s) ++ map RRemove ls /\ NoDup ls /\
      (forall l, In l (WL log) -> (In l ls <-> l <> 0 /\ pat l = true)) /\
      (forall l, In l ls -> ~ In l (WL log) -> exists i, d_inst (m_d (s_m s)) = Some i /\ w_parent (i_world i) <> None).
  Proof.
    intros HI Hf Hpc. assert (HO : exists P inr, OpenM next junk n0 log P inr (s_m s) (s_n s) (s_down s) (s_up s)).
    { destruct HI as (_ & P & HM). unfold Mode in HM. destruct (s_mpc s) as [| |a r] eqn:E; [exists P, false; auto|exists P, true; auto|]. exfalso. apply (Hpc a r). auto. }
    destruct HO as (P & inr & HO). cbv beta iota zeta delta [fine] in Hf.
    destruct (cut_fold pat (s_m s) (zcount (d_maxid (m_d (s_m s)) + 1)) Hf) as (m' & ls & E & Em & El).
    { intros x Hx. apply zcount_in in Hx. lia. }
    exists m', ls. split; [exact E|]. split; [rewrite Em; auto|]. split; [|split].
    - rewrite El. apply NoDup_filter, zcount_NoDup.
    - intros l Hl. pose proof (WL_bound n0 n0_nonneg log l Hl) as Bl. rewrite El, filter_In, zcount_in, (o_max _ _ _ _ _ _ _ _ _ _ HO).
      destruct (Z.eq_dec l 0) as [->|Hne].
      { split; [|tauto]. intros (_ & C). discriminate. }
      assert (Hp : d_peer (m_d (s_m s)) l = PsReady \/ d_peer (m_d (s_m s)) l = PsInResize).
      { exact (o_in _ _ _ _ _ _ _ _ _ _ HO l Hl). }
      split.
      + intros (_ & C). split; auto. lia.
      + intros (_ & C). split; [lia|]. rewrite C. replace (1 <=? l) with true by lia. destruct Hp as [-> | ->]; auto.
    - intros l Hl Hn. rewrite El, filter_In, zcount_in, (o_max _ _ _ _ _ _ _ _ _ _ HO) in Hl. destruct Hl as (Bl & C).
      destruct (o_inst _ _ _ _ _ _ _ _ _ _ HO) as (i & I1 & I2 & I3 & I4 & _ & I5). exists i. split; auto. intros Ep.
      rewrite (I5 Ep l) in C by (auto; lia). lia.
  Qed.

  (* a registered process is asked for with the next call of the master *)
  Lemma call_collects s log s' q n : Inv s log -> fine n0 log s EvCallM -> exec next junk s EvCallM = Some (Ok s') ->
    s_n s q = Some n -> np_pc n = NReg -> s_up s q = [] -> m_fdlid (s_m s) q < 0 -> In q (joins (m_reqs (s_m s'))).
  Proof.
    intros HI Hf He Hn Hpc Hu Hl. pose proof (exec_fdlid s log EvCallM s' HI He ltac:(discriminate)) as Efd.
    destruct (inv_exec s log EvCallM (Ok s') HI Hf He) as (s2 & E2 & HI'). injection E2 as <-. destruct HI' as (HF' & _). destruct HI as (HF & _).
    destruct (f_unreg _ _ _ _ HF q n Hn Hl) as (_ & _ & [(C & _)|(_ & Hr)]); [congruence|].
    apply (f_joins _ _ _ _ HF'). rewrite Efd. split; auto. pose proof (f_some _ _ _ _ HF q n Hn) as Bq.
    cbn [exec] in He. destruct (s_mpc s); try discriminate. injection He as He. apply obind_ok in He. destruct He as (m' & E & He). injection He as <-. simpl.
    unfold master_call in E. apply obind_ok in E. destruct E as (d1 & Ed & E). apply obind_ok in E. destruct E as (m1 & E1 & E).
    assert (Em1 : m_fdst m1 = m_fdst (s_m s) /\ m_reqs m1 = m_reqs (s_m s)).
    { unfold finish_master in E1. destruct (d_inst (m_d _)); [|discriminate]. destruct (w_parent _).
      - apply obind_ok in E1. destruct E1 as (d & _ & E1). injection E1 as <-. auto.
      - injection E1 as <-. auto. }
    apply obind_ok in E. destruct E as (m2 & E2 & E). unfold make_progress in E2.
    destruct (collect_fold m1 (zcount max_fds)) as (m3 & A & _ & C).
    - apply zcount_NoDup.
    - destruct Em1 as (-> & ->). exact Hf.
    - rewrite A in E2. injection E2 as <-. apply obind_ok in E. destruct E as (r & _ & E). destruct r; [|discriminate]. injection E as <-. simpl.
      rewrite C. destruct Em1 as (-> & _). replace (zin q (zcount max_fds)) with true by (symmetry; apply zin_In, zcount_in; lia).
      unfold is_reg in Hr. simpl. destruct (m_fdst (s_m s) q); try discriminate; auto.
  Qed.

  (** at rest *)
  Lemma rest s log : Inv s log -> at_rest next junk s ->
    (forall q n, s_n s q = Some n -> s_down s q = [] /\ s_up s q = [] /\ may_go n = false) /\
    (forall a r, s_mpc s <> MWaitOk a r) /\
    (s_mpc s = MIn -> exists q n, s_n s q = Some n /\ np_pc n = NApp /\ In (m_fdlid (s_m s) q) (WL log)).
  Proof.
    intros (HF & P & HM) HR. pose proof HF as [F1 F2 F3 F4 F5 F6 F7 F8 F9].
    assert (HQ : forall q n, s_n s q = Some n -> s_down s q = [] /\ s_up s q = [] /\ may_go n = false).
    { intros q n Hn. pose proof (HR (EvDown q) Logic.I) as E1. pose proof (HR (EvUp q) Logic.I) as E2. pose proof (HR (EvGo q) Logic.I) as E3.
      cbn [exec] in E1, E2, E3. rewrite Hn in E1, E3. destruct (s_down s q); [|discriminate]. destruct (s_up s q); [|discriminate].
      destruct (may_go n); [discriminate|]. auto. }
    split; auto. pose proof (HR EvGoM Logic.I) as EG. cbn [exec] in EG. unfold Mode in HM.
    destruct (s_mpc s) as [| |a r0] eqn:Epc.
    - split; [discriminate|discriminate].
    - split; [discriminate|]. intros _. destruct (waits_in (s_m s)) eqn:Ew; [|discriminate]. apply existsb_exists in Ew. destruct Ew as (l & Hl & E).
      apply zcount_in in Hl. apply andb_true_iff in E. destruct E as (E1 & E2). destruct (d_peer (m_d (s_m s)) l) eqn:Ep; try discriminate.
      destruct (F1 l ltac:(lia)) as (A1 & A2 & n & A3). exists (m_pfd (s_m s) l), n. split; auto. rewrite A2.
      assert (Hi : In l (WL log)).
      { destruct (in_dec Z.eq_dec l (WL log)); auto. exfalso.
        rewrite (o_max _ _ _ _ _ _ _ _ _ _ HM) in Hl. destruct (o_out _ _ _ _ _ _ _ _ _ _ HM l ltac:(lia)) as [C|C]; auto; congruence. }
      split; auto. destruct (HQ _ _ A3) as (B1 & B2 & B3).
      pose proof (o_sess _ _ _ _ _ _ _ _ _ _ HM _ n A3 ltac:(lia)) as HS. cbv zeta in HS. rewrite A2 in HS.
      replace (zin l (WL log)) with true in HS by (symmetry; apply zin_In; auto). rewrite Ep, B1, B2 in HS. simpl in HS.
      destruct HS as [(_ & _ & nf & Hf & Hpc & _)|((p & e & C) & _)]; [|discriminate]. rewrite fut_nil in Hf by auto. injection Hf as ->. auto.
    - exfalso. destruct (waits_ok (s_m s)) eqn:Ew; [|discriminate]. apply existsb_exists in Ew. destruct Ew as (l & Hl & E).
      apply zcount_in in Hl. apply andb_true_iff in E. destruct E as (E1 & E2). destruct HM as (cur & rs & -> & HM).
      destruct (F1 l ltac:(lia)) as (A1 & A2 & n & A3). destruct (HQ _ _ A3) as (B1 & B2 & B3).
      pose proof (r_sess _ _ _ _ _ _ _ _ _ _ _ _ HM _ n A3 ltac:(lia)) as HS. cbv zeta in HS. rewrite A2, B1, B2 in HS.
      assert (Ecf : is_conf (d_peer (m_d (s_m s)) l) = false) by (destruct (d_peer (m_d (s_m s)) l); auto; discriminate).
      rewrite Ecf in HS. rewrite (r_max _ _ _ _ _ _ _ _ _ _ _ _ HM) in Hl.
      assert (HB : forall Q pc, sessB Q false pc n [] [] -> False).
      { intros Q pc (_ & _ & [(pre & C & _)|(_ & C)]); [destruct pre; discriminate|discriminate]. }
      destruct (zin l (WL cur)) eqn:Ez; [eapply HB; eauto|]. destruct (NL cur <=? l) eqn:Ek; [eapply HB; eauto|].
      apply zin_not in Ez. rewrite (r_out _ _ _ _ _ _ _ _ _ _ _ _ HM l) in E2 by (auto; lia). discriminate.
  Qed.

  (* who waits at rest *)
  Lemma rest_waits s log q n : Inv s log -> at_rest next junk s -> s_n s q = Some n -> np_pc n <> NApp ->
    (np_pc n = NReg /\ m_fdlid (s_m s) q < 0 /\ is_reg (m_fdst (s_m s) q) = true) \/
    (np_pc n = NWait /\ In (m_fdlid (s_m s) q) (WL log) /\
     exists i j, d_inst (np_d n) = Some i /\ d_inst (m_d (s_m s)) = Some j /\ i_epoch i = zlen log /\ i_epoch j = zlen log /\
       i_phase i = match s_mpc s with MApp => next (i_phase j) | _ => i_phase j end).
  Proof.
    intros HI HR Hn Hpc. destruct (rest s log HI HR) as (HQ & HW & _). destruct HI as (HF & P & HM). destruct (HQ q n Hn) as (B1 & B2 & B3).
    destruct (Z_lt_le_dec (m_fdlid (s_m s) q) 0) as [Hl|Hl].
    { left. destruct (f_unreg _ _ _ _ HF q n Hn Hl) as (-> & _ & [(C & _)|(_ & C)]); [congruence|auto]. }
    right. unfold Mode in HM. set (l := m_fdlid (s_m s) q) in *.
    assert (HO : forall inr, OpenM next junk n0 log P inr (s_m s) (s_n s) (s_down s) (s_up s) ->
       np_pc n = NWait /\ In l (WL log) /\ exists i, d_inst (np_d n) = Some i /\ i_epoch i = zlen log /\ i_phase i = next P).
    { intros inr HO. pose proof (o_sess _ _ _ _ _ _ _ _ _ _ HO q n Hn Hl) as HS. cbv zeta in HS. fold l in HS. rewrite B1, B2 in HS.
      assert (HA : forall Q, arrives junk Q n [] -> False).
      { intros Q (_ & nf & Hf & Hp & _). rewrite fut_nil in Hf by auto. injection Hf as ->. tauto. }
      destruct (zin l (WL log)) eqn:Ez; [|destruct HS as (_ & HS); exfalso; eapply HA; eauto].
      apply zin_In in Ez. unfold sessA in HS. destruct (d_peer (m_d (s_m s)) l); try tauto.
      - destruct HS as [(_ & HS)|((p & e & C) & _)]; [exfalso; eapply HA; eauto|discriminate].
      - destruct HS as (_ & _ & HS & HE). split; auto. split; auto. destruct (en_inst _ _ _ _ _ _ HE) as (i & I1 & I2 & I3 & _). eauto. }
    destruct (s_mpc s) as [| |a r0] eqn:Epc.
    - destruct (HO _ HM) as (A & B & i & I1 & I2 & I3). destruct (o_inst _ _ _ _ _ _ _ _ _ _ HM) as (j & J1 & J2 & J3 & _).
      split; auto. split; auto. exists i, j. rewrite J3. auto 8.
    - destruct (HO _ HM) as (A & B & i & I1 & I2 & I3). destruct (o_inst _ _ _ _ _ _ _ _ _ _ HM) as (j & J1 & J2 & J3 & _).
      split; auto. split; auto. exists i, j. rewrite J3. auto 8.
    - exfalso. eapply HW. reflexivity.
  Qed.

  (* every member is there *)
  Lemma rest_members s log l : Inv s log -> at_rest next junk s -> In l (WL log) -> l <> 0 ->
    exists q n, s_n s q = Some n /\ m_fdlid (s_m s) q = l.
  Proof.
    intros HI HR Hl Hl0. destruct (rest s log HI HR) as (_ & HW & _). destruct HI as (HF & P & HM). pose proof (WL_bound n0 n0_nonneg log l Hl) as Bl.
    assert (Hm : d_maxid (m_d (s_m s)) = NL log - 1).
    { unfold Mode in HM. destruct (s_mpc s) eqn:Epc.
      - apply (o_max _ _ _ _ _ _ _ _ _ _ HM).
      - apply (o_max _ _ _ _ _ _ _ _ _ _ HM).
      - destruct HM as (cur & rs & -> & HM). apply (r_max _ _ _ _ _ _ _ _ _ _ _ _ HM). }
    destruct (f_range _ _ _ _ HF l ltac:(lia)) as (_ & A & n & B). eauto.
  Qed.

  (** termination *)
  Definition rank (pc : mpc) : nat := match pc with MApp => 0 | MIn => 2 | MWaitOk _ _ => 1 end.
  Definition load (s : sys) (q : Z) : nat :=
    2 * length (s_down s q) + length (s_up s q) + match s_n s q with Some n => match np_pc n with NApp => 0 | _ => 1 end | None => 0 end.
  Definition total_load (s : sys) : nat := fold_right (fun q a => load s q + a)%nat O (zcount max_fds).

  Lemma local_out log s q n ev n' dn' out : Inv s log -> s_n s q = Some n -> local next junk ev n (s_down s q) = Some (Ok (n', dn', out)) ->
    ev = EvGo q \/ ev = EvDown q ->
    (2 * length dn' + length out + match np_pc n' with NApp => 0 | _ => 1 end <
     2 * length (s_down s q) + match np_pc n with NApp => 0 | _ => 1 end)%nat.
  Proof.
    intros HI Hn HL [->| ->]; cbn [local] in HL.
    - destruct (may_go n) eqn:Eg; [|discriminate]. injection HL as HL. apply obind_ok in HL. destruct HL as (n1 & E & HL). injection HL as <- <- <-.
      rewrite (go_app _ _ _ E). unfold may_go in Eg. destruct (np_pc n); [discriminate|simpl; lia..].
    - destruct (s_down s q) as [|c rest] eqn:Ed; [discriminate|]. injection HL as HL. apply obind_ok in HL. destruct HL as ([d1 o] & E & HL). injection HL as <- <- <-.
      cbn [np_pc length]. assert (length o <= 1)%nat; [|simpl; lia].
      destruct c; cbn [node_cmd] in E; try discriminate.
      + unfold omap in E. apply obind_ok in E. destruct E as (x & _ & E). injection E as _ <-. simpl; lia.
      + unfold omap in E. apply obind_ok in E. destruct E as (x & _ & E). injection E as _ <-. simpl; lia.
      + unfold omap in E. apply obind_ok in E. destruct E as (x & _ & E). injection E as _ <-. simpl; lia.
      + injection E as E. unfold got_getready in E. destruct (d_st (np_d n)); injection E as _ <-; simpl; lia.
      + injection E as _ <-. simpl; lia.
  Qed.

  Lemma up_load s log q s' : Inv s log -> exec next junk s (EvUp q) = Some (Ok s') ->
    s_mpc s' = s_mpc s /\ (total_load s' < total_load s)%nat.
  Proof.
    intros HI He. pose proof (st_not1 s log HI) as Hs. cbn [exec] in He. destruct (s_up s q) as [|c rest] eqn:Eu; [discriminate|].
    injection He as He. apply obind_ok in He. destruct He as ([m' out] & E & He). injection He as <-. destruct (cmd_fdlid _ _ _ _ _ Hs E) as (_ & ->).
    split; [auto|]. unfold total_load. apply (sum_less _ _ _ q).
    - destruct HI as (HF & _). destruct (s_n s q) as [n|] eqn:En.
      + apply zcount_in. pose proof (f_some _ _ _ _ HF q n En). lia.
      + destruct (f_none _ _ _ _ HF q En) as (_ & C & _). congruence.
    - unfold load. cbn [with_m s_down s_up s_n fst snd]. rewrite push_nil, setz_eq, Eu. simpl. lia.
    - intros x Hx. unfold load. cbn [with_m s_down s_up s_n fst snd]. rewrite push_nil, setz_ne by auto. lia.
  Qed.

  Lemma step_less s log ev s' : Inv s log -> internal ev -> fine n0 log s ev -> exec next junk s ev = Some (Ok s') ->
    (rank (s_mpc s') < rank (s_mpc s))%nat \/ (s_mpc s' = s_mpc s /\ (total_load s' < total_load s)%nat).
  Proof.
    intros HI Hi Hf He. destruct ev; try easy.
    - left. destruct (inv_goM s log (Ok s') HI Hf He) as (s2 & E & _ & HG). injection E as <-. cbn [exec] in He.
      destruct (s_mpc s); [discriminate| |].
      + destruct HG as ((a & b & ->) & _). simpl. lia.
      + rewrite HG. simpl. lia.
    - right. destruct (exec_local _ _ _ _ _ _ (eq_refl : ev_proc (EvGo q) = Some q) He) as (n & lr & En & EL & HU).
      pose proof EL as EL'. cbn [local] in EL'. destruct (may_go n) eqn:Eg; [|discriminate]. injection EL' as EL'.
      cbn [exec] in He. rewrite En, Eg in He. injection He as He. apply obind_ok in He. destruct He as (n1 & E1 & _). rewrite E1 in EL'. cbn [obind] in EL'.
      destruct (HU n1 (s_down s q) [] (eq_sym EL')) as (s2 & E2 & U). injection E2 as <-. subst lr. rewrite app_nil_r in U.
      pose proof (local_out log s q n (EvGo q) _ _ _ HI En EL (or_introl eq_refl)) as HL.
      destruct U as (U1 & U2 & U3 & U4 & U5 & U6). split; auto. unfold total_load. apply (sum_less _ _ _ q).
      + destruct HI as (HF & _). apply zcount_in. pose proof (f_some _ _ _ _ HF q n En). lia.
      + unfold load. rewrite U3, U4, U5, En. simpl length in HL. lia.
      + intros x Hx. unfold load. destruct (U6 x Hx) as (-> & -> & ->). lia.
    - right. destruct (exec_local _ _ _ _ _ _ (eq_refl : ev_proc (EvDown q) = Some q) He) as (n & lr & En & EL & HU).
      cbn [exec] in He. rewrite En in He. pose proof EL as EL'. cbn [local] in EL'. destruct (s_down s q) as [|c rest] eqn:Ed; [discriminate|]. injection EL' as EL'.
      injection He as He. apply obind_ok in He. destruct He as ([d1 o] & E1 & _). rewrite E1 in EL'. cbn [obind fst snd] in EL'.
      destruct (HU _ _ _ (eq_sym EL')) as (s2 & E2 & U). injection E2 as <-. rewrite <- EL' in EL. rewrite <- Ed in EL.
      pose proof (local_out log s q n (EvDown q) _ _ _ HI En EL (or_intror eq_refl)) as HL.
      destruct U as (U1 & U2 & U3 & U4 & U5 & U6). split; auto. unfold total_load. apply (sum_less _ _ _ q).
      + destruct HI as (HF & _). apply zcount_in. pose proof (f_some _ _ _ _ HF q n En). lia.
      + unfold load. rewrite U3, U4, U5, En, app_length. lia.
      + intros x Hx. unfold load. destruct (U6 x Hx) as (-> & -> & ->). lia.
    - right. eapply up_load; eauto.
  Qed.

  Lemma ends s log : Inv s log -> Acc (istep next junk n0) (s, log).
  Proof.
    remember (rank (s_mpc s)) as r eqn:Er. revert s log Er. induction r as [r IHr] using lt_wf_ind. intros s log Er.
    remember (total_load s) as k eqn:Ek. revert s log Er Ek. induction k as [k IHk] using lt_wf_ind. intros s log Er Ek HI.
    constructor. intros [s' log'] (ev & Hi & Hf & He & El). simpl in *.
    destruct (inv_exec s log ev (Ok s') HI Hf He) as (s2 & E2 & HI'). injection E2 as <-. rewrite <- El in HI'.
    destruct (step_less s log ev s' HI Hi Hf He) as [Hlt|(Eq & Hlt)].
    - eapply IHr; [|reflexivity|exact HI']. lia.
    - eapply IHk; [|rewrite Eq; exact Er|reflexivity|exact HI']. lia.
  Qed.
End All.
