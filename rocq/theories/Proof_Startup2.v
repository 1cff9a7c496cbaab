(* Startup and the steps of the processes right after it *)
From Coq Require Import ZArith List Bool Lia ZifyBool ZifyNat.
From Verif Require Import Base Model_Space Model_RangeList Model_Partitioner Model_Resize Model_Startup Spec_Resize.
From Verif Require Import Proof_Resize1 Proof_Resize2 Proof_Resize3 Proof_Resize4 Proof_Resize5 Proof_Resize6 Proof_Resize7 Proof_Startup Proof_Resize8.
Import ListNotations.
Open Scope Z_scope.

Lemma give_in l : forall k f q, give k l f q = f q \/ exists i, nth_error l i = Some q /\ give k l f q = k + Z.of_nat i.
Proof.
  induction l as [|x l IH]; intros k f q; simpl; auto.
  destruct (IH (k + 1) (setz f x k) q) as [E|(i & E1 & E2)].
  - rewrite E. unfold setz. destruct (Z.eqb_spec q x) as [->|N]; auto. right. exists O. simpl. split; auto. lia.
  - right. exists (S i). simpl. split; auto. lia.
Qed.
Lemma nth_firstn {A} (l : list A) : forall k i x, nth_error (firstn k l) i = Some x -> nth_error l i = Some x /\ (i < k)%nat.
Proof.
  induction l as [|y l IH]; intros [|k] [|i] x; simpl; try discriminate; intros H.
  - split; auto. lia.
  - apply IH in H. destruct H. split; auto. lia.
Qed.
Lemma first_lids_nth n regs q : 0 <= first_lids n regs q ->
  nth_error regs (Z.to_nat (first_lids n regs q - 1)) = Some q /\ 1 <= first_lids n regs q < n /\ In q (firstn (Z.to_nat (n - 1)) regs).
Proof.
  unfold first_lids. intros H. destruct (give_in (firstn (Z.to_nat (n - 1)) regs) 1 (fun _ => -1) q) as [E|(i & E1 & E2)]; [lia|].
  rewrite E2 in *. pose proof (nth_error_In _ _ E1). apply nth_firstn in E1. destruct E1 as (E1 & Hi).
  replace (Z.to_nat (1 + Z.of_nat i - 1)) with i by lia. split; auto. split; auto. lia.
Qed.
Lemma lid_first n regs q : lid_of n regs [] q = first_lids n regs q.
Proof. reflexivity. Qed.

Lemma master_cmd_inst m fd c m' out : master_cmd m fd c = Ok (m', out) -> d_inst (m_d m') = d_inst (m_d m).
Proof.
  unfold master_cmd, got_register, accept_fd, got_enterresize, got_ok, omap, obind, cassert.
  repeat match goal with
  | |- context [match ?x with _ => _ end] => destruct x eqn:?
  end; intros H; try discriminate; injection H as <- <-; subst; try reflexivity;
  repeat match goal with
  | H : context [match ?x with _ => _ end] |- _ => destruct x eqn:?; try discriminate
  end; repeat match goal with H : Ok _ = Ok _ |- _ => injection H as <- end; reflexivity.
Qed.

Lemma treach_reg junk n t regs : treach junk n t regs -> s_mpc (t_s t) = MApp /\ forall q p, s_n (t_s t) q = Some p -> np_pc p = NReg.
Proof.
  induction 1 as [|t regs ev t' HR (IHm & IH) He]; [split; [reflexivity|discriminate]|].
  unfold texec in He. destruct t as [s st pc]; simpl in *. destruct pc; try discriminate; (destruct ev as [q|q|q|]; [| | |]).
  all: cbn [t_s t_st t_pc] in *.
  1,5: cbn [exec t_lift option_map] in He; destruct (s_n s q) eqn:Eq; [discriminate|]; destruct ((0 <? q) && (q <? max_fds)); [|discriminate];
    cbn in He; injection He as <-; simpl; split; auto; intros q' p'; unfold setz; destruct (q' =? q); [intros H; injection H as <-; auto|apply IH].
  1,4: cbn [exec t_lift option_map] in He; destruct (s_n s q) as [p0|] eqn:Eq; [|discriminate]; destruct (s_down s q) as [|c rest]; [discriminate|];
    cbn [t_lift option_map] in He; destruct (node_cmd c (np_d p0)) as [r| | | |]; cbn [obind] in He; try discriminate;
    injection He as <-; simpl; split; auto; intros q' p'; unfold setz; destruct (q' =? q); [intros H; injection H as <-; simpl; eapply IH; eauto|apply IH].
  1,3: destruct (n =? 1); [discriminate|]; destruct (s_up s q) as [|c rest]; [discriminate|];
    destruct (t_cmd n st (s_m s) q c) as [[[m' st'] out]| | | |]; cbn [obind] in He; try discriminate; injection He as <-; simpl; split; auto.
  - destruct (n =? 1).
    + destruct (t_final junk n (s_m s)); cbn [obind] in He; try discriminate; injection He as <-; simpl; split; auto.
    + destruct st; try discriminate; (destruct (t_mid n _ (s_m s)); cbn [obind] in He; try discriminate; injection He as <-; simpl; split; auto).
  - destruct st; try discriminate; (destruct (t_end junk n (s_m s)); cbn [obind] in He; try discriminate; injection He as <-; simpl; split; auto).
Qed.

Section After.
  Variables (next junk : Z -> Z) (n : Z).
  Hypothesis Hn : 1 <= n <= max_peers.
  Hypothesis Hx : forall p, next p <> -1.

  Lemma done_master t regs : treach junk n t regs -> t_pc t = TDone ->
    exists i, d_inst (m_d (s_m (t_s t))) = Some i /\ i_epoch i = 0 /\ i_phase i = 0 /\ world_ok n [] 0 i.
  Proof.
    intros HR Hd. destruct (treach_inv next junk n Hn t regs HR) as (_ & _ & HM). rewrite Hd in HM. destruct HM as (_ & HO).
    destruct (o_inst _ _ _ _ _ _ _ _ _ _ HO) as (i & A & B & C & D & _). exists i. auto.
  Qed.

  Lemma later_reach t regs s : treach junk n t regs -> t_pc t = TDone -> later next junk (t_s t) s ->
    reach next junk n regs s [] /\ s_mpc s = MApp /\ d_inst (m_d (s_m s)) = d_inst (m_d (s_m (t_s t))) /\
    forall q p, s_n s q = Some p -> np_pc p <> NWait.
  Proof.
    intros HR Hd HL. induction HL as [|s ev s' HL (R1 & R2 & R3 & R4) Hev He].
    - split; [apply reach_start; auto|]. destruct (treach_reg junk n t regs HR) as (A & B). split; auto. split; auto.
      intros q p Hq. rewrite (B q p Hq). discriminate.
    - assert (HR' : reach next junk n regs s' ([] ++ handled s ev)).
      { apply reach_step; auto. destruct Hev as [Hi|(q & ->)]; [|exact Logic.I]. destruct ev; try contradiction; try exact Logic.I. simpl. rewrite R2. exact Logic.I. }
      destruct Hev as [Hi|(q & ->)].
      + destruct ev as [ |q| |q| |q|q|q|pat|q]; try contradiction; cbn [exec] in He.
        * rewrite R2 in He. discriminate.
        * destruct (s_n s q) as [p0|] eqn:Eq; [|discriminate]. destruct (may_go p0) eqn:Em; [|discriminate].
          unfold go_node in He. destruct (match np_pc p0 with NReg => _ | _ => _ end) as [d'| | | |]; cbn [obind] in He; try discriminate.
          injection He as <-. simpl in *. split; auto. split; auto. split; auto. intros q' p'. unfold setz. destruct (q' =? q).
          { intros H. injection H as <-. simpl. discriminate. } apply R4.
        * destruct (s_n s q) as [p0|] eqn:Eq; [|discriminate]. destruct (s_down s q) as [|c rest]; [discriminate|].
          destruct (node_cmd c (np_d p0)) as [r| | | |]; cbn [obind] in He; try discriminate.
          injection He as <-. simpl in *. split; auto. split; auto. split; auto. intros q' p'. unfold setz. destruct (q' =? q).
          { intros H. injection H as <-. simpl. eapply R4; eauto. } apply R4.
        * destruct (s_up s q) as [|c rest]; [discriminate|].
          destruct (master_cmd (s_m s) q c) as [[m' out]| | | |] eqn:Ec; cbn [obind] in He; try discriminate.
          injection He as <-. simpl in *. split; auto. split; auto. split; auto. rewrite (master_cmd_inst _ _ _ _ _ Ec). auto.
      + cbn [exec] in He. destruct (s_n s q) eqn:Eq; [discriminate|]. destruct ((0 <? q) && (q <? max_fds)); [|discriminate].
        injection He as <-. simpl in *. split; auto. split; auto. split; auto. intros q' p'. unfold setz. destruct (q' =? q).
        { intros H. injection H as <-. simpl. discriminate. } apply R4.
  Qed.

  Lemma started t regs s : treach junk n t regs -> t_pc t = TDone -> later next junk (t_s t) s -> at_rest next junk s ->
    (forall k, 1 <= k < n -> exists q p i, nth_error regs (Z.to_nat (k - 1)) = Some q /\
       s_n s q = Some p /\ np_pc p = NApp /\ d_lid (np_d p) = k /\ d_inst (np_d p) = Some i /\
       i_epoch i = 0 /\ i_phase i = 0 /\ world_ok n [] k i) /\
    (forall q p, s_n s q = Some p -> ~ In q (firstn (Z.to_nat (n - 1)) regs) -> np_pc p = NReg).
  Proof.
    intros HT Hd HL Hrest. destruct (later_reach t regs s HT Hd HL) as (HR & Hm & Hi & Hw).
    pose proof (reach_inv next junk n Hn Hx regs s [] HR) as HI. pose proof (reach_lids next junk n Hn Hx regs s [] HR) as HLd.
    destruct (member_app next junk n Hn Hx s [] HI) as (P & HA & HB). rewrite Hm in HB. destruct HB as (j & J1 & _ & _ & J4).
    destruct (done_master t regs HT Hd) as (j' & J1' & _ & J3' & _). rewrite <- Hi, J1 in J1'. injection J1' as <-. rewrite J4 in J3'. subst P.
    split.
    - intros k Hk. assert (Hin : In k (WL n [])). { unfold WL, world_after. simpl. apply zcount_in. lia. }
      destruct (rest_members next junk n Hn Hx s [] k HI Hrest Hin ltac:(lia)) as (q & p & Hq & El).
      assert (Hpc : np_pc p = NApp).
      { assert (Hnw : np_pc p = NApp \/ np_pc p <> NApp) by (destruct (np_pc p); auto; right; discriminate).
        destruct Hnw as [|Hna]; auto. exfalso.
        destruct (rest_waits next junk n Hn Hx s [] q p HI Hrest Hq Hna) as [(_ & C & _)|(C & _)]; [lia|eapply Hw; eauto]. }
      destruct (HA q p Hq Hpc) as (_ & [(_ & A & _)|(A & _)]); [|rewrite El in A; contradiction].
      rewrite El in A. destruct (se_inst _ _ _ _ _ A) as (i & I1 & I2 & I3 & I4 & _).
      exists q, p, i. rewrite HLd, lid_first in El. destruct (first_lids_nth n regs q ltac:(lia)) as (N1 & _). rewrite El in N1.
      split; auto. split; auto. split; auto. split; [apply (se_lid _ _ _ _ _ A)|]. split; auto. split; [exact I2|]. split; [|exact I4]. congruence.
    - intros q p Hq Hnin. destruct (np_pc p) eqn:Epc; auto; exfalso; try (eapply Hw; eauto; fail).
      destruct (HA q p Hq Epc) as (Hl & _). rewrite HLd, lid_first in Hl. apply Hnin, (first_lids_nth n regs q Hl).
  Qed.
End After.

(* with a negative size *)
Lemma negative junk n t regs : n < 0 -> treach junk n t regs -> t_pc t = TReg /\ t_st t = StReg /\ 0 <= d_peers (m_d (s_m (t_s t))).
Proof.
  intros Hn. induction 1 as [|t regs ev t' HR (Ep & Es & Hp) He]; [simpl; auto with zarith|].
  unfold texec in He. destruct t as [s st pc]; simpl in *. subst pc st. destruct ev as [q|q|q|]; cbn [t_s t_st t_pc] in *.
  - cbn [exec t_lift option_map] in He. destruct (s_n s q); [discriminate|]. destruct ((0 <? q) && (q <? max_fds)); [|discriminate].
    cbn in He. injection He as <-. simpl. auto.
  - cbn [exec t_lift option_map] in He. destruct (s_n s q) as [p0|]; [|discriminate]. destruct (s_down s q) as [|c rest]; [discriminate|].
    cbn [t_lift option_map] in He. destruct (node_cmd c (np_d p0)) as [r| | | |]; cbn [obind] in He; try discriminate.
    injection He as <-. simpl. auto.
  - destruct (n =? 1) eqn:E1; [discriminate|]. destruct (s_up s q) as [|c rest]; [discriminate|].
    destruct (t_cmd n StReg (s_m s) q c) as [[[m' st'] out]| | | |] eqn:Et; cbn [obind] in He; try discriminate. injection He as <-. simpl.
    split; auto. unfold t_cmd in Et. destruct c; try discriminate.
    + destruct (0 <=? m_fdlid (s_m s) q); [injection Et as <- <- <-; auto|].
      unfold accept_fd in Et. destruct (d_maxid (m_d (s_m s)) + 1 <? max_peers); cbn [cassert obind] in Et; [|discriminate].
      destruct (negb _); cbn [cassert obind] in Et; [|discriminate]. injection Et as <- <- <-. simpl.
      replace (d_peers (m_d (s_m s)) + 1 + 1 =? n) with false by lia. split; auto. lia.
    + destruct (m_fdlid (s_m s) q <? 0); [injection Et as <- <- <-; auto|].
      destruct (d_peer _ _); injection Et as <- <- <-; auto.
      split; auto. unfold got_ok. destruct (d_peer _ _); simpl; auto.
  - replace (n =? 1) with false in He by lia. discriminate.
Qed.
