(* All schedules end. *)
From Coq Require Import ZArith List Bool Lia ZifyBool ZifyNat.
From Verif Require Import Base ListFacts Model_Space Model_RangeList Model_Mem Model_Layout Model_Partitioner Model_Transition Model_Data
  Model_Action Model_ActionTrans Model_Switch Model_KVS Model_SpaceStore Model_Tcp2 Model_Tcp2Exec Spec_Tcp2Exec Proof_Tcp2Exec1.
Import ListNotations.
Open Scope Z_scope.

Section Gen.
Variable rd : redop -> list Z -> list Z -> outcome (list Z).
Variable gen : bool.
Variable bin : Z -> Z -> bool.
Variable sp : space.
Variable N : Z.
Notation step := (tstep rd gen bin sp).
Notation run := (trun rd gen bin sp).
Notation NInv := (NInv rd gen bin sp N).

Lemma run_app s l1 l2 : run s (l1 ++ l2) = do s1 <- run s l1; run s1 l2.
Proof. revert s. induction l1 as [|p l1 IH]; intros s; auto. cbn [trun app]. destruct (step s p) as [[s'|]| | | |]; cbn [obind]; auto. Qed.

Lemma run_inv E : forall l s R, NInv s R E -> Forall (fun p => 0 <= p < N) l ->
  exists s' R', run s l = Ok s' /\ NInv s' R' E /\ (weight sp R' <= weight sp R)%nat /\
    forall p, In p l -> active s R p -> (weight sp R' < weight sp R)%nat.
Proof.
  induction l as [|p l IH]; intros s R HI HF.
  - exists s, R. split; [reflexivity|]. split; [exact HI|]. split; [lia|]. intros p [].
  - inversion HF as [|? ? F1 F2]; subst. cbn [trun]. destruct (step_inv rd gen bin sp N s R E p HI F1) as [[E1 E2]|(s1 & R1 & E1 & E2 & E3)]; rewrite E1; cbn [obind].
    + destruct (IH s R HI F2) as (s' & R' & A & B & C & D). exists s', R'. split; [exact A|]. split; [exact B|]. split; [exact C|]. intros q [->|Hq] HA; [tauto|eauto].
    + destruct (IH s1 R1 E2 F2) as (s' & R' & A & B & C & D). exists s', R'. split; [exact A|]. split; [exact B|]. split; [lia|]. intros; lia.
Qed.

Lemma some_active s R E : NInv s R E -> R <> [] -> exists p, 0 <= p < N /\ active s R p.
Proof.
  intros [I1 _ _ _] HR. destruct R as [|x R]; [congruence|]. inversion I1 as [|? ? U _]; subst. destruct x as [[q b f t|a ma b q mq ro] st].
  - destruct U. exists q. split; auto. exists [], (UCopy q b f t, st), R. auto.
  - destruct U as (U1 & U2 & U3). destruct st; [exists q|exists a|exists q]; (split; [auto|]); eexists [], _, R; (split; [reflexivity|]); cbn; auto.
Qed.

Lemma done_nil s R E : NInv s R E -> tdone N s = true -> R = [].
Proof.
  intros [I1 I2 _ _] HD. destruct R as [|x R]; auto. exfalso. unfold tdone in HD. rewrite forallb_forall in HD.
  assert (HC : forall p, 0 <= p < N -> proju p x = []).
  { intros p Hp. specialize (HD p). rewrite I2 in HD by auto. cbn [flat_map] in HD. destruct (proju p x); auto. cbn [app] in HD.
    discriminate HD. apply in_map_iff. exists (Z.to_nat p). split; [lia|]. apply in_seq. lia. }
  inversion I1 as [|? ? U _]; subst. destruct x as [[q b f t|a ma b q mq ro] st].
  - destruct U as [U ->]. specialize (HC q U). cbn in HC. rewrite Z.eqb_refl in HC. discriminate.
  - destruct U as (_ & U & _). destruct (rcv_proj a ma b q mq ro st (HC q U)).
Qed.
Lemma nil_done s E : NInv s [] E -> tdone N s = true.
Proof.
  intros [_ I2 _ _]. unfold tdone. apply forallb_forall. intros p Hp. apply in_map_iff in Hp. destruct Hp as (k & <- & Hk). apply in_seq in Hk.
  rewrite I2 by lia. reflexivity.
Qed.

Lemma steps_add sched n k : steps sched (n + k) = steps sched n ++ map sched (seq n k).
Proof. unfold steps. rewrite seq_app, map_app. auto. Qed.
Lemma steps_in sched n k : Within N sched -> Forall (fun p => 0 <= p < N) (map sched (seq n k)).
Proof. intros H. apply Forall_forall. intros p Hp. apply in_map_iff in Hp. destruct Hp as (j & <- & _). apply H. Qed.

Theorem all_end G code m E : Forall (fun u => uok N (u, Fresh)) G -> (forall p, 0 <= p < N -> code p = flat_map (proj1u p) G) ->
  effs rd gen bin sp (map (fun u => (u, Fresh)) G) m E -> TcpEnds rd gen bin sp N (tnet_start code m) (fun p mm => mm = E p).
Proof.
  intros HU HC HE. set (s0 := tnet_start code m). set (R0 := map (fun u => (u, Fresh)) G).
  assert (H0 : NInv s0 R0 E).
  { constructor.
    - apply Forall_map. auto.
    - intros p Hp. cbn [tnet_start tn_proc tq_code s0]. rewrite HC by auto. unfold R0. clear. induction G as [|u G IH]; auto. cbn [flat_map map]. rewrite IH. f_equal. destruct u; reflexivity.
    - intros p Hp. unfold Rcv, s0. cbn. split; [intros; split; auto|]. apply Forall_map. apply Forall_forall. intros [] _; cbn; auto.
    - exact HE. }
  intros sched HW. split.
  - intros n. destruct (run_inv E (steps sched n) s0 R0 H0 (steps_in sched 0 n HW)) as (s & R & A & B & _). exists s. split; auto. intros HD p Hp.
    assert (R = []) by (eapply done_nil; eauto). subst R. destruct B as [_ _ B3 B4]. cbn [effs] in B4. split; [apply B4|]. intros q Hq.
    pose proof (B3 q Hq) as W. unfold Rcv in W. destruct (tq_wait (tn_proc s q)).
    + destruct W as (Q1 & a & ma & bx & mq & ro & st & Q2 & HR & _). destruct Q1; discriminate.
    + destruct W as [W _]. destruct (W p). auto.
  - intros HF.
    assert (HK : forall w n s R, (weight sp R <= w)%nat -> run s0 (steps sched n) = Ok s -> NInv s R E -> exists n' s', run s0 (steps sched n') = Ok s' /\ NInv s' [] E).
    { induction w as [|w IH]; intros n s R Hw Hr HI.
      - destruct R as [|x R]; [eauto|]. cbn in Hw. assert (0 < weight1 sp x)%nat by (apply weight1_pos; auto). lia.
      - destruct R as [|x R]; [eauto|]. destruct (some_active s (x :: R) E HI ltac:(discriminate)) as (p & Hp & HA).
        destruct (HF p n Hp) as (k & Hk & Hs). destruct (run_inv E (map sched (seq n (S (k - n)))) s (x :: R) HI (steps_in sched n _ HW)) as (s' & R' & A & B & C & D).
        apply (IH (n + S (k - n))%nat s' R').
        + assert (weight sp R' < weight sp (x :: R))%nat; [|lia]. apply (D p); auto. apply in_map_iff. exists k. split; auto. apply in_seq. lia.
        + rewrite steps_add, run_app, Hr. cbn [obind]. exact A.
        + exact B. }
    destruct (HK (weight sp R0) 0%nat s0 R0 (le_n _) eq_refl H0) as (n & s & A & B). exists n. intros k Hk.
    destruct (run_inv E (map sched (seq n (k - n))) s [] B (steps_in sched n _ HW)) as (s' & R' & A' & B' & C' & _).
    exists s'. split; [replace k with (n + (k - n))%nat by lia; rewrite steps_add, run_app, A; exact A'|].
    destruct R' as [|x R']; [eapply nil_done; eauto|]. cbn in C'. assert (0 < weight1 sp x)%nat by (apply weight1_pos; auto). lia.
Qed.
End Gen.
