(* Messages in a common order need no buffering. *)
From Coq Require Import ZArith List Bool Lia ZifyBool ZifyNat Permutation Sorted.
From Verif Require Import Base Model_Space Model_Mem Model_Transition Model_Action Model_ActionTrans Model_ActionExec Model_ActionExec2 Model_Net Spec_RangeList Spec_Action Spec_ActionTrans Spec_Async Spec_Net Spec_MpiPrepare.
From Verif Require Import Proof_Type Proof_Comb1 Proof_Comb2 Proof_Comb4 Proof_Action2 Proof_Net Proof_Prepare1 Proof_Prepare2 Proof_Prepare3 Proof_Prepare4 Proof_Prepare5.
Import ListNotations.
Open Scope Z_scope.

Lemma exec_is_in l q : (forall i, In i l -> i_in i <> Some (Peer q)) -> forall s s', exec_is l s = Some s' -> p_in s' (Peer q) = p_in s (Peer q).
Proof.
  induction l as [|i l IH]; intros Hn s s' H.
  - injection H as <-. auto.
  - cbn [exec_is] in H. destruct (exec_i i s) as [s1|] eqn:E; [|discriminate]. rewrite (IH (fun i H => Hn i (or_intror H)) _ _ H).
    unfold exec_i in E. destruct (_ <? _); [discriminate|]. injection E as <-. cbn [p_in]. destruct (on (Peer q) (i_in i)) eqn:O; auto.
    exfalso. apply (Hn i (or_introl eq_refl)). unfold on in O. destruct (i_in i) as [c|]; [|discriminate]. destruct (chan_eq_dec (Peer q) c); [subst; auto|discriminate].
Qed.
Definition not_empty (i : instr) : Prop := i_out i <> None -> forall m, i_send i m <> [].

Section Unb.
  Variables (N : Z) (G : Z -> Z -> list Z) (fin : Z -> pst).
  Hypothesis HG : forall p q, 0 <= p < N -> 0 <= q < N -> p_out (fin p) (Peer q) = G p q.
  Hypothesis HE : forall p q, 0 <= p < N -> 0 <= q < N -> p_in (fin p) (Peer q) = [].

  Lemma can_exec x W p i l : 0 <= p < N -> Good N G fin x W -> pr_code (x p) = i :: l -> i_in i = None -> exists y, nexec p x = Some y.
  Proof.
    intros Hp HGd Ec Hi. destruct (nexec p x) as [y|] eqn:E; [eauto|]. destruct (waits N G fin HG x W p i l Hp HGd Ec E) as (q & I1 & _). congruence.
  Qed.
  (* what is sent is received *)
  Lemma is_taken x W p i l t : 0 <= p < N -> 0 <= t < N -> Good N G fin x W -> pr_code (x p) = i :: l -> i_in i = None -> i_out i = Some (Peer t) -> not_empty i ->
    exists j, In j (pr_code (x t)) /\ i_in j = Some (Peer p).
  Proof.
    intros Hp Ht HGd Ec Hi Ho Hn. pose proof HGd as [A B C]. destruct (existsb (fun j => on (Peer p) (i_in j)) (pr_code (x t))) eqn:Ex.
    { apply existsb_exists in Ex. destruct Ex as (j & Hj & O). exists j. split; auto. unfold on in O. destruct (i_in j) as [c|]; [|discriminate]. destruct (chan_eq_dec (Peer p) c); [subst; auto|discriminate]. }
    exfalso. destruct (B t Ht) as (s & Es & [_ P2 _]).
    assert (Q : p_in s (Peer p) = p_in (pr_st (x t)) (Peer p) ++ ext N W t (Peer p)).
    { rewrite (exec_is_in _ p) with (2 := Es); [reflexivity|]. intros j Hj Hi'. rewrite <- not_true_iff_false in Ex. apply Ex. apply existsb_exists. exists j. split; auto. rewrite Hi'. apply Proof_Comb1.on_refl. }
    rewrite P2, (HE t p Ht Hp) in Q. cbn [ext] in Q. replace (inN N p) with true in Q by (unfold inN; lia). symmetry in Q. apply app_eq_nil in Q as [_ Q].
    destruct (B p Hp) as (s2 & Es2 & [_ _ P3]). rewrite Ec in Es2. cbn [exec_is] in Es2. destruct (exec_i i (given N W p (pr_st (x p)))) as [s1|] eqn:E1; [|discriminate].
    destruct (exec_is_out l t _ _ Es2) as (w & Hw). rewrite (exec_i_out _ _ _ t E1) in Hw. cbn [given p_out p_mem] in Hw. rewrite P3, (HG p t Hp Ht), (A p t Hp Ht), Q, app_nil_r in Hw.
    unfold Model_Net.sent in Hw. rewrite Ho, Z.eqb_refl in Hw. apply (f_equal (@length _)) in Hw. rewrite !app_length in Hw.
    destruct (i_send i (p_mem (pr_st (x p)))) eqn:Esd; [|cbn [length] in Hw; lia]. apply (Hn ltac:(rewrite Ho; discriminate) _ Esd).
  Qed.

  Definition head_key (x : net) (p : Z) : Z := match pr_code (x p) with i :: _ => match ikey N p i with Some k => k | None => 0 end | [] => 0 end.
  Lemma unb_progress x W : Good N G fin x W -> (forall p, 0 <= p < N -> Forall not_empty (pr_code (x p))) ->
    AllDone N x \/ exists p y, 0 <= p < N /\ nexec p x = Some y /\ CanSend p x.
  Proof.
    intros HGd HN. pose proof HGd as [A B C].
    destruct (existsb (fun p => match pr_code (x p), nexec p x with i :: _, Some _ => match i_out i with None => true | _ => false end | _, _ => false end) (ranks N)) eqn:Ex.
    { apply existsb_exists in Ex. destruct Ex as (p & Hp & H). apply ranks_in in Hp. destruct (pr_code (x p)) as [|i l] eqn:Ec; [discriminate|]. destruct (nexec p x) as [y|] eqn:E; [|discriminate].
      destruct (i_out i) eqn:Eo; [discriminate|]. right. exists p, y. split; auto. split; auto. intros i' c t E1 E2. rewrite Ec in E1. injection E1 as <- <-. congruence. }
    (* each process which is not done waits at a receive, or is at a send *)
    assert (Hh : forall p i l, 0 <= p < N -> pr_code (x p) = i :: l ->
              (exists t, i_in i = None /\ i_out i = Some (Peer t) /\ 0 <= t < N /\ t <> p) \/ (exists q, i_in i = Some (Peer q) /\ i_out i = None /\ 0 <= q < N /\ q <> p /\ nexec p x = None)).
    { intros p i l Hp Ec. destruct (C p Hp) as [C1 _]. rewrite Ec in C1. inversion C1 as [|? ? Hi _]; subst. unfold iwf in Hi.
      assert (Hn : i_out i = None -> nexec p x = None).
      { intros Ho. destruct (nexec p x) eqn:E; auto. rewrite <- not_true_iff_false in Ex. exfalso. apply Ex. apply existsb_exists. exists p. split; [apply ranks_in; auto|]. rewrite Ec, E, Ho. auto. }
      destruct (i_in i) as [[q| |]|] eqn:Ei; try tauto.
      - destruct (i_out i) as [c|] eqn:Eo; [tauto|]. right. exists q. repeat split; try apply Hi; auto.
      - destruct (i_out i) as [[t| |]|] eqn:Eo; try tauto.
        + left. exists t. repeat split; try apply Hi; auto.
        + exfalso. destruct (can_exec x W p i l Hp HGd Ec Ei) as (y & Ey). rewrite (Hn eq_refl) in Ey. discriminate. }
    set (busy := filter (fun p => match pr_code (x p) with [] => false | _ => true end) (ranks N)).
    destruct busy as [|b0 bl] eqn:Eb.
    { left. intros p Hp. destruct (pr_code (x p)) eqn:E; auto. exfalso. assert (In p busy) by (unfold busy; apply filter_In; rewrite E; split; auto; apply ranks_in; auto). rewrite Eb in H. destruct H. }
    right. destruct (least (head_key x) busy ltac:(rewrite Eb; discriminate)) as (p & Hp & Hm).
    apply filter_In in Hp. destruct Hp as [Hp Hc]. apply ranks_in in Hp. destruct (pr_code (x p)) as [|i l] eqn:Ec; [discriminate|]. clear Hc.
    assert (Hb : forall q j, 0 <= q < N -> In j (pr_code (x q)) -> In q busy).
    { intros q j Hq Hj. unfold busy. apply filter_In. split; [apply ranks_in; auto|]. destruct (pr_code (x q)); auto. }
    (* the first instruction of q is not after j *)
    assert (Hs : forall q j k, 0 <= q < N -> In j (pr_code (x q)) -> ikey N q j = Some k -> head_key x q <= k).
    { intros q j k Hq Hj Hk. unfold head_key. destruct (pr_code (x q)) as [|h tl] eqn:Eq; [destruct Hj|].
      destruct (Hh q h tl Hq Eq) as [(t & I1 & I2 & _)|(t & I1 & I2 & _)]; unfold ikey; rewrite I1, I2; (destruct Hj as [<-|Hj]; [unfold ikey in Hk; rewrite I1, I2 in Hk; injection Hk; lia|]);
        (destruct (C q Hq) as [_ S]; rewrite Eq in S; inversion S as [|? ? S1 S2]; subst; rewrite Forall_forall in S2; apply (S2 j Hj); auto; unfold ikey; rewrite I1, I2; auto). }
    assert (Wf : forall q j, 0 <= q < N -> In j (pr_code (x q)) -> iwf N q j) by (intros q j Hq Hj; destruct (C q Hq) as [F _]; rewrite Forall_forall in F; auto).
    destruct (Hh p i l Hp Ec) as [(t & I1 & I2 & Ht & Hne)|(q & I1 & I2 & Hq & Hne & En)].
    - (* p is at a send *)
      assert (Hni : not_empty i) by (specialize (HN p Hp); rewrite Ec in HN; inversion HN; auto).
      destruct (is_taken x W p i l t Hp Ht HGd Ec I1 I2 Hni) as (j & Hj & Ij). destruct (can_exec x W p i l Hp HGd Ec I1) as (y & Ey).
      pose proof (Wf t j Ht Hj) as Wj. unfold iwf in Wj. rewrite Ij in Wj. destruct (i_out j) as [c|] eqn:Oj; [tauto|].
      assert (K : ikey N t j = Some (mkey N p t)) by (unfold ikey; rewrite Ij, Oj; auto).
      pose proof (Hs t j _ Ht Hj K) as K1. pose proof (Hm t (Hb t j Ht Hj)) as K2. unfold head_key in K2 at 1. rewrite Ec in K2. unfold ikey in K2. rewrite I1, I2 in K2.
      exists p, y. split; auto. split; auto. intros i' c t' E1 E2. rewrite Ec in E1. injection E1 as <- <-. rewrite I2 in E2. injection E2 as <-.
      unfold head_key in K1, K2. destruct (pr_code (x t)) as [|h tl] eqn:Et; [destruct Hj|]. exists h, tl. split; auto.
      destruct (Hh t h tl Ht Et) as [(u & J1 & J2 & Hu & Hu2)|(u & J1 & J2 & Hu & Hu2 & _)]; unfold ikey in K1, K2; rewrite J1, J2 in K1, K2.
      + destruct (mkey_inj N p t t u); auto; lia.
      + destruct (mkey_inj N p t u t); auto; [lia|]. subst u. auto.
    - destruct (waits N G fin HG x W p i l Hp HGd Ec En) as (q' & I1' & _ & _ & _ & j & Hj & Ho). rewrite I1 in I1'. injection I1' as <-.
      pose proof (Wf q j Hq Hj) as Wj. unfold iwf in Wj. rewrite Ho in Wj. destruct (i_in j) as [[c| |]|] eqn:Ij; try tauto.
      assert (K : ikey N q j = Some (mkey N q p)) by (unfold ikey; rewrite Ij, Ho; auto).
      pose proof (Hs q j _ Hq Hj K) as K1. pose proof (Hm q (Hb q j Hq Hj)) as K2. unfold head_key in K2 at 1. rewrite Ec in K2. unfold ikey in K2. rewrite I1, I2 in K2.
      unfold head_key in K1, K2. destruct (pr_code (x q)) as [|h tl] eqn:Et; [destruct Hj|].
      destruct (Hh q h tl Hq Et) as [(u & J1 & J2 & Hu & Hu2)|(u & J1 & J2 & Hu & Hu2 & _)]; unfold ikey in K1, K2; rewrite J1, J2 in K1, K2.
      + destruct (mkey_inj N q p q u); auto; [lia|]. subst u. destruct (can_exec x W q h tl Hq HGd Et J1) as (y & Ey). exists q, y. split; auto. split; auto.
        intros i' c t' E1 E2. rewrite Et in E1. injection E1 as <- <-. rewrite J2 in E2. injection E2 as <-. exists i, l. auto.
      + destruct (mkey_inj N q p u q); auto; lia.
  Qed.

  Lemma ne_step x p y : nexec p x = Some y -> (forall q, 0 <= q < N -> Forall not_empty (pr_code (x q))) -> forall q, 0 <= q < N -> Forall not_empty (pr_code (y q)).
  Proof.
    intros E H q Hq. destruct (nexec_inv _ _ _ E) as (i & l & s' & Ec & Ei & Cr & Co & _). destruct (Z.eq_dec q p) as [->|Hne]; [|rewrite Co; auto].
    rewrite Cr. specialize (H p Hq). rewrite Ec in H. inversion H; auto.
  Qed.
  Lemma unb_ends n : forall x W, len_all N x = n -> Good N G fin x W -> (forall p, 0 <= p < N -> Forall not_empty (pr_code (x p))) ->
    exists sc z, Sched N sc /\ nrun sc x = Some z /\ Unbuffered sc x /\ AllDone N z.
  Proof.
    induction n as [n IH] using lt_wf_ind. intros x W Hl HGd HN. destruct (unb_progress x W HGd HN) as [D|(p & y & Hp & E & U)].
    - exists [], x. split; [intros q []|]. simpl. auto.
    - destruct (good_step N G fin HG x W p y Hp HGd E) as (W1 & G1). pose proof (len_step N G fin HG x p y Hp E).
      destruct (IH (len_all N y) ltac:(lia) y W1 eq_refl G1 (ne_step x p y E HN)) as (sc & z & A & B & C & D). exists (p :: sc), z. split.
      + intros q [<-|Hq]; auto.
      + cbn [nrun Unbuffered]. rewrite E. split; auto. split; auto. split; auto. intros y' E'. injection E' as <-. auto.
  Qed.
  Lemma unb_reach : forall sc x y W, Sched N sc -> nrun sc x = Some y -> Good N G fin x W -> (forall p, 0 <= p < N -> Forall not_empty (pr_code (x p))) ->
    exists W', Good N G fin y W' /\ forall p, 0 <= p < N -> Forall not_empty (pr_code (y p)).
  Proof.
    induction sc as [|r sc IH]; intros x y W S H HGd HN.
    - injection H as <-. eauto.
    - cbn [nrun] in H. destruct (nexec r x) as [z|] eqn:E; [|discriminate]. destruct (good_step N G fin HG x W r z (S r (or_introl eq_refl)) HGd E) as (W1 & G1).
      apply (IH z y W1); auto; [intros q Hq; apply S; right; auto|]. exact (ne_step x r z E HN).
  Qed.
End Unb.

Theorem prepared_unb N T code code' m Q :
  AlwaysEnds N (nstart code m) Q -> (forall p st, 0 <= p < N -> Q p st -> forall q, 0 <= q < N -> p_in st (Peer q) = []) ->
  (forall p, 0 <= p < N -> forall st, SameRun (T p) (exec_is (code p) st) (exec_is (code' p) st)) ->
  (forall p, 0 <= p < N -> Forall (iwf N p) (code' p) /\ StronglySorted (iord N p) (code' p)) -> (forall p, 0 <= p < N -> Forall not_empty (code' p)) ->
  AlwaysEndsUnbuffered N (nstart code' m) (fun p st => exists st0, Q p st0 /\ (forall x, ~ T p x -> p_mem st x = p_mem st0 x) /\ forall q, 0 <= q < N -> p_in st (Peer q) = p_in st0 (Peer q)).
Proof.
  intros HE HI HS HW HN sched y S R. destruct (prepared_net N T code code' m Q HE HS HW sched y S R) as [_ P2]. split; [|exact P2].
  destruct (base_local N T code code' m Q HE HS) as (G & fin & [L1 L2 L3]).
  assert (G0 : Good N G fin (nstart code' m) (fun p q => G p q)) by (constructor; [intros p q Hp Hq; reflexivity|exact L1|exact HW]).
  destruct (unb_reach N G fin L2 sched _ y _ S R G0 HN) as (W & Gy & Ny).
  refine (unb_ends N G fin L2 _ (len_all N y) y W eq_refl Gy Ny).
  intros p q Hp Hq. destruct (L3 p Hp) as (st0 & Q0 & _ & I0). rewrite I0 by auto. exact (HI p st0 Hp Q0 q Hq).
Qed.
Lemma prep_not_empty cx place T oth Pk F : 0 < cx_es cx -> Prepared Pk F -> Forall not_empty (map (den2 cx place T oth) F).
Proof.
  intros He [A _ _]. apply Forall_forall. intros i Hi. apply in_map_iff in Hi as (a & <- & Ha). destruct (A a Ha) as [P _]. destruct a as [r p]. cbn [a_par] in P.
  unfold not_empty, den2, den. cbn [a_par]. destruct p; simpl in P; try tauto; try (cbn; congruence).
  unfold send_i. cbn [i_out i_send]. intros _ m E. apply (f_equal (fun l => Z.of_nat (length l))) in E. rewrite Proof_Comb3.rdb_length in E by nia. cbn in E. nia.
Qed.
