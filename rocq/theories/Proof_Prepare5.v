(* The prepared sequences on all processes, with blocking messages. *)
From Coq Require Import ZArith List Bool Lia ZifyBool ZifyNat Permutation Sorted.
From Verif Require Import Base Model_Space Model_Mem Model_Transition Model_Action Model_ActionTrans Model_ActionExec Model_ActionExec2 Model_Net Spec_RangeList Spec_Action Spec_ActionTrans Spec_Async Spec_Net.
From Verif Require Import Proof_Type Proof_Comb1 Proof_Comb2 Proof_Comb4 Proof_Action2 Proof_Net Proof_Prepare1 Proof_Prepare2 Proof_Prepare3 Proof_Prepare4.
Import ListNotations.
Open Scope Z_scope.

Lemma same_some T a o : SameRun T (Some a) o -> exists b, o = Some b /\ AgreeOut T a b.
Proof. destruct o as [b|]; simpl; [eauto|tauto]. Qed.

Lemma key_sorted cx place T oth N me F : Prepared (peer_ok N me) F -> key_order N me F ->
  Forall (iwf N me) (map (den2 cx place T oth) F) /\ StronglySorted (iord N me) (map (den2 cx place T oth) F).
Proof.
  intros [A (rm & B) _] K. split.
  - apply Forall_forall. intros i Hi. apply in_map_iff in Hi as (a & <- & Ha). apply plain_wf; [apply A; auto|]. intros k Hk. apply (B a k Ha Hk).
  - apply (proj1 (ss_map (den2 cx place T oth) (iord N me) _)). eapply ss_weaken; [|exact K]. intros x y Hx Hy H k k' Hk Hk'.
    apply plain_key in Hk as (ka & Ka & ->); [|apply A; auto]. apply plain_key in Hk' as (kb & Kb & ->); [|apply A; auto]. apply H; auto.
Qed.

Lemma choice_state N (P : Z -> pst -> Prop) : (forall p, 0 <= p < N -> exists s, P p s) -> exists f, forall p, 0 <= p < N -> P p (f p).
Proof.
  intros H. assert (X : forall k, 0 <= k -> k <= N -> exists f, forall p, 0 <= p < k -> P p (f p)).
  { apply (natlike_ind (fun k => k <= N -> exists f, forall p, 0 <= p < k -> P p (f p))).
    - intros _. exists (fun _ => mkP (fun _ => 0) (fun _ => []) (fun _ => [])). intros; lia.
    - intros k Hk IH Hle. destruct IH as (f & Hf); [lia|]. destruct (H k) as (s & Hs); [lia|]. exists (fun p => if p =? k then s else f p). intros p Hp.
      destruct (p =? k) eqn:E; [assert (p = k) by lia; subst; auto|apply Hf; lia]. }
  destruct (Z_le_gt_dec 0 N); [apply (X N); lia|]. exists (fun _ => mkP (fun _ => 0) (fun _ => []) (fun _ => [])). intros; lia.
Qed.

(* the local result of the base network, for prepared code *)
Record Local (N : Z) (T : Z -> area) (code code' : Z -> list instr) (m : Z -> mem) (Q : Z -> pst -> Prop) (G : Z -> Z -> list Z) (fin : Z -> pst) : Prop := {
  lo_run : forall p, 0 <= p < N -> exists s, exec_is (code' p) (given N G p (mkP (m p) (fun _ => []) (fun _ => []))) = Some s /\ peq s (fin p);
  lo_out : forall p q, 0 <= p < N -> 0 <= q < N -> p_out (fin p) (Peer q) = G p q;
  lo_res : forall p, 0 <= p < N -> exists st0, Q p st0 /\ (forall x, ~ T p x -> p_mem (fin p) x = p_mem st0 x) /\ forall q, 0 <= q < N -> p_in (fin p) (Peer q) = p_in st0 (Peer q) }.
Lemma base_local N T code code' m Q : AlwaysEnds N (nstart code m) Q ->
  (forall p, 0 <= p < N -> forall st, SameRun (T p) (exec_is (code p) st) (exec_is (code' p) st)) ->
  exists G fin, Local N T code code' m Q G fin.
Proof.
  intros HE HS. destruct (HE [] (nstart code m)) as [(sc & z & A & B & C) _]; [intros p []|reflexivity|].
  destruct (HE sc z A B) as [_ HQ]. specialize (HQ C). destruct (run_local N sc _ z A B C) as (W & O & Lc). cbn [nstart pr_st pr_code p_out] in O, Lc.
  assert (X : forall p, 0 <= p < N -> exists s, exec_is (code' p) (given N W p (mkP (m p) (fun _ => []) (fun _ => []))) = Some s /\ AgreeOut (T p) (pr_st (z p)) s).
  { intros p Hp. destruct (Lc p Hp) as (s & Es & Ps). pose proof (HS p Hp (given N W p (mkP (m p) (fun _ => []) (fun _ => [])))) as SR. rewrite Es in SR. apply same_some in SR as (b & Eb & Ab). exists b. split; auto.
    destruct Ps as [P1 P2 P3]. destruct Ab as (A1 & A2 & A3). split; [|split]; intros; rewrite <- ?P1, <- ?P2, <- ?P3; auto. }
  destruct (choice_state N _ X) as (fin & HF). exists W, fin. constructor.
  - intros p Hp. exists (fin p). split; [apply HF; auto|constructor; auto].
  - intros p q Hp Hq. destruct (HF p Hp) as [_ (_ & _ & A3)]. rewrite <- A3, O by auto. reflexivity.
  - intros p Hp. exists (pr_st (z p)). split; auto. destruct (HF p Hp) as [_ (A1 & A2 & _)]. split; intros; symmetry; auto.
Qed.

Theorem prepared_net N T code code' m Q :
  AlwaysEnds N (nstart code m) Q ->
  (forall p, 0 <= p < N -> forall st, SameRun (T p) (exec_is (code p) st) (exec_is (code' p) st)) ->
  (forall p, 0 <= p < N -> Forall (iwf N p) (code' p) /\ StronglySorted (iord N p) (code' p)) ->
  AlwaysEnds N (nstart code' m) (fun p st => exists st0, Q p st0 /\ (forall x, ~ T p x -> p_mem st x = p_mem st0 x) /\ forall q, 0 <= q < N -> p_in st (Peer q) = p_in st0 (Peer q)).
Proof.
  intros HE HS HW. destruct (base_local N T code code' m Q HE HS) as (G & fin & [L1 L2 L3]).
  apply (common_order N G fin L2).
  - constructor.
    + intros p q Hp Hq. reflexivity.
    + exact L1.
    + exact HW.
  - intros p s Hp Em Ei. destruct (L3 p Hp) as (st0 & Q0 & M0 & I0). exists st0. split; auto. split; [intros x Hx; rewrite Em; auto|intros q Hq; rewrite Ei; auto].
Qed.
