(* Groups of processes which work in stages: what one stage leaves is what the next one finds. *)
From Coq Require Import ZArith List Bool Lia ZifyBool ZifyNat Sorted.
From Verif Require Import Base Model_Space Model_Mem Model_Transition Model_Action Model_ActionTrans Model_ActionExec Model_ActionExec2 Model_Net.
From Verif Require Import Spec_Action Spec_ActionTrans Spec_Async Spec_Net Spec_Reduce.
From Verif Require Import Proof_Type Proof_Comb3 Proof_Comb4 Proof_Comb5 Proof_Async1 Proof_Async2 Proof_Async3 Proof_Net Proof_Reduce1 Proof_Reduce2 Proof_Reduce3.
Import ListNotations.
Open Scope Z_scope.

Section Stages.
  Variable N : Z.

  (* all messages are received *)
  Definition Clean (x : net) : Prop := forall p q, 0 <= p < N -> 0 <= q < N -> p_in (pr_st (x p)) (Peer q) = [].
  Definition At (l : Z -> list instr) (I : Z -> mem -> Prop) (x : net) : Prop :=
    forall p, 0 <= p < N -> pr_code (x p) = l p /\ I p (p_mem (pr_st (x p))).
  Definition Stage (l : Z -> list instr) (I I' : Z -> mem -> Prop) : Prop :=
    forall x rest, At (fun p => l p ++ rest p) I x -> Clean x ->
      exists sc y, Sched N sc /\ nrun sc x = Some y /\ At rest I' y /\ Clean y.

  Lemma sched_app a b : Sched N a -> Sched N b -> Sched N (a ++ b).
  Proof. intros A B p Hp. apply in_app_or in Hp. destruct Hp; auto. Qed.

  Lemma stage_nil (I : Z -> mem -> Prop) : Stage (fun _ => []) I I.
  Proof. intros x rest H C. exists [], x. split; [intros p []|]. split; auto. Qed.

  Lemma stage_seq l1 l2 I I1 I2 : Stage l1 I I1 -> Stage l2 I1 I2 -> Stage (fun p => l1 p ++ l2 p) I I2.
  Proof.
    intros S1 S2 x rest H C. destruct (S1 x (fun p => l2 p ++ rest p)) as (sc1 & y1 & A1 & B1 & C1 & D1); auto.
    { intros p Hp. destruct (H p Hp) as [E F]. split; auto. rewrite app_assoc. auto. }
    destruct (S2 y1 rest C1 D1) as (sc2 & y2 & A2 & B2 & C2 & D2).
    exists (sc1 ++ sc2), y2. split; [apply sched_app; auto|]. split; [rewrite nrun_app, B1; auto|auto].
  Qed.

  Lemma stage_ext l l' I I' : (forall p, 0 <= p < N -> l p = l' p) -> Stage l' I I' -> Stage l I I'.
  Proof. intros E S x rest H C. apply S; auto. intros p Hp. rewrite <- (E p Hp). auto. Qed.
  Lemma stage_conseq l (I I' J J' : Z -> mem -> Prop) : (forall p m, 0 <= p < N -> J p m -> I p m) -> (forall p m, 0 <= p < N -> I' p m -> J' p m) ->
    Stage l I I' -> Stage l J J'.
  Proof.
    intros H1 H2 S x rest H C. destruct (S x rest) as (sc & y & A & B & D & F); auto.
    { intros p Hp. destruct (H p Hp). auto. }
    exists sc, y. split; auto. split; auto. split; auto. intros p Hp. destruct (D p Hp). auto.
  Qed.

  Lemma stage_list {K} (L : K -> Z -> list instr) (I : list K -> Z -> mem -> Prop) ks :
    (forall pre k post, ks = pre ++ k :: post -> Stage (L k) (I pre) (I (pre ++ [k]))) ->
    Stage (fun p => flat_map (fun k => L k p) ks) (I []) (I ks).
  Proof.
    intros H. assert (G : forall post pre, ks = pre ++ post -> Stage (fun p => flat_map (fun k => L k p) post) (I pre) (I ks)).
    { induction post as [|k post IH]; intros pre E.
      - rewrite app_nil_r in E. rewrite <- E. apply stage_nil.
      - cbn [flat_map]. apply stage_seq with (I1 := I (pre ++ [k])); [eapply H; eauto|]. apply IH. rewrite <- app_assoc. auto. }
    apply (G ks []). auto.
  Qed.

  (* only local work *)
  Lemma stage_local l (I I' : Z -> mem -> Prop) :
    (forall p, 0 <= p < N -> noself p (l p)) ->
    (forall p s, 0 <= p < N -> I p (p_mem s) -> exists s', exec_is (l p) s = Some s' /\
       (forall ch, p_in s' ch = p_in s ch) /\ (forall ch, p_out s' ch = p_out s ch) /\ I' p (p_mem s')) ->
    Stage l I I'.
  Proof.
    intros HN HL x rest H C. destruct (phase_ex N l rest (fun _ _ => []) (fun p s => I' p (p_mem s) /\ forall q, 0 <= q < N -> p_in s (Peer q) = []) x) as (sc & y & A & B & D).
    { intros p Hp. destruct (H p Hp) as [E F]. split; auto. split; [auto|]. destruct (HL p _ Hp F) as (s' & X & X1 & X2 & X3).
      exists s'. split; auto. split; [intros; rewrite X2, app_nil_r; auto|]. split; auto. intros q Hq. rewrite X1. auto. }
    exists sc, y. split; auto. split; auto. split.
    - intros p Hp. destruct (D p Hp) as (E & s' & (P1 & P2) & Q1 & Q2 & Q3). split; auto. rewrite Q1. auto.
    - intros p q Hp Hq. destruct (D p Hp) as (E & s' & (P1 & P2) & Q1 & Q2 & Q3). rewrite Q3, P2 by auto. destruct (q =? p); auto.
  Qed.

  (* all processes send, then all processes receive what was sent to them *)
  Lemma stage_xchg snds rcvs (w : Z -> Z -> list Z) (I I' : Z -> mem -> Prop) :
    (forall p, 0 <= p < N -> noself p (snds p) /\ noself p (rcvs p) /\ w p p = []) ->
    (forall p s, 0 <= p < N -> I p (p_mem s) -> exists s', exec_is (snds p) s = Some s' /\ p_mem s' = p_mem s /\
       (forall ch, p_in s' ch = p_in s ch) /\ forall q, p_out s' (Peer q) = p_out s (Peer q) ++ w p q) ->
    (forall p s, 0 <= p < N -> I p (p_mem s) -> (forall q, 0 <= q < N -> p_in s (Peer q) = w q p) -> exists s', exec_is (rcvs p) s = Some s' /\
       (forall ch, p_out s' ch = p_out s ch) /\ (forall q, 0 <= q < N -> p_in s' (Peer q) = []) /\ I' p (p_mem s')) ->
    Stage (fun p => snds p ++ rcvs p) I I'.
  Proof.
    intros HN HS HR x rest H C.
    destruct (phase_ex N snds (fun p => rcvs p ++ rest p) w (fun p s => I p (p_mem s) /\ forall q, 0 <= q < N -> p_in s (Peer q) = []) x) as (sc & y & A & B & D).
    { intros p Hp. destruct (H p Hp) as [E F]. split; [rewrite E, app_assoc; auto|]. split; [apply HN; auto|]. destruct (HS p _ Hp F) as (s' & X & X1 & X2 & X3).
      exists s'. split; auto. split; auto. split; [rewrite X1; auto|]. intros q Hq. rewrite X2. auto. }
    destruct (phase_ex N rcvs rest (fun _ _ => []) (fun p s => I' p (p_mem s) /\ forall q, 0 <= q < N -> p_in s (Peer q) = []) y) as (sc2 & y2 & A2 & B2 & D2).
    { intros p Hp. destruct (D p Hp) as (E & s' & (P1 & P2) & Q1 & Q2 & Q3). split; auto. split; [apply HN; auto|].
      destruct (HR p (pr_st (y p)) Hp) as (s2 & X & X1 & X2 & X3).
      - rewrite Q1. auto.
      - intros q Hq. rewrite Q3, P2 by auto. cbn [app]. destruct (q =? p) eqn:Eq; auto. replace q with p by lia. symmetry. apply HN; auto.
      - exists s2. split; auto. split; [intros; rewrite X1, app_nil_r; auto|auto]. }
    exists (sc ++ sc2), y2. split; [apply sched_app; auto|]. split; [rewrite nrun_app, B; auto|]. split.
    - intros p Hp. destruct (D2 p Hp) as (E & s' & (P1 & P2) & Q1 & Q2 & Q3). split; auto. rewrite Q1. auto.
    - intros p q Hp Hq. destruct (D2 p Hp) as (E & s' & (P1 & P2) & Q1 & Q2 & Q3). rewrite Q3, P2 by auto. destruct (q =? p); auto.
  Qed.

  Lemma stage_skips u I : Stage (fun p => repeat skip (u p)) I I.
  Proof.
    apply stage_local; [intros; apply noself_skips|]. intros p s Hp HI. destruct (skips_exec (u p) s) as (s' & X & X1 & X2 & X3).
    exists s'. rewrite X1. auto.
  Qed.

  (* the whole group, from the start *)
  Lemma stage_run code m I I' : Stage code I I' -> (forall p, 0 <= p < N -> I p (m p)) ->
    AlwaysEnds N (nstart code m) (fun p s => I' p (p_mem s) /\ forall q, 0 <= q < N -> p_in s (Peer q) = []).
  Proof.
    intros S HI. destruct (S (nstart code m) (fun _ => [])) as (sc & y & A & B & D & F).
    { intros p Hp. cbn [nstart pr_code pr_st p_mem]. split; auto. rewrite app_nil_r. auto. }
    { intros p q Hp Hq. reflexivity. }
    apply (one_for_all N _ sc y); auto.
    - intros p Hp. apply (D p Hp).
    - intros p s Hp [P1 P2 P3]. split; [rewrite <- P1; apply (D p Hp)|]. intros q Hq. rewrite <- P2. apply F; auto.
  Qed.
End Stages.
