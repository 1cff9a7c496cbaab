(* What copies from and to buffers use. *)
From Coq Require Import ZArith List Bool Lia ZifyBool ZifyNat.
From Verif Require Import Base Model_Space Model_Mem Model_Transition Model_Action Model_ActionTrans Model_ActionExec Model_ActionExec2 Spec_ActionTrans Spec_Async.
From Verif Require Import Proof_Type Proof_Comb3.
Import ListNotations.
Open Scope Z_scope.

Definition at_ptr (ce : list centry) : area := fun x => exists e, In e ce /\ region (ce_ptr e) (ce_bytes e) x.
Definition at_off (ce : list centry) (b : Z) : area := fun x => exists e, In e ce /\ region (b + ce_off e) (ce_bytes e) x.
Definition prd (p : apar) : area := match p with CopyToBuf ce _ => at_ptr ce | CopyFromBuf ce b => at_off ce b | _ => fun _ => False end.
Definition pwr (p : apar) : area := match p with CopyToBuf ce b => at_off ce b | CopyFromBuf ce _ => at_ptr ce | _ => fun _ => False end.

Lemma rdb_region m p n q x : region q (Z.of_nat (length (rdb m p n))) x <-> region q n x.
Proof. unfold rdb, bytes, region. rewrite mread_length. lia. Qed.
Lemma entry_dec (A : centry -> area) ce x : (forall e, A e x \/ ~ A e x) -> (exists e, In e ce /\ A e x) \/ ~ (exists e, In e ce /\ A e x).
Proof.
  intros D. induction ce as [|e ce IH]; [right; intros (e & [] & _)|]. destruct (D e) as [H|H]; [left; exists e; simpl; auto|].
  destruct IH as [(z & Hz & K)|N]; [left; exists z; simpl; auto|]. right. intros (z & [<-|Hz] & K); eauto.
Qed.

Section Copy.
  Variables (src dst : centry -> Z).
  Let go (ce : list centry) (m : mem) : mem := fold_left (fun m e => mwrite m (dst e) (rdb m (src e) (ce_bytes e))) ce m.
  Lemma go_keep ce : forall m x, ~ (exists e, In e ce /\ region (dst e) (ce_bytes e) x) -> go ce m x = m x.
  Proof.
    induction ce as [|e ce IH]; intros m x H; [reflexivity|]. unfold go. cbn [fold_left]. fold (go ce (mwrite m (dst e) (rdb m (src e) (ce_bytes e)))).
    rewrite IH by (intros (z & Hz & K); apply H; exists z; simpl; auto). apply mwrite_keep. rewrite rdb_region. intros K. apply H. exists e; simpl; auto.
  Qed.
  Lemma go_same ce : forall m m' (R : area), (forall e x, In e ce -> region (src e) (ce_bytes e) x -> R x) -> (forall x, R x -> m x = m' x) ->
    forall x, R x \/ (exists e, In e ce /\ region (dst e) (ce_bytes e) x) -> go ce m x = go ce m' x.
  Proof.
    induction ce as [|e ce IH]; intros m m' R HR Hm x Hx; [destruct Hx as [Hx|(e & [] & _)]; apply Hm; auto|].
    unfold go. cbn [fold_left]. fold (go ce (mwrite m (dst e) (rdb m (src e) (ce_bytes e)))). fold (go ce (mwrite m' (dst e) (rdb m' (src e) (ce_bytes e)))).
    assert (E : rdb m (src e) (ce_bytes e) = rdb m' (src e) (ce_bytes e)) by (apply rdb_ext; intros y Hy; apply Hm, (HR e); simpl; auto).
    rewrite <- E. apply (IH _ _ (fun y => R y \/ region (dst e) (ce_bytes e) y)).
    - intros z y Hz Hy. left. apply (HR z); simpl; auto.
    - intros y Hy. destruct (region_dec (dst e) (ce_bytes e) y) as [r|r].
      + apply mwrite_write. rewrite rdb_region. auto.
      + rewrite !mwrite_keep by (rewrite rdb_region; auto). apply Hm. tauto.
    - destruct Hx as [Hx|(z & [<-|Hz] & K)]; auto. right. eauto.
  Qed.
End Copy.

Lemma copy_frame cx place T oth r p : (exists ce b, p = CopyToBuf ce b \/ p = CopyFromBuf ce b) -> Frame (den2 cx place T oth (mkAct r p)) (prd p) (pwr p).
Proof.
  intros (ce & b & [-> | ->]); unfold den2, den; cbn [a_par prd pwr]; (split; [|split; [|split; [|split]]]); cbn [i_take i_in i_write i_send]; try (intros; lia); auto.
  - intros x. apply (entry_dec (fun e => region (b + ce_off e) (ce_bytes e))). intros e. apply region_dec.
  - intros m bs x _ Hx. exact (go_keep ce_ptr (fun e => b + ce_off e) ce m x Hx).
  - intros m m' bs _ Hm. split; auto. intros x Hx. apply (go_same ce_ptr (fun e => b + ce_off e) ce m m' (at_ptr ce)); auto. intros e y He Hy. exists e. auto.
  - intros x. apply (entry_dec (fun e => region (ce_ptr e) (ce_bytes e))). intros e. apply region_dec.
  - intros m bs x _ Hx. exact (go_keep (fun e => b + ce_off e) ce_ptr ce m x Hx).
  - intros m m' bs _ Hm. split; auto. intros x Hx. apply (go_same (fun e => b + ce_off e) ce_ptr ce m m' (at_off ce b)); auto. intros e y He Hy. exists e. auto.
Qed.

Lemma ents_in {A} (len addr : A -> Z) l : pos len l -> forall off e, In e (ents len addr off l) ->
  exists x, In x l /\ ce_ptr e = addr x /\ ce_bytes e = len x /\ off <= ce_off e /\ ce_off e + len x <= off + tot len l.
Proof.
  induction 1 as [|x l Px P IH]; intros off e He; [destruct He|]. pose proof (tot_nonneg len l P) as Ht. cbn [ents tot] in *. destruct He as [<-|He].
  - exists x. cbn [ce_ptr ce_bytes ce_off]. split; [left; auto|]. repeat split; lia.
  - destruct (IH _ _ He) as (y & Hy & E1 & E2 & E3 & E4). exists y. split; [right; auto|]. repeat split; auto; lia.
Qed.

(* two actions: do not touch what the other one writes, or come in an order which is no problem *)
Definition no_send (p : apar) : Prop := match p with BufSend _ _ _ => False | _ => True end.
Definition no_recv (p : apar) : Prop := match p with BufRecv _ _ _ => False | _ => True end.
Definition first (x y : action) : Prop := a_round x < a_round y /\ no_send (a_par x) /\ no_recv (a_par y).
Definition Asy (cx : actx) (x y : action) : Prop :=
  Indep (ard cx prd (a_par x)) (awr cx pwr (a_par x)) (ard cx prd (a_par y)) (awr cx pwr (a_par y)) \/ first x y \/ first y x.
Lemma asy_sym cx x y : Asy cx x y -> Asy cx y x.
Proof.
  intros [(A & B & C)|[H|H]]; unfold Asy; auto. left. split; [|split]; auto. intros z H1 H2. apply (B z); auto.
Qed.
