(* Effect of all transfers of a switch of a 1d container by the TCP2 backend, one after the other. *)
From Coq Require Import ZArith List Bool Lia ZifyBool ZifyNat.
From Verif Require Import Base ListFacts Model_Space Model_RangeList Model_Mem Model_Layout Model_Partitioner Model_Transition Model_Data
  Model_Action Model_ActionTrans Model_ActionExec Model_ActionExec2 Model_Switch Model_KVS Model_SpaceStore Model_Tcp2 Model_Tcp2Exec.
From Verif Require Import Spec_Space Spec_Layout Spec_Data Spec_ActionTrans Spec_Reduce Spec_Switch.
From Verif Require Import Proof_Comb3 Proof_Reduce1 Proof_Reduce3 Proof_Switch4 Proof_Tcp2Exec1 Proof_Tcp2Exec3.
From Verif Require Import Spec_Tcp2Exec.
Import ListNotations.
Open Scope Z_scope.

Definition kdec : forall a b : (Z * Z) * Z, {a = b} + {a <> b}.
Proof. decide equality; [apply Z.eq_dec|decide equality; apply Z.eq_dec]. Defined.
Definition updv {V} (f : (Z * Z) * Z -> V) (e : (Z * Z) * Z) (v : V) : (Z * Z) * Z -> V := fun x => if kdec x e then v else f x.
Definition zrange (a b : Z) : list Z := map (fun i => a + Z.of_nat i) (seq 0 (Z.to_nat (b - a))).
Lemma zrange_in a b x : In x (zrange a b) <-> a <= x < b.
Proof.
  unfold zrange. rewrite in_map_iff. split.
  - intros (i & <- & Hi). apply in_seq in Hi. lia.
  - intros H. exists (Z.to_nat (x - a)). split; [lia|]. apply in_seq. lia.
Qed.

Section Seq.
Variable T : dtype.
Variable gen : bool.
Variable bin : Z -> Z -> bool.
Variable sp : space.
Variable es : Z.
Hypothesis Hd : sp_dims sp = 1%nat.
Hypothesis Hes : 0 < es.
Hypothesis Hfit : FitsTcp bin es.
Let rd : redop -> list Z -> list Z -> outcome (list Z) := fun o a b => Ok (dt_red T o 1 a b).
Variable N : Z.
Variable D : list (Z * Z).
Variables ins outs : Z * Z -> list Z.
Variables fr to : Z * Z -> Z -> Z.
Variables mf mt : Z * Z -> Z -> lmap.
Variable red : redop.
Variable m : Z -> mem.
Let n (k : Z * Z) := (snd k - fst k) * es.
Let bx (k : Z * Z) := box1 (fst k) (snd k).
Let root (k : Z * Z) := hd 0 (outs k).
Let isred (k : Z * Z) := negb (Nat.eqb (length (ins k)) 1).

(* what is done for a segment with several owners *)
Definition rx (k : Z * Z) (op : redop) (i : Z) : unit_ := UXfer i (mf k i) (bx k) (root k) (mt k (root k)) op.
Definition rxs (k : Z * Z) (op : redop) (l : list Z) : list unit_ := match l with [] => [] | i :: l' => rx k op i :: map (rx k red) l' end.
Definition bc (k : Z * Z) (t : Z) : unit_ := UXfer (root k) (mt k (root k)) (bx k) t (mt k t) RO_None.
Definition redu (k : Z * Z) : list unit_ :=
  (if memb (root k) (ins k) then [UCopy (root k) (bx k) (mf k (root k)) (mt k (root k))] else []) ++
  rxs k (if memb (root k) (ins k) then red else RO_None) (others (root k) (ins k)) ++
  map (bc k) (others (root k) (outs k)).
(* and with a single one *)
Definition msg (s t : Z) (k : Z * Z) : unit_ := UXfer s (mf k s) (bx k) t (mt k t) RO_None.
Definition mu (s t : Z) (k : Z * Z) : list unit_ := match ins k with [i] => if (i =? s) && memb t (outs k) then [msg s t k] else [] | _ => [] end.
Definition allu : list unit_ :=
  flat_map redu (filter isred D) ++
  flat_map (fun s => flat_map (fun t => flat_map (mu s t) D) (zrange (s + 1) N)) (zrange 0 N) ++
  flat_map (fun s => flat_map (fun t => flat_map (mu s t) D) (zrange 0 s)) (zrange 0 N).

Hypothesis Hlt : forall k, In k D -> fst k < snd k /\ snd k - fst k < 2 ^ 31.
Hypothesis HND : NoDup D.
Hypothesis Hf : forall k p, In k D -> In p (ins k) -> SegOk sp es (mf k p) (fst k) (snd k) (fr k p).
Hypothesis Ht : forall k p, In k D -> In p (outs k) -> SegOk sp es (mt k p) (fst k) (snd k) (to k p).
Hypothesis Hir : forall k p, In k D -> In p (ins k) -> 0 <= p < N.
Hypothesis Hor : forall k p, In k D -> In p (outs k) -> 0 <= p < N.
Hypothesis Hnd : forall k, In k D -> NoDup (ins k).
Hypothesis Hft : forall k k' p, In k D -> In k' D -> k <> k' -> In p (ins k) -> In p (outs k') -> apart (region (fr k p) (n k)) (region (to k' p) (n k')).
Hypothesis Htt : forall k k' p, In k D -> In k' D -> k <> k' -> In p (outs k) -> In p (outs k') -> apart (region (to k p) (n k)) (region (to k' p) (n k')).
Hypothesis Hcopy : forall k p mm, In k D -> In p (ins k) -> In p (outs k) -> exists m', tcp_copy gen sp (bx k) (mf k p) (mt k p) mm = Ok m' /\
  (forall y, ~ region (to k p) (n k) y -> m' y = mm y) /\ rdb m' (to k p) (n k) = rdb mm (fr k p) (n k).
Hypothesis Hred : forall k, In k D -> isred k = true -> ins k <> [] -> red <> RO_None /\ Elementwise T es red.
Hypothesis Hsrc : forall k, In k D -> outs k <> [] -> ins k <> [].
Hypothesis Hdst : forall k, In k D -> isred k = true -> ins k <> [] -> outs k <> [].

Definition val0 (k : Z * Z) (p : Z) : list Z := rdb (m p) (fr k p) (n k).
Definition fin (k : Z * Z) : list Z := reduce_all T red (snd k - fst k) (map (val0 k) (first_me (root k) (ins k))).
Let finv (e : (Z * Z) * Z) := fin (fst e).

Definition Wf (W : list ((Z * Z) * Z)) : Prop := forall k p, In (k, p) W -> In k D /\ In p (outs k) /\ ins k <> [p].
Definition Inv (W : list ((Z * Z) * Z)) (val : (Z * Z) * Z -> list Z) (M : Z -> mem) : Prop := forall p,
  (forall y, (forall k, In (k, p) W -> ~ region (to k p) (n k) y) -> M p y = m p y) /\
  (forall k, In (k, p) W -> rdb (M p) (to k p) (n k) = val (k, p)).

Lemma inv_ext W val val' M : (forall e, In e W -> val e = val' e) -> Inv W val M -> Inv W val' M.
Proof. intros H I p. destruct (I p) as [A B]. split; auto. intros k Hk. rewrite <- H by auto. auto. Qed.
Lemma inv_write W val M k p m' v : Wf W -> Inv W val M -> In k D -> In p (outs k) ->
  (forall y, ~ region (to k p) (n k) y -> m' y = M p y) -> rdb m' (to k p) (n k) = v ->
  Inv ((k, p) :: W) (updv val (k, p) v) (upd M p m').
Proof.
  intros HW I Hk Ho H1 H2 q. destruct (I q) as [A B]. destruct (Z.eq_dec q p) as [->|Hq].
  - rewrite upd_same. split.
    + intros y Hy. rewrite H1 by (apply Hy; left; auto). apply A. intros k' Hk'. apply Hy. right; auto.
    + intros k' Hk'. unfold updv. destruct (kdec (k', p) (k, p)) as [E|E]; [injection E as ->; auto|].
      destruct Hk' as [Hk'|Hk']; [congruence|]. rewrite <- (B k' Hk'). apply rdb_ext. intros y Hy. apply H1. intros Hy'.
      destruct (HW k' p Hk') as (W1 & W2 & _). refine (Htt k' k p W1 Hk _ W2 Ho y Hy Hy'). congruence.
  - rewrite upd_other by auto. split.
    + intros y Hy. apply A. intros k' Hk'. apply Hy. right; auto.
    + intros k' [Hk'|Hk']; [congruence|]. unfold updv. destruct (kdec (k', q) (k, p)) as [E|E]; [congruence|auto].
Qed.
Lemma inv_read W val M k p : Wf W -> Inv W val M -> In k D -> In p (ins k) -> ~ In (k, p) W -> rdb (M p) (fr k p) (n k) = val0 k p.
Proof.
  intros HW I Hk Hi Hn. destruct (I p) as [A B]. unfold val0. apply rdb_ext. intros y Hy. apply A. intros k' Hk' Hy'. destruct (HW k' p Hk') as (W1 & W2 & _).
  refine (Hft k k' p Hk W1 _ Hi W2 y Hy Hy'). congruence.
Qed.

(* one transfer *)
Lemma step_x W val M a ma A k t ro : Wf W -> Inv W val M -> In k D -> In t (outs k) -> SegOk sp es ma (fst k) (snd k) A ->
  (ro <> RO_None -> Elementwise T es ro /\ In (k, t) W) ->
  exists M', ueff rd gen bin sp (UXfer a ma (bx k) t (mt k t) ro, Fresh) M M' /\
    Inv ((k, t) :: W) (updv val (k, t) (comb T ro (snd k - fst k) (val (k, t)) (rdb (M a) A (n k)))) M'.
Proof.
  intros HW I Hk Ho Sa HT. destruct (Hlt k Hk) as [L1 L2].
  destruct (xfer_eff T gen bin sp es Hd Hes Hfit a ma t (mt k t) (fst k) (snd k) A (to k t) ro M Sa (Ht k t Hk Ho)) as (m' & E1 & E2 & E3); auto.
  - apply (Hor k t Hk Ho).
  - intros h. apply (HT h).
  - exists (upd M t m'). split; [exact E1|]. apply inv_write; auto. fold (n k) in E3. rewrite E3.
    destruct ro; cbn [comb]; try reflexivity; (destruct HT as [_ HT]; [discriminate|]; destruct (I t) as [_ B]; rewrite (B k HT); reflexivity).
Qed.

Lemma wf_cons W k p : Wf W -> In k D -> In p (outs k) -> ins k <> [p] -> Wf ((k, p) :: W).
Proof. intros HW Hk Ho Hn k' p' [E|H]; [injection E as <- <-; auto|apply HW; auto]. Qed.

Definition fresh (l : list unit_) : list su := map (fun u => (u, Fresh)) l.
Lemma fresh_app l l' : fresh (l ++ l') = fresh l ++ fresh l'. Proof. apply map_app. Qed.

(* accumulation at the root *)
Lemma acc_ok W k : Wf W -> In k D -> isred k = true -> In (root k) (outs k) -> In (k, root k) W -> (forall i, i <> root k -> ~ In (k, i) W) ->
  forall l v M, (forall i, In i l -> i <> root k /\ In i (ins k)) -> Inv W (updv finv (k, root k) v) M ->
  exists M', effs rd gen bin sp (fresh (map (rx k red) l)) M M' /\ Inv W (updv finv (k, root k) (fold_left (dt_red T red (snd k - fst k)) (map (val0 k) l) v)) M'.
Proof.
  intros HW Hk Hr Ho Hin Hno. induction l as [|i l IH]; intros v M Hl I; [exists M; split; [intros p; reflexivity|exact I]|].
  destruct (Hl i (or_introl eq_refl)) as [I1 I2]. assert (Hne : ins k <> []) by (intros C; rewrite C in I2; destruct I2).
  destruct (Hred k Hk Hr Hne) as [R1 R2].
  destruct (step_x W _ M i (mf k i) (fr k i) k (root k) red HW I Hk Ho (Hf k i Hk I2)) as (M1 & E1 & E2); [auto|].
  rewrite (inv_read W _ M k i HW I Hk I2) in E2 by (apply Hno; auto).
  assert (E3 : Inv W (updv finv (k, root k) (dt_red T red (snd k - fst k) v (val0 k i))) M1).
  { intros p. destruct (E2 p) as [A B]. split.
    - intros y Hy. apply A. intros k' [C|C]; [injection C as <- <-; apply Hy; auto|apply Hy; auto].
    - intros k' Hk'. rewrite (B k' (or_intror Hk')). unfold updv. destruct (kdec (k', p) (k, root k)) as [E|E]; [|reflexivity].
      destruct (kdec (k, root k) (k, root k)) as [_|C]; [|congruence]. destruct red; try reflexivity. congruence. }
  destruct (IH _ M1 (fun j Hj => Hl j (or_intror Hj)) E3) as (M2 & F1 & F2). exists M2. split; [|exact F2]. exists M1. split; auto.
Qed.

(* the result is sent *)
Lemma bc_ok k : In k D -> isred k = true -> In (root k) (outs k) -> forall l W M, Wf W -> In (k, root k) W -> (forall t, In t l -> In t (outs k)) ->
  Inv W finv M -> exists M', effs rd gen bin sp (fresh (map (bc k) l)) M M' /\ Inv (rev (map (fun t => (k, t)) l) ++ W) finv M' /\ Wf (rev (map (fun t => (k, t)) l) ++ W).
Proof.
  intros Hk Hr Ho. induction l as [|t l IH]; intros W M HW Hin Hl I; [exists M; split; [intros p; reflexivity|split; [exact I|exact HW]]|].
  assert (Hto : In t (outs k)) by (apply Hl; left; auto).
  destruct (step_x W finv M (root k) (mt k (root k)) (to k (root k)) k t RO_None HW I Hk Hto (Ht k _ Hk Ho)) as (M1 & E1 & E2); [congruence|].
  cbn [comb] in E2. destruct (I (root k)) as [_ B]. rewrite (B k Hin) in E2.
  assert (E3 : Inv ((k, t) :: W) finv M1).
  { eapply inv_ext; [|exact E2]. intros e _. unfold updv. destruct (kdec e (k, t)) as [->|]; reflexivity. }
  destruct (IH ((k, t) :: W) M1) as (M2 & F1 & F2 & F3); [|right; auto|intros; apply Hl; right; auto|exact E3|].
  - apply wf_cons; auto. intros C. unfold isred in Hr. rewrite C in Hr. discriminate.
  - exists M2. cbn [map rev]. rewrite <- app_assoc. split; [exists M1; split; [exact E1|exact F1]|]. split; [exact F2|exact F3].
Qed.

Lemma root_in k : outs k <> [] -> In (root k) (outs k).
Proof. unfold root. destruct (outs k); [congruence|left; auto]. Qed.

Lemma red_ok k W M : Wf W -> Inv W finv M -> In k D -> isred k = true -> (forall p, ~ In (k, p) W) ->
  exists M' W', effs rd gen bin sp (fresh (redu k)) M M' /\ Inv W' finv M' /\ Wf W' /\ forall e, In e W' <-> In e W \/ (fst e = k /\ In (snd e) (outs k)).
Proof.
  intros HW I Hk Hr Hno. destruct (outs k) as [|r0 os] eqn:Eo.
  - destruct (ins k) as [|i0 is] eqn:Ei.
    + exists M, W. unfold redu, root. rewrite Ei, Eo. cbn. split; [intros p; reflexivity|]. split; auto. split; auto. intros e. tauto.
    + exfalso. apply (Hdst k Hk Hr); [rewrite Ei; discriminate|auto].
  - rewrite <- Eo in *. assert (Hne : outs k <> []) by (rewrite Eo; discriminate). assert (Ho := root_in k Hne). assert (Hi := Hsrc k Hk Hne). clear Eo r0 os.
    assert (H1 : ins k <> [root k]) by (intros C; unfold isred in Hr; rewrite C in Hr; discriminate).
    set (W1 := (k, root k) :: W). assert (HW1 : Wf W1) by (apply wf_cons; auto).
    assert (Hin : In (k, root k) W1) by (left; auto).
    assert (Hno1 : forall i, i <> root k -> ~ In (k, i) W1) by (intros i Hir' [C|C]; [congruence|apply (Hno i C)]).
    assert (ST : exists M1, effs rd gen bin sp (fresh ((if memb (root k) (ins k) then [UCopy (root k) (bx k) (mf k (root k)) (mt k (root k))] else []) ++
        rxs k (if memb (root k) (ins k) then red else RO_None) (others (root k) (ins k)))) M M1 /\ Inv W1 (updv finv (k, root k) (fin k)) M1).
    { unfold fin, first_me. fold (memb (root k) (ins k)). fold (others (root k) (ins k)). destruct (memb (root k) (ins k)) eqn:Em.
      - apply memb_in in Em. destruct (Hcopy k (root k) (M (root k)) Hk Em Ho) as (m1 & C1 & C2 & C3).
        rewrite (inv_read W finv M k (root k) HW I Hk Em (Hno _)) in C3.
        assert (I1 := inv_write W finv M k (root k) m1 _ HW I Hk Ho C2 C3).
        destruct (acc_ok W1 k HW1 Hk Hr Ho Hin Hno1 (others (root k) (ins k)) _ _ ltac:(intros i Hi'; unfold others in Hi'; apply filter_In in Hi'; split; [lia|tauto]) I1) as (M2 & E2 & I2).
        exists M2. split; [|exact I2]. cbn [app]. eexists. split.
        + exists m1. split; [exact C1|]. split; [apply upd_same|]. intros q Hq. apply upd_other; auto.
        + destruct (others (root k) (ins k)); exact E2.
      - assert (Eoth : others (root k) (ins k) = ins k).
        { unfold others. clear - Em. induction (ins k) as [|a l IH]; auto. cbn [filter]. unfold memb in Em. cbn [existsb] in Em. apply orb_false_elim in Em. destruct Em as [E1 E2]. rewrite E1. cbn [negb]. f_equal. apply IH. exact E2. }
        rewrite Eoth. destruct (ins k) as [|i l] eqn:Ei; [congruence|]. cbn [app rxs map]. rewrite <- Ei in Em.
        assert (Hii : In i (ins k)) by (rewrite Ei; left; auto).
        assert (Hall : forall j, In j (ins k) -> j <> root k) by (intros j Hj ->; apply memb_in in Hj; congruence).
        destruct (step_x W finv M i (mf k i) (fr k i) k (root k) RO_None HW I Hk Ho (Hf k i Hk Hii)) as (M1 & E1 & E2); [congruence|].
        cbn [comb] in E2. rewrite (inv_read W finv M k i HW I Hk Hii (Hno _)) in E2.
        destruct (acc_ok W1 k HW1 Hk Hr Ho Hin Hno1 l _ M1 ltac:(intros j Hj; assert (In j (ins k)) by (rewrite Ei; right; auto); split; auto) E2) as (M2 & E3 & I2).
        exists M2. split; [|exact I2]. exists M1. split; [exact E1|exact E3]. }
    destruct ST as (M1 & E1 & I1).
    assert (I2 : Inv W1 finv M1) by (eapply inv_ext; [|exact I1]; intros e _; unfold updv; destruct (kdec e (k, root k)) as [->|]; reflexivity).
    destruct (bc_ok k Hk Hr Ho (others (root k) (outs k)) W1 M1 HW1 Hin) as (M2 & E2 & I3 & HW2); [intros t Ht'; unfold others in Ht'; apply filter_In in Ht'; tauto|exact I2|].
    exists M2. eexists. split; [|split; [exact I3|split; [exact HW2|]]].
    + unfold redu. rewrite app_assoc, fresh_app. eapply effs_app; [exact E1|exact E2].
    + intros [k' p]. rewrite in_app_iff, <- in_rev, in_map_iff. unfold W1. cbn [In fst snd]. unfold others. split.
      * intros [(t & C & Ht')|[C|C]]; [injection C as <- <-; apply filter_In in Ht'; right; tauto|injection C as <- <-; right; auto|auto].
      * intros [C|[-> C]]; [auto|]. destruct (Z.eq_dec (root k) p) as [<-|Hp]; [auto|]. left. exists p. split; auto. apply filter_In. split; auto. lia.
Qed.

Lemma reds_ok L : forall W M, Wf W -> Inv W finv M -> NoDup L -> (forall k, In k L -> In k D /\ isred k = true /\ forall p, ~ In (k, p) W) ->
  exists M' W', effs rd gen bin sp (fresh (flat_map redu L)) M M' /\ Inv W' finv M' /\ Wf W' /\ forall e, In e W' <-> In e W \/ (In (fst e) L /\ In (snd e) (outs (fst e))).
Proof.
  induction L as [|k L IH]; intros W M HW I HN HL.
  - exists M, W. split; [intros p; reflexivity|]. split; auto. split; auto. intros e. cbn [In]. tauto.
  - destruct (HL k (or_introl eq_refl)) as (L1 & L2 & L3). inversion HN as [|? ? N1 N2]; subst.
    destruct (red_ok k W M HW I L1 L2 L3) as (M1 & W1 & E1 & I1 & HW1 & X1).
    destruct (IH W1 M1 HW1 I1 N2) as (M2 & W2 & E2 & I2 & HW2 & X2).
    { intros k' Hk'. destruct (HL k' (or_intror Hk')) as (Q1 & Q2 & Q3). split; auto. split; auto. intros p C. apply X1 in C. cbn [fst snd] in C. destruct C as [C|[C _]]; [apply (Q3 p C)|subst k'; auto]. }
    exists M2, W2. split; [cbn [flat_map]; rewrite fresh_app; eapply effs_app; eauto|]. split; auto. split; auto.
    intros e. rewrite X2, X1. cbn [In]. split.
    + intros [[C|[C1 C2]]|[C1 C2]]; auto. right. rewrite C1. split; auto.
    + intros [C|[[C1|C1] C2]]; auto. left. right. split; auto. rewrite C1. exact C2.
Qed.

(* messages *)
Lemma msgs_ok U : forall W M, Wf W -> Inv W finv M ->
  Forall (fun u => exists s t k, u = msg s t k /\ In k D /\ ins k = [s] /\ In t (outs k) /\ s <> t) U ->
  exists M' W', effs rd gen bin sp (fresh U) M M' /\ Inv W' finv M' /\ Wf W' /\ (forall e, In e W -> In e W') /\ forall s t k, In (msg s t k) U -> In (k, t) W'.
Proof.
  induction U as [|u U IH]; intros W M HW I HF.
  - exists M, W. split; [intros p; reflexivity|]. split; auto. split; auto. split; auto. intros s t k [].
  - inversion HF as [|? ? (s & t & k & Eu & Hk & Hi & Ho & Hst) HF']; subst.
    assert (Hsi : In s (ins k)) by (rewrite Hi; left; auto).
    destruct (step_x W finv M s (mf k s) (fr k s) k t RO_None HW I Hk Ho (Hf k s Hk Hsi)) as (M1 & E1 & E2); [congruence|].
    cbn [comb] in E2. rewrite (inv_read W finv M k s HW I Hk Hsi) in E2 by (intros C; destruct (HW k s C) as (_ & _ & C3); auto).
    assert (E3 : Inv ((k, t) :: W) finv M1).
    { eapply inv_ext; [|exact E2]. intros e _. unfold updv. destruct (kdec e (k, t)) as [->|]; [|reflexivity]. unfold finv, fin, first_me. cbn [fst]. rewrite Hi. cbn [existsb].
      destruct (s =? root k) eqn:Es; cbn [orb].
      - cbn [filter]. rewrite Es. cbn [negb]. replace (root k) with s by lia. reflexivity.
      - reflexivity. }
    destruct (IH ((k, t) :: W) M1) as (M2 & W2 & F1 & F2 & F3 & F4 & F5); auto.
    { apply wf_cons; auto. rewrite Hi. congruence. }
    exists M2, W2. split; [exists M1; split; [exact E1|exact F1]|]. split; auto. split; auto. split; [intros e He; apply F4; right; auto|].
    intros s' t' k' [C|C]; [|eapply F5; eauto]. unfold msg, bx in C. injection C as C1 C2 C3 C4 C5 C6. apply F4. left. destruct k as [ka kb], k' as [ka' kb']. cbn in *. congruence.
Qed.

Lemma in_mu s t k : In k D -> forall u, In u (mu s t k) -> u = msg s t k /\ ins k = [s] /\ In t (outs k).
Proof.
  intros Hk u Hu. unfold mu in Hu. destruct (ins k) as [|i [|]]; try destruct Hu. destruct ((i =? s) && memb t (outs k)) eqn:E; [|destruct Hu].
  apply andb_prop in E. destruct E as [E1 E2]. apply memb_in in E2. destruct Hu as [<-|[]]. split; auto. split; auto. f_equal. lia.
Qed.

(* all together *)
Lemma all_ok : exists E W, effs rd gen bin sp (fresh allu) m E /\ Inv W finv E /\ forall k p, In (k, p) W <-> In k D /\ In p (outs k) /\ ins k <> [p].
Proof.
  assert (I0 : Inv [] finv m) by (intros p; split; [auto|intros k []]). assert (W0 : Wf []) by (intros k p []).
  destruct (reds_ok (filter isred D) [] m W0 I0) as (M1 & W1 & E1 & I1 & HW1 & X1).
  { apply NoDup_filter; auto. }
  { intros k Hk. apply filter_In in Hk. destruct Hk. split; auto. }
  set (U := flat_map (fun s => flat_map (fun t => flat_map (mu s t) D) (zrange (s + 1) N)) (zrange 0 N) ++ flat_map (fun s => flat_map (fun t => flat_map (mu s t) D) (zrange 0 s)) (zrange 0 N)).
  assert (HU : forall u, In u U <-> exists s t k, 0 <= s < N /\ 0 <= t < N /\ s <> t /\ In k D /\ In u (mu s t k)).
  { intros u. unfold U. rewrite in_app_iff, !in_flat_map. split.
    - intros [(s & Hs & H)|(s & Hs & H)]; apply in_flat_map in H; destruct H as (t & Ht' & H); apply in_flat_map in H; destruct H as (k & Hk & H); apply zrange_in in Hs, Ht'; exists s, t, k; repeat (split; [auto; lia|]); auto.
    - intros (s & t & k & Hs & Ht' & Hst & Hk & H). destruct (Z_lt_le_dec s t) as [C|C]; [left|right]; exists s; (split; [apply zrange_in; auto|]); apply in_flat_map; exists t; (split; [apply zrange_in; lia|]); apply in_flat_map; exists k; auto. }
  destruct (msgs_ok U W1 M1 HW1 I1) as (M2 & W2 & E2 & I2 & HW2 & X2 & X3).
  { apply Forall_forall. intros u Hu. apply HU in Hu. destruct Hu as (s & t & k & Hs & Ht' & Hst & Hk & Hu). destruct (in_mu s t k Hk u Hu) as (A & B & C). exists s, t, k. auto. }
  exists M2, W2. split; [unfold allu; rewrite fresh_app; eapply effs_app; [exact E1|exact E2]|]. split; [exact I2|].
  intros k p. split; [apply HW2|]. intros (Hk & Ho & Hi). destruct (isred k) eqn:Er.
  - apply X2, X1. right. cbn [fst snd]. split; auto. apply filter_In; auto.
  - unfold isred in Er. destruct (ins k) as [|s [|]] eqn:Ei; try discriminate. apply (X3 s p k). apply HU. exists s, p, k.
    assert (Hs : 0 <= s < N) by (apply (Hir k); auto; rewrite Ei; left; auto). assert (Hp := Hor k p Hk Ho).
    split; auto. split; auto. split; [congruence|]. split; auto. unfold mu. rewrite Ei, Z.eqb_refl. apply memb_in in Ho. rewrite Ho. left. reflexivity.
Qed.

Lemma all_uok : Forall (fun u => uok N (u, Fresh)) allu.
Proof.
  apply Forall_forall. intros u Hu. unfold allu in Hu. rewrite !in_app_iff, !in_flat_map in Hu.
  assert (Hroot : forall k, In k D -> ins k <> [] -> isred k = true -> In (root k) (outs k)) by (intros k Hk Hi Hr; apply root_in; apply Hdst; auto).
  destruct Hu as [(k & Hk & Hu)|[(s & Hs & Hu)|(s & Hs & Hu)]].
  - apply filter_In in Hk. destruct Hk as [Hk Hr]. unfold redu in Hu. rewrite !in_app_iff in Hu. destruct Hu as [Hu|[Hu|Hu]].
    + destruct (memb (root k) (ins k)) eqn:E; [|destruct Hu]. apply memb_in in E. destruct Hu as [<-|[]]. split; auto. apply (Hir k); auto.
    + assert (X : exists op i, u = rx k op i /\ In i (others (root k) (ins k))).
      { destruct (others (root k) (ins k)) as [|i l]; [destruct Hu|]. cbn [rxs] in Hu. destruct Hu as [<-|Hu]; [eexists; exists i; split; [reflexivity|left; auto]|]. apply in_map_iff in Hu. destruct Hu as (j & <- & Hj). exists red, j. split; [auto|right; auto]. }
      destruct X as (op & i & -> & Hi). unfold others in Hi. apply filter_In in Hi. destruct Hi as [Hi1 Hi2]. cbn. assert (ins k <> []) by (intros C; rewrite C in Hi1; destruct Hi1).
      split; [apply (Hir k); auto|]. split; [apply (Hor k); auto|lia].
    + apply in_map_iff in Hu. destruct Hu as (t & <- & Ht'). unfold others in Ht'. apply filter_In in Ht'. destruct Ht' as [T1 T2]. cbn.
      assert (outs k <> []) by (intros C; rewrite C in T1; destruct T1). split; [apply (Hor k); auto; apply root_in; auto|]. split; [apply (Hor k); auto|lia].
  - apply in_flat_map in Hu. destruct Hu as (t & Ht' & Hu). apply in_flat_map in Hu. destruct Hu as (k & Hk & Hu). apply zrange_in in Hs, Ht'. destruct (in_mu s t k Hk u Hu) as (-> & _ & _). cbn. lia.
  - apply in_flat_map in Hu. destruct Hu as (t & Ht' & Hu). apply in_flat_map in Hu. destruct Hu as (k & Hk & Hu). apply zrange_in in Hs, Ht'. destruct (in_mu s t k Hk u Hu) as (-> & _ & _). cbn. lia.
Qed.
End Seq.
