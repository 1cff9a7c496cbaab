(* Transfer of a box of a container by the TCP2 backend. *)
From Coq Require Import ZArith List Bool Lia ZifyBool ZifyNat.
From Verif Require Import Base ListFacts Model_Space Model_RangeList Model_Mem Model_Layout Model_Partitioner Model_Transition Model_Data
  Model_Action Model_ActionTrans Model_ActionExec Model_ActionExec2 Model_Switch Model_KVS Model_SpaceStore Model_Tcp2 Model_Tcp2Exec.
From Verif Require Import Spec_Space Spec_Layout Spec_Data Spec_ActionTrans Spec_Reduce Spec_Switch Spec_Tcp2Exec Spec_SwitchNd.
From Verif Require Import Proof_Type Proof_Layout Proof_Layout2 Proof_Layout4 Proof_Layout6 Proof_Comb3 Proof_Reduce1 Proof_Tcp3 Prop_Tcp2 Proof_Tcp2Exec1 Proof_Reduce3.
Import ListNotations.
Open Scope Z_scope.

(* address of index [i] in a map *)
Definition ad (lm : lmap) (i : index) : Z := match offset_lex (lm_layout lm) (lm_sec lm) i with Ok o => lm_start lm + o * lm_es lm | _ => 0 end.
Definition cell (es : Z) (lm : lmap) (i : index) (y : Z) : Prop := ad lm i <= y < ad lm i + es.

(* the indexes of box [b] are in the map *)
Record View (sp : space) (es : Z) (lm : lmap) (b : box) : Prop := {
  vw_es : lm_es lm = es;
  vw_start : lm_start lm <> 0;
  vw_good : exists B n, GoodMap sp lm B n /\ SubBox (sp_dims sp) b B }.

(* box [b] of map [f] in memory [m] was moved to map [t] in memory [mt], giving [mt'] *)
Definition Moved (d : nat) (es : Z) (b : box) (f t : lmap) (m mt mt' : mem) : Prop :=
  (forall i, InBox d i b -> rdb mt' (ad t i) es = rdb m (ad f i) es) /\
  (forall y, (forall i, InBox d i b -> ~ cell es t i y) -> mt' y = mt y).

Section Idx.
Variable d : nat.
Hypothesis Hd : valid_dims d.
Lemma in_can b i : InBox d (can d i) b <-> InBox d i b.
Proof. unfold InBox, can. destruct Hd as [H|[H|H]]; rewrite H; cbn; lia. Qed.
Lemma in_same b i j : SameIndex d i j -> InBox d i b -> InBox d j b.
Proof. unfold InBox, SameIndex. destruct Hd as [H|[H|H]]; rewrite H; cbn; lia. Qed.
Lemma can_same i j : SameIndex d i j -> can d i = can d j.
Proof. unfold SameIndex, can. intros (E0 & E1 & E2). f_equal; auto; [destruct (Nat.ltb 1 d) eqn:X; auto; apply E1; lia|destruct (Nat.ltb 2 d) eqn:X; auto; apply E2; lia]. Qed.
Lemma same_can i : SameIndex d (can d i) i.
Proof. unfold SameIndex, can. destruct Hd as [H|[H|H]]; rewrite H; cbn; lia. Qed.
Lemma same_sym i j : SameIndex d i j -> SameIndex d j i.
Proof. intros (E0 & E1 & E2). split; [auto|]. split; intros; symmetry; auto. Qed.
End Idx.

Section Nd.
Variable rd : redop -> list Z -> list Z -> outcome (list Z).
Variable gen : bool.
Variable bin : Z -> Z -> bool.
Variable sp : space.
Variable es : Z.
Let d := sp_dims sp.
Hypothesis Hd : valid_dims d.
Hypothesis Hes : 0 < es.

Lemma view_adr lm b : View sp es lm b -> exists B n, GoodMap sp lm B n /\ SubBox d b B /\ forall i, InBox d i b ->
  offset_lex (lm_layout lm) (lm_sec lm) i = Ok (boff d B i) /\ ad lm i = adr d lm B i.
Proof.
  intros [V1 V2 (B & n & G & S)]. exists B, n. split; [exact G|]. split; [exact S|]. intros i Hi.
  destruct G as (G1 & G2 & _). pose proof (offset_ok sp _ _ B i Hd G1 G2 (S i Hi)) as E. split; [exact E|].
  unfold ad. rewrite E. reflexivity.
Qed.
Lemma ad_same lm b i j : View sp es lm b -> InBox d i b -> SameIndex d i j -> ad lm i = ad lm j.
Proof.
  intros V Hi Hs. destruct (view_adr lm b V) as (B & n & G & S & E). destruct (E i Hi) as [_ E1]. destruct (E j (in_same d Hd _ _ _ Hs Hi)) as [_ E2].
  rewrite E1, E2. unfold adr. rewrite <- (boff_can d B i), <- (boff_can d B j), (can_same d i j Hs). reflexivity.
Qed.
Lemma ad_can lm b i : View sp es lm b -> InBox d i b -> ad lm (can d i) = ad lm i.
Proof. intros V Hi. apply (ad_same lm b); [exact V|apply in_can; auto|apply same_can; auto]. Qed.
Lemma ad_away lm b i j : View sp es lm b -> InBox d i b -> InBox d j b -> ~ SameIndex d i j -> Away (ad lm i) es (ad lm j) es.
Proof.
  intros V Hi Hj Hn. destruct (view_adr lm b V) as (B & n & G & S & E). destruct (E i Hi) as [_ E1]. destruct (E j Hj) as [_ E2]. rewrite E1, E2.
  rewrite <- (vw_es _ _ _ _ V). apply (adr_away sp lm B n Hd G i j); auto.
Qed.

Lemma elems_nd lm b m fuel : View sp es lm b -> forall i, InBox d i b -> (length (lexfrom d b i) <= fuel)%nat ->
  elems_loop sp fuel b lm m i = Ok (map (fun j => rdb m (ad lm j) es) (lexfrom d b i)).
Proof.
  intros V. induction fuel as [|fuel IH]; intros i Hi Hf; rewrite (lexfrom_step d b i Hd Hi) in *; [cbn in Hf; lia|].
  cbn [elems_loop]. destruct (view_adr lm b V) as (B & n & G & S & E). destruct (E i Hi) as [E1 E2]. rewrite E1. cbn [obind]. fold d.
  assert (EA : lm_start lm + boff d B i * lm_es lm = ad lm i) by (rewrite E2; reflexivity). rewrite EA. rewrite (vw_es _ _ _ _ V). cbn [map]. rewrite (ad_can lm b i V Hi).
  destruct (next_lex d b i) as [[] j] eqn:En.
  - assert (Hj := next_lex_in d b i j Hd Hi En). cbn [length] in Hf. rewrite (IH j Hj) by lia. reflexivity.
  - reflexivity.
Qed.

Hypothesis Hfit : FitsNd sp bin es.
Lemma ne_from b : NonEmpty d b -> InBox d (b_from b) b.
Proof. intros [k Hk]. unfold InBox in *. lia. Qed.

Lemma send_nd a q lm b m : View sp es lm b -> 0 <= q -> NonEmpty d b -> vol d b < 2 ^ 31 ->
  tcp_send bin sp a q b lm m (vol d b) es = Ok (map (fun j => rdb m (ad lm j) es) (lexlist d b)).
Proof.
  intros V Hq Hn Hv. unfold tcp_send. pose proof (vol_count d b Hd Hn) as HC.
  assert (E : exists bytes, send_range (bin a q) q sp b lm m (vol d b) es = Ok bytes).
  { destruct V as [V1 V2 (B & n & G1 & G2)]. pose proof (Hfit a q) as Hf. rewrite <- V1. rewrite <- V1 in Hf. destruct (bin a q).
    - apply (C52_binary_total q sp b (vol d b) lm B n m); auto.
    - destruct Hf as [Hf Hf2]. apply (C52_text_total q sp b (vol d b) lm B n m); auto. rewrite Hf2. lia. }
  destruct E as (bytes & ->). cbn [obind]. pose proof (L_len sp b Hd Hn) as HL. fold d in HL. fold d. rewrite (box_size_vol d b Hd Hn) by (change two64 with (2 ^ 31 * 2 ^ 33); lia). cbn [obind].
  rewrite (elems_nd lm b m _ V (b_from b) (ne_from b Hn)) by (unfold zlen, lexlist in HL; lia). reflexivity.
Qed.

Definition peerN (lm : lmap) (b : box) (k : Z) (i : index) : rpeer := mkRp (vol d b) k es (Some lm) sp b i RO_None.
Lemma recv_nd lm b : View sp es lm b -> NonEmpty d b -> vol d b < 2 ^ 31 -> starts sp b lm RO_None (peerN lm b 0 (b_from b)).
Proof.
  intros V Hn Hv. unfold starts, recv_start. pose proof (vw_start _ _ _ _ V) as Hs. replace (lm_start lm =? 0) with false by lia. cbn [negb cassert no_recv pr_count].
  change (0 =? 0) with true. cbn [cassert]. fold d. rewrite (box_size_vol d b Hd Hn) by (change two64 with (2 ^ 31 * 2 ^ 33); lia). cbn [obind].
  pose proof (L_len sp b Hd Hn) as HL. fold d in HL. assert (0 < vol d b).
  { rewrite <- HL. unfold zlen, lexlist. rewrite (lexfrom_step d b _ Hd (ne_from b Hn)). cbn [length]. lia. }
  rewrite as_int_id by lia. replace (vol d b >? 0) with true by lia. cbn [cassert]. rewrite (vw_es _ _ _ _ V). reflexivity.
Qed.

Lemma gets_nd lm b (v : index -> list Z) : View sp es lm b -> (forall j, zlen (v j) = es) ->
  forall n i k m, InBox d i b -> (length (lexfrom d b i) <= n)%nat -> k + zlen (lexfrom d b i) = vol d b ->
  exists r' m', gets rd (peerN lm b k i) m (map v (lexfrom d b i)) = Ok (r', m') /\ pr_count r' = vol d b /\ pr_off r' = vol d b /\
    (forall j, In j (lexfrom d b i) -> rdb m' (ad lm j) es = v j) /\
    (forall y, (forall j, In j (lexfrom d b i) -> ~ cell es lm j y) -> m' y = m y).
Proof.
  intros V Hv. induction n as [|n IH]; intros i k m Hi Hf Hk; rewrite (lexfrom_step d b i Hd Hi) in *; [cbn in Hf; lia|].
  destruct (view_adr lm b V) as (B & nn & G & S & E). destruct (E i Hi) as [E1 E2]. clear G S.
  cbn [map gets]. unfold tcp_get, put_elem, peerN. cbn [pr_map pr_idx pr_es pr_ro pr_space pr_range pr_count pr_off]. rewrite E1. cbn [obind]. fold d.
  assert (EA : lm_start lm + boff d B i * es = ad lm i) by (rewrite E2; unfold adr; rewrite (vw_es _ _ _ _ V); reflexivity). rewrite EA.
  set (m1 := mwrite m (ad lm i) (v (can d i))). pose proof (Hv (can d i)) as Hc.
  assert (Hci := ad_can lm b i V Hi).
  assert (W1 : rdb m1 (ad lm i) es = v (can d i)) by (unfold m1, rdb, bytes; rewrite mread_mwrite_same; auto; unfold zlen in Hc; lia).
  assert (W2 : forall y, ~ cell es lm i y -> m1 y = m y).
  { intros y Hy. unfold m1. apply mwrite_out. unfold cell, zlen in *. lia. }
  destruct (next_lex d b i) as [more j] eqn:En. destruct more.
  - assert (Hj := next_lex_in d b i j Hd Hi En). unfold zlen in Hk. cbn [length] in Hf, Hk.
    assert (L1 : (0 < length (lexfrom d b j))%nat) by (rewrite (lexfrom_step d b j Hd Hj); cbn; lia).
    cbn [obind fst snd pr_off pr_count]. replace (k + 1 <? vol d b) with true by lia. cbn [Bool.eqb cassert obind fst snd].
    destruct (IH j (k + 1) m1 Hj) as (r' & m' & I1 & I2 & I3 & I4 & I5); [lia|unfold zlen; lia|].
    exists r', m'. split; [exact I1|]. split; [exact I2|]. split; [exact I3|].
    assert (AP : forall c, In c (lexfrom d b j) -> Away (ad lm i) es (ad lm c) es).
    { intros c Hcj. apply (lexfrom_In d b j c Hd Hj) in Hcj. destruct Hcj as (C1 & C2 & C3). apply (ad_away lm b i c V Hi C1). intros Hs.
      apply C3. pose proof (next_lex_lt d b i j Hd Hi En) as LT. unfold LexLt, SameIndex in *. destruct Hd as [HH|[HH|HH]]; rewrite HH in *; lia. }
    split.
    + intros c [<-|Hc2].
      * rewrite Hci, <- W1. apply rdb_ext. intros y Hy. apply I5. intros c Hc2 Hy2. specialize (AP c Hc2). unfold Away, cell, region in *. lia.
      * apply I4; auto.
    + intros y Hy. rewrite I5 by (intros c Hc2; apply Hy; right; auto). apply W2. intros Hy2. apply (Hy (can d i)); [left; auto|]. unfold cell in *. rewrite Hci. exact Hy2.
  - unfold zlen in Hk. cbn [length] in Hk. cbn [obind fst snd pr_off pr_count]. replace (k + 1 <? vol d b) with false by lia. cbn [Bool.eqb cassert obind fst snd map gets].
    eexists _, m1. split; [reflexivity|]. cbn [pr_count pr_off]. split; [auto|]. split; [lia|]. split.
    + intros c [<-|[]]. rewrite Hci. exact W1.
    + intros y Hy. apply W2. intros Hy2. apply (Hy (can d i)); [left; auto|]. unfold cell in *. rewrite Hci. exact Hy2.
Qed.

(* a message *)
Lemma xfer_nd a ma q mq b M : View sp es ma b -> View sp es mq b -> 0 <= q -> NonEmpty d b -> vol d b < 2 ^ 31 ->
  exists m', ueff rd gen bin sp (UXfer a ma b q mq RO_None, Fresh) M (upd M q m') /\ Moved d es b ma mq (M a) (M q) m'.
Proof.
  intros Va Vq Hq Hn Hv. assert (Hf := ne_from b Hn). pose proof (L_len sp b Hd Hn) as HL. fold d in HL.
  destruct (gets_nd mq b (fun j => rdb (M a) (ad ma j) es) Vq ltac:(intros; apply rdb_len; lia) (length (lexlist d b)) (b_from b) 0 (M q) Hf (le_n _) HL) as (r' & m' & G1 & G2 & G3 & G4 & G5).
  exists m'. split.
  - exists (peerN mq b 0 (b_from b)), (map (fun j => rdb (M a) (ad ma j) es) (lexlist d b)), r', m'. split.
    + split; [apply recv_nd; auto|]. unfold peerN. cbn [pr_count pr_es]. apply send_nd; auto.
    + split; [exact G1|]. split; [unfold recv_done; lia|]. split; [unfold peerN, zlen; cbn [pr_count pr_off]; rewrite map_length; unfold zlen in HL; lia|]. split; [apply upd_same|intros; apply upd_other; auto].
  - assert (EN : forall j, In j (lexlist d b) <-> InBox d j b /\ canon d j) by apply (proj1 (lexlist_enum d b Hd Hn)).
    assert (CC : forall i, InBox d i b -> In (can d i) (lexlist d b)).
    { intros i Hi. apply EN. split; [apply in_can; auto|]. unfold canon, can. destruct Hd as [H|[H|H]]; rewrite H; cbn; lia. }
    split.
    + intros i Hi. specialize (G4 _ (CC i Hi)). cbv beta in G4. rewrite (ad_can mq b i Vq Hi), (ad_can ma b i Va Hi) in G4. exact G4.
    + intros y Hy. apply G5. intros j Hj. apply EN in Hj. apply Hy. tauto.
Qed.
End Nd.
