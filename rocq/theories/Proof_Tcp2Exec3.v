(* Transfer of a segment of a 1d container by the TCP2 backend. *)
From Coq Require Import ZArith List Bool Lia ZifyBool ZifyNat.
From Verif Require Import Base ListFacts Model_Space Model_RangeList Model_Mem Model_Layout Model_Partitioner Model_Transition Model_Data
  Model_Action Model_ActionTrans Model_ActionExec Model_ActionExec2 Model_Switch Model_KVS Model_SpaceStore Model_Tcp2 Model_Tcp2Exec.
From Verif Require Import Spec_Space Spec_Layout Spec_Data Spec_ActionTrans Spec_Reduce Spec_Switch Spec_Tcp2Exec.
From Verif Require Import Proof_Type Proof_Layout2 Proof_Comb3 Proof_Reduce1 Proof_Reduce3 Proof_Switch7 Proof_Switch9 Proof_Tcp3 Prop_Tcp2 Proof_Tcp2Exec1.
Import ListNotations.
Open Scope Z_scope.

(* the map [lm] has the indexes [lo,hi) at address A *)
Record SegOk (sp : space) (es : Z) (lm : lmap) (lo hi A : Z) : Prop := {
  so_es : lm_es lm = es;
  so_start : lm_start lm <> 0;
  so_good : exists B n, GoodMap sp lm B n /\ SubBox (sp_dims sp) (box1 lo hi) B;
  so_addr : forall z, lo <= z < hi -> AddrOf lm (mkIdx z 0 0) (A + (z - lo) * es) }.

Section Seg.
Variable T : dtype.
Variable gen : bool.
Variable bin : Z -> Z -> bool.
Variable sp : space.
Variable es : Z.
Hypothesis Hd : sp_dims sp = 1%nat.
Hypothesis Hes : 0 < es.
Hypothesis Hfit : FitsTcp bin es.
Let rd : redop -> list Z -> list Z -> outcome (list Z) := fun o a b => Ok (dt_red T o 1 a b).

Lemma vd : valid_dims (sp_dims sp). Proof. rewrite Hd. left. auto. Qed.
Lemma seg_ne lo hi : lo < hi -> NonEmpty (sp_dims sp) (box1 lo hi).
Proof. intros H. exists (mkIdx lo 0 0). rewrite Hd. split; cbn; [lia|]. split; intros; lia. Qed.
Lemma seg_vol lo hi : lo < hi -> vol (sp_dims sp) (box1 lo hi) = hi - lo.
Proof. intros H. rewrite Hd. unfold vol, w0. cbn. lia. Qed.
Lemma seg_count lo hi : lo < hi -> HasCount (sp_dims sp) (box1 lo hi) (hi - lo).
Proof. intros H. rewrite <- (seg_vol lo hi H). apply vol_count; [apply vd|apply seg_ne; auto]. Qed.
Lemma seg_size lo hi : lo < hi -> hi - lo < 2 ^ 31 -> box_size (sp_dims sp) (box1 lo hi) = Ok (hi - lo).
Proof. intros H H1. rewrite <- (seg_vol lo hi H). apply box_size_vol; [apply vd|apply seg_ne; auto|]. rewrite seg_vol by auto. change two64 with (2 ^ 31 * 2 ^ 33). lia. Qed.

(* the elements of a segment *)
Definition elems (m : mem) (A : Z) (w : nat) : list (list Z) := map (fun j => rdb m (A + Z.of_nat j * es) es) (seq 0 w).

Lemma elems_ok lm lo hi A m fuel : SegOk sp es lm lo hi A -> forall z, lo <= z < hi -> (Z.to_nat (hi - z) <= fuel)%nat ->
  elems_loop sp fuel (box1 lo hi) lm m (mkIdx z 0 0) = Ok (map (fun j => rdb m (A + (z - lo + Z.of_nat j) * es) es) (seq 0 (Z.to_nat (hi - z)))).
Proof.
  intros S. induction fuel as [|fuel IH]; intros z Hz Hf; [lia|]. cbn [elems_loop].
  destruct (so_addr _ _ _ _ _ _ S z Hz) as (o & E1 & E2). rewrite E1. cbn [obind]. rewrite <- E2.
  rewrite (so_es _ _ _ _ _ _ S). unfold next_lex. cbn [i0 i1 i2 b_to box1]. rewrite Hd.
  replace (Z.to_nat (hi - z)) with (Datatypes.S (Z.to_nat (hi - (z + 1)))) by lia. cbn [seq map].
  replace (z - lo + Z.of_nat 0) with (z - lo) by lia.
  destruct (z + 1 <? hi) eqn:E.
  - rewrite (IH (z + 1)) by lia. cbn [obind]. f_equal. f_equal. rewrite <- seq_shift, map_map. apply map_ext. intros j. do 2 f_equal. lia.
  - cbn [Nat.eqb]. replace (Z.to_nat (hi - (z + 1))) with 0%nat by lia. reflexivity.
Qed.

Lemma send_ok a q lm lo hi A m : SegOk sp es lm lo hi A -> 0 <= q -> lo < hi -> hi - lo < 2 ^ 31 ->
  tcp_send bin sp a q (box1 lo hi) lm m (hi - lo) es = Ok (elems m A (Z.to_nat (hi - lo))).
Proof.
  intros S Hq H1 H2. unfold tcp_send.
  assert (E : exists bytes, send_range (bin a q) q sp (box1 lo hi) lm m (hi - lo) es = Ok bytes).
  { destruct (so_good _ _ _ _ _ _ S) as (B & n & G1 & G2). pose proof (so_es _ _ _ _ _ _ S) as Ee. pose proof (so_start _ _ _ _ _ _ S) as Hs. pose proof (Hfit a q) as Hf.
    rewrite <- Ee. rewrite <- Ee in Hf. destruct (bin a q).
    - apply (C52_binary_total q sp (box1 lo hi) (hi - lo) lm B n m); auto; [apply vd|apply seg_ne; auto|apply seg_count; auto].
    - apply (C52_text_total q sp (box1 lo hi) (hi - lo) lm B n m); auto; [apply vd|rewrite Hd; lia|apply seg_ne; auto|apply seg_count; auto]. }
  destruct E as (bytes & ->). cbn [obind]. rewrite seg_size by auto. cbn [obind]. cbn [b_from box1].
  rewrite (elems_ok lm lo hi A m _ S lo) by lia. unfold elems. f_equal. apply map_ext. intros j. do 2 f_equal. lia.
Qed.

Definition peer_at (lm : lmap) (lo hi : Z) (ro : redop) (j : Z) : rpeer := mkRp (hi - lo) j es (Some lm) sp (box1 lo hi) (mkIdx (lo + j) 0 0) ro.
Lemma recv_ok lm lo hi A ro : SegOk sp es lm lo hi A -> lo < hi -> hi - lo < 2 ^ 31 -> starts sp (box1 lo hi) lm ro (peer_at lm lo hi ro 0).
Proof.
  intros S H1 H2. unfold starts, recv_start. pose proof (so_start _ _ _ _ _ _ S) as Hs. replace (lm_start lm =? 0) with false by lia. cbn [negb cassert no_recv pr_count].
  change (0 =? 0) with true. cbn [cassert]. rewrite seg_size by auto. cbn [obind]. rewrite as_int_id by lia. replace (hi - lo >? 0) with true by lia. cbn [cassert].
  rewrite (so_es _ _ _ _ _ _ S). unfold peer_at. cbn [b_from box1]. rewrite Z.add_0_r. reflexivity.
Qed.

(* what becomes of an element *)
Definition comb (ro : redop) (c : Z) (old e : list Z) : list Z := match ro with RO_None => e | o => dt_red T o c old e end.

Lemma next1 lo hi z : next_lex 1 (box1 lo hi) (mkIdx z 0 0) = (z + 1 <? hi, mkIdx (z + 1) 0 0).
Proof. unfold next_lex. cbn [i0 i1 i2 b_to box1 Nat.eqb]. destruct (z + 1 <? hi); reflexivity. Qed.
Lemma cell_apart A j k y : j <> k -> A + j * es <= y < A + j * es + es -> A + k * es <= y < A + k * es + es -> False.
Proof. intros. assert (j < k \/ k < j) as [C|C] by lia; nia. Qed.

Lemma gets_ok lm lo hi A ro : SegOk sp es lm lo hi A -> (ro <> RO_None -> Sized T es ro 1) ->
  forall d j m, 0 <= j -> j + zlen d = hi - lo -> Forall (fun e => zlen e = es) d ->
  exists m', gets rd (peer_at lm lo hi ro j) m d = Ok (peer_at lm lo hi ro (hi - lo), m') /\
    (forall y, ~ region (A + j * es) ((hi - lo - j) * es) y -> m' y = m y) /\
    forall k e, nth_error d k = Some e -> rdb m' (A + (j + Z.of_nat k) * es) es = comb ro 1 (rdb m (A + (j + Z.of_nat k) * es) es) e.
Proof.
  intros S HS. induction d as [|e d IH]; intros j m Hj Hl HF.
  - cbn [gets]. exists m. assert (E : j = hi - lo) by (unfold zlen in Hl; cbn in Hl; lia). rewrite E. split; auto. split; auto. intros [|k] e He; discriminate.
  - unfold zlen in Hl. cbn [length] in Hl. apply Forall_cons_iff in HF; destruct HF as [He HF'].
    cbn [gets]. unfold tcp_get, put_elem. change (peer_at lm lo hi ro j) with (mkRp (hi - lo) j es (Some lm) sp (box1 lo hi) (mkIdx (lo + j) 0 0) ro). cbn [pr_map pr_idx pr_es pr_ro pr_space pr_range pr_count pr_off].
    destruct (so_addr _ _ _ _ _ _ S (lo + j)) as (o & E1 & E2); [lia|]. rewrite E1. cbn [obind]. rewrite (so_es _ _ _ _ _ _ S) in E2. rewrite <- E2. replace (lo + j - lo) with j by lia.
    match goal with |- context [obind ?X _] => match X with context [obind ?Y _] => match Y with match ro with _ => _ end => assert (EV : Y = Ok (comb ro 1 (rdb m (A + j * es) es) e)) by (destruct ro; reflexivity) end end end.
    rewrite EV. clear EV. cbn [obind]. remember (comb ro 1 (rdb m (A + j * es) es) e) as v eqn:Ev.
    assert (Hv : zlen v = es).
    { assert (HL := rdb_len m (A + j * es) es ltac:(lia)). rewrite Ev. destruct ro; cbn [comb]; auto;
        (destruct HS as [_ HS2]; [discriminate|]; unfold zlen in *; rewrite HS2; lia). }
    rewrite Hd, next1. replace (lo + j + 1) with (lo + (j + 1)) by lia.
    cbn [obind fst snd pr_off pr_count].
    replace (Bool.eqb (lo + (j + 1) <? hi) (j + 1 <? hi - lo)) with true by (symmetry; apply eqb_true_iff; lia). cbn [cassert obind fst snd].
    change (mkRp (hi - lo) (j + 1) es (Some lm) sp (box1 lo hi) (mkIdx (lo + (j + 1)) 0 0) ro) with (peer_at lm lo hi ro (j + 1)).
    set (m1 := mwrite m (A + j * es) v).
    destruct (IH (j + 1) m1) as (m' & G1 & G2 & G3); [lia|unfold zlen; lia|auto|].
    exists m'. split; [exact G1|]. split.
    + intros y Hy. assert (Hd0 : 0 <= Z.of_nat (length d)) by lia. rewrite G2.
      * unfold m1. apply mwrite_out. unfold zlen in Hv. unfold region in Hy. clear - Hy Hv Hes Hl Hj. nia.
      * unfold region in *. clear - Hy Hes Hj. nia.
    + intros [|k] e' Hk.
      * cbn in Hk. injection Hk as <-. change (Z.of_nat 0) with 0. rewrite Z.add_0_r.
        assert (E : rdb m' (A + j * es) es = rdb m1 (A + j * es) es).
        { apply rdb_ext. intros y Hy. apply G2. intros Hy'. unfold region in *. clear - Hy Hy'. nia. }
        rewrite E. unfold m1, rdb, bytes. rewrite mread_mwrite_same; [|unfold zlen in Hv; lia]. exact Ev.
      * cbn [nth_error] in Hk. assert (Hk' : (k < length d)%nat) by (apply nth_error_Some; congruence).
        replace (j + Z.of_nat (Datatypes.S k)) with (j + 1 + Z.of_nat k) by lia. rewrite (G3 k e' Hk). f_equal.
        apply rdb_ext. intros y Hy. unfold m1. apply mwrite_out. unfold zlen in Hv. unfold region in Hy. clear - Hy Hv Hes. nia.
Qed.

Lemma elements_ext c v w : Z.of_nat (length v) = c * es -> Z.of_nat (length w) = c * es -> (forall j, 0 <= j < c -> element es j v = element es j w) -> v = w.
Proof.
  intros L1 L2 H. apply nth_ext with (d := 0) (d' := 0); [lia|]. intros i Hi.
  set (j := Z.of_nat i / es). assert (Hj : 0 <= j < c).
  { unfold j. split; [apply Z.div_pos; lia|]. apply Z.div_lt_upper_bound; [lia|]. nia. }
  pose proof (Z.div_mod (Z.of_nat i) es ltac:(lia)) as DM. pose proof (Z.mod_pos_bound (Z.of_nat i) es ltac:(lia)) as MB. fold j in DM. set (r := Z.of_nat i mod es) in *. clearbody j r.
  specialize (H j Hj). apply (f_equal (fun l => nth (Z.to_nat r) l 0)) in H. unfold element in H. rewrite !nth_firstn' in H by lia. rewrite !nth_skipn' in H.
  replace (Z.to_nat (j * es) + Z.to_nat r)%nat with i in H by nia. exact H.
Qed.

Lemma xfer_eff a ma q mq lo hi A B ro M : SegOk sp es ma lo hi A -> SegOk sp es mq lo hi B -> 0 <= q -> lo < hi -> hi - lo < 2 ^ 31 ->
  (ro <> RO_None -> Elementwise T es ro) ->
  exists m', ueff rd gen bin sp (UXfer a ma (box1 lo hi) q mq ro, Fresh) M (upd M q m') /\
    (forall y, ~ region B ((hi - lo) * es) y -> m' y = M q y) /\
    rdb m' B ((hi - lo) * es) = comb ro (hi - lo) (rdb (M q) B ((hi - lo) * es)) (rdb (M a) A ((hi - lo) * es)).
Proof.
  intros Sa Sq Hq H1 H2 HT. set (w := Z.to_nat (hi - lo)).
  assert (Ld : zlen (elems (M a) A w) = hi - lo) by (unfold zlen, elems; rewrite map_length, seq_length; lia).
  assert (Fd : Forall (fun e => zlen e = es) (elems (M a) A w)).
  { unfold elems. rewrite Forall_map. apply Forall_forall. intros j _. apply rdb_len. lia. }
  destruct (gets_ok mq lo hi B ro Sq (fun h => ew_size _ _ _ (HT h) 1 ltac:(lia)) (elems (M a) A w) 0 (M q) ltac:(lia) ltac:(lia) Fd) as (m' & G1 & G2 & G3).
  exists m'. split; [|split].
  - exists (peer_at mq lo hi ro 0), (elems (M a) A w), (peer_at mq lo hi ro (hi - lo)), m'. split.
    + split; [apply (recv_ok mq lo hi B); auto|]. unfold peer_at. cbn [pr_count pr_es]. apply send_ok; auto.
    + split; [exact G1|]. split; [unfold recv_done, peer_at; cbn; lia|]. split; [unfold peer_at; cbn [pr_count pr_off]; lia|]. split; [apply upd_same|intros; apply upd_other; auto].
  - intros y Hy. apply G2. replace (B + 0 * es) with B by lia. replace (hi - lo - 0) with (hi - lo) by lia. exact Hy.
  - assert (Hc : 0 <= (hi - lo) * es) by nia. apply (elements_ext (hi - lo)).
    + apply rdb_len; auto.
    + assert (L1 := rdb_len (M q) B _ Hc). assert (L2 := rdb_len (M a) A _ Hc). destruct ro; cbn [comb]; auto; apply (proj2 (ew_size _ _ _ (HT ltac:(discriminate)) (hi - lo) ltac:(lia))); auto.
    + intros j Hj. rewrite element_rdb by lia.
      assert (En : nth_error (elems (M a) A w) (Z.to_nat j) = Some (rdb (M a) (A + j * es) es)).
      { unfold elems. rewrite nth_error_map. rewrite (nth_error_nth' _ 0%nat) by (rewrite seq_length; lia). rewrite seq_nth by lia. cbn [option_map]. do 3 f_equal. lia. }
      specialize (G3 _ _ En). replace (0 + Z.of_nat (Z.to_nat j)) with j in G3 by lia. rewrite G3.
      assert (L1 := rdb_len (M q) B _ Hc). assert (L2 := rdb_len (M a) A _ Hc).
      assert (E : forall o, Elementwise T es o -> dt_red T o 1 (rdb (M q) (B + j * es) es) (rdb (M a) (A + j * es) es) = element es j (dt_red T o (hi - lo) (rdb (M q) B ((hi - lo) * es)) (rdb (M a) A ((hi - lo) * es)))).
      { intros o Ho. rewrite (ew_red _ _ _ Ho (hi - lo)) by (auto; lia). rewrite !element_rdb by lia. reflexivity. }
      destruct ro; cbn [comb]; try (apply E; apply HT; discriminate). rewrite element_rdb by lia. reflexivity.
Qed.
End Seg.
