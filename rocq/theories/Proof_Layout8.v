(* Copying between mappings *)
From Coq Require Import ZArith List Bool Lia Sorted Permutation ZifyBool ZifyNat.
From Verif Require Import Base Model_Space Model_RangeList Model_Mem Model_Layout Spec_Space Spec_Type Spec_Layout
  Proof_Space Proof_Type Proof_Type2 Proof_RangeList5 Proof_Layout Proof_Layout2 Proof_Layout3 Proof_Layout4 Proof_Layout5 Proof_Layout6 Proof_Layout7.
Import ListNotations.
Open Scope Z_scope.

(* a sequence of memcpy's *)
Definition cpl {X} (src dst : X -> Z) (len : Z) (l : list X) (m : mem) : outcome mem :=
  ofold (fun m x => memcpy m (dst x) (src x) len) l m.

Lemma cpl_ok {X} (src dst : X -> Z) len l : 0 <= len ->
  (forall x y, In x l -> In y l -> Away (dst x) len (src y) len) ->
  ForallOrdPairs (fun x y => Away (dst x) len (dst y) len) l ->
  forall m, exists m', cpl src dst len l m = Ok m' /\
    (forall a, (forall x, In x l -> a < dst x \/ dst x + len <= a) -> m' a = m a) /\
    (forall x k, In x l -> 0 <= k < len -> m' (dst x + k) = m (src x + k)).
Proof.
  intros Hl. induction l as [|x l IH]; intros Ha Hp m.
  - exists m. conjs; auto. intros x k [].
  - inversion Hp as [|? ? P1 P2]; subst. rewrite Forall_forall in P1.
    destruct (memcpy_ok m (dst x) (src x) len Hl (Ha x x (or_introl eq_refl) (or_introl eq_refl))) as [m1 [E1 [C1 R1]]].
    destruct (IH ltac:(intros; apply Ha; now right) P2 m1) as [m2 [E2 [C2 R2]]].
    exists m2. unfold cpl. simpl. rewrite E1. simpl. conjs; auto.
    + intros a H. rewrite C2 by (intros; apply H; now right). apply C1. destruct (H x (or_introl eq_refl)); lia.
    + intros y k [<-|Hy] Hk.
      * rewrite C2. now apply R1. intros y Hy. assert (G := P1 y Hy). unfold Away in G. lia.
      * rewrite R2 by auto. apply C1. assert (G := Ha x y (or_introl eq_refl) (or_intror Hy)). unfold Away in G. lia.
Qed.

Lemma copy_rows_cpl {X} (src dst : X -> Z) len fs ts (f : Z -> X) n : forall m y,
  (forall y', y <= y' < y + Z.of_nat n -> src (f y') = src (f y) + (y' - y) * fs /\ dst (f y') = dst (f y) + (y' - y) * ts) ->
  copy_rows n len fs ts m (src (f y)) (dst (f y)) = cpl src dst len (map f (zseq y n)) m.
Proof.
  induction n; intros m y H; auto.
  simpl. unfold cpl. simpl. destruct (memcpy m (dst (f y)) (src (f y)) len) as [m1| | | |]; simpl; auto.
  destruct n; [reflexivity|].
  destruct (H (y + 1) ltac:(lia)) as [H1 H2].
  replace (src (f y) + fs) with (src (f (y + 1))) by (rewrite H1; ring).
  replace (dst (f y) + ts) with (dst (f (y + 1))) by (rewrite H2; ring).
  apply IHn. intros y' Hy. destruct (H y' ltac:(lia)) as [K1 K2]. rewrite K1, K2, H1, H2. split; ring.
Qed.

Lemma copy_planes_cpl {X} (src dst : X -> Z) len fs1 ts1 fs2 ts2 (f : Z -> Z -> X) n1 n2 y : (0 < n1)%nat -> forall m z,
  (forall y' z', y <= y' < y + Z.of_nat n1 -> z <= z' < z + Z.of_nat n2 ->
     src (f y' z') = src (f y z) + (y' - y) * fs1 + (z' - z) * fs2 /\ dst (f y' z') = dst (f y z) + (y' - y) * ts1 + (z' - z) * ts2) ->
  copy_planes n2 n1 len fs1 ts1 fs2 ts2 m (src (f y z)) (dst (f y z)) =
    cpl src dst len (flat_map (fun z => map (fun y => f y z) (zseq y n1)) (zseq z n2)) m.
Proof.
  intros Hn1. induction n2; intros m z H; auto.
  simpl. unfold cpl. rewrite ofold_app. fold (cpl src dst len (map (fun y0 => f y0 z) (zseq y n1)) m).
  rewrite <- (copy_rows_cpl src dst len fs1 ts1 (fun y => f y z) n1 m y).
  2:{ intros y' Hy. destruct (H y' z Hy ltac:(lia)) as [H1 H2]. rewrite H1, H2. split; ring. }
  destruct (copy_rows n1 len fs1 ts1 m (src (f y z)) (dst (f y z))) as [m1| | | |]; simpl; auto.
  destruct n2; [reflexivity|].
  destruct (H y (z + 1) ltac:(lia) ltac:(lia)) as [H1 H2].
  replace (src (f y z) + fs2) with (src (f y (z + 1))) by (rewrite H1; ring).
  replace (dst (f y z) + ts2) with (dst (f y (z + 1))) by (rewrite H2; ring).
  apply IHn2. intros y' z' Hy Hz. destruct (H y' z' Hy ltac:(lia)) as [K1 K2]. rewrite K1, K2, H1, H2. split; ring.
Qed.

Section Copy.
Variables (sp : space) (fo to_ : lmap) (BF BT : box) (NF NT : Z) (b : box).
Local Notation d := (sp_dims sp).
Local Notation es := (lm_es fo).
Hypothesis Hd : valid_dims d.
Hypothesis HGF : GoodMap sp fo BF NF.
Hypothesis HGT : GoodMap sp to_ BT NT.
Hypothesis Hes : lm_es to_ = lm_es fo.
Hypothesis Hne : NonEmpty d b.
Hypothesis HSF : SubBox d b BF.
Hypothesis HST : SubBox d b BT.
Hypothesis Haw : Away (lm_start fo) (NF * es) (lm_start to_) (NT * es).

Local Notation src := (adr d fo BF).
Local Notation dst := (adr d to_ BT).

Lemma es_pos' : 0 < es. Proof. destruct HGF as (_ & _ & _ & H & _). exact H. Qed.
Lemma src_range i : InBox d i BF -> lm_start fo <= src i /\ src i + es <= lm_start fo + NF * es.
Proof.
  intros Hi. assert (R := boff_range d BF i Hd Hi). destruct HGF as (_ & _ & H & _).
  rewrite (vol_of_count d BF NF Hd ltac:(exists i; auto) H). unfold adr. assert (P := es_pos'). nia.
Qed.
Lemma dst_range i : InBox d i BT -> lm_start to_ <= dst i /\ dst i + es <= lm_start to_ + NT * es.
Proof.
  intros Hi. assert (R := boff_range d BT i Hd Hi). destruct HGT as (_ & _ & H & _).
  rewrite (vol_of_count d BT NT Hd ltac:(exists i; auto) H). unfold adr. rewrite Hes. assert (P := es_pos'). nia.
Qed.

(* what copying has to do, byte by byte *)
Definition CopySpec (m m' : mem) : Prop :=
  (forall i k, InBox d i b -> 0 <= k < es -> m' (dst i + k) = m (src i + k)) /\
  (forall a, (forall i, InBox d i b -> a < dst i \/ dst i + es <= a) -> m' a = m a).

Lemma CopySpec_unique m m1 m2 : CopySpec m m1 -> CopySpec m m2 -> forall a, m1 a = m2 a.
Proof.
  intros [A1 A2] [B1 B2] a.
  set (F := fun i => (dst i <=? a) && (a <? dst i + es)).
  destruct (existsb F (lexlist d b)) eqn:E.
  - apply existsb_exists in E. destruct E as [i [Hi E]]. unfold F in E.
    apply (proj1 (lexlist_enum d b Hd Hne)) in Hi. destruct Hi as [Hi _].
    replace a with (dst i + (a - dst i)) by lia. rewrite A1, B1; auto; lia.
  - assert (H : forall i, InBox d i b -> a < dst i \/ dst i + es <= a).
    { intros i Hi. assert (Hf : F (can d i) = false).
      { destruct (F (can d i)) eqn:E2; auto. assert (existsb F (lexlist d b) = true); [|congruence].
        apply existsb_exists. exists (can d i). split; auto. apply (proj1 (lexlist_enum d b Hd Hne)). split; [now apply InBox_can|apply can_canon]. }
      unfold F in Hf. unfold adr in *. rewrite boff_can in Hf. lia. }
    rewrite A2, B2; auto.
Qed.

Lemma copy_gen_loop_cpl fuel m i cnt : InBox d i b -> (length (lexfrom d b i) <= fuel)%nat ->
  copy_gen_loop fuel d b (gmap_of fo) (gmap_of to_) m i cnt =
  omap (fun m' => (m', cnt + Z.of_nat (length (lexfrom d b i)))) (cpl src dst es (lexfrom d b i) m).
Proof.
  revert m i cnt. induction fuel; intros m i cnt Hi Hf.
  - rewrite lexfrom_step in Hf by auto. simpl in Hf. lia.
  - rewrite (lexfrom_step d b i Hd Hi) in *. cbn [copy_gen_loop].
    destruct HGF as (F1 & F2 & _). destruct HGT as (T1 & T2 & _).
    simpl gm_off. rewrite (offset_ok sp _ _ BF i Hd F1 F2 (HSF i Hi)), (offset_ok sp _ _ BT i Hd T1 T2 (HST i Hi)).
    cbn [obind]. unfold cpl. cbn [ofold]. simpl gm_start. simpl gm_es.
    replace (dst (can d i)) with (lm_start to_ + boff d BT i * es) by (unfold adr; now rewrite boff_can, Hes).
    replace (src (can d i)) with (lm_start fo + boff d BF i * es) by (unfold adr; now rewrite boff_can).
    destruct (memcpy m (lm_start to_ + boff d BT i * es) (lm_start fo + boff d BF i * es) es) as [m1| | | |]; cbn [obind omap]; auto.
    destruct (next_lex d b i) as [[] j] eqn:E.
    + rewrite IHfuel; [|eapply next_lex_in; eauto|simpl in Hf; lia]. unfold cpl.
      destruct (ofold _ (lexfrom d b j) m1); cbn [omap obind]; auto. f_equal. f_equal. simpl. lia.
    + simpl. repeat f_equal; lia.
Qed.

Lemma b_in i : In i (lexlist d b) -> InBox d i b.
Proof. intros Hi. apply (proj1 (lexlist_enum d b Hd Hne)) in Hi. tauto. Qed.

Lemma copy_gen_ok m : vol d b < two64 -> r_space (lm_req fo) = Some sp ->
  exists m', copy_gen sp b (gmap_of fo) (gmap_of to_) m = Ok m' /\ CopySpec m m'.
Proof.
  intros Hv _. unfold copy_gen. simpl gm_es. rewrite Hes, Z.eqb_refl. cbn [cassert].
  rewrite box_size_vol by auto. cbn [obind].
  assert (Hf : InBox d (b_from b) b) by (destruct Hne as [x Hx]; unfold InBox in *; lia).
  assert (HL : Z.of_nat (length (lexlist d b)) = vol d b).
  { eapply Enumerates_count; [apply lexlist_enum; auto|apply vol_count; auto]. }
  rewrite copy_gen_loop_cpl; auto.
  2:{ fold (lexlist d b). lia. }
  fold (lexlist d b). assert (P := es_pos').
  destruct (cpl_ok src dst es (lexlist d b) ltac:(lia)) with (m := m) as [m' [E [C R]]].
  - intros x y Hx Hy. apply b_in in Hx. apply b_in in Hy.
    assert (S := src_range y (HSF y Hy)). assert (D := dst_range x (HST x Hx)). unfold Away in *. lia.
  - assert (G : forall l, (forall i, In i l -> In i (lexlist d b)) -> StronglySorted (LexLt d) l -> ForallOrdPairs (fun i j => Away (dst i) es (dst j) es) l).
    { intros l Hin Hs. induction Hs; constructor.
      - rewrite Forall_forall in *. intros j Hj.
        assert (Ha : InBox d a BT) by (apply HST, b_in, Hin; now left).
        assert (HjT : InBox d j BT) by (apply HST, b_in, Hin; now right).
        assert (G := boff_mono d BT a j Hd Ha HjT (H j Hj)). unfold Away, adr. rewrite Hes. nia.
      - apply IHHs. intros; apply Hin; now right. }
    apply G; auto. apply (lexlist_enum d b Hd Hne).
  - rewrite E. cbn [omap obind snd fst]. rewrite HL, Z.add_0_l, Z.eqb_refl. cbn [cassert].
    exists m'. split; auto. split.
    + intros i k Hi Hk. assert (Hin : In (can d i) (lexlist d b)).
      { apply (proj1 (lexlist_enum d b Hd Hne)). split; [now apply InBox_can|apply can_canon]. }
      assert (G := R (can d i) k Hin Hk). unfold adr in *. rewrite !boff_can in G. exact G.
    + intros a Ha. apply C. intros x Hx. apply Ha. now apply b_in.
Qed.

Hypothesis HEF : SameExtent d (lm_layout fo) BF.
Hypothesis HET : SameExtent d (lm_layout to_) BT.

Lemma copy_lex_ok m : exists m', copy_lex b fo to_ m = Ok m' /\ CopySpec m m'.
Proof.
  destruct (first_entry sp fo BF NF Hd HGF HEF) as [fe [F1 [_ [F3 [F4 _]]]]].
  destruct (first_entry sp to_ BT NT Hd HGT HET) as [te [T1 [_ [T3 [T4 _]]]]].
  unfold copy_lex. rewrite F1, T1. cbn [obind]. rewrite Hes, Z.eqb_refl. cbn [cassert].
  assert (HGF' := HGF). assert (HGT' := HGT).
  destruct HGF' as (G1 & G2 & _). destruct HGT' as (K1 & K2 & _).
  destruct (Built_wf sp _ Hd G1) as [W1 _]. destruct (Built_wf sp _ Hd K1) as [W2 _]. rewrite W1, W2, Nat.eqb_refl. cbn [cassert].
  assert (Hf : InBox d (b_from b) b) by (destruct Hne as [x Hx]; unfold InBox in *; lia).
  rewrite (offset_ok sp _ _ BF _ Hd G1 G2 (HSF _ Hf)), (offset_ok sp _ _ BT _ Hd K1 K2 (HST _ Hf)). cbn [obind].
  rewrite F3, F4, T3, T4.
  set (c0 := i0 (b_to b) - i0 (b_from b)).
  set (c1 := if Nat.ltb d 2 then 1 else i1 (b_to b) - i1 (b_from b)).
  set (c2 := if Nat.ltb d 3 then 1 else i2 (b_to b) - i2 (b_from b)).
  set (y0 := i1 (can d (b_from b))). set (z0 := i2 (can d (b_from b))).
  assert (P := es_pos').
  assert (Hc0 : 0 < c0) by (unfold c0, InBox in *; lia).
  assert (Hc1 : 0 < c1) by (unfold c1; destruct (Nat.ltb d 2) eqn:E; [lia|]; apply Nat.ltb_ge in E; unfold InBox in *; lia).
  assert (Hc2 : 0 < c2) by (unfold c2; destruct (Nat.ltb d 3) eqn:E; [lia|]; apply Nat.ltb_ge in E; unfold InBox in *; lia).
  destruct (negb (c0 * c1 * c2 =? 0)) eqn:Ec; [|exfalso; nia]. cbn [cassert].
  pose (f := fun y z => mkIdx (i0 (b_from b)) y z).
  (* rows of the box *)
  assert (Hrow : forall x y z, InBox d (mkIdx x y z) b /\ canon d (mkIdx x y z) <->
     (i0 (b_from b) <= x < i0 (b_from b) + c0 /\ y0 <= y < y0 + c1 /\ z0 <= z < z0 + c2)).
  { intros x y z. unfold InBox, canon, c0, c1, c2, y0, z0, can; simpl. destruct Hd as [D|[D|D]]; rewrite D; simpl; lia. }
  assert (Hlin : forall (mp : lmap) BB x y z,
     adr d mp BB (mkIdx x y z) = adr d mp BB (f y z) + (x - i0 (b_from b)) * lm_es mp).
  { intros mp BB x y z. unfold adr, boff, f; simpl. destruct (Nat.ltb 1 d), (Nat.ltb 2 d); ring. }
  assert (Estart : lm_start fo + boff d BF (b_from b) * es = src (f y0 z0)).
  { unfold f, y0, z0. rewrite <- (boff_can d BF (b_from b)). reflexivity. }
  assert (Estart2 : lm_start to_ + boff d BT (b_from b) * es = dst (f y0 z0)).
  { unfold f, y0, z0. rewrite <- (boff_can d BT (b_from b)). rewrite <- Hes. reflexivity. }
  rewrite Estart, Estart2.
  rewrite (copy_planes_cpl src dst (c0 * es) _ _ _ _ f (Z.to_nat c1) (Z.to_nat c2) y0 ltac:(lia) m z0).
  2:{ intros y' z' Hy Hz. unfold adr, boff, f; simpl. rewrite Hes.
      assert (D := Hd). destruct D as [D|[D|D]]; rewrite D; simpl; unfold c1, c2 in *; rewrite D in *; simpl in *; split; try ring.
      all: assert (y' = y0) by lia; assert (z' = z0) by lia; subst y' z'; ring. }
  set (l := flat_map (fun z => map (fun y => f y z) (zseq y0 (Z.to_nat c1))) (zseq z0 (Z.to_nat c2))).
  assert (Hl : forall i, In i l <-> i0 i = i0 (b_from b) /\ y0 <= i1 i < y0 + c1 /\ z0 <= i2 i < z0 + c2).
  { intros i. unfold l. rewrite in_flat_map. split.
    - intros [z [Hz Hi]]. apply in_map_iff in Hi. destruct Hi as [y [<- Hy]]. apply zseq_In in Hz. apply zseq_In in Hy. unfold f; simpl. lia.
    - intros [A1 [A2 A3]]. exists (i2 i). split; [apply zseq_In; lia|]. apply in_map_iff. exists (i1 i). split; [|apply zseq_In; lia].
      unfold f. rewrite <- A1. destruct i; reflexivity. }
  assert (Hlb : forall i x, In i l -> 0 <= x < c0 -> InBox d (mkIdx (i0 i + x) (i1 i) (i2 i)) b /\ canon d (mkIdx (i0 i + x) (i1 i) (i2 i))).
  { intros i x Hi Hx. apply Hl in Hi. apply Hrow. lia. }
  assert (Hend : forall (mp : lmap) BB i, In i l -> adr d mp BB (mkIdx (i0 i + (c0 - 1)) (i1 i) (i2 i)) = adr d mp BB i + (c0 - 1) * lm_es mp).
  { intros mp BB i Hi. unfold adr, boff; simpl. destruct (Nat.ltb 1 d), (Nat.ltb 2 d); ring. }
  destruct (cpl_ok src dst (c0 * es) l ltac:(nia)) with (m := m) as [m' [E [C R]]].
  - intros x y Hx Hy.
    assert (S1 := src_range _ (HSF _ (proj1 (Hlb y 0 Hy ltac:(lia))))).
    assert (S2 := src_range _ (HSF _ (proj1 (Hlb y (c0 - 1) Hy ltac:(lia))))). rewrite Hend in S2 by auto.
    assert (D1 := dst_range _ (HST _ (proj1 (Hlb x 0 Hx ltac:(lia))))).
    assert (D2 := dst_range _ (HST _ (proj1 (Hlb x (c0 - 1) Hx ltac:(lia))))). rewrite Hend in D2 by auto. rewrite Hes in D2.
    rewrite !Z.add_0_r in *. destruct x as [x0 x1 x2], y as [y0' y1' y2']. simpl in *.
    unfold Away in *. nia.
  - assert (G : ForallOrdPairs (fun x y => LexLt d (mkIdx (i0 x + (c0 - 1)) (i1 x) (i2 x)) y) l).
    { unfold l. clear - Hd Hc1 Hc2. assert (Q1 : forall z n y, (n <= 1)%nat \/ (1 < d)%nat ->
        ForallOrdPairs (fun x y => LexLt d (mkIdx (i0 x + (c0 - 1)) (i1 x) (i2 x)) y) (map (fun y => f y z) (zseq y n))).
      { intros z. induction n; intros y Hn; simpl; constructor.
        - apply Forall_forall. intros i Hi. apply in_map_iff in Hi. destruct Hi as [y' [<- Hy']]. apply zseq_In in Hy'.
          unfold LexLt, f; simpl. destruct Hn; [lia|]. destruct Hd as [D|[D|D]]; rewrite D in *; simpl; lia.
        - apply IHn. lia. }
      assert (Q2 : forall n z, (n <= 1)%nat \/ (2 < d)%nat ->
        ForallOrdPairs (fun x y => LexLt d (mkIdx (i0 x + (c0 - 1)) (i1 x) (i2 x)) y)
          (flat_map (fun z => map (fun y => f y z) (zseq y0 (Z.to_nat c1))) (zseq z n))).
      { assert (App : forall R (l1 l2 : list index), ForallOrdPairs R l1 -> ForallOrdPairs R l2 -> (forall x y, In x l1 -> In y l2 -> R x y) -> ForallOrdPairs R (l1 ++ l2)).
        { intros R l1 l2 H1 H2 H3. induction H1; simpl; auto. constructor.
          - apply Forall_app. split; auto. apply Forall_forall. intros y Hy. apply H3; auto. now left.
          - apply IHForallOrdPairs. intros; apply H3; auto. now right. }
        induction n; intros z Hn; simpl; [constructor|]. apply App.
        - apply Q1. unfold c1. destruct Hd as [D|[D|D]]; rewrite D; simpl; lia.
        - apply IHn. lia.
        - intros x y Hx Hy. apply in_map_iff in Hx. destruct Hx as [a [<- Ha]].
          apply in_flat_map in Hy. destruct Hy as [z' [Hz' Hy]]. apply in_map_iff in Hy. destruct Hy as [a' [<- Ha']].
          apply zseq_In in Hz'. unfold LexLt, f; simpl. destruct Hn; [lia|]. left. lia. }
      apply Q2. unfold c2. destruct Hd as [D|[D|D]]; rewrite D; simpl; lia. }
    assert (Gp : forall l', (forall i, In i l' -> In i l) -> ForallOrdPairs (fun x y => LexLt d (mkIdx (i0 x + (c0 - 1)) (i1 x) (i2 x)) y) l' ->
       ForallOrdPairs (fun x y => Away (dst x) (c0 * es) (dst y) (c0 * es)) l').
    { intros l' Hin H. induction H; constructor.
      - rewrite Forall_forall in *. intros y Hy. assert (Hyl : In y l) by (apply Hin; now right). assert (Hal : In a l) by (apply Hin; now left).
        assert (B1 := HST _ (proj1 (Hlb a (c0 - 1) Hal ltac:(lia)))).
        assert (B2 := HST _ (proj1 (Hlb y 0 Hyl ltac:(lia)))). rewrite Z.add_0_r in B2.
        assert (Ey : mkIdx (i0 y) (i1 y) (i2 y) = y) by (destruct y; reflexivity). rewrite Ey in B2.
        assert (M := boff_mono d BT _ _ Hd B1 B2 (H y Hy)).
        assert (En := Hend to_ BT a Hal). unfold Away, adr in *. rewrite Hes in *. left. nia.
      - apply IHForallOrdPairs. intros; apply Hin; now right. }
    apply Gp; auto.
  - exists m'. split; auto. split.
    + intros i k Hi Hk. destruct (ex_intro (fun j => j = can d i) (can d i) eq_refl) as [j Dj].
      assert (Hj : InBox d j b /\ canon d j) by (rewrite Dj; split; [now apply InBox_can|apply can_canon]).
      assert (Ej : mkIdx (i0 j) (i1 j) (i2 j) = j) by (destruct j; reflexivity). rewrite <- Ej in Hj. apply Hrow in Hj.
      assert (Hx : In (f (i1 j) (i2 j)) l) by (apply Hl; unfold f; simpl; lia).
      assert (Ed : dst i = dst (f (i1 j) (i2 j)) + (i0 j - i0 (b_from b)) * es).
      { transitivity (dst j); [rewrite Dj; unfold adr; now rewrite boff_can|]. rewrite <- Ej at 1. rewrite Hlin, Hes. reflexivity. }
      assert (Esr : src i = src (f (i1 j) (i2 j)) + (i0 j - i0 (b_from b)) * es).
      { transitivity (src j); [rewrite Dj; unfold adr; now rewrite boff_can|]. rewrite <- Ej at 1. rewrite Hlin. reflexivity. }
      rewrite Ed, Esr. rewrite <- !Z.add_assoc. apply R; auto.
      assert (Q : (i0 j - i0 (b_from b)) * es <= (c0 - 1) * es) by (apply Z.mul_le_mono_nonneg_r; lia).
      assert (0 <= (i0 j - i0 (b_from b)) * es) by (apply Z.mul_nonneg_nonneg; lia).
      rewrite Z.mul_sub_distr_r in Q. lia.
    + intros a Ha. apply C. intros x Hx.
      destruct (Z_lt_dec a (dst x)); [auto|]. destruct (Z_le_dec (dst x + c0 * es) a); [auto|]. exfalso.
      pose (k := (a - dst x) / es).
      assert (Hk : 0 <= k < c0) by (unfold k; split; [apply Z.div_pos; lia|apply Z.div_lt_upper_bound; nia]).
      assert (Hb := proj1 (Hlb x k Hx Hk)). specialize (Ha _ Hb).
      assert (Ed : dst (mkIdx (i0 x + k) (i1 x) (i2 x)) = dst x + k * es).
      { unfold adr, boff; simpl. rewrite Hes. destruct (Nat.ltb 1 d), (Nat.ltb 2 d); ring. }
      rewrite Ed in Ha. assert (Dm := Z.div_mod (a - dst x) es ltac:(lia)). assert (Mb := Z.mod_pos_bound (a - dst x) es P).
      fold k in Dm. nia.
Qed.
End Copy.
