(* Effect of the reference on memory *)
From Coq Require Import ZArith List Bool Lia Sorted Permutation ZifyBool ZifyNat.
From Verif Require Import Base Model_Space Model_RangeList Model_Mem Model_Layout Spec_Space Spec_Type Spec_Layout
  Proof_Space Proof_Type Proof_Type2 Proof_RangeList5 Proof_Layout Proof_Layout2 Proof_Layout3.
Import ListNotations.
Open Scope Z_scope.

Lemma mread_app m p a c : mread m p (a + c) = mread m p a ++ mread m (p + Z.of_nat a) c.
Proof.
  unfold mread. rewrite seq_app, map_app. f_equal.
  assert (G : forall c a, seq a c = map (fun k => a + k)%nat (seq 0 c)).
  { clear. induction c; intros; auto. rewrite !seq_S, map_app, IHc. reflexivity. }
  rewrite G, map_map. apply map_ext. intros. f_equal. lia.
Qed.

(* copying one element *)
Lemma memcpy_elem m dst src es : 0 < es -> Away dst es src es ->
  exists m', memcpy m dst src es = Ok m' /\ OnlyChanges dst es m m' /\
    mread m' dst (Z.to_nat es) = mread m src (Z.to_nat es).
Proof.
  intros He Ha. destruct (memcpy_ok m dst src es ltac:(lia) Ha) as [m' [E [H1 H2]]].
  exists m'. conjs; auto. unfold mread. apply map_ext_in. intros k Hk. apply in_seq in Hk. apply H2. lia.
Qed.

Section Run.
Variables (es : Z) (A : index -> outcome Z) (ad : index -> Z).
Hypothesis He : 0 < es.
Local Notation nes := (Z.to_nat es).

(* number of elements which fit *)
Definition fits (l : list index) (size : Z) : nat := Nat.min (length l) (Z.to_nat (size / es)).

Lemma fits_small l size : size < es -> fits l size = O.
Proof. intros H. unfold fits. assert (size / es <= 0); [|lia]. destruct (Z_lt_dec size 0).
  - assert (size / es < 0) by (apply Z.div_lt_upper_bound; lia). lia.
  - rewrite Z.div_small by lia. lia. Qed.
Lemma fits_cons i l size : es <= size -> fits (i :: l) size = S (fits l (size - es)).
Proof.
  intros H. unfold fits. simpl length.
  assert (E : size / es = (size - es) / es + 1).
  { replace size with ((size - es) + 1 * es) at 1 by lia. rewrite Z.div_add by lia. lia. }
  rewrite E. assert (0 <= (size - es) / es) by (apply Z.div_pos; lia). lia.
Qed.

Lemma run_pack l : forall m buf size cnt,
  (forall i, In i l -> A i = Ok (ad i) /\ Away buf size (ad i) es) ->
  exists m', run (cp_pack es) es A l m buf size cnt = Ok (m', skipn (fits l size) l, cnt + Z.of_nat (fits l size)) /\
    OnlyChanges buf (Z.of_nat (fits l size) * es) m m' /\
    mread m' buf (Z.to_nat (Z.of_nat (fits l size) * es)) = concat (map (fun i => mread m (ad i) nes) (firstn (fits l size) l)).
Proof.
  induction l as [|i l IH]; intros m buf size cnt H.
  - exists m. simpl. unfold fits; simpl. rewrite Z.add_0_r. conjs; auto. intros a Ha; auto.
  - simpl run. destruct (size <? es) eqn:E.
    + rewrite fits_small by lia. exists m. simpl. rewrite Z.add_0_r. conjs; auto. intros a Ha; auto.
    + rewrite fits_cons by lia. destruct (H i (or_introl eq_refl)) as [Ai Aw]. rewrite Ai. cbn [obind].
      destruct (memcpy_elem m buf (ad i) es He) as [m1 [E1 [C1 R1]]]; [unfold Away in *; lia|].
      unfold cp_pack at 1. rewrite E1. cbn [obind].
      destruct (IH m1 (buf + es) (size - es) (cnt + 1)) as [m2 [E2 [C2 R2]]].
      { intros j Hj. destruct (H j (or_intror Hj)). split; auto. unfold Away in *; lia. }
      exists m2. rewrite E2. split; [f_equal; f_equal; lia|]. split.
      * intros a Ha. rewrite C2 by lia. apply C1. lia.
      * replace (Z.to_nat (Z.of_nat (S (fits l (size - es))) * es)) with (nes + Z.to_nat (Z.of_nat (fits l (size - es)) * es))%nat by lia.
        rewrite mread_app. simpl firstn. simpl map. simpl concat. f_equal.
        -- rewrite <- R1. apply mread_ext. intros a Ha. apply C2. lia.
        -- rewrite Z2Nat.id by lia. rewrite R2. f_equal. apply map_ext_in. intros j Hj. apply mread_ext.
           intros a Ha. apply C1. assert (Hj' : In j l) by (rewrite <- (firstn_skipn (fits l (size - es)) l); apply in_or_app; auto).
           destruct (H j (or_intror Hj')) as [_ Aj]. unfold Away in *; lia.
Qed.

Lemma run_unpack l : forall m buf size cnt,
  (forall i, In i l -> A i = Ok (ad i) /\ Away buf size (ad i) es) ->
  ForallOrdPairs (fun i j => Away (ad i) es (ad j) es) l ->
  exists m', run (cp_unpack es) es A l m buf size cnt = Ok (m', skipn (fits l size) l, cnt + Z.of_nat (fits l size)) /\
    (forall a, (forall i, In i (firstn (fits l size) l) -> a < ad i \/ ad i + es <= a) -> m' a = m a) /\
    (forall k i, (k < fits l size)%nat -> nth_error l k = Some i -> mread m' (ad i) nes = mread m (buf + Z.of_nat k * es) nes).
Proof.
  induction l as [|i l IH]; intros m buf size cnt H FO.
  - exists m. simpl. unfold fits; simpl. rewrite Z.add_0_r. conjs; auto. intros; lia.
  - simpl run. destruct (size <? es) eqn:E.
    + rewrite fits_small by lia. exists m. simpl. rewrite Z.add_0_r. conjs; auto. intros; lia.
    + rewrite fits_cons by lia. destruct (H i (or_introl eq_refl)) as [Ai Aw]. rewrite Ai. cbn [obind].
      destruct (memcpy_elem m (ad i) buf es He) as [m1 [E1 [C1 R1]]]; [unfold Away in *; lia|].
      unfold cp_unpack at 1. rewrite E1. cbn [obind].
      inversion FO as [|x xs F1 F2]; subst.
      destruct (IH m1 (buf + es) (size - es) (cnt + 1)) as [m2 [E2 [C2 R2]]]; auto.
      { intros j Hj. destruct (H j (or_intror Hj)). split; auto. unfold Away in *; lia. }
      rewrite Forall_forall in F1.
      exists m2. rewrite E2. split; [f_equal; f_equal; lia|]. split.
      * intros a Ha. rewrite C2 by (intros j Hj; apply Ha; simpl; auto). apply C1.
        destruct (Ha i (or_introl eq_refl)); lia.
      * intros [|k] j Hk Hj; simpl in Hj.
        -- injection Hj as <-. replace (buf + Z.of_nat 0 * es) with buf by lia. rewrite <- R1.
           apply mread_ext. intros a Ha. apply C2. intros j Hj.
           assert (Hj' : In j l) by (rewrite <- (firstn_skipn (fits l (size - es)) l); apply in_or_app; auto).
           assert (G := F1 j Hj'). unfold Away in G. lia.
        -- rewrite (R2 k j) by (auto; lia). replace (buf + es + Z.of_nat k * es) with (buf + Z.of_nat (S k) * es) by lia.
           apply mread_ext. intros a Ha. apply C1.
           assert (E3 : Z.of_nat (fits (i :: l) size) * es <= size).
           { unfold fits. assert (es * (size / es) <= size) by (apply Z.mul_div_le; lia).
             assert (0 <= size / es) by (apply Z.div_pos; lia).
             assert (Z.of_nat (Nat.min (length (i :: l)) (Z.to_nat (size / es))) <= size / es) by lia. nia. }
           rewrite fits_cons in E3 by lia.
           assert ((Z.of_nat (S k) + 1) * es <= size) by nia.
           unfold Away in Aw. lia.
Qed.
End Run.
