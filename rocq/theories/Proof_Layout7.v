(* Sequences of pack/unpack calls; copying *)
From Coq Require Import ZArith List Bool Lia Sorted Permutation ZifyBool ZifyNat.
From Verif Require Import Base Model_Space Model_RangeList Model_Mem Model_Layout Spec_Space Spec_Type Spec_Layout
  Proof_Space Proof_Type Proof_Type2 Proof_RangeList5 Proof_Layout Proof_Layout2 Proof_Layout3 Proof_Layout4 Proof_Layout5 Proof_Layout6.
Import ListNotations.
Open Scope Z_scope.

Lemma firstn_add {A} a c (l : list A) : firstn (a + c) l = firstn a l ++ firstn c (skipn a l).
Proof. revert l. induction a; intros l; simpl; auto. destruct l; simpl; [now rewrite firstn_nil|]. now rewrite IHa. Qed.

Lemma concat_len {A} (f : A -> list Z) n l : (forall x, In x l -> length (f x) = n) -> length (concat (map f l)) = (length l * n)%nat.
Proof.
  induction l; intros H; simpl; auto. rewrite app_length, IHl by (intros; apply H; now right).
  rewrite (H a) by now left. reflexivity.
Qed.

Lemma concat_nth {A} (f : A -> list Z) n : forall l k x, (forall x, In x l -> length (f x) = n) ->
  nth_error l k = Some x -> firstn n (skipn (k * n) (concat (map f l))) = f x.
Proof.
  induction l as [|y l IH]; intros k x H E; [destruct k; discriminate|].
  assert (Hy : length (f y) = n) by (apply H; now left).
  destruct k; simpl in E.
  - injection E as ->. simpl. rewrite firstn_app, Hy, Nat.sub_diag, <- Hy, firstn_all. simpl. now rewrite app_nil_r.
  - simpl map. simpl concat. replace (S k * n)%nat with (length (f y) + k * n)%nat by (rewrite Hy; lia).
    rewrite <- skipn_skipn', skipn_app, skipn_all, Nat.sub_diag. simpl. apply IH; auto. intros; apply H; now right.
Qed.

Lemma mread_firstn m p n k : (k <= n)%nat -> firstn k (mread m p n) = mread m p k.
Proof.
  intros H. replace n with (k + (n - k))%nat by lia. rewrite mread_app, firstn_app, mread_length, Nat.sub_diag, firstn_all2.
  simpl. now rewrite app_nil_r. rewrite mread_length; lia.
Qed.
Lemma mread_skipn m p n k : (k <= n)%nat -> skipn k (mread m p n) = mread m (p + Z.of_nat k) (n - k).
Proof.
  intros H. replace n with (k + (n - k))%nat at 1 by lia. rewrite mread_app, skipn_app, mread_length, Nat.sub_diag, skipn_all2.
  reflexivity. rewrite mread_length; lia.
Qed.

Lemma app_eq_len {A} (a c a' c' : list A) : length a = length a' -> a ++ c = a' ++ c' -> a = a' /\ c = c'.
Proof.
  revert a'. induction a; intros [|x a'] Hl E; simpl in *; try discriminate; auto.
  injection E as -> E. destruct (IHa a' ltac:(lia) E) as [-> ->]. auto.
Qed.

Section Seq.
Variables (sp : space) (mp : lmap) (B : box) (N : Z) (r : range).
Local Notation d := (sp_dims sp).
Local Notation b := (r_box r).
Local Notation es := (lm_es mp).
Local Notation L := (lexlist d b).
Hypothesis Hd : valid_dims d.
Hypothesis HG : GoodMap sp mp B N.
Hypothesis Hr : r_space r = Some sp.
Hypothesis Hne : NonEmpty d b.
Hypothesis Hsub : SubBox d b (r_box (lm_req mp)).
Variables (sb sn : Z).
Hypothesis Hsep : Separate mp N sb sn.

Local Notation rd := (fun m j => mread m (adr d mp B j) (Z.to_nat es)).

Lemma rd_scratch m m' j : (forall a, a < sb \/ sb + sn <= a -> m' a = m a) -> InBox d j B -> rd m' j = rd m j.
Proof.
  intros H Hj. apply mread_ext. intros a Ha. assert (R := adr_range sp mp B N r Hd HG Hne Hsub j Hj).
  apply H. unfold Separate, Away in Hsep. assert (P := es_pos sp mp B N HG). lia.
Qed.

Lemma pack_run pk m i cs m' i' : PackOf sp mp B r pk -> PackRun pk es (Scratch sb sn) m i cs m' i' ->
  forall k, At d b L i k ->
  exists k', (k <= k')%nat /\ At d b L i' k' /\
    concat cs = concat (map (rd m) (firstn (k' - k) (skipn k L))) /\
    (forall a, a < sb \/ sb + sn <= a -> m' a = m a).
Proof.
  intros HP HR. assert (P := es_pos sp mp B N HG). induction HR; intros k Hat.
  - exists k. rewrite Nat.sub_diag. conjs; auto.
  - destruct (pack_step sp mp B N r Hd HG Hr Hne Hsub sb sn Hsep pk m i buf size k HP Hat ltac:(lia) H0) as [m1' [i1' [E1 [E2 [E3 E4]]]]].
    rewrite H1 in E1. set (q := Z.to_nat (Z.min (Z.of_nat (length L) - Z.of_nat k) (size / es))) in *.
    injection E1 as Em Ei En. subst m1' i1' n.
    destruct (IHHR (k + q)%nat E2) as [k' [K1 [K2 [K3 K4]]]].
    assert (Hq : Z.of_nat q * es <= size).
    { assert (0 <= size / es) by (apply Z.div_pos; lia). assert (es * (size / es) <= size) by (apply Z.mul_div_le; lia).
      assert (Z.of_nat q <= size / es) by lia. nia. }
    destruct H0 as [S1 S2].
    assert (C1 : forall a, a < sb \/ sb + sn <= a -> m1 a = m a) by (intros a Ha; apply E3; lia).
    exists k'. conjs; auto; try lia.
    + simpl. rewrite E4, K3. replace (k' - k)%nat with (q + (k' - (k + q)))%nat by lia.
      rewrite firstn_add, map_app, concat_app, skipn_skipn'. f_equal. f_equal. apply map_ext_in. intros j Hj.
      apply rd_scratch; auto. apply firstn_In, skipn_In in Hj. eapply L_in; eauto.
    + intros a Ha. rewrite K4 by auto. apply C1; auto.
Qed.

Lemma at_first : At d b L (b_from b) 0.
Proof.
  split; [lia|]. unfold lexlist. assert (Hf : InBox d (b_from b) b) by (destruct Hne as [x Hx]; unfold InBox in *; lia).
  rewrite lexfrom_step by auto. simpl. apply can_same. now rewrite can_can.
Qed.

Lemma unpack_run up m i cs m' i' (val : index -> list Z) : UnpackOf sp mp B r up -> UnpackRun up (Scratch sb sn) m i cs m' i' ->
  (forall j, In j L -> length (val j) = Z.to_nat es) ->
  Forall (fun c => exists q, length c = (q * Z.to_nat es)%nat) cs ->
  forall k, At d b L i k ->
  concat cs = concat (map val (skipn k L)) ->
  At d b L i' (length L) /\ (forall j, In j (skipn k L) -> rd m' j = val j) /\
  (forall a, (a < sb \/ sb + sn <= a) -> (forall j, In j (skipn k L) -> a < adr d mp B j \/ adr d mp B j + es <= a) -> m' a = m a).
Proof.
  intros HP HR Hlen. assert (P := es_pos sp mp B N HG). induction HR; intros HF k Hat Hc.
  - assert (E : skipn k L = []).
    { assert (G := concat_len val (Z.to_nat es) (skipn k L) ltac:(intros; apply Hlen; eapply skipn_In; eauto)).
      rewrite <- Hc in G. simpl in G. destruct (skipn k L); auto. simpl in G. lia. }
    apply skipn_nil_len in E as E'. assert (k = length L) by (destruct Hat; lia). subst k. rewrite E. conjs; auto. intros j [].
  - inversion HF as [|x xs HF1 HF2]; subst x xs. destruct HF1 as [q Hq].
    assert (Lc := concat_len val (Z.to_nat es) (skipn k L) ltac:(intros; apply Hlen; eapply skipn_In; eauto)).
    rewrite <- Hc in Lc. simpl in Lc. rewrite app_length, Hq, skipn_length in Lc.
    assert (Hsz : (0 < length c)%nat).
    { destruct c; [|simpl; lia]. exfalso. simpl in H0.
      destruct HP as [->|[_ ->]]; [unfold unpack_gen in H0|unfold unpack_lex in H0]; simpl in H0; discriminate. }
    assert (q > 0)%nat by nia.
    assert (Hqk : (q <= length L - k)%nat) by nia.
    destruct (unpack_step sp mp B N r Hd HG Hr Hne Hsub sb sn Hsep up (mwrite m buf c) i buf (Z.of_nat (length c)) k HP Hat ltac:(lia) ltac:(lia) H)
      as [m1' [i1' [E1 [E2 [E3 E4]]]]].
    rewrite H0 in E1.
    assert (Eq : Z.to_nat (Z.min (Z.of_nat (length L) - Z.of_nat k) (Z.of_nat (length c) / es)) = q).
    { rewrite Hq. replace (Z.of_nat (q * Z.to_nat es)) with (Z.of_nat q * es) by nia. rewrite Z.div_mul by lia. lia. }
    rewrite Eq in *. injection E1 as Em Ei En. subst m1' i1' n.
    assert (Sk : skipn k L = firstn q (skipn k L) ++ skipn (k + q) L) by (rewrite <- skipn_skipn'; symmetry; apply firstn_skipn).
    assert (Lf : length (firstn q (skipn k L)) = q) by (rewrite firstn_length, skipn_length; lia).
    rewrite Sk in Hc. rewrite map_app, concat_app in Hc. simpl in Hc.
    assert (Hc1 : c = concat (map val (firstn q (skipn k L))) /\ concat cs = concat (map val (skipn (k + q) L))).
    { apply app_eq_len; auto. rewrite (concat_len val (Z.to_nat es)), Lf; auto.
      intros; apply Hlen. eapply skipn_In, firstn_In; eauto. }
    destruct Hc1 as [Hc1 Hc2].
    destruct (IHHR HF2 (k + q)%nat E2 Hc2) as [I1 [I2 I3]].
    conjs; auto.
    + intros j Hj. rewrite Sk in Hj. apply in_app_or in Hj. destruct Hj as [Hj|Hj]; [|now apply I2].
      apply In_nth_error in Hj. destruct Hj as [t Ht].
      assert (Htq : (t < q)%nat) by (rewrite <- Lf; apply nth_error_Some; congruence).
      assert (Hj : nth_error L (k + t) = Some j).
      { rewrite <- nth_error_skipn', <- (firstn_skipn q (skipn k L)), nth_error_app1 by lia. exact Ht. }
      transitivity (rd m1 j).
      * assert (HjB : InBox d j B) by (eapply L_in; eauto; eapply nth_error_In; eauto).
        assert (R := adr_range sp mp B N r Hd HG Hne Hsub j HjB).
        apply mread_ext. intros a Ha. apply I3.
        -- unfold Separate, Away in Hsep. lia.
        -- intros j' Hj'. assert (Hj'B : InBox d j' B) by (eapply L_in; eauto; eapply skipn_In; eauto).
           assert (Aw : Away (adr d mp B j) es (adr d mp B j') es).
           { apply (adr_away sp mp B N Hd HG); auto. intros Es.
             assert (Nd := Enumerates_NoDup d b L (lexlist_enum d b Hd Hne)).
             assert (Hcj : can d j = j /\ can d j' = j').
             { split; apply canon_can; apply (proj1 (lexlist_enum d b Hd Hne)); [eapply nth_error_In; eauto|eapply skipn_In; eauto]. }
             apply can_same in Es. destruct Hcj as [C1 C2]. rewrite C1, C2 in Es. subst j'.
             apply In_nth_error in Hj'. destruct Hj' as [t' Ht']. rewrite nth_error_skipn' in Ht'.
             rewrite NoDup_nth_error in Nd. specialize (Nd (k + t)%nat (k + q + t')%nat).
             rewrite Hj, Ht' in Nd. specialize (Nd ltac:(apply nth_error_Some; congruence) eq_refl). lia. }
           unfold Away in Aw. lia.
      * rewrite (E4 t j Htq Hj).
        rewrite <- (concat_nth val (Z.to_nat es) (firstn q (skipn k L)) t j); auto.
        2:{ intros; apply Hlen. eapply skipn_In, firstn_In; eauto. }
        rewrite <- Hc1. rewrite <- (mread_mwrite_same m buf c (length c) eq_refl) at 2.
        rewrite mread_skipn by nia. rewrite mread_firstn by nia. f_equal. nia.
    + intros a Ha1 Ha2. rewrite I3; auto.
      2:{ intros j Hj. apply Ha2. rewrite Sk. apply in_or_app; auto. }
      rewrite E3.
      * apply mwrite_out. destruct H as [S1 S2]. lia.
      * intros j Hj. apply Ha2. rewrite Sk. apply in_or_app; auto.
Qed.
End Seq.
