(* Steps and sequences of pack/unpack calls *)
From Coq Require Import ZArith List Bool Lia Sorted Permutation ZifyBool ZifyNat.
From Verif Require Import Base Model_Space Model_RangeList Model_Mem Model_Layout Spec_Space Spec_Type Spec_Layout
  Proof_Space Proof_Type Proof_Type2 Proof_RangeList5 Proof_Layout Proof_Layout2 Proof_Layout3 Proof_Layout4 Proof_Layout5.
Import ListNotations.
Open Scope Z_scope.

Lemma lexfrom_nonempty d b i : valid_dims d -> InBox d i b -> lexfrom d b i <> [].
Proof. intros Hd Hi. rewrite lexfrom_step by auto. discriminate. Qed.

(* suffixes of an enumeration start with the next index *)
Lemma skipn_lexfrom d b : valid_dims d -> forall k i j, InBox d i b ->
  nth_error (lexfrom d b i) k = Some j -> skipn k (lexfrom d b i) = lexfrom d b j.
Proof.
  intros Hd. induction k; intros i j Hi Hj.
  - rewrite lexfrom_step in Hj by auto. simpl in Hj. injection Hj as <-. simpl. now rewrite lexfrom_can.
  - rewrite lexfrom_step in Hj |- * by auto. simpl in *.
    destruct (next_lex d b i) as [[] i'] eqn:E; [|destruct k; discriminate].
    apply IHk; auto. eapply next_lex_in; eauto.
Qed.

Lemma skipn_nil_len {A} (l : list A) n : skipn n l = [] <-> (length l <= n)%nat.
Proof. split; intros H; [|now apply skipn_all2]. assert (E := skipn_length n l). rewrite H in E. simpl in E. lia. Qed.

(* AtRest and At *)
Lemma AtRest_At d b k i : valid_dims d -> NonEmpty d b -> (k <= length (lexlist d b))%nat ->
  AtRest d b i (skipn k (lexlist d b)) -> At d b (lexlist d b) i k.
Proof.
  intros Hd Hn Hk H. split; auto. destruct (nth_error (lexlist d b) k) as [j|] eqn:E.
  - assert (S : exists t, skipn k (lexlist d b) = j :: t).
    { apply nth_error_split in E. destruct E as [l1 [l2 [E1 E2]]]. rewrite E1, <- E2, skipn_app, skipn_all, Nat.sub_diag. simpl. eauto. }
    destruct S as [t S]. rewrite S in H. simpl in H. destruct H as [H _].
    assert (Hc : can d j = j).
    { apply canon_can. destruct (lexlist_enum d b Hd Hn) as [Hin _]. apply nth_error_In in E. apply Hin in E. tauto. }
    rewrite <- Hc in H. apply can_same. exact H.
  - apply nth_error_None in E. rewrite skipn_all2 in H by auto. simpl in H. apply can_same. exact H.
Qed.

Lemma At_lexfrom d b k i : valid_dims d -> NonEmpty d b -> (k < length (lexlist d b))%nat ->
  At d b (lexlist d b) i k -> InBox d i b /\ skipn k (lexlist d b) = lexfrom d b i.
Proof.
  intros Hd Hn Hk [_ H]. destruct (nth_error (lexlist d b) k) as [j|] eqn:E; [|apply nth_error_None in E; lia].
  apply can_same in H.
  assert (Hj : InBox d j b /\ canon d j).
  { destruct (lexlist_enum d b Hd Hn) as [Hin _]. apply Hin. eapply nth_error_In; eauto. }
  assert (Hf : InBox d (b_from b) b) by (destruct Hn as [x Hx]; unfold InBox in *; lia).
  split.
  - apply InBox_can. rewrite H. apply InBox_can. tauto.
  - unfold lexlist in *. rewrite (skipn_lexfrom d b Hd k _ j Hf E). rewrite <- lexfrom_can, <- H. apply lexfrom_can.
Qed.

Lemma At_end d b k i : (length (lexlist d b) <= k)%nat -> At d b (lexlist d b) i k -> SameIndex d i (b_to b).
Proof. intros Hk [_ H]. apply nth_error_None in Hk. now rewrite Hk in H. Qed.

Lemma SameIndex_refl d i : SameIndex d i i. Proof. unfold SameIndex; auto. Qed.

Section Steps.
Variables (sp : space) (mp : lmap) (B : box) (N : Z) (r : range).
Local Notation d := (sp_dims sp).
Local Notation b := (r_box r).
Local Notation es := (lm_es mp).
Local Notation L := (lexlist d b).
Hypothesis Hd : valid_dims d.
Hypothesis HG : GoodMap sp mp B N.
Hypothesis Hr : r_space r = Some sp.
Hypothesis Hne : NonEmpty d b.
Hypothesis Hsub : SubBox d b (r_box (lm_req mp)).

Lemma es_pos : 0 < es. Proof. destruct HG as (_ & _ & _ & H & _). exact H. Qed.
Lemma NB : NonEmpty d B.
Proof. destruct Hne as [i Hi]. exists i. apply (b_in_B sp mp B N r HG Hsub i Hi). Qed.
Lemma N_vol : N = vol d B.
Proof. destruct HG as (_ & _ & H & _). apply (vol_of_count d B N Hd NB H). Qed.

Lemma adr_range i : InBox d i B -> lm_start mp <= adr d mp B i /\ adr d mp B i + es <= lm_start mp + N * es.
Proof.
  intros Hi. assert (R := boff_range d B i Hd Hi). rewrite N_vol. unfold adr. assert (P := es_pos). nia.
Qed.

Lemma AddrOf_adr i a : InBox d i B -> (AddrOf mp i a <-> a = adr d mp B i).
Proof.
  intros Hi. destruct HG as (G1 & G2 & _). unfold AddrOf. rewrite (offset_ok sp _ _ B i Hd G1 G2 Hi). split.
  - intros [o [E ->]]. injection E as <-. reflexivity.
  - intros ->. eexists. split; [reflexivity|]. reflexivity.
Qed.
Lemma ValueAt_adr m i v : InBox d i B -> (ValueAt mp m i v <-> v = mread m (adr d mp B i) (Z.to_nat es)).
Proof.
  intros Hi. unfold ValueAt. split.
  - intros [a [H ->]]. apply AddrOf_adr in H; auto. now subst.
  - intros ->. eexists. split; [apply AddrOf_adr; auto|]. reflexivity.
Qed.

Lemma adr_away i j : InBox d i B -> InBox d j B -> ~ SameIndex d i j -> Away (adr d mp B i) es (adr d mp B j) es.
Proof.
  intros Hi Hj Hn. unfold Away, adr. assert (P := es_pos).
  assert (boff d B i <> boff d B j) by (intros E; apply Hn; eapply boff_inj; eauto). nia.
Qed.

Lemma L_in i : In i L -> InBox d i b /\ InBox d i B.
Proof.
  intros Hi. apply (proj1 (lexlist_enum d b Hd Hne)) in Hi. split; [tauto|]. apply (b_in_B sp mp B N r HG Hsub). tauto.
Qed.

Lemma skipn_In {A} (x : A) n l : In x (skipn n l) -> In x l.
Proof. intros. rewrite <- (firstn_skipn n l). apply in_or_app; auto. Qed.
Lemma firstn_In {A} (x : A) n l : In x (firstn n l) -> In x l.
Proof. intros. rewrite <- (firstn_skipn n l). apply in_or_app; auto. Qed.

Lemma pack_call pk m i buf size : PackOf sp mp B r pk -> InBox d i b -> 0 <= size ->
  orel (RunRel d b) (pk m i buf size) (run (cp_pack es) es (A0 mp) (lexfrom d b i) m buf size 0).
Proof.
  intros HP Hi Hs. assert (HG' := HG). destruct HG' as (G1 & _ & _ & _ & Hq & _). destruct (Built_wf sp _ Hd G1) as [W _].
  assert (Ne : index_isEqual d i (b_to b) = false).
  { destruct (index_isEqual d i (b_to b)) eqn:E; auto. apply index_isEqual_spec in E; auto. exfalso. eapply InBox_not_to; eauto. }
  destruct HP as [->|[HE ->]].
  - unfold pack_gen. simpl gm_dims. rewrite W, Ne. simpl gm_req. rewrite (within_ok sp r (lm_req mp)) by auto. cbn [obind cassert].
    rewrite Hr. apply (gen_run sp mp B N); auto.
  - unfold pack_lex. rewrite W, Ne. eapply lex_run; eauto.
Qed.

Lemma unpack_call up m i buf size : UnpackOf sp mp B r up -> InBox d i b -> 0 < size ->
  orel (RunRel d b) (up m i buf size) (run (cp_unpack es) es (A0 mp) (lexfrom d b i) m buf size 0).
Proof.
  intros HP Hi Hs. assert (HG' := HG). destruct HG' as (G1 & _ & _ & _ & Hq & _). destruct (Built_wf sp _ Hd G1) as [W _].
  assert (Ne : index_isEqual d i (b_to b) = false).
  { destruct (index_isEqual d i (b_to b)) eqn:E; auto. apply index_isEqual_spec in E; auto. exfalso. eapply InBox_not_to; eauto. }
  assert (Sz : size >? 0 = true) by lia.
  destruct HP as [->|[HE ->]].
  - unfold unpack_gen. rewrite Sz. simpl gm_dims. rewrite W, Ne. simpl gm_req. rewrite (within_ok sp r (lm_req mp)) by auto. cbn [obind cassert negb].
    rewrite Hr. apply (gen_run sp mp B N); auto. lia.
  - unfold unpack_lex. rewrite Sz, W, Ne. cbn [cassert negb]. eapply lex_run; eauto. lia.
Qed.

Variables (sb sn : Z).
Hypothesis Hsep : Separate mp N sb sn.

Lemma scratch_away buf size i : Scratch sb sn buf size -> 0 <= size -> InBox d i B -> Away buf size (adr d mp B i) es.
Proof. intros [S1 S2] Hs Hi. assert (R := adr_range i Hi). unfold Separate, Away in *. lia. Qed.

Lemma fits_skipn k size : (k <= length L)%nat -> 0 <= size ->
  Z.of_nat (fits es (skipn k L) size) = Z.min (Z.of_nat (length L) - Z.of_nat k) (size / es).
Proof.
  intros Hk Hs. unfold fits. rewrite skipn_length. assert (0 <= size / es) by (apply Z.div_pos; assert (P := es_pos); lia). lia.
Qed.

Lemma skipn_skipn' {A} n k (l : list A) : skipn n (skipn k l) = skipn (k + n) l.
Proof. revert l. induction k; intros l; simpl; auto. destruct l; simpl; auto. now rewrite skipn_nil. Qed.

Lemma pack_step pk m i buf size k : PackOf sp mp B r pk -> At d b L i k -> 0 <= size -> Scratch sb sn buf size ->
  exists m' i', let n := Z.to_nat (Z.min (Z.of_nat (length L) - Z.of_nat k) (size / es)) in
    pk m i buf size = Ok (m', i', Z.of_nat n) /\ At d b L i' (k + n) /\ OnlyChanges buf (Z.of_nat n * es) m m' /\
    mread m' buf (Z.to_nat (Z.of_nat n * es)) = concat (map (fun j => mread m (adr d mp B j) (Z.to_nat es)) (firstn n (skipn k L))).
Proof.
  intros HP Hat Hs Hsc. assert (Hkl := proj1 Hat). destruct (Nat.eq_dec k (length L)) as [->|Hne2].
  - assert (E := At_end d b _ i (le_n _) Hat). exists m, i.
    rewrite Z.sub_diag. assert (0 <= size / es) by (apply Z.div_pos; assert (P := es_pos); lia). rewrite Z.min_l by lia. simpl.
    rewrite Nat.add_0_r. conjs; auto; [|intros a Ha; auto].
    apply index_isEqual_spec in E; auto.
    destruct HG as (G1 & _). destruct (Built_wf sp _ Hd G1) as [W _].
    destruct HP as [->|[_ ->]]; [unfold pack_gen|unfold pack_lex]; simpl gm_dims; rewrite W, E; reflexivity.
  - assert (Hk : (k < length L)%nat) by lia.
    destruct (At_lexfrom d b k i Hd Hne Hk Hat) as [Hi HL].
    assert (G := pack_call pk m i buf size HP Hi Hs). rewrite <- HL in G.
    destruct (run_pack es (A0 mp) (adr d mp B) es_pos (skipn k L) m buf size 0) as [m' [E1 [E2 E3]]].
    { intros j Hj. apply skipn_In in Hj. apply L_in in Hj. split; [apply (A0_ok sp mp B N Hd HG); tauto|].
      apply scratch_away; tauto. }
    rewrite E1 in G. destruct (pk m i buf size) as [[[m1 i'] n']| | | |]; simpl in G; try contradiction.
    destruct G as [G1 [G2 G3]]. simpl in *. subst m1 n'.
    exists m', i'. rewrite <- (fits_skipn k size Hkl Hs). rewrite Nat2Z.id. conjs; auto.
    rewrite skipn_skipn' in G3. apply AtRest_At; auto.
    unfold fits. rewrite skipn_length. lia.
Qed.

Lemma FOP_skipn {A} (R : A -> A -> Prop) k l : ForallOrdPairs R l -> ForallOrdPairs R (skipn k l).
Proof. intros H. revert l H. induction k; intros l H; auto. destruct l; simpl; auto. apply IHk. now inversion H. Qed.

Lemma L_pairs : ForallOrdPairs (fun i j => Away (adr d mp B i) es (adr d mp B j) es) L.
Proof.
  assert (G : forall l, (forall i, In i l -> In i L) -> StronglySorted (LexLt d) l -> ForallOrdPairs (fun i j => Away (adr d mp B i) es (adr d mp B j) es) l).
  { intros l Hin Hs. induction Hs; constructor.
    - rewrite Forall_forall in *. intros j Hj. apply adr_away.
      + apply L_in. apply Hin. now left.
      + apply L_in. apply Hin. now right.
      + intros E. apply H in Hj. apply can_same in E. rewrite <- LexLt_can in Hj by auto. rewrite E in Hj. eapply LexLt_irrefl; eauto.
    - apply IHHs. intros; apply Hin; now right. }
  apply G; auto. apply (lexlist_enum d b Hd Hne).
Qed.

Lemma nth_error_skipn' {A} k n (l : list A) : nth_error (skipn k l) n = nth_error l (k + n).
Proof. revert l. induction k; intros l; simpl; auto. destruct l; simpl; auto. now destruct n. Qed.

Lemma unpack_step up m i buf size k : UnpackOf sp mp B r up -> At d b L i k -> (k < length L)%nat -> 0 < size -> Scratch sb sn buf size ->
  exists m' i', let n := Z.to_nat (Z.min (Z.of_nat (length L) - Z.of_nat k) (size / es)) in
    up m i buf size = Ok (m', i', Z.of_nat n) /\ At d b L i' (k + n) /\
    (forall a, (forall j, In j (firstn n (skipn k L)) -> a < adr d mp B j \/ adr d mp B j + es <= a) -> m' a = m a) /\
    (forall t j, (t < n)%nat -> nth_error L (k + t) = Some j -> mread m' (adr d mp B j) (Z.to_nat es) = mread m (buf + Z.of_nat t * es) (Z.to_nat es)).
Proof.
  intros HP Hat Hk Hs Hsc. destruct (At_lexfrom d b k i Hd Hne Hk Hat) as [Hi HL].
  assert (G := unpack_call up m i buf size HP Hi Hs). rewrite <- HL in G.
  destruct (run_unpack es (A0 mp) (adr d mp B) es_pos (skipn k L) m buf size 0) as [m' [E1 [E2 E3]]].
  { intros j Hj. apply skipn_In in Hj. apply L_in in Hj. split; [apply (A0_ok sp mp B N Hd HG); tauto|].
    apply scratch_away; try tauto. lia. }
  { apply FOP_skipn. apply L_pairs. }
  rewrite E1 in G. destruct (up m i buf size) as [[[m1 i'] n']| | | |]; simpl in G; try contradiction.
  destruct G as [G1 [G2 G3]]. simpl in *. subst m1 n'.
  exists m', i'. rewrite <- (fits_skipn k size ltac:(lia) ltac:(lia)). rewrite Nat2Z.id. conjs; auto.
  - rewrite skipn_skipn' in G3. apply AtRest_At; auto. unfold fits. rewrite skipn_length. lia.
  - intros t j Ht Hj. apply E3; auto. now rewrite nth_error_skipn'.
Qed.
End Steps.
