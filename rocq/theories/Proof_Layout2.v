(* Offsets of the lexicographical layout *)
From Coq Require Import ZArith List Bool Lia Sorted Permutation ZifyBool ZifyNat.
From Verif Require Import Base Model_Space Model_RangeList Model_Mem Model_Layout Spec_Space Spec_Type Spec_Layout
  Proof_Space Proof_Type Proof_Type2 Proof_RangeList5 Proof_Layout.
Import ListNotations.
Open Scope Z_scope.

Definition w0 (b : box) := i0 (b_to b) - i0 (b_from b).
Definition w1 (b : box) := i1 (b_to b) - i1 (b_from b).
Definition w2 (b : box) := i2 (b_to b) - i2 (b_from b).
Definition vol (d : nat) (b : box) : Z :=
  w0 b * (if Nat.ltb 1 d then w1 b else 1) * (if Nat.ltb 2 d then w2 b else 1).

Lemma nonempty_pos d b : NonEmpty d b -> 0 < w0 b /\ ((1 < d)%nat -> 0 < w1 b) /\ ((2 < d)%nat -> 0 < w2 b).
Proof. intros [i [A [B C]]]. unfold w0, w1, w2. conjs; intros; try specialize (B H); try specialize (C H); lia. Qed.

Lemma vol_count d b : valid_dims d -> NonEmpty d b -> HasCount d b (vol d b).
Proof.
  intros Hd Hn. assert (G := enum_HasCount d b Hd). rewrite enum_length in G.
  destruct (nonempty_pos d b Hn) as [A [B C]].
  replace (vol d b) with (ext true (i0 (b_from b)) (i0 (b_to b)) *
    ext (Nat.ltb 1 d) (i1 (b_from b)) (i1 (b_to b)) * ext (Nat.ltb 2 d) (i2 (b_from b)) (i2 (b_to b))); auto.
  unfold vol, ext, w0, w1, w2 in *. destruct Hd as [->|[->| ->]]; simpl in *; lia.
Qed.

Lemma vol_of_count d b n : valid_dims d -> NonEmpty d b -> HasCount d b n -> n = vol d b.
Proof. intros. eapply HasCount_unique; eauto. now apply vol_count. Qed.

Lemma NonEmpty_ordered d b : NonEmpty d b -> Ordered d b.
Proof. intros [i [A [B C]]]. unfold Ordered. lia. Qed.

Lemma vol_pos d b : valid_dims d -> NonEmpty d b -> 0 < vol d b.
Proof.
  intros Hd Hn. destruct (nonempty_pos d b Hn) as [A [B C]]. unfold vol.
  destruct Hd as [->|[->| ->]]; simpl in *; specialize (B ltac:(lia)) || idtac; specialize (C ltac:(lia)) || idtac; nia.
Qed.

Lemma box_size_vol d b : valid_dims d -> NonEmpty d b -> vol d b < two64 -> box_size d b = Ok (vol d b).
Proof.
  intros Hd Hn Hv. destruct (box_size_total d b Hd (NonEmpty_ordered d b Hn)) as [n E]. rewrite E.
  destruct (box_size_ok d b n Hd E) as [k [K ->]]. rewrite (vol_of_count d b k Hd Hn K).
  f_equal. apply Z.mod_small. assert (0 < vol d b) by now apply vol_pos. lia.
Qed.

(* proper entries *)
Definition WfE (sp : space) (e : lexentry) : Prop :=
  let d := sp_dims sp in let b := r_box (le_range e) in
  r_space (le_range e) = Some sp /\ NonEmpty d b /\ vol d b < two64 /\
  le_count e = vol d b /\ le_s0 e = 1 /\
  le_s1 e = (if Nat.ltb 1 d then w0 b else 0) /\ le_s2 e = (if Nat.ltb 2 d then w0 b * w1 b else 0).
Definition WfL (sp : space) (l : lexlayout) : Prop :=
  lx_dims l = sp_dims sp /\ Forall (WfE sp) (lx_e l) /\ lx_e l <> [] /\
  lx_count l = fold_left Z.add (map le_count (lx_e l)) 0.

Lemma new_lexentry_ok sp r : valid_dims (sp_dims sp) -> GoodRange sp r ->
  exists e, new_lexentry (sp_dims sp) r = Ok e /\ WfE sp e /\ le_range e = r.
Proof.
  intros Hd [E [Hn [n [Hc Hb]]]]. rewrite (vol_of_count _ _ _ Hd Hn Hc) in Hb.
  unfold new_lexentry, range_size. rewrite E, box_size_vol; auto. simpl.
  destruct (nonempty_pos _ _ Hn) as [A [B C]]. unfold w0, w1, w2 in *.
  unfold cassert. destruct (i0 (b_from (r_box r)) <? i0 (b_to (r_box r))) eqn:E0; [|lia].
  destruct (if Nat.ltb 1 (sp_dims sp) then i1 (b_from (r_box r)) <? i1 (b_to (r_box r)) else true) eqn:E1.
  2:{ destruct (Nat.ltb 1 (sp_dims sp)) eqn:F; [|discriminate]. apply Nat.ltb_lt in F. specialize (B F). lia. }
  destruct (if Nat.ltb 2 (sp_dims sp) then i2 (b_from (r_box r)) <? i2 (b_to (r_box r)) else true) eqn:E2.
  2:{ destruct (Nat.ltb 2 (sp_dims sp)) eqn:F; [|discriminate]. apply Nat.ltb_lt in F. specialize (C F). lia. }
  eexists. split; [reflexivity|]. split; [|reflexivity]. unfold WfE; simpl. conjs; auto.
Qed.

Lemma new_lexentries_ok sp l : valid_dims (sp_dims sp) -> Forall (GoodRange sp) l ->
  exists es, new_lexentries (sp_dims sp) l = Ok es /\ Forall (WfE sp) es /\ map le_range es = l.
Proof.
  intros Hd H. induction H.
  - exists []. auto.
  - destruct IHForall as [es [E1 [E2 E3]]]. destruct (new_lexentry_ok sp x Hd H) as [e [F1 [F2 F3]]].
    exists (e :: es). simpl. rewrite F1. simpl. rewrite E1. simpl. conjs; auto. now f_equal.
Qed.

Lemma new_layout_ok sp l : valid_dims (sp_dims sp) -> Forall (GoodRange sp) l -> l <> [] ->
  exists ly, new_layout_lex l = Ok ly /\ WfL sp ly /\ map le_range (lx_e ly) = l.
Proof.
  intros Hd H Hl. destruct (new_lexentries_ok sp l Hd H) as [es [E1 [E2 E3]]].
  unfold new_layout_lex. destruct l as [|r l]; [congruence|]. inversion H; subst. destruct H2 as [Hs _]. rewrite Hs.
  rewrite E1. cbn [obind]. eexists; split; [reflexivity|]. unfold WfL; simpl.
  conjs; auto. destruct es; [discriminate|discriminate].
Qed.

Lemma upd_Forall {A} (P : A -> Prop) n x l : Forall P l -> P x -> Forall P (upd n x l).
Proof. intros H Hx. revert n. induction H; intros [|n]; simpl; constructor; auto. Qed.

Lemma fold_add_acc l a : fold_left Z.add l a = a + fold_left Z.add l 0.
Proof. revert a. induction l as [|c l IH]; intros b; simpl; [lia|]. rewrite (IH (b + c)), (IH (0 + c)). lia. Qed.

Lemma upd_sum (es : list lexentry) n e x : nth_error es n = Some e ->
  fold_left Z.add (map le_count (upd n x es)) 0 = fold_left Z.add (map le_count es) 0 + (le_count x - le_count e).
Proof.
  revert n. induction es as [|a es IH]; intros [|n]; simpl; intros H; try discriminate.
  - injection H as ->. rewrite (fold_add_acc _ (0 + le_count x)), (fold_add_acc _ (0 + le_count e)). lia.
  - rewrite (fold_add_acc _ (0 + le_count a)), (fold_add_acc (map le_count es) (0 + le_count a)), (IH n H). lia.
Qed.

Lemma aread_ok {A} (l : list A) n x : aread l n = Ok x -> 0 <= n /\ nth_error l (Z.to_nat n) = Some x.
Proof.
  unfold aread. destruct (n <? 0) eqn:E; [discriminate|]. destruct (nth_error l (Z.to_nat n)) eqn:F; [|discriminate].
  intros G; injection G as ->. split; [lia|auto].
Qed.

Lemma reuse_ok l n old nold l' : reuse_lex l n old nold = Ok (true, l') ->
  exists en eo, 0 <= n /\ nth_error (lx_e l) (Z.to_nat n) = Some en /\ 0 <= nold /\ nth_error (lx_e old) (Z.to_nat nold) = Some eo /\
    range_within_range (le_range en) (le_range eo) = Ok true /\
    l' = mkLex (lx_dims l) (lx_count l + (le_count eo - le_count en)) (upd (Z.to_nat n) eo (lx_e l)).
Proof.
  unfold reuse_lex. intros H. apply cassert_ok in H. destruct H as [_ H].
  apply obind_ok in H. destruct H as [en [E1 H]]. apply obind_ok in H. destruct H as [eo [E2 H]].
  apply obind_ok in H. destruct H as [w [E3 H]]. destruct w; simpl in H; [|discriminate].
  injection H as <-. apply aread_ok in E1. apply aread_ok in E2. exists en, eo.
  replace (mkLe (le_range eo) (le_count eo) (le_s0 eo) (le_s1 eo) (le_s2 eo)) with eo by (destruct eo; reflexivity).
  tauto.
Qed.

Lemma Built_wf sp l : valid_dims (sp_dims sp) -> Built sp l -> WfL sp l.
Proof.
  intros Hd H. induction H.
  - destruct (new_layout_ok sp ranges Hd H0 H) as [ly [E [W _]]]. congruence.
  - apply reuse_ok in H1. destruct H1 as [en [eo [A [B [C [D [E ->]]]]]]].
    destruct IHBuilt1 as [W1 [W2 [W3 W4]]]. destruct IHBuilt2 as [V1 [V2 _]]. unfold WfL; simpl. conjs; auto.
    + apply upd_Forall; auto. rewrite Forall_forall in V2. apply V2. eapply nth_error_In; eauto.
    + intros N. apply W3. apply length_zero_iff_nil. rewrite <- (upd_length (Z.to_nat n) eo), N. reflexivity.
    + rewrite (upd_sum _ _ _ _ B), W4. reflexivity.
Qed.

(* entry of a section *)
Lemma section_entry sp l n b : valid_dims (sp_dims sp) -> Built sp l -> SectionBox l n b ->
  exists e, 0 <= n < Z.of_nat (length (lx_e l)) /\ aread (lx_e l) n = Ok e /\ r_box (le_range e) = b /\ WfE sp e /\
    nth_error (lx_e l) (Z.to_nat n) = Some e.
Proof.
  intros Hd H [Hn [e [E1 E2]]]. exists e. destruct (Built_wf sp l Hd H) as [_ [W _]].
  assert (Z.to_nat n < length (lx_e l))%nat by (apply nth_error_Some; congruence).
  conjs; auto; try lia.
  - unfold aread. destruct (n <? 0) eqn:E; [lia|]. now rewrite E1.
  - rewrite Forall_forall in W. apply W. eapply nth_error_In; eauto.
Qed.

Definition boff (d : nat) (b : box) (i : index) : Z :=
  (i0 i - i0 (b_from b)) +
  (if Nat.ltb 1 d then (i1 i - i1 (b_from b)) * w0 b +
     (if Nat.ltb 2 d then (i2 i - i2 (b_from b)) * (w0 b * w1 b) else 0) else 0).

Lemma lexoff_boff sp e i : WfE sp e -> lexoff (sp_dims sp) e i = boff (sp_dims sp) (r_box (le_range e)) i.
Proof.
  intros (A & B & C & D & E & F & G). unfold lexoff, boff. rewrite F, G.
  destruct (Nat.ltb 1 (sp_dims sp)), (Nat.ltb 2 (sp_dims sp)); lia.
Qed.

Lemma boff_range d b i : valid_dims d -> InBox d i b -> 0 <= boff d b i < vol d b.
Proof.
  intros Hd [H0 [H1 H2]]. unfold boff, vol, w0, w1, w2.
  destruct Hd as [->|[->| ->]]; simpl in *.
  - lia.
  - specialize (H1 ltac:(lia)). nia.
  - specialize (H1 ltac:(lia)). specialize (H2 ltac:(lia)).
    set (a := i0 i - i0 (b_from b)). set (c := i1 i - i1 (b_from b)). set (e := i2 i - i2 (b_from b)).
    set (p := i0 (b_to b) - i0 (b_from b)). set (q := i1 (b_to b) - i1 (b_from b)). set (r := i2 (b_to b) - i2 (b_from b)).
    assert (0 <= a < p) by lia. assert (0 <= c < q) by lia. assert (0 <= e < r) by lia.
    assert (c * p <= (q - 1) * p) by nia. assert (0 <= c * p) by nia.
    assert (e * (p * q) <= (r - 1) * (p * q)) by nia. assert (0 <= e * (p * q)) by nia. nia.
Qed.

Lemma boff_mono d b i j : valid_dims d -> InBox d i b -> InBox d j b -> LexLt d i j -> boff d b i < boff d b j.
Proof.
  intros Hd [H0 [H1 H2]] [K0 [K1 K2]] L. unfold boff, vol, w0, w1, w2, LexLt in *.
  destruct Hd as [->|[->| ->]]; simpl in *.
  - lia.
  - specialize (H1 ltac:(lia)). specialize (K1 ltac:(lia)).
    destruct L as [L|[L|L]]; nia.
  - specialize (H1 ltac:(lia)). specialize (H2 ltac:(lia)). specialize (K1 ltac:(lia)). specialize (K2 ltac:(lia)).
    set (a := i0 i - i0 (b_from b)). set (c := i1 i - i1 (b_from b)). set (e := i2 i - i2 (b_from b)).
    set (a' := i0 j - i0 (b_from b)). set (c' := i1 j - i1 (b_from b)). set (e' := i2 j - i2 (b_from b)).
    set (p := i0 (b_to b) - i0 (b_from b)). set (q := i1 (b_to b) - i1 (b_from b)). set (r := i2 (b_to b) - i2 (b_from b)).
    assert (0 <= a < p) by lia. assert (0 <= c < q) by lia. assert (0 <= e < r) by lia.
    assert (0 <= a' < p) by lia. assert (0 <= c' < q) by lia. assert (0 <= e' < r) by lia.
    assert (X : e < e' \/ (e = e' /\ c < c') \/ (e = e' /\ c = c' /\ a < a')) by lia.
    clearbody a c e a' c' e' p q r. clear L H0 H1 H2 K0 K1 K2.
    assert (c * p <= (q - 1) * p) by (apply Z.mul_le_mono_nonneg_r; lia).
    assert (0 <= c' * p) by (apply Z.mul_nonneg_nonneg; lia).
    destruct X as [X|[[-> X]|[-> [-> X]]]].
    + assert ((e + 1) * (p * q) <= e' * (p * q)) by (apply Z.mul_le_mono_nonneg_r; [apply Z.mul_nonneg_nonneg|]; lia).
      replace ((e + 1) * (p * q)) with (e * (p * q) + q * p) in * by ring.
      replace ((q - 1) * p) with (q * p - p) in * by ring. lia.
    + assert ((c + 1) * p <= c' * p) by (apply Z.mul_le_mono_nonneg_r; lia).
      replace ((c + 1) * p) with (c * p + p) in * by ring. lia.
    + lia.
Qed.

Lemma boff_onto d b o : valid_dims d -> NonEmpty d b -> 0 <= o < vol d b -> exists i, InBox d i b /\ canon d i /\ boff d b i = o.
Proof.
  intros Hd Hn Ho. destruct (nonempty_pos d b Hn) as [A [B C]]. unfold vol in Ho.
  assert (E : boff d b = fun i => (i0 i - i0 (b_from b)) +
     (if Nat.ltb 1 d then (i1 i - i1 (b_from b)) * w0 b + (if Nat.ltb 2 d then (i2 i - i2 (b_from b)) * (w0 b * w1 b) else 0) else 0)) by reflexivity.
  rewrite E. unfold InBox, canon.
  assert (W0 : i0 (b_to b) = i0 (b_from b) + w0 b) by (unfold w0; lia).
  assert (W1 : i1 (b_to b) = i1 (b_from b) + w1 b) by (unfold w1; lia).
  assert (W2 : i2 (b_to b) = i2 (b_from b) + w2 b) by (unfold w2; lia).
  set (p := w0 b) in *. set (q := w1 b) in *. set (r := w2 b) in *. clearbody p q r. clear E.
  assert (M := Z.mod_pos_bound o p A). assert (D := Z.div_mod o p ltac:(lia)).
  destruct Hd as [->|[->| ->]]; simpl in *.
  - exists (mkIdx (i0 (b_from b) + o) 0 0). simpl. lia.
  - specialize (B ltac:(lia)).
    assert (0 <= o / p) by (apply Z.div_pos; lia).
    assert (o / p < q) by (apply Z.div_lt_upper_bound; lia).
    exists (mkIdx (i0 (b_from b) + o mod p) (i1 (b_from b) + o / p) 0). simpl. conjs; intros; try lia.
  - specialize (B ltac:(lia)). specialize (C ltac:(lia)).
    assert (0 <= o / p) by (apply Z.div_pos; lia).
    assert (o / p < q * r) by (apply Z.div_lt_upper_bound; lia).
    assert (M2 := Z.mod_pos_bound (o / p) q B). assert (D2 := Z.div_mod (o / p) q ltac:(lia)).
    assert (0 <= o / p / q) by (apply Z.div_pos; lia).
    assert (o / p / q < r) by (apply Z.div_lt_upper_bound; lia).
    exists (mkIdx (i0 (b_from b) + o mod p) (i1 (b_from b) + (o / p) mod q) (i2 (b_from b) + o / p / q)).
    simpl. conjs; intros; try lia.
Qed.

(* the offset function on the indexes of a section *)
Lemma offset_ok sp l n b i : valid_dims (sp_dims sp) -> Built sp l -> SectionBox l n b -> InBox (sp_dims sp) i b ->
  offset_lex l n i = Ok (boff (sp_dims sp) b i).
Proof.
  intros Hd HB HS Hi. destruct (section_entry sp l n b Hd HB HS) as [e [H1 [H2 [H3 [H4 _]]]]].
  destruct (Built_wf sp l Hd HB) as [W _]. unfold offset_lex.
  unfold cassert. destruct ((0 <=? n) && (n <? Z.of_nat (length (lx_e l)))) eqn:E; [|lia].
  rewrite H2. simpl. rewrite W, (lexoff_boff sp e i H4), H3.
  assert (R := boff_range _ b i Hd Hi). destruct H4 as (_ & _ & _ & H5 & _). rewrite H5, H3.
  destruct ((0 <=? boff (sp_dims sp) b i) && (boff (sp_dims sp) b i <? vol (sp_dims sp) b)) eqn:F; [reflexivity|lia].
Qed.

Lemma boff_can d b i : boff d b (can d i) = boff d b i.
Proof. unfold boff, can; simpl. destruct (Nat.ltb 1 d), (Nat.ltb 2 d); reflexivity. Qed.

Lemma boff_inj d b i j : valid_dims d -> InBox d i b -> InBox d j b -> boff d b i = boff d b j -> SameIndex d i j.
Proof.
  intros Hd Hi Hj E. destruct (LexLt_total d i j Hd) as [L|[L|L]]; auto.
  - assert (G := boff_mono d b i j Hd Hi Hj L). lia.
  - assert (G := boff_mono d b j i Hd Hj Hi L). lia.
Qed.

(* section_lex finds the first section with the index *)
Lemma section_loop_spec d i l : valid_dims d -> forall n,
  let r := section_loop d i n l in
  (r = -1 /\ forall e, In e l -> ~ InBox d i (r_box (le_range e))) \/
  (exists k e, r = n + Z.of_nat k /\ nth_error l k = Some e /\ InBox d i (r_box (le_range e)) /\
     forall k' e', (k' < k)%nat -> nth_error l k' = Some e' -> ~ InBox d i (r_box (le_range e'))).
Proof.
  intros Hd. induction l as [|e l IH]; intros n r.
  - left. split; auto.
  - assert (K : (r = n /\ InBox d i (r_box (le_range e))) \/ (r = section_loop d i (n + 1) l /\ ~ InBox d i (r_box (le_range e)))).
    { unfold r, InBox. simpl.
      destruct ((i0 i <? i0 (b_from (r_box (le_range e)))) || (i0 i >=? i0 (b_to (r_box (le_range e))))) eqn:E0; [right; split; [auto|lia]|].
      destruct Hd as [->|[->| ->]]; simpl.
      - left. lia.
      - destruct ((i1 i <? i1 (b_from (r_box (le_range e)))) || (i1 i >=? i1 (b_to (r_box (le_range e))))) eqn:E1; [right; split; [auto|lia]|].
        left. lia.
      - destruct ((i1 i <? i1 (b_from (r_box (le_range e)))) || (i1 i >=? i1 (b_to (r_box (le_range e))))) eqn:E1; [right; split; [auto|lia]|].
        destruct ((i2 i <? i2 (b_from (r_box (le_range e)))) || (i2 i >=? i2 (b_to (r_box (le_range e))))) eqn:E2; [right; split; [auto|lia]|].
        left. lia. }
    destruct K as [[K1 K2]|[K1 K2]].
    + right. exists O, e. conjs; simpl; auto. lia. intros; lia.
    + destruct (IH (n + 1)) as [[A B]|[k [e1 [A [B [C D]]]]]].
      * left. split; [congruence|]. intros e1 [<-|Hin]; auto.
      * right. exists (S k), e1. conjs; auto; [lia|]. intros [|k'] e' Hk Hn; simpl in *; [congruence|]. eapply D; eauto. lia.
Qed.
