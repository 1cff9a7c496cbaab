(* Proofs about laik_rangelist_coversSpace *)
From Coq Require Import ZArith List Bool Lia ZifyBool ZifyNat Permutation Sorted.
From Verif Require Import Base Model_Space Spec_Space Proof_Space Model_RangeList Spec_RangeList
  Proof_RangeList.
Import ListNotations.
Open Scope Z_scope.

Lemma InBox_get d i b : valid_dims d ->
  (InBox d i b <-> forall k, (k < d)%nat -> idx_get (b_from b) k <= idx_get i k < idx_get (b_to b) k).
Proof.
  intros Hd. unfold InBox. split.
  - intros H k Hk. destruct k as [|[|[|k]]]; simpl; dims_cases Hd; lia.
  - intros H. split; [apply (H 0%nat); dims_cases Hd; lia|].
    split; intros K; [apply (H 1%nat); auto|apply (H 2%nat); auto].
Qed.

Lemma get_set i d v : (d < 3)%nat -> idx_get (idx_set i d v) d = v.
Proof. destruct d as [|[|[|d]]]; simpl; auto; lia. Qed.
Lemma get_set_other i d d' v : (d < 3)%nat -> (d' < 3)%nat -> d <> d' ->
  idx_get (idx_set i d v) d' = idx_get i d'.
Proof. destruct d as [|[|[|d]]], d' as [|[|[|d']]]; simpl; intros; auto; lia. Qed.

(* union of a list of boxes *)
Definition Un (d : nat) (l : list box) (i : index) : Prop := exists b, In b l /\ InBox d i b.

Lemma Un_app d l1 l2 i : Un d (l1 ++ l2) i <-> Un d l1 i \/ Un d l2 i.
Proof.
  unfold Un. split.
  - intros [b [H K]]. apply in_app_iff in H. destruct H; [left|right]; eauto.
  - intros [[b [H K]]|[b [H K]]]; exists b; rewrite in_app_iff; auto.
Qed.
Lemma Un_one d b i : Un d [b] i <-> InBox d i b.
Proof. unfold Un. split; [intros [x [[E|[]] K]]; subst; auto|intros; exists b; simpl; auto]. Qed.
Lemma Un_nil d i : ~ Un d [] i.
Proof. intros [b [[] _]]. Qed.

Section CoverDim.
  Variables (dims : nat) (old : Z) (rm : box).
  Hypothesis Hd : valid_dims dims.

  Lemma dims3 k : (k < dims)%nat -> (k < 3)%nat.
  Proof. pose proof Hd as Hd'. unfold valid_dims in Hd'. lia. Qed.

  (* orig' is orig clipped to rm in dimension k *)
  Definition clip (k : nat) (orig : box) : box :=
    mkBox (idx_set (b_from orig) k (Z.max (idx_get (b_from orig) k) (idx_get (b_from rm) k)))
          (idx_set (b_to orig) k (Z.min (idx_get (b_to orig) k) (idx_get (b_to rm) k))).

  Definition ovl (k : nat) (orig : box) : Prop :=
    idx_get (b_from orig) k < idx_get (b_to rm) k /\ idx_get (b_from rm) k < idx_get (b_to orig) k.

  Lemma idx_set_same i k : (k < 3)%nat -> idx_set i k (idx_get i k) = i.
  Proof. destruct i, k as [|[|[|k]]]; simpl; auto; lia. Qed.

  Lemma InBox_upd_from orig k v i : (k < dims)%nat ->
    (InBox dims i (mkBox (idx_set (b_from orig) k v) (b_to orig)) <->
     (forall j, (j < dims)%nat -> j <> k -> idx_get (b_from orig) j <= idx_get i j < idx_get (b_to orig) j) /\
     v <= idx_get i k < idx_get (b_to orig) k).
  Proof.
    intros Hk. rewrite InBox_get by auto. simpl. split.
    - intros H. split.
      + intros j Hj Hne. specialize (H j Hj). rewrite get_set_other in H; auto using dims3.
      + specialize (H k Hk). rewrite get_set in H; auto using dims3.
    - intros [H1 H2] j Hj. destruct (Nat.eq_dec k j).
      + subst. rewrite get_set; auto using dims3.
      + rewrite get_set_other; auto using dims3.
  Qed.
  Lemma InBox_upd_to orig k v i : (k < dims)%nat ->
    (InBox dims i (mkBox (b_from orig) (idx_set (b_to orig) k v)) <->
     (forall j, (j < dims)%nat -> j <> k -> idx_get (b_from orig) j <= idx_get i j < idx_get (b_to orig) j) /\
     idx_get (b_from orig) k <= idx_get i k < v).
  Proof.
    intros Hk. rewrite InBox_get by auto. simpl. split.
    - intros H. split.
      + intros j Hj Hne. specialize (H j Hj). rewrite get_set_other in H; auto using dims3.
      + specialize (H k Hk). rewrite get_set in H; auto using dims3.
    - intros [H1 H2] j Hj. destruct (Nat.eq_dec k j).
      + subst. rewrite get_set; auto using dims3.
      + rewrite get_set_other; auto using dims3.
  Qed.
  Lemma InBox_split orig k i : (k < dims)%nat ->
    (InBox dims i orig <->
     (forall j, (j < dims)%nat -> j <> k -> idx_get (b_from orig) j <= idx_get i j < idx_get (b_to orig) j) /\
     idx_get (b_from orig) k <= idx_get i k < idx_get (b_to orig) k).
  Proof.
    intros Hk. rewrite InBox_get by auto. split; [intros H0; split; auto|].
    intros [H1 H2] j Hj. destruct (Nat.eq_dec j k); [subst; auto|auto].
  Qed.

  Lemma cover_dim_ok orig acc k orig' acc' :
    (k < dims)%nat -> ovl k orig ->
    cover_dim old rm (orig, acc) k = Ok (orig', acc') ->
    orig' = clip k orig /\
    exists ps, acc' = acc ++ ps /\
      (forall i, Un dims ps i -> InBox dims i orig /\ ~ InBox dims i rm) /\
      (forall i, InBox dims i orig -> InBox dims i orig' \/ Un dims ps i) /\
      (* pieces of a non-empty range are not empty *)
      (NonEmpty dims orig -> idx_get (b_from rm) k < idx_get (b_to rm) k ->
        NonEmpty dims orig' /\ Forall (NonEmpty dims) ps).
  Proof.
    intros Hk [Ho1 Ho2] H. unfold cover_dim in H. pose proof (dims3 k Hk) as K3.
    set (f := idx_get (b_from orig) k) in *. set (t := idx_get (b_to orig) k) in *.
    set (rf := idx_get (b_from rm) k) in *. set (rt := idx_get (b_to rm) k) in *.
    assert (Cl : clip k orig = mkBox (idx_set (b_from orig) k (Z.max f rf)) (idx_set (b_to orig) k (Z.min t rt))) by reflexivity.
    (* four cases *)
    set (p1 := mkBox (b_from orig) (idx_set (b_to orig) k rf)) in *.
    set (ps := (if f <? rf then [p1] else []) ++
               (if t >? rt then [mkBox (idx_set (idx_set (b_from orig) k (Z.max f rf)) k rt) (b_to orig)] else [])).
    assert (R : orig' = clip k orig /\ acc' = acc ++ ps).
    { rewrite Cl. unfold ps. clear Cl ps. destruct (f <? rf) eqn:E1.
      - unfold appendToNotcovered in H.
        destruct (old + Z.of_nat (length acc) <? coverlist_max) eqn:C1; simpl in H; [|discriminate].
        fold t in H. destruct (t >? rt) eqn:E2.
        + destruct (old + Z.of_nat (length (acc ++ [p1])) <? coverlist_max) eqn:C2; simpl in H; [|discriminate].
          inversion H; subst. rewrite Z.max_r, Z.min_r by lia. rewrite <- app_assoc. auto.
        + inversion H; subst. rewrite Z.max_r by lia. rewrite Z.min_l by lia.
          unfold t. rewrite idx_set_same by auto. auto.
      - simpl in H. fold t in H. rewrite Z.max_l by lia. unfold f at 1. rewrite idx_set_same by auto. destruct (t >? rt) eqn:E2.
        + unfold appendToNotcovered in H.
          destruct (old + Z.of_nat (length acc) <? coverlist_max) eqn:C1; simpl in H; [|discriminate].
          inversion H; subst. rewrite Z.min_r by lia. simpl. 
          split; auto. unfold f. rewrite idx_set_same by auto. auto.
        + inversion H; subst. rewrite Z.min_l by lia. unfold t. rewrite idx_set_same by auto.
          rewrite app_nil_r. destruct orig'; auto. }
    destruct R as [R1 R2]. split; auto. exists ps. split; auto.
    assert (SS : idx_set (idx_set (b_from orig) k (Z.max f rf)) k rt = idx_set (b_from orig) k rt).
    { clear. destruct k as [|[|[|k]]]; reflexivity. }
    assert (U : forall i, Un dims ps i <->
       (forall j, (j < dims)%nat -> j <> k -> idx_get (b_from orig) j <= idx_get i j < idx_get (b_to orig) j) /\
       ((f < rf /\ f <= idx_get i k < rf) \/ (t > rt /\ rt <= idx_get i k < t))).
    { intros i. unfold ps. rewrite SS, Un_app.
      assert (A : Un dims (if f <? rf then [p1] else []) i <->
        (forall j, (j < dims)%nat -> j <> k -> idx_get (b_from orig) j <= idx_get i j < idx_get (b_to orig) j) /\
        (f < rf /\ f <= idx_get i k < rf)).
      { destruct (f <? rf) eqn:E.
        - rewrite Un_one. unfold p1. rewrite InBox_upd_to by auto. fold f. intuition lia.
        - split; [intros K; exfalso; eapply Un_nil; eauto|lia]. }
      assert (B : Un dims (if t >? rt then [mkBox (idx_set (b_from orig) k rt) (b_to orig)] else []) i <->
        (forall j, (j < dims)%nat -> j <> k -> idx_get (b_from orig) j <= idx_get i j < idx_get (b_to orig) j) /\
        (t > rt /\ rt <= idx_get i k < t)).
      { destruct (t >? rt) eqn:E.
        - rewrite Un_one. rewrite InBox_upd_from by auto. fold t. intuition lia.
        - split; [intros K; exfalso; eapply Un_nil; eauto|lia]. }
      rewrite A, B. tauto. }
    assert (V : forall i, InBox dims i orig' <->
       (forall j, (j < dims)%nat -> j <> k -> idx_get (b_from orig) j <= idx_get i j < idx_get (b_to orig) j) /\
       Z.max f rf <= idx_get i k < Z.min t rt).
    { intros i. rewrite R1, Cl. rewrite InBox_get by auto. simpl. split.
      - intros H0. split.
        + intros j Hj Hne. specialize (H0 j Hj). rewrite !get_set_other in H0; auto using dims3.
        + specialize (H0 k Hk). rewrite !get_set in H0; auto.
      - intros [H1 H2] j Hj. destruct (Nat.eq_dec k j).
        + subst j. rewrite !get_set; auto.
        + rewrite !get_set_other; auto using dims3. }
    split; [|split].
    - intros i Hi. apply U in Hi. destruct Hi as [Hi1 Hi2]. split.
      + apply (InBox_split orig k); auto. split; auto. fold f t. lia.
      + intros Hr. apply (InBox_split rm k) in Hr; auto. fold rf rt in Hr. lia.
    - intros i Hi. apply (InBox_split orig k) in Hi; auto. fold f t in Hi. destruct Hi as [Hi1 Hi2].
      destruct (Z_lt_dec (idx_get i k) rf).
      + right. apply U. split; auto. left; lia.
      + destruct (Z_lt_dec (idx_get i k) rt).
        * left. apply V. split; auto. lia.
        * right. apply U. split; auto. right; lia.
    - intros [i Hi] Hr. apply (InBox_split orig k) in Hi; auto. fold f t in Hi. destruct Hi as [Hi1 Hi2].
      assert (W : forall v b, (b = true -> forall j, (j < dims)%nat -> j <> k ->
          idx_get (b_from orig) j <= idx_get (idx_set i k v) j < idx_get (b_to orig) j)).
      { intros v b _ j Hj Hne. rewrite get_set_other; auto using dims3. }
      split.
      + exists (idx_set i k (Z.max f rf)). apply V. split; [apply (W _ true); auto|].
        rewrite get_set by auto. lia.
      + unfold ps. rewrite SS. apply Forall_app. split.
        * destruct (f <? rf) eqn:E; constructor; auto.
          exists (idx_set i k f). unfold p1. apply InBox_upd_to; auto.
          split; [apply (W _ true); auto|]. rewrite get_set by auto. fold f. lia.
        * destruct (t >? rt) eqn:E; constructor; auto.
          exists (idx_set i k rt). apply InBox_upd_from; auto.
          split; [apply (W _ true); auto|]. rewrite get_set by auto. fold t. lia.
  Qed.

  Lemma clip_ovl k j orig : (k < dims)%nat -> (j < dims)%nat -> k <> j -> ovl j orig -> ovl j (clip k orig).
  Proof.
    intros. unfold ovl, clip in *. simpl. rewrite !get_set_other; auto using dims3.
  Qed.

  Lemma cover_dims_ok ks : forall orig acc orig' acc',
    NoDup ks -> (forall k, In k ks -> (k < dims)%nat /\ ovl k orig) ->
    ofold (cover_dim old rm) ks (orig, acc) = Ok (orig', acc') ->
    exists ps, acc' = acc ++ ps /\
      (forall i, Un dims ps i -> InBox dims i orig /\ ~ InBox dims i rm) /\
      (forall i, InBox dims i orig -> InBox dims i orig' \/ Un dims ps i) /\
      (forall i, InBox dims i orig' -> InBox dims i orig /\
         forall k, In k ks -> idx_get (b_from rm) k <= idx_get i k < idx_get (b_to rm) k) /\
      (NonEmpty dims orig -> NonEmpty dims rm -> Forall (NonEmpty dims) ps).
  Proof.
    induction ks as [|k ks IH]; simpl; intros orig acc orig' acc' Hnd Hk H.
    - inversion H; subst. exists []. rewrite app_nil_r. split; auto. split; [|split; [auto|split]].
      + intros i Hi. exfalso; eapply Un_nil; eauto.
      + intros i Hi. split; auto. intros k [].
      + intros; constructor.
    - apply obind_ok in H. destruct H as [[o1 a1] [H1 H2]].
      destruct (Hk k (or_introl eq_refl)) as [Hk1 Hk2]. inversion Hnd; subst.
      destruct (cover_dim_ok _ _ _ _ _ Hk1 Hk2 H1) as [C1 [ps [C2 [C3 [C4 C5]]]]].
      destruct (IH o1 a1 orig' acc' H4) as [qs [Q1 [Q2 [Q3 [Q4 Q5]]]]]; auto.
      { intros j Hj. destruct (Hk j (or_intror Hj)). split; auto. subst o1. apply clip_ovl; auto.
        intros ->. auto. }
      assert (Sub : forall i, InBox dims i o1 -> InBox dims i orig /\
                 idx_get (b_from rm) k <= idx_get i k < idx_get (b_to rm) k).
      { intros i Hi. subst o1. rewrite InBox_get in Hi by auto. unfold clip in Hi; simpl in Hi.
        pose proof (Hi k Hk1) as Hik. rewrite !get_set in Hik by (auto using dims3).
        split; [|lia]. apply InBox_get; auto. intros j Hj. destruct (Nat.eq_dec k j).
        - subst j. lia.
        - specialize (Hi j Hj). rewrite !get_set_other in Hi; auto using dims3. }
      exists (ps ++ qs). split; [rewrite Q1, C2, app_assoc; auto|].
      split; [|split; [|split]].
      + intros i Hi. apply Un_app in Hi. destruct Hi as [Hi|Hi]; [apply C3; auto|].
        destruct (Q2 i Hi) as [Ha Hb]. destruct (Sub i Ha). auto.
      + intros i Hi. rewrite Un_app. destruct (C4 i Hi) as [K|K]; [|auto]. destruct (Q3 i K); auto.
      + intros i Hi. destruct (Q4 i Hi) as [Ha Hb]. destruct (Sub i Ha) as [Hc He]. split; auto.
        intros j [<-|Hj]; auto.
      + intros N1 N2. destruct C5 as [C5a C5b]; auto.
        { destruct N2 as [i Hi]. rewrite InBox_get in Hi by auto. specialize (Hi k Hk1). lia. }
        apply Forall_app. split; auto.
  Qed.
End CoverDim.

Lemma box_intersect_ovl d a b c : valid_dims d -> box_intersect d a b = Some c ->
  forall k, (k < d)%nat -> ovl b k a.
Proof.
  intros Hd H k Hk. unfold box_intersect, box_intersect_g in H. unfold ovl.
  destruct (intersectRange (i0 (b_from a)) _ _ _) as [[f0 t0]|] eqn:E0; try discriminate.
  apply intersectRange_some in E0.
  dims_cases Hd; simpl in H.
  - destruct k; [simpl|]; lia.
  - destruct (intersectRange (i1 (b_from a)) _ _ _) as [[f1 t1]|] eqn:E1; try discriminate.
    apply intersectRange_some in E1. destruct k as [|[|k]]; simpl; lia.
  - destruct (intersectRange (i1 (b_from a)) _ _ _) as [[f1 t1]|] eqn:E1; try discriminate.
    apply intersectRange_some in E1.
    destruct (intersectRange (i2 (b_from a)) _ _ _) as [[f2 t2]|] eqn:E2; try discriminate.
    apply intersectRange_some in E2. destruct k as [|[|[|k]]]; simpl; lia.
Qed.

Lemma cover_one_ok dims old rm acc orig acc' : valid_dims dims ->
  cover_one dims old rm acc orig = Ok acc' ->
  exists ps, acc' = acc ++ ps /\
    (forall i, Un dims ps i <-> InBox dims i orig /\ ~ InBox dims i rm) /\
    (NonEmpty dims orig -> NonEmpty dims rm -> Forall (NonEmpty dims) ps).
Proof.
  intros Hd H. unfold cover_one in H.
  destruct (box_intersect dims orig rm) as [c|] eqn:E.
  - apply obind_ok in H. destruct H as [[o a] [H1 H2]]. simpl in H2. inversion H2; subst a; clear H2.
    destruct (cover_dims_ok dims old rm Hd (seq 0 dims) orig acc o acc') as [ps [P1 [P2 [P3 [P4 P5]]]]]; auto.
    + apply seq_NoDup.
    + intros k Hk. apply in_seq in Hk. split; [lia|].
      apply (box_intersect_ovl dims orig rm c Hd E k). lia.
    + exists ps. split; auto. split; auto. intros i. split; [apply P2|].
      intros [Hi Hr]. destruct (P3 i Hi) as [K|K]; auto. exfalso. apply Hr.
      apply InBox_get; auto. intros k Hk. apply P4 in K. apply K. apply in_seq. lia.
  - unfold appendToNotcovered in H. apply cassert_ok in H. destruct H as [_ H]. inversion H; subst.
    exists [orig]. split; auto. split.
    + intros i. rewrite Un_one. split; [|tauto]. intros Hi. split; auto. intros Hr.
      eapply box_intersect_g_none; eauto.
    + intros; constructor; auto.
Qed.

Lemma cover_ones_ok dims old rm : valid_dims dims -> forall nc acc acc',
  ofold (cover_one dims old rm) nc acc = Ok acc' ->
  exists ps, acc' = acc ++ ps /\
    (forall i, Un dims ps i <-> Un dims nc i /\ ~ InBox dims i rm) /\
    (Forall (NonEmpty dims) nc -> NonEmpty dims rm -> Forall (NonEmpty dims) ps).
Proof.
  intros Hd. induction nc as [|o nc IH]; simpl; intros acc acc' H.
  - inversion H; subst. exists []. rewrite app_nil_r. split; auto. split; auto.
    intros i. split; [intros K|intros [K _]]; exfalso; eapply Un_nil; eauto.
  - apply obind_ok in H. destruct H as [a1 [H1 H2]].
    destruct (cover_one_ok _ _ _ _ _ _ Hd H1) as [ps [P1 [P2 P3]]].
    destruct (IH _ _ H2) as [qs [Q1 [Q2 Q3]]].
    exists (ps ++ qs). split; [subst; rewrite app_assoc; auto|]. split.
    + intros i. rewrite Un_app, P2, Q2.
      change (o :: nc) with ([o] ++ nc). rewrite Un_app, Un_one. tauto.
    + intros F N. inversion F; subst. apply Forall_app. split; auto.
Qed.

Definition CoveredBy (d : nat) (l : list trg) (i : index) : Prop :=
  exists x, In x l /\ InBox d i (t_box x).

Lemma cover_loop_ok dims : valid_dims dims -> forall rms nc b,
  cover_loop dims rms nc = Ok b ->
  (b = true -> forall i, Un dims nc i -> CoveredBy dims rms i) /\
  (Forall (NonEmpty dims) nc -> Forall (fun x => NonEmpty dims (t_box x)) rms ->
   (forall i, Un dims nc i -> CoveredBy dims rms i) -> (nc <> [] -> b = true) /\ (nc = [] -> b = true)).
Proof.
  intros Hd. induction rms as [|rm rms IH]; simpl; intros nc b H.
  - inversion H; subst. destruct nc as [|o nc]; split; auto; try discriminate.
    + intros _ i Hi. exfalso. eapply Un_nil; eauto.
    + intros F _ Hc. exfalso. inversion F; subst. destruct H2 as [i Hi].
      destruct (Hc i) as [x [[] _]]. exists o; simpl; auto.
  - apply obind_ok in H. destruct H as [nc' [H1 H2]].
    destruct (cover_ones_ok _ _ _ Hd _ _ _ H1) as [ps [P1 [P2 P3]]]. simpl in P1. subst ps.
    assert (Cons : forall i, CoveredBy dims (rm :: rms) i <-> InBox dims i (t_box rm) \/ CoveredBy dims rms i).
    { intros i. unfold CoveredBy. split.
      - intros [x [[E|K] K2]]; subst; eauto.
      - intros [K|[x [K K2]]]; [exists rm|exists x]; simpl; auto. }
    destruct nc' as [|o nc'].
    + inversion H2; subst. split; auto. intros _ i Hi. apply Cons. left.
      assert (D : InBox dims i (t_box rm) \/ ~ InBox dims i (t_box rm)).
      { destruct (box_within dims (mkBox i (mkIdx (i0 i + 1) (i1 i + 1) (i2 i + 1))) (t_box rm)) eqn:W.
        - left. apply box_within_sound in W; auto. apply W. unfold InBox; simpl; lia.
        - right. intros K. rewrite box_within_complete in W; auto; try discriminate.
          + exists i. unfold InBox; simpl; lia.
          + intros j Hj. unfold InBox in *; simpl in *. lia. }
      destruct D as [D|D]; auto. exfalso. eapply Un_nil. apply P2. eauto.
    + destruct (IH _ _ H2) as [I1 I2]. split.
      * intros Hb i Hi. apply Cons.
        assert (D : InBox dims i (t_box rm) \/ ~ InBox dims i (t_box rm)).
        { destruct (box_within dims (mkBox i (mkIdx (i0 i + 1) (i1 i + 1) (i2 i + 1))) (t_box rm)) eqn:W.
          - left. apply box_within_sound in W; auto. apply W. unfold InBox; simpl; lia.
          - right. intros K. rewrite box_within_complete in W; auto; try discriminate.
            + exists i. unfold InBox; simpl; lia.
            + intros j Hj. unfold InBox in *; simpl in *. lia. }
        destruct D as [D|D]; auto. right. apply I1; auto. apply P2. auto.
      * intros F Fr Hc. inversion Fr; subst.
        destruct (I2 (P3 F H3) H4) as [J1 J2].
        { intros i Hi. apply P2 in Hi. destruct Hi as [Hi Hr]. apply Hc in Hi. apply Cons in Hi. tauto. }
        split; intros; apply J1; discriminate.
Qed.

Lemma covers_sound : forall qf l,
  valid_dims (sp_dims (rl_space l)) -> is_qsort trgen_cmpfrom qf ->
  rl_coversSpace qf l = Ok true ->
  forall i, InBox (sp_dims (rl_space l)) i (sp_box (rl_space l)) -> 
    exists x, In x (rl_trs l) /\ InBox (sp_dims (rl_space l)) i (t_box x).
Proof.
  intros qf l Hd Hq H i Hi. destruct (Hq (rl_trs l)) as [P _].
  destruct (cover_loop_ok _ Hd _ _ _ H) as [A _].
  destruct (A eq_refl i) as [x [Hx K]]; [apply Un_one; auto|].
  exists x. split; auto. eapply Permutation_in; [apply Permutation_sym|]; eauto.
Qed.

Lemma covers_complete : forall qf l b,
  valid_dims (sp_dims (rl_space l)) -> is_qsort trgen_cmpfrom qf ->
  NonEmpty (sp_dims (rl_space l)) (sp_box (rl_space l)) ->
  Forall (fun x => NonEmpty (sp_dims (rl_space l)) (t_box x)) (rl_trs l) ->
  rl_coversSpace qf l = Ok b ->
  (forall i, InBox (sp_dims (rl_space l)) i (sp_box (rl_space l)) -> 
    exists x, In x (rl_trs l) /\ InBox (sp_dims (rl_space l)) i (t_box x)) ->
  b = true.
Proof.
  intros qf l b Hd Hq Hn F H Hc. destruct (Hq (rl_trs l)) as [P _].
  destruct (cover_loop_ok _ Hd _ _ _ H) as [_ A].
  destruct A as [A _].
  - constructor; auto.
  - eapply Forall_perm; eauto.
  - intros i Hi. apply Un_one in Hi. destruct (Hc i Hi) as [x [Hx K]]. exists x. split; auto.
    eapply Permutation_in; eauto.
  - apply A. discriminate.
Qed.

(* 1d: a covering list of non-empty ranges is always recognised, the internal
   limit does not matter *)
Lemma cover_loop_1d : forall rms a t y1 y2 z1 z2,
  StronglySorted (fun x y => trgen_cmpfrom x y <= 0) rms ->
  Forall (fun x => i0 (b_from (t_box x)) < i0 (b_to (t_box x))) rms ->
  a < t -> (forall v, a <= v < t -> exists x, In x rms /\ i0 (b_from (t_box x)) <= v < i0 (b_to (t_box x))) ->
  cover_loop 1 rms [mkBox (mkIdx a y1 y2) (mkIdx t z1 z2)] = Ok true.
Proof.
  induction rms as [|rm rms IH]; intros a t y1 y2 z1 z2 Hs Hf Hat Hc.
  - destruct (Hc a) as [x [[] _]]. lia.
  - inversion Hs as [|? ? Hs1 Hs2]; subst. inversion Hf as [|? ? Hf1 Hf2]; subst.
    assert (Hle : i0 (b_from (t_box rm)) <= a).
    { destruct (Hc a) as [x [[E|Hx] K]]; [lia|subst; lia|].
      rewrite Forall_forall in Hs2. specialize (Hs2 x Hx). rewrite trgen_cmpfrom_le in Hs2. lia. }
    cbn [cover_loop ofold obind length]. unfold cover_one.
    unfold box_intersect, box_intersect_g. cbn [b_from b_to i0 i1 i2].
    destruct (Z_le_dec (i0 (b_to (t_box rm))) a).
    + (* no overlap *)
      assert (En : intersectRange a t (i0 (b_from (t_box rm))) (i0 (b_to (t_box rm))) = None).
      { unfold intersectRange. replace (a >=? i0 (b_to (t_box rm))) with true by lia. auto. }
      rewrite En. unfold appendToNotcovered. simpl. apply IH; auto.
      intros v Hv. destruct (Hc v Hv) as [x [[E|Hx] K]]; [subst; lia|eauto].
    + destruct (intersectRange a t (i0 (b_from (t_box rm))) (i0 (b_to (t_box rm)))) as [[f0 t0]|] eqn:E.
      2:{ exfalso. eapply (intersectRange_none _ _ _ _ a); eauto; lia. }
      cbn [Nat.ltb Nat.leb seq ofold obind]. unfold cover_dim. cbn [idx_get b_from b_to i0 i1 i2 idx_set].
      replace (a <? i0 (b_from (t_box rm))) with false by lia. cbn [obind b_to i0 idx_get b_from i1 i2].
      destruct (t >? i0 (b_to (t_box rm))) eqn:E2.
      * unfold appendToNotcovered. simpl. apply IH; auto; [lia|].
        intros v Hv. destruct (Hc v) as [x [[E3|Hx] K]]; [lia|subst; lia|eauto].
      * simpl. reflexivity.
Qed.

Lemma covers_1d_total : forall qf l,
  sp_dims (rl_space l) = 1%nat -> is_qsort trgen_cmpfrom qf ->
  NonEmpty 1 (sp_box (rl_space l)) ->
  Forall (fun x => NonEmpty 1 (t_box x)) (rl_trs l) ->
  (forall i, InBox 1 i (sp_box (rl_space l)) -> exists x, In x (rl_trs l) /\ InBox 1 i (t_box x)) ->
  rl_coversSpace qf l = Ok true.
Proof.
  intros qf l Hd Hq Hn F Hc. destruct (Hq (rl_trs l)) as [P S].
  unfold rl_coversSpace. rewrite Hd.
  destruct (sp_box (rl_space l)) as [[a y1 y2] [t z1 z2]] eqn:E.
  apply cover_loop_1d; auto.
  - eapply Forall_perm; [exact P|]. eapply Forall_impl; [|exact F].
    intros x [i Hi]. unfold InBox in Hi. lia.
  - destruct Hn as [i Hi]. unfold InBox in Hi; simpl in Hi. lia.
  - intros v Hv. destruct (Hc (mkIdx v 0 0)) as [x [Hx K]]; [unfold InBox; simpl; lia|].
    exists x. split; [eapply Permutation_in; eauto|]. unfold InBox in K; simpl in K. lia.
Qed.
