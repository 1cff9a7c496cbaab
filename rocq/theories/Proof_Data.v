(* Preparation of mappings *)
From Coq Require Import ZArith List Bool Lia Sorted Permutation ZifyBool ZifyNat.
From Verif Require Import Base Model_Space Model_RangeList Model_Mem Model_Layout Model_Partitioner Model_Transition Model_Data
  Spec_Space Spec_RangeList Spec_Partitioner Spec_Type Spec_Layout Spec_Data
  Proof_Space Proof_RangeList Proof_RangeList4 Proof_RangeList5 Proof_Partitioner2 Proof_Layout Proof_Layout2.
Import ListNotations.
Open Scope Z_scope.

Lemma aread_iff {A} (l : list A) n x : aread l n = Ok x <-> 0 <= n /\ nth_error l (Z.to_nat n) = Some x.
Proof.
  split; [apply aread_ok|]. intros [H1 H2]. unfold aread. replace (n <? 0) with false by lia. now rewrite H2.
Qed.
Lemma aread_nat {A} (l : list A) n x : aread l (Z.of_nat n) = Ok x <-> nth_error l n = Some x.
Proof. rewrite aread_iff, Nat2Z.id. intuition lia. Qed.

(* volume of a part *)
Lemma sub_ends d a b : valid_dims d -> NonEmpty d a -> SubBox d a b ->
  i0 (b_from b) <= i0 (b_from a) /\ i0 (b_to a) <= i0 (b_to b) /\
  ((1 < d)%nat -> i1 (b_from b) <= i1 (b_from a) /\ i1 (b_to a) <= i1 (b_to b)) /\
  ((2 < d)%nat -> i2 (b_from b) <= i2 (b_from a) /\ i2 (b_to a) <= i2 (b_to b)).
Proof.
  intros Hd [x Hx] H. destruct Hx as [X0 [X1 X2]].
  assert (A := H (b_from a)). assert (C := H (mkIdx (i0 (b_to a) - 1) (i1 (b_to a) - 1) (i2 (b_to a) - 1))).
  unfold InBox in A, C. simpl in C.
  destruct Hd as [->|[->| ->]]; simpl in *; lia.
Qed.

Lemma vol_sub d a b : valid_dims d -> NonEmpty d a -> SubBox d a b -> vol d a <= vol d b.
Proof.
  intros Hd Hn H. destruct (sub_ends d a b Hd Hn H) as (A & B & C & D).
  destruct (nonempty_pos d a Hn) as (P & Q & R). unfold vol, w0, w1, w2 in *.
  destruct Hd as [->|[->| ->]]; simpl in *.
  - nia.
  - specialize (C ltac:(lia)). specialize (Q ltac:(lia)). nia.
  - specialize (C ltac:(lia)). specialize (Q ltac:(lia)). specialize (D ltac:(lia)). specialize (R ltac:(lia)).
    set (p := i0 (b_to a) - i0 (b_from a)) in *. set (q := i1 (b_to a) - i1 (b_from a)) in *. set (r := i2 (b_to a) - i2 (b_from a)) in *.
    set (p' := i0 (b_to b) - i0 (b_from b)) in *. set (q' := i1 (b_to b) - i1 (b_from b)) in *. set (r' := i2 (b_to b) - i2 (b_from b)) in *.
    assert (p <= p') by lia. assert (q <= q') by lia. assert (r <= r') by lia.
    assert (p * q <= p' * q') by nia. nia.
Qed.

Lemma nonempty_sub d a b : NonEmpty d a -> SubBox d a b -> NonEmpty d b.
Proof. intros [x Hx] H. exists x. auto. Qed.

Section Prep.
  Variable sp : space.
  Hypothesis Hd : valid_dims (sp_dims sp).
  Let d := sp_dims sp.

  (* ranges in order of their map number *)
  Fixpoint chain (k : Z) (l : list trg) : Prop :=
    match l with
    | [] => True
    | x :: l' => (t_mapNo x = k \/ t_mapNo x = k + 1) /\ chain (t_mapNo x) l'
    end.
  Definition lastno (k : Z) (l : list trg) : Z := match rev l with [] => k | x :: _ => t_mapNo x end.

  Lemma lastno_cons k x l : lastno k (x :: l) = lastno (t_mapNo x) l.
  Proof.
    unfold lastno. simpl. destruct (rev l) as [|y r] eqn:E; simpl; auto.
  Qed.
  Lemma chain_last k l : chain k l -> k <= lastno k l.
  Proof.
    revert k. induction l as [|x l IH]; intros k H; [unfold lastno; simpl; lia|].
    rewrite lastno_cons. destruct H as [H1 H2]. specialize (IH _ H2). lia.
  Qed.
  Lemma chain_ge k l x : chain k l -> In x l -> k <= t_mapNo x.
  Proof.
    revert k. induction l as [|y l IH]; intros k H Hin; [destruct Hin|].
    destruct H as [H1 H2]. destruct Hin as [->|Hin]; [lia|]. specialize (IH _ H2 Hin). lia.
  Qed.

  Definition Rg (b : box) : range := mkRange (Some sp) b.

  Lemma expand_ok a b : NonEmpty d a -> NonEmpty d b -> exists c, range_expand (Rg a) (Rg b) = Ok (Rg c) /\ NonEmpty d c /\
    SubBox d a c /\ SubBox d b c /\ forall q, SubBox d a q -> SubBox d b q -> SubBox d c q.
  Proof.
    intros Ha Hb. exists (box_expand d a b). conjs.
    - unfold range_expand, Rg. simpl. rewrite space_eq_refl. reflexivity.
    - destruct Ha as [x Hx]. exists x. apply box_expand_contains; auto.
    - intros x Hx. apply box_expand_contains; auto.
    - intros x Hx. apply box_expand_contains; auto.
    - intros q H1 H2. apply box_expand_least; auto.
  Qed.

  Lemma cover_ok : forall l k cur, chain k l -> NonEmpty d cur -> (forall x, In x l -> NonEmpty d (t_box x)) ->
    exists bs, cover_loop sp k (Rg cur) l = Ok (map Rg bs) /\ Z.of_nat (length bs) = lastno k l - k + 1 /\
      Forall (NonEmpty d) bs /\
      (exists b0, nth_error bs 0 = Some b0 /\ SubBox d cur b0) /\
      (forall x, In x l -> exists b, nth_error bs (Z.to_nat (t_mapNo x - k)) = Some b /\ SubBox d (t_box x) b) /\
      (forall j b c, nth_error bs j = Some b -> (j = O -> SubBox d cur c) ->
         (forall x, In x l -> t_mapNo x = k + Z.of_nat j -> SubBox d (t_box x) c) -> SubBox d b c).
  Proof.
    induction l as [|x l IH]; intros k cur Hc Hn He.
    - exists [cur]. simpl. conjs; auto.
      + unfold lastno; simpl; lia.
      + exists cur. split; auto. intros i Hi; auto.
      + intros x [].
      + intros [|j] b c Hj H0 _; simpl in Hj; [injection Hj as <-; auto|destruct j; discriminate].
    - destruct Hc as [H1 H2]. assert (Hx : NonEmpty d (t_box x)) by (apply He; now left).
      assert (He' : forall y, In y l -> NonEmpty d (t_box y)) by (intros; apply He; now right).
      rewrite lastno_cons. cbn [cover_loop]. destruct (t_mapNo x =? k) eqn:Ek.
      + assert (Ek' : t_mapNo x = k) by lia. rewrite Ek' in *.
        destruct (expand_ok cur (t_box x) Hn Hx) as [c [E1 [E2 [E3 [E4 E5]]]]].
        change (mkRange (Some sp) (t_box x)) with (Rg (t_box x)). rewrite E1. cbn [obind].
        destruct (IH k c H2 E2 He') as [bs [B1 [B2 [B3 [[b0 [B4 B4']] [B5 B6]]]]]].
        exists bs. conjs; auto.
        * exists b0. split; auto. intros i Hi. auto.
        * intros y [<-|Hy]; auto. exists b0. rewrite Ek'. replace (k - k) with 0 by lia. split; auto. intros i Hi; auto.
        * intros j b q Hj H0 HI. apply (B6 j b q Hj).
          -- intros J. apply E5; auto. apply HI; [now left|lia].
          -- intros y Hy. apply HI. now right.
      + assert (Ek' : t_mapNo x = k + 1) by lia. rewrite Ek' in *.
        replace (k + 1 =? k + 1) with true by lia. cbn [cassert].
        destruct (IH (k + 1) (t_box x) H2 Hx He') as [bs [B1 [B2 [B3 [[b0 [B4 B4']] [B5 B6]]]]]].
        change (mkRange (Some sp) (t_box x)) with (Rg (t_box x)). rewrite B1. cbn [obind].
        exists (cur :: bs). conjs; auto.
        * simpl. lia.
        * exists cur. split; auto. intros i Hi; auto.
        * intros y [<-|Hy].
          -- exists b0. rewrite Ek'. replace (Z.to_nat (k + 1 - k)) with 1%nat by lia. split; auto.
          -- destruct (B5 y Hy) as [b [G1 G2]]. exists b. split; auto.
             assert (k + 1 <= t_mapNo y) by (eapply chain_ge; eauto).
             replace (Z.to_nat (t_mapNo y - k)) with (S (Z.to_nat (t_mapNo y - (k + 1)))) by lia. exact G1.
        * intros [|j] b q Hj H0 HI; simpl in Hj; [injection Hj as <-; auto|].
          apply (B6 j b q Hj).
          -- intros J. subst j. apply HI; [now left|lia].
          -- intros y Hy E. apply HI; [now right|lia].
  Qed.

  Lemma prep_loop_ok dc : dc_map0 dc = None -> forall bs k, Forall (fun b => NonEmpty d b /\ vol d b < two64) bs ->
    prepare_loop dc k (map Rg bs) =
      Ok (map (fun p => mkMapping (Rg (snd p)) (vol d (snd p)) None (k + Z.of_nat (fst p)) no_range 0 0 0 0 true (-1))
            (combine (seq 0 (length bs)) bs)).
  Proof.
    intros H0. induction bs as [|b bs IH]; intros k HF; [reflexivity|].
    inversion HF as [|? ? [H1 H2] HF']; subst. cbn [map prepare_loop].
    unfold range_size at 1. cbn [Rg r_space r_box]. fold d. rewrite box_size_vol by auto. cbn [obind]. rewrite H0. cbn [obind].
    rewrite (IH (k + 1) HF'). cbn [obind]. f_equal. simpl. f_equal.
    - f_equal. lia.
    - clear.
      assert (G : forall n, map (fun p : nat * box => mkMapping (Rg (snd p)) (vol d (snd p)) None (k + 1 + Z.of_nat (fst p)) no_range 0 0 0 0 true (-1)) (combine (seq n (length bs)) bs)
        = map (fun p : nat * box => mkMapping (Rg (snd p)) (vol d (snd p)) None (k + Z.of_nat (fst p)) no_range 0 0 0 0 true (-1)) (combine (seq (S n) (length bs)) bs)).
      { induction bs as [|b bs IH]; intros n; auto. simpl. f_equal; [f_equal; lia|apply IH]. }
      apply (G 0%nat).
  Qed.
End Prep.

(* a map not backed by memory yet *)
Definition raw (sp : space) (k : Z) (b : box) : mapping :=
  mkMapping (mkRange (Some sp) b) (vol (sp_dims sp) b) None k no_range 0 0 0 0 true (-1).
Definition RawList (sp : space) (tl : mlist) : Prop :=
  ml_res tl = None /\
  (ml_maps tl <> [] -> exists ly, ml_lay tl = Some ly /\ Built sp ly) /\
  forall k m, aread (ml_maps tl) k = Ok m -> exists b ly, m = raw sp k b /\ NonEmpty (sp_dims sp) b /\ vol (sp_dims sp) b < two64 /\
     ml_lay tl = Some ly /\ SectionBox ly k b.

Lemma chain_of_next (xs : list trg) :
  (forall n x y, nth_error xs n = Some x -> nth_error xs (S n) = Some y -> t_mapNo y = t_mapNo x \/ t_mapNo y = t_mapNo x + 1) ->
  match xs with [] => True | x :: r => chain (t_mapNo x) r end.
Proof.
  destruct xs as [|x r]; auto. revert x. induction r as [|y r IH]; intros x H; simpl; auto. split.
  - apply (H 0%nat); reflexivity.
  - apply IH. intros n a b Ha Hb. apply (H (S n)); auto.
Qed.

Lemma lastno_nth k (xs : list trg) x : nth_error xs (length xs - 1) = Some x -> lastno k xs = t_mapNo x.
Proof.
  intros H. destruct xs as [|a xs _] using rev_ind; [discriminate|].
  unfold lastno. rewrite rev_app_distr. simpl. rewrite app_length in H. simpl in H.
  rewrite nth_error_app2 in H by lia. replace (length xs + 1 - 1 - length xs)%nat with 0%nat in H by lia. simpl in H. congruence.
Qed.

Lemma prepare_ok dc sp l me : dc_map0 dc = None -> OwnRanges sp l me ->
  exists tl, prepare_maps dc l me = Ok tl /\ RawList sp tl /\ Covers l me tl.
Proof.
  intros H0 [Fz Esp Hme Hne Hfirst Hnext [ns [Hns1 Hns2]]].
  destruct (FrozenList_Frozen _ Fz) as [F Hd]. rewrite Esp in Hd.
  destruct (fz_off _ F) as [offs [Ho [Hl Hr]]].
  remember (mine me (rl_trs l)) as xs eqn:Hxs.
  assert (Htr : forall n, rl_tidrange l me n = Ok (if n <? 0 then None else nth_error xs (Z.to_nat n))) by (intros; rewrite Hxs; apply frozen_tidrange; auto).
  assert (Hsl : aslice (rl_trs l) (cnt_lt me (rl_trs l)) (cnt_lt (me + 1) (rl_trs l)) = xs) by (rewrite Hxs; apply slice_mine, (fz_sorted _ F)).
  assert (Hlen : cnt_lt (me + 1) (rl_trs l) - cnt_lt me (rl_trs l) = Z.of_nat (length xs)).
  { pose proof (frozen_tidrangecount l F me Hme) as G. unfold rl_tidrangecount in G. rewrite Ho in G.
    replace ((0 <=? me) && (me <? rl_tids l)) with true in G by lia. cbn [cassert] in G.
    rewrite (Hr (me + 1)), (Hr me) in G by lia. cbn [obind] in G. rewrite <- Hxs in G. congruence. }
  assert (Hlast : forall x, nth_error xs (length xs - 1) = Some x -> aread (rl_trs l) (cnt_lt (me + 1) (rl_trs l) - 1) = Ok x).
  { intros x Hx. assert (length xs <> 0)%nat by (destruct xs; simpl in *; [discriminate|lia]).
    pose proof (sorted_mine_nth (rl_trs l) me (fz_sorted _ F) (length xs - 1)) as G. rewrite <- Hxs in G. rewrite Hx in G.
    pose proof (cnt_lt_bound me (rl_trs l)).
    apply aread_iff. split; [lia|].
    destruct (Z.of_nat (length xs - 1) <? _) eqn:E in G; [|discriminate]. rewrite G. f_equal. lia. }
  assert (Hmc : rl_tidmapcount l me = match xs with [] => Ok 0 | _ => Ok (lastno 0 xs + 1) end).
  { unfold rl_tidmapcount. rewrite Ho. replace ((0 <=? me) && (me <? rl_tids l)) with true by lia. cbn [cassert].
    rewrite (Hr (me + 1)), (Hr me) by lia. cbn [obind]. destruct xs as [|x0 r0] eqn:Ex.
    - replace (_ =? _) with true by (simpl in Hlen; lia). reflexivity.
    - rewrite <- Ex in *. replace (_ =? _) with false by (rewrite Ex in Hlen; simpl in Hlen; lia).
      destruct (nth_error xs (length xs - 1)) as [z|] eqn:Ez.
      + rewrite (Hlast z eq_refl). cbn [obind]. rewrite (lastno_nth 0 xs z Ez). reflexivity.
      + apply nth_error_None in Ez. rewrite Ex in Ez. simpl in Ez. lia. }
  assert (Hxne : forall x, In x xs -> NonEmpty (sp_dims sp) (t_box x)).
  { intros x Hx. apply In_nth_error in Hx. destruct Hx as [n Hn]. apply (Hne (Z.of_nat n)).
    rewrite Htr. replace (Z.of_nat n <? 0) with false by lia. rewrite Nat2Z.id, Hn. reflexivity. }
  assert (Hxsub : forall x, In x xs -> SubBox (sp_dims sp) (t_box x) (sp_box sp)).
  { intros x Hx. rewrite <- Esp. apply frozen_sub; auto. rewrite Hxs in Hx. unfold mine in Hx. apply filter_In in Hx. tauto. }
  unfold prepare_maps. rewrite Ho, (Hr me), (Hr (me + 1)) by lia. cbn [obind]. rewrite Hlen, Hsl, Esp.
  destruct xs as [|x0 r0] eqn:Ex.
  - simpl length. change (Z.of_nat 0 >? 0) with false. cbn [obind]. change (covering_ranges 0 sp []) with (@Ok (list range) []).
    cbn [obind]. change (0 >? 0) with false. cbn [obind prepare_loop]. eexists. split; [reflexivity|]. split.
    + split; [reflexivity|]. split; [intros C; now elim C|]. intros k m Hk. apply aread_ok in Hk. destruct (Z.to_nat k); destruct Hk; discriminate.
    + split; auto.
      * intros n x Hx. rewrite Htr in Hx. destruct (n <? 0); [discriminate|]. destruct (Z.to_nat n); discriminate.
      * intros k m c Hk. apply aread_ok in Hk. destruct (Z.to_nat k); destruct Hk; discriminate.
  - assert (Hch : chain (t_mapNo x0) r0).
    { assert (G := chain_of_next xs). rewrite Ex in G. apply G. intros n a b Ha Hb. apply (Hnext (Z.of_nat n)); rewrite Htr.
      - replace (Z.of_nat n <? 0) with false by lia. rewrite Nat2Z.id. congruence.
      - replace (Z.of_nat n + 1 <? 0) with false by lia. replace (Z.to_nat (Z.of_nat n + 1)) with (S n) by lia. congruence. }
    assert (H00 : t_mapNo x0 = 0) by (apply Hfirst; rewrite Htr; reflexivity). rewrite H00 in Hch.
    destruct (cover_ok sp Hd r0 0 (t_box x0) Hch (Hxne x0 (or_introl eq_refl)) (fun y Hy => Hxne y (or_intror Hy)))
      as [bs [B1 [B2 [B3 [[b0 [B4 B4']] [B5 B6]]]]]].
    assert (Hls : lastno 0 (x0 :: r0) = lastno 0 r0) by (rewrite lastno_cons, H00; reflexivity).
    assert (0 <= lastno 0 r0) by (apply chain_last; auto).
    replace (Z.of_nat (length (x0 :: r0)) >? 0) with true by (simpl; lia).
    assert (Hl' : exists z, nth_error (x0 :: r0) (length (x0 :: r0) - 1) = Some z).
    { destruct (nth_error (x0 :: r0) (length (x0 :: r0) - 1)) eqn:E; eauto. apply nth_error_None in E. simpl in E. lia. }
    destruct Hl' as [z Ez]. rewrite (Hlast z Ez). cbn [obind]. rewrite <- (lastno_nth 0 _ _ Ez), Hls.
    unfold covering_ranges. replace (lastno 0 r0 + 1 =? 0) with false by lia. rewrite H00.
    replace (0 =? 0) with true by lia. cbn [cassert].
    change (mkRange (Some sp) (t_box x0)) with (Rg sp (t_box x0)). rewrite B1. cbn [obind].
    replace (lastno 0 r0 + 1 >? 0) with true by lia.
    assert (Hsub : forall j b, nth_error bs j = Some b -> SubBox (sp_dims sp) b (sp_box sp)).
    { intros j b Hj. apply (B6 j b _ Hj).
      - intros _. apply Hxsub. now left.
      - intros x Hx _. apply Hxsub. now right. }
    assert (Hbs : Forall (fun b => NonEmpty (sp_dims sp) b /\ vol (sp_dims sp) b < two64) bs).
    { apply Forall_forall. intros b Hb. rewrite Forall_forall in B3. split; [apply B3; auto|].
      apply In_nth_error in Hb. destruct Hb as [j Hj]. assert (S := Hsub j b Hj).
      assert (N : NonEmpty (sp_dims sp) b) by (apply B3; eapply nth_error_In; eauto).
      assert (vol (sp_dims sp) b <= vol (sp_dims sp) (sp_box sp)) by (apply vol_sub; auto).
      rewrite <- (vol_of_count _ _ ns Hd (nonempty_sub _ _ _ N S) Hns1) in H1. lia. }
    assert (HG : Forall (GoodRange sp) (map (Rg sp) bs)).
    { apply Forall_forall. intros r Hr'. apply in_map_iff in Hr'. destruct Hr' as [b [<- Hb]]. rewrite Forall_forall in Hbs.
      destruct (Hbs b Hb). split; [reflexivity|]. split; auto. exists (vol (sp_dims sp) b). split; auto. now apply vol_count. }
    assert (Hbn : map (Rg sp) bs <> []) by (destruct bs; simpl in *; [discriminate|congruence]).
    destruct (new_layout_ok sp (map (Rg sp) bs) Hd HG Hbn) as [ly [L1 [L2 L3]]]. rewrite L1. cbn [omap obind].
    rewrite (prep_loop_ok sp Hd dc H0 bs 0 Hbs). cbn [obind].
    eexists. split; [reflexivity|].
    assert (Hnth : forall k m, aread (map (fun p : nat * box => mkMapping (Rg sp (snd p)) (vol (sp_dims sp) (snd p)) None (0 + Z.of_nat (fst p)) no_range 0 0 0 0 true (-1))
         (combine (seq 0 (length bs)) bs)) k = Ok m <-> exists b, 0 <= k /\ nth_error bs (Z.to_nat k) = Some b /\ m = raw sp k b).
    { intros k m. rewrite aread_iff. split.
      - intros [K1 K2]. rewrite nth_error_map in K2. 
        destruct (nth_error (combine (seq 0 (length bs)) bs) (Z.to_nat k)) as [[n b]|] eqn:E; [|discriminate]. injection K2 as <-.
        assert (G : forall n (bb : list box) s, nth_error (combine (seq s (length bb)) bb) n = match nth_error bb n with Some b => Some ((s + n)%nat, b) | None => None end).
        { clear. induction n; intros [|b bb] s; simpl; auto; [f_equal; f_equal; lia|]. rewrite IHn. destruct (nth_error bb n); auto. f_equal. f_equal. lia. }
        rewrite G in E. destruct (nth_error bs (Z.to_nat k)) as [b'|]; [|discriminate]. injection E as <- <-. exists b'. conjs; auto.
        unfold raw. simpl. f_equal. lia.
      - intros [b [K1 [K2 ->]]]. split; auto. rewrite nth_error_map.
        assert (G : forall n (bb : list box) s, nth_error (combine (seq s (length bb)) bb) n = match nth_error bb n with Some b => Some ((s + n)%nat, b) | None => None end).
        { clear. induction n; intros [|b bb] s; simpl; auto; [f_equal; f_equal; lia|]. rewrite IHn. destruct (nth_error bb n); auto. f_equal. f_equal. lia. }
        rewrite G, K2. simpl. unfold raw. f_equal. f_equal. lia. }
    split.
    + split; [reflexivity|]. split; [intros _; exists ly; split; auto; eapply Built_new; eauto|].
      cbn [ml_maps ml_lay]. intros k m Hk. apply Hnth in Hk. destruct Hk as [b [K1 [K2 ->]]]. exists b, ly.
      rewrite Forall_forall in Hbs. destruct (Hbs b ltac:(eapply nth_error_In; eauto)). conjs; auto.
      split; auto. assert (G : nth_error (map le_range (lx_e ly)) (Z.to_nat k) = Some (Rg sp b)) by (rewrite L3, nth_error_map, K2; reflexivity).
      rewrite nth_error_map in G. destruct (nth_error (lx_e ly) (Z.to_nat k)) as [e|]; [|discriminate]. exists e. split; auto. simpl in G. injection G as ->. reflexivity.
    + split; cbn [ml_maps].
      * rewrite Hmc, Hls. f_equal. rewrite map_length, combine_length, seq_length, Nat.min_id. lia.
      * intros n x Hx. rewrite Htr in Hx. destruct (n <? 0); [discriminate|]. injection Hx as Hx.
        assert (Hin : In x (x0 :: r0)) by (eapply nth_error_In; eauto). rewrite Esp.
        assert (G : exists b, nth_error bs (Z.to_nat (t_mapNo x)) = Some b /\ SubBox (sp_dims sp) (t_box x) b /\ 0 <= t_mapNo x).
        { destruct Hin as [<-|Hin].
          - exists b0. rewrite H00. split; auto. split; auto. lia.
          - destruct (B5 x Hin) as [b [G1 G2]]. exists b. rewrite Z.sub_0_r in G1. split; auto. split; auto. eapply chain_ge; eauto. }
        destruct G as [b [G1 [G2 G3]]]. exists (raw sp (t_mapNo x) b). split; [apply Hnth; eauto|exact G2].
      * intros k m c Hk HI. apply Hnth in Hk. destruct Hk as [b [K1 [K2 ->]]]. rewrite Esp in *. simpl.
        assert (HI' : forall x, In x (x0 :: r0) -> t_mapNo x = k -> SubBox (sp_dims sp) (t_box x) c).
        { intros x Hx. apply In_nth_error in Hx. destruct Hx as [n Hn]. apply (HI (Z.of_nat n)).
          rewrite Htr. replace (Z.of_nat n <? 0) with false by lia. rewrite Nat2Z.id, Hn. reflexivity. }
        apply (B6 _ b c K2).
        -- intros J. apply HI'; [now left|lia].
        -- intros x Hx E. apply HI'; [now right|lia].
Qed.
