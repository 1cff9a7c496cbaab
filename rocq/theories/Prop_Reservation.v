(* Property C47: reservations *)
From Coq Require Import ZArith List Bool Lia Sorted Permutation ZifyBool ZifyNat.
From Verif Require Import Base ListFacts Model_Space Model_RangeList Model_Mem Model_Layout Model_Partitioner Model_Transition Model_Data Model_Reservation
  Spec_Space Spec_RangeList Spec_Partitioner Spec_Type Spec_Layout Spec_Data Spec_Reservation
  Proof_Space Proof_RangeList Proof_RangeList2 Proof_RangeList3 Proof_RangeList4 Proof_RangeList5 Proof_Partitioner2 Prop_RangeList Prop_Partitioner Prop_Layout Prop_Transition
  Proof_Layout Proof_Layout2 Proof_Layout4 Proof_Data Proof_Data2 Proof_Data3 Prop_Data
  Proof_Reservation Proof_Reservation2 Proof_Reservation3 Proof_Reservation4 Proof_Reservation5.
Import ListNotations.
Open Scope Z_scope.

(* tags are those given *)
Lemma tags_from (P : Z -> Prop) s tids h l qg qs m l' :
  0 <= tids -> is_qsort trgen_cmp qg -> run_appends s tids h = Ok l -> rl_freeze qg qs l m = Ok l' ->
  (forall a, In a h -> P (a_tag a)) -> forall x, In x (rl_trs l') -> P (t_tag x).
Proof.
  intros Hti Hq H Hf Htag.
  pose proof (freeze_ok_cond _ _ _ _ _ _ _ _ H Hq Hf) as Hc.
  destruct (freeze_after_appends s tids h l qg qs m H Hq Hti Hc) as [l2 [G1 [G2 [G3 [G4 [G5 [offs G6]]]]]]].
  assert (l2 = l') by congruence. subst l2.
  set (merged := if m then match qg (map app_trg h) with [] => [] | h :: t => merge_loop h t end else qg (map app_trg h)) in *.
  destruct (Hq (map app_trg h)) as [Pm S].
  assert (Tm : Forall (fun x => P (t_tag x)) merged).
  { assert (T0 : Forall (fun x => P (t_tag x)) (qg (map app_trg h))).
    { eapply Forall_perm; [exact Pm|]. apply Forall_map. apply Forall_forall. intros a Ha. simpl. auto. }
    unfold merged. destruct m; auto. destruct (qg (map app_trg h)) as [|x r]; auto.
    clear - T0. revert x T0. induction r as [|s r IH]; intros x T0; simpl; auto.
    inversion T0; subst. inversion H2; subst.
    destruct (_ || _); [constructor; auto|]. destruct (_ <? _); apply IH; constructor; auto. }
  intros x Hx. assert (A : Forall (fun x => P (t_tag x)) (rl_trs l')).
  { eapply Forall_transfer; [|symmetry; exact G5|exact Tm]. intros a a' Ka. apply key_eq in Ka. destruct Ka as [_ [_ Ka2]]. rewrite Ka2. auto. }
  rewrite Forall_forall in A. auto.
Qed.

(* Own ranges given by partitioners with positive tags can be reserved for. *)
Theorem C47_reservable : forall s tids h l qg qs m l' me n id g,
  valid_dims (sp_dims s) -> 0 <= tids -> is_qsort trgen_cmp qg -> run_appends s tids h = Ok l -> rl_freeze qg qs l m = Ok l' ->
  (forall a, In a h -> 0 < a_tag a) -> NoEmpty l' -> 0 <= me < tids ->
  HasCount (sp_dims s) (sp_box s) n -> n < two64 -> Reservable s (mkPart id g me l').
Proof.
  intros s tids h l qg qs m l' me n id g Hd Ht Hq R F HT NE Hme Hn Hn2.
  assert (HT1 : forall a, In a h -> a_tag a <> -1) by (intros a Ha; specialize (HT a Ha); lia).
  assert (HO : OwnRanges s l' me) by (eapply C37_own_ranges; eauto).
  destruct (map_numbers_gen s tids h l qg qs m l' Ht Hq R F HT1 me Hme) as (_ & _ & C).
  assert (G : forall x, OwnRange (mkPart id g me l') x -> 0 < t_tag x).
  { intros x [k Hx]. cbn in Hx. apply (frozen_range_in _ _ _ _ (or_fz _ _ _ HO)) in Hx. destruct Hx as [Hx _]. revert x Hx. eapply tags_from; eauto. }
  split; cbn [pt_ranges pt_me]; auto.
  - eapply freeze_keeps_nocache; eauto.
  - intros x Hx. specialize (G x Hx). lia.
  - intros x y [k Hx] [k' Hy] E. destruct (Z.eq_dec k k') as [<-|Hk]; [cbn in *; congruence|]. apply (C k k' x y Hk Hx Hy) in E. tauto.
Qed.

(* Allocation of a reservation succeeds, and provides memory for each partitioning: when switching
   to it, its mappings are those of the reservation. They cover the own ranges, and each is
   within one of the memory blocks of the reservation. *)
Theorem C47_reserved : forall d me ps q addr id,
  0 < dc_es d -> TogetherOk (dc_space d) me ps -> is_qsort mygroup_cmp q -> (forall k, 0 < addr k) ->
  exists r, reservation_alloc q d addr (reserve id ps) = Ok r /\
  forall p, In p ps -> exists ml, prepare_maps_res d (Some r) p = Ok (Some ml) /\ ml_res ml = Some id /\ Covers (pt_ranges p) (pt_me p) ml /\
    forall k m, aread (ml_maps ml) k = Ok m -> exists lm B N, Backed (dc_space d) (dc_es d) ml k m lm B N /\ In (m_start m, m_cap m) (res_blocks r).
Proof.
  intros d me ps q addr id Hes HT Hq Ha.
  assert (HA : exists r, reservation_alloc q d addr (reserve id ps) = Ok r).
  { destruct ps as [|p l] eqn:E; [eexists; reflexivity|]. rewrite <- E in *.
    destruct (all_ok d ps me q addr id HT Hq Ha ltac:(congruence)) as (r & _ & _ & _ & A & _). eauto. }
  destruct HA as [r HA]. exists r. split; auto. intros p Hp. assert (Hne := nonempty_of ps p Hp).
  destruct (look d ps me q addr id r HT Hq Ha HA Hne) as (ts & bs & F & L1 & L2 & L3 & L4 & L5 & _ & L6 & _).
  destruct (L6 p Hp) as [P1 [M1 M2 M3]]. eexists. split; [exact P1|]. split; [reflexivity|].
  assert (Hsp : rl_space (pt_ranges p) = dc_space d).
  { assert (Hm := tg_each _ _ _ HT). rewrite Forall_forall in Hm. apply (or_sp _ _ _ (rp_own _ _ (Hm p Hp))). }
  assert (G : forall k m, aread (map fst (F p)) k = Ok m -> exists j t b o, 0 <= k /\ m = embm d t b o /\ nth_error ts j = Some t /\ Hull d p k b /\ SubBox (sp_dims (dc_space d)) b (bi_box t)).
  { intros k m Hk. apply aread_iff in Hk. destruct Hk as [K1 K2]. rewrite nth_error_map in K2. destruct (nth_error (F p) (Z.to_nat k)) as [pm|] eqn:E; [|discriminate].
    injection K2 as <-. destruct (M3 _ _ E) as (j & t & b & o & -> & X1 & X2 & X3). rewrite Z2Nat.id in X2 by lia. exists j, t, b, o. conjs; auto. }
  split.
  - split; cbn [ml_maps].
    + rewrite map_length. exact M1.
    + intros k x Hx. destruct (M2 x (ex_intro _ k Hx)) as [N1 N2].
      destruct (nth_error (F p) (Z.to_nat (t_mapNo x))) as [pm|] eqn:E; [|apply nth_error_None in E; lia].
      exists (fst pm). assert (Ek : aread (map fst (F p)) (t_mapNo x) = Ok (fst pm)) by (apply aread_iff; split; auto; rewrite nth_error_map, E; reflexivity).
      split; auto. destruct (G _ _ Ek) as (j & t & b & o & _ & -> & _ & (H1 & H2 & H3) & _). rewrite Hsp. cbn. apply H2; auto. exists k; auto.
    + intros k m c Hk Hc. destruct (G _ _ Hk) as (j & t & b & o & _ & -> & _ & (H1 & H2 & H3) & _). rewrite Hsp in *. cbn. apply H3.
      intros x [i Hx] Ex. eapply Hc; eauto.
  - cbn [ml_maps]. intros k m Hk. destruct (G _ _ Hk) as (j & t & b & o & K0 & -> & Ht & (H1 & H2 & H3) & Hs).
    rewrite Forall_forall in L3. assert (BT := L3 t (nth_error_In _ _ Ht)).
    eexists. exists (bi_box t), (vol (sp_dims (dc_space d)) (bi_box t)). split.
    + apply embedded_backed; auto.
    + unfold res_blocks. rewrite L1. destruct L2 as [_ L2]. destruct (L2 j t Ht) as (o' & O1 & _). apply in_map_iff. exists (basem d t o'). split; [reflexivity|]. eapply nth_error_In; eauto.
Qed.

Lemma boff_same d b i j : SameIndex d i j -> boff d b i = boff d b j.
Proof.
  intros (A & B & C). unfold boff. rewrite A. destruct (Nat.ltb 1 d) eqn:E1; auto. rewrite B by (now apply Nat.ltb_lt).
  destruct (Nat.ltb 2 d) eqn:E2; auto. rewrite C by (now apply Nat.ltb_lt). reflexivity.
Qed.

(* where elements are *)
Lemma placed_at d ps me q addr id r ts F p x i : 0 < dc_es d -> valid_dims (sp_dims (dc_space d)) -> Forall (BOk d) ts ->
  prepare_maps_res d (Some r) p = Ok (Some (mkMl (Some id) None (map fst (F p)))) -> Mapped d ts p (F p) ->
  TogetherOk (dc_space d) me ps -> is_qsort mygroup_cmp q -> reservation_alloc q d addr (reserve id ps) = Ok r ->
  OwnRange p x -> InBox (sp_dims (dc_space d)) i (t_box x) ->
  exists j t m, nth_error ts j = Some t /\ nth_error (F p) (Z.to_nat (t_mapNo x)) = Some (m, Some (Z.of_nat j)) /\ InBox (sp_dims (dc_space d)) i (bi_box t) /\
    forall a, Placed d r p x i a <-> a = bi_addr t + boff (sp_dims (dc_space d)) (bi_box t) i * dc_es d.
Proof.
  intros Hes Hd L3 P1 [M1 M2 M3] _ _ _ Hx Hi. destruct (M2 x Hx) as [N1 N2].
  destruct (nth_error (F p) (Z.to_nat (t_mapNo x))) as [pm|] eqn:E; [|apply nth_error_None in E; lia].
  destruct (M3 _ _ E) as (j & t & b & o & -> & Ht & (H1 & H2 & H3) & Hs). rewrite Z2Nat.id in H2 by lia.
  rewrite Forall_forall in L3. destruct (L3 t (nth_error_In _ _ Ht)) as (T1 & T2 & T3 & T4 & T5).
  assert (Hin : InBox (sp_dims (dc_space d)) i (bi_box t)) by (apply Hs; apply (H2 x); auto).
  exists j, t, (embm d t b o). conjs; auto.
  assert (Ho := offset_ok (dc_space d) (bi_ly t) 0 (bi_box t) i Hd T3 T4 Hin).
  assert (Ek : aread (map fst (F p)) (t_mapNo x) = Ok (embm d t b o)) by (apply aread_iff; split; auto; rewrite nth_error_map, E; reflexivity).
  intros a. split.
  - intros (ml & m & lm & Q1 & Q2 & Q3 & Q4). rewrite P1 in Q1. injection Q1 as <-. cbn [ml_maps] in Q2. rewrite Ek in Q2. injection Q2 as <-.
    unfold lmap_of, lay_of in Q3. cbn [embm m_lay m_sec m_start m_req] in Q3. injection Q3 as <-. destruct Q4 as (off & O1 & O2). cbn in O1, O2. rewrite Ho in O1. injection O1 as <-. exact O2.
  - intros ->. eexists. eexists. eexists. split; [exact P1|]. split; [exact Ek|]. split; [reflexivity|].
    exists (boff (sp_dims (dc_space d)) (bi_box t) i). cbn. auto.
Qed.

(* Where the value of an index is depends on nothing but its tag and the index: ranges with the
   same tag in different partitionings use the same memory, with an index always at the same
   address. With different tags or indexes, elements do not overlap. ([AwayAll]: the allocator
   returns blocks which do not overlap.) *)
Theorem C47_address : forall d me ps q addr id r,
  0 < dc_es d -> TogetherOk (dc_space d) me ps -> is_qsort mygroup_cmp q -> (forall k, 0 < addr k) ->
  reservation_alloc q d addr (reserve id ps) = Ok r -> AwayAll (res_blocks r) ->
  (forall p x i, In p ps -> OwnRange p x -> InBox (sp_dims (dc_space d)) i (t_box x) -> exists a, Placed d r p x i a) /\
  (forall p p' x x' i i' a a', In p ps -> In p' ps -> OwnRange p x -> OwnRange p' x' ->
     InBox (sp_dims (dc_space d)) i (t_box x) -> InBox (sp_dims (dc_space d)) i' (t_box x') ->
     Placed d r p x i a -> Placed d r p' x' i' a' ->
     (t_tag x = t_tag x' -> SameIndex (sp_dims (dc_space d)) i i' -> a = a') /\
     (t_tag x <> t_tag x' \/ ~ SameIndex (sp_dims (dc_space d)) i i' -> Away a (dc_es d) a' (dc_es d)) /\
     exists b, In b (res_blocks r) /\ fst b <= a /\ a + dc_es d <= fst b + snd b).
Proof.
  intros d me ps q addr id r Hes HT Hq Ha HA HAw. split.
  - intros p x i Hp Hx Hi. destruct (look d ps me q addr id r HT Hq Ha HA (nonempty_of ps p Hp)) as (ts & bs & F & L1 & L2 & L3 & L4 & L5 & _ & L6 & _).
    destruct (L6 p Hp) as [P1 P2]. destruct (placed_at d ps me q addr id r ts F p x i Hes L4 L3 P1 P2 HT Hq HA Hx Hi) as (j & t & m & _ & _ & _ & Q). eexists. apply Q. reflexivity.
  - intros p p' x x' i i' a a' Hp Hp' Hx Hx' Hi Hi' Hpl Hpl'.
    destruct (look d ps me q addr id r HT Hq Ha HA (nonempty_of ps p Hp)) as (ts & bs & F & L1 & L2 & L3 & L4 & L5 & _ & L6 & L7 & _).
    destruct (L6 p Hp) as [P1 P2]. destruct (L6 p' Hp') as [P1' P2'].
    destruct (placed_at d ps me q addr id r ts F p x i Hes L4 L3 P1 P2 HT Hq HA Hx Hi) as (j & t & m & J1 & J2 & J3 & Q).
    destruct (placed_at d ps me q addr id r ts F p' x' i' Hes L4 L3 P1' P2' HT Hq HA Hx' Hi') as (j' & t' & m' & J1' & J2' & J3' & Q').
    apply Q in Hpl. apply Q' in Hpl'. subst a a'.
    assert (HJ := L7 p p' x x' _ _ _ _ Hp Hp' Hx Hx' J2 J2').
    assert (R := boff_range _ _ _ L4 J3). assert (R' := boff_range _ _ _ L4 J3').
    assert (HB : forall j t, nth_error ts j = Some t -> nth_error (res_blocks r) j = Some (bi_addr t, vol (sp_dims (dc_space d)) (bi_box t) * dc_es d)).
    { intros j0 t0 H0. unfold res_blocks. rewrite L1. destruct L2 as [_ L2]. destruct (L2 j0 t0 H0) as (o' & O1 & _). rewrite nth_error_map, O1. reflexivity. }
    conjs.
    + intros Et Es. apply HJ in Et. assert (j = j') by lia. subst j'. assert (t' = t) by congruence. subst t'.
      rewrite (boff_same _ _ _ _ Es). reflexivity.
    + intros Hn. destruct (Nat.eq_dec j j') as [<-|Hj].
      * assert (t' = t) by congruence. subst t'. destruct Hn as [Hn|Hn]; [exfalso; apply Hn, HJ; reflexivity|].
        assert (boff (sp_dims (dc_space d)) (bi_box t) i <> boff (sp_dims (dc_space d)) (bi_box t) i') by (intros E; apply Hn; eapply boff_inj; eauto).
        unfold Away. nia.
      * assert (X := HAw j j' _ _ Hj (HB _ _ J1) (HB _ _ J1')). unfold AwayB, Away in *. cbn [fst snd] in X. nia.
    + eexists. split; [eapply nth_error_In; apply (HB _ _ J1)|]. cbn [fst snd]. nia.
Qed.

(* There is one block per tag, of the size of the smallest range with all ranges with the tag, in
   all partitionings. *)
Theorem C47_blocks : forall d me ps q addr id r,
  TogetherOk (dc_space d) me ps -> is_qsort mygroup_cmp q -> (forall k, 0 < addr k) ->
  reservation_alloc q d addr (reserve id ps) = Ok r ->
  forall k b, nth_error (res_blocks r) k = Some b -> fst b = addr (Z.of_nat k) /\
    exists p x B N, In p ps /\ OwnRange p x /\ HasCount (sp_dims (dc_space d)) B N /\ snd b = N * dc_es d /\
      (forall p' x', In p' ps -> OwnRange p' x' -> t_tag x' = t_tag x -> SubBox (sp_dims (dc_space d)) (t_box x') B) /\
      (forall c, (forall p' x', In p' ps -> OwnRange p' x' -> t_tag x' = t_tag x -> SubBox (sp_dims (dc_space d)) (t_box x') c) -> SubBox (sp_dims (dc_space d)) B c).
Proof.
  intros d me ps q addr id r HT Hq Ha HA k b Hb.
  destruct ps as [|p0 l0] eqn:E.
  { cbn in HA. injection HA as <-. cbn in Hb. destruct k; discriminate. }
  rewrite <- E in *. assert (Hne : ps <> []) by congruence. clear E.
  destruct (look d ps me q addr id r HT Hq Ha HA Hne) as (ts & bs & F & L1 & [L2a L2] & L3 & L4 & L5 & _ & _ & _ & L8).
  unfold res_blocks in Hb. rewrite L1, nth_error_map in Hb. destruct (nth_error bs k) as [m|] eqn:Em; [|discriminate]. injection Hb as <-.
  destruct (nth_error ts k) as [t|] eqn:Et.
  2:{ apply nth_error_None in Et. pose proof (nth_error_Some_lt _ _ _ Em). lia. }
  destruct (L2 k t Et) as (o & O1 & _). rewrite Em in O1. injection O1 as ->. cbn [fst snd basem m_start m_cap]. split; [now apply L5|].
  destruct (L8 k t Et) as (p & x & X1 & X2 & X3 & X4). rewrite Forall_forall in L3. destruct (L3 t (nth_error_In _ _ Et)) as (T1 & _).
  exists p, x, (bi_box t), (vol (sp_dims (dc_space d)) (bi_box t)). conjs; auto. now apply vol_count.
Qed.

(* Switching between partitionings of the active reservation allocates and frees nothing, and
   does not move any value: it succeeds if the communication does, and what an index has in a
   range with a tag, it still has afterwards in a range with this tag, if the communication leaves
   it alone. *)
Theorem C47_switch : forall d me ps q addr id r,
  0 < dc_es d -> TogetherOk (dc_space d) me ps -> is_qsort mygroup_cmp q -> (forall k, 0 < addr k) ->
  reservation_alloc q d addr (reserve id ps) = Ok r ->
  forall p p' fl tl gen ini exec addr' o m, In p ps -> In p' ps ->
  prepare_maps_res d (Some r) p = Ok (Some fl) -> prepare_maps_res d (Some r) p' = Ok (Some tl) ->
  tp_init o = [] ->
  alloc_calls (dc_es d) addr' tl (Some fl) = [] /\
  (forall m1, exec tl (Some fl) m = Ok m1 -> exists m', do_transition gen d ini exec addr' o (Some fl) tl m = Ok (tl, m', [])) /\
  forall t m' fr, do_transition gen d ini exec addr' o (Some fl) tl m = Ok (t, m', fr) ->
  t = tl /\ fr = [] /\ (m' = m \/ exec tl (Some fl) m = Ok m') /\
  forall x x' i a, OwnRange p x -> OwnRange p' x' -> t_tag x = t_tag x' ->
    InBox (sp_dims (dc_space d)) i (t_box x) -> InBox (sp_dims (dc_space d)) i (t_box x') -> Placed d r p x i a ->
    (forall m2, exec tl (Some fl) m = Ok m2 -> mread m2 a (Z.to_nat (dc_es d)) = mread m a (Z.to_nat (dc_es d))) ->
    Placed d r p' x' i a /\ mread m' a (Z.to_nat (dc_es d)) = mread m a (Z.to_nat (dc_es d)).
Proof.
  intros d me ps q addr id r Hes HT Hq Ha HA p p' fl tl gen ini exec addr' o m Hp Hp' Hf Ht Hi.
  destruct (look d ps me q addr id r HT Hq Ha HA (nonempty_of ps p Hp)) as (ts & bs & F & L1 & L2 & L3 & L4 & L5 & _ & L6 & L7 & _).
  destruct (L6 p Hp) as [P1 P2]. destruct (L6 p' Hp') as [P1' P2']. rewrite P1 in Hf. rewrite P1' in Ht. injection Hf as <-. injection Ht as <-.
  assert (HB : forall m0, In m0 (map fst (F p')) -> m_base m0 <> 0).
  { intros m0 H0. apply in_map_iff in H0. destruct H0 as (pm & <- & H0). apply In_nth_error in H0. destruct H0 as [k Hk].
    destruct P2' as [_ _ M3]. destruct (M3 _ _ Hk) as (j & t & b & o' & -> & T1 & (T2 & _) & T3). cbn [fst embm m_base].
    rewrite Forall_forall in L3. destruct (L3 t (nth_error_In _ _ T1)) as (_ & _ & _ & _ & T4).
    assert (R := boff_range (sp_dims (dc_space d)) (bi_box t) (b_from b) L4). destruct T2 as [i0' (Q0 & Q1 & Q2)].
    assert (In1 : InBox (sp_dims (dc_space d)) (b_from b) (bi_box t)).
    { apply T3. unfold InBox. conjs; try lia; intros; first [specialize (Q1 H)|specialize (Q2 H)]; lia. }
    specialize (R In1). nia. }
  assert (HR : forall n l, check_map_reuse (dc_es d) (mkMl (Some n) None l) (Some (mkMl (Some id) None (map fst (F p)))) = Ok (mkMl (Some n) None l, Some (mkMl (Some id) None (map fst (F p))))).
  { intros. unfold check_map_reuse. cbn [ml_maps ml_res]. destruct (map fst (F p)); auto. destruct l; auto. }
  assert (HAl : forall l i, (forall m0, In m0 l -> m_base m0 <> 0) -> allocate_loop (dc_es d) (Some id) addr' i l = Ok l /\ alloc_blocks (dc_es d) addr' i l = []).
  { induction l as [|m0 l IH]; intros i H; [split; reflexivity|]. cbn [allocate_loop alloc_blocks].
    assert (B := H m0 (or_introl eq_refl)). replace (m_base m0 =? 0) with false by lia. cbn [negb obind andb].
    destruct (IH (i + 1) ltac:(intros; apply H; now right)) as [-> ->]. split; reflexivity. }
  assert (E : forall ms, map fst (F p') = ms -> do_transition gen d ini exec addr' o (Some (mkMl (Some id) None (map fst (F p)))) (mkMl (Some id) None (map fst (F p'))) m =
    do m1 <- (match tp_send o, tp_recv o, tp_red o with
            | [], [], [] => Ok m
            | _, _, _ => exec (mkMl (Some id) None (map fst (F p'))) (Some (mkMl (Some id) None (map fst (F p)))) m
            end); Ok (mkMl (Some id) None (map fst (F p')), m1, [])).
  { intros ms _. unfold do_transition. rewrite HR. cbn [obind fst snd]. unfold allocate_mappings. cbn [ml_maps ml_res ml_lay].
    rewrite (proj1 (HAl _ 0 HB)). cbn [obind]. rewrite Hi.
    match goal with |- obind ?X _ = _ => destruct X as [m1| | | |] eqn:E1; auto end. cbn [obind ml_res].
    unfold copy_maps. destruct (tp_local o); cbn [cassert ml_res]; [reflexivity|]. rewrite Nat.eqb_refl. reflexivity. }
  specialize (E _ eq_refl). conjs.
  - unfold alloc_calls. rewrite HR. apply HAl. exact HB.
  - intros m1 H1. rewrite E, H1. destruct (tp_send o), (tp_recv o), (tp_red o); eexists; reflexivity.
  - intros t m' fr H. rewrite E in H. apply obind_ok in H. destruct H as (m1 & H1 & H). injection H as <- <- <-.
    assert (Hm : m1 = m \/ exec (mkMl (Some id) None (map fst (F p'))) (Some (mkMl (Some id) None (map fst (F p)))) m = Ok m1).
    { destruct (tp_send o), (tp_recv o), (tp_red o); auto. injection H1 as <-. auto. }
    conjs; auto. intros x x' i a Hx Hx' Et Hin Hin' Hpl Hex. split.
    + destruct (placed_at d ps me q addr id r ts F p x i Hes L4 L3 P1 P2 HT Hq HA Hx Hin) as (j & t & mm & J1 & J2 & J3 & Q).
      destruct (placed_at d ps me q addr id r ts F p' x' i Hes L4 L3 P1' P2' HT Hq HA Hx' Hin') as (j' & t' & mm' & J1' & J2' & J3' & Q').
      apply Q in Hpl. subst a. apply Q'. apply (L7 p p' x x' _ _ _ _ Hp Hp' Hx Hx' J2 J2') in Et. assert (j = j') by lia. subst j'. congruence.
    + destruct Hm as [->|Hm]; auto.
Qed.

(* Freeing a reservation frees no memory: base mappings gave their allocator to the first mapping
   embedded in them. *)
Theorem C47_free_refuted : forall d me ps q addr id r,
  TogetherOk (dc_space d) me ps -> is_qsort mygroup_cmp q -> (forall k, 0 < addr k) ->
  reservation_alloc q d addr (reserve id ps) = Ok r -> reservation_free r = Ok [].
Proof.
  intros d me ps q addr id r HT Hq Ha HA.
  destruct ps as [|p0 l0] eqn:E.
  { cbn in HA. injection HA as <-. reflexivity. }
  rewrite <- E in *. assert (Hne : ps <> []) by congruence. clear E.
  destruct (look d ps me q addr id r HT Hq Ha HA Hne) as (ts & bs & F & L1 & [L2a L2] & L3 & L4 & L5 & L6 & _).
  unfold reservation_free. rewrite L6. cbn [cassert]. rewrite L1. cbn [free_list ml_res cassert ml_maps]. f_equal.
  assert (G : forall m, In m bs -> free_map m = []).
  { intros m Hm. apply In_nth_error in Hm. destruct Hm as [k Hk]. destruct (nth_error ts k) as [t|] eqn:Et.
    2:{ apply nth_error_None in Et. pose proof (nth_error_Some_lt _ _ _ Hk). lia. }
    destruct (L2 k t Et) as (o & O1 & O2). rewrite Hk in O1. injection O1 as ->. rewrite (O2 I). unfold free_map. cbn. destruct (bi_addr t =? 0); reflexivity. }
  clear - G. induction bs as [|m bs IH]; auto. cbn. rewrite (G m (or_introl eq_refl)). apply IH. intros; apply G; now right.
Qed.

(* ---------- examples ---------- *)

Definition vp (id : nat) (l : rlist) : part := mkPart id 1 0 l.
Lemma vres h l id : l = xrun h -> (exists l0, run_appends (exsp 20) 2 h = Ok l0 /\ rl_freeze (isort trgen_cmp) (isort tss1d_cmp) l0 false = Ok l) ->
  forallb (fun a => 0 <? a_tag a) h = true ->
  forallb (fun x => i0 (b_from (t_box x)) <? i0 (b_to (t_box x))) (rl_trs l) = true -> rl_space l = exsp 20 -> Reservable (exsp 20) (vp id l).
Proof.
  intros E (l0 & A & B) HT HN Es.
  assert (FL : FrozenList l) by (refine (FL_gen (exsp 20) 2 h l0 (isort trgen_cmp) (isort tss1d_cmp) false l _ _ isort_trgen A B); [left; reflexivity|lia]).
  apply (C47_reservable (exsp 20) 2 h l0 (isort trgen_cmp) (isort tss1d_cmp) false l 0 20); auto; try lia.
  - left; reflexivity.
  - exact isort_trgen.
  - intros a Ha. rewrite forallb_forall in HT. specialize (HT a Ha). lia.
  - intros t n x Hx. apply (frozen_range_in _ _ _ _ FL) in Hx. destruct Hx as [Hx _]. rewrite forallb_forall in HN. specialize (HN x Hx).
    rewrite Es. exists (b_from (t_box x)). unfold InBox; simpl. conjs; intros; lia.
  - exact xcount.
  - vm_compute; reflexivity.
Qed.
Definition vps : list part := [vp 1 xl1; vp 2 xl2; vp 3 xl3].
Lemma vtog : TogetherOk (dc_space xd) 0 vps.
Proof.
  split.
  - apply Forall_cons; [apply (vres xh1)|apply Forall_cons; [apply (vres xh2)|apply Forall_cons; [apply (vres xh3)|constructor]]]; try (vm_compute; reflexivity); eexists; split; vm_compute; reflexivity.
  - repeat constructor.
  - intros p p' [<-|[<-|[<-|[]]]] [<-|[<-|[<-|[]]]]; reflexivity.
  - intros p p' [<-|[<-|[<-|[]]]] [<-|[<-|[<-|[]]]]; cbn; congruence.
Qed.
Definition va : Z -> Z := fun k => if k =? 0 then 1000 else 2000.
Definition vr : resv := Eval vm_compute in match reservation_alloc (isort mygroup_cmp) xd va (reserve 7 vps) with Ok r => r | _ => reservation_new 0 end.
Lemma isort_mygroup : is_qsort mygroup_cmp (isort mygroup_cmp).
Proof. apply isort_is_qsort; unfold mygroup_cmp; intros; lia. Qed.
Definition vml (id : nat) (l : rlist) : mlist := match prepare_maps_res xd (Some vr) (vp id l) with Ok (Some t) => t | _ => mkMl None None [] end.

(* process 0 with [0,12), [14,18), then [2,8), [10,20), then [3,7) (tags 1, 2): 12 elements are
   reserved for tag 1 and 10 for tag 2; index 3 always is at address 1024, index 15 at 2040 *)
Example C47_case : TogetherOk (dc_space xd) 0 vps /\ is_qsort mygroup_cmp (isort mygroup_cmp) /\ (forall k, 0 < va k) /\
  reservation_alloc (isort mygroup_cmp) xd va (reserve 7 vps) = Ok vr /\ res_blocks vr = [(1000, 96); (2000, 80)] /\ AwayAll (res_blocks vr) /\
  map (fun m => (m_start m, m_base m)) (ml_maps (vml 1 xl1)) = [(1000, 1000); (2000, 2032)] /\
  map (fun m => (m_start m, m_base m)) (ml_maps (vml 2 xl2)) = [(1000, 1016); (2000, 2000)] /\
  map (fun m => (m_start m, m_base m)) (ml_maps (vml 3 xl3)) = [(1000, 1024)] /\
  (exists x y, OwnRange (vp 1 xl1) x /\ OwnRange (vp 2 xl2) y /\ t_tag x = 2 /\ t_tag y = 2 /\ Placed xd vr (vp 1 xl1) x (mkIdx 15 0 0) 2040 /\ Placed xd vr (vp 2 xl2) y (mkIdx 15 0 0) 2040) /\
  do_transition false xd xini xexec va tops_empty (Some (vml 1 xl1)) (vml 2 xl2) (fun a => a) = Ok (vml 2 xl2, (fun a => a), []).
Proof.
  split; [exact vtog|]. split; [exact isort_mygroup|]. split; [intros k; unfold va; destruct (k =? 0); lia|]. split; [vm_compute; reflexivity|]. split; [vm_compute; reflexivity|].
  split.
  { intros n k a b H A B. change (res_blocks vr) with [(1000, 96); (2000, 80)] in A, B. destruct n as [|[|[|]]], k as [|[|[|]]]; cbn in A, B; try discriminate; try congruence; injection A as <-; injection B as <-; unfold AwayB, Away; cbn; lia. }
  split; [vm_compute; reflexivity|]. split; [vm_compute; reflexivity|]. split; [vm_compute; reflexivity|]. split; [|vm_compute; reflexivity].
  do 2 eexists. split; [exists 1; vm_compute; reflexivity|]. split; [exists 1; vm_compute; reflexivity|]. split; [reflexivity|]. split; [reflexivity|].
  split; (do 3 eexists; split; [vm_compute; reflexivity|]; split; [vm_compute; reflexivity|]; split; [vm_compute; reflexivity|]; eexists; split; vm_compute; reflexivity).
Qed.

(* ---------- findings ---------- *)

(* Freeing a reservation leaves all of its memory allocated: base mappings gave their allocator
   to the first mapping embedded in them. *)
Theorem C47_leak_refuted : exists d q addr id ps r, reservation_alloc q d addr (reserve id ps) = Ok r /\ reservation_free r = Ok [] /\ res_blocks r = [(1000, 96); (2000, 80)].
Proof. exists xd, (isort mygroup_cmp), va, 7%nat, vps, vr. split; [vm_compute; reflexivity|]. split; vm_compute; reflexivity. Qed.

(* Between partitionings of a reservation, values are not copied, even if an index is in a range
   with another tag, that is, at another address: its value is lost. Here, one process has
   [0,10) with tag 1 and [10,20) with tag 2, and afterwards the tags are exchanged. *)
Definition yh1 : list appcall := [mkApp 0 (exrng 20 0 10) 1; mkApp 0 (exrng 20 10 20) 2].
Definition yh2 : list appcall := [mkApp 0 (exrng 20 0 10) 2; mkApp 0 (exrng 20 10 20) 1].
Definition yl1 : rlist := Eval vm_compute in xrun yh1.
Definition yl2 : rlist := Eval vm_compute in xrun yh2.
Definition yps : list part := [vp 1 yl1; vp 2 yl2].
Lemma ytog : TogetherOk (dc_space xd) 0 yps.
Proof.
  split.
  - apply Forall_cons; [apply (vres yh1)|apply Forall_cons; [apply (vres yh2)|constructor]]; try (vm_compute; reflexivity); eexists; split; vm_compute; reflexivity.
  - repeat constructor.
  - intros p p' [<-|[<-|[]]] [<-|[<-|[]]]; reflexivity.
  - intros p p' [<-|[<-|[]]] [<-|[<-|[]]]; cbn; congruence.
Qed.
Definition yr : resv := Eval vm_compute in match reservation_alloc (isort mygroup_cmp) xd va (reserve 7 yps) with Ok r => r | _ => reservation_new 0 end.
Definition yml (id : nat) (l : rlist) : mlist := match prepare_maps_res xd (Some yr) (vp id l) with Ok (Some t) => t | _ => mkMl None None [] end.
Definition yops : tops :=
  match calc_transition (isort rb_cmp) (exsp 20) (Some (ex_np 1 20 2 0 yl1)) (Some (ex_np 2 20 2 0 yl2)) DF_Preserve RO_None with Ok (Some tr) => tr_ops tr | _ => tops_empty end.
Theorem C47_retag_refuted : exists tr x y a b m m',
  TogetherOk (dc_space xd) 0 yps /\ reservation_alloc (isort mygroup_cmp) xd va (reserve 7 yps) = Ok yr /\
  calc_transition (isort rb_cmp) (exsp 20) (Some (ex_np 1 20 2 0 yl1)) (Some (ex_np 2 20 2 0 yl2)) DF_Preserve RO_None = Ok (Some tr) /\
  length (tp_local (tr_ops tr)) = 2%nat /\
  do_transition false xd xini xexec va (tr_ops tr) (Some (yml 1 yl1)) (yml 2 yl2) m = Ok (yml 2 yl2, m', []) /\
  OwnRange (vp 1 yl1) x /\ OwnRange (vp 2 yl2) y /\ InBox 1 (mkIdx 3 0 0) (t_box x) /\ InBox 1 (mkIdx 3 0 0) (t_box y) /\
  Placed xd yr (vp 1 yl1) x (mkIdx 3 0 0) a /\ Placed xd yr (vp 2 yl2) y (mkIdx 3 0 0) b /\ m a = 5 /\ m' b = 0.
Proof.
  do 3 eexists. exists 1024, 2024, (fun a => if a =? 1024 then 5 else 0). eexists. split; [exact ytog|].
  split; [vm_compute; reflexivity|]. split; [vm_compute; reflexivity|]. split; [vm_compute; reflexivity|]. split; [vm_compute; reflexivity|].
  split; [exists 0; vm_compute; reflexivity|]. split; [exists 1; vm_compute; reflexivity|].
  split; [unfold InBox; cbn; conjs; intros; lia|]. split; [unfold InBox; cbn; conjs; intros; lia|].
  split; [do 3 eexists; split; [vm_compute; reflexivity|]; split; [vm_compute; reflexivity|]; split; [vm_compute; reflexivity|]; eexists; split; vm_compute; reflexivity|].
  split; [do 3 eexists; split; [vm_compute; reflexivity|]; split; [vm_compute; reflexivity|]; split; [vm_compute; reflexivity|]; eexists; split; vm_compute; reflexivity|].
  split; vm_compute; reflexivity.
Qed.

(* Reservations cannot be made for ranges without tag in separate mappings, and not for ranges
   with tag -1. Both are accepted by partitionings; the allocation stops the program. *)
Definition zl1 : rlist := Eval vm_compute in xrun [mkApp 0 (exrng 20 0 10) 0; mkApp 0 (exrng 20 10 20) 0].
Definition zl2 : rlist := Eval vm_compute in xrun [mkApp 0 (exrng 20 0 10) (-1)].
Theorem C47_untagged_refuted :
  OwnRanges (exsp 20) zl1 0 /\ reservation_alloc (isort mygroup_cmp) xd va (reserve 7 [vp 1 zl1]) = Abort /\
  (exists l, run_appends (exsp 20) 2 [mkApp 0 (exrng 20 0 10) (-1)] = Ok l /\ rl_freeze (isort trgen_cmp) (isort tss1d_cmp) l false = Ok zl2) /\
  reservation_alloc (isort mygroup_cmp) xd va (reserve 7 [vp 1 zl2]) = Abort.
Proof.
  split; [apply (xown [mkApp 0 (exrng 20 0 10) 0; mkApp 0 (exrng 20 10 20) 0]); try (vm_compute; reflexivity); eexists; split; vm_compute; reflexivity|].
  split; [vm_compute; reflexivity|]. split; [eexists; split; vm_compute; reflexivity|]. vm_compute; reflexivity.
Qed.

Print Assumptions C47_reservable.
Print Assumptions C47_reserved.
Print Assumptions C47_address.
Print Assumptions C47_blocks.
Print Assumptions C47_switch.
Print Assumptions C47_free_refuted.
Print Assumptions C47_case.
Print Assumptions C47_leak_refuted.
Print Assumptions C47_retag_refuted.
Print Assumptions C47_untagged_refuted.
