(* Proofs about reservations: the whole allocation *)
From Coq Require Import ZArith List Bool Lia Sorted Permutation ZifyBool ZifyNat.
From Verif Require Import Base ListFacts Model_Space Model_RangeList Model_Mem Model_Layout Model_Partitioner Model_Transition Model_Data Model_Reservation
  Spec_Space Spec_RangeList Spec_Partitioner Spec_Type Spec_Layout Spec_Data Spec_Reservation
  Proof_Space Proof_RangeList Proof_RangeList2 Proof_RangeList3 Proof_RangeList4 Proof_RangeList5 Proof_Partitioner2
  Proof_Layout Proof_Layout2 Proof_Layout4 Proof_Data Proof_Data2 Proof_Data3 Proof_Reservation Proof_Reservation2 Proof_Reservation3.
Import ListNotations.
Open Scope Z_scope.

Lemma reserve_eq id ps : Forall (fun p => 0 <= pt_me p) ps -> reserve id ps = mkResv id (map (fun p => mkRe p None) ps) None.
Proof.
  intros H. unfold reserve.
  assert (G : forall ps l, Forall (fun p => 0 <= pt_me p) ps -> fold_left reservation_add ps (mkResv id l None) = mkResv id (l ++ map (fun p => mkRe p None) ps) None).
  { clear. induction ps as [|p ps IH]; intros l H; cbn [fold_left map].
    - now rewrite app_nil_r.
    - inversion H; subst. unfold reservation_add at 2. replace (pt_me p <? 0) with false by lia. cbn [rv_id rv_ents rv_maps].
      rewrite IH by auto. now rewrite <- app_assoc. }
  apply (G ps []). auto.
Qed.

Lemma nth_combine {A B} (l : list A) (l' : list B) i a b : nth_error l i = Some a -> nth_error l' i = Some b -> nth_error (combine l l') i = Some (a, b).
Proof. revert l' i. induction l; intros [|b' l'] [|i] Ha Hb; cbn in *; try discriminate; auto. congruence. Qed.

Lemma Forall2_of_nth {A B} (R : A -> B -> Prop) l l' : length l = length l' ->
  (forall i a b, nth_error l i = Some a -> nth_error l' i = Some b -> R a b) -> Forall2 R l l'.
Proof.
  revert l'. induction l as [|a l IH]; intros [|b l'] E H; try discriminate; constructor.
  - apply (H 0%nat); reflexivity.
  - apply IH; [cbn in E; lia|]. intros i. apply (H (S i)).
Qed.
Lemma Forall2_length {A B} (R : A -> B -> Prop) l l' : Forall2 R l l' -> length l = length l'.
Proof. induction 1; cbn; auto. Qed.
Lemma nodup_map_inj {A B} (f : A -> B) l a b : NoDup (map f l) -> In a l -> In b l -> f a = f b -> a = b.
Proof.
  induction l as [|x l IH]; intros H Ha Hb E; [destruct Ha|]. cbn in H. inversion H as [|? ? H1 H2]; subst.
  destruct Ha as [->|Ha], Hb as [->|Hb]; auto.
  - exfalso. apply H1. rewrite E. now apply in_map.
  - exfalso. apply H1. rewrite <- E. now apply in_map.
Qed.

Section All.
  Variables (d : dcont) (ps : list part) (me : Z) (q : list mygroup -> list mygroup) (addr : Z -> Z) (id : nat).
  Let sp := dc_space d.
  Let n := sp_dims sp.
  Hypothesis Hes : 0 < dc_es d.
  Hypothesis HT : TogetherOk (dc_space d) me ps.
  Hypothesis Hq : is_qsort mygroup_cmp q.
  Hypothesis Ha : forall k, 0 < addr k.
  Hypothesis Hps : ps <> [].

  (* what is known of the mappings for partitioning [p] *)
  Record Mapped (ts : list binfo) (p : part) (ms : list (mapping * option Z)) : Prop := {
    mp_count : rl_tidmapcount (pt_ranges p) (pt_me p) = Ok (Z.of_nat (length ms));
    mp_no : forall x, OwnRange p x -> 0 <= t_mapNo x < Z.of_nat (length ms);
    mp_map : forall k pm, nth_error ms k = Some pm -> exists j t b o, pm = (embm d t b o, Some (Z.of_nat j)) /\ nth_error ts j = Some t /\
      Hull d p (Z.of_nat k) b /\ SubBox n b (bi_box t) }.

  Lemma dims_ok : valid_dims n.
  Proof.
    destruct ps as [|p l] eqn:E; [congruence|]. assert (H := tg_each _ _ _ HT). inversion H as [|? ? H1 _]; subst.
    destruct (rp_own _ _ H1) as [Fz Esp _ _ _ _ _]. destruct (FrozenList_Frozen _ Fz) as [_ X]. rewrite Esp in X. exact X.
  Qed.

  Lemma all_ok : exists r ts ess bs,
    reservation_alloc q d addr (reserve id ps) = Ok r /\ rv_id r = id /\
    rv_ents r = map (fun x => mkRe (fst x) (Some (snd x))) (combine ps ess) /\
    rv_maps r = Some bs /\ Bases d ts (fun _ => True) bs /\ Forall (BOk d) ts /\
    (forall k t, nth_error ts k = Some t -> bi_addr t = addr (Z.of_nat k)) /\
    Forall2 (Mapped ts) ps ess /\
    (* base mappings correspond to tags *)
    (forall i i' p p' ms ms' x x' m m' j j', nth_error ps i = Some p -> nth_error ps i' = Some p' ->
       nth_error ess i = Some ms -> nth_error ess i' = Some ms' -> OwnRange p x -> OwnRange p' x' ->
       nth_error ms (Z.to_nat (t_mapNo x)) = Some (m, Some j) -> nth_error ms' (Z.to_nat (t_mapNo x')) = Some (m', Some j') ->
       (j = j' <-> t_tag x = t_tag x')) /\
    (* every base mapping is for the ranges with a tag, and the smallest such *)
    (forall k t, nth_error ts k = Some t -> exists p x, In p ps /\ OwnRange p x /\
       (forall p' x', In p' ps -> OwnRange p' x' -> t_tag x' = t_tag x -> SubBox n (t_box x') (bi_box t)) /\
       (forall c, (forall p' x', In p' ps -> OwnRange p' x' -> t_tag x' = t_tag x -> SubBox n (t_box x') c) -> SubBox n (bi_box t) c)).
  Proof.
    assert (Hd := dims_ok).
    destruct HT as [HR HM HG HI].
    assert (Hme : Forall (fun p => 0 <= pt_me p) ps).
    { eapply Forall_impl; [|exact HR]. intros p Hp. pose proof (or_me _ _ _ (rp_own _ _ Hp)). lia. }
    rewrite (reserve_eq id ps Hme). set (E0 := map (fun p => mkRe p None) ps).
    assert (EP : map re_part E0 = ps) by (unfold E0; rewrite map_map; cbn; apply map_id).
    assert (HR0 : Forall (fun e => Reservable sp (re_part e)) E0).
    { unfold E0. apply Forall_map. cbn. exact HR. }
    destruct (offsets_ok sp E0 HR0) as (rs & R1 & R2). rewrite EP in R2.
    destruct (groups_ok sp ps rs 0 R2) as (gs & G1 & G2 & G3 & G4).
    destruct (Hq gs) as [Q1 Q2].
    assert (Hpos : Forall (fun g => -1 < mg_tag g) (q gs)).
    { apply Forall_forall. intros g Hg. apply (Permutation_in _ (Permutation_sym Q1)) in Hg. destruct (G4 g Hg) as (p & _ & _ & X). lia. }
    destruct (number_ok (q gs) (-1) (-1) ltac:(lia) (fun _ => Hpos)) as (gn & last & N1 & N2 & N3 & N4 & N5 & N6).
    { eapply Forall_impl; [|exact Hpos]. intros; cbn in *; lia. }
    { exact Q2. }
    set (N := Z.to_nat (last + 1)).
    assert (Nin : forall g, In g gn -> exists g0, In g0 gs /\ key g0 = key g /\ mg_tag g0 = mg_tag g).
    { intros g Hg. assert (X := in_map (fun g => (mg_part g, mg_map g, mg_tag g)) _ _ Hg). cbn beta in X. rewrite N3 in X.
      apply in_map_iff in X. destruct X as (g0 & X1 & X2). exists g0. injection X1 as X1 X3 X4. conjs; auto.
      - apply (Permutation_in _ (Permutation_sym Q1)). exact X2.
      - unfold key. congruence. }
    assert (Nkey : map key gn = map key (q gs)).
    { assert (X := f_equal (map fst) N3). rewrite !map_map in X. exact X. }
    assert (Nnd : NoDup (map key gn)).
    { rewrite Nkey. eapply Permutation_NoDup; [apply Permutation_map; exact Q1|exact G2]. }
    assert (Nkin : forall i k, In (i, k) (map key gn) <-> exists r, nth_error rs i = Some r /\ 0 <= k < rl_map_count r).
    { intros i k. rewrite Nkey. split.
      - intros X. apply (Permutation_in _ (Permutation_sym (Permutation_map key Q1))) in X. apply G3 in X. destruct X as (r & _ & X1 & X2).
        rewrite Nat.sub_0_r in X1. eauto.
      - intros (r & X1 & X2). apply (Permutation_in _ (Permutation_map key Q1)). apply G3. exists r. rewrite Nat.sub_0_r. conjs; auto; lia. }
    assert (Nprop : forall g, In g gn -> 0 <= mg_res g < Z.of_nat N /\ exists p r, nth_error ps (mg_part g) = Some p /\ nth_error rs (mg_part g) = Some r /\
       0 <= mg_map g < rl_map_count r /\ TagOf p (mg_map g) (mg_tag g)).
    { intros g Hg. destruct (N4 g Hg) as (X1 & X2 & _). split; [unfold N; lia|].
      destruct (Nin g Hg) as (g0 & Y1 & Y2 & Y3). destruct (G4 g0 Y1) as (p & P1 & P2 & P3). rewrite Nat.sub_0_r in P1. unfold key in Y2. injection Y2 as Y2 Y4.
      assert (X : In (mg_part g, mg_map g) (map key gn)) by (apply (in_map key); exact Hg).
      apply Nkin in X. destruct X as (r & X3 & X4). exists p, r. rewrite Y2 in P1. rewrite Y4, Y3 in P2. conjs; auto; lia. }
    destruct (link_ok d ps rs Hd R2 N gn _ _ Nnd Nprop eq_refl eq_refl) as ([bs1 es1] & L0 & L1 & L2 & L3 & L4 & L5). cbn [fst snd] in *.
    (* all base mappings have ranges *)
    assert (HB : exists boxes, bs1 = map (linked d) boxes /\ length boxes = N /\ forall k b, nth_error boxes k = Some b -> BHull d ps gn (Z.of_nat k) b).
    { assert (HB : forall k x, nth_error bs1 k = Some x -> exists b, BHull d ps gn (Z.of_nat k) b /\ x = linked d b).
      { intros k x Hk. destruct (L5 k x Hk) as [[_ Hno]|X]; auto. exfalso. pose proof (nth_error_Some_lt _ _ _ Hk).
        destruct (N6 (Z.of_nat k) ltac:(unfold N in *; lia)) as (g & X1 & X2). apply (Hno g X1 X2). }
      clear - HB L1. revert N L1. 
      assert (G : forall (off : nat) l, (forall k x, nth_error l k = Some x -> exists b, BHull d ps gn (Z.of_nat (off + k)) b /\ x = linked d b) ->
        exists boxes, l = map (linked d) boxes /\ forall k b, nth_error boxes k = Some b -> BHull d ps gn (Z.of_nat (off + k)) b).
      { intros off l. revert off. induction l as [|x l IH]; intros off H.
        - exists []. split; auto. intros [|k]; discriminate.
        - destruct (H 0%nat x eq_refl) as (b & B1 & ->). destruct (IH (S off)) as (bx & X1 & X2).
          { intros k y Hy. replace (S off + k)%nat with (off + S k)%nat by lia. apply H. exact Hy. }
          exists (b :: bx). split; [cbn; congruence|]. intros [|k] c Hc; cbn in Hc.
          + injection Hc as <-. auto.
          + replace (off + S k)%nat with (S off + k)%nat by lia. auto. }
      intros N L1. destruct (G 0%nat bs1 HB) as (bx & X1 & X2). exists bx. conjs; auto. rewrite <- L1, X1, map_length. reflexivity. }
    destruct HB as (boxes & HB1 & HB2 & HB3).
    assert (Hsz : Forall (fun b => NonEmpty n b /\ vol n b < two64) boxes).
    { apply Forall_forall. intros b Hb. apply In_nth_error in Hb. destruct Hb as [k Hk]. destruct (HB3 k b Hk) as (B1 & B2 & B3). split; auto.
      assert (S : SubBox n b (sp_box sp)).
      { apply B3. intros g p x Hin Eg Hp Hx Hm. rewrite Forall_forall in HR. apply (own_size d Hd p x); auto. apply HR. eapply nth_error_In; eauto. }
      assert (V := vol_sub n b _ Hd B1 S). destruct ps as [|p0 l0] eqn:Eps; [congruence|]. inversion HR as [|? ? R0 _]; subst.
      destruct (or_size _ _ _ (rp_own _ _ R0)) as (ns & S1 & S2). rewrite (vol_of_count _ _ ns Hd (nonempty_sub _ _ _ B1 S) S1) in S2. unfold n, sp in *. lia. }
    destruct (ra_alloc_ok d Hd addr Ha boxes 0 Hsz) as (ts & T1 & T2 & T3 & T4).
    assert (HB0 : Bases d ts (fun _ => False) (map (fun t => basem d t true) ts)).
    { split; [apply map_length|]. intros k t Hk. exists true. rewrite nth_error_map, Hk. split; auto. tauto. }
    (* all groups are linked *)
    assert (HL : forall i ms k pm, nth_error es1 i = Some ms -> nth_error ms k = Some pm ->
       exists g p b t, In g gn /\ key g = (i, Z.of_nat k) /\ nth_error ps i = Some p /\ Hull d p (Z.of_nat k) b /\ pm = (linked d b, Some (mg_res g)) /\
         nth_error ts (Z.to_nat (mg_res g)) = Some t /\ SubBox n b (bi_box t)).
    { intros i ms k pm Hi Hk. destruct (L4 i ms k pm Hi Hk) as [[_ X]|(g & p & b & X1 & X2 & X3 & X4 & X5)].
      - exfalso. apply X. apply Nkin.
        destruct (nth_error rs i) as [r|] eqn:Er.
        2:{ apply nth_error_None in Er. pose proof (nth_error_Some_lt _ _ _ Hi). lia. }
        exists r. split; auto. pose proof (L3 i r ms Er Hi). pose proof (nth_error_Some_lt _ _ _ Hk). lia.
      - exists g, p, b. destruct (Nprop g X1) as (Y1 & _).
        assert (Hlt : (Z.to_nat (mg_res g) < length ts)%nat) by (rewrite <- (map_length bi_box ts), T3, HB2; lia).
        destruct (nth_error ts (Z.to_nat (mg_res g))) as [t|] eqn:Et; [|apply nth_error_None in Et; lia].
        exists t. conjs; auto. assert (Eb : nth_error boxes (Z.to_nat (mg_res g)) = Some (bi_box t)) by (rewrite <- T3, nth_error_map, Et; reflexivity).
        destruct (HB3 _ _ Eb) as (B1 & B2 & B3). rewrite Z2Nat.id in B2 by lia. destruct X4 as (C1 & C2 & C3). apply C3.
        intros x Hx Hm. unfold key in X2. injection X2 as X2 X6. apply (B2 g p x); auto; congruence. }
    assert (HE : Forall (Forall (Embeddable d ts)) es1).
    { apply Forall_forall. intros ms Hms. apply In_nth_error in Hms. destruct Hms as [i Hi]. apply Forall_forall. intros pm Hpm.
      apply In_nth_error in Hpm. destruct Hpm as [k Hk]. destruct (HL i ms k pm Hi Hk) as (g & p & b & t & X1 & X2 & X3 & X4 & X5 & X6 & X7).
      exists (Z.to_nat (mg_res g)), t, b. destruct (Nprop g X1) as (Y1 & _). rewrite Z2Nat.id by lia. destruct X4 as (C1 & _). conjs; auto. }
    destruct (embed_all_ok d Hd ts T2 es1 _ _ HB0 HE) as (es2 & bs2 & M1 & M2 & M3).
    eexists. exists ts, es2, bs2. conjs.
    - unfold reservation_alloc. cbn [rv_ents rv_id].
      assert (HE0 : exists e l, E0 = e :: l /\ In (re_part e) ps).
      { unfold E0. destruct ps as [|p l]; [congruence|]. eexists. eexists. split; [reflexivity|]. cbn. now left. }
      destruct HE0 as (e & l & E1 & E2). rewrite E1 at 1. 
      assert (Hsg : same_group E0 = true).
      { rewrite E1. cbn [same_group]. apply forallb_forall. intros f Hf. apply Nat.eqb_eq. apply HG; auto. rewrite <- EP. apply in_map. rewrite E1. now right. }
      rewrite Hsg. cbn [cassert]. rewrite Forall_forall in Hme. replace (pt_me (re_part e) <? 0) with false by (specialize (Hme _ E2); lia).
      rewrite R1. cbn [obind]. rewrite G1. cbn [obind]. rewrite N1. cbn [obind fst snd]. fold N. rewrite L0. cbn [obind fst snd]. rewrite HB1, T1. cbn [obind].
      rewrite M1. cbn [obind fst snd]. reflexivity.
    - reflexivity.
    - cbn [rv_ents]. unfold E0. clear. revert es2. induction ps as [|p l IH]; intros [|m es2]; cbn; auto. now rewrite IH.
    - reflexivity.
    - eapply bases_weaken; [|exact M3]. intros k Hk _.
      assert (HlN : length ts = N) by (rewrite <- (map_length bi_box ts), T3; exact HB2).
      right. destruct (N6 (Z.of_nat k) ltac:(unfold N in *; lia)) as (g & X1 & X2).
      assert (X3 : In (mg_part g, mg_map g) (map key gn)) by (apply (in_map key); exact X1). apply Nkin in X3. destruct X3 as (r & X3 & X4).
      destruct (nth_error es1 (mg_part g)) as [ms|] eqn:Em.
      2:{ apply nth_error_None in Em. pose proof (nth_error_Some_lt _ _ _ X3). lia. }
      exists ms. split; [eapply nth_error_In; eauto|]. pose proof (L3 _ _ _ X3 Em).
      destruct (nth_error ms (Z.to_nat (mg_map g))) as [pm|] eqn:Ep.
      2:{ apply nth_error_None in Ep. lia. }
      destruct (HL _ _ _ _ Em Ep) as (g' & p & b & t & Y1 & Y2 & Y3 & Y4 & Y5 & _). exists pm. split; [eapply nth_error_In; eauto|]. rewrite Y5. cbn.
      assert (Eg : g' = g).
      { rewrite Z2Nat.id in Y2 by lia. fold (key g) in Y2. apply (nodup_map_inj key gn); auto. }
      rewrite Eg, X2. reflexivity.
    - exact T2.
    - intros k t Hk. rewrite (T4 k t Hk). reflexivity.
    - assert (Hl1 := Forall2_length _ _ _ R2). assert (Hl2 := Forall2_length _ _ _ M2).
      apply Forall2_of_nth; [lia|]. intros i p ms Hp Hms.
      destruct (Forall2_nth _ _ _ R2 i) as [Q _]. destruct (Q p Hp) as (r & Er & HRp & HO).
      destruct (Forall2_nth _ _ _ M2 i) as [_ Q']. destruct (Q' ms Hms) as (ms1 & Em1 & HE1).
      assert (Hlen : Z.of_nat (length ms) = rl_map_count r) by (rewrite <- (Forall2_length _ _ _ HE1); eapply L3; eauto).
      split.
      + rewrite Hlen. apply (of_mc _ _ _ HO).
      + rewrite Hlen. apply (of_no _ _ _ HO).
      + intros k pm Hk. destruct (Forall2_nth _ _ _ HE1 k) as [_ Q2']. destruct (Q2' pm Hk) as (pm1 & Ep1 & (j & t & b & o & Z1 & Z2 & Z3)).
        destruct (HL i ms1 k pm1 Em1 Ep1) as (g & p' & b' & t' & X1 & X2 & X3 & X4 & X5 & X6 & X7).
        assert (p' = p) by congruence. subst p'. rewrite Z1 in X5. injection X5 as X5 X8. subst b'. rewrite <- X8, Nat2Z.id in X6.
        assert (t' = t) by congruence. subst t'. exists j, t, b, o. conjs; auto.
    - assert (HJ : forall i p ms x m j, nth_error ps i = Some p -> nth_error es2 i = Some ms -> OwnRange p x -> nth_error ms (Z.to_nat (t_mapNo x)) = Some (m, Some j) ->
         exists g, In g gn /\ mg_res g = j /\ mg_tag g = t_tag x).
      { intros i p ms x m j Hp Hms Hx Hj.
        destruct (Forall2_nth _ _ _ R2 i) as [Q _]. destruct (Q p Hp) as (r & Er & HRp & HO). pose proof (of_no _ _ _ HO x Hx) as Hno.
        destruct (Forall2_nth _ _ _ M2 i) as [_ Q']. destruct (Q' ms Hms) as (ms1 & Em1 & HE1).
        destruct (Forall2_nth _ _ _ HE1 (Z.to_nat (t_mapNo x))) as [_ Q2']. destruct (Q2' _ Hj) as (pm1 & Ep1 & (j0 & t & b & o & Z1 & Z2 & Z3)).
        destruct (HL i ms1 _ pm1 Em1 Ep1) as (g & p' & b' & t' & X1 & X2 & X3 & X4 & X5 & X6 & X7).
        assert (p' = p) by congruence. subst p'. rewrite Z1 in X5. injection X5 as _ X8. injection Z3 as _ Z3.
        exists g. conjs; auto; [congruence|]. destruct (Nprop g X1) as (_ & p' & r' & P1 & _ & _ & P2).
        unfold key in X2. injection X2 as X2 X9. rewrite X2 in P1. assert (p' = p) by congruence. subst p'. symmetry. apply P2; auto. lia. }
      intros i i' p p' ms ms' x x' m m' j j' A1 A2 A3 A4 A5 A6 A7 A8.
      destruct (HJ _ _ _ _ _ _ A1 A3 A5 A7) as (g & B1 & B2 & B3). destruct (HJ _ _ _ _ _ _ A2 A4 A6 A8) as (g' & C1 & C2 & C3).
      rewrite <- B2, <- C2, <- B3, <- C3. apply N5; auto.
    - intros k t Hk. assert (HlN : length ts = N) by (rewrite <- (map_length bi_box ts), T3; exact HB2).
      pose proof (nth_error_Some_lt _ _ _ Hk) as Hlt.
      assert (Eb : nth_error boxes k = Some (bi_box t)) by (rewrite <- T3, nth_error_map, Hk; reflexivity).
      destruct (HB3 _ _ Eb) as (B1 & B2 & B3).
      destruct (N6 (Z.of_nat k) ltac:(unfold N in *; lia)) as (g & X1 & X2).
      assert (HTag : forall g p x, In g gn -> nth_error ps (mg_part g) = Some p -> OwnRange p x -> t_mapNo x = mg_map g -> t_tag x = mg_tag g).
      { intros g' p' x' I1 I2 I3 I4. destruct (Nprop g' I1) as (_ & p2 & r2 & P1 & _ & _ & P2). assert (p2 = p') by congruence. subst p2. apply P2; auto. }
      destruct (Nprop g X1) as (_ & p & r & P1 & P2 & P3 & P4).
      destruct (Forall2_nth _ _ _ R2 (mg_part g)) as [Q _]. destruct (Q p P1) as (r' & Er & HRp & HO). assert (r' = r) by congruence. subst r'.
      destruct (of_map _ _ _ HO _ P3) as (a & b & _ & _ & Lab & O1 & _). destruct (O1 a ltac:(lia)) as (x & _ & O2 & O3).
      exists p, x. split; [eapply nth_error_In; eauto|]. split; auto. rewrite (HTag g p x X1 P1 O2 O3). split.
      + intros p' x' Hp' Hx' Ht'. apply In_nth_error in Hp'. destruct Hp' as [i' Hi'].
        destruct (Forall2_nth _ _ _ R2 i') as [Q0 _]. destruct (Q0 p' Hi') as (r' & Er' & HRp' & HO'). pose proof (of_no _ _ _ HO' x' Hx') as Hno'.
        assert (X : In (i', t_mapNo x') (map key gn)) by (apply Nkin; eauto). apply in_map_iff in X. destruct X as (g' & K1 & K2). unfold key in K1. injection K1 as K1 K3.
        apply (B2 g' p' x'); auto; try congruence. rewrite <- X2. apply N5; auto. rewrite <- Ht'. symmetry. apply (HTag g' p' x'); auto; congruence.
      + intros c Hc. apply B3. intros g' p' x' I1 I2 I3 I4 I5. apply (Hc p' x'); auto; [eapply nth_error_In; eauto|].
        rewrite (HTag g' p' x'); auto. apply N5; auto. congruence.
  Qed.
End All.
