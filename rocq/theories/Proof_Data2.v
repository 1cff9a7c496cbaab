(* Reuse of the memory of old mappings, allocation *)
From Coq Require Import ZArith List Bool Lia Sorted Permutation ZifyBool ZifyNat.
From Verif Require Import Base Model_Space Model_RangeList Model_Mem Model_Layout Model_Partitioner Model_Transition Model_Data
  Spec_Space Spec_RangeList Spec_Partitioner Spec_Type Spec_Layout Spec_Data
  Proof_Space Proof_RangeList5 Proof_Layout Proof_Layout2 Proof_Data Prop_Layout.
Import ListNotations.
Open Scope Z_scope.

Definition own (m : mapping) : list (Z * Z) := if m_owner m && negb (m_start m =? 0) then [(m_start m, m_cap m)] else [].
Definition grab (f : mapping) (i : Z) : mapping :=
  mkMapping (m_req f) (m_count f) (m_lay f) (m_sec f) (m_alc f) (m_allocCount f) (m_start f) (m_base f) (m_cap f) false i.

Lemma flat_map_upd {A B} (g : A -> list B) l j x y : nth_error l j = Some x -> g y = [] ->
  Permutation (flat_map g l) (g x ++ flat_map g (upd j y l)).
Proof.
  intros Hx Hy. revert j Hx. induction l as [|a l IH]; intros [|j] Hx; simpl in *; try discriminate.
  - injection Hx as ->. rewrite Hy. apply Permutation_refl.
  - rewrite (IH j Hx). rewrite !app_assoc. apply Permutation_app_tail, Permutation_app_comm.
Qed.

Lemma within_sound sp a b : valid_dims (sp_dims sp) -> range_within_range (mkRange (Some sp) a) (mkRange (Some sp) b) = Ok true -> SubBox (sp_dims sp) a b.
Proof. intros Hd H. eapply range_within_sound; eauto. Qed.

Section Reuse.
  Variable sp : space.
  Variable es : Z.
  Hypothesis Hd : valid_dims (sp_dims sp).
  Hypothesis Hes : 0 < es.
  Let d := sp_dims sp.
  Variable lf : lexlayout.
  Variable F : list mapping.
  Hypothesis HB : Built sp lf.
  Hypothesis HF : forall j f, nth_error F j = Some f -> exists B, SectionBox lf (Z.of_nat j) B /\ m_alc f = mkRange (Some sp) B /\
    0 < m_start f /\ m_base f <> 0 /\ m_reused f = -1.

  Definition Rel (i : Z) (fm : list mapping) : Prop := length fm = length F /\
    forall j f, nth_error F j = Some f -> nth_error fm j = Some f \/ exists k, 0 <= k < i /\ nth_error fm j = Some (grab f k).

  Lemma reuse_total ly i b j f : Built sp ly -> SectionBox ly i b -> nth_error F j = Some f -> exists r, reuse_lex ly i lf (Z.of_nat j) = Ok r.
  Proof.
    intros HBl HS Hj. destruct (HF j f Hj) as [B [HB2 _]].
    destruct (section_entry sp ly i b Hd HBl HS) as [e [E1 [E2 [E3 [E4 E5]]]]].
    destruct (section_entry sp lf _ B Hd HB HB2) as [e' [F1 [F2 [F3 [F4 F5]]]]].
    unfold reuse_lex. replace ((0 <=? i) && (i <? Z.of_nat (length (lx_e ly)))) with true by lia. cbn [cassert].
    rewrite E2, F2. cbn [obind]. destruct E4 as [A1 _], F4 as [A2 _]. unfold range_within_range. rewrite A1, A2, space_eq_refl.
    cbn [cassert obind]. destruct (negb _); eauto.
  Qed.

  Lemma find_ok ly i b : Built sp ly -> SectionBox ly i b -> 0 <= i -> forall fm s, (length s + length fm = length F)%nat ->
    Rel i (s ++ fm) ->
    reuse_find ly i lf (Z.of_nat (length s)) fm = Ok None \/
    exists j f ly', reuse_find ly i lf (Z.of_nat (length s)) fm = Ok (Some (Z.of_nat j, ly')) /\
      nth_error F j = Some f /\ nth_error (s ++ fm) j = Some f /\ reuse_lex ly i lf (Z.of_nat j) = Ok (true, ly').
  Proof.
    intros HBl HS Hi. induction fm as [|f fm IH]; intros s Hlen HR; [left; reflexivity|].
    assert (Hnx : reuse_find ly i lf (Z.of_nat (length s) + 1) fm = Ok None \/
       exists j f' ly', reuse_find ly i lf (Z.of_nat (length s) + 1) fm = Ok (Some (Z.of_nat j, ly')) /\
        nth_error F j = Some f' /\ nth_error (s ++ f :: fm) j = Some f' /\ reuse_lex ly i lf (Z.of_nat j) = Ok (true, ly')).
    { assert (G := IH (s ++ [f])). rewrite <- app_assoc in G. simpl in G. rewrite app_length in G. simpl in G, Hlen.
      replace (Z.of_nat (length s + 1)) with (Z.of_nat (length s) + 1) in G by lia. apply G; auto. lia. }
    cbn [reuse_find].
    assert (Hf : exists f0, nth_error F (length s) = Some f0).
    { destruct (nth_error F (length s)) eqn:E; eauto. apply nth_error_None in E. simpl in Hlen. lia. }
    destruct Hf as [f0 Hf0]. destruct HR as [HR1 HR2]. destruct (HF _ _ Hf0) as [B [C1 [C2 [C3 [C4 C5]]]]].
    assert (Hnth : nth_error (s ++ f :: fm) (length s) = Some f) by (rewrite nth_error_app2, Nat.sub_diag by lia; reflexivity).
    destruct (HR2 _ _ Hf0) as [E|[k [K1 E]]].
    - assert (f = f0) by congruence. subst f0. replace (m_base f =? 0) with false by lia. rewrite C5. change (-1 >=? 0) with false. cbv iota.
      destruct (reuse_total ly i b (length s) f HBl HS Hf0) as [[w ly'] Er]. rewrite Er. cbn [obind fst snd].
      destruct w; auto. right. exists (length s), f, ly'. auto.
    - assert (f = grab f0 k) by congruence. subst f. cbn [grab m_base m_reused]. replace (m_base f0 =? 0) with false by lia.
      replace (k >=? 0) with true by lia. auto.
  Qed.

  Lemma rel_bound i fm j f : Rel i fm -> nth_error fm j = Some f -> i <= m_reused f -> 0 <= i -> False.
  Proof.
    intros [R1 R2] Hj Hf Hi.
    assert (exists f0, nth_error F j = Some f0) as [f0 Hf0].
    { destruct (nth_error F j) eqn:E; eauto. apply nth_error_None in E. assert (j < length fm)%nat by (apply nth_error_Some; congruence). lia. }
    destruct (HF _ _ Hf0) as (B & _ & _ & _ & _ & C). destruct (R2 _ _ Hf0) as [E|[k [K E]]].
    - assert (f = f0) by congruence. subst. lia.
    - assert (f = grab f0 k) by congruence. subst. simpl in Hf. lia.
  Qed.

  Definition taken (k : Z) (b B : box) (f : mapping) : mapping :=
    mkMapping (mkRange (Some sp) b) (vol d b) None k (m_alc f) (m_allocCount f) (m_start f)
      (m_start f + boff d B (b_from b) * es) (m_cap f) (m_owner f) (-1).

  Definition Took (ly : lexlayout) (fm : list mapping) (k : Z) (b : box) (t' : mapping) (j : nat) : Prop :=
    exists f B, nth_error F j = Some f /\ nth_error fm j = Some (grab f k) /\ SectionBox lf (Z.of_nat j) B /\
      SectionBox ly k B /\ SubBox d b B /\ t' = taken k b B f.

  Lemma section_unique ly n b b' : SectionBox ly n b -> SectionBox ly n b' -> b = b'.
  Proof. intros [_ [e [E1 <-]]] [_ [e' [E2 <-]]]. congruence. Qed.

  Lemma from_in b : NonEmpty d b -> InBox d (b_from b) b.
  Proof. intros [x [A [B C]]]. unfold InBox. lia. Qed.

  Lemma loop_ok : forall ts i ly fm, 0 <= i -> Built sp ly -> Rel i fm ->
    (forall n t, nth_error ts n = Some t -> exists b, t = raw sp (i + Z.of_nat n) b /\ NonEmpty d b /\ SectionBox ly (i + Z.of_nat n) b) ->
    exists ts' ly' fm', reuse_loop es lf i ts ly fm = Ok (ts', ly', fm') /\ Built sp ly' /\ Rel (i + Z.of_nat (length ts)) fm' /\
      length ts' = length ts /\
      (forall n b, n < i -> SectionBox ly n b -> SectionBox ly' n b) /\
      (forall j f, nth_error fm j = Some f -> 0 <= m_reused f -> nth_error fm' j = Some f) /\
      (forall j f, nth_error fm' j = Some f -> nth_error fm j = Some f \/ i <= m_reused f) /\
      (forall n t b, nth_error ts n = Some t -> t = raw sp (i + Z.of_nat n) b -> exists t', nth_error ts' n = Some t' /\
         ((t' = t /\ SectionBox ly' (i + Z.of_nat n) b) \/ exists j, Took ly' fm' (i + Z.of_nat n) b t' j)) /\
      (forall j f, nth_error fm' j = Some f -> i <= m_reused f -> exists n t t' b, nth_error ts n = Some t /\ nth_error ts' n = Some t' /\
         t = raw sp (i + Z.of_nat n) b /\ m_reused f = i + Z.of_nat n /\ Took ly' fm' (i + Z.of_nat n) b t' j) /\
      Permutation (flat_map own fm ++ flat_map own ts) (flat_map own fm' ++ flat_map own ts').
  Proof.
    induction ts as [|t ts IH]; intros i ly fm Hi HBl HR HT.
    - exists [], ly, fm. cbn [reuse_loop length]. replace (i + Z.of_nat 0) with i by lia. conjs; auto.
      + intros n t b Hn. destruct n; discriminate.
      + intros j f Hj Hf. exfalso. exact (rel_bound i fm j f HR Hj Hf Hi).
    - destruct (HT 0%nat t eq_refl) as [b [Et [Nb Sb]]]. replace (i + Z.of_nat 0) with i in * by lia.
      cbn [reuse_loop].
      assert (HTS : forall n t0, nth_error ts n = Some t0 -> exists b0, t0 = raw sp (i + 1 + Z.of_nat n) b0 /\ NonEmpty d b0 /\ SectionBox ly (i + 1 + Z.of_nat n) b0).
      { intros n t0 Hn. destruct (HT (S n) t0 Hn) as [b0 H]. replace (i + 1 + Z.of_nat n) with (i + Z.of_nat (S n)) by lia. eauto. }
      destruct (find_ok ly i b HBl Sb Hi fm [] ltac:(destruct HR; simpl; lia) HR) as [E|[j [f [ly1 [E [Hj [Hj' Er]]]]]]]; simpl length in E; change (Z.of_nat 0) with 0 in E; rewrite E; cbn [obind].
      + destruct (IH (i + 1) ly fm ltac:(lia) HBl) as (ts' & ly' & fm' & E1 & E2 & E3 & E4 & E5 & E6 & E10 & E7 & E8 & E9); auto.
        { destruct HR as [R1 R2]. split; auto. intros j f Hj. destruct (R2 j f Hj) as [|[k [K1 K2]]]; auto. right. exists k. split; auto. lia. }
        rewrite E1. cbn [obind fst snd]. exists (t :: ts'), ly', fm'. simpl length in *. conjs; auto.
        * replace (i + Z.of_nat (S (length ts))) with (i + 1 + Z.of_nat (length ts)) by lia. auto.
        * intros n b0 Hn. apply E5. lia.
        * intros j f Hjf. destruct (E10 j f Hjf) as [|]; auto. right. lia.
        * intros [|n] t0 b0 Hn Hr; simpl in Hn.
          -- injection Hn as <-. exists t. split; auto. left. split; auto. replace (i + Z.of_nat 0) with i in * by lia.
             assert (b0 = b) by (rewrite Et in Hr; unfold raw in Hr; congruence). subst b0. apply E5; auto. lia.
          -- replace (i + Z.of_nat (S n)) with (i + 1 + Z.of_nat n) in * by lia. simpl. eapply E7; eauto.
        * intros j f Hjf Hf. destruct (E10 j f Hjf) as [Q|Q].
          -- exfalso. exact (rel_bound i fm j f HR Q Hf Hi).
          -- destruct (E8 j f Hjf Q) as (n & t0 & t' & b0 & G1 & G2 & G3 & G4 & G5).
             exists (S n), t0, t', b0. replace (i + Z.of_nat (S n)) with (i + 1 + Z.of_nat n) by lia. auto.
        * cbn [flat_map]. rewrite Et. cbn [own raw m_owner m_start]. exact E9.
      + destruct (HF _ _ Hj) as (B & C1 & C2 & C3 & C4 & C5).
        destruct (C37_reuse_offsets sp ly i lf (Z.of_nat j) b B ly1 Hd HBl HB Sb C1 Er) as (P1 & P2 & P3 & P4 & P5 & _).
        assert (Ha : aread fm (Z.of_nat j) = Ok f) by (apply aread_nat; auto). rewrite Ha. cbn [obind].
        assert (Hw : range_within_range (mkRange (Some sp) b) (mkRange (Some sp) B) = Ok true).
        { apply reuse_ok in Er. destruct Er as [en [eo [R1 [R2 [R3 [R4 [R5 R6]]]]]]].
          destruct (section_entry sp ly i b Hd HBl Sb) as [e [_ [_ [A3 [A4 A5]]]]].
          destruct (section_entry sp lf _ B Hd HB C1) as [e' [_ [_ [D3 [D4 D5]]]]].
          rewrite A5 in R2. injection R2 as <-. rewrite D5 in R4. injection R4 as <-. destruct A4 as [A4 _], D4 as [D4 _].
          destruct (le_range e) as [s1 b1], (le_range e') as [s2 b2]. simpl in *. subst. exact R5. }
        assert (Ho : offset_lex ly1 i (b_from b) = Ok (boff d B (b_from b))).
        { apply (offset_ok sp); auto. apply P1, from_in, Nb. }
        assert (Ee : init_embedded es (match m_lay t with Some l => Some l | None => Some ly1 end) t f = Ok (taken i b B f, grab f (m_reused f))).
        { rewrite Et. unfold init_embedded. cbn [raw m_req m_lay m_sec m_count m_reused r_box]. rewrite C2, Hw. cbn [obind cassert].
          rewrite Ho. cbn [obind]. rewrite <- C2. reflexivity. }
        rewrite Ee. cbn [obind fst snd]. cbn [taken m_owner m_start].
        replace (if m_owner f then true else negb (m_start f =? 0)) with true by (destruct (m_owner f); lia). cbn [cassert].
        rewrite Nat2Z.id. change (set_reused (grab f (m_reused f)) i) with (grab f i).
        change ([] ++ fm) with fm in Hj'. assert (Hlj : (j < length fm)%nat) by (apply nth_error_Some; congruence).
        assert (HR1 : Rel (i + 1) (upd j (grab f i) fm)).
        { destruct HR as [R1 R2]. split; [now rewrite upd_length|]. intros j' f' Hj2. destruct (Nat.eq_dec j' j) as [->|Nj].
          - right. exists i. split; [lia|]. rewrite upd_nth_same by auto. congruence.
          - rewrite upd_nth_other by auto. destruct (R2 _ _ Hj2) as [|[k [K1 K2]]]; auto. right. exists k. split; auto. lia. }
        destruct (IH (i + 1) ly1 (upd j (grab f i) fm) ltac:(lia) P3 HR1) as (ts' & ly' & fm' & E1 & E2 & E3 & E4 & E5 & E6 & E10 & E7 & E8 & E9).
        { intros n t0 Hn. destruct (HTS n t0 Hn) as [b0 [G1 [G2 G3]]]. exists b0. conjs; auto.
          apply reuse_ok in Er. destruct Er as [en [eo [R1 [R2 [R3 [R4 [R5 R6]]]]]]]. destruct G3 as [G3 [e [G4 G5]]].
          split; auto. exists e. split; auto. rewrite R6. simpl. rewrite upd_nth_other by lia. exact G4. }
        rewrite E1. cbn [obind fst snd]. exists (taken i b B f :: ts'), ly', fm'. simpl length in *.
        assert (Hg : nth_error fm' j = Some (grab f i)).
        { apply E6; [apply upd_nth_same; auto|simpl; lia]. }
        assert (Tk : Took ly' fm' i b (taken i b B f) j).
        { exists f, B. conjs; auto. apply E5; auto. lia. }
        conjs; auto.
        * replace (i + Z.of_nat (S (length ts))) with (i + 1 + Z.of_nat (length ts)) by lia. auto.
        * intros n b0 Hn Hs. apply E5; [lia|].
          apply reuse_ok in Er. destruct Er as [en [eo [R1 [R2 [R3 [R4 [R5 R6]]]]]]]. destruct Hs as [G3 [e [G4 G5]]].
          split; auto. exists e. split; auto. rewrite R6. simpl. rewrite upd_nth_other by lia. exact G4.
        * intros j' f' Hj2 Hf. destruct (Nat.eq_dec j' j) as [->|Nj].
          -- assert (f' = f) by congruence. subst. lia.
          -- apply E6; auto. rewrite upd_nth_other; auto.
        * intros j' f' Hj2. destruct (E10 j' f' Hj2) as [Q|Q]; [|right; lia]. destruct (Nat.eq_dec j' j) as [->|Nj].
          -- rewrite upd_nth_same in Q by auto. right. injection Q as <-. simpl. lia.
          -- rewrite upd_nth_other in Q by auto. auto.
        * intros [|n] t0 b0 Hn Hr; simpl in Hn.
          -- injection Hn as <-. exists (taken i b B f). split; auto. right. replace (i + Z.of_nat 0) with i in * by lia.
             assert (b0 = b) by (rewrite Et in Hr; unfold raw in Hr; congruence). subst b0. exists j. auto.
          -- replace (i + Z.of_nat (S n)) with (i + 1 + Z.of_nat n) in * by lia. simpl. eapply E7; eauto.
        * intros j' f' Hj2 Hf. destruct (E10 j' f' Hj2) as [Q|Q].
          -- destruct (Nat.eq_dec j' j) as [->|Nj].
             ++ rewrite upd_nth_same in Q by auto. injection Q as <-. exists 0%nat, t, (taken i b B f), b. simpl m_reused.
                replace (i + Z.of_nat 0) with i by lia. auto.
             ++ rewrite upd_nth_other in Q by auto. exfalso. exact (rel_bound i fm j' f' HR Q Hf Hi).
          -- destruct (E8 j' f' Hj2 Q) as (n & t0 & t' & b0 & G1 & G2 & G3 & G4 & G5).
             exists (S n), t0, t', b0. replace (i + Z.of_nat (S n)) with (i + 1 + Z.of_nat n) by lia. auto.
        * cbn [flat_map]. rewrite Et at 1. change (own (raw sp i b)) with (@nil (Z*Z)). cbn [app].
          rewrite (flat_map_upd own fm j f (grab f i) Hj' eq_refl).
          change (own (taken i b B f)) with (own f). rewrite <- app_assoc, E9.
          rewrite !app_assoc. apply Permutation_app_tail, Permutation_app_comm.
  Qed.
End Reuse.
