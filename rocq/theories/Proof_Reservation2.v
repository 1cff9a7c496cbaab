(* Proofs about reservations: required ranges, allocation, embedded mappings *)
From Coq Require Import ZArith List Bool Lia Sorted Permutation ZifyBool ZifyNat.
From Verif Require Import Base ListFacts Model_Space Model_RangeList Model_Mem Model_Layout Model_Partitioner Model_Transition Model_Data Model_Reservation
  Spec_Space Spec_RangeList Spec_Partitioner Spec_Type Spec_Layout Spec_Data Spec_Reservation
  Proof_Space Proof_RangeList Proof_RangeList2 Proof_RangeList3 Proof_RangeList4 Proof_RangeList5 Proof_Partitioner2
  Proof_Layout Proof_Layout2 Proof_Layout4 Proof_Data Proof_Data3 Proof_Reservation.
Import ListNotations.
Open Scope Z_scope.

Lemma Forall2_nth {A B} (R : A -> B -> Prop) l l' : Forall2 R l l' -> forall i,
  (forall a, nth_error l i = Some a -> exists b, nth_error l' i = Some b /\ R a b) /\
  (forall b, nth_error l' i = Some b -> exists a, nth_error l i = Some a /\ R a b).
Proof.
  induction 1 as [|a b l l' H HF IH]; intros i.
  - split; intros x Hx; destruct i; discriminate.
  - destruct i as [|i]; simpl; [|apply IH]. split; intros x Hx; injection Hx as <-; [exists b|exists a]; auto.
Qed.

Section Link.
  Variables (d : dcont) (ps : list part) (rs : list rlist).
  Let sp := dc_space d.
  Let n := sp_dims sp.
  Hypothesis Hd : valid_dims (sp_dims (dc_space d)).
  Hypothesis HF : Forall2 (fun p r => Reservable (dc_space d) p /\ Offs (dc_space d) p r) ps rs.

  (* smallest box with all ranges of map k *)
  Definition Hull (p : part) (k : Z) (b : box) : Prop :=
    NonEmpty n b /\ (forall x, OwnRange p x -> t_mapNo x = k -> SubBox n (t_box x) b) /\
    (forall c, (forall x, OwnRange p x -> t_mapNo x = k -> SubBox n (t_box x) c) -> SubBox n b c).
  (* smallest box with all ranges of the groups with number [m] *)
  Definition BHull (gs : list mygroup) (m : Z) (b : box) : Prop :=
    NonEmpty n b /\
    (forall g p x, In g gs -> mg_res g = m -> nth_error ps (mg_part g) = Some p -> OwnRange p x -> t_mapNo x = mg_map g -> SubBox n (t_box x) b) /\
    (forall c, (forall g p x, In g gs -> mg_res g = m -> nth_error ps (mg_part g) = Some p -> OwnRange p x -> t_mapNo x = mg_map g -> SubBox n (t_box x) c) -> SubBox n b c).

  Lemma own_size p x : Reservable sp p -> OwnRange p x -> NonEmpty n (t_box x) /\ SubBox n (t_box x) (sp_box sp) /\ vol n (t_box x) < two64.
  Proof.
    intros HR [k Hk]. destruct (rp_own _ _ HR) as [Fz Esp Hme Hne _ _ [ns [Hns1 Hns2]]].
    assert (N := Hne k x Hk). destruct (FrozenList_Frozen _ Fz) as [F _].
    rewrite frozen_tidrange in Hk by auto. destruct (k <? 0); [discriminate|]. injection Hk as Hk. apply nth_error_In in Hk.
    unfold mine in Hk. apply filter_In in Hk. destruct Hk as [Hk _]. assert (S := frozen_sub _ _ Fz Hk). rewrite Esp in S.
    conjs; auto. assert (V := vol_sub n _ _ Hd N S). rewrite (vol_of_count _ _ ns Hd (nonempty_sub _ _ _ N S) Hns1) in Hns2. unfold n, sp in *. lia.
  Qed.

  Lemma nonempty_isEmpty b : NonEmpty n b -> range_isEmpty (Rg sp b) = false.
  Proof.
    intros H. destruct (range_isEmpty (Rg sp b)) eqn:E; auto. exfalso.
    destruct H as [x Hx]. exact (proj1 (range_isEmpty_correct sp b Hd) E x Hx).
  Qed.

  Lemma extend_ok b c : NonEmpty n b -> NonEmpty n c -> exists e, ra_extend (Rg sp b) (Rg sp c) = Ok (Rg sp e) /\ NonEmpty n e /\
    SubBox n b e /\ SubBox n c e /\ forall q, SubBox n b q -> SubBox n c q -> SubBox n e q.
  Proof. intros Hb Hc. unfold ra_extend. rewrite (nonempty_isEmpty b Hb). apply (expand_ok sp Hd); auto. Qed.

  Lemma ranges_ok p r g a b : Reservable sp p -> Offs sp p r -> TagOf p (mg_map g) (mg_tag g) ->
    0 <= mg_map g < rl_map_count r -> aread (rl_map_off r) (mg_map g) = Ok a -> aread (rl_map_off r) (mg_map g + 1) = Ok b ->
    exists h, ofold (ra_range r g) (counting a (Z.to_nat (b - a))) no_range = Ok (Rg sp h) /\ Hull p (mg_map g) h.
  Proof.
    intros HR HO HT Hk Ha Hb. destruct (of_map _ _ _ HO _ Hk) as (a' & b' & A & B & L & M1 & M2).
    assert (a' = a) by congruence. assert (b' = b) by congruence. subst a' b'.
    destruct (ofold_total (ra_range r g) (fun pre q => (pre = [] /\ q = no_range) \/
       (pre <> [] /\ exists h, q = Rg sp h /\ NonEmpty n h /\
         (forall o x, In o pre -> aread (rl_trs r) o = Ok x -> SubBox n (t_box x) h) /\
         (forall c, (forall o x, In o pre -> aread (rl_trs r) o = Ok x -> SubBox n (t_box x) c) -> SubBox n h c)))
       (counting a (Z.to_nat (b - a))) no_range) as [q [Q1 Q2]].
    - left. auto.
    - intros pre o post q E HP. assert (Ho : a <= o < b).
      { assert (X : In o (counting a (Z.to_nat (b - a)))) by (rewrite E; apply in_app_iff; right; now left). apply counting_in in X. lia. }
      destruct (M1 o Ho) as (x & X1 & X2 & X3). destruct (own_size p x HR X2) as (S1 & S2 & S3).
      unfold ra_range. rewrite X1. cbn [obind]. rewrite X3, Z.eqb_refl, (HT x X2 X3), Z.eqb_refl. cbn [cassert].
      rewrite (of_sp _ _ _ HO). unfold range_size. cbn [r_space r_box]. fold sp n. rewrite (box_size_vol n _ Hd S1 S3). cbn [obind].
      pose proof (vol_pos n _ Hd S1). replace (vol n (t_box x) >? 0) with true by lia. cbn [cassert].
      assert (Hne : pre ++ [o] <> []) by (destruct pre; discriminate).
      destruct HP as [[-> ->]|[_ (h & -> & H1 & H2 & H3)]].
      + exists (Rg sp (t_box x)). split; [reflexivity|]. right. split; auto. exists (t_box x). conjs; auto.
        * intros o' x' [<-|[]] Hx'. assert (x' = x) by congruence. subst. intros i; auto.
        * intros c Hc. apply (Hc o); auto. now left.
      + destruct (extend_ok h (t_box x) H1 S1) as (e & E1 & E2 & E3 & E4 & E5).
        exists (Rg sp e). split; [exact E1|]. right. split; auto. exists e. conjs; auto.
        * intros o' x' Hin Hx'. apply in_app_iff in Hin. destruct Hin as [Hin|[<-|[]]].
          -- intros i Hi. apply E3. eapply H2; eauto.
          -- assert (x' = x) by congruence. subst. auto.
        * intros c Hc. apply E5.
          -- apply H3. intros o' x' Hin. apply Hc. apply in_app_iff; auto.
          -- apply (Hc o); auto. apply in_app_iff. right. now left.
    - destruct Q2 as [[E _]|[_ (h & -> & H1 & H2 & H3)]].
      { assert (X : In a (counting a (Z.to_nat (b - a)))) by (apply counting_in; lia). rewrite E in X. destruct X. }
      exists h. split; [auto|]. unfold Hull. conjs.
      + exact H1.
      + intros x X1 X2. destruct (M2 x X1 X2) as (o & O1 & O2). apply (H2 o); auto. apply counting_in. lia.
      + intros c Hc. apply H3. intros o x Hin Hx. apply counting_in in Hin. destruct (M1 o ltac:(lia)) as (y & Y1 & Y2 & Y3).
        assert (y = x) by congruence. subst y. auto.
  Qed.

  Definition linked (b : box) : mapping := set_req init_mapping (Rg sp b).

  Definition LInv (N : nat) (pre : list mygroup) (st : list mapping * list (list (mapping * option Z))) : Prop :=
    length (fst st) = N /\ length (snd st) = length rs /\
    (forall i r ms, nth_error rs i = Some r -> nth_error (snd st) i = Some ms -> Z.of_nat (length ms) = rl_map_count r) /\
    (forall i ms k pm, nth_error (snd st) i = Some ms -> nth_error ms k = Some pm ->
       (pm = (init_mapping, None) /\ ~ In (i, Z.of_nat k) (map key pre)) \/
       exists g p b, In g pre /\ key g = (i, Z.of_nat k) /\ nth_error ps i = Some p /\ Hull p (Z.of_nat k) b /\ pm = (linked b, Some (mg_res g))) /\
    (forall m x, nth_error (fst st) m = Some x ->
       (x = init_mapping /\ forall g, In g pre -> mg_res g <> Z.of_nat m) \/
       exists b, BHull pre (Z.of_nat m) b /\ x = linked b).

  Lemma link_ok N gs bs es : NoDup (map key gs) ->
    (forall g, In g gs -> 0 <= mg_res g < Z.of_nat N /\ exists p r, nth_error ps (mg_part g) = Some p /\ nth_error rs (mg_part g) = Some r /\
       0 <= mg_map g < rl_map_count r /\ TagOf p (mg_map g) (mg_tag g)) ->
    bs = repeat init_mapping N -> es = map (fun l => repeat (init_mapping, None) (Z.to_nat (rl_map_count l))) rs ->
    exists st, ofold (ra_link d rs) gs (bs, es) = Ok st /\ LInv N gs st.
  Proof.
    intros Hnd Hg Ebs Ees. apply ofold_total.
    - unfold LInv. cbn [fst snd]. subst bs es. rewrite repeat_length, map_length. conjs; auto.
      + intros i r ms Hr Hm. rewrite nth_error_map, Hr in Hm. injection Hm as <-. rewrite repeat_length.
        destruct (Forall2_nth _ _ _ HF i) as [_ Q]. destruct (Q r Hr) as (p & _ & _ & HO). pose proof (of_nn _ _ _ HO). lia.
      + intros i ms k pm Hm Hk. left. rewrite nth_error_map in Hm. destruct (nth_error rs i); [|discriminate]. injection Hm as <-.
        apply nth_error_In, repeat_spec in Hk. split; auto.
      + intros m x Hx. left. apply nth_error_In, repeat_spec in Hx. split; auto.
    - intros pre g post [bs1 es1] E HP. destruct HP as (L1 & L2 & L3 & L4 & L5). cbn [fst snd] in *.
      assert (Gin : In g gs) by (rewrite E; apply in_app_iff; right; now left).
      destruct (Hg g Gin) as (G1 & p & r & G2 & G3 & G4 & G5).
      destruct (Forall2_nth _ _ _ HF (mg_part g)) as [_ Q]. destruct (Q r G3) as (p' & P1 & HR & HO). assert (p' = p) by congruence. subst p'. clear Q.
      destruct (nth_error es1 (mg_part g)) as [ms|] eqn:Ems.
      2:{ apply nth_error_None in Ems. pose proof (nth_error_Some_lt _ _ _ G3). lia. }
      pose proof (L3 _ _ _ G3 Ems) as Hlm.
      destruct (nth_error ms (Z.to_nat (mg_map g))) as [pm|] eqn:Epm.
      2:{ apply nth_error_None in Epm. lia. }
      destruct (nth_error bs1 (Z.to_nat (mg_res g))) as [rm|] eqn:Erm.
      2:{ apply nth_error_None in Erm. lia. }
      assert (Hnew : ~ In (key g) (map key pre)).
      { rewrite E, map_app in Hnd. cbn [map] in Hnd. apply NoDup_remove_2 in Hnd. intros X. apply Hnd. apply in_app_iff. auto. }
      unfold ra_link. rewrite (proj2 (aread_nat _ _ _) Ems). cbn [obind]. replace (mg_map g <? Z.of_nat (length ms)) with true by lia. cbn [cassert].
      rewrite (proj2 (aread_iff ms (mg_map g) pm) (conj (proj1 G4) Epm)). cbn [obind].
      replace (mg_res g <? Z.of_nat (length bs1)) with true by lia. cbn [cassert].
      rewrite (proj2 (aread_iff bs1 (mg_res g) rm) (conj (proj1 G1) Erm)). cbn [obind].
      destruct (L4 _ _ _ _ Ems Epm) as [[-> _]|(g' & p' & b' & B1 & B2 & _)].
      2:{ exfalso. apply Hnew. rewrite Z2Nat.id in B2 by lia. fold (key g) in B2. rewrite <- B2. now apply in_map. }
      cbn [fst snd cassert]. rewrite (proj2 (aread_nat _ _ _) G3). cbn [obind].
      destruct (of_map _ _ _ HO _ G4) as (a & b & A & B & _). rewrite A. cbn [obind]. rewrite B. cbn [obind].
      destruct (ranges_ok p r g a b HR HO G5 G4 A B) as (h & H1 & H2). change (m_req init_mapping) with no_range. rewrite H1. cbn [obind].
      cbn [Rg r_space]. fold sp. rewrite space_eq_refl. cbn [cassert].
      assert (HB : exists e, ra_extend (m_req rm) (Rg sp h) = Ok (Rg sp e) /\ BHull (pre ++ [g]) (mg_res g) e /\ set_req rm (Rg sp e) = linked e).
      { destruct (L5 _ _ Erm) as [[-> Hno]|(e0 & B0 & ->)]; rewrite Z2Nat.id in * by lia.
        - exists h. destruct H2 as (K1 & K2 & K3). unfold BHull. conjs; auto.
          + intros g' p' x Hin Eg Hp. apply in_app_iff in Hin. destruct Hin as [Hin|[<-|[]]]; [now apply Hno in Hin|].
            assert (p' = p) by congruence. subst p'. auto.
          + intros c Hc. apply K3. intros x. apply (Hc g p); auto. apply in_app_iff. right. now left.
        - destruct B0 as (C1 & C2 & C3). destruct H2 as (K1 & K2 & K3).
          destruct (extend_ok e0 h C1 K1) as (e & E1 & E2 & E3 & E4 & E5). exists e. split; [exact E1|]. split; [|reflexivity]. unfold BHull. conjs; auto.
          + intros g' p' x Hin Eg Hp Hx Hk. apply in_app_iff in Hin. destruct Hin as [Hin|[<-|[]]].
            * intros i Hi. apply E3. eapply C2; eauto.
            * assert (p' = p) by congruence. subst p'. intros i Hi. apply E4. eapply K2; eauto.
          + intros c Hc. apply E5.
            * apply C3. intros g' p' x Hin. apply Hc. apply in_app_iff; auto.
            * apply K3. intros x. apply (Hc g p); auto. apply in_app_iff. right. now left. }
      destruct HB as (e & E1 & E2 & E3). rewrite E1. cbn [obind]. rewrite E3.
      eexists. split; [reflexivity|]. unfold LInv. cbn [fst snd]. rewrite !upd_length. conjs; auto.
      + intros i r' ms' Hr' Hm'. destruct (Nat.eq_dec i (mg_part g)) as [->|Hi].
        * rewrite upd_nth_same in Hm' by (apply (nth_error_Some_lt _ _ _ Ems)). injection Hm' as <-. rewrite upd_length. apply (L3 _ _ _ Hr' Ems).
        * rewrite upd_nth_other in Hm' by auto. eapply L3; eauto.
      + intros i ms' k pm' Hm' Hk'. destruct (Nat.eq_dec i (mg_part g)) as [->|Hi].
        * rewrite upd_nth_same in Hm' by (apply (nth_error_Some_lt _ _ _ Ems)). injection Hm' as <-.
          destruct (Nat.eq_dec k (Z.to_nat (mg_map g))) as [->|Hk].
          -- rewrite upd_nth_same in Hk' by (apply (nth_error_Some_lt _ _ _ Epm)). injection Hk' as <-. right. exists g, p, h.
             rewrite Z2Nat.id by lia. conjs; auto. apply in_app_iff. right. now left.
          -- rewrite upd_nth_other in Hk' by auto. destruct (L4 _ _ _ _ Ems Hk') as [[-> Hno]|(g' & p' & b' & B1 & B2)].
             ++ left. split; auto. rewrite map_app. intros X. apply in_app_iff in X. destruct X as [X|[X|[]]]; [auto|]. unfold key in X. injection X as X. lia.
             ++ right. exists g', p', b'. split; auto. apply in_app_iff; auto.
        * rewrite upd_nth_other in Hm' by auto. destruct (L4 _ _ _ _ Hm' Hk') as [[-> Hno]|(g' & p' & b' & B1 & B2)].
          -- left. split; auto. rewrite map_app. intros X. apply in_app_iff in X. destruct X as [X|[X|[]]]; [auto|]. unfold key in X. injection X as X. lia.
          -- right. exists g', p', b'. split; auto. apply in_app_iff; auto.
      + intros m x Hm. destruct (Nat.eq_dec m (Z.to_nat (mg_res g))) as [->|Hm1].
        * rewrite upd_nth_same in Hm by (apply (nth_error_Some_lt _ _ _ Erm)). injection Hm as <-. right. exists e. rewrite Z2Nat.id by lia. auto.
        * rewrite upd_nth_other in Hm by auto. destruct (L5 _ _ Hm) as [[-> Hno]|(e0 & (C1 & C2 & C3) & ->)].
          -- left. split; auto. intros g' Hin. apply in_app_iff in Hin. destruct Hin as [Hin|[<-|[]]]; [auto|lia].
          -- right. exists e0. split; [|reflexivity]. unfold BHull. conjs; auto.
             ++ intros g' p' x Hin Eg. apply in_app_iff in Hin. destruct Hin as [Hin|[<-|[]]]; [eauto|lia].
             ++ intros c Hc. apply C3. intros g' p' x Hin. apply Hc. apply in_app_iff; auto.
  Qed.
End Link.
