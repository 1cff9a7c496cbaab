(* Proofs about reservations: allocation of base mappings, embedding *)
From Coq Require Import ZArith List Bool Lia Sorted Permutation ZifyBool ZifyNat.
From Verif Require Import Base ListFacts Model_Space Model_RangeList Model_Mem Model_Layout Model_Partitioner Model_Transition Model_Data Model_Reservation
  Spec_Space Spec_RangeList Spec_Partitioner Spec_Type Spec_Layout Spec_Data Spec_Reservation
  Proof_Space Proof_RangeList Proof_RangeList2 Proof_RangeList3 Proof_RangeList4 Proof_RangeList5 Proof_Partitioner2
  Proof_Layout Proof_Layout2 Proof_Layout4 Proof_Data Proof_Data3 Proof_Reservation Proof_Reservation2.
Import ListNotations.
Open Scope Z_scope.

Section Alloc.
  Variable d : dcont.
  Let sp := dc_space d.
  Let n := sp_dims sp.
  Hypothesis Hd : valid_dims (sp_dims (dc_space d)).
  Hypothesis Hes : 0 < dc_es d.

  (* a base mapping: layout, box, address; [o]: still owns its memory *)
  Record binfo := mkBi { bi_ly : lexlayout; bi_box : box; bi_addr : Z }.
  Definition basem (t : binfo) (o : bool) : mapping :=
    mkMapping (Rg sp (bi_box t)) (vol n (bi_box t)) (Some (bi_ly t)) 0 (Rg sp (bi_box t)) (vol n (bi_box t))
      (bi_addr t) (bi_addr t) (vol n (bi_box t) * dc_es d) o (-1).
  (* a mapping for box [b] embedded into it *)
  Definition embm (t : binfo) (b : box) (o : bool) : mapping :=
    mkMapping (Rg sp b) (vol n b) (Some (bi_ly t)) 0 (Rg sp (bi_box t)) (vol n (bi_box t))
      (bi_addr t) (bi_addr t + boff n (bi_box t) (b_from b) * dc_es d) (vol n (bi_box t) * dc_es d) o (-1).
  Definition BOk (t : binfo) : Prop :=
    NonEmpty n (bi_box t) /\ vol n (bi_box t) < two64 /\ Built sp (bi_ly t) /\ SectionBox (bi_ly t) 0 (bi_box t) /\ 0 < bi_addr t.

  Lemma ra_alloc_ok addr : (forall k, 0 < addr k) -> forall bs i, Forall (fun b => NonEmpty n b /\ vol n b < two64) bs ->
    exists ts, ra_alloc d addr i (map (linked d) bs) = Ok (map (fun t => basem t true) ts) /\ Forall BOk ts /\ map bi_box ts = bs /\
      forall k t, nth_error ts k = Some t -> bi_addr t = addr (i + Z.of_nat k).
  Proof.
    intros Ha. induction bs as [|b bs IH]; intros i H.
    - exists []. cbn. conjs; auto. intros [|k]; discriminate.
    - inversion H as [|? ? [H1 H2] H3]; subst. destruct (IH (i + 1) H3) as (ts & T1 & T2 & T3 & T4).
      cbn [map ra_alloc]. change (m_req (linked d b)) with (Rg sp b).
      unfold range_size. cbn [Rg r_space r_box]. fold sp n. rewrite (box_size_vol n b Hd H1 H2). cbn [obind].
      pose proof (vol_pos n b Hd H1) as P. replace (vol n b >? 0) with true by lia. cbn [cassert].
      assert (HG : Forall (GoodRange sp) [Rg sp b]).
      { constructor; [|constructor]. split; [reflexivity|]. split; auto. exists (vol n b). split; auto. now apply vol_count. }
      destruct (new_layout_ok sp [Rg sp b] Hd HG ltac:(discriminate)) as (ly & L1 & L2 & L3).
      change (mkRange (Some sp) b) with (Rg sp b). rewrite L1. cbn [obind].
      cbn [linked set_req init_mapping m_alc m_allocCount m_start m_base m_cap m_owner m_reused].
      unfold allocate_map. cbn [m_base m_count m_owner]. change (0 =? 0) with true. cbn [negb]. replace (vol n b =? 0) with false by lia. cbn [cassert].
      replace (addr i =? 0) with false by (specialize (Ha i); lia).
      unfold map_set_allocation. cbn [m_start m_base m_req m_count m_lay m_sec m_reused]. change (0 =? 0) with true. cbn [cassert].
      unfold range_size. cbn [Rg r_space r_box]. fold sp n. rewrite (box_size_vol n b Hd H1 H2). cbn [obind]. rewrite Z.eqb_refl. cbn [cassert].
      replace (vol n b * dc_es d >=? vol n b * dc_es d) with true by lia. cbn [cassert obind].
      rewrite T1. cbn [obind]. exists (mkBi ly b (addr i) :: ts). conjs.
      + reflexivity.
      + constructor; auto. unfold BOk. cbn. conjs; auto.
        * eapply Built_new; eauto. discriminate.
        * split; [lia|]. destruct (lx_e ly) as [|e l]; [discriminate|]. exists e. split; [reflexivity|]. cbn in L3. injection L3 as ->. reflexivity.
      + cbn. congruence.
      + intros [|k] t Hk; cbn in Hk.
        * injection Hk as <-. cbn. f_equal. lia.
        * rewrite (T4 k t Hk). f_equal. lia.
  Qed.

  (* base mappings, with a set of those which do not own their memory any more *)
  Definition Bases (ts : list binfo) (dn : nat -> Prop) (bs : list mapping) : Prop :=
    length bs = length ts /\ forall k t, nth_error ts k = Some t -> exists o, nth_error bs k = Some (basem t o) /\ (dn k -> o = false).

  (* [pm'] is [pm] embedded into base mapping number j *)
  Definition Embedded (ts : list binfo) (pm pm' : mapping * option Z) : Prop :=
    exists j t b o, pm = (linked d b, Some (Z.of_nat j)) /\ nth_error ts j = Some t /\ pm' = (embm t b o, Some (Z.of_nat j)).
  Definition Embeddable (ts : list binfo) (pm : mapping * option Z) : Prop :=
    exists j t b, pm = (linked d b, Some (Z.of_nat j)) /\ nth_error ts j = Some t /\ NonEmpty n b /\ SubBox n b (bi_box t).
  Definition uses (ms : list (mapping * option Z)) (k : nat) : Prop := exists pm, In pm ms /\ snd pm = Some (Z.of_nat k).

  Lemma embed_one ts dn bs pm : Forall BOk ts -> Bases ts dn bs -> Embeddable ts pm ->
    exists pm' bs', ra_embed d bs pm = Ok (pm', bs') /\ Embedded ts pm pm' /\ Bases ts (fun k => dn k \/ uses [pm] k) bs'.
  Proof.
    intros HT [B1 B2] (j & t & b & -> & Ht & Hn & Hs). destruct (B2 j t Ht) as (o & Ho & _).
    rewrite Forall_forall in HT. destruct (HT t (nth_error_In _ _ Ht)) as (T1 & T2 & T3 & T4 & T5).
    unfold ra_embed. cbn [snd fst]. rewrite (proj2 (aread_nat _ _ _) Ho). cbn [obind].
    change (m_req (linked d b)) with (Rg sp b). unfold range_size. cbn [Rg r_space r_box]. fold sp n.
    assert (V : vol n b < two64) by (pose proof (vol_sub n b _ Hd Hn Hs); lia).
    rewrite (box_size_vol n b Hd Hn V). cbn [obind].
    unfold init_embedded. cbn [m_req m_alc basem m_lay m_sec m_start m_base m_cap m_count m_allocCount m_owner m_reused r_box Rg linked set_req init_mapping].
    rewrite (within_ok sp (Rg sp b) (Rg sp (bi_box t))); auto. cbn [obind cassert].
    rewrite (offset_ok sp (bi_ly t) 0 (bi_box t) (b_from b)); auto.
    2:{ apply Hs. now apply from_inside. }
    cbn [obind]. eexists. eexists. split; [reflexivity|]. split.
    - exists j, t, b, o. conjs; auto.
    - split; [now rewrite upd_length|]. intros k t' Hk. rewrite Nat2Z.id. destruct (Nat.eq_dec j k) as [->|Hjk].
      + assert (t' = t) by congruence. subst t'. exists false. split; auto. apply upd_nth_same. apply (nth_error_Some_lt _ _ _ Ho).
      + rewrite upd_nth_other by auto. destruct (B2 k t' Hk) as (o' & O1 & O2). exists o'. split; auto.
        intros [X|[pm [[<-|[]] X]]]; auto. cbn in X. injection X as X. lia.
  Qed.

  Lemma bases_weaken ts (d1 d2 : nat -> Prop) bs : (forall k, (k < length ts)%nat -> d2 k -> d1 k) -> Bases ts d1 bs -> Bases ts d2 bs.
  Proof. intros H [B1 B2]. split; auto. intros k t Hk. destruct (B2 k t Hk) as (o & O1 & O2). exists o. split; auto. intros X. apply O2, H; auto. apply nth_error_Some. congruence. Qed.

  Lemma embeds_ok ts : Forall BOk ts -> forall ms dn bs, Bases ts dn bs -> Forall (Embeddable ts) ms ->
    exists ms' bs', ra_embeds d bs ms = Ok (ms', bs') /\ Forall2 (Embedded ts) ms ms' /\ Bases ts (fun k => dn k \/ uses ms k) bs'.
  Proof.
    intros HT. induction ms as [|pm ms IH]; intros dn bs HB H.
    - exists [], bs. cbn. conjs; auto. eapply bases_weaken; [|exact HB]. intros k _ [X|[pm [[] _]]]; auto.
    - inversion H as [|? ? H1 H2]; subst. destruct (embed_one ts dn bs pm HT HB H1) as (pm' & bs1 & E1 & E2 & E3).
      destruct (IH _ bs1 E3 H2) as (ms' & bs' & M1 & M2 & M3). cbn [ra_embeds]. rewrite E1. cbn [obind fst snd]. rewrite M1. cbn [obind fst snd].
      exists (pm' :: ms'), bs'. conjs; auto. eapply bases_weaken; [|exact M3].
      intros k _ [X|[q [[<-|X] Y]]]; auto.
      + left. right. exists pm. split; auto. now left.
      + right. exists q. auto.
  Qed.

  Lemma embed_all_ok ts : Forall BOk ts -> forall es dn bs, Bases ts dn bs -> Forall (Forall (Embeddable ts)) es ->
    exists es' bs', ra_embed_all d bs es = Ok (es', bs') /\ Forall2 (Forall2 (Embedded ts)) es es' /\
      Bases ts (fun k => dn k \/ exists ms, In ms es /\ uses ms k) bs'.
  Proof.
    intros HT. induction es as [|ms es IH]; intros dn bs HB H.
    - exists [], bs. cbn. conjs; auto. eapply bases_weaken; [|exact HB]. intros k _ [X|[pm [[] _]]]; auto.
    - inversion H as [|? ? H1 H2]; subst. destruct (embeds_ok ts HT ms dn bs HB H1) as (ms' & bs1 & E1 & E2 & E3).
      destruct (IH _ bs1 E3 H2) as (es' & bs' & M1 & M2 & M3). cbn [ra_embed_all]. rewrite E1. cbn [obind fst snd]. rewrite M1. cbn [obind fst snd].
      exists (ms' :: es'), bs'. conjs; auto. eapply bases_weaken; [|exact M3].
      intros k _ [X|[q [[<-|X] Y]]]; auto. right. exists q. auto.
  Qed.

  (* an embedded mapping is backed by the memory of its base mapping *)
  Lemma embedded_backed ml k t b o : BOk t -> NonEmpty n b -> SubBox n b (bi_box t) -> aread (ml_maps ml) k = Ok (embm t b o) ->
    Backed sp (dc_es d) ml k (embm t b o) (mkLmap (bi_ly t) 0 (bi_addr t) (dc_es d) (Rg sp b)) (bi_box t) (vol n (bi_box t)).
  Proof.
    intros (T1 & T2 & T3 & T4 & T5) Hn Hs Hk. split; auto.
    - apply good_lm; auto.
    - cbn. now apply vol_count.
    - cbn. lia.
    - cbn [embm m_base m_req r_box Rg]. apply addr_lm; auto. apply Hs. now apply from_inside.
  Qed.
End Alloc.
