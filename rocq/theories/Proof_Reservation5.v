(* Proofs about reservations: finding the mappings of a partitioning, addresses *)
From Coq Require Import ZArith List Bool Lia Sorted Permutation ZifyBool ZifyNat.
From Verif Require Import Base ListFacts Model_Space Model_RangeList Model_Mem Model_Layout Model_Partitioner Model_Transition Model_Data Model_Reservation
  Spec_Space Spec_RangeList Spec_Partitioner Spec_Type Spec_Layout Spec_Data Spec_Reservation
  Proof_Space Proof_RangeList Proof_RangeList2 Proof_RangeList3 Proof_RangeList4 Proof_RangeList5 Proof_Partitioner2
  Proof_Layout Proof_Layout2 Proof_Layout4 Proof_Data Proof_Data2 Proof_Data3 Proof_Reservation Proof_Reservation2 Proof_Reservation3 Proof_Reservation4.
Import ListNotations.
Open Scope Z_scope.

Section Look.
  Variables (d : dcont) (ps : list part) (me : Z) (q : list mygroup -> list mygroup) (addr : Z -> Z) (id : nat) (r : resv).
  Let sp := dc_space d.
  Let n := sp_dims sp.
  Hypothesis Hes : 0 < dc_es d.
  Hypothesis HT : TogetherOk (dc_space d) me ps.
  Hypothesis Hq : is_qsort mygroup_cmp q.
  Hypothesis Ha : forall k, 0 < addr k.
  Hypothesis HA : reservation_alloc q d addr (reserve id ps) = Ok r.

  Lemma nonempty_of (p : part) : In p ps -> ps <> [].
  Proof. intros H E. rewrite E in H. destruct H. Qed.

  Definition lookup (ess : list (list (mapping * option Z))) (p : part) : list (mapping * option Z) :=
    match find (fun x => Nat.eqb (pt_id (fst x)) (pt_id p)) (combine ps ess) with Some x => snd x | None => [] end.

  Lemma find_entry ess p : length ess = length ps -> In p ps -> (forall p', In p' ps -> pt_id p' = pt_id p -> p' = p) ->
    exists i, nth_error ps i = Some p /\ nth_error ess i = Some (lookup ess p) /\
      getMList_loop id p (map (fun x => mkRe (fst x) (Some (snd x))) (combine ps ess)) = Some (mkMl (Some id) None (map fst (lookup ess p))).
  Proof.
    clear. unfold lookup. revert ess. induction ps as [|p0 l IH]; intros [|ms ess] Hl Hin Hid; try destruct Hin; try discriminate.
    - subst p0. exists 0%nat. cbn. rewrite Nat.eqb_refl. auto.
    - cbn [combine map getMList_loop re_maps re_part fst snd find]. destruct (Nat.eqb (pt_id p0) (pt_id p)) eqn:E.
      + assert (p0 = p) by (apply Hid; [now left|now apply Nat.eqb_eq]). subst p0. exists 0%nat. auto.
      + destruct (IH ess) as (i & I1 & I2 & I3); auto.
        { intros p' Hp'. apply Hid. now right. }
        exists (S i). auto.
  Qed.

  Lemma look : ps <> [] -> exists ts bs F, rv_maps r = Some bs /\ Bases d ts (fun _ => True) bs /\ Forall (BOk d) ts /\ valid_dims n /\
    (forall k t, nth_error ts k = Some t -> bi_addr t = addr (Z.of_nat k)) /\
    forallb (fun e => match re_maps e with Some _ => true | None => false end) (rv_ents r) = true /\
    (forall p, In p ps -> prepare_maps_res d (Some r) p = Ok (Some (mkMl (Some id) None (map fst (F p)))) /\ Mapped d ts p (F p)) /\
    (forall p p' x x' m m' j j', In p ps -> In p' ps -> OwnRange p x -> OwnRange p' x' ->
       nth_error (F p) (Z.to_nat (t_mapNo x)) = Some (m, Some j) -> nth_error (F p') (Z.to_nat (t_mapNo x')) = Some (m', Some j') ->
       (j = j' <-> t_tag x = t_tag x')) /\
    (forall k t, nth_error ts k = Some t -> exists p x, In p ps /\ OwnRange p x /\
       (forall p' x', In p' ps -> OwnRange p' x' -> t_tag x' = t_tag x -> SubBox n (t_box x') (bi_box t)) /\
       (forall c, (forall p' x', In p' ps -> OwnRange p' x' -> t_tag x' = t_tag x -> SubBox n (t_box x') c) -> SubBox n (bi_box t) c)).
  Proof.
    intros Hne. destruct (all_ok d ps me q addr id HT Hq Ha Hne) as (r' & ts & ess & bs & A1 & A2 & A3 & A4 & A5 & A6 & A7 & A8 & A9 & A10).
    rewrite HA in A1. injection A1 as <-. assert (Hl := Forall2_length _ _ _ A8).
    exists ts, bs, (lookup ess). conjs; auto.
    - eapply dims_ok; eauto.
    - rewrite A3. apply forallb_forall. intros e He. apply in_map_iff in He. destruct He as (x & <- & _). reflexivity.
    - intros p Hp. destruct (find_entry ess p (eq_sym Hl) Hp) as (i & I1 & I2 & I3).
      { intros p' Hp'. apply (tg_id _ _ _ HT); auto. }
      split.
      + unfold prepare_maps_res. assert (Hm := tg_each _ _ _ HT). rewrite Forall_forall in Hm. pose proof (or_me _ _ _ (rp_own _ _ (Hm p Hp))).
        replace (pt_me p <? 0) with false by lia. unfold reservation_getMList. rewrite A2, A3, I3. reflexivity.
      + destruct (Forall2_nth _ _ _ A8 i) as [Q _]. destruct (Q p I1) as (ms & M1 & M2). rewrite I2 in M1. injection M1 as <-. exact M2.
    - intros p p' x x' m m' j j' Hp Hp' Hx Hx' Hj Hj'.
      assert (Hid : forall p1, In p1 ps -> forall p2, In p2 ps -> pt_id p2 = pt_id p1 -> p2 = p1) by (intros; apply (tg_id _ _ _ HT); auto).
      destruct (find_entry ess p (eq_sym Hl) Hp (Hid p Hp)) as (i & I1 & I2 & _). destruct (find_entry ess p' (eq_sym Hl) Hp' (Hid p' Hp')) as (i' & I1' & I2' & _).
      eapply (A9 i i'); eauto.
  Qed.
End Look.
