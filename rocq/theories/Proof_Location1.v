(* Location strings: the array of a process agrees with its store *)
From Coq Require Import ZArith List Bool Lia ZifyBool ZifyNat Sorted Permutation.
From Verif Require Import Base Model_RangeList Model_KVS Spec_RangeList Spec_KVS Proof_RangeList5 Proof_KVS Proof_KVS2 Proof_KVS3.
From Verif Require Import Model_SpaceStore Spec_SpaceStore Proof_SpaceStore Model_Tcp2 Proof_Tcp2 Model_Tcp2Sync Model_Location.
Import ListNotations.
Open Scope Z_scope.

(** keys *)
Lemma print9 l : 0 <= l < 10 ^ 9 -> (length (print_dec l) <= 9)%nat.
Proof.
  intros H. unfold print_dec. replace (l <? 0) with false by lia.
  apply (print_nat_len 8). change (10 ^ Z.of_nat 9) with 1000000000. change (10 ^ 9) with 1000000000 in H. lia.
Qed.
Lemma key_print l : 0 <= l < 10 ^ 9 -> locationkey l = print_dec l.
Proof. intros H. unfold locationkey. apply firstn_all2. apply print9. auto. Qed.
Lemma atoi_key l : 0 <= l < 10 ^ 9 -> atoi (locationkey l) = l.
Proof.
  intros H. rewrite key_print by auto. unfold atoi. rewrite <- (app_nil_r (print_dec l)), scan_print.
  - unfold as_int. change (10 ^ 9) with 1000000000 in H. change (2 ^ 31) with 2147483648. change (2 ^ 32) with 4294967296. rewrite Z.mod_small; lia.
  - unfold Int64. change (10 ^ 9) with 1000000000 in H. change (2 ^ 63) with 9223372036854775808. lia.
  - exact I.
Qed.
Lemma key_inj a b : 0 <= a < 10 ^ 9 -> 0 <= b < 10 ^ 9 -> locationkey a = locationkey b -> a = b.
Proof. intros Ha Hb E. rewrite <- (atoi_key a), <- (atoi_key b) by auto. now rewrite E. Qed.

(** laik_kvs_set in sync, with callback *)
Lemma set_sync s k v : KI s -> ks_insync s = true ->
  match kvs_set s k v with
  | Ok s' => (cb_fires s k v = Ok false /\ s' = s /\ seen (ks_ent s) k <> None) \/
             (cb_fires s k v = Ok true /\ KI s' /\ ks_insync s' = true /\
              forall k', seen (ks_ent s') k' = if keq k' k then Some v else seen (ks_ent s) k')
  | _ => True
  end.
Proof.
  intros HK Hn. unfold kvs_set, cb_fires. rewrite Hn. cbn [negb]. destruct (kvs_entry_spec s k HK) as [r [-> R]]. cbn [obind].
  assert (G : forall s i e, KI s -> nth_error (ks_ent s) i = Some e -> ke_key e = k -> ks_insync s = true ->
     match kvs_store_value s i e k v with
     | Ok s' => KI s' /\ ks_insync s' = true /\ forall k', look (ks_ent s') k' = upd_look (look (ks_ent s)) k (Some v, ke_upd e) k'
     | _ => True end).
  { clear s HK Hn R. intros s i e HK Hi Hk Hn. unfold kvs_store_value. rewrite Hn, andb_true_r. destruct (ke_upd e) eqn:Eu; [exact Logic.I|].
    split; [apply (KI_put s i e); auto|]. split; [exact Hn|]. intros k'. cbn [put_entry ks_ent]. destruct HK as (N & _).
    rewrite (look_upd _ i e) by auto. unfold upd_look. rewrite Hk. reflexivity. }
  destruct r as [i|].
  - destruct R as [e [E1 [E2 E3]]]. rewrite E1.
    assert (GF : match kvs_store_value s i e k v with
      | Ok s' => KI s' /\ ks_insync s' = true /\ (forall k', seen (ks_ent s') k' = if keq k' k then Some v else seen (ks_ent s) k')
      | _ => True end).
    { specialize (G s i e HK E1 E2 Hn). destruct (kvs_store_value s i e k v); auto. destruct G as (A & B & C). conjs; auto. intros k'. unfold seen. rewrite C. unfold upd_look. destruct (keq k' k); reflexivity. }
    destruct (ke_val e) as [old|] eqn:Eo.
    + destruct (memcmp_eq old v) as [[|]| | | |]; cbn [obind negb]; auto.
      * left. conjs; auto. unfold seen. rewrite E3. discriminate.
      * destruct (kvs_store_value s i e k v); auto.
    + destruct (kvs_store_value s i e k v); auto.
  - set (size := if used s =? ks_size s then ks_size s * 2 else ks_size s).
    assert (Hs : used s < size /\ 0 < size).
    { destruct HK as (_ & _ & _ & P1 & P2). unfold size. destruct (used s =? ks_size s) eqn:E; unfold used in *; lia. }
    destruct (used s >=? size) eqn:E; [lia|].
    specialize (G (mkKvs size (ks_ent s ++ [mkKe k None false]) (ks_sorted s) (ks_changes s) true) (length (ks_ent s)) (mkKe k None false)).
    pose proof (KI_snoc s k size HK R (proj1 Hs) (proj2 Hs)) as KS. rewrite Hn in KS.
    specialize (G KS ltac:(apply nth_error_app_last) eq_refl eq_refl).
    destruct (kvs_store_value _ _ _ k v) as [s'| | | |]; auto. right. destruct G as (A & B & C). conjs; auto.
    intros k'. unfold seen. rewrite C. cbn [ks_ent ke_upd]. unfold upd_look. destruct (keq k' k) as [->|Nk]; auto.
    rewrite look_app by (simpl; now apply look_none). simpl. destruct (keq k' k); congruence.
Qed.

(** the array agrees with the store *)
Definition LK (n : Z) (k : list Z) : Prop := exists l, 0 <= l < n /\ k = locationkey l.
Definition Agree (n : Z) (s : store) (u : locs) : Prop :=
  lo_n u = n /\ lo_size u = n /\
  forall l, 0 <= l < n -> lo_loc u l = option_map cstr (seen (ks_ent s) (locationkey l)).

Section Agree.
  Variable n : Z.
  Hypothesis Hn : 0 <= n <= 10 ^ 9.

  Lemma put_agree s s' u k v w : Agree n s u -> LK n k -> cstr v = w ->
    (forall k', seen (ks_ent s') k' = if keq k' k then Some v else seen (ks_ent s) k') ->
    exists u', put_loc u (atoi k) w = Ok u' /\ Agree n s' u'.
  Proof.
    intros (A1 & A2 & A3) (l & Hl & ->) Ew Hs. rewrite atoi_key by lia. unfold put_loc. rewrite A2. replace ((0 <=? l) && (l <? n)) with true by lia.
    eexists. split; [reflexivity|]. split; auto. split; auto. intros l' Hl'. cbn [lo_loc]. rewrite Hs. destruct (Z.eqb_spec l' l) as [->|Nl].
    - destruct (keq (locationkey l) (locationkey l)); [|congruence]. simpl. congruence.
    - destruct (keq (locationkey l') (locationkey l)) as [E|_]; [apply key_inj in E; lia|]. auto.
  Qed.
  Lemma update_agree s s' u k v : Agree n s u -> LK n k ->
    (forall k', seen (ks_ent s') k' = if keq k' k then Some v else seen (ks_ent s) k') ->
    exists u', update_location k v u = Ok u' /\ Agree n s' u'.
  Proof.
    intros HA HK Hs. destruct (put_agree s s' u k v (cstr v) HA HK eq_refl Hs) as (u' & E & HA'). exists u'. split; auto.
    unfold update_location. destruct HA as (A1 & _). destruct HK as (l & Hl & ->). rewrite atoi_key in * by lia. rewrite A1. replace ((0 <=? l) && (l <? n)) with true by lia. exact E.
  Qed.

  Definition LI (x : store * locs) : Prop := KI (fst x) /\ ks_insync (fst x) = true /\ Agree n (fst x) (snd x).
  Definition Keys (s : store) : Prop := forall k, seen (ks_ent s) k <> None -> LK n k.

  Lemma set_keys s k v s' : KI s -> ks_insync s = true -> kvs_set s k v = Ok s' ->
    KI s' /\ ks_insync s' = true /\ seen (ks_ent s') k <> None /\ forall k', seen (ks_ent s) k' <> None -> seen (ks_ent s') k' <> None.
  Proof.
    intros HK Hi E. pose proof (set_sync s k v HK Hi) as H. rewrite E in H. destruct H as [(_ & -> & H)|(_ & H1 & H2 & H3)]; auto.
    conjs; auto.
    - rewrite H3. destruct (keq k k); congruence.
    - intros k' Hk'. rewrite H3. destruct (keq k' k); congruence.
  Qed.
  Lemma set_cb x k v s' : LI x -> kvs_set (fst x) k v = Ok s' -> LK n k ->
    exists u', kvs_set_cb update_location x k v = Ok (s', u') /\ LI (s', u').
  Proof.
    intros (HK & Hi & HA) E HL. unfold kvs_set_cb. pose proof (set_sync (fst x) k v HK Hi) as H. rewrite E in H.
    destruct H as [(B & -> & _)|(B & H1 & H2 & H3)]; rewrite B; cbn [obind]; rewrite E; cbn [obind].
    - eexists. split; [reflexivity|]. unfold LI; auto.
    - destruct (update_agree _ s' (snd x) k v HA HL H3) as (u' & Eu & HA'). rewrite Eu. cbn [obind]. eexists. split; [reflexivity|]. unfold LI; auto.
  Qed.

  Lemma apply_loop_step o0 o1 o2 t data s : apply_loop (o0 :: o1 :: o2 :: t) data s =
    cassert (o1 >? o0) (cassert (o2 >? o1) (do s' <- kvs_set s (cstr (skipn (Z.to_nat o0) data)) (slice data o1 o2); apply_loop (o2 :: t) data s')).
  Proof. reflexivity. Qed.
  Lemma apply_loop_cb_step U f o0 o1 o2 t data (x : store * U) : apply_loop_cb f (o0 :: o1 :: o2 :: t) data x =
    cassert (o1 >? o0) (cassert (o2 >? o1) (do x' <- kvs_set_cb f x (cstr (skipn (Z.to_nat o0) data)) (slice data o1 o2); apply_loop_cb f (o2 :: t) data x')).
  Proof. reflexivity. Qed.

  Lemma apply_keys data : forall m off s s', (length off <= m)%nat -> KI s -> ks_insync s = true -> apply_loop off data s = Ok s' ->
    KI s' /\ ks_insync s' = true /\ forall k', seen (ks_ent s) k' <> None -> seen (ks_ent s') k' <> None.
  Proof.
    induction m as [|m IH]; intros off s s' Hm HK Hi E.
    { destruct off; [|simpl in Hm; lia]. injection E as <-. auto. }
    destruct off as [|o0 [|o1 [|o2 t]]]; try (injection E as <-; auto; fail); [discriminate E|].
    rewrite apply_loop_step in E. destruct (o1 >? o0); [|discriminate]. destruct (o2 >? o1); [|discriminate]. cbn [cassert] in E.
    apply obind_ok in E. destruct E as (s1 & E1 & E2). destruct (set_keys _ _ _ _ HK Hi E1) as (K1 & K2 & _ & K4).
    destruct (IH (o2 :: t) s1 s' ltac:(simpl in *; lia) K1 K2 E2) as (J1 & J2 & J3). conjs; auto.
  Qed.
  Lemma apply_cb data : forall m off x s', (length off <= m)%nat -> LI x -> apply_loop off data (fst x) = Ok s' -> Keys s' ->
    exists u', apply_loop_cb update_location off data x = Ok (s', u') /\ LI (s', u').
  Proof.
    induction m as [|m IH]; intros off x s' Hm HL E HKs.
    { destruct off; [|simpl in Hm; lia]. injection E as <-. destruct x as [s u]. exists u. auto. }
    destruct off as [|o0 [|o1 [|o2 t]]]; try (injection E as <-; destruct x as [s u]; exists u; auto; fail); [discriminate E|].
    rewrite apply_loop_step in E. rewrite apply_loop_cb_step. destruct (o1 >? o0); [|discriminate]. destruct (o2 >? o1); [|discriminate]. cbn [cassert] in *.
    apply obind_ok in E. destruct E as (s1 & E1 & E2). destruct HL as (HK & Hi & HA). destruct (set_keys _ _ _ _ HK Hi E1) as (K1 & K2 & K3 & _).
    destruct (apply_keys data (length (o2 :: t)) (o2 :: t) s1 s' ltac:(lia) K1 K2 E2) as (_ & _ & J3).
    destruct (set_cb x _ _ s1 (conj HK (conj Hi HA)) E1 (HKs _ (J3 _ K3))) as (u1 & C1 & C2). rewrite C1. cbn [obind].
    apply (IH (o2 :: t) (s1, u1)); auto. simpl in *; lia.
  Qed.
  Lemma changes_apply_ok c x s' : LI x -> changes_apply c (fst x) = Ok s' -> Keys s' ->
    exists u', changes_apply_cb update_location c x = Ok (s', u') /\ LI (s', u').
  Proof.
    intros HL E HKs. unfold changes_apply in E. unfold changes_apply_cb. destruct (offused c =? 0); [injection E as <-; destruct x as [s u]; exists u; auto|].
    destruct (Z.odd (offused c)); [|discriminate]. destruct (0 <? dataused c); [|discriminate]. cbn [cassert] in *.
    apply (apply_cb (j_data c) (length (j_off c))); auto.
  Qed.
  Lemma LI_changes s u c : LI (s, u) -> LI (set_changes s c, u).
  Proof. intros H. exact H. Qed.
  Lemma recv_ok d x s' : LI x -> recv_merged d (fst x) = Ok s' -> Keys s' ->
    exists u', recv_merged_cb update_location d x = Ok (s', u') /\ LI (s', u').
  Proof.
    intros HL E HKs. unfold recv_merged in E. unfold recv_merged_cb. destruct (0 <? offused d).
    - destruct (0 <? dataused d); [|discriminate]. cbn [cassert] in *. apply obind_ok in E. destruct E as (c1 & E1 & E). apply obind_ok in E. destruct E as (c2 & E2 & E3).
      rewrite E1. cbn [obind]. rewrite E2. cbn [obind]. apply changes_apply_ok; auto.
    - destruct (dataused d =? 0); [|discriminate]. cbn [cassert] in *. injection E as <-. destruct x as [s u]. exists u. auto.
  Qed.
  Lemma recv_fold_app d : forall l acc r, ofold (fun acc p => do p' <- recv_merged d p; Ok (acc ++ [p'])) l acc = Ok r -> exists t, r = acc ++ t.
  Proof.
    induction l as [|y l IH]; intros acc r E; cbn [ofold] in E; [injection E as <-; exists []; rewrite app_nil_r; auto|].
    apply obind_ok in E. destruct E as (a & E1 & E). apply obind_ok in E1. destruct E1 as (p & _ & E2). injection E2 as <-.
    destruct (IH _ _ E) as (t & ->). rewrite <- app_assoc. eauto.
  Qed.
  Lemma recv_all d : forall l acc acc' r, Forall LI l -> map fst acc' = acc -> Forall LI acc' ->
    ofold (fun acc p => do p' <- recv_merged d p; Ok (acc ++ [p'])) (map fst l) acc = Ok r -> Forall Keys r ->
    exists r', ofold (fun acc p => do p' <- recv_merged_cb update_location d p; Ok (acc ++ [p'])) l acc' = Ok r' /\ map fst r' = r /\ Forall LI r'.
  Proof.
    induction l as [|x l IH]; intros acc acc' r HL Ea Ha E HKs; cbn [map ofold] in E |- *.
    - injection E as <-. eauto.
    - inversion HL as [|? ? L1 L2]; subst. apply obind_ok in E. destruct E as (a1 & E1 & E). apply obind_ok in E1. destruct E1 as (p' & E1 & E2). injection E2 as <-.
      assert (HKp : Keys p').
      { destruct (recv_fold_app _ _ _ _ E) as (t & ->). rewrite Forall_forall in HKs. apply HKs. apply in_or_app. left. apply in_or_app. right. left. auto. }
      destruct (recv_ok d x p' L1 E1 HKp) as (u' & R1 & R2). rewrite R1. cbn [obind].
      eapply IH; [auto| |apply Forall_app; split; [exact Ha|constructor; [exact R2|constructor]]|exact E|auto]. rewrite map_app. reflexivity.
  Qed.

  Lemma mpi_sync_ok q l r : Forall LI l -> mpi_sync q (map fst l) = Ok r -> Forall Keys r ->
    exists r', mpi_sync_cb update_location q l = Ok r' /\ map fst r' = r /\ Forall LI r'.
  Proof.
    intros HL E HKs. destruct l as [|x l]; [discriminate E|]. unfold mpi_sync in E. unfold mpi_sync_cb. cbn [map] in E.
    inversion HL as [|? ? L1 L2]; subst.
    destruct (changes_sort q (ks_changes (fst x))) as [c0| | | |]; try discriminate. cbn [obind] in *.
    destruct (ofold (mpi_gather q) (map fst l) _) as [[[[dst src] rc] own]| | | |]; try discriminate. cbn [obind] in *.
    destruct (dataused dst >? offused dst); [|discriminate]. cbn [cassert] in *.
    apply obind_ok in E. destruct E as (m' & E1 & E). apply obind_ok in E. destruct E as (o' & E2 & E). injection E as <-. inversion HKs as [|? ? K1 K2]; subst.
    destruct (changes_apply_ok dst (set_changes (fst x) (if own : bool then dst else src), snd x) m') as (u' & A1 & A2); auto.
    rewrite A1. cbn [obind]. destruct (recv_all dst l [] [] o' L2 eq_refl ltac:(constructor) E2 K2) as (r' & B1 & B2 & B3). rewrite B1. cbn [obind].
    eexists. split; [reflexivity|]. cbn [map fst]. split; [congruence|]. constructor; auto.
  Qed.
End Agree.
