(* Synchronisation succeeds if the changes do not conflict; states of all processes after rounds *)
From Coq Require Import ZArith List Bool Lia ZifyBool ZifyNat Sorted Permutation.
From Verif Require Import Base Model_RangeList Model_KVS Spec_RangeList Spec_KVS Proof_RangeList5 Proof_KVS Proof_KVS2 Proof_KVS3 Proof_KVS4 Proof_KVS5.
Import ListNotations.
Open Scope Z_scope.

Lemma q_srt qj J : is_qsort entrycmp qj -> NoDup (map je_key J) -> srt (qj J).
Proof.
  intros Q N. destruct (Q J) as [Q1 Q2]. assert (N' : NoDup (map je_key (qj J))) by (eapply Permutation_NoDup; [apply Permutation_map; exact Q1|auto]).
  unfold srt. clear - Q2 N'. induction Q2; simpl in *; constructor; inversion N'; subst; auto.
  rewrite Forall_forall in *. intros k Hk. apply in_map_iff in Hk. destruct Hk as [e [<- He]].
  assert (X := H e He). unfold entrycmp in X. unfold slt. destruct (Z.eq_dec (str_cmp (je_key a) (je_key e)) 0) as [E|E]; [|lia].
  apply str_cmp_eq in E. exfalso. apply H2. rewrite E. now apply in_map.
Qed.

Lemma srt_nodup l : srt l -> NoDup l.
Proof.
  unfold srt. intros H. apply NoDup_map_inv with (f := je_key). induction H; constructor; auto. intros X. rewrite Forall_forall in H0. specialize (H0 _ X).
  unfold slt in H0. rewrite str_cmp_refl in H0. lia.
Qed.

Definition Consistent (Js : list (list jentry)) : Prop :=
  forall J1 J2 e1 e2, In J1 Js -> In J2 Js -> In e1 J1 -> In e2 J2 -> je_key e1 = je_key e2 -> je_val e1 = je_val e2.

Lemma gather_total q : is_qsort entrycmp q -> forall ps Js st Js0, GInv Js0 st -> Forall2 Sent ps Js ->
  srt (j_ent (fst (fst (fst st)))) -> Consistent (Js0 ++ Js) -> Forall (fun J => NoDup (map je_key J)) Js -> Forall (Forall (fun e => je_val e <> [])) Js ->
  exists st', ofold (mpi_gather q) ps st = Ok st' /\ srt (j_ent (fst (fst (fst st')))).
Proof.
  intros Q ps Js st Js0 HG HF. revert st Js0 HG. induction HF as [|p J ps Js H HF IH]; intros st Js0 HG HS HC HN HV; cbn [ofold].
  - exists st. auto.
  - inversion HN; subst. inversion HV; subst.
    assert (X : exists st1, mpi_gather q st p = Ok st1 /\ srt (j_ent (fst (fst (fst st1))))).
    { assert (C := gather_common q st p J Js0 Q HG H). destruct st as [[[dst src] recvd] own]. destruct C as [r [Hr C]].
      destruct HG as (U & ents & G1 & G2 & G3 & G4 & G5 & G6 & G7 & G8 & G9). simpl in HS.
      assert (E : j_ent dst = ents) by apply G1. rewrite E in HS.
      destruct C as [[-> C]|[[HD C]|[HJ [HVJ [HR C]]]]]; rewrite C.
      - eexists. split; [reflexivity|]. simpl. congruence.
      - exfalso. apply Exists_exists in HD. destruct HD as [e [X1 X2]]. rewrite Forall_forall in H4. exact (H4 e X1 X2).
      - destruct (Q J) as [Q1 _]. destruct (merge_prep src dst r U J ents (q J) G3 G1 HR HJ G2 Q1) as [d0 [M1 [M2 M3]]]. rewrite M1.
        destruct (merge_total (S (length ents + length (q J))) d0 [] ents (q J) M2 M3) as [d' [w [W1 [W2 W3]]]]; auto.
        + now apply q_srt.
        + intros x y [].
        + intros e1 e2 He1 He2. apply (Permutation_in _ (Permutation_sym G2)) in He1. apply (Permutation_in _ (Permutation_sym Q1)) in He2.
          destruct (G7 e1 He1) as [J1 [X1 X2]]. apply (HC J1 J); auto; apply in_or_app; [now left|right; now left].
        + constructor.
        + rewrite W1. cbn [obind]. eexists. split; [reflexivity|]. simpl. destruct W2 as (_ & _ & _ & W2 & _). simpl in W2. rewrite W2. auto. }
    destruct X as [st1 [X1 X2]]. rewrite X1. cbn [obind].
    apply IH with (Js0 := Js0 ++ [J]); auto.
    + eapply gather_step; eauto.
    + rewrite <- app_assoc. exact HC.
Qed.

Lemma enc_data_bytes l : Z.of_nat (length (enc_data l)) = total (map (fun e => change_bytes (je_key e, je_val e)) l).
Proof.
  induction l as [|a l IH]; simpl; auto. rewrite app_length. assert (L := enc1_length a). unfold change_bytes at 1; cbn [fst snd]. lia.
Qed.

Lemma total_perm l1 l2 : Permutation l1 l2 -> total l1 = total l2.
Proof. induction 1; simpl; lia. Qed.

Theorem sync_total V qj q B ws ms Js L : PrefixFree V -> is_qsort entrycmp qj -> is_qsort kvs_cmp q -> (forall k v, B k = Some v -> V v) -> ws <> [] ->
  Forall2 (State V B) ws ms -> Forall2 (fun sm J => LInv V B (fst sm) (snd sm) J) (combine ws ms) Js ->
  Consistent Js -> Forall (fun J => NoDup (map je_key J)) Js -> Forall (Forall (fun e => je_val e <> [])) Js ->
  NoDup L -> (forall k v, In (k, v) L <-> exists J, In J Js /\ In (mkJe k v) J) -> 2 * Z.of_nat (length L) + 1 < total (map change_bytes L) ->
  exists ws', kvs_sync_mpi qj q ws = Ok ws'.
Proof.
  intros PF Qj Q HB Hne HF HJs HC HN HV NL HL Hb. destruct HF as [|s0 m0 ws ms HS0 HF]; [congruence|]. clear HS0 Hne.
  simpl in HJs. inversion HJs as [|? J0 ? Js' HL0 HJs']; subst. simpl in HL0. rename Js' into Js.
  inversion HN; subst. inversion HV; subst.
  unfold kvs_sync_mpi. cbn [map mpi_sync sync_begin ks_changes].
  assert (HL0' := HL0). destruct HL0' as (_ & _ & _ & _ & _ & H6 & H7 & _).
  destruct (sort_ok qj _ J0 H6 Qj H7 H3) as [c0 [E1 [E2 _]]]. rewrite E1. cbn [obind].
  destruct (init_GInv qj m0 c0 J0 V B s0 Qj HL0 E1) as [G0 _].
  assert (HSent := Forall2_combine_sent V B ws ms Js HF HJs').
  destruct (gather_total qj Qj _ Js _ [J0] G0 HSent) as [st [Hg HS]]; auto.
  { simpl. assert (E : j_ent c0 = match J0 with [] => [] | _ => qj J0 end) by apply E2. rewrite E. destruct J0; [constructor|]. now apply q_srt. }
  fold sync_begin. rewrite Hg. cbn [obind].
  assert (G := gather_all qj Qj _ Js _ [J0] st G0 HSent Hg).
  destruct st as [[[dst src] recvd] own]. destruct G as (U & ents & G1 & G2 & G3 & G4 & G5 & G6 & G7 & G8 & G9). simpl app in *. simpl in HS.
  assert (EE : j_ent dst = ents) by apply G1. rewrite EE in HS.
  assert (NU : NoDup U) by (eapply Permutation_NoDup; [apply Permutation_sym; exact G2|now apply srt_nodup]).
  (* the merged changes are those in L *)
  assert (HUL : forall k v, In (mkJe k v) U <-> In (k, v) L).
  { intros k v. rewrite HL. split; [apply G7|]. intros [J [HJ He]]. destruct (G8 J _ HJ He) as [e' [X1 X2]]. destruct (G7 e' X1) as [J1 [Y1 Y2]].
    assert (Z := HC J1 J e' _ Y1 HJ Y2 He X2). destruct e' as [k' v']. simpl in *. subst. auto. }
  assert (PL : Permutation (map (fun e => (je_key e, je_val e)) U) L).
  { apply NoDup_Permutation; auto.
    - apply FinFun.Injective_map_NoDup; auto. intros [a b] [c d]. simpl. congruence.
    - intros [k v]. rewrite <- HUL, in_map_iff. split; [intros [[k' v'] [X1 X2]]; simpl in X1; injection X1 as <- <-; auto|intros X; exists (mkJe k v); auto]. }
  assert (Hbytes : (dataused dst >? offused dst) = true).
  { destruct G1 as (_ & D & O & _). unfold dataused, offused. rewrite D, O, offs_length, enc_data_bytes.
    assert (X : total (map change_bytes L) = total (map (fun e => change_bytes (je_key e, je_val e)) U)).
    { rewrite <- (total_perm _ _ (Permutation_map change_bytes PL)), map_map. auto. }
    assert (Y := Permutation_length PL). rewrite map_length in Y. destruct U as [|a U]; [|simpl length in *; lia]. simpl in *. rewrite <- X. lia. }
  rewrite Hbytes. cbn [cassert].
  assert (HUne : U <> []) by (intros ->; destruct G1 as (_ & D & O & _); unfold offused, dataused in Hbytes; rewrite D, O in Hbytes; discriminate).
  assert (Hall : forall J, In J (J0 :: Js) -> exists s m, LInv V B s m J).
  { intros J [<-|HJ]; [exists s0, m0; auto|].
    clear - HJs' HJ HF. revert Js HJs' HJ. induction HF; intros Js HJs HJ; simpl in HJs; inversion HJs; subst; [destruct HJ|].
    destruct HJ as [<-|HJ]; [exists x, y; auto|]. destruct (IHHF _ H4 HJ) as [s [m E2]]. eauto. }
  assert (HUV : Forall (fun e => V (je_val e)) U).
  { rewrite Forall_forall. intros e He. destruct (G7 e He) as [J [HJ He']]. destruct (Hall J HJ) as [s [m HLs]].
    destruct HLs as (_ & _ & _ & _ & _ & _ & _ & H7' & _). rewrite Forall_forall in H7', G6. destruct (H7' e He') as [X|X]; auto. exfalso. exact (G6 e He X). }
  assert (HCJ : forall J, In J (J0 :: Js) -> forall e v, In e U -> lastj J (je_key e) = Some v -> je_val e = v).
  { intros J HJ e v He Hl. apply lastj_in in Hl. destruct (G7 e He) as [J1 [Y1 Y2]]. exact (HC J1 J e _ Y1 HJ Y2 Hl eq_refl). }
  destruct (apply_total V B s0 m0 J0 U dst ents (if own then dst else src) PF HL0) as [m' Hm']; auto.
  { apply HCJ. now left. }
  rewrite Hm'. cbn [obind].
  assert (T0 : exists t0, sync_end q m' = Ok t0).
  { destruct (apply_process V B s0 m0 J0 q U dst ents (if own then dst else src) m' PF Q HL0) as [t0 (T1 & _)]; eauto.
    - intros e He. apply (G8 J0); auto. now left.
    - destruct own; auto. apply G1. }
  assert (R : forall p, In p (map sync_begin ws) -> exists p', recv_merged dst p = Ok p' /\ exists t, sync_end q p' = Ok t).
  { intros p Hp. apply in_map_iff in Hp. destruct Hp as [s [<- Hs]].
    assert (X : exists m J, In J Js /\ LInv V B s m J).
    { clear - HJs' HF Hs. revert Js HJs'. induction HF; intros Js HJs; simpl in HJs; inversion HJs; subst; [destruct Hs|].
      destruct Hs as [<-|Hs]; [exists y; eexists; split; [now left|eauto]|]. destruct (IHHF Hs _ H4) as [m [J [X1 X2]]]. exists m, J. split; auto. now right. }
    destruct X as [m [J [X1 X2]]]. destruct (recv_eq V B s m J dst U ents X2 G1 HUne) as [c [C1 [C2 C3]]]. rewrite C3.
    assert (VJ : Forall (fun e => je_val e <> []) J) by (rewrite Forall_forall; intros e He; apply (G9 J); auto; now right).
    destruct (apply_total V B s m J U c [] c PF X2 VJ HB C2 G5 G6 HUV (HCJ J (or_intror X1))) as [s2 Hs2].
    exists s2. split; auto. destruct (apply_process V B s m J q U c [] c s2 PF Q X2) as [t0 (T1 & _)]; eauto.
    intros e He. apply (G8 J); auto. now right. }
  destruct (collect_total (recv_merged dst) (map sync_begin ws)) with (acc := @nil store) as [ol [O1 O2]].
  { intros p Hp. destruct (R p Hp) as [p' [P1 _]]. eauto. }
  rewrite O1. cbn [obind app].
  destruct (collect_total (sync_end q) (m' :: ol)) with (acc := @nil store) as [fl [F1 F2]].
  { intros p [<-|Hp]; auto.
    assert (X : exists p0, In p0 (map sync_begin ws) /\ recv_merged dst p0 = Ok p).
    { clear - O2 Hp. induction O2; [destruct Hp|]. destruct Hp as [<-|Hp]; [exists x; split; auto; now left|]. destruct (IHO2 Hp) as [p0 [X1 X2]]. exists p0. split; auto. now right. }
    destruct X as [p0 [X1 X2]]. destruct (R p0 X1) as [p' [P1 P2]]. rewrite X2 in P1; injection P1 as <-; auto. }
  exists fl. exact F1.
Qed.

Lemma F2_length {A B} (R : A -> B -> Prop) l r : Forall2 R l r -> length l = length r.
Proof. induction 1; simpl; congruence. Qed.

(* ---- rounds ---- *)
Definition Ready (V : list Z -> Prop) (B : kmap) (s : store) : Prop := LInv V B s B [] /\ ks_sorted s = used s.

Lemma exec_all_ok V q B w ops w1 : is_qsort kvs_cmp q -> PrefixFree V -> Forall (Ready V B) w -> length ops = length w -> Forall (Forall (OpOk V)) ops ->
  exec_all q w ops = Ok w1 -> Forall2 (State V B) w1 (map (fun h => fold_left map_op h B) ops).
Proof.
  intros Q PF HR HL HO H. unfold exec_all in H.
  destruct (collect_ok (fun p => exec_ops q (fst p) (snd p)) _ [] _ H) as [r [E F]]. simpl in E. subst r. clear H.
  revert ops HL HO w1 F. induction HR as [|s w HS HR IH]; intros ops HL HO w1 F; destruct ops as [|h ops]; simpl in *; try lia.
  - inversion F; subst. constructor.
  - inversion F as [|? s1 ? r1 E1 F']; subst. inversion HO; subst. constructor; [|apply IH; auto].
    destruct (ops_LInv V B q h PF Q s B [] (proj1 HS) H1) as [s' [J' [X1 X2]]]. cbn [fst snd] in E1. rewrite X1 in E1. injection E1 as <-. exists J'. auto.
Qed.

Lemma exec_all_total V q B w ops : is_qsort kvs_cmp q -> PrefixFree V -> Forall (Ready V B) w -> Forall (Forall (OpOk V)) ops ->
  exists w1, exec_all q w ops = Ok w1.
Proof.
  intros Q PF HR HO. unfold exec_all.
  destruct (collect_total (fun p => exec_ops q (fst p) (snd p)) (combine w ops)) with (acc := @nil store) as [r [E _]]; [|eauto].
  intros [s h] Hp. rewrite Forall_forall in HR, HO. assert (X1 := in_combine_l _ _ _ _ Hp). assert (X2 := in_combine_r _ _ _ _ Hp).
  destruct (ops_LInv V B q h PF Q s B [] (proj1 (HR _ X1)) (HO _ X2)) as [s' [J' [Y1 Y2]]]. exists s'. exact Y1.
Qed.

Lemma exec_all_length q w ops w1 : length ops = length w -> exec_all q w ops = Ok w1 -> length w1 = length w.
Proof.
  intros HL H. destruct (collect_ok (fun p => exec_ops q (fst p) (snd p)) _ [] _ H) as [r [E F]]. simpl in E. subst r.
  apply F2_length in F. rewrite combine_length in F. lia.
Qed.

Theorem World_ready V qj q n w : is_qsort entrycmp qj -> is_qsort kvs_cmp q -> PrefixFree V -> World V qj q n w ->
  exists B, length w = n /\ Forall (Ready V B) w /\ (forall k v, B k = Some v -> V v).
Proof.
  intros Qj Q PF HW. induction HW as [s Hs|w ops w' HW IH HL HO H].
  - exists (fun _ => None). split; [apply repeat_length|]. split; [|discriminate]. rewrite Forall_forall. intros s' Hs'. apply repeat_spec in Hs'. subst s'.
    destruct (new_LInv V) as [s1 [N1 [N2 N3]]]. rewrite N1 in Hs. injection Hs as <-. split; auto. vm_compute in N1. injection N1 as <-. reflexivity.
  - destruct IH as [B [E1 [E2 E3]]]. unfold exec_round in H. apply obind_ok in H. destruct H as [w1 [H1 H2]].
    assert (HS := exec_all_ok V q B w ops w1 Q PF E2 ltac:(lia) HO H1).
    destruct (sync_main V qj q B w1 _ w' PF Qj Q E3 HS H2) as [B' (F1 & F2 & _ & _ & F5)].
    exists B'. split; [|split; auto]. rewrite F1. assert (EL : length ops = length w) by lia. rewrite (exec_all_length q w ops w1 EL H1). exact E1.
Qed.

(* ---- ready stores with the same contents are the same list ---- *)
Lemma sorted_unique : forall l1 l2 : list (list Z), StronglySorted slt l1 -> StronglySorted slt l2 -> (forall k, In k l1 <-> In k l2) -> l1 = l2.
Proof.
  induction l1 as [|a l1 IH]; intros [|b l2] S1 S2 H; auto.
  - exfalso. apply (proj2 (H b)). now left.
  - exfalso. apply (proj1 (H a)). now left.
  - inversion S1 as [|? ? S1' F1]; subst. inversion S2 as [|? ? S2' F2]; subst. rewrite Forall_forall in F1, F2.
    assert (IR : forall x, ~ slt x x) by (intros x; unfold slt; rewrite str_cmp_refl; lia).
    assert (E : a = b).
    { destruct (proj1 (H a) (or_introl eq_refl)) as [X|X]; auto. destruct (proj2 (H b) (or_introl eq_refl)) as [Y|Y]; auto.
      exfalso. apply (IR a). eapply str_cmp_trans; [apply F1; eauto|apply F2; auto]. }
    subst b. f_equal. apply IH; auto. intros k. split; intros Hk.
    + destruct (proj1 (H k) (or_intror Hk)) as [<-|X]; auto. exfalso. exact (IR _ (F1 _ Hk)).
    + destruct (proj2 (H k) (or_intror Hk)) as [<-|X]; auto. exfalso. exact (IR _ (F2 _ Hk)).
Qed.

Lemma ent_from_keys l1 : forall l2, NoDup (map ke_key l1) -> map ke_key l1 = map ke_key l2 -> (forall k, look l1 k = look l2 k) -> l1 = l2.
Proof.
  induction l1 as [|a l1 IH]; intros [|b l2] N E HL; auto; try discriminate E.
  simpl in E. injection E as E1 E2. simpl in N. inversion N as [|? ? N1 N2]; subst.
  assert (Ea := HL (ke_key a)). simpl in Ea. rewrite <- E1 in Ea. destruct (keq (ke_key a) (ke_key a)); [|congruence]. injection Ea as Ev Eu.
  assert (a = b) by (destruct a, b; simpl in *; congruence). subst b. f_equal. apply IH; auto.
  intros k. assert (X := HL k). simpl in X. destruct (keq k (ke_key a)) as [->|]; auto.
  rewrite (proj2 (look_none l1 _) N1). rewrite E2 in N1. now rewrite (proj2 (look_none l2 _) N1).
Qed.

Lemma Ready_clean V B s : Ready V B s -> forall k, look (ks_ent s) k = Bused B k.
Proof. intros [H _] k. assert (C := LInv_clean V B s B [] H (Forall_nil _)). destruct C as [_ C]. rewrite C. reflexivity. Qed.

Lemma Ready_keys V B s : Ready V B s -> StronglySorted slt (map ke_key (ks_ent s)) /\ forall k, In k (map ke_key (ks_ent s)) <-> B k <> None.
Proof.
  intros H. assert (C := Ready_clean V B s H). destruct H as [(K & _) E]. destruct K as (N & B1 & S & P1 & P2). unfold used in *. split.
  - rewrite E, Nat2Z.id, firstn_all in S. auto.
  - intros k. split; intros Hk.
    + apply in_map_iff in Hk. destruct Hk as [e [<- He]]. destruct (keys_from_look (ks_ent s) N e He) as [x Hx]. rewrite C in Hx. unfold Bused in Hx. destruct (B (ke_key e)); congruence.
    + destruct (B k) as [v|] eqn:Eb; [|congruence]. assert (X := C k). unfold Bused in X. rewrite Eb in X. apply look_some_in in X. destruct X as [e [X1 X2]]. rewrite <- X2. now apply in_map.
Qed.

Lemma Ready_same V B s1 s2 : Ready V B s1 -> Ready V B s2 -> ks_ent s1 = ks_ent s2.
Proof.
  intros H1 H2. destruct (Ready_keys V B s1 H1) as [S1 K1]. destruct (Ready_keys V B s2 H2) as [S2 K2].
  apply ent_from_keys.
  - apply H1.
  - apply sorted_unique; auto. intros k. now rewrite K1, K2.
  - intros k. rewrite (Ready_clean V B s1 H1), (Ready_clean V B s2 H2). reflexivity.
Qed.

(* ---- rounds which only set values ---- *)
Definition eff (B : kmap) (l : list (list Z * list Z)) : list jentry :=
  map (fun c => mkJe (fst c) (snd c)) (filter (fun c => match B (fst c) with Some b => if list_eq_dec Z.eq_dec b (snd c) then false else true | None => true end) l).

Lemma eff_in B l k v : In (mkJe k v) (eff B l) <-> In (k, v) l /\ B k <> Some v.
Proof.
  unfold eff. rewrite in_map_iff. split.
  - intros [[k' v'] [X1 X2]]. simpl in X1. injection X1 as <- <-. apply filter_In in X2. destruct X2 as [X2 X3]. split; auto. simpl in X3.
    destruct (B k') as [b|]; [|discriminate]. destruct (list_eq_dec Z.eq_dec b v'); congruence.
  - intros [H1 H2]. exists (k, v). split; auto. apply filter_In. split; auto. simpl. destruct (B k) as [b|]; auto. destruct (list_eq_dec Z.eq_dec b v); congruence.
Qed.

Lemma eff_nodup B l : NoDup (map fst l) -> NoDup (map je_key (eff B l)).
Proof.
  unfold eff. rewrite map_map. cbn [je_key]. induction l as [|a l IH]; simpl; intros N; [constructor|]. inversion N; subst.
  destruct (match B (fst a) with Some b => _ | None => _ end); auto. simpl. constructor; auto. intros X. apply H1. apply in_map_iff in X. destruct X as [c [<- X]].
  apply filter_In in X. apply in_map. apply X.
Qed.

Lemma sets_LInv V q B : PrefixFree V -> forall l s m J, LInv V B s m J -> Forall (fun c => KeyOk (fst c) /\ V (snd c)) l -> NoDup (map fst l) ->
  (forall c, In c l -> m (fst c) = B (fst c)) ->
  exists s' m', exec_ops q s (map (fun c => OSet (fst c) (snd c)) l) = Ok s' /\ LInv V B s' m' (J ++ eff B l).
Proof.
  intros PF. induction l as [|[k v] l IH]; intros s m J HL HO HN HB; cbn [map exec_ops ofold].
  - exists s, m. split; auto. unfold eff; simpl. now rewrite app_nil_r.
  - inversion HO as [|? ? [Hk Hv] HO']; subst. inversion HN as [|? ? N1 N2]; subst. cbn [fst snd exec_op] in *.
    destruct (set_LInv_exact V B s m J k v PF HL Hk Hv) as [s1 [J1 (E1 & E2 & E3)]]. rewrite E1. cbn [obind].
    destruct (IH s1 (mput m k (Some v)) J1 E3 HO' N2) as [s' [m' [F1 F2]]].
    { intros c Hc. unfold mput. destruct (list_eq_dec Z.eq_dec (fst c) k) as [X|X]; [exfalso; apply N1; rewrite <- X; now apply in_map|]. apply HB. now right. }
    exists s', m'. split; auto. replace (J ++ eff B ((k, v) :: l)) with (J1 ++ eff B l); auto.
    assert (M : m k = B k) by (apply (HB (k, v)); now left). rewrite M in E2. unfold eff; simpl filter.
    destruct E2 as [[X ->]|[X ->]]; destruct (B k) as [b|].
    + destruct (list_eq_dec Z.eq_dec b v); [reflexivity|congruence].
    + congruence.
    + destruct (list_eq_dec Z.eq_dec b v); [congruence|]. simpl. now rewrite <- app_assoc.
    + simpl. now rewrite <- app_assoc.
Qed.

Lemma sets_all V q B w sets : PrefixFree V -> Forall (Ready V B) w -> length sets = length w ->
  Forall (Forall (fun c => KeyOk (fst c) /\ V (snd c))) sets -> Forall (fun l => NoDup (map fst l)) sets ->
  exists w1 ms, exec_all q w (map (map (fun c => OSet (fst c) (snd c))) sets) = Ok w1 /\ length w1 = length w /\ Forall2 (State V B) w1 ms /\
    Forall2 (fun sm J => LInv V B (fst sm) (snd sm) J) (combine w1 ms) (map (eff B) sets).
Proof.
  intros PF HR HL HO HN. unfold exec_all.
  assert (X : exists w1 ms, Forall2 (fun p s => exec_ops q (fst p) (snd p) = Ok s) (combine w (map (map (fun c => OSet (fst c) (snd c))) sets)) w1 /\ length w1 = length w /\
     Forall2 (State V B) w1 ms /\ Forall2 (fun sm J => LInv V B (fst sm) (snd sm) J) (combine w1 ms) (map (eff B) sets)).
  { revert sets HL HO HN. induction HR as [|s w HS HR IH]; intros [|l sets] HL HO HN; simpl in HL; try lia.
    - exists [], []. simpl. conjs; auto.
    - inversion HO; subst. inversion HN; subst. destruct (IH sets ltac:(lia) H2 H4) as [w1 [ms (I1 & I2 & I3 & I4)]].
      destruct (sets_LInv V q B PF l s B [] (proj1 HS) H1 H3) as [s' [m' [F1 F2]]]; auto.
      exists (s' :: w1), (m' :: ms). simpl. conjs; auto. constructor; auto. exists (eff B l). auto. }
  destruct X as [w1 [ms (X1 & X2 & X3 & X4)]]. exists w1, ms. conjs; auto.
  clear - X1. assert (G : forall acc, ofold (fun acc p => do s <- exec_ops q (fst p) (snd p); Ok (acc ++ [s])) (combine w (map (map (fun c => OSet (fst c) (snd c))) sets)) acc = Ok (acc ++ w1)).
  { induction X1; intros acc; cbn [ofold]; [now rewrite app_nil_r|]. rewrite H. cbn [obind]. rewrite IHX1, <- app_assoc. reflexivity. }
  apply G.
Qed.
