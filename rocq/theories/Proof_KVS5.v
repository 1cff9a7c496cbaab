(* Synchronisation of all stores *)
From Coq Require Import ZArith List Bool Lia ZifyBool ZifyNat Sorted Permutation.
From Verif Require Import Base Model_RangeList Model_KVS Spec_RangeList Spec_KVS Proof_RangeList5 Proof_KVS Proof_KVS2 Proof_KVS3 Proof_KVS4.
Import ListNotations.
Open Scope Z_scope.

Lemma collect_ok {A B} (f : A -> outcome B) l : forall acc r,
  ofold (fun acc p => do p' <- f p; Ok (acc ++ [p'])) l acc = Ok r -> exists r', r = acc ++ r' /\ Forall2 (fun p p' => f p = Ok p') l r'.
Proof.
  induction l as [|a l IH]; intros acc r H; cbn [ofold] in H.
  - injection H as <-. exists []. rewrite app_nil_r. auto.
  - apply obind_ok in H. destruct H as [acc1 [H1 H2]]. apply obind_ok in H1. destruct H1 as [p' [H0 H1]]. injection H1 as <-.
    destruct (IH _ _ H2) as [r' [-> F]]. exists (p' :: r'). rewrite <- app_assoc. auto.
Qed.

Lemma collect_total {A B} (f : A -> outcome B) l : (forall p, In p l -> exists p', f p = Ok p') -> forall acc,
  exists r', ofold (fun acc p => do p' <- f p; Ok (acc ++ [p'])) l acc = Ok (acc ++ r') /\ Forall2 (fun p p' => f p = Ok p') l r'.
Proof.
  induction l as [|a l IH]; intros H acc; cbn [ofold].
  - exists []. rewrite app_nil_r. auto.
  - destruct (H a (or_introl eq_refl)) as [p' E]. rewrite E. cbn [obind]. destruct (IH (fun p Hp => H p (or_intror Hp)) (acc ++ [p'])) as [r' [E1 F]].
    exists (p' :: r'). rewrite E1, <- app_assoc. auto.
Qed.

Definition clearu (e : kentry) : kentry := mkKe (ke_key e) (ke_val e) false.
Lemma look_clear l k : look (map clearu l) k = match look l k with Some (v, _) => Some (v, false) | None => None end.
Proof. induction l; simpl; auto. destruct (keq k (ke_key a)); auto. Qed.

Definition newmap (B : kmap) (U : list jentry) : kmap := fun k => match lastj U k with Some v => Some v | None => B k end.

Lemma LInv_clean V B s m J : LInv V B s m J -> Forall (fun e => je_val e <> []) J -> Clean B s J.
Proof.
  intros (_ & _ & _ & _ & _ & _ & _ & _ & [H|H]) F; auto. exfalso. apply Exists_exists in H. destruct H as [e [H1 H2]]. rewrite Forall_forall in F. exact (F e H1 H2).
Qed.

Lemma LInv_map V B s m J : LInv V B s m J -> Clean B s J -> forall k, m k = match lastj J k with Some v => Some v | None => B k end.
Proof.
  intros (_ & _ & H & _) [_ C] k. rewrite <- H. unfold seen. rewrite C. destruct (lastj J k); auto. unfold Bused. destruct (B k); auto.
Qed.

(* one process applies the merged changes and finishes *)
Lemma apply_process V B s m J q U d ents c s2 : PrefixFree V -> is_qsort kvs_cmp q -> LInv V B s m J -> Forall (fun e => je_val e <> []) J ->
  (forall k v, B k = Some v -> V v) -> JRep d U ents -> Forall (fun e => KeyOk (je_key e)) U -> Forall (fun e => je_val e <> []) U -> Forall (fun e => V (je_val e)) U ->
  (forall e, In e J -> exists e', In e' U /\ je_key e' = je_key e) -> JSize c ->
  changes_apply d (set_changes (sync_begin s) c) = Ok s2 ->
  exists s3, sync_end q s2 = Ok s3 /\ LInv V (newmap B U) s3 (newmap B U) [] /\ ks_sorted s3 = used s3 /\
    (forall k v, lastj J k = Some v -> newmap B U k = Some v).
Proof.
  intros PF Q HL HV HB HR HUK HUV HUVV HJU HC HA.
  assert (C := LInv_clean V B s m J HL HV). destruct C as [_ C].
  assert (HL' := HL). destruct HL' as (H1 & H2 & H3 & H4 & H5 & H6 & H7 & H7' & H8).
  rewrite (changes_apply_eq d U ents) in HA by auto.
  assert (HVJ : forall k v, lastj J k = Some v -> V v).
  { intros k v E. apply lastj_in in E. rewrite Forall_forall in HV, H7'. destruct (H7' _ E) as [X|X]; auto. exfalso. exact (HV _ E X). }
  destruct (apply_props V J PF HVJ U B (set_changes (sync_begin s) c)) as [A _]; auto.
  destruct (A s2 HA) as (A1 & A2 & A3 & A4). clear A.
  assert (HN : forall k v, lastj J k = Some v -> newmap B U k = Some v).
  { intros k v E. unfold newmap. destruct (HJU _ (lastj_in _ _ _ E)) as [e' [E1 E2]]. simpl in E2. destruct (lastj U k) as [u|] eqn:Eu.
    - f_equal. apply lastj_in in Eu. apply (A4 (mkJe k u) v); auto.
    - exfalso. exact (lastj_none U k Eu e' E1 E2). }
  unfold sync_end. rewrite A2. cbn [set_changes ks_changes]. destruct (set_size0 c HC) as [c' [E1 [E2 [E3 _]]]]. rewrite E1. cbn [obind].
  eexists. split; [reflexivity|].
  set (s3 := mkKvs (ks_size s2) (map (fun e => mkKe (ke_key e) (ke_val e) false) (ks_ent s2)) (ks_sorted s2) c' false).
  assert (L3 : forall k, look (ks_ent s3) k = Bused (newmap B U) k).
  { intros k. unfold s3. cbn [ks_ent]. fold clearu. rewrite look_clear, A3. unfold Bused. destruct (lastj J k) as [v|] eqn:Ej.
    - now rewrite (HN k v Ej).
    - unfold newmap. destruct (lastj U k); auto. unfold Bused. destruct (B k); auto. }
  assert (K3 : KI s3).
  { destruct A1 as (N & B1 & S & P1 & P2). unfold KI, s3, used in *; cbn [ks_ent ks_sorted ks_size]. rewrite map_length, map_map. cbn [ke_key]. conjs; auto; try lia.
    rewrite firstn_map, map_map. cbn [ke_key]. auto. }
  split; [|split; [|exact HN]].
  - apply sort_LInv; auto. unfold LInv. conjs; auto.
    + intros k. unfold seen. rewrite L3. unfold Bused. destruct (newmap B U k); auto.
    + intros k v. unfold newmap. destruct (lastj U k) eqn:E; [|apply HB]. intros X; injection X as <-. apply lastj_in in E. rewrite Forall_forall in HUVV. exact (HUVV _ E).
    + intros k e He <-. destruct (keys_from_look (ks_ent s3) (proj1 K3) e He) as [x Hx]. rewrite L3 in Hx. unfold Bused, newmap in Hx.
      destruct (lastj U (ke_key e)) as [u|] eqn:Eu.
      * apply lastj_in in Eu. rewrite Forall_forall in HUK. exact (HUK _ Eu).
      * destruct (B (ke_key e)) as [b|] eqn:Eb; [|discriminate].
        assert (Y : exists y, look (ks_ent s) (ke_key e) = Some y).
        { rewrite C. destruct (lastj J (ke_key e)); eauto. unfold Bused. rewrite Eb. eauto. }
        destruct Y as [y Y]. apply look_some_in in Y. destruct Y as [e' [Y1 Y2]]. exact (H5 _ e' Y1 Y2).
    + right. split; [constructor|]. intros k. simpl. apply L3.
  - unfold kvs_sort, used; cbn [ks_sorted ks_ent]. f_equal. apply Permutation_length. apply Q.
Qed.

Lemma apply_total V B s m J U d ents c : PrefixFree V -> LInv V B s m J -> Forall (fun e => je_val e <> []) J ->
  (forall k v, B k = Some v -> V v) -> JRep d U ents -> Forall (fun e => KeyOk (je_key e)) U -> Forall (fun e => je_val e <> []) U -> Forall (fun e => V (je_val e)) U ->
  (forall e v, In e U -> lastj J (je_key e) = Some v -> je_val e = v) ->
  exists s2, changes_apply d (set_changes (sync_begin s) c) = Ok s2.
Proof.
  intros PF HL HV HB HR HUK HUV HUVV HC.
  assert (C := LInv_clean V B s m J HL HV). destruct C as [_ C].
  assert (HL' := HL). destruct HL' as (H1 & H2 & H3 & H4 & H5 & H6 & H7 & H7' & H8).
  rewrite (changes_apply_eq d U ents) by auto.
  assert (HVJ : forall k v, lastj J k = Some v -> V v).
  { intros k v E. apply lastj_in in E. rewrite Forall_forall in HV, H7'. destruct (H7' _ E) as [X|X]; auto. exfalso. exact (HV _ E X). }
  destruct (apply_props V J PF HVJ U B (set_changes (sync_begin s) c)) as [_ A]; auto.
Qed.

(* sending of sync_begin stores *)
Lemma LInv_sent V B s m J : LInv V B s m J -> Sent (sync_begin s) J.
Proof. intros (_ & _ & _ & _ & _ & H6 & H7 & _). split; auto. Qed.

(* what other processes do with the merged journal *)
Lemma recv_eq V B s m J d U ents : LInv V B s m J -> JRep d U ents -> U <> [] ->
  exists c, JSize c /\ JRep c U [] /\ recv_merged d (sync_begin s) = changes_apply c (set_changes (sync_begin s) c).
Proof.
  intros (_ & _ & _ & _ & _ & H6 & H7 & _) (HS & D & O & N & B1 & B2) Hne. unfold recv_merged. unfold offused, dataused in *. rewrite D, O in *. rewrite offs_length in *.
  destruct U as [|a U]; [congruence|]. destruct (0 <? _) eqn:E; [|lia].
  assert (Z1 : (0 <? Z.of_nat (length (enc_data (a :: U)))) = true) by (simpl; rewrite app_length; assert (HL := enc1_length a); lia). rewrite Z1. cbn [cassert sync_begin ks_changes].
  destruct H6 as (S6 & _ & _ & E6 & _).
  destruct (ensure_ok (ks_changes s) (2 * Z.of_nat (length (a :: U)) + 1) (Z.of_nat (length (enc_data (a :: U)))) S6 E6) as [c1 (F1 & F2 & F3 & F4 & F5 & F6 & F7 & _)].
  rewrite F1. cbn [obind]. destruct (set_size_rep c1 (a :: U) F2 ltac:(rewrite offs_length; lia) ltac:(lia)) as [c2 [G1 G2]]. rewrite G1. cbn [obind].
  exists c2. split; [apply G2|]. split; auto.
Qed.

Definition State (V : list Z -> Prop) (B : kmap) (s : store) (m : kmap) : Prop := exists J, LInv V B s m J.

Lemma State_list V B ws ms : Forall2 (State V B) ws ms -> exists Js, Forall2 (fun sm J => LInv V B (fst sm) (snd sm) J) (combine ws ms) Js.
Proof.
  induction 1 as [|s m ws ms [J HJ] HF [Js IH]]; simpl; [exists []; constructor|]. exists (J :: Js). constructor; auto.
Qed.

Lemma init_GInv qj m0 c J V B s : is_qsort entrycmp qj -> LInv V B s m0 J -> changes_sort qj (ks_changes s) = Ok c -> GInv [J] (c, changes_init, changes_init, true) /\
  (forall U ents, JRep c U ents -> U = J \/ True).
Proof.
  intros Q HL H. split; [|auto]. assert (HL' := HL). destruct HL' as (_ & _ & _ & _ & _ & H6 & H7 & _).
  destruct (dirty_dec J) as [HD|HD]; [rewrite (sort_empty qj _ J) in H; auto; discriminate|].
  destruct (sort_ok qj _ J H6 Q H7 HD) as [c' [E1 [E2 _]]]. rewrite E1 in H. injection H as <-.
  exists J, (if J then [] else qj J). conjs; auto; try apply JSize_init.
  - destruct J; auto. apply (proj1 (Q _)).
  - intros e He. exists J. split; auto. now left.
  - intros J0 e [<-|[]] He. exists e. auto.
  - intros J0 e [<-|[]] He. rewrite Forall_forall in HD. auto.
Qed.

Lemma Forall2_combine_sent V B ws ms Js : Forall2 (State V B) ws ms -> Forall2 (fun sm J => LInv V B (fst sm) (snd sm) J) (combine ws ms) Js ->
  Forall2 Sent (map sync_begin ws) Js.
Proof.
  intros H. revert Js. induction H; intros Js HF; simpl in *; inversion HF; subst; constructor; auto. eapply LInv_sent; eauto.
Qed.

Theorem sync_main V qj q B ws ms ws' : PrefixFree V -> is_qsort entrycmp qj -> is_qsort kvs_cmp q -> (forall k v, B k = Some v -> V v) ->
  Forall2 (State V B) ws ms -> kvs_sync_mpi qj q ws = Ok ws' ->
  exists B', length ws' = length ws /\ Forall (fun s => LInv V B' s B' [] /\ ks_sorted s = used s) ws' /\
    (forall k m, In m ms -> m k <> B k -> B' k = m k) /\ (forall k, (forall m, In m ms -> m k = B k) -> B' k = B k) /\
    (forall k v, B' k = Some v -> V v).
Proof.
  intros PF Qj Q HB HF H. destruct HF as [|s0 m0 ws ms [J0 HL0] HF]; [discriminate H|].
  unfold kvs_sync_mpi in H. apply obind_ok in H. destruct H as [l1 [H H']]. cbn [map mpi_sync] in H.
  apply obind_ok in H. destruct H as [c0 [Hc0 H]]. cbn [sync_begin ks_changes] in Hc0.
  destruct (init_GInv qj m0 c0 J0 V B s0 Qj HL0 Hc0) as [G0 _].
  apply obind_ok in H. destruct H as [st [Hg H]]. destruct (State_list V B ws ms HF) as [Js HJs].
  assert (G := gather_all qj Qj _ Js _ [J0] st G0 (Forall2_combine_sent V B ws ms Js HF HJs) Hg).
  destruct st as [[[dst src] recvd] own]. apply cassert_ok in H. destruct H as [Hbytes H].
  destruct G as (U & ents & G1 & G2 & G3 & G4 & G5 & G6 & G7 & G8 & G9). simpl app in *.
  assert (Hall : forall J, In J (J0 :: Js) -> exists s m, In m (m0 :: ms) /\ LInv V B s m J).
  { intros J [<-|HJ]; [exists s0, m0; split; auto; now left|].
    clear - HJs HJ HF. revert Js HJs HJ. induction HF; intros Js HJs HJ; simpl in HJs; inversion HJs; subst; [destruct HJ|].
    destruct HJ as [<-|HJ]; [exists x, y; split; auto; right; now left|]. destruct (IHHF _ H4 HJ) as [s [m [[<-|E1] E2]]]; [exists s, m0; split; auto; now left|]. exists s, m. split; auto. right; now right. }
  assert (HUV : Forall (fun e => V (je_val e)) U).
  { rewrite Forall_forall. intros e He. destruct (G7 e He) as [J [HJ He']]. destruct (Hall J HJ) as [s [m [_ HLs]]].
    destruct HLs as (_ & _ & _ & _ & _ & _ & _ & H7' & _). rewrite Forall_forall in H7', G6. destruct (H7' e He') as [X|X]; auto. exfalso. exact (G6 e He X). }
  assert (HUne : U <> []).
  { intros ->. destruct G1 as (_ & D & O & _). unfold offused, dataused in Hbytes. rewrite D, O in Hbytes. simpl in Hbytes. lia. }
  apply obind_ok in H. destruct H as [m' [Hm H]]. apply obind_ok in H. destruct H as [others' [Ho H]]. injection H as <-.
  destruct (apply_process V B s0 m0 J0 q U dst ents (if own then dst else src) m' PF Q HL0) as [t0 (T1 & T2 & T3 & T4)]; auto.
  { rewrite Forall_forall. intros e He. apply (G9 J0); auto. now left. }
  { intros e He. apply (G8 J0); auto. now left. }
  { destruct own; auto. apply G1. }
  cbn [ofold] in H'. rewrite T1 in H'. cbn [obind app] in H'.
  destruct (collect_ok (recv_merged dst) _ [] _ Ho) as [ol [Eol Fol]]. simpl in Eol. subst ol.
  destruct (collect_ok (sync_end q) _ _ _ H') as [fl [Efl Ffl]]. simpl in Efl. subst ws'.
  assert (P : forall J, In J Js -> forall s m, LInv V B s m J -> forall k, (forall k v, lastj J k = Some v -> newmap B U k = Some v) -> m k <> B k -> newmap B U k = m k).
  { intros J HJ s m HLs k HN Hk. assert (C := LInv_clean V B s m J HLs). assert (M := LInv_map V B s m J HLs (C ltac:(rewrite Forall_forall; intros e He; apply (G9 J); auto; now right)) k).
    destruct (lastj J k) as [v|] eqn:E; [|congruence]. rewrite M. auto. }
  (* the other processes *)
  assert (R : length fl = length ws /\ Forall (fun s => LInv V (newmap B U) s (newmap B U) [] /\ ks_sorted s = used s) fl /\
              forall J, In J Js -> forall k v, lastj J k = Some v -> newmap B U k = Some v).
  { assert (G8' : forall J e, In J Js -> In e J -> exists e', In e' U /\ je_key e' = je_key e) by (intros J e HJ; apply (G8 J e); now right).
    assert (G9' : forall J e, In J Js -> In e J -> je_val e <> []) by (intros J e HJ; apply (G9 J e); now right).
    clear - PF Q HB HF HJs Fol Ffl G1 G5 G6 HUV HUne G8' G9'. revert ms HF Js HJs G8' G9' others' Fol fl Ffl.
    induction ws as [|s ws IH]; intros ms HF Js HJs G8' G9' others' Fol fl Ffl.
    - inversion HF; subst. simpl in Fol. inversion Fol; subst. inversion Ffl; subst. inversion HJs; subst. conjs; auto; intros J [].
    - inversion HF as [|? m ? ms' HS HF']; subst. simpl in HJs. inversion HJs as [|? J ? Js' HL HJs']; subst. simpl in HL.
      simpl in Fol. inversion Fol as [|? o' ? ol' E1 Fol']; subst. inversion Ffl as [|? f ? fl' E2 Ffl']; subst.
      destruct (IH ms' HF' Js' HJs') with (others' := ol') (fl := fl') as [I1 [I2 I3]]; auto.
      { intros J1 e HJ1; apply (G8' J1 e); now right. } { intros J1 e HJ1; apply (G9' J1 e); now right. }
      destruct (recv_eq V B s m J dst U ents HL G1 HUne) as [c [C1 [C2 C3]]]. rewrite C3 in E1.
      destruct (apply_process V B s m J q U c [] c o' PF Q HL) as [t (T1 & T2 & T3 & T4)]; auto.
      { rewrite Forall_forall. intros e He. apply (G9' J); auto. now left. }
      { intros e He. apply (G8' J); auto. now left. }
      rewrite E2 in T1. injection T1 as ->. conjs.
      + simpl. congruence.
      + constructor; auto.
      + intros J1 [<-|HJ1]; [exact T4|exact (I3 J1 HJ1)]. }
  destruct R as [R1 [R2 R3]].
  exists (newmap B U). conjs.
  - simpl. congruence.
  - constructor; auto.
  - intros k m [<-|Hm'] Hk.
    + assert (C := LInv_clean V B s0 m0 J0 HL0). assert (M := LInv_map V B s0 m0 J0 HL0 (C ltac:(rewrite Forall_forall; intros e He; apply (G9 J0); auto; now left)) k).
      destruct (lastj J0 k) as [v|] eqn:E; [|congruence]. rewrite M. auto.
    + assert (X : exists J s, In J Js /\ LInv V B s m J).
      { clear - HF HJs Hm'. revert Js HJs. induction HF; intros Js HJs; simpl in HJs; inversion HJs; subst; [destruct Hm'|].
        destruct Hm' as [<-|Hm']; [eexists; eexists; split; [now left|eassumption]|]. destruct (IHHF Hm' _ H4) as [J [s [E1 E2]]]. exists J, s. split; auto. now right. }
      destruct X as [J [s [X1 X2]]]. exact (P J X1 s m X2 k (R3 J X1) Hk).
  - intros k Hk. unfold newmap. destruct (lastj U k) as [u|] eqn:E; auto. assert (Eu := E). apply lastj_in in E. destruct (G7 _ E) as [J [HJ He]].
    destruct (Hall J HJ) as [s [m [Hm' HLs]]].
    assert (C := LInv_clean V B s m J HLs ltac:(rewrite Forall_forall; intros e He'; apply (G9 J); auto)).
    assert (M := LInv_map V B s m J HLs C k). rewrite <- (Hk m Hm'), M. destruct (lastj J k) as [v|] eqn:Ej; [|exfalso; exact (lastj_none J k Ej _ He eq_refl)].
    assert (X : newmap B U k = Some v) by (destruct HJ as [<-|HJ]; [apply T4|apply (R3 J)]; auto).
    unfold newmap in X. rewrite Eu in X. auto.
  - intros k v. unfold newmap. destruct (lastj U k) eqn:E; [|apply HB]. intros X; injection X as <-. apply lastj_in in E. rewrite Forall_forall in HUV. exact (HUV _ E).
Qed.
