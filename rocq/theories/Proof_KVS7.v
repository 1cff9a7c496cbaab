(* Synchronisation never succeeds after a removal or after two changes of one key *)
From Coq Require Import ZArith List Bool Lia ZifyBool ZifyNat Sorted Permutation.
From Verif Require Import Base Model_RangeList Model_KVS Spec_RangeList Spec_KVS Proof_RangeList5 Proof_KVS Proof_KVS2 Proof_KVS3 Proof_KVS4 Proof_KVS5 Proof_KVS6.
Import ListNotations.
Open Scope Z_scope.

Definition above (u : list jentry) (y : jentry) : Prop := match rev u with [] => True | x :: _ => slt (je_key x) (je_key y) end.

Lemma above_snoc u e y : above (u ++ [e]) y <-> slt (je_key e) (je_key y).
Proof. unfold above. rewrite rev_app_distr. simpl. tauto. Qed.

Lemma above_trans u e y : above u e -> slt (je_key e) (je_key y) -> above u y.
Proof. unfold above. destruct (rev u); auto. intros A B. eapply str_cmp_trans; eauto. Qed.

Lemma srt_cons e l : srt l -> (forall x, In x l -> slt (je_key e) (je_key x)) -> srt (e :: l).
Proof. intros H1 H2. unfold srt. simpl. constructor; auto. rewrite Forall_forall. intros k Hk. apply in_map_iff in Hk. destruct Hk as [x [<- Hx]]. auto. Qed.

Lemma merge_strict : forall n d u l1 l2 d', JRep d u u -> Space d u (length l1 + length l2) (length (enc_data l1) + length (enc_data l2)) ->
  (length l1 + length l2 < n)%nat -> merge_loop n d l1 l2 = Ok d' -> srt l1 /\ srt l2 /\ forall y, In y l1 \/ In y l2 -> above u y.
Proof.
  induction n; intros d u l1 l2 d' HR HS Hn H; [lia|]. cbn [merge_loop] in H.
  assert (G : forall e l1' l2', Space d u (S (length l1' + length l2')) (length (enc1 e) + (length (enc_data l1') + length (enc_data l2'))) -> (length l1' + length l2' < n)%nat ->
     (do d0 <- changes_add d (je_key e) (je_val e) false true; merge_loop n d0 l1' l2') = Ok d' ->
     srt l1' /\ srt l2' /\ above u e /\ forall y, In y l1' \/ In y l2' -> slt (je_key e) (je_key y)).
  { intros e l1' l2' HS' Hn' H'. destruct (add_sorted d u e _ _ HR HS') as [d1 [A1 [A2 A3]]]. rewrite A1 in H'.
    apply obind_ok in H'. destruct H' as [d2 [H1 H2]]. apply cassert_ok in H1. destruct H1 as [H0 H1]. injection H1 as <-.
    destruct (IHn _ _ _ _ _ A2 A3 Hn' H2) as (W1 & W2 & W3). conjs; auto.
    - unfold above. destruct (rev u); auto. unfold slt. lia.
    - intros y Hy. apply (above_snoc u). auto. }
  destruct l1 as [|e1 l1], l2 as [|e2 l2].
  - conjs; try constructor. intros y [[]|[]].
  - apply (G e2 [] l2) in H; [|simpl in *; rewrite app_length in HS; exact HS|simpl in *; lia].
    destruct H as (W1 & W2 & W3 & W4). conjs; auto. { apply srt_cons; auto. }
    intros y [[]|[<-|Hy]]; auto. eapply above_trans; eauto.
  - assert (HS0 : Space d u (S (length l1 + length (@nil jentry))) (length (enc1 e1) + (length (enc_data l1) + length (enc_data [])))).
    { simpl in *. rewrite app_length in HS. rewrite Nat.add_0_r in *. rewrite <- Nat.add_assoc in HS. rewrite Nat.add_0_r in *. exact HS. }
    apply (G e1 l1 []) in H; [|exact HS0|simpl in *; lia].
    destruct H as (W1 & W2 & W3 & W4). conjs; auto. { apply srt_cons; auto. }
    intros y [[<-|Hy]|[]]; auto. eapply above_trans; eauto.
  - destruct (str_cmp (je_key e1) (je_key e2) <? 0) eqn:C1; [|destruct (str_cmp (je_key e1) (je_key e2) >? 0) eqn:C2].
    + apply (G e1 l1 (e2 :: l2)) in H; [|simpl in *; rewrite !app_length in *; rewrite <- Nat.add_assoc in HS; exact HS|simpl in *; lia].
      destruct H as (W1 & W2 & W3 & W4). conjs; auto. { apply srt_cons; auto. }
      intros y [[<-|Hy]|Hy]; auto; eapply above_trans; eauto.
    + apply (G e2 (e1 :: l1) l2) in H; [| |simpl in *; lia].
      * destruct H as (W1 & W2 & W3 & W4). conjs; auto. { apply srt_cons; auto. }
        intros y [Hy|[<-|Hy]]; auto; eapply above_trans; eauto.
      * unfold Space in *. simpl in *. rewrite !app_length in *. lia.
    + assert (Ek : je_key e1 = je_key e2) by (apply str_cmp_eq; lia).
      destruct (_ || _); [discriminate|].
      apply (G e1 l1 l2) in H; [| |simpl in *; lia].
      * destruct H as (W1 & W2 & W3 & W4). conjs; [apply srt_cons; auto|apply srt_cons; auto; intros x Hx; rewrite <- Ek; auto|].
        assert (A2 : above u e2) by (unfold above in *; destruct (rev u); auto; rewrite <- Ek; auto).
        intros y [[<-|Hy]|[<-|Hy]]; auto; apply (above_trans u e1); auto.
      * unfold Space in *. simpl in *. rewrite !app_length in *. lia.
Qed.

Lemma srt_same l e1 e2 : srt l -> In e1 l -> In e2 l -> je_key e1 = je_key e2 -> e1 = e2.
Proof.
  induction l as [|a l IH]; intros S H1 H2 E; [destruct H1|]. destruct (srt_inv _ _ S) as [S1 S2].
  assert (IR : forall x, ~ slt x x) by (intros x; unfold slt; rewrite str_cmp_refl; lia).
  destruct H1 as [<-|H1], H2 as [<-|H2]; auto.
  - exfalso. specialize (S2 _ H2). rewrite E in S2. exact (IR _ S2).
  - exfalso. specialize (S2 _ H1). rewrite E in S2. exact (IR _ S2).
Qed.

Definition Single (J : list jentry) : Prop := forall e1 e2, In e1 J -> In e2 J -> je_key e1 = je_key e2 -> e1 = e2.

Lemma Single_srt J l : Permutation J l -> srt l -> Single J.
Proof. intros P S e1 e2 H1 H2. apply (srt_same l); auto; eapply Permutation_in; eauto. Qed.

Lemma gather_single q : is_qsort entrycmp q -> forall ps Js st Js0 st', GInv Js0 st -> Forall2 Sent ps Js -> ofold (mpi_gather q) ps st = Ok st' ->
  (forall J, In J Js -> Single J) /\
  ((exists J, In J Js /\ J <> []) /\ srt (j_ent (fst (fst (fst st)))) \/ fst (fst (fst st')) = fst (fst (fst st))).
Proof.
  intros Q ps Js st Js0 st' HG HF. revert st Js0 HG. induction HF as [|p J ps Js H HF IH]; intros st Js0 HG HE; cbn [ofold] in HE.
  - injection HE as <-. split; [intros J []|now right].
  - apply obind_ok in HE. destruct HE as [st1 [E1 E2]].
    assert (G1 := gather_step q st p J Js0 st1 Q HG H E1). destruct (IH st1 _ G1 E2) as [I1 I2].
    assert (C := gather_common q st p J Js0 Q HG H). destruct st as [[[dst src] recvd] own]. destruct C as [r [Hr C]].
    destruct HG as (U & ents & GA & GB & GC & GD & _).
    destruct C as [[-> C]|[[_ C]|[HJ [HV [HR C]]]]]; rewrite C in E1.
    + injection E1 as <-. simpl in *. split; [intros J [<-|HJ]; auto; intros e1 e2 []|].
      destruct I2 as [[[J [X1 X2]] X3]|X]; auto. left. split; auto. exists J. split; auto.
    + discriminate.
    + apply obind_ok in E1. destruct E1 as [d [M H2]]. injection H2 as <-. destruct (Q J) as [Q1 _].
      destruct (merge_prep src dst r U J ents (q J) GC GA HR HJ GB Q1) as [d0 [M1 [M2 M3]]]. rewrite M1 in M.
      assert (L0 : (length ents + length (q J) < S (length ents + length (q J)))%nat) by lia.
      destruct (merge_strict _ d0 [] ents (q J) d M2 M3 L0 M) as [S1 [S2 _]].
      split; [intros J' [<-|HJ']; auto; apply (Single_srt J (q J)); auto|]. left. split; [exists J; split; auto; now left|]. simpl. assert (E : j_ent dst = ents) by apply GA. rewrite E. auto.
Qed.

Theorem sync_single_changes V qj q B ws ms Js ws' : PrefixFree V -> is_qsort entrycmp qj -> is_qsort kvs_cmp q -> (forall k v, B k = Some v -> V v) ->
  Forall2 (State V B) ws ms -> Forall2 (fun sm J => LInv V B (fst sm) (snd sm) J) (combine ws ms) Js ->
  kvs_sync_mpi qj q ws = Ok ws' -> forall J, In J Js -> Forall (fun e => je_val e <> []) J /\ Single J.
Proof.
  intros PF Qj Q HB HF HJs H. destruct HF as [|s0 m0 ws ms _ HF]; [discriminate H|].
  simpl in HJs. inversion HJs as [|? J0 ? Js' HL0 HJs']; subst. simpl in HL0. rename Js' into Js.
  unfold kvs_sync_mpi in H. apply obind_ok in H. destruct H as [l1 [H _]]. cbn [map mpi_sync] in H.
  apply obind_ok in H. destruct H as [c0 [Hc0 H]]. cbn [sync_begin ks_changes] in Hc0.
  destruct (init_GInv qj m0 c0 J0 V B s0 Qj HL0 Hc0) as [G0 _].
  apply obind_ok in H. destruct H as [st [Hg H]].
  assert (HSent := Forall2_combine_sent V B ws ms Js HF HJs').
  assert (G := gather_all qj Qj _ Js _ [J0] st G0 HSent Hg).
  destruct (gather_single qj Qj _ Js _ [J0] st G0 HSent Hg) as [I1 I2].
  destruct st as [[[dst src] recvd] own]. destruct G as (U & ents & G1 & G2 & G3 & G4 & G5 & G6 & G7 & G8 & G9). simpl app in *. simpl in I2.
  intros J HJ. split; [rewrite Forall_forall; intros e He; exact (G9 J e HJ He)|].
  destruct HJ as [<-|HJ]; auto.
  assert (HL0' := HL0). destruct HL0' as (_ & _ & _ & _ & _ & H6 & H7 & H7' & _).
  assert (N0 : Forall (fun e => je_val e <> []) J0) by (rewrite Forall_forall; intros e He; exact (G9 J0 e (or_introl eq_refl) He)).
  destruct (sort_ok qj _ J0 H6 Qj H7 N0) as [c' [E1 [E2 _]]]. rewrite E1 in Hc0. injection Hc0 as <-.
  destruct I2 as [[_ S]|X].
  - assert (E : j_ent c' = match J0 with [] => [] | _ => qj J0 end) by apply E2. rewrite E in S. destruct J0 as [|a J0]; [intros e1 e2 []|].
    apply (Single_srt _ _ (proj1 (Qj _)) S).
  - (* only the master has changes *)
    subst dst. apply cassert_ok in H. destruct H as [_ H]. apply obind_ok in H. destruct H as [m' [Hm _]].
    rewrite (changes_apply_eq c' J0 (if J0 then [] else qj J0)) in Hm by auto.
    assert (C := LInv_clean V B s0 m0 J0 HL0 N0). destruct C as [_ C].
    assert (VJ : Forall (fun e => V (je_val e)) J0).
    { rewrite Forall_forall in *. intros e He. destruct (H7' e He) as [Y|Y]; auto. exfalso. exact (N0 e He Y). }
    assert (HVJ : forall k v, lastj J0 k = Some v -> V v).
    { intros k v E. apply lastj_in in E. rewrite Forall_forall in VJ. exact (VJ _ E). }
    destruct (apply_props V J0 PF HVJ J0 B (set_changes (sync_begin s0) (if own then c' else src))) as [A _]; auto; [apply HL0|].
    destruct (A m' Hm) as (_ & _ & _ & A4). intros [k1 v1] [k2 v2] H1 H2 E. simpl in E. subst k2. f_equal.
    destruct (lastj J0 k1) as [v|] eqn:El; [|exfalso; exact (lastj_none J0 k1 El _ H1 eq_refl)].
    assert (X1 := A4 _ v H1 El). assert (X2 := A4 _ v H2 El). simpl in *. congruence.
Qed.

(* journals after a round of operations *)
Lemma exec_all_journal V q B w ops w1 : is_qsort kvs_cmp q -> PrefixFree V -> Forall (Ready V B) w -> length ops = length w -> Forall (Forall (OpOk V)) ops ->
  exec_all q w ops = Ok w1 ->
  exists Js, Forall2 (State V B) w1 (map (fun h => fold_left map_op h B) ops) /\
    Forall2 (fun sm J => LInv V B (fst sm) (snd sm) J) (combine w1 (map (fun h => fold_left map_op h B) ops)) Js /\
    forall h, In h ops -> exists J, In J Js /\
     (forall h1 k v h2, h = h1 ++ OSet k v :: h2 -> fold_left map_op h1 B k <> Some v -> In (mkJe k v) J) /\
     (forall h1 k h2, h = h1 ++ ORemove k :: h2 -> fold_left map_op h1 B k <> None -> In (mkJe k []) J).
Proof.
  intros Q PF HR HL HO H. unfold exec_all in H.
  destruct (collect_ok (fun p => exec_ops q (fst p) (snd p)) _ [] _ H) as [r [E F]]. simpl in E. subst r. clear H.
  revert ops HL HO w1 F. induction HR as [|s w HS HR IH]; intros ops HL HO w1 F; destruct ops as [|h ops]; simpl in *; try lia.
  - inversion F; subst. exists []. conjs; auto; try constructor; intros h [].
  - inversion F as [|? s1 ? r1 E1 F']; subst. inversion HO; subst. destruct (IH ops ltac:(lia) H2 r1 F') as [Js (I1 & I2 & I3)].
    destruct (ops_app V B q h PF Q s B [] (proj1 HS) H1) as [s' [X (X1 & X2 & X3 & X4)]]. cbn [fst snd] in E1. rewrite X1 in E1. injection E1 as <-.
    exists (X :: Js). simpl. conjs.
    + constructor; auto. exists X. exact X2.
    + constructor; auto.
    + intros h' [<-|Hh]; [exists X; split; [now left|auto]|]. destruct (I3 h' Hh) as [J [J1 J2]]. exists J. split; [now right|auto].
Qed.
