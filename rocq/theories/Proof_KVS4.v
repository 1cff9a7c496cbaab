(* Merging journals, synchronisation *)
From Coq Require Import ZArith List Bool Lia ZifyBool ZifyNat Sorted Permutation.
From Verif Require Import Base Model_RangeList Model_KVS Spec_RangeList Spec_KVS Proof_RangeList5 Proof_KVS Proof_KVS2 Proof_KVS3.
Import ListNotations.
Open Scope Z_scope.

Lemma strncmp_refl a n : strncmp_eq a a n = true.
Proof. revert a; induction n; intros [|z a]; simpl; auto. rewrite Z.eqb_refl. simpl. destruct (z =? 0); auto. Qed.

(* enough space in d for u and n more entries with b bytes *)
Definition Space (d : journal) (u : list jentry) (n : nat) (b : nat) : Prop :=
  2 * Z.of_nat (length u + n) + 1 <= j_offsize d /\ Z.of_nat (length (enc_data u) + b) <= j_datasize d /\ Z.of_nat (length u + n) <= j_entsize d.

Lemma add_sorted d u e n b : JRep d u u -> Space d u (S n) (length (enc1 e) + b) ->
  exists d', (changes_add d (je_key e) (je_val e) false true = cassert (match rev u with [] => true | x :: _ => str_cmp (je_key x) (je_key e) <? 0 end) (Ok d')) /\
    JRep d' (u ++ [e]) (u ++ [e]) /\ Space d' (u ++ [e]) n b.
Proof.
  intros HR (S1 & S2 & S3). assert (HL := enc1_length e).
  assert (A := add_core u u d (je_key e) (je_val e) true HR ltac:(lia) ltac:(lia)). cbn [negb] in A. cbv zeta in A.
  assert (Ee : mkJe (je_key e) (je_val e) = e) by (destruct e; reflexivity). rewrite Ee in A.
  assert (E1 : (Z.of_nat (length u) <? j_entsize d) = true) by lia. rewrite E1 in A. cbn [cassert] in A.
  eexists. split; [exact A|]. split; [apply (JRep_snoc d u u); auto; lia|]. unfold Space; simpl. rewrite enc_data_app, !app_length. simpl. rewrite app_nil_r. lia.
Qed.

Lemma merge_props : forall n d u l1 l2 d', JRep d u u -> Space d u (length l1 + length l2) (length (enc_data l1) + length (enc_data l2)) ->
  (length l1 + length l2 < n)%nat -> merge_loop n d l1 l2 = Ok d' ->
  exists w, JRep d' (u ++ w) (u ++ w) /\ (forall e, In e w -> In e l1 \/ In e l2) /\ (forall e, In e l1 -> In e w) /\
    (forall e, In e l2 -> exists e', In e' w /\ je_key e' = je_key e).
Proof.
  induction n; intros d u l1 l2 d' HR HS Hn H; [lia|]. cbn [merge_loop] in H.
  assert (G : forall e l1' l2', Space d u (S (length l1' + length l2')) (length (enc1 e) + (length (enc_data l1') + length (enc_data l2'))) -> (length l1' + length l2' < n)%nat ->
     (do d0 <- changes_add d (je_key e) (je_val e) false true; merge_loop n d0 l1' l2') = Ok d' ->
     exists w, JRep d' (u ++ e :: w) (u ++ e :: w) /\ (forall e, In e w -> In e l1' \/ In e l2') /\ (forall e, In e l1' -> In e w) /\
       (forall e, In e l2' -> exists e', In e' w /\ je_key e' = je_key e)).
  { intros e l1' l2' HS' Hn' H'. destruct (add_sorted d u e _ _ HR HS') as [d1 [A1 [A2 A3]]]. rewrite A1 in H'.
    apply obind_ok in H'. destruct H' as [d2 [H1 H2]]. apply cassert_ok in H1. destruct H1 as [_ H1]. injection H1 as <-.
    destruct (IHn _ _ _ _ _ A2 A3 Hn' H2) as [w (W1 & W2 & W3 & W4)]. exists w. rewrite <- app_assoc in W1. auto. }
  destruct l1 as [|e1 l1], l2 as [|e2 l2].
  - injection H as <-. exists []. rewrite app_nil_r. conjs; auto; simpl; tauto.
  - apply (G e2 [] l2) in H; [|simpl in *; rewrite app_length in HS; exact HS|simpl in *; lia].
    destruct H as [w (W1 & W2 & W3 & W4)]. exists (e2 :: w). conjs; auto.
    + intros e [<-|He]; [right; now left|]. destruct (W2 e He) as [[]|]. right; now right.
    + intros e [].
    + intros e [<-|He]; [exists e2; split; auto; now left|]. destruct (W4 e He) as [e' [E1 E2]]. exists e'; split; auto; now right.
  - assert (HS0 : Space d u (S (length l1 + length (@nil jentry))) (length (enc1 e1) + (length (enc_data l1) + length (enc_data [])))).
    { simpl in *. rewrite app_length in HS. rewrite Nat.add_0_r in *. rewrite <- Nat.add_assoc in HS. rewrite Nat.add_0_r in *. exact HS. }
    apply (G e1 l1 []) in H; [|exact HS0|simpl in *; lia].
    destruct H as [w (W1 & W2 & W3 & W4)]. exists (e1 :: w). conjs; auto.
    + intros e [<-|He]; [left; now left|]. destruct (W2 e He) as [|[]]. left; now right.
    + intros e [<-|He]; [now left|right; auto].
    + intros e [].
  - destruct (str_cmp (je_key e1) (je_key e2) <? 0) eqn:C1; [|destruct (str_cmp (je_key e1) (je_key e2) >? 0) eqn:C2].
    + apply (G e1 l1 (e2 :: l2)) in H; [|simpl in *; rewrite !app_length in *; rewrite <- Nat.add_assoc in HS; exact HS|simpl in *; lia].
      destruct H as [w (W1 & W2 & W3 & W4)]. exists (e1 :: w). conjs; auto.
      * intros e [<-|He]; [left; now left|]. destruct (W2 e He) as [|]; [left; now right|right; auto].
      * intros e [<-|He]; [now left|right; auto].
      * intros e He. destruct (W4 e He) as [e' [E1 E2]]. exists e'; split; auto; now right.
    + apply (G e2 (e1 :: l1) l2) in H; [| |simpl in *; lia].
      * destruct H as [w (W1 & W2 & W3 & W4)]. exists (e2 :: w). conjs; auto.
        -- intros e [<-|He]; [right; now left|]. destruct (W2 e He) as [|]; [left; auto|right; now right].
        -- intros e He. right; auto.
        -- intros e [<-|He]; [exists e2; split; auto; now left|]. destruct (W4 e He) as [e' [E1 E2]]. exists e'; split; auto; now right.
      * unfold Space in *. simpl in *. rewrite !app_length in *. lia.
    + assert (Ek : je_key e1 = je_key e2) by (apply str_cmp_eq; lia).
      destruct (_ || _); [discriminate|].
      apply (G e1 l1 l2) in H; [| |simpl in *; lia].
      * destruct H as [w (W1 & W2 & W3 & W4)]. exists (e1 :: w). conjs; auto.
        -- intros e [<-|He]; [left; now left|]. destruct (W2 e He) as [|]; [left; now right|right; now right].
        -- intros e [<-|He]; [now left|right; auto].
        -- intros e [<-|He]; [exists e1; split; auto; now left|]. destruct (W4 e He) as [e' [E1 E2]]. exists e'; split; auto; now right.
      * unfold Space in *. simpl in *. rewrite !app_length in *. lia.
Qed.

Definition srt (l : list jentry) : Prop := StronglySorted slt (map je_key l).

Lemma last_lt u e : (forall x, In x u -> slt (je_key x) (je_key e)) -> match rev u with [] => true | x :: _ => str_cmp (je_key x) (je_key e) <? 0 end = true.
Proof.
  intros H. destruct (rev u) as [|x l] eqn:E; auto. assert (In x u) by (apply in_rev; rewrite E; now left). specialize (H x H0). unfold slt in H. lia.
Qed.

Lemma srt_inv e l : srt (e :: l) -> srt l /\ forall x, In x l -> slt (je_key e) (je_key x).
Proof.
  unfold srt; simpl. intros H. apply StronglySorted_inv in H. destruct H as [H1 H2]. split; auto. rewrite Forall_forall in H2. intros x Hx. apply H2. now apply in_map.
Qed.

Lemma merge_total : forall n d u l1 l2, JRep d u u -> Space d u (length l1 + length l2) (length (enc_data l1) + length (enc_data l2)) ->
  (length l1 + length l2 < n)%nat -> srt l1 -> srt l2 -> (forall x y, In x u -> In y l1 \/ In y l2 -> slt (je_key x) (je_key y)) ->
  (forall e1 e2, In e1 l1 -> In e2 l2 -> je_key e1 = je_key e2 -> je_val e1 = je_val e2) ->
  srt u -> exists d' w, merge_loop n d l1 l2 = Ok d' /\ JRep d' (u ++ w) (u ++ w) /\ srt (u ++ w).
Proof.
  induction n; intros d u l1 l2 HR HS Hn S1 S2 HU HC Su; [lia|]. cbn [merge_loop].
  assert (G : forall e l1' l2', Space d u (S (length l1' + length l2')) (length (enc1 e) + (length (enc_data l1') + length (enc_data l2'))) -> (length l1' + length l2' < n)%nat ->
     srt l1' -> srt l2' -> (forall x, In x u -> slt (je_key x) (je_key e)) -> (forall y, In y l1' \/ In y l2' -> slt (je_key e) (je_key y)) ->
     (forall e1 e2, In e1 l1' -> In e2 l2' -> je_key e1 = je_key e2 -> je_val e1 = je_val e2) ->
     exists d' w, (do d0 <- changes_add d (je_key e) (je_val e) false true; merge_loop n d0 l1' l2') = Ok d' /\ JRep d' (u ++ w) (u ++ w) /\ srt (u ++ w)).
  { intros e l1' l2' HS' Hn' S1' S2' H1 H2 H3. destruct (add_sorted d u e _ _ HR HS') as [d1 [A1 [A2 A3]]]. rewrite A1, (last_lt u e H1). cbn [cassert obind].
    destruct (IHn d1 (u ++ [e]) l1' l2' A2 A3 Hn' S1' S2') as [d' [w [W1 [W2 W3]]]]; auto.
    - intros x y Hx Hy. apply in_app_or in Hx. destruct Hx as [Hx|[<-|[]]]; [|auto]. eapply str_cmp_trans; [apply H1; eauto|apply H2; auto].
    - unfold srt. rewrite map_app. clear - Su H1. unfold srt in Su. induction u; simpl in *; [repeat constructor|].
      apply StronglySorted_inv in Su. destruct Su as [Su F]. constructor; [apply IHu; auto|]. apply Forall_app. split; [exact F|]. constructor; [|constructor]. apply H1. left; reflexivity.
    - exists d', (e :: w). rewrite <- app_assoc in W2, W3. auto. }
  destruct l1 as [|e1 l1], l2 as [|e2 l2].
  - exists d, []. rewrite app_nil_r. auto.
  - apply srt_inv in S2. destruct S2 as [S2 F2]. apply (G e2 [] l2); auto.
    + simpl in *; rewrite app_length in HS; exact HS.
    + simpl in *; lia.
    + intros x Hx. apply HU; auto. right; now left.
    + intros y [[]|Hy]. auto.
    + intros a b [].
  - apply srt_inv in S1. destruct S1 as [S1 F1]. apply (G e1 l1 []); auto.
    + unfold Space in *. simpl in *. rewrite app_length in HS. lia.
    + simpl in *; lia.
    + intros x Hx. apply HU; auto. left; now left.
    + intros y [Hy|[]]. auto.
    + intros a b _ [].
  - destruct (srt_inv _ _ S1) as [S1' F1]. destruct (srt_inv _ _ S2) as [S2' F2].
    destruct (str_cmp (je_key e1) (je_key e2) <? 0) eqn:C1; [|destruct (str_cmp (je_key e1) (je_key e2) >? 0) eqn:C2].
    + apply (G e1 l1 (e2 :: l2)); auto.
      * unfold Space in *. simpl in *. rewrite !app_length in *. lia.
      * simpl in *; lia.
      * intros x Hx. apply HU; auto. left; now left.
      * assert (slt (je_key e1) (je_key e2)) by (unfold slt; lia).
        intros y [Hy|[<-|Hy]]; auto. eapply str_cmp_trans; [apply H|apply F2; auto].
      * intros a b Ha Hb. apply HC; [now right|auto].
    + assert (X : slt (je_key e2) (je_key e1)) by (unfold slt; rewrite str_cmp_anti; lia).
      apply (G e2 (e1 :: l1) l2); auto.
      * unfold Space in *. simpl in *. rewrite !app_length in *. lia.
      * simpl in *; lia.
      * intros x Hx. apply HU; auto. right; now left.
      * intros y [[<-|Hy]|Hy]; auto. eapply str_cmp_trans; [apply X|apply F1; auto].
      * intros a b Ha Hb. apply HC; [auto|now right].
    + assert (Ek : je_key e1 = je_key e2) by (apply str_cmp_eq; lia).
      assert (Ev : je_val e1 = je_val e2) by (apply HC; auto; now left). rewrite <- Ev, Z.eqb_refl, strncmp_refl. cbn [negb orb].
      apply (G e1 l1 l2); auto.
      * unfold Space in *. simpl in *. rewrite !app_length in *. lia.
      * simpl in *; lia.
      * intros x Hx. apply HU; auto. left; now left.
      * intros y [Hy|Hy]; auto. rewrite Ek. auto.
      * intros a b Ha Hb. apply HC; now right.
Qed.

Lemma enc_data_perm l l' : Permutation l l' -> length (enc_data l) = length (enc_data l').
Proof. intros P. apply Permutation_length. unfold enc_data. now apply Permutation_flat_map. Qed.

(* preparing a merge *)
Lemma merge_prep dst src1 src2 U1 U2 e1 e2 : JSize dst -> JRep src1 U1 e1 -> JRep src2 U2 e2 -> U2 <> [] -> Permutation U1 e1 -> Permutation U2 e2 ->
  exists d, changes_merge dst src1 src2 = merge_loop (S (length e1 + length e2)) d e1 e2 /\ JRep d [] [] /\
    Space d [] (length e1 + length e2) (length (enc_data e1) + length (enc_data e2)).
Proof.
  intros HS (_ & D1 & O1 & N1 & _) (_ & D2 & O2 & N2 & _) Hne P1 P2. unfold changes_merge.
  destruct (set_size0 dst HS) as [d1 [E1 [E2 [E3 _]]]]. rewrite E1. cbn [obind].
  destruct (ensure_ok d1 (offused src1 + offused src2) (dataused src1 + dataused src2) E2) as [d2 (F1 & F2 & F3 & F4 & F5 & F6 & F7 & F8 & F9 & F10)]; [apply E3|].
  rewrite F1. cbn [obind]. rewrite N1, N2. exists d2. split; [reflexivity|].
  destruct E3 as (_ & D3 & O3 & _ & B3 & B4). unfold offused, dataused in *. rewrite D3, O3 in *. simpl in B3, B4.
  split. { unfold JRep, offused, dataused. rewrite F3, F4. conjs; auto; simpl; lia. }
  rewrite D1, D2, O1, O2 in *. rewrite <- (Permutation_length P1), <- (Permutation_length P2), <- (enc_data_perm _ _ P1), <- (enc_data_perm _ _ P2).
  rewrite !offs_length in *. destruct U2 as [|a U2]; [congruence|].
  assert (2 * Z.of_nat (length U1 + length (a :: U2)) + 1 <= match U1 with [] => 0 | _ => 2 * Z.of_nat (length U1) + 1 end + (2 * Z.of_nat (length (a :: U2)) + 1)) by (destruct U1; simpl length; lia).
  set (nn := match U1 with [] => 0 | _ => 2 * Z.of_nat (length U1) + 1 end + (2 * Z.of_nat (length (a :: U2)) + 1)) in *.
  assert (Z.of_nat (length U1 + length (a :: U2)) <= nn / 2) by (apply Z.div_le_lower_bound; lia).
  unfold Space. simpl enc_data at 1. cbn [length Nat.add] in *. lia.
Qed.

(* journal of a store as sent *)
Definition Sent (p : store) (J : list jentry) : Prop := JRep (ks_changes p) J [] /\ Forall (fun e => KeyOk (je_key e)) J.

Definition GInv (Js : list (list jentry)) (st : journal * journal * journal * bool) : Prop :=
  let '(dst, src, recvd, _) := st in
  exists U ents, JRep dst U ents /\ Permutation U ents /\ JSize src /\ JSize recvd /\
    Forall (fun e => KeyOk (je_key e)) U /\ Forall (fun e => je_val e <> []) U /\
    (forall e, In e U -> exists J, In J Js /\ In e J) /\
    (forall J e, In J Js -> In e J -> exists e', In e' U /\ je_key e' = je_key e) /\
    (forall J e, In J Js -> In e J -> je_val e <> []).

Lemma dirty_dec J : Dirty J \/ Forall (fun e => je_val e <> []) J.
Proof.
  induction J; [right; constructor|]. destruct (je_val a) eqn:E; [left; now left|]. destruct IHJ as [H|H]; [left; now right|].
  right. constructor; auto. congruence.
Qed.

Lemma send_ok p J : Sent p J -> send_asserts (ks_changes p) = Ok tt.
Proof.
  intros [(_ & D & O & _) _]. unfold send_asserts, offused, dataused. rewrite D, O, offs_length. destruct J as [|a J]; [reflexivity|].
  rewrite Z.add_comm, Z.odd_add_mul_2. change (Z.odd 1) with true. rewrite orb_true_r. cbn [cassert].
  destruct (0 <? 1 + 2 * Z.of_nat (length (a :: J))) eqn:E; [|lia].
  assert (E1 : (0 <? Z.of_nat (length (enc_data (a :: J)))) = true) by (simpl; rewrite app_length; assert (HL := enc1_length a); lia). now rewrite E1.
Qed.

(* common part of one step of the master *)
Lemma gather_common q st p J Js : is_qsort entrycmp q -> GInv Js st -> Sent p J ->
  let '(dst, src, recvd, own) := st in
  exists r, JSize r /\
  ((J = [] /\ mpi_gather q st p = Ok (dst, src, r, own)) \/
   (Dirty J /\ mpi_gather q st p = Abort) \/
   (J <> [] /\ Forall (fun e => je_val e <> []) J /\ JRep r J (q J) /\
    mpi_gather q st p = (do d <- changes_merge src dst r; Ok (d, dst, r, negb own)))).
Proof.
  destruct st as [[[dst src] recvd] own]. intros Q (U & ents & _ & _ & S1 & S2 & _) HSt. assert (HSe := HSt). destruct HSe as [HR HK]. unfold mpi_gather.
  rewrite (send_ok p J HSt). cbn [obind]. destruct (set_size0 recvd S2) as [r1 [E1 [E2 [E3 _]]]]. rewrite E1. cbn [obind].
  destruct (ensure_ok r1 (offused (ks_changes p)) (dataused (ks_changes p)) E2) as [r2 (F1 & F2 & F3 & F4 & F5 & F6 & F7 & F8 & F9 & F10)]; [apply E3|].
  rewrite F1. cbn [obind]. destruct HR as (_ & D & O & _). unfold offused, dataused in *. rewrite D, O in *. rewrite offs_length in *. destruct J as [|a J].
  - exists r2. split; auto.
  - destruct (_ =? 0) eqn:Z0; [lia|].
    assert (Z1 : (0 <? Z.of_nat (length (enc_data (a :: J)))) = true) by (simpl; rewrite app_length; assert (HL := enc1_length a); lia). rewrite Z1. cbn [cassert].
    destruct (set_size_rep r2 (a :: J) F2 ltac:(rewrite offs_length; lia) ltac:(lia)) as [r3 [G1 G2]]. rewrite G1. cbn [obind].
    destruct (dirty_dec (a :: J)) as [HD|HD].
    + exists r2. split; auto. right; left. split; auto. rewrite (sort_empty q r3 (a :: J)); auto.
    + destruct (sort_ok q r3 (a :: J) G2 Q HK HD) as [r4 [H1 [H2 _]]]. rewrite H1. cbn [obind]. exists r4. split; [apply H2|].
      right; right. conjs; auto. discriminate.
Qed.

Lemma gather_step q st p J Js st' : is_qsort entrycmp q -> GInv Js st -> Sent p J -> mpi_gather q st p = Ok st' -> GInv (Js ++ [J]) st'.
Proof.
  intros Q HG HSt H. assert (C := gather_common q st p J Js Q HG HSt). destruct st as [[[dst src] recvd] own]. destruct C as [r [Hr C]].
  destruct HG as (U & ents & G1 & G2 & G3 & G4 & G5 & G6 & G7 & G8 & G9).
  destruct C as [[-> C]|[[_ C]|[HJ [HV [HR C]]]]]; rewrite C in H.
  - injection H as <-. exists U, ents. conjs; auto.
    + intros e He. destruct (G7 e He) as [J [J1 J2]]. exists J. split; auto. apply in_or_app; auto.
    + intros J e HJ He. apply in_app_or in HJ. destruct HJ as [HJ|[<-|[]]]; [eauto|destruct He].
    + intros J e HJ He. apply in_app_or in HJ. destruct HJ as [HJ|[<-|[]]]; [eauto|destruct He].
  - discriminate.
  - apply obind_ok in H. destruct H as [d [H1 H2]]. injection H2 as <-.
    destruct (Q J) as [Q1 _].
    destruct (merge_prep src dst r U J ents (q J) G3 G1 HR HJ G2 Q1) as [d0 [M1 [M2 M3]]]. rewrite M1 in H1.
    destruct (merge_props _ d0 [] ents (q J) d M2 M3 (Nat.lt_succ_diag_r _) H1) as [w (W1 & W2 & W3 & W4)]. simpl app in W1.
    assert (P1 : forall e, In e ents -> In e U) by (intros e; apply Permutation_in; now apply Permutation_sym).
    assert (P2 : forall e, In e (q J) -> In e J) by (intros e; apply Permutation_in; now apply Permutation_sym).
    destruct HSt as [_ HK]. rewrite Forall_forall in *.
    exists w, w. conjs; auto.
    + apply G1.
    + rewrite Forall_forall. intros e He. destruct (W2 e He); auto.
    + rewrite Forall_forall. intros e He. destruct (W2 e He); auto.
    + intros e He. destruct (W2 e He) as [He'|He'].
      * destruct (G7 e (P1 e He')) as [J0 [J1 J2]]. exists J0. split; auto. apply in_or_app; auto.
      * exists J. split; auto. apply in_or_app. right; now left.
    + intros J0 e HJ0 He. apply in_app_or in HJ0. destruct HJ0 as [HJ0|[<-|[]]].
      * destruct (G8 J0 e HJ0 He) as [e' [E1 E2]]. exists e'. split; auto. apply W3. eapply Permutation_in; eauto.
      * apply W4. eapply Permutation_in; eauto.
    + intros J0 e HJ0 He. apply in_app_or in HJ0. destruct HJ0 as [HJ0|[<-|[]]]; eauto.
Qed.

Lemma gather_all q : is_qsort entrycmp q -> forall ps Js st Js0 st', GInv Js0 st -> Forall2 Sent ps Js -> ofold (mpi_gather q) ps st = Ok st' -> GInv (Js0 ++ Js) st'.
Proof.
  intros Q ps Js st Js0 st' HG HF. revert st Js0 HG. induction HF as [|p J ps Js H HF IH]; intros st Js0 HG HE; cbn [ofold] in HE.
  - injection HE as <-. now rewrite app_nil_r.
  - apply obind_ok in HE. destruct HE as [st1 [E1 E2]]. replace (Js0 ++ J :: Js) with ((Js0 ++ [J]) ++ Js) by (rewrite <- app_assoc; reflexivity).
    apply IH with (st := st1); auto. eapply gather_step; eauto.
Qed.

(* applying the merged journal *)
Definition Applied (J U : list jentry) (B : kmap) (l : list kentry) : Prop :=
  forall k, look l k = match lastj J k with
    | Some v => Some (Some v, true)
    | None => match lastj U k with Some v => Some (Some v, false) | None => Bused B k end end.

Lemma apply_props V J : PrefixFree V -> (forall k v, lastj J k = Some v -> V v) -> forall U B s,
  Forall (fun e => V (je_val e)) U -> (forall k v, B k = Some v -> V v) -> KI s -> ks_insync s = true ->
  (forall k, look (ks_ent s) k = match lastj J k with Some v => Some (Some v, true) | None => Bused B k end) ->
  (forall s', ofold (fun s e => kvs_set s (je_key e) (je_val e)) U s = Ok s' ->
     KI s' /\ ks_changes s' = ks_changes s /\ Applied J U B (ks_ent s') /\
     forall e v, In e U -> lastj J (je_key e) = Some v -> je_val e = v) /\
  ((forall e v, In e U -> lastj J (je_key e) = Some v -> je_val e = v) -> exists s', ofold (fun s e => kvs_set s (je_key e) (je_val e)) U s = Ok s').
Proof.
  intros PF HVJ. induction U as [|e U IH]; intros B s HU HB HK Hi HL.
  - split; [|intros _; exists s; reflexivity]. intros s' H. injection H as <-. split; [auto|]. split; [auto|]. split; [|intros e v []]. intros k. rewrite HL. reflexivity.
  - inversion HU; subst. cbn [ofold].
    assert (Hs : forall k w, seen (ks_ent s) k = Some w -> V w).
    { intros k w. unfold seen. rewrite HL. destruct (lastj J k) eqn:E; [intros X; injection X as <-; eauto|].
      unfold Bused. destruct (B k) eqn:E2; [intros X; injection X as <-; eauto|discriminate]. }
    assert (Snk : seen (ks_ent s) (je_key e) = match lastj J (je_key e) with Some v => Some v | None => B (je_key e) end).
    { unfold seen. rewrite HL. destruct (lastj J (je_key e)); auto. unfold Bused. destruct (B (je_key e)); auto. }
    destruct (kvs_set_sync V s (je_key e) (je_val e) PF HK Hi Hs H1) as [[E1 E2]|[[N [[x E1] E2]]|[N [E1 [s1 (E2 & E3 & E4 & E5 & E6)]]]]].
    + rewrite E2. cbn [obind]. rewrite Snk in E1. destruct (lastj J (je_key e)) as [v|] eqn:EJ.
      * destruct (IH B s H2 HB HK Hi HL) as [IH1 IH2]. split.
        -- intros s' Hs'. destruct (IH1 s' Hs') as (A1 & A2 & A3 & A4). conjs; auto.
           ++ intros k. rewrite A3. simpl. destruct (lastj J k) eqn:Ek; auto. destruct (lastj U k) eqn:Eu; auto.
              destruct (keq k (je_key e)) as [->|]; auto. congruence.
           ++ intros e' v' [<-|He'] Hv'; [congruence|eauto].
        -- intros C. apply IH2. intros e' v' He'. apply C. now right.
      * destruct (IH B s H2 HB HK Hi HL) as [IH1 IH2]. split.
        -- intros s' Hs'. destruct (IH1 s' Hs') as (A1 & A2 & A3 & A4). conjs; auto.
           ++ intros k. rewrite A3. simpl. destruct (lastj J k) eqn:Ek; auto. destruct (lastj U k) eqn:Eu; auto.
              destruct (keq k (je_key e)) as [->|]; auto. unfold Bused. rewrite E1. auto.
           ++ intros e' v' [<-|He'] Hv'; [congruence|eauto].
        -- intros C. apply IH2. intros e' v' He'. apply C. now right.
    + rewrite E2. cbn [obind]. split; [discriminate|]. intros C. exfalso. rewrite HL in E1. rewrite Snk in N. destruct (lastj J (je_key e)) as [v|] eqn:EJ.
      * apply N. rewrite (C e v); auto. now left.
      * unfold Bused in E1. destruct (B (je_key e)); discriminate.
    + rewrite E2. cbn [obind]. destruct (lastj J (je_key e)) as [v|] eqn:EJ.
      { exfalso. apply (E1 (Some v)). rewrite HL, EJ. reflexivity. }
      destruct (IH (mput B (je_key e) (Some (je_val e))) s1 H2) as [IH1 IH2]; auto.
      * intros k v. unfold mput. fold keq. destruct (keq k (je_key e)); [intros X; injection X as <-; auto|apply HB].
      * intros k. rewrite E6. unfold upd_look, Bused, mput. fold keq. destruct (keq k (je_key e)) as [->|]; [rewrite EJ; auto|]. rewrite HL. reflexivity.
      * split.
        -- intros s' Hs'. destruct (IH1 s' Hs') as (A1 & A2 & A3 & A4). conjs; auto; [congruence| |].
           ++ intros k. rewrite A3. simpl. destruct (lastj J k) eqn:Ek; auto. destruct (lastj U k) eqn:Eu; auto.
              unfold Bused, mput. fold keq. destruct (keq k (je_key e)) as [->|]; auto.
           ++ intros e' v' [<-|He'] Hv'; [congruence|eauto].
        -- intros C. apply IH2. intros e' v' He'. apply C. now right.
Qed.
