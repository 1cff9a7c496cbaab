(* The change journal: encoding, adding, sorting *)
From Coq Require Import ZArith List Bool Lia ZifyBool ZifyNat Sorted Permutation.
From Verif Require Import Base Model_RangeList Model_KVS Spec_RangeList Spec_KVS Proof_RangeList5 Proof_KVS.
Import ListNotations.
Open Scope Z_scope.

Definition enc1 (e : jentry) : list Z := je_key e ++ [0] ++ je_val e.
Definition enc_data (l : list jentry) : list Z := flat_map enc1 l.
Fixpoint enc_off (b : Z) (l : list jentry) : list Z :=
  match l with
  | [] => []
  | e :: t => (b + Z.of_nat (length (je_key e)) + 1) :: (b + Z.of_nat (length (enc1 e))) :: enc_off (b + Z.of_nat (length (enc1 e))) t
  end.
Definition offs (l : list jentry) : list Z := match l with [] => [] | _ => 0 :: enc_off 0 l end.

Lemma enc1_length e : Z.of_nat (length (enc1 e)) = Z.of_nat (length (je_key e)) + 1 + Z.of_nat (length (je_val e)).
Proof. unfold enc1. rewrite !app_length. simpl. lia. Qed.

Lemma enc_data_app l1 l2 : enc_data (l1 ++ l2) = enc_data l1 ++ enc_data l2.
Proof. apply flat_map_app. Qed.

Lemma enc_off_app b l1 l2 : enc_off b (l1 ++ l2) = enc_off b l1 ++ enc_off (b + Z.of_nat (length (enc_data l1))) l2.
Proof.
  revert b; induction l1; intros b; simpl; [f_equal; lia|]. f_equal. f_equal. rewrite IHl1. f_equal. f_equal. simpl. rewrite app_length. lia.
Qed.

Lemma enc_off_length b l : length (enc_off b l) = (2 * length l)%nat.
Proof. revert b; induction l; intros; simpl; auto. rewrite IHl. lia. Qed.

Lemma enc_off_last b l : nth_error (b :: enc_off b l) (2 * length l) = Some (b + Z.of_nat (length (enc_data l))).
Proof.
  revert b; induction l; intros b; simpl length; [simpl; f_equal; lia|].
  replace (2 * S (length l))%nat with (S (S (2 * length l))) by lia.
  change (enc_off b (a :: l)) with ((b + Z.of_nat (length (je_key a)) + 1) :: (b + Z.of_nat (length (enc1 a))) :: enc_off (b + Z.of_nat (length (enc1 a))) l).
  change (nth_error (b + Z.of_nat (length (enc1 a)) :: enc_off (b + Z.of_nat (length (enc1 a))) l) (2 * length l) = Some (b + Z.of_nat (length (enc_data (a :: l))))).
  rewrite IHl. f_equal. simpl. rewrite app_length. lia.
Qed.

Definition JSize (c : journal) : Prop := 0 <= j_offsize c /\ 0 <= j_datasize c /\ j_offsize c / 2 <= j_entsize c.

Definition JRep (c : journal) (l ents : list jentry) : Prop :=
  JSize c /\ j_data c = enc_data l /\ j_off c = offs l /\ j_ent c = ents /\ offused c <= j_offsize c /\ dataused c <= j_datasize c.

Lemma offs_length l : Z.of_nat (length (offs l)) = match l with [] => 0 | _ => 2 * Z.of_nat (length l) + 1 end.
Proof. destruct l; simpl; auto. rewrite enc_off_length. lia. Qed.

Lemma JSize_init : JSize changes_init.
Proof. unfold JSize, changes_init; simpl. change (0 / 2) with 0. lia. Qed.

Lemma ensure_ok c n d : JSize c -> j_ent c = [] -> exists c', ensure_size c n d = Ok c' /\ JSize c' /\
  j_off c' = j_off c /\ j_data c' = j_data c /\ j_ent c' = [] /\ n <= j_offsize c' /\ d <= j_datasize c' /\ n / 2 <= j_entsize c' /\
  j_offsize c <= j_offsize c' /\ j_datasize c <= j_datasize c'.
Proof.
  intros (H1 & H2 & H3) He. unfold ensure_size, entused. rewrite He. simpl. eexists. split; [reflexivity|]. unfold JSize; simpl.
  destruct (j_offsize c <? n) eqn:E1, (j_datasize c <? d) eqn:E2, (j_entsize c <? n / 2) eqn:E3; conjs; auto; try lia;
    assert (j_offsize c / 2 <= n / 2 \/ n / 2 <= j_offsize c / 2) by lia; try lia;
    assert (n / 2 <= j_offsize c / 2) by (apply Z.div_le_mono; lia); lia.
Qed.

Lemma set_size0 c : JSize c -> exists c', set_size c [] [] = Ok c' /\ JSize c' /\ JRep c' [] [] /\
  j_offsize c' = j_offsize c /\ j_datasize c' = j_datasize c.
Proof.
  intros HJ. assert (H := HJ). destruct H as (H1 & H2 & H3).
  assert (0 <= j_offsize c / 2) by (apply Z.div_pos; lia).
  unfold set_size; simpl. change (Z.of_nat 0) with 0. change (0 / 2) with 0.
  assert (E1 : (0 <=? j_offsize c) = true) by lia. assert (E2 : (0 <=? j_datasize c) = true) by lia. assert (E3 : (0 <=? j_entsize c) = true) by lia.
  rewrite E1, E2, E3. simpl. eexists. split; [reflexivity|]. unfold JRep, JSize, offused, dataused; simpl. conjs; auto.
Qed.

(* taking over a journal sent by another process *)
Lemma set_size_rep c l : JSize c -> Z.of_nat (length (offs l)) <= j_offsize c -> Z.of_nat (length (enc_data l)) <= j_datasize c ->
  exists c', set_size c (offs l) (enc_data l) = Ok c' /\ JRep c' l [].
Proof.
  intros HJ Ho Hd. assert (H := HJ). destruct H as (H1 & H2 & H3). unfold set_size.
  assert (E0 : (Z.of_nat (length (offs l)) =? 0) || Z.odd (Z.of_nat (length (offs l))) = true).
  { rewrite offs_length. destruct l; reflexivity. }
  rewrite E0. assert (E1 : (Z.of_nat (length (offs l)) <=? j_offsize c) = true) by lia. rewrite E1.
  assert (E2 : (Z.of_nat (length (enc_data l)) <=? j_datasize c) = true) by lia. rewrite E2.
  assert (E3 : (Z.of_nat (length (offs l)) / 2 <=? j_entsize c) = true).
  { assert (Z.of_nat (length (offs l)) / 2 <= j_offsize c / 2) by (apply Z.div_le_mono; lia). lia. }
  rewrite E3. simpl. eexists. split; [reflexivity|]. unfold JRep, JSize, offused, dataused; simpl. conjs; auto.
Qed.

(* core of laik_kvs_changes_add once there is enough space *)
Lemma offs_snoc l e : offs (l ++ [e]) = (match l with [] => [0] | _ => offs l end) ++
  [Z.of_nat (length (enc_data l)) + Z.of_nat (length (je_key e)) + 1; Z.of_nat (length (enc_data l)) + Z.of_nat (length (enc1 e))].
Proof.
  destruct l as [|a l]; [reflexivity|]. unfold offs. change ((a :: l) ++ [e]) with (a :: (l ++ [e])) at 1.
  change (a :: l ++ [e]) with ((a :: l) ++ [e]). rewrite enc_off_app. simpl. rewrite Z.add_0_l. reflexivity.
Qed.

Definition base (l : list jentry) : list Z := match l with [] => [0] | _ => offs l end.
Lemma base_marker l : aread (base l) (Z.of_nat (length (base l)) - 1) = Ok (Z.of_nat (length (enc_data l))).
Proof.
  assert (E : base l = 0 :: enc_off 0 l) by (destruct l; reflexivity). rewrite E. unfold aread.
  simpl length. rewrite enc_off_length. destruct (_ <? 0) eqn:H; [lia|].
  replace (Z.to_nat (Z.of_nat (S (2 * length l)) - 1)) with (2 * length l)%nat by lia. rewrite enc_off_last. f_equal. 
Qed.
Lemma base_length l : Z.of_nat (length (base l)) = 2 * Z.of_nat (length l) + 1.
Proof. destruct l; [reflexivity|]. unfold base. rewrite offs_length. reflexivity. Qed.

Lemma add_core l ents c key v (srt : bool) : JRep c l ents ->
  2 * Z.of_nat (length l) + 3 <= j_offsize c -> Z.of_nat (length (enc_data l)) + Z.of_nat (length key) + 1 + Z.of_nat (length v) <= j_datasize c ->
  changes_add c key v false srt =
    let l' := l ++ [mkJe key v] in
    if negb srt then Ok (mkJ (j_offsize c) (offs l') (j_datasize c) (enc_data l') (j_entsize c) ents) else
    cassert (match rev ents with [] => true | e :: _ => str_cmp (je_key e) key <? 0 end) (
    cassert (Z.of_nat (length ents) <? j_entsize c) (
    Ok (mkJ (j_offsize c) (offs l') (j_datasize c) (enc_data l') (j_entsize c) (ents ++ [mkJe key v])))).
Proof.
  intros (HS & Hd & Ho & He & _ & _) H1 H2. unfold changes_add. cbn [obind]. unfold offused, dataused, entused. rewrite Hd, Ho, He.
  assert (Eb : (if Z.of_nat (length (offs l)) =? 0 then if j_offsize c <? 1 then UB else Ok [0] else Ok (offs l)) = Ok (base l)).
  { destruct l as [|a l].
    - simpl. destruct (j_offsize c <? 1) eqn:E; auto. simpl in H1. lia.
    - rewrite offs_length. destruct (_ =? 0) eqn:E; auto. lia. }
  rewrite Eb. cbn [obind]. rewrite base_length.
  assert (E1 : (2 * Z.of_nat (length l) + 1 + 2 <=? j_offsize c) = true) by lia. rewrite E1. cbn [cassert].
  assert (E2 : (Z.of_nat (length (enc_data l)) + (Z.of_nat (length key) + 1) + Z.of_nat (length v) <=? j_datasize c) = true) by lia. rewrite E2. cbn [cassert].
  rewrite <- base_length, base_marker. cbn [obind]. rewrite Z.eqb_refl. cbn [cassert]. cbv zeta.
  assert (D : (enc_data l ++ key ++ [0]) ++ v = enc_data (l ++ [mkJe key v])).
  { rewrite enc_data_app. simpl. unfold enc1. simpl. rewrite app_nil_r, <- !app_assoc. reflexivity. }
  rewrite D.
  assert (O : base l ++ [Z.of_nat (length (enc_data l ++ key ++ [0])); Z.of_nat (length (enc_data (l ++ [mkJe key v])))] = offs (l ++ [mkJe key v])).
  { rewrite offs_snoc. fold (base l). f_equal. rewrite enc_data_app, !app_length. simpl. rewrite app_nil_r. f_equal; [lia|]. f_equal. lia. }
  rewrite O. reflexivity.
Qed.

Lemma JRep_snoc c l ents e ents' : JRep c l ents -> 2 * Z.of_nat (length l) + 3 <= j_offsize c ->
  Z.of_nat (length (enc_data l)) + Z.of_nat (length (enc1 e)) <= j_datasize c ->
  JRep (mkJ (j_offsize c) (offs (l ++ [e])) (j_datasize c) (enc_data (l ++ [e])) (j_entsize c) ents') (l ++ [e]) ents'.
Proof.
  intros ((S1 & S2 & S3) & _) H1 H2. unfold JRep, JSize, offused, dataused; simpl. conjs; auto.
  - rewrite offs_length, app_length. destruct (l ++ [e]) eqn:E; [destruct l; discriminate|]. simpl. lia.
  - rewrite enc_data_app, app_length. simpl. rewrite app_nil_r. lia.
Qed.

Lemma add_alloc c l key v : JRep c l [] -> exists c', changes_add c key v true false = Ok c' /\ JRep c' (l ++ [mkJe key v]) [].
Proof.
  intros HR. assert (H := HR). destruct H as (HS & Hd & Ho & He & Hb1 & Hb2).
  set (offNeeded := if offused c =? 0 then 3 else offused c + 2).
  set (dataNeeded := dataused c + (Z.of_nat (length key) + 1) + Z.of_nat (length v)).
  assert (On : offNeeded = 2 * Z.of_nat (length l) + 3).
  { unfold offNeeded, offused. rewrite Ho, offs_length. destruct l; [reflexivity|]. clear. generalize (length (j :: l)); intros n; destruct (_ =? 0) eqn:E; lia. }
  assert (Dn : dataNeeded = Z.of_nat (length (enc_data l)) + Z.of_nat (length key) + 1 + Z.of_nat (length v)).
  { unfold dataNeeded, dataused. rewrite Hd. lia. }
  assert (G : exists c1, (if (j_offsize c <? offNeeded) || (j_datasize c <? dataNeeded) then ensure_size c (2 * offNeeded) (2 * dataNeeded) else Ok c) = Ok c1 /\
     JRep c1 l [] /\ offNeeded <= j_offsize c1 /\ dataNeeded <= j_datasize c1).
  { destruct ((j_offsize c <? offNeeded) || (j_datasize c <? dataNeeded)) eqn:E.
    - destruct (ensure_ok c (2 * offNeeded) (2 * dataNeeded) HS He) as [c1 (E1 & E2 & E3 & E4 & E5 & E6 & E7 & E8 & E9 & E10)].
      exists c1. split; auto. split; [|lia]. unfold JRep, offused, dataused in *. rewrite E3, E4, E5. conjs; auto; lia.
    - exists c. split; auto. split; [exact HR|]. lia. }
  destruct G as [c1 [G1 [G2 [G3 G4]]]].
  assert (E := add_core l [] c1 key v false G2 ltac:(lia) ltac:(lia)). unfold changes_add in *.
  fold offNeeded dataNeeded. rewrite G1. cbn [obind] in *. rewrite E. simpl. eexists. split; [reflexivity|].
  apply (JRep_snoc c1 l []); auto; [lia|]. rewrite enc1_length. simpl. lia.
Qed.

Lemma skipn_app_exact {A} (l1 l2 : list A) n : n = length l1 -> skipn n (l1 ++ l2) = l2.
Proof. intros ->. induction l1; simpl; auto. Qed.

Lemma cstr_app k r : KeyOk k -> cstr (k ++ 0 :: r) = k.
Proof.
  unfold KeyOk. induction k; simpl; intros H; auto. destruct (a =? 0) eqn:E; [exfalso; apply H; left; lia|]. f_equal. tauto.
Qed.

Lemma slice_val pre k v post : slice (pre ++ (k ++ [0] ++ v) ++ post) (Z.of_nat (length pre) + Z.of_nat (length k) + 1)
   (Z.of_nat (length pre) + Z.of_nat (length (k ++ [0] ++ v))) = v.
Proof.
  unfold slice. rewrite !app_length. simpl length.
  replace (Z.to_nat (_ - _)) with (length v) by lia.
  replace (pre ++ (k ++ [0] ++ v) ++ post) with ((pre ++ k ++ [0]) ++ v ++ post) by (rewrite <- !app_assoc; reflexivity).
  rewrite skipn_app_exact by (rewrite !app_length; simpl; lia).
  rewrite firstn_app, Nat.sub_diag, firstn_all. simpl. apply app_nil_r.
Qed.

Lemma aread_zero pre k v post : aread (pre ++ (k ++ [0] ++ v) ++ post) (Z.of_nat (length pre) + Z.of_nat (length k) + 1 - 1) = Ok 0.
Proof.
  unfold aread. destruct (_ <? 0) eqn:E; [lia|].
  replace (pre ++ (k ++ [0] ++ v) ++ post) with ((pre ++ k) ++ 0 :: v ++ post) by (rewrite <- !app_assoc; reflexivity).
  rewrite nth_error_app2 by (rewrite app_length; lia). rewrite app_length. replace (_ - _)%nat with 0%nat by lia. reflexivity.
Qed.

(* one step of fill_loop and apply_loop at the encoding of e *)
Lemma fill_ok l : forall pre es acc, Forall (fun e => KeyOk (je_key e)) l -> Forall (fun e => je_val e <> []) l ->
  Z.of_nat (length acc + length l) <= es ->
  fill_loop (Z.of_nat (length pre) :: enc_off (Z.of_nat (length pre)) l) (pre ++ enc_data l) es acc = Ok (acc ++ l).
Proof.
  induction l as [|e l IH]; intros pre es acc HK HV Hs.
  - simpl. now rewrite app_nil_r.
  - inversion HK; subst. inversion HV; subst. simpl length in Hs.
    change (enc_off (Z.of_nat (length pre)) (e :: l)) with
      ((Z.of_nat (length pre) + Z.of_nat (length (je_key e)) + 1) :: (Z.of_nat (length pre) + Z.of_nat (length (enc1 e))) :: enc_off (Z.of_nat (length pre) + Z.of_nat (length (enc1 e))) l).
    cbn [fill_loop]. change (enc_data (e :: l)) with (enc1 e ++ enc_data l). assert (HL := enc1_length e).
    assert (length (je_val e) <> 0)%nat by (destruct (je_val e); simpl; congruence).
    assert (E1 : (Z.of_nat (length acc) <? es) = true) by lia. rewrite E1. cbn [cassert].
    assert (E2 : (Z.of_nat (length pre) <? Z.of_nat (length pre) + Z.of_nat (length (je_key e)) + 1) = true) by lia. rewrite E2. cbn [cassert].
    assert (E3 : (Z.of_nat (length pre) + Z.of_nat (length (je_key e)) + 1 <? Z.of_nat (length pre) + Z.of_nat (length (enc1 e))) = true) by lia. rewrite E3. cbn [cassert].
    assert (E4 : (Z.of_nat (length pre) + Z.of_nat (length (enc1 e)) <=? Z.of_nat (length (pre ++ enc1 e ++ enc_data l))) = true) by (rewrite !app_length; lia). rewrite E4. cbn [cassert].
    assert (Ez : aread (pre ++ enc1 e ++ enc_data l) (Z.of_nat (length pre) + Z.of_nat (length (je_key e)) + 1 - 1) = Ok 0) by apply aread_zero.
    rewrite Ez. cbn [obind]. rewrite Z.eqb_refl. cbn [cassert].
    assert (Ek : cstr (skipn (Z.to_nat (Z.of_nat (length pre))) (pre ++ enc1 e ++ enc_data l)) = je_key e).
    { rewrite skipn_app_exact by lia. unfold enc1. rewrite <- app_assoc. apply cstr_app; auto. }
    assert (Ev : slice (pre ++ enc1 e ++ enc_data l) (Z.of_nat (length pre) + Z.of_nat (length (je_key e)) + 1) (Z.of_nat (length pre) + Z.of_nat (length (enc1 e))) = je_val e) by apply slice_val.
    rewrite Ek, Ev.
    specialize (IH (pre ++ enc1 e) es (acc ++ [e])). rewrite !app_length, !Nat2Z.inj_add in IH. simpl length in IH. rewrite <- app_assoc in IH. rewrite <- app_assoc in IH.
    change (acc ++ e :: l) with (acc ++ [e] ++ l). etransitivity; [|apply IH; auto; lia]. f_equal. f_equal. destruct e; reflexivity.
Qed.

Lemma fill_empty l : forall pre es acc, Forall (fun e => KeyOk (je_key e)) l -> Exists (fun e => je_val e = []) l ->
  fill_loop (Z.of_nat (length pre) :: enc_off (Z.of_nat (length pre)) l) (pre ++ enc_data l) es acc = Abort.
Proof.
  induction l as [|e l IH]; intros pre es acc HK HV; [inversion HV|].
  inversion HK; subst.
  change (enc_off (Z.of_nat (length pre)) (e :: l)) with
      ((Z.of_nat (length pre) + Z.of_nat (length (je_key e)) + 1) :: (Z.of_nat (length pre) + Z.of_nat (length (enc1 e))) :: enc_off (Z.of_nat (length pre) + Z.of_nat (length (enc1 e))) l).
  cbn [fill_loop]. change (enc_data (e :: l)) with (enc1 e ++ enc_data l). assert (HL := enc1_length e).
  destruct (Z.of_nat (length acc) <? es); cbn [cassert]; auto.
  assert (E2 : (Z.of_nat (length pre) <? Z.of_nat (length pre) + Z.of_nat (length (je_key e)) + 1) = true) by lia. rewrite E2. cbn [cassert].
  destruct (Z.of_nat (length pre) + Z.of_nat (length (je_key e)) + 1 <? Z.of_nat (length pre) + Z.of_nat (length (enc1 e))) eqn:E3; cbn [cassert]; auto.
  destruct (Z.of_nat (length pre) + Z.of_nat (length (enc1 e)) <=? Z.of_nat (length (pre ++ enc1 e ++ enc_data l))); cbn [cassert]; auto.
  assert (Ez : aread (pre ++ enc1 e ++ enc_data l) (Z.of_nat (length pre) + Z.of_nat (length (je_key e)) + 1 - 1) = Ok 0) by apply aread_zero.
  rewrite Ez. cbn [obind]. rewrite Z.eqb_refl. cbn [cassert].
  inversion HV as [? ? H0|]; subst; [rewrite H0 in HL; simpl in HL; lia|].
  specialize (IH (pre ++ enc1 e) es). rewrite !app_length, Nat2Z.inj_add in IH. rewrite <- app_assoc in IH. apply IH; auto.
Qed.

Lemma sort_ok q c l : JRep c l [] -> is_qsort entrycmp q -> Forall (fun e => KeyOk (je_key e)) l -> Forall (fun e => je_val e <> []) l ->
  exists c', changes_sort q c = Ok c' /\ JRep c' l (if l then [] else q l) /\ j_offsize c' = j_offsize c /\ j_datasize c' = j_datasize c.
Proof.
  intros HR Q HK HV. assert (H := HR). destruct H as (HS & Hd & Ho & He & Hb1 & Hb2). unfold changes_sort. unfold offused in *. rewrite Ho in *. rewrite offs_length in *.
  destruct l as [|e l].
  - simpl. exists c. split; auto.
  - destruct (_ =? 0) eqn:E0; [lia|]. rewrite Z.add_comm, Z.odd_add_mul_2. cbn [cassert Z.odd]. unfold entused. rewrite He. cbn [length cassert]. simpl (_ =? _). cbn [cassert].
    unfold offs. rewrite Hd.
    assert (Es : Z.of_nat (length (@nil jentry) + length (e :: l)) <= j_entsize c).
    { destruct HS as (S1 & S2 & S3). assert (Z.of_nat (length (e :: l)) <= j_offsize c / 2) by (apply Z.div_le_lower_bound; lia). simpl length in *. lia. }
    assert (F : fill_loop (0 :: enc_off 0 (e :: l)) (enc_data (e :: l)) (j_entsize c) [] = Ok (e :: l)) by exact (fill_ok (e :: l) [] (j_entsize c) [] HK HV Es).
    rewrite F. cbn [obind app].
    change (Z.of_nat 0 =? 0) with true. cbn [cassert length]. replace (Z.of_nat (S (length l)) * 2 + 1 =? 1 + 2 * Z.of_nat (S (length l))) with true by (symmetry; apply Z.eqb_eq; lia). cbn [cassert].
    eexists. split; [reflexivity|]. simpl. unfold JRep, JSize, offused, dataused in *. cbn [j_data j_off j_ent j_offsize j_datasize j_entsize]. destruct HS as (S1 & S2 & S3).
    rewrite Hd in *. conjs; auto. cbn [length] in *; rewrite enc_off_length; cbn [length]; lia.
Qed.

Lemma sort_empty q c l : JRep c l [] -> Forall (fun e => KeyOk (je_key e)) l -> Exists (fun e => je_val e = []) l -> changes_sort q c = Abort.
Proof.
  intros HR HK HV. assert (H := HR). destruct H as (HS & Hd & Ho & He & Hb1 & Hb2). unfold changes_sort. unfold offused in *. rewrite Ho in *. rewrite offs_length in *.
  destruct l as [|e l]; [inversion HV|].
  destruct (_ =? 0) eqn:E0; [lia|]. rewrite Z.add_comm, Z.odd_add_mul_2. cbn [cassert Z.odd]. unfold entused. rewrite He. cbn [length cassert]. simpl (_ =? _). cbn [cassert].
  unfold offs. rewrite Hd.
  assert (F : fill_loop (0 :: enc_off 0 (e :: l)) (enc_data (e :: l)) (j_entsize c) [] = Abort) by exact (fill_empty (e :: l) [] (j_entsize c) [] HK HV).
  rewrite F. reflexivity.
Qed.

Lemma apply_eq l : forall pre s, Forall (fun e => KeyOk (je_key e)) l -> Forall (fun e => je_val e <> []) l ->
  apply_loop (Z.of_nat (length pre) :: enc_off (Z.of_nat (length pre)) l) (pre ++ enc_data l) s =
  ofold (fun s e => kvs_set s (je_key e) (je_val e)) l s.
Proof.
  induction l as [|e l IH]; intros pre s HK HV; [reflexivity|].
  inversion HK; subst. inversion HV; subst.
  change (enc_off (Z.of_nat (length pre)) (e :: l)) with
      ((Z.of_nat (length pre) + Z.of_nat (length (je_key e)) + 1) :: (Z.of_nat (length pre) + Z.of_nat (length (enc1 e))) :: enc_off (Z.of_nat (length pre) + Z.of_nat (length (enc1 e))) l).
  cbn [apply_loop ofold]. change (enc_data (e :: l)) with (enc1 e ++ enc_data l). assert (HL := enc1_length e).
  assert (length (je_val e) <> 0)%nat by (destruct (je_val e); simpl; congruence).
  assert (E2 : (Z.of_nat (length pre) + Z.of_nat (length (je_key e)) + 1 >? Z.of_nat (length pre)) = true) by lia. rewrite E2. cbn [cassert].
  assert (E3 : (Z.of_nat (length pre) + Z.of_nat (length (enc1 e)) >? Z.of_nat (length pre) + Z.of_nat (length (je_key e)) + 1) = true) by lia. rewrite E3. cbn [cassert].
  assert (Ek : cstr (skipn (Z.to_nat (Z.of_nat (length pre))) (pre ++ enc1 e ++ enc_data l)) = je_key e).
  { rewrite skipn_app_exact by lia. unfold enc1. rewrite <- app_assoc. apply cstr_app; auto. }
  assert (Ev : slice (pre ++ enc1 e ++ enc_data l) (Z.of_nat (length pre) + Z.of_nat (length (je_key e)) + 1) (Z.of_nat (length pre) + Z.of_nat (length (enc1 e))) = je_val e) by apply slice_val.
  rewrite Ek, Ev. destruct (kvs_set s (je_key e) (je_val e)); cbn [obind]; auto.
  specialize (IH (pre ++ enc1 e) a). rewrite !app_length, Nat2Z.inj_add in IH. rewrite <- app_assoc in IH. apply IH; auto.
Qed.

Lemma changes_apply_eq c l ents s : JRep c l ents -> Forall (fun e => KeyOk (je_key e)) l -> Forall (fun e => je_val e <> []) l ->
  changes_apply c s = ofold (fun s e => kvs_set s (je_key e) (je_val e)) l s.
Proof.
  intros (HS & Hd & Ho & He & Hb1 & Hb2) HK HV. unfold changes_apply, offused, dataused. rewrite Ho, Hd, offs_length. destruct l as [|e l]; [reflexivity|].
  destruct (_ =? 0) eqn:E0; [lia|]. rewrite Z.add_comm, Z.odd_add_mul_2. cbn [cassert Z.odd].
  assert (E1 : (0 <? Z.of_nat (length (enc_data (e :: l)))) = true) by (simpl; rewrite app_length; assert (HL := enc1_length e); lia).
  rewrite E1. cbn [cassert]. assert (F := apply_eq (e :: l) [] s HK HV). exact F.
Qed.
