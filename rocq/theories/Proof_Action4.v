(* The three comparison functions. *)
From Coq Require Import ZArith List Bool Lia Permutation Sorted ZifyBool ZifyNat.
From Verif Require Import Base Model_Transition Model_Action Spec_RangeList Spec_Action Proof_RangeList Proof_RangeList5 Proof_Action1 Proof_Action2 Proof_Action3.
Import ListNotations.
Open Scope Z_scope.

(* ---- two phases ---- *)
Definition phs2 (s d : Z) : Z := if s <? d then 1 else 2.

Lemma c2_round p x y : cmp2phase p x y <= 0 -> a_round (snd x) <= a_round (snd y).
Proof. unfold cmp2phase. destruct (a_round (snd x) =? a_round (snd y)) eqn:E; simpl; lia. Qed.

Lemma c2_pos p x y : a_round (snd x) = a_round (snd y) ->
  (exists r, sends_to r (snd x) = true /\ sends_to r (snd y) = true) \/
  (exists r, recvs_from r (snd x) = true /\ recvs_from r (snd y) = true) \/
  (phase2 p (snd x) = 0 /\ phase2 p (snd y) = 0) -> cmp2phase p x y <= 0 -> fst x <= fst y.
Proof.
  intros E H. unfold cmp2phase. rewrite E, Z.eqb_refl. cbn [negb].
  destruct H as [(r & S1 & S2)|[(r & S1 & S2)|[S1 S2]]].
  - destruct (sends_isSend _ _ S1) as (A1 & A2 & A3), (sends_isSend _ _ S2) as (B1 & B2 & B3).
    unfold phase2. rewrite A1, B1, A3, B3, !Z.eqb_refl. destruct (r <? p); simpl; lia.
  - destruct (recvs_isRecv _ _ S1) as (A1 & A2 & A3), (recvs_isRecv _ _ S2) as (B1 & B2 & B3).
    unfold phase2. rewrite A1, B1, A2, B2, A3, B3, !Z.eqb_refl. destruct (r <? p); simpl; lia.
  - rewrite S1, S2. simpl. lia.
Qed.

(* what an action of a well-formed sequence is, in terms of the comparison functions *)
Lemma classify n p l a : SeqOk n p l -> In a l -> comm a = true ->
  (collective a = true /\ isSend a = false /\ isRecv a = false) \/
  (0 <= peer0 a < n /\ peer0 a <> p /\ collective a = false /\
   ((isSend a = true /\ isRecv a = false) \/ (isSend a = false /\ isRecv a = true))).
Proof.
  intros H Ha C. destruct (H a Ha) as [_ [L|[L|(q & Hq & Hn & [S|S])]]].
  - unfold comm in C. rewrite L in C. discriminate.
  - left. split; auto. apply coll_no_msg; auto.
  - right. destruct (sends_isSend _ _ S) as (A1 & A2 & A3). rewrite A3. split; [auto|]. split; [auto|]. split; [eapply sends_not_coll; eauto|auto].
  - right. destruct (recvs_isRecv _ _ S) as (A1 & A2 & A3). rewrite A3. split; [auto|]. split; [auto|]. split; [eapply recvs_not_coll; eauto|auto].
Qed.

Ltac is_ground_z a := match a with Z0 => idtac | Zpos _ => idtac | Zneg _ => idtac end.
Ltac pcase :=
  repeat match goal with
  | H : ?a <> ?p |- _ =>
      let E1 := fresh "E" in let E2 := fresh "E" in
      destruct (a <? p) eqn:E1; destruct (p <? a) eqn:E2; try (exfalso; lia); clear H
  end;
  repeat match goal with
  | |- context [?a =? ?b] => is_ground_z a; is_ground_z b; let v := eval vm_compute in (a =? b) in change (a =? b) with v
  | |- context [?a >? ?b] => is_ground_z a; is_ground_z b; let v := eval vm_compute in (a >? b) in change (a >? b) with v
  end; cbn [negb andb].

Lemma c2_key n p l x y : 0 <= p < n -> SeqOk n p l -> In (snd x) l -> In (snd y) l ->
  comm (snd x) = true -> comm (snd y) = true -> cmp2phase p x y <= 0 ->
  kle (kbase phs2 (a_round (snd x)) p (snd x)) (kbase phs2 (a_round (snd y)) p (snd y)).
Proof.
  intros Hp Ok Hx Hy Cx Cy. pose proof (classify n p l _ Ok Hx Cx) as Kx. pose proof (classify n p l _ Ok Hy Cy) as Ky.
  unfold cmp2phase. destruct (a_round (snd x) =? a_round (snd y)) eqn:E; cbn [negb].
  2:{ intros. unfold kbase. destruct (collective (snd x)), (collective (snd y)), (isSend (snd x)), (isSend (snd y)); unfold kle; lia. }
  assert (Er : a_round (snd x) = a_round (snd y)) by lia. rewrite Er. generalize (a_round (snd y)) as r. intros r.
  unfold phase2, kbase, phs2.
  destruct Kx as [(X1 & X2 & X3)|(X0 & Xn & X1 & XX)], Ky as [(Y1 & Y2 & Y3)|(Y0 & Yn & Y1 & YY)];
    [| destruct YY as [[Y2 Y3]|[Y2 Y3]] | destruct XX as [[X2 X3]|[X2 X3]] |
       destruct XX as [[X2 X3]|[X2 X3]]; destruct YY as [[Y2 Y3]|[Y2 Y3]] ];
    rewrite ?X1, ?X2, ?X3, ?Y1, ?Y2, ?Y3; clear -Xn Yn X0 Y0 Hp || clear -Yn Y0 Hp || clear -Xn X0 Hp || clear -Hp;
    unfold kle; pcase; try match goal with |- context [?a =? ?b] => let E := fresh "E" in destruct (a =? b) eqn:E; cbn [negb] end; intros; try (left; lia); right; (split; [reflexivity|]); try (left; reflexivity); right; (split; [reflexivity|]); lia.
Qed.

(* ---- rank digits ---- *)
Lemma low_diff_spec fuel : forall b x y, 0 <= b ->
  let d := low_diff fuel b x y in
  b <= d <= b + Z.of_nat fuel /\
  (forall k, b <= k < d -> Z.testbit x k = Z.testbit y k) /\
  (d < b + Z.of_nat fuel -> Z.testbit x d <> Z.testbit y d).
Proof.
  induction fuel; intros b x y Hb; cbn [low_diff].
  - split; [lia|]. split; intros; lia.
  - destruct (Bool.eqb (Z.testbit x b) (Z.testbit y b)) eqn:E; cbn [negb].
    + apply eqb_prop in E. destruct (IHfuel (b + 1) x y ltac:(lia)) as (H1 & H2 & H3). split; [lia|]. split.
      * intros k Hk. destruct (Z.eq_dec k b); [subst; auto|apply H2; lia].
      * intros Hd. apply H3. lia.
    + apply eqb_false_iff in E. split; [lia|]. split; [intros; lia|auto].
Qed.

Lemma diffbit_sym x y : diffbit x y = diffbit y x.
Proof.
  unfold diffbit. generalize 32%nat, 0. induction n; intros b; simpl; auto.
  rewrite IHn. destruct (Z.testbit x b), (Z.testbit y b); auto.
Qed.

Lemma diffbit_range x y : 0 <= diffbit x y <= 32.
Proof. destruct (low_diff_spec 32 0 x y ltac:(lia)) as (H & _ & _). unfold diffbit. lia. Qed.

Lemma diffbit_ne x y : 0 <= x < 2 ^ 32 -> 0 <= y < 2 ^ 32 -> x <> y ->
  diffbit x y < 32 /\ Z.testbit x (diffbit x y) = negb (Z.testbit y (diffbit x y)).
Proof.
  intros Hx Hy Hne. destruct (low_diff_spec 32 0 x y ltac:(lia)) as (H1 & H2 & H3). fold (diffbit x y) in *.
  assert (Hd : diffbit x y < 32).
  { destruct (Z_lt_le_dec (diffbit x y) 32); auto. exfalso. apply Hne. apply Z.bits_inj'. intros k Hk.
    destruct (Z_lt_le_dec k 32); [apply H2; lia|].
    rewrite <- (Z.mod_small x (2 ^ 32)), <- (Z.mod_small y (2 ^ 32)) by lia.
    rewrite !Z.mod_pow2_bits_high by lia. auto. }
  split; auto. pose proof (H3 ltac:(lia)) as N. destruct (Z.testbit x (diffbit x y)), (Z.testbit y (diffbit x y)); simpl; congruence.
Qed.

Definition phsd (s d : Z) : Z := 1 + 2 * diffbit s d + (if Z.testbit s (diffbit s d) then 1 else 0).

Lemma cd_round p x y : cmp_rankdigits p x y <= 0 -> a_round (snd x) <= a_round (snd y).
Proof. unfold cmp_rankdigits. destruct (a_round (snd x) =? a_round (snd y)) eqn:E; simpl; lia. Qed.

Lemma cd_pos p x y : a_round (snd x) = a_round (snd y) ->
  (exists r, sends_to r (snd x) = true /\ sends_to r (snd y) = true) \/
  (exists r, recvs_from r (snd x) = true /\ recvs_from r (snd y) = true) \/
  (isSend (snd x) || isRecv (snd x) = false /\ isSend (snd y) || isRecv (snd y) = false) -> cmp_rankdigits p x y <= 0 -> fst x <= fst y.
Proof.
  intros E H. unfold cmp_rankdigits. rewrite E, Z.eqb_refl. cbn [negb].
  destruct H as [(r & S1 & S2)|[(r & S1 & S2)|[S1 S2]]].
  - destruct (sends_isSend _ _ S1) as (A1 & A2 & A3), (sends_isSend _ _ S2) as (B1 & B2 & B3).
    rewrite A1, A2, B1, B2, A3, B3. cbn [orb]. rewrite !Z.eqb_refl. cbn [negb].
    pose proof (diffbit_range r p). replace (1 + diffbit r p >? 0) with true by lia. lia.
  - destruct (recvs_isRecv _ _ S1) as (A1 & A2 & A3), (recvs_isRecv _ _ S2) as (B1 & B2 & B3).
    rewrite A1, A2, B1, B2, A3, B3. cbn [orb]. rewrite !Z.eqb_refl. cbn [negb].
    pose proof (diffbit_range r p). replace (1 + diffbit r p >? 0) with true by lia. lia.
  - rewrite S1, S2. simpl. lia.
Qed.

Lemma cd_key n p l x y : n <= 2 ^ 31 -> 0 <= p < n -> SeqOk n p l -> In (snd x) l -> In (snd y) l ->
  comm (snd x) = true -> comm (snd y) = true -> cmp_rankdigits p x y <= 0 ->
  kle (kbase phsd (a_round (snd x)) p (snd x)) (kbase phsd (a_round (snd y)) p (snd y)).
Proof.
  intros Hn Hp Ok Hx Hy Cx Cy. pose proof (classify n p l _ Ok Hx Cx) as Kx. pose proof (classify n p l _ Ok Hy Cy) as Ky.
  unfold cmp_rankdigits. destruct (a_round (snd x) =? a_round (snd y)) eqn:E; cbn [negb].
  2:{ intros. unfold kbase. destruct (collective (snd x)), (collective (snd y)), (isSend (snd x)), (isSend (snd y)); unfold kle; lia. }
  assert (P : 2 ^ 31 < 2 ^ 32) by (vm_compute; auto).
  assert (D : forall a, 0 <= peer0 a < n -> peer0 a <> p -> 0 <= diffbit (peer0 a) p < 32 /\ diffbit p (peer0 a) = diffbit (peer0 a) p /\ Z.testbit (peer0 a) (diffbit (peer0 a) p) = negb (Z.testbit p (diffbit (peer0 a) p))).
  { intros a H1 H2. pose proof (diffbit_range (peer0 a) p). destruct (diffbit_ne (peer0 a) p) as [D1 D2]; try lia. split; [lia|]. split; [apply diffbit_sym|auto]. }
  unfold kbase, phsd.
  destruct Kx as [(X1 & X2 & X3)|(X0 & Xn & X1 & XX)], Ky as [(Y1 & Y2 & Y3)|(Y0 & Yn & Y1 & YY)].
  - rewrite X1, Y1. unfold kle. lia.
  - rewrite X1, Y1, X2, X3. destruct (D _ Y0 Yn) as (D1 & D2 & D3). cbn [orb].
    destruct YY as [[Y2 Y3]|[Y2 Y3]]; rewrite Y2, Y3; unfold kle; rewrite ?D2; intros; destruct (Z.testbit _ _); lia.
  - rewrite X1, Y1, Y2, Y3. destruct (D _ X0 Xn) as (D1 & D2 & D3). cbn [orb].
    assert (Eo : isSend (snd x) || isRecv (snd x) = true) by (destruct XX as [[-> ->]|[-> ->]]; auto). rewrite Eo.
    replace (1 + diffbit (peer0 (snd x)) p =? 0) with false by lia. cbn [negb]. lia.
  - rewrite X1, Y1. destruct (D _ X0 Xn) as (D1 & D2 & D3). destruct (D _ Y0 Yn) as (D4 & D5 & D6).
    assert (Eo : isSend (snd x) || isRecv (snd x) = true) by (destruct XX as [[-> ->]|[-> ->]]; auto). rewrite Eo.
    assert (Eo' : isSend (snd y) || isRecv (snd y) = true) by (destruct YY as [[-> ->]|[-> ->]]; auto). rewrite Eo'.
    destruct (1 + diffbit (peer0 (snd x)) p =? 1 + diffbit (peer0 (snd y)) p) eqn:Ed; cbn [negb].
    2:{ intros Hc. clear D3 D6 XX YY Eo Eo' D. assert (Hlt : diffbit (peer0 (snd x)) p < diffbit (peer0 (snd y)) p) by lia.
        assert (B : forall b1 b2 : bool, 1 + 2 * diffbit (peer0 (snd x)) p + (if b1 then 1 else 0) < 1 + 2 * diffbit (peer0 (snd y)) p + (if b2 then 1 else 0)) by (clear -Hlt; intros [|] [|]; lia).
        assert (Er : a_round (snd x) = a_round (snd y)) by lia. rewrite Er.
        destruct (isSend (snd x)), (isSend (snd y)); unfold kle; right; (split; [reflexivity|]); left; rewrite ?D2, ?D5; apply B. }
    replace (1 + diffbit (peer0 (snd x)) p >? 0) with true by (clear -D1; lia).
    replace (1 + diffbit (peer0 (snd y)) p <=? 32) with true by (clear -D4; lia). cbn [andb].
    assert (Ed' : diffbit (peer0 (snd x)) p = diffbit (peer0 (snd y)) p) by (clear -Ed; lia).
    replace (1 + diffbit (peer0 (snd y)) p - 1) with (diffbit (peer0 (snd y)) p) by (clear; lia).
    rewrite ?D2, ?D5. rewrite Ed' in *.
    destruct XX as [[X2 X3]|[X2 X3]], YY as [[Y2 Y3]|[Y2 Y3]]; rewrite X2, Y2, ?D2, ?D5, ?D3, ?D6;
      assert (Er : a_round (snd x) = a_round (snd y)) by (clear -E; lia); rewrite Er; clear Cx Cy Ok Hx Hy P D2 D5;
      clear -X0 Xn Y0 Yn D4 Hp;
      destruct (Z.testbit p (diffbit (peer0 (snd y)) p)); cbn [negb];
      revert X0 Xn Y0 Yn D4; generalize (diffbit (peer0 (snd y)) p); generalize (peer0 (snd x)) (peer0 (snd y)) (a_round (snd y)) (fst x) (fst y);
      intros px py rr fx fy dd X0 Xn Y0 Yn D4;
      (assert (Cx : px < p \/ p < px) by lia); (assert (Cy : py < p \/ p < py) by lia); clear Xn Yn;
      unfold kle; intros Hc; right; (split; [reflexivity|]);
      destruct Cx as [Cx|Cx], Cy as [Cy|Cy];
      rewrite ?(proj2 (Z.ltb_lt _ _) Cx), ?(proj2 (Z.ltb_lt _ _) Cy), ?(proj2 (Z.ltb_ge _ _) (Z.lt_le_incl _ _ Cx)), ?(proj2 (Z.ltb_ge _ _) (Z.lt_le_incl _ _ Cy)) in *;
      repeat match type of Hc with
        | context [?a =? ?b] => is_ground_z a; is_ground_z b; let v := eval vm_compute in (a =? b) in change (a =? b) with v in Hc
        end; cbn [negb] in Hc;
      try (destruct (px =? py) eqn:Ep; cbn [negb] in Hc);
      try (exfalso; clear -Hc; lia); try (left; clear; lia); right; (split; [reflexivity|]); lia.
Qed.

(* ---- rounds ---- *)
Lemma cr_round x y : cmp_rounds x y <= 0 -> a_round (snd x) <= a_round (snd y).
Proof. unfold cmp_rounds. destruct (a_round (snd x) =? a_round (snd y)) eqn:E; simpl; lia. Qed.
Lemma cr_pos x y : a_round (snd x) = a_round (snd y) -> cmp_rounds x y <= 0 -> fst x <= fst y.
Proof. intros E. unfold cmp_rounds. rewrite E, Z.eqb_refl. simpl. auto. lia. Qed.

