(* laik_aseq_combineActions: all rounds; messages; areas. *)
From Coq Require Import ZArith List Bool Lia ZifyBool ZifyNat Permutation.
From Verif Require Import Base Model_Space Model_Mem Model_Transition Model_Action Model_ActionTrans Model_ActionExec Spec_Action Spec_ActionTrans.
From Verif Require Import Proof_Type Proof_Comb1 Proof_Comb2 Proof_Comb3 Proof_Comb4 Proof_Comb5 Proof_Comb6.
Import ListNotations.
Open Scope Z_scope.

Lemma total_csum l : total l = csum l.
Proof. unfold total, csum. induction l; simpl; auto. lia. Qed.


Lemma combine_inv cx s s' : 0 < cx_es cx -> ranged (as_acts s) -> total (as_acts s) * cx_es cx < 2 ^ 32 ->
  combine cx s = Ok (true, s') ->
  let id := as_nres s + 100 in let C := classes [] (as_acts s) 0 in
  as_acts s' = mkAct 0 (BufReserve (msum C * cx_es cx) id 0) :: flat_map (emit cx id) C /\
  as_nres s' = as_nres s + 1 /\ as_bufs s' = as_bufs s /\ 0 < msum C.
Proof.
  intros He R B H id C. assert (P : pos a_cnt (as_acts s)) by (apply Forall_forall; intros; apply R; auto).
  pose proof (msum_le (as_acts s) [] 0 P) as Hm. fold C in Hm. rewrite <- total_csum in Hm.
  unfold combine in H. oinv H. destruct (fst z =? 0) eqn:Ez.
  - oinv H. discriminate.
  - oinv H. oinv H. simpl in H. oinv H. destruct z0 as [[acts off] ro]. oinv H. oinv H. injection H as <-. simpl.
    destruct (pass_eq cx (as_nres s + 100) (snd z) He _ _ _ _ _ _ _ E2 P) as (A & A' & _); [apply Forall_forall; intros; apply R; auto|lia|fold C; nia|].
    fold C in A, A'. rewrite A. assert (Eb : fst z = msum C) by lia. rewrite Eb. rewrite u32_id by nia. repeat split; auto. lia.
Qed.

(* the actions of a round *)
Lemma filter_flat {A B} (P : B -> bool) (f : A -> list B) l : filter P (flat_map f l) = flat_map (fun x => filter P (f x)) l.
Proof. induction l; simpl; auto. rewrite filter_app, IHl. auto. Qed.
Lemma flat_filter {A B} (Q : A -> bool) (f : A -> list B) l : flat_map f (filter Q l) = flat_map (fun x => if Q x then f x else []) l.
Proof. induction l; simpl; auto. destruct (Q a); simpl; rewrite IHl; auto. Qed.

Section R.
  Variables (cx : actx) (id : Z).
  Lemma e_round c : (forall x, In x (e0 cx id c) -> a_round x = 3 * a_round (c_rep c)) /\
    (forall x, In x (e1 cx id c) -> a_round x = 3 * a_round (c_rep c) + 1) /\ (forall x, In x (e2 cx id c) -> a_round x = 3 * a_round (c_rep c) + 2).
  Proof.
    unfold e0, e1, e2. repeat split; intros x.
    - destruct (_ && _); simpl; [|tauto]. intros [<-|[]]. auto.
    - destruct (is_merged c); [|destruct (a_par (c_rep c))]; simpl; try tauto; intros [<-|[]]; auto.
    - destruct (_ && _); simpl; [|tauto]. intros [<-|[]]. auto.
  Qed.
  Lemma filter_all {A} (P : A -> bool) l : (forall x, In x l -> P x = true) -> filter P l = l.
  Proof. induction l; simpl; intros H; auto. rewrite H by auto. f_equal. auto. Qed.
  Lemma filter_none {A} (P : A -> bool) l : (forall x, In x l -> P x = false) -> filter P l = [].
  Proof. induction l; simpl; intros H; auto. rewrite H by auto. auto. Qed.

  Lemma emit_round r k c : k = 0 \/ k = 1 \/ k = 2 ->
    filter (in_rd (3 * r + k)) (emit cx id c) = if inr r c then (if k =? 0 then e0 cx id c else if k =? 1 then e1 cx id c else e2 cx id c) else [].
  Proof.
    intros Hk. unfold emit. rewrite !filter_app. destruct (e_round c) as (A & B & D). unfold inr, in_rd.
    destruct (a_round (c_rep c) =? r) eqn:E.
    - destruct Hk as [-> | [-> | ->]]; simpl Z.eqb; cbv iota.
      + rewrite (filter_all _ (e0 cx id c)), (filter_none _ (e1 cx id c)), (filter_none _ (e2 cx id c)), !app_nil_r; auto; intros x Hx; [specialize (D x Hx)|specialize (B x Hx)|specialize (A x Hx)]; lia.
      + rewrite (filter_none _ (e0 cx id c)), (filter_all _ (e1 cx id c)), (filter_none _ (e2 cx id c)), !app_nil_r; auto; intros x Hx; [specialize (D x Hx)|specialize (B x Hx)|specialize (A x Hx)]; lia.
      + rewrite (filter_none _ (e0 cx id c)), (filter_none _ (e1 cx id c)), (filter_all _ (e2 cx id c)); auto; intros x Hx; [specialize (D x Hx)|specialize (B x Hx)|specialize (A x Hx)]; lia.
    - rewrite !filter_none; auto; intros x Hx; [specialize (D x Hx)|specialize (B x Hx)|specialize (A x Hx)]; lia.
  Qed.
  Lemma emits_round r k C : k = 0 \/ k = 1 \/ k = 2 ->
    filter (in_rd (3 * r + k)) (flat_map (emit cx id) C) = flat_map (if k =? 0 then e0 cx id else if k =? 1 then e1 cx id else e2 cx id) (filter (inr r) C).
  Proof.
    intros Hk. rewrite filter_flat, flat_filter. rewrite !flat_map_concat_map. f_equal. apply map_ext. intros c. rewrite emit_round by auto.
    destruct (inr r c); auto. destruct (k =? 0); auto. destruct (k =? 1); auto.
  Qed.
End R.

Lemma exec_is_app l1 : forall l2 t, exec_is (l1 ++ l2) t = match exec_is l1 t with Some t' => exec_is l2 t' | None => None end.
Proof. induction l1 as [|i l1 IH]; intros l2 t; simpl; auto. destruct (exec_i i t); auto. Qed.
Lemma exec_rounds_app d l rs1 : forall rs2 s, exec_rounds d l (rs1 ++ rs2) s = match exec_rounds d l rs1 s with Some s' => exec_rounds d l rs2 s' | None => None end.
Proof. induction rs1 as [|r rs1 IH]; intros rs2 s; simpl; auto. destruct (exec_is (map d (filter (in_rd r) l)) s); auto. Qed.
Lemma exec_rounds_empty d l rs : (forall r a, In r rs -> In a l -> a_round a <> r) -> forall s, exec_rounds d l rs s = Some s.
Proof.
  induction rs as [|r rs IH]; intros H s; simpl; auto. rewrite filter_none; [simpl; apply IH; intros; apply H; auto; right; auto|].
  intros a Ha. unfold in_rd. specialize (H r a (or_introl eq_refl) Ha). lia.
Qed.

Theorem combine_sim cx place oth rd wr s s' n acts :
  0 < cx_es cx -> ranged (as_acts s) -> total (as_acts s) * cx_es cx < 2 ^ 32 ->
  combine cx s = Ok (true, s') ->
  as_acts s' = mkAct 0 (BufReserve n (as_nres s + 100) 0) :: acts ->
  Combinable cx (den cx place oth) rd wr (region (place (as_nres s + 100)) n) (as_acts s) ->
  forall st, SameRun (region (place (as_nres s + 100)) n) (exec_seq (den cx place oth) (as_acts s) st) (exec_seq (den cx place oth) (as_acts s') st).
Proof.
  intros He R B H Es' CB st. destruct (combine_inv cx s s' He R B H) as (Ea & _). rewrite Ea in Es'. injection Es' as En Eacts.
  set (id := as_nres s + 100) in *. set (C := classes [] (as_acts s) 0) in *. set (T := region (place id) n) in *. set (l := as_acts s) in *.
  assert (P : pos a_cnt l) by (apply Forall_forall; intros; apply R; auto).
  assert (HT : forall x, region (place id) (msum C * cx_es cx) x -> T x) by (intros x; unfold T; rewrite En; auto).
  pose proof (round_sim cx place oth rd wr T id He l CB P HT) as RS. fold C in RS.
  set (d := den cx place oth) in *.
  assert (K : forall rs, (forall r, In r rs -> 0 <= r) -> forall s1 t1, AgreeOut T s1 t1 ->
     SameRun T (exec_rounds d l rs s1) (exec_rounds d (as_acts s') (flat_map (fun r => [3 * r + 0; 3 * r + 1; 3 * r + 2]) rs) t1)).
  { induction rs as [|r rs IH]; intros Hr s1 t1 A; [simpl; auto|]. cbn [flat_map app]. 
    specialize (IH (fun r0 H0 => Hr r0 (or_intror H0))). specialize (Hr r (or_introl eq_refl)).
    cbn [exec_rounds]. rewrite Ea.
    assert (Fk : forall k, k = 0 \/ k = 1 \/ k = 2 -> filter (in_rd (3 * r + k)) (mkAct 0 (BufReserve (msum C * cx_es cx) id 0) :: flat_map (emit cx id) C)
       = (if 3 * r + k =? 0 then [mkAct 0 (BufReserve (msum C * cx_es cx) id 0)] else []) ++ flat_map (if k =? 0 then e0 cx id else if k =? 1 then e1 cx id else e2 cx id) (filter (inr r) C)).
    { intros k Hk. cbn [filter]. rewrite (emits_round cx id r k C Hk). unfold in_rd at 1. cbn [a_round]. rewrite (Z.eqb_sym 0). destruct (3 * r + k =? 0); auto. }
    rewrite !Fk by auto. change (0 =? 0) with true. change (1 =? 0) with false. change (1 =? 1) with true. change (2 =? 0) with false. change (2 =? 1) with false. cbv iota. replace (3 * r + 1 =? 0) with false by lia. replace (3 * r + 2 =? 0) with false by lia. cbn [app].
    rewrite map_app, exec_is_app.
    assert (exists t2, exec_is (map d (if 3 * r + 0 =? 0 then [mkAct 0 (BufReserve (msum C * cx_es cx) id 0)] else [])) t1 = Some t2 /\ AgreeOut T s1 t2) as (t2 & Et2 & A2).
    { destruct (3 * r + 0 =? 0).
      - eexists. split; [reflexivity|]. destruct A as (A1 & A2 & A3). repeat split; simpl; auto.
      - exists t1. split; auto. }
    rewrite Et2. specialize (RS r s1 t2 A2). rewrite !map_app, !exec_is_app in RS.
    destruct (exec_is (map d (filter (in_rd r) l)) s1) as [s2|].
    - destruct (exec_is (map d (flat_map (e0 cx id) (filter (inr r) C))) t2) as [t3|]; [|exfalso; exact RS].
      rewrite exec_is_app in RS. destruct (exec_is (map d (flat_map (e1 cx id) (filter (inr r) C))) t3) as [t4|]; [|exfalso; exact RS].
      destruct (exec_is (map d (flat_map (e2 cx id) (filter (inr r) C))) t4) as [t5|]; [|exfalso; exact RS].
      rewrite <- Ea. apply IH. auto.
    - destruct (exec_is (map d (flat_map (e0 cx id) (filter (inr r) C))) t2) as [t3|]; [|auto].
      rewrite exec_is_app in RS. destruct (exec_is (map d (flat_map (e1 cx id) (filter (inr r) C))) t3) as [t4|]; [|auto].
      destruct (exec_is (map d (flat_map (e2 cx id) (filter (inr r) C))) t4) as [t5|]; [exfalso; exact RS|auto]. }
  unfold exec_seq.
  assert (E85 : map Z.of_nat (seq 0 255) = map Z.of_nat (seq 0 85) ++ map Z.of_nat (seq 85 170)) by reflexivity.
  assert (E3 : map Z.of_nat (seq 0 255) = flat_map (fun r => [3 * r + 0; 3 * r + 1; 3 * r + 2]) (map Z.of_nat (seq 0 85))) by reflexivity.
  rewrite E3 at 2. rewrite E85. rewrite exec_rounds_app.
  assert (K2 := K (map Z.of_nat (seq 0 85)) ltac:(intros r Hr; apply in_map_iff in Hr as (k & <- & _); lia) st st (agree_refl T st)).
  destruct (exec_rounds d l (map Z.of_nat (seq 0 85)) st) as [s2|] eqn:E2; auto.
  rewrite exec_rounds_empty; auto. intros r a Hr Ha. apply in_map_iff in Hr as (k & <- & Hk). apply in_seq in Hk. destruct (R a Ha) as [Hx _]. lia.
Qed.

(* one message per partner and round *)
Section Count.
  Variables (cx : actx) (id : Z) (pp : apar -> bool) (K : kind).
  Hypothesis (Hpp : forall p, pp p = true -> kind_of p = Some K -> forall p', kind_of p' = Some K -> pp p' = true).
  Hypothesis (Hr : forall p o n, mergeable p = true -> pp (rpar p id o n) = pp p).
  Hypothesis (Hc : forall ce, pp (CopyToRBuf ce id 0) = false /\ pp (CopyFromRBuf ce id 0) = false).
  Hypothesis (Hn : pp Nop = false).
  Hypothesis (Hrc : forall p o n r, pp p = true -> mergeable p = true -> msg_count (mkAct r (rpar p id o n)) = n).
  Hypothesis (Hcc : forall p r, pp p = true -> mergeable p = true -> msg_count (mkAct r p) = par_cnt p).
  Definition PP (r : Z) (a : action) : bool := pp (a_par a) && in_round r a.

  Lemma count_one r l : (forall a, In a l -> pp (a_par a) = true -> kind_of (a_par a) = Some K) -> forall prev off,
    map msg_count (filter (PP (3 * r + 1)) (flat_map (emit cx id) (classes prev l off))) =
    match filter (fun a => PP r a && np prev a) l with [] => [] | ms => [csum ms] end.
  Proof.
    induction l as [|a l IH]; intros HK prev off; simpl; auto.
    assert (HKl : forall a, In a l -> pp (a_par a) = true -> kind_of (a_par a) = Some K) by (intros; apply HK; auto; right; auto).
    specialize (IH HKl).
    assert (Same : forall b, PP r a = true -> In b l -> PP r b = true -> same_kind a b = true).
    { intros b Ha Hb Pb. unfold PP, in_round in *. apply andb_true_iff in Ha as [Ha1 Ha2]. apply andb_true_iff in Pb as [Pb1 Pb2].
      apply same_kind_iff. exists K. repeat split; [apply HK; simpl; auto|apply HKl; auto|lia]. }
    assert (Kind : forall b, same_kind a b = true -> PP r a = PP r b \/ (forall k, kind_of (a_par a) = Some k -> k <> K)).
    { intros b Sk. apply same_kind_iff in Sk as (k & A & B & D). destruct (PP r a) eqn:E1, (PP r b) eqn:E2; auto; right; intros k' A' ->; rewrite A in A'; injection A' as ->; unfold PP, in_round in *; rewrite <- D in *.
      - apply andb_true_iff in E1 as [E1 E1']. rewrite E1', andb_true_r in E2. rewrite (Hpp _ E1 A _ B) in E2. discriminate.
      - apply andb_true_iff in E2 as [E2 E2']. rewrite E2', andb_true_r in E1. rewrite (Hpp _ E2 B _ A) in E1. discriminate. }
    assert (NP : forall b, In b l -> PP r a = false -> PP r b && np (a :: prev) b = PP r b && np prev b).
    { intros b Hb Pa. rewrite np_cons. destruct (PP r b) eqn:Pb; auto. simpl. destruct (same_kind a b) eqn:Sk; auto. exfalso.
      destruct (Kind b Sk) as [X|X]; [congruence|]. apply same_kind_iff in Sk as (k & A & B & D).
      unfold PP in Pb. apply andb_true_iff in Pb as [Pb _]. rewrite (HKl b Hb Pb) in B. injection B as <-. apply (X K A). auto. }
    destruct (np prev a) eqn:N.
    - set (c := mkC a (members a l) off). cbn [flat_map]. rewrite filter_app, map_app, IH. clear IH.
      assert (Em : map msg_count (filter (PP (3 * r + 1)) (emit cx id c)) = if PP r a then [csum (members a l)] else []).
      { assert (Eq : filter (PP (3 * r + 1)) (emit cx id c) = filter (PP (3 * r + 1)) (e1 cx id c)).
        { unfold emit. rewrite !filter_app. assert (Z0 : filter (PP (3 * r + 1)) (e0 cx id c) = []).
          { unfold e0. destruct (_ && _); auto. simpl. unfold PP. simpl. rewrite (proj1 (Hc _)). auto. }
          assert (Z2 : filter (PP (3 * r + 1)) (e2 cx id c) = []).
          { unfold e2. destruct (_ && _); auto. simpl. unfold PP. simpl. rewrite (proj2 (Hc _)). auto. }
          rewrite Z0, Z2, app_nil_r. auto. }
        rewrite Eq. unfold e1. destruct (is_merged c) eqn:M.
        - assert (Ma : mergeable (a_par a) = true).
          { unfold is_merged, c, members in M. simpl in M. destruct (mergeable (a_par a)); [auto|simpl in M; discriminate]. }
          cbn [filter]. unfold PP at 1, in_round. cbn [a_par a_round c c_rep c_off c_ms]. rewrite (Hr (a_par a) _ _ Ma). unfold PP, in_round.
          replace (3 * a_round a + 1 =? 3 * r + 1) with (a_round a =? r) by lia. destruct (pp (a_par a)) eqn:Pa; simpl; auto. destruct (a_round a =? r); [|auto].
          cbn [map]. rewrite Hrc; auto.
        - assert (Eml : members a l = [a]).
          { unfold is_merged, c in M. simpl in M. rewrite members_cons in *. destruct (filter (same_kind a) l); auto. simpl in M. discriminate. }
          rewrite Eml. cbn [c c_rep].
          assert (X : map msg_count (filter (PP (3 * r + 1)) [mkAct (3 * a_round a + 1) (a_par a)]) = if PP r a then [csum [a]] else []).
          { cbn [filter]. unfold PP, in_round. cbn [a_par a_round]. replace (3 * a_round a + 1 =? 3 * r + 1) with (a_round a =? r) by lia.
            destruct (pp (a_par a)) eqn:Pa; simpl; auto. destruct (a_round a =? r); [|auto]. cbn [map]. rewrite Hcc; auto.
            - unfold csum. simpl. unfold a_cnt. f_equal. lia.
            - apply kind_mergeable. exists K. apply HK; simpl; auto. }
          destruct (a_par a) eqn:Ep; try exact X. simpl. unfold PP. rewrite Ep, Hn. auto. }
      rewrite Em. destruct (PP r a) eqn:Pa; simpl.
      + assert (F1 : filter (fun b => PP r b && np (a :: prev) b) l = []).
        { apply filter_none. intros b Hb. destruct (PP r b) eqn:Pb; auto. simpl. rewrite np_cons, (Same b); auto. }
        assert (F2 : filter (same_kind a) l = filter (fun b => PP r b && np prev b) l).
        { apply filter_ext_in. intros b Hb. destruct (same_kind a b) eqn:Sk.
          - rewrite <- (np_same prev a b Sk), N, andb_true_r. destruct (Kind b Sk) as [X|X]; [congruence|]. exfalso.
            unfold PP in Pa. apply andb_true_iff in Pa as [Pa _]. apply (X K); auto. apply HK; simpl; auto.
          - destruct (PP r b) eqn:Pb; auto. rewrite (Same b) in Sk; auto. discriminate. }
        rewrite F1, members_cons, F2. auto.
      + rewrite (filter_ext_in _ (fun b => PP r b && np prev b)); [auto|]. intros b Hb. apply NP; auto.
    - rewrite andb_false_r. rewrite IH. rewrite (filter_ext_in _ (fun b => PP r b && np prev b)); auto. intros b Hb.
      rewrite np_cons. destruct (same_kind a b) eqn:Sk; auto. simpl. rewrite <- (np_same prev a b Sk), N. auto.
  Qed.
End Count.
