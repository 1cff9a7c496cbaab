(* The actions of a reduction by messages. *)
From Coq Require Import ZArith List Bool Lia ZifyBool ZifyNat Sorted.
From Verif Require Import Base Model_Space Model_Mem Model_Transition Model_Action Model_ActionTrans Model_ActionExec Model_ActionExec2 Model_Net.
From Verif Require Import Spec_Action Spec_ActionTrans Spec_Async Spec_Reduce.
From Verif Require Import Proof_Type Proof_Comb3 Proof_Comb4 Proof_Comb5 Proof_Async1 Proof_Async2 Proof_Async3 Proof_Reduce1.
Import ListNotations.
Open Scope Z_scope.

Lemma add_action_eq r p : r < 255 -> add_action r p = Ok (mkAct r p).
Proof. intros H. unfold add_action. destruct (r <? 255) eqn:E; [reflexivity|lia]. Qed.

(* reservations are not executed *)
Definition resv (a : action) : Prop := match a_par a with BufReserve _ _ _ => a_round a = 0 | _ => False end.
Lemma resv_skip cx place T oth (l : list action) : Forall resv l -> map (den2 cx place T oth) l = repeat skip (length l).
Proof.
  induction 1 as [|a l Ha Hl IH]; auto. cbn [map length repeat]. rewrite IH. f_equal. destruct a as [k p]. destruct p; try destruct Ha. reflexivity.
Qed.
Lemma skips_exec k : forall s, exists s', exec_is (repeat skip k) s = Some s' /\ p_mem s' = p_mem s /\ (forall ch, p_in s' ch = p_in s ch) /\ (forall ch, p_out s' ch = p_out s ch).
Proof.
  induction k as [|k IH]; intros s; [exists s; auto|]. cbn [repeat exec_is]. assert (E : exec_i skip s = Some s) by (destruct s; reflexivity). rewrite E. auto.
Qed.
(* the reservations come first *)
Lemma program_resv d A res B k0 : Forall resv res -> 0 <= k0 < 255 -> (forall a, In a A -> a_round a = k0) -> by_round B -> (forall a, In a B -> k0 <= a_round a < 255) ->
  program d (A ++ res ++ B) = map d A ++ map d res ++ map d B \/ program d (A ++ res ++ B) = map d res ++ map d A ++ map d B.
Proof.
  intros Hr Hk HA HB HBr. rewrite Forall_forall in Hr.
  assert (R0 : forall a, In a res -> a_round a = 0).
  { intros a Ha. specialize (Hr a Ha). unfold resv in Hr. destruct (a_par a); tauto. }
  assert (SAB : by_round (A ++ B)).
  { apply SS_app; auto; [eapply const_sorted; eauto|]. intros a b Ha Hb. rewrite (HA a Ha). apply HBr in Hb. lia. }
  unfold program. rewrite <- !map_app. destruct (Z.eq_dec k0 0) as [->|Hn].
  - left. f_equal. apply flat_sorted.
    + apply SS_app; [eapply const_sorted; eauto| |].
      * apply SS_app; auto; [eapply const_sorted; eauto|]. intros a b Ha Hb. rewrite (R0 a Ha). apply HBr in Hb. lia.
      * intros a b Ha Hb. rewrite (HA a Ha). apply in_app_or in Hb. destruct Hb as [Hb|Hb]; [rewrite (R0 b Hb); lia|apply HBr in Hb; lia].
    + intros a Ha. rewrite !in_app_iff in Ha. destruct Ha as [Ha|[Ha|Ha]]; [rewrite (HA a Ha)|rewrite (R0 a Ha)|apply HBr in Ha]; lia.
  - right. f_equal. transitivity (flat_map (fun k => filter (in_rd k) (res ++ A ++ B)) (map Z.of_nat (seq 0 255))).
    + apply flat_map_ext. intros k. rewrite !filter_app, !app_assoc. f_equal. destruct (Z.eq_dec k 0) as [->|Hk0].
      * rewrite (filter_none (in_rd 0) A); [rewrite app_nil_r; auto|]. intros a Ha. unfold in_rd. rewrite (HA a Ha). lia.
      * rewrite (filter_none (in_rd k) res); [rewrite app_nil_r; auto|]. intros a Ha. unfold in_rd. rewrite (R0 a Ha). lia.
    + apply flat_sorted.
      * apply SS_app; auto; [eapply const_sorted; eauto|]. intros a b Ha Hb. rewrite (R0 a Ha). apply in_app_or in Hb. destruct Hb as [Hb|Hb]; [rewrite (HA b Hb); lia|apply HBr in Hb; lia].
      * intros a Ha. rewrite !in_app_iff in Ha. destruct Ha as [Ha|[Ha|Ha]]; [rewrite (R0 a Ha)|rewrite (HA a Ha)|apply HBr in Ha]; lia.
Qed.

Section Acts.
  Variable cx : actx.
  Variable place : Z -> Z.
  Variable T : dtype.
  Variable oth : apar -> instr.
  Variables c : Z.
  Variable r : redop.
  Let es := cx_es cx.
  Let n := c * es.
  Let me := cx_me cx.
  Let d := den2 cx place T oth.

  Lemma add_sends_ok round buf ts : round < 255 ->
    add_sends round me buf c ts = Ok (map (fun t => mkAct round (BufSend buf c t)) (others me ts)).
  Proof.
    intros H. induction ts as [|t ts IH]; auto. cbn [add_sends]. unfold others in *. cbn [filter]. destruct (t =? me); cbn [negb]; auto.
    rewrite add_action_eq by auto. cbn [obind]. rewrite IH. reflexivity.
  Qed.

  Fixpoint recvA (round id off : Z) (ts : list Z) : list action :=
    match ts with [] => [] | t :: ts' => mkAct round (RBufRecv id off c t) :: recvA round id (off + n) ts' end.
  Fixpoint offsA (off : Z) (ts : list Z) : list Z := match ts with [] => [] | _ :: ts' => off :: offsA (off + n) ts' end.

  Lemma offsA_len ts : forall off, length (offsA off ts) = length ts.
  Proof. induction ts; intros; simpl; auto. Qed.
  Lemma offsA_places base ts : forall off, map (fun o => base + o) (offsA off ts) = places cx c (base + off) ts.
  Proof. induction ts as [|t ts IH]; intros off; auto. cbn [offsA places map]. fold es n. rewrite IH. f_equal. f_equal. unfold n, es. lia. Qed.
  Lemma recvA_den round id ts : forall off, map d (recvA round id off ts) = recvs cx c (place id + off) ts.
  Proof. induction ts as [|t ts IH]; intros off; auto. cbn [recvA recvs map]. rewrite IH. f_equal. f_equal. unfold n, es. lia. Qed.
  Lemma recvA_round round id ts : forall off a, In a (recvA round id off ts) -> a_round a = round.
  Proof. induction ts as [|t ts IH]; intros off a H; [destruct H|]. destruct H as [<-|H]; eauto. Qed.

  Hypothesis n0 : 0 < n.

  Lemma add_recvs_ok round id ts : round < 255 -> forall off, 0 <= off -> off + n * Z.of_nat (length (others me ts)) < 2 ^ 32 ->
    add_recvs round me id off c (u32 n) ts =
    Ok (recvA round id off (others me ts), offsA off (others me ts), off + n * Z.of_nat (length (others me ts))).
  Proof.
    intros H. induction ts as [|t ts IH]; intros off H0 H1.
    - simpl. rewrite Z.mul_0_r, Z.add_0_r. auto.
    - cbn [add_recvs]. unfold others in *. cbn [filter] in *. destruct (t =? me); cbn [negb] in *; [apply IH; auto|].
      rewrite add_action_eq by auto. cbn [obind length] in *.
      assert (En : u32 n = n) by (apply u32_id; nia). rewrite En in *.
      assert (Eo : u32 (off + n) = off + n) by (apply u32_id; nia). rewrite Eo.
      rewrite IH by nia. cbn [obind recvA offsA]. f_equal. f_equal. lia.
  Qed.

  Lemma add_lreds_ok round id to os : round < 255 ->
    add_local_reds round r id os to c = Ok (map (fun o => mkAct round (RBufLocalReduce r id o to c)) os).
  Proof.
    intros H. induction os as [|o os IH]; auto. cbn [add_local_reds]. rewrite add_action_eq by auto. cbn [obind]. rewrite IH. reflexivity.
  Qed.

  Lemma reduce_here_ok nres R ins from to : NoDup ins -> (length ins <= 32)%nat -> n * Z.of_nat (length ins) < 2 ^ 32 -> 0 <= R -> 3 * R + 1 < 255 ->
    exists res L nres', reduce_here cx nres R ins from to c r = Ok (res ++ L, nres') /\ Forall resv res /\
      map d L = here_instrs cx c T r me from to (place (nres + 100)) ins /\
      by_round L /\ forall a, In a L -> 3 * R <= a_round a <= 3 * R + 1.
  Proof.
    intros HN H32 Hsz HR HR2. set (ts := others me ins).
    assert (Hlen : length ins = ((if memb me ins then 1 else 0) + length ts)%nat).
    { destruct (memb me ins) eqn:Em; [apply others_len; auto; apply memb_in; auto|]. unfold ts. rewrite others_all; auto. apply memb_not. auto. }
    assert (En : ins <> [] -> u32 (c * cx_es cx) = n) by (intros Hi; apply u32_id; fold es n; destruct ins; [congruence|cbn [length] in *; nia]).
    unfold reduce_here. fold me. change (existsb (fun x => x =? me) ins) with (memb me ins).
    set (wm := if memb me ins then Z.of_nat (length ins) - 1 else Z.of_nat (length ins)).
    assert (Ewm : wm = Z.of_nat (length ts)) by (subst wm; destruct (memb me ins); lia).
    assert (Ebs : u32 (wm * u32 (c * cx_es cx)) = n * Z.of_nat (length ts)).
    { rewrite Ewm. destruct ts as [|t0 ts0] eqn:Et; [simpl; rewrite Z.mul_0_r; reflexivity|].
      rewrite En by (intros E; unfold ts in Et; rewrite E in Et; discriminate). rewrite Z.mul_comm. apply u32_id. rewrite <- Et in *. nia. }
    rewrite Ebs. unfold add_reserve.
    (* the sequence for a buffer number *)
    assert (HB : forall id, (ts <> [] -> id = nres + 100) ->
      exists L, (cassert (Z.of_nat (length ins) <=? 32)
         (do x <- add_recvs (3 * R) me id 0 c (u32 (c * cx_es cx)) ins;
          (let '(recvs, offs, off) := x in
           let bufOff := if memb me ins then 0 :: offs else offs in
           cassert (Z.of_nat (length bufOff) =? Z.of_nat (length ins))
             (cassert (off =? n * Z.of_nat (length ts))
                (do acts <- match bufOff with
                  | [] => do x <- add_action (3 * R + 1) (BufInit r to c); Ok [x]
                  | o0 :: os =>
                      do c0 <- (if memb me ins then
                          if negb (from =? to) then do x <- add_action (3 * R + 1) (BufCopy from to c); Ok [x] else Ok []
                          else do x <- add_action (3 * R + 1) (RBufCopy id o0 to c); Ok [x]);
                      do l <- add_local_reds (3 * R + 1) r id os to c; Ok (c0 ++ l)
                  end; Ok (recvs ++ acts)))))) = Ok L /\
        map d L = here_instrs cx c T r me from to (place (nres + 100)) ins /\
        by_round L /\ forall a, In a L -> 3 * R <= a_round a <= 3 * R + 1).
    { intros id Hid.
      assert (E32 : (Z.of_nat (length ins) <=? 32) = true) by lia. rewrite E32. cbn [cassert].
      assert (Erec : add_recvs (3 * R) me id 0 c (u32 (c * cx_es cx)) ins = Ok (recvA (3 * R) id 0 ts, offsA 0 ts, n * Z.of_nat (length ts))).
      { change (u32 (c * cx_es cx)) with (u32 n). rewrite add_recvs_ok; [reflexivity|lia|lia|]. fold ts. nia. }
      rewrite Erec. cbn [obind].
      assert (Hcomm : forall A B : list action, (forall a, In a A -> a_round a = 3 * R) -> (forall a, In a B -> a_round a = 3 * R + 1) ->
         by_round (A ++ B) /\ forall a, In a (A ++ B) -> 3 * R <= a_round a <= 3 * R + 1).
      { intros A B HA HB. split.
        - apply SS_app; [eapply const_sorted; eauto|eapply const_sorted; eauto|]. intros a b Ha Hb. rewrite (HA a Ha), (HB b Hb). lia.
        - intros a Ha. apply in_app_or in Ha. destruct Ha as [Ha|Ha]; [rewrite (HA a Ha)|rewrite (HB a Ha)]; lia. }
      assert (Hden : map d (recvA (3 * R) id 0 ts) = recvs cx c (place (nres + 100)) ts).
      { rewrite recvA_den, Z.add_0_r. destruct ts; auto. rewrite Hid by discriminate. auto. }
      assert (Hpl : map (fun o => place id + o) (offsA 0 ts) = places cx c (place (nres + 100)) ts).
      { rewrite offsA_places, Z.add_0_r. destruct ts; auto. rewrite Hid by discriminate. auto. }
      destruct (memb me ins) eqn:Em.
      - assert (El : (Z.of_nat (length (0 :: offsA 0 ts)) =? Z.of_nat (length ins)) = true) by (cbn [length]; rewrite offsA_len; lia).
        rewrite El, Z.eqb_refl. cbn [cassert]. rewrite add_lreds_ok by lia.
        assert (Ec : exists C, (if negb (from =? to) then do x <- add_action (3 * R + 1) (BufCopy from to c); Ok [x] else Ok []) = Ok C /\
            map d C = (if from =? to then [] else [copy_i cx from to c]) /\ forall a, In a C -> a_round a = 3 * R + 1).
        { destruct (from =? to); cbn [negb].
          - exists []. repeat split; auto. intros a [].
          - rewrite add_action_eq by lia. cbn [obind]. eexists. split; [reflexivity|]. split; [reflexivity|]. intros a [<-|[]]. reflexivity. }
        destruct Ec as (C & EC & EC1 & EC2). rewrite EC. cbn [obind].
        eexists. split; [reflexivity|]. split.
        + unfold here_instrs. fold ts. rewrite Em, !map_app, Hden, EC1, map_map, <- Hpl, map_map.
          destruct ins as [|i0 ins0]; [discriminate|]. reflexivity.
        + apply Hcomm; [apply recvA_round|]. intros a Ha. apply in_app_or in Ha. destruct Ha as [Ha|Ha]; [auto|].
          apply in_map_iff in Ha. destruct Ha as (o & <- & _). reflexivity.
      - assert (El : (Z.of_nat (length (offsA 0 ts)) =? Z.of_nat (length ins)) = true) by (rewrite offsA_len; lia).
        assert (Hti : ts = ins) by (apply others_all, memb_not; auto).
        rewrite El, Z.eqb_refl. cbn [cassert].
        destruct ts as [|t0 ts0] eqn:Et.
        + cbn [offsA]. rewrite add_action_eq by lia. cbn [obind]. eexists. split; [reflexivity|]. split.
          * unfold here_instrs. fold ts. rewrite Et, <- Hti. reflexivity.
          * apply Hcomm; [apply recvA_round|]. intros a [<-|[]]. reflexivity.
        + cbn [offsA]. rewrite add_action_eq by lia. cbn [obind]. rewrite add_lreds_ok by lia. cbn [obind app].
          eexists. split; [reflexivity|]. split.
          * unfold here_instrs. fold ts. rewrite Et, map_app, Hden, Em. rewrite <- Hti. f_equal. cbn [map places tl]. f_equal.
            -- change (d (mkAct (3 * R + 1) (RBufCopy id 0 to c))) with (copy_i cx (place id + 0) to c). rewrite Z.add_0_r, (Hid ltac:(discriminate)). auto.
            -- cbn [offsA map places] in Hpl. injection Hpl as _ Hpl. rewrite map_map, <- Hpl, map_map. reflexivity.
          * apply Hcomm; [apply recvA_round|]. intros a [<-|Ha]; [reflexivity|].
            apply in_map_iff in Ha. destruct Ha as (o & <- & _). reflexivity. }
    destruct (n * Z.of_nat (length ts) >? 0) eqn:Ebz.
    - destruct (HB (nres + 100) ltac:(auto)) as (L & EL & HL). exists [mkAct 0 (BufReserve (n * Z.of_nat (length ts)) (nres + 100) 0)], L, (nres + 1).
      split; [|split; [repeat constructor|exact HL]].
      destruct (Z.of_nat (length ins) <=? 32); cbn [cassert] in *; [|discriminate].
      apply obind_ok in EL as ([[rv os] off] & E1 & E2). rewrite E1. cbn [obind].
      apply cassert_ok in E2 as (B1 & E2). apply cassert_ok in E2 as (B2 & E2). rewrite B1, B2. cbn [cassert].
      apply obind_ok in E2 as (acts & E3 & E4). rewrite E3. cbn [obind]. injection E4 as <-. reflexivity.
    - assert (Hts : ts = []) by (destruct ts; auto; cbn [length] in Ebz; nia).
      destruct (HB (-1) ltac:(congruence)) as (L & EL & HL). exists [], L, nres.
      split; [|split; [constructor|exact HL]].
      destruct (Z.of_nat (length ins) <=? 32); cbn [cassert] in *; [|discriminate].
      apply obind_ok in EL as ([[rv os] off] & E1 & E2). rewrite E1. cbn [obind].
      apply cassert_ok in E2 as (B1 & E2). apply cassert_ok in E2 as (B2 & E2). rewrite B1, B2. cbn [cassert].
      apply obind_ok in E2 as (acts & E3 & E4). rewrite E3. cbn [obind]. injection E4 as <-. reflexivity.
  Qed.
End Acts.
