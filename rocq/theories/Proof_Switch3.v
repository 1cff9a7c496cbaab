(* The action sequences of a transition: their parts, by round. *)
From Coq Require Import ZArith List Bool Lia ZifyBool ZifyNat Sorted.
From Verif Require Import Base Model_Space Model_Mem Model_Transition Model_Action Model_ActionTrans Model_ActionExec Model_ActionExec2 Model_Net.
From Verif Require Import Spec_Action Spec_ActionTrans Spec_Async Spec_Reduce.
From Verif Require Import Proof_Type Proof_Comb3 Proof_Comb4 Proof_Comb5 Proof_Async1 Proof_Async2 Proof_Async3 Proof_Net Proof_Reduce1 Proof_Reduce2 Proof_Reduce3 Proof_Switch1 Proof_Switch2.
Import ListNotations.
Open Scope Z_scope.

Section Acts.
  Variable cx : actx.
  Variable place : Z -> Z.
  Variable T : dtype.
  Variable oth : apar -> instr.
  Variables c : Z.
  Variable r : redop.
  Let es := cx_es cx.
  Let n := c * es.
  Let me := cx_me cx.
  Let d := den2 cx place T oth.
  Hypothesis n0 : 0 < n.
  Lemma reduce_here_parts nres R ins from to : NoDup ins -> (length ins <= 32)%nat -> n * Z.of_nat (length ins) < 2 ^ 32 -> 0 <= R -> 3 * R + 1 < 255 ->
    exists res V L nres', reduce_here cx nres R ins from to c r = Ok (res ++ V ++ L, nres') /\
      (if n * Z.of_nat (length (others me ins)) >? 0 then res = [mkAct 0 (BufReserve (n * Z.of_nat (length (others me ins))) (nres + 100) 0)] /\ nres' = nres + 1 else res = [] /\ nres' = nres) /\
      map d V = recvs cx c (place (nres + 100)) (others me ins) /\ map d L = local_instrs cx c T r me from to (place (nres + 100)) ins /\
      (forall a, In a V -> a_round a = 3 * R) /\ (forall a, In a L -> a_round a = 3 * R + 1).
  Proof.
    intros HN H32 Hsz HR HR2. set (ts := others me ins).
    assert (Hlen : length ins = ((if memb me ins then 1 else 0) + length ts)%nat).
    { destruct (memb me ins) eqn:Em; [apply others_len; auto; apply memb_in; auto|]. unfold ts. rewrite others_all; auto. apply memb_not. auto. }
    assert (En : ins <> [] -> u32 (c * cx_es cx) = n) by (intros Hi; apply u32_id; fold es n; destruct ins; [congruence|cbn [length] in *; nia]).
    unfold reduce_here. fold me. change (existsb (fun x => x =? me) ins) with (memb me ins).
    set (wm := if memb me ins then Z.of_nat (length ins) - 1 else Z.of_nat (length ins)).
    assert (Ewm : wm = Z.of_nat (length ts)) by (subst wm; destruct (memb me ins); lia).
    assert (Ebs : u32 (wm * u32 (c * cx_es cx)) = n * Z.of_nat (length ts)).
    { rewrite Ewm. destruct ts as [|t0 ts0] eqn:Et; [simpl; rewrite Z.mul_0_r; reflexivity|].
      rewrite En by (intros E; unfold ts in Et; rewrite E in Et; discriminate). rewrite Z.mul_comm. apply u32_id. rewrite <- Et in *. nia. }
    rewrite Ebs. unfold add_reserve.
    (* the sequence for a buffer number *)
    assert (HB : forall id, (ts <> [] -> id = nres + 100) ->
      exists V L, (cassert (Z.of_nat (length ins) <=? 32)
         (do x <- add_recvs (3 * R) me id 0 c (u32 (c * cx_es cx)) ins;
          (let '(recvs, offs, off) := x in
           let bufOff := if memb me ins then 0 :: offs else offs in
           cassert (Z.of_nat (length bufOff) =? Z.of_nat (length ins))
             (cassert (off =? n * Z.of_nat (length ts))
                (do acts <- match bufOff with
                  | [] => do x <- add_action (3 * R + 1) (BufInit r to c); Ok [x]
                  | o0 :: os =>
                      do c0 <- (if memb me ins then
                          if negb (from =? to) then do x <- add_action (3 * R + 1) (BufCopy from to c); Ok [x] else Ok []
                          else do x <- add_action (3 * R + 1) (RBufCopy id o0 to c); Ok [x]);
                      do l <- add_local_reds (3 * R + 1) r id os to c; Ok (c0 ++ l)
                  end; Ok (recvs ++ acts)))))) = Ok (V ++ L) /\
        map d V = recvs cx c (place (nres + 100)) (others me ins) /\ map d L = local_instrs cx c T r me from to (place (nres + 100)) ins /\
        (forall a, In a V -> a_round a = 3 * R) /\ (forall a, In a L -> a_round a = 3 * R + 1)).
    { intros id Hid.
      assert (E32 : (Z.of_nat (length ins) <=? 32) = true) by lia. rewrite E32. cbn [cassert].
      assert (Erec : add_recvs (3 * R) me id 0 c (u32 (c * cx_es cx)) ins = Ok (recvA cx c (3 * R) id 0 ts, offsA cx c 0 ts, n * Z.of_nat (length ts))).
      { change (u32 (c * cx_es cx)) with (u32 n). assert (X := Proof_Reduce2.add_recvs_ok cx c n0 (3 * R) id ins ltac:(lia) 0 ltac:(lia)). change (c * cx_es cx) with n in X. change (others (cx_me cx) ins) with ts in X. change (cx_me cx) with me in X. rewrite X; [reflexivity|]. nia. }
      rewrite Erec. cbn [obind].
      assert (Hden : map d (recvA cx c (3 * R) id 0 ts) = recvs cx c (place (nres + 100)) ts).
      { unfold d. rewrite recvA_den, Z.add_0_r. destruct ts; auto. rewrite Hid by discriminate. auto. }
      assert (Hpl : map (fun o => place id + o) (offsA cx c 0 ts) = places cx c (place (nres + 100)) ts).
      { rewrite offsA_places, Z.add_0_r. destruct ts; auto. rewrite Hid by discriminate. auto. }
      destruct (memb me ins) eqn:Em.
      - assert (El : (Z.of_nat (length (0 :: offsA cx c 0 ts)) =? Z.of_nat (length ins)) = true) by (cbn [length]; rewrite offsA_len; lia).
        rewrite El, Z.eqb_refl. cbn [cassert]. rewrite add_lreds_ok by lia.
        assert (Ec : exists C, (if negb (from =? to) then do x <- add_action (3 * R + 1) (BufCopy from to c); Ok [x] else Ok []) = Ok C /\
            map d C = (if from =? to then [] else [copy_i cx from to c]) /\ forall a, In a C -> a_round a = 3 * R + 1).
        { destruct (from =? to); cbn [negb].
          - exists []. repeat split; auto. intros a [].
          - rewrite add_action_eq by lia. cbn [obind]. eexists. split; [reflexivity|]. split; [reflexivity|]. intros a [<-|[]]. reflexivity. }
        destruct Ec as (C & EC & EC1 & EC2). rewrite EC. cbn [obind].
        exists (recvA cx c (3 * R) id 0 ts). eexists. split; [reflexivity|]. split; [exact Hden|]. split; [|split; [apply recvA_round|]].
        + unfold local_instrs. fold ts. rewrite Em, !map_app, EC1, map_map, <- Hpl, map_map.
          destruct ins as [|i0 ins0]; [discriminate|]. reflexivity.
        + intros a Ha. apply in_app_or in Ha. destruct Ha as [Ha|Ha]; [auto|].
          apply in_map_iff in Ha. destruct Ha as (o & <- & _). reflexivity.
      - assert (El : (Z.of_nat (length (offsA cx c 0 ts)) =? Z.of_nat (length ins)) = true) by (rewrite offsA_len; lia).
        assert (Hti : ts = ins) by (apply others_all, memb_not; auto).
        rewrite El, Z.eqb_refl. cbn [cassert].
        destruct ts as [|t0 ts0] eqn:Et.
        + cbn [offsA]. rewrite add_action_eq by lia. cbn [obind]. exists []. eexists. split; [reflexivity|]. split; [|split; [|split; [intros a []|]]].
          * fold ts. rewrite Et. reflexivity.
          * unfold local_instrs. fold ts. rewrite <- Hti. reflexivity.
          * intros a [<-|[]]. reflexivity.
        + cbn [offsA]. rewrite add_action_eq by lia. cbn [obind]. rewrite add_lreds_ok by lia. cbn [obind app].
          exists (recvA cx c (3 * R) id 0 (t0 :: ts0)). eexists. split; [reflexivity|]. split; [fold ts; rewrite Et; exact Hden|]. split; [|split; [apply recvA_round|]].
          * unfold local_instrs. fold ts. rewrite Et, Em. rewrite <- Hti. cbn [map places tl]. f_equal.
            -- change (d (mkAct (3 * R + 1) (RBufCopy id 0 to c))) with (copy_i cx (place id + 0) to c). rewrite Z.add_0_r, (Hid ltac:(discriminate)). auto.
            -- cbn [offsA map places] in Hpl. injection Hpl as _ Hpl. rewrite map_map, <- Hpl, map_map. reflexivity.
          * intros a [<-|Ha]; [reflexivity|].
            apply in_map_iff in Ha. destruct Ha as (o & <- & _). reflexivity. }
    destruct (n * Z.of_nat (length ts) >? 0) eqn:Ebz.
    - destruct (HB (nres + 100) ltac:(auto)) as (V & L & EL & HL). exists [mkAct 0 (BufReserve (n * Z.of_nat (length ts)) (nres + 100) 0)], V, L, (nres + 1).
      split; [|split; [split; reflexivity|exact HL]].
      destruct (Z.of_nat (length ins) <=? 32); cbn [cassert] in *; [|discriminate].
      apply obind_ok in EL as ([[rv os] off] & E1 & E2). rewrite E1. cbn [obind].
      apply cassert_ok in E2 as (B1 & E2). apply cassert_ok in E2 as (B2 & E2). rewrite B1, B2. cbn [cassert].
      apply obind_ok in E2 as (acts & E3 & E4). rewrite E3. cbn [obind]. injection E4 as E4. rewrite <- E4. reflexivity.
    - assert (Hts : ts = []) by (destruct ts; auto; cbn [length] in Ebz; nia).
      destruct (HB (-1) ltac:(congruence)) as (V & L & EL & HL). exists [], V, L, nres.
      split; [|split; [split; reflexivity|exact HL]].
      destruct (Z.of_nat (length ins) <=? 32); cbn [cassert] in *; [|discriminate].
      apply obind_ok in EL as ([[rv os] off] & E1 & E2). rewrite E1. cbn [obind].
      apply cassert_ok in E2 as (B1 & E2). apply cassert_ok in E2 as (B2 & E2). rewrite B1, B2. cbn [cassert].
      apply obind_ok in E2 as (acts & E3 & E4). rewrite E3. cbn [obind]. injection E4 as E4. rewrite <- E4. reflexivity.
  Qed.
End Acts.

Lemma filter_all {A} (f : A -> bool) l : (forall a, In a l -> f a = true) -> filter f l = l.
Proof. induction l as [|a l IH]; intros H; auto. simpl. rewrite (H a) by (left; auto). rewrite IH; auto. intros; apply H; right; auto. Qed.
Lemma filter_rd k l : (forall a, In a l -> a_round a = k) -> filter (in_rd k) l = l.
Proof. intros H. apply filter_all. intros a Ha. unfold in_rd. rewrite (H a Ha). lia. Qed.
Lemma filter_rd0 k k' l : k <> k' -> (forall a, In a l -> a_round a = k') -> filter (in_rd k) l = [].
Proof. intros Hk H. apply filter_none. intros a Ha. unfold in_rd. rewrite (H a Ha). lia. Qed.

Section One.
  Variable cx : actx.
  Variable place : Z -> Z.
  Variable T : dtype.
  Variable oth : apar -> instr.
  Variables c : Z.
  Variable r : redop.
  Let es := cx_es cx.
  Let n := c * es.
  Let p := cx_me cx.
  Let d := den2 cx place T oth.
  Hypothesis n0 : 0 < n.

  (* the parts of a reduction *)
  Definition redA from ins outs : list instr := if memb p ins then map (fun t => send_i cx from c t) (targets ins outs p) else [].
  Definition redV base ins outs : list instr := if does ins outs p then recvs cx c base (others p ins) else [].
  Definition redL from to base ins outs : list instr := if does ins outs p then local_instrs cx c T r p from to base ins else [].
  Definition redC1 to ins outs : list instr := if negb (two ins) && (p =? root outs) then map (fun t => send_i cx to c t) (others p outs) else [].
  Definition redC2 to ins outs : list instr := if negb (two ins) && negb (p =? root outs) && memb p outs then [recv_i cx to c (root outs)] else [].

  Definition resize (ins outs : list Z) : Z := if does ins outs p then n * Z.of_nat (length (others p ins)) else 0.

  Lemma split_parts nres R i o f t ins outs : cx_group cx i = Ok ins -> cx_group cx o = Ok outs -> NoDup ins -> NoDup outs ->
    (length ins <= 32)%nat -> n * Z.of_nat (length ins) < 2 ^ 32 -> 1 <= R -> 3 * R + 2 < 255 -> (outs = [] -> two ins = true) ->
    exists acts nres', split_one cx nres (mkAct R (GroupReduce i o f t c r)) = Ok (acts, nres') /\
      map d (filter (in_rd (3 * R)) acts) = redA f ins outs ++ redV (place (nres + 100)) ins outs /\
      map d (filter (in_rd (3 * R + 1)) acts) = redL f t (place (nres + 100)) ins outs /\
      map d (filter (in_rd (3 * R + 2)) acts) = redC1 t ins outs ++ redC2 t ins outs /\
      (forall a, In a acts -> a_round a = 0 \/ 3 * R <= a_round a <= 3 * R + 2) /\
      filter (in_rd 0) acts = (if resize ins outs >? 0 then [mkAct 0 (BufReserve (resize ins outs) (nres + 100) 0)] else []) /\
      nres' = nres + (if resize ins outs >? 0 then 1 else 0).
  Proof.
    intros Ei Eo NI NO H32 Hsz HR HR2 HO0.
    assert (HH := reduce_here_parts cx place T oth c r n0 nres R ins f t NI H32 Hsz ltac:(lia) ltac:(lia)).
    destruct HH as (res & V & L & nr & E & Hres & DV & DL & RV & RL). change (den2 cx place T oth) with d in DV, DL.
    change (c * cx_es cx) with n in Hres. change (cx_me cx) with p in Hres, DV, DL.
    assert (HS : forall round buf ts, round < 255 -> add_sends round p buf c ts = Ok (map (fun t => mkAct round (BufSend buf c t)) (others p ts))) by (intros; apply add_sends_ok; auto).
    assert (HSd : forall round buf ts, map d (map (fun t => mkAct round (BufSend buf c t)) ts) = map (fun t => send_i cx buf c t) ts) by (intros; rewrite map_map; reflexivity).
    assert (HSr : forall round buf ts a, In a (map (fun t => mkAct round (BufSend buf c t)) ts) -> a_round a = round) by (intros round buf ts a Ha; apply in_map_iff in Ha; destruct Ha as (x & <- & _); reflexivity).
    assert (HR0 : forall a, In a res -> a_round a = 0).
    { destruct (_ >? 0) in Hres; destruct Hres as [-> _]; [intros a [<-|[]]; reflexivity|intros a []]. }
    (* any combination of parts *)
    assert (HC : forall A B C (x : bool), (forall a, In a A -> a_round a = 3 * R) -> (forall a, In a C -> a_round a = 3 * R + 2) ->
        B = (if x then res ++ V ++ L else []) ->
        filter (in_rd (3 * R)) (A ++ B ++ C) = A ++ (if x then V else []) /\ filter (in_rd (3 * R + 1)) (A ++ B ++ C) = (if x then L else []) /\
        filter (in_rd (3 * R + 2)) (A ++ B ++ C) = C /\ filter (in_rd 0) (A ++ B ++ C) = (if x then res else []) /\
        (forall a, In a (A ++ B ++ C) -> a_round a = 0 \/ 3 * R <= a_round a <= 3 * R + 2)).
    { intros A B C x HA HC ->. rewrite !filter_app.
      rewrite (filter_rd (3 * R) A), (filter_rd0 (3 * R) (3 * R + 2) C), (filter_rd0 (3 * R + 1) (3 * R) A), (filter_rd0 (3 * R + 1) (3 * R + 2) C), (filter_rd0 (3 * R + 2) (3 * R) A), (filter_rd (3 * R + 2) C),
        (filter_rd0 0 (3 * R) A), (filter_rd0 0 (3 * R + 2) C) by (auto; lia).
      destruct x; cbn [filter app].
      - rewrite !filter_app. rewrite (filter_rd0 (3 * R) 0 res), (filter_rd (3 * R) V), (filter_rd0 (3 * R) (3 * R + 1) L), (filter_rd0 (3 * R + 1) 0 res), (filter_rd0 (3 * R + 1) (3 * R) V), (filter_rd (3 * R + 1) L),
          (filter_rd0 (3 * R + 2) 0 res), (filter_rd0 (3 * R + 2) (3 * R) V), (filter_rd0 (3 * R + 2) (3 * R + 1) L), (filter_rd 0 res), (filter_rd0 0 (3 * R) V), (filter_rd0 0 (3 * R + 1) L) by (auto; lia).
        rewrite !app_nil_r. cbn [app]. repeat split; auto. intros a Ha. rewrite !in_app_iff in Ha.
        destruct Ha as [Ha|[[Ha|[Ha|Ha]]|Ha]]; [apply HA in Ha|apply HR0 in Ha|apply RV in Ha|apply RL in Ha|apply HC in Ha]; lia.
      - rewrite ?app_nil_r. repeat split; auto. intros a Ha. rewrite !in_app_iff in Ha. destruct Ha as [Ha|Ha]; [apply HA in Ha|apply HC in Ha]; lia. }
    assert (HZ : forall x, does ins outs p = x -> (if x then res else []) = (if resize ins outs >? 0 then [mkAct 0 (BufReserve (resize ins outs) (nres + 100) 0)] else []) /\
        (if x then nr else nres) = nres + (if resize ins outs >? 0 then 1 else 0)).
    { intros x Ex. unfold resize. rewrite Ex. destruct x; [|split; [reflexivity|change (0 >? 0) with false; cbn iota; lia]].
      destruct (_ >? 0); destruct Hres as [-> ->]; split; auto; lia. }
    unfold split_one. cbn [a_par a_round]. rewrite Ei. cbn [obind].
    unfold redA, redV, redL, redC1, redC2, targets.
    assert (E2 : two ins = negb (Z.of_nat (length ins) * Z.of_nat (length ins) >? 4 * (Z.of_nat (length ins) + Z.of_nat (length ins)))) by reflexivity.
    destruct (Z.of_nat (length ins) * Z.of_nat (length ins) >? 4 * (Z.of_nat (length ins) + Z.of_nat (length ins))); cbn [negb] in E2; rewrite !E2; cbn [negb andb].
    - unfold add_reduce3. rewrite Ei, Eo. cbn [obind]. destruct outs as [|rt outs'] eqn:Eou; [rewrite HO0 in E2 by auto; discriminate|]. rewrite <- Eou in *.
      cbn [obind]. assert (Ert : root outs = rt) by (unfold root; rewrite Eou; auto). rewrite Ert.
      assert (Ed : does ins outs p = (p =? rt)) by (unfold does; rewrite E2, Ert; auto). rewrite !Ed. fold p. destruct (p =? rt) eqn:Ep; cbn [negb andb].
      + rewrite E. cbn [obind fst snd]. rewrite HS by lia. cbn [obind].
        destruct (HC [] (res ++ V ++ L) (map (fun t0 => mkAct (3 * R + 2) (BufSend t c t0)) (others p outs)) true) as (X1 & X2 & X3 & X4 & X5); auto; [intros a []|apply HSr|].
        destruct (HZ true Ed) as (Z1 & Z2). cbn [app] in *.
        eexists _, _. split; [reflexivity|]. rewrite X1, X2, X3, X4, DV, DL, HSd, app_nil_r. destruct (memb p ins); repeat split; auto.
      + change (existsb (fun x => x =? p) ins) with (memb p ins). change (existsb (fun x => x =? p) outs) with (memb p outs).
        rewrite !add_action_eq by lia. cbn [obind].
        assert (Q : forall (b : bool) (x : action), (if b then Ok [x] else Ok []) = Ok (if b then [x] else [])) by (intros [|] x; auto).
        rewrite !Q. cbn [obind].
        assert (H1 : forall a, In a (if memb p ins then [mkAct (3 * R) (BufSend f c rt)] else []) -> a_round a = 3 * R)
            by (destruct (memb p ins); [intros a [<-|[]]; reflexivity|intros a []]).
        assert (H2 : forall a, In a (if memb p outs then [mkAct (3 * R + 2) (BufRecv t c rt)] else []) -> a_round a = 3 * R + 2)
            by (destruct (memb p outs); [intros a [<-|[]]; reflexivity|intros a []]).
        destruct (HC _ [] _ false H1 H2 eq_refl) as (X1 & X2 & X3 & X4 & X5). cbn [app] in *. destruct (HZ false Ed) as (Z1 & Z2).
        eexists _, _. split; [reflexivity|]. rewrite X1, X2, X3, X4. split; [destruct (memb p ins); reflexivity|]. split; auto. split; [destruct (memb p outs); reflexivity|]. auto.
    - unfold add_reduce2. rewrite Ei, Eo. cbn [obind]. fold p.
      change (existsb (fun x => x =? p) ins) with (memb p ins). change (existsb (fun x => x =? p) outs) with (memb p outs).
      assert (ES : (if memb p ins then add_sends (3 * R) p f c outs else Ok []) = Ok (if memb p ins then map (fun t => mkAct (3 * R) (BufSend f c t)) (others p outs) else [])).
      { destruct (memb p ins); auto. apply HS. lia. }
      rewrite ES. cbn [obind].
      assert (H1 : forall a, In a (if memb p ins then map (fun t => mkAct (3 * R) (BufSend f c t)) (others p outs) else []) -> a_round a = 3 * R)
        by (destruct (memb p ins); [apply HSr|intros a []]).
      assert (D1 : map d (if memb p ins then map (fun t => mkAct (3 * R) (BufSend f c t)) (others p outs) else []) = if memb p ins then map (fun t => send_i cx f c t) (others p outs) else [])
        by (destruct (memb p ins); auto).
      assert (Ed : does ins outs p = memb p outs) by (unfold does; rewrite E2; auto). rewrite !Ed.
      destruct (memb p outs); cbn [negb].
      + rewrite E. cbn [obind fst snd]. destruct (HC _ (res ++ V ++ L) [] true H1 ltac:(intros a []) eq_refl) as (X1 & X2 & X3 & X4 & X5). rewrite app_nil_r in *.
        destruct (HZ true Ed) as (Z1 & Z2). eexists _, _. split; [reflexivity|]. rewrite X1, X2, X3, X4, map_app, DV, DL, D1. repeat split; auto.
      + destruct (HC _ [] [] false H1 ltac:(intros a []) eq_refl) as (X1 & X2 & X3 & X4 & X5). rewrite !app_nil_r in *.
        destruct (HZ false Ed) as (Z1 & Z2). eexists _, _. split; [reflexivity|]. rewrite X1, X2, X3, X4, D1. repeat split; auto.
  Qed.
End One.
