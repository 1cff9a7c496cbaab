(* The processes of a reduction by messages. *)
From Coq Require Import ZArith List Bool Lia ZifyBool ZifyNat Sorted.
From Verif Require Import Base Model_Space Model_Mem Model_Transition Model_Action Model_ActionTrans Model_ActionExec Model_ActionExec2 Model_Net.
From Verif Require Import Spec_Action Spec_ActionTrans Spec_Async Spec_Net Spec_Reduce.
From Verif Require Import Proof_Type Proof_Comb3 Proof_Comb4 Proof_Comb5 Proof_Async1 Proof_Async2 Proof_Async3 Proof_Net Proof_Reduce1 Proof_Reduce2.
Import ListNotations.
Open Scope Z_scope.

Definition quiet (l : list instr) : Prop := Forall (fun i => i_out i = None) l.
Lemma quiet_out l : quiet l -> forall s s', exec_is l s = Some s' -> forall ch, p_out s' ch = p_out s ch.
Proof.
  induction 1 as [|i l Hi Hl IH]; intros s s' E ch; [injection E as <-; auto|]. cbn [exec_is] in E. destruct (exec_i i s) as [s1|] eqn:E1; [|discriminate].
  rewrite (IH _ _ E). unfold exec_i in E1. destruct (_ <? _); [discriminate|]. injection E1 as <-. simpl. rewrite Hi. reflexivity.
Qed.
Lemma recvs_quiet cx c ts : forall a, quiet (recvs cx c a ts).
Proof. induction ts as [|t ts IH]; intros a; constructor; auto. apply IH. Qed.
Lemma lreds_quiet cx T r to c l : quiet (map (fun a => localreduce_i cx T r a to c) l).
Proof. induction l; constructor; auto. Qed.
Lemma here_quiet cx c T r me from to base ins : quiet (here_instrs cx c T r me from to base ins).
Proof.
  unfold here_instrs. apply Forall_app. split; [apply recvs_quiet|].
  destruct ins as [|i ins]; [repeat constructor|]. destruct (memb me (i :: ins)).
  - apply Forall_app. split; [destruct (from =? to); repeat constructor|apply lreds_quiet].
  - constructor; [reflexivity|apply lreds_quiet].
Qed.

Lemma rdb_len m a n : 0 <= n -> Z.of_nat (length (rdb m a n)) = n.
Proof. intros H. unfold rdb. rewrite mread_length. unfold bytes. lia. Qed.
Lemma firstn_rdb m a n : firstn (bytes n) (rdb m a n) = rdb m a n.
Proof. apply firstn_all2. unfold rdb. rewrite mread_length. auto. Qed.
Lemma skipn_rdb m a n : skipn (bytes n) (rdb m a n) = [].
Proof. apply skipn_all2. unfold rdb. rewrite mread_length. auto. Qed.

Lemma noself_quiet p l : quiet l -> noself p l.
Proof. apply Forall_impl. intros i E. rewrite E. discriminate. Qed.
Lemma noself_sends p cx c buf ts : ~ In p ts -> noself p (map (fun t => send_i cx buf c t) ts).
Proof. intros H. apply Forall_forall. intros i Hi. apply in_map_iff in Hi. destruct Hi as (t & <- & Ht). cbn [send_i i_out]. intros E. injection E as ->. auto. Qed.
Lemma noself_skips p k : noself p (repeat skip k).
Proof. apply noself_quiet. induction k; constructor; auto. Qed.

Section Group.
  Variable N : Z.
  Variable cx : Z -> actx.
  Variable place : Z -> Z -> Z.
  Variable T : dtype.
  Variable oth : Z -> apar -> instr.
  Variable nres : Z -> Z.
  Variables i o R c es : Z.
  Variable r : redop.
  Variables from to : Z -> Z.
  Variables ins outs : list Z.
  Variable m : Z -> mem.
  Let n := c * es.
  Let d p := den2 (cx p) (place p) T (oth p).
  Let base p := place p (nres p + 100).

  Hypothesis Hes : forall p, 0 <= p < N -> cx_es (cx p) = es.
  Hypothesis n0 : 0 < n.
  Hypothesis szd : Sized T es r c.
  Hypothesis NI : NoDup ins.
  Hypothesis NO : NoDup outs.
  Hypothesis RI : forall q, In q ins -> 0 <= q < N.
  Hypothesis RO : forall q, In q outs -> 0 <= q < N.
  Hypothesis Hft : forall p, In p outs -> from p = to p \/ apart (region (from p) n) (region (to p) n).
  Hypothesis Htmp : forall p, In p outs -> let tmp := region (base p) (n * Z.of_nat (length (others p ins))) in
    apart tmp (region (from p) n) /\ apart tmp (region (to p) n).

  Definition two : bool := negb (Z.of_nat (length ins) * Z.of_nat (length ins) >? 4 * (Z.of_nat (length ins) + Z.of_nat (length ins))).
  Definition root : Z := hd 0 outs.

  Definition targets (p : Z) : list Z := if two then others p outs else if p =? root then [] else [root].
  Definition partA (p : Z) : list instr := if memb p ins then map (fun t => send_i (cx p) (from p) c t) (targets p) else [].
  Definition here p := here_instrs (cx p) c T r p (from p) (to p) (base p) ins.
  Definition partB (p : Z) : list instr :=
    if two then (if memb p outs then here p else [])
    else if p =? root then here p ++ map (fun t => send_i (cx p) (to p) c t) (others p outs) else [].
  Definition partC (p : Z) : list instr :=
    if two then [] else if p =? root then [] else if memb p outs then [recv_i (cx p) (to p) c root] else [].

  (* ---- the actions ---- *)
  Section Shape.
    Hypothesis Hme : forall p, 0 <= p < N -> cx_me (cx p) = p.
    Hypothesis Hin : forall p, 0 <= p < N -> cx_group (cx p) i = Ok ins.
    Hypothesis Hout : forall p, 0 <= p < N -> cx_group (cx p) o = Ok outs.
    Hypothesis H32 : (length ins <= 32)%nat.
    Hypothesis Hsz : n * Z.of_nat (length ins) < 2 ^ 32.
    Hypothesis HR0 : 0 <= R.
    Hypothesis HR2 : 3 * R + 2 < 255.
    Hypothesis HO0 : outs <> [].

    Lemma sends_den p buf round ts : map (d p) (map (fun t => mkAct round (BufSend buf c t)) ts) = map (fun t => send_i (cx p) buf c t) ts.
    Proof. rewrite map_map. reflexivity. Qed.

    Lemma sorted_program p A res B : Forall resv res -> (forall a, In a A -> a_round a = 3 * R) ->
      by_round B -> (forall a, In a B -> 3 * R <= a_round a <= 3 * R + 2) ->
      exists u v, program (d p) (A ++ res ++ B) = repeat skip u ++ map (d p) A ++ repeat skip v ++ map (d p) B.
    Proof.
      intros Hr HA HB HBr. assert (X := program_resv (d p) A res B (3 * R) Hr). unfold d in X at 3 6. rewrite resv_skip in X by auto.
      destruct X as [X|X]; auto; [lia|intros a Ha; apply HBr in Ha; lia| |].
      - exists 0%nat, (length res). exact X.
      - exists (length res), 0%nat. exact X.
    Qed.

    Lemma split_shape p : 0 <= p < N ->
      exists acts nres' u v, split_one (cx p) (nres p) (mkAct R (GroupReduce i o (from p) (to p) c r)) = Ok (acts, nres') /\
        program (d p) acts = repeat skip u ++ partA p ++ repeat skip v ++ partB p ++ partC p.
    Proof.
      intros Hp. assert (Em := Hme p Hp). assert (Ei := Hin p Hp). assert (Eo' := Hout p Hp).
      assert (HH : exists res L nres', reduce_here (cx p) (nres p) R ins (from p) (to p) c r = Ok (res ++ L, nres') /\ Forall resv res /\
        map (d p) L = here p /\ by_round L /\ forall a, In a L -> 3 * R <= a_round a <= 3 * R + 1).
      { assert (X := reduce_here_ok (cx p) (place p) T (oth p) c r). rewrite (Hes p Hp), Em in X. apply X; auto. lia. }
      destruct HH as (res & L & nr & E & Hres & Hden & Hs & Hrd).
      assert (Hnil : forall A B C, (forall a, In a A -> a_round a = 3 * R) -> (forall a, In a B -> a_round a = 3 * R + 2) -> map (d p) A = C -> 
         exists u v, program (d p) (A ++ B) = repeat skip u ++ C ++ repeat skip v ++ map (d p) B).
      { intros A B C HA HB <-. change (A ++ B) with (A ++ [] ++ B). apply sorted_program; auto; [|intros a Ha; rewrite (HB a Ha); lia]. eapply const_sorted; eauto. }
      unfold split_one. cbn [a_par a_round]. rewrite Ei. cbn [obind]. unfold partA, partB, partC, targets, two.
      destruct (Z.of_nat (length ins) * Z.of_nat (length ins) >? 4 * (Z.of_nat (length ins) + Z.of_nat (length ins))); cbn [negb].
      - unfold add_reduce3, root. rewrite Em, Ei, Eo'. cbn [obind]. destruct outs as [|root outs'] eqn:Eo; [congruence|]. rewrite <- Eo in *.
        cbn [obind]. assert (Eh : hd 0 outs = root) by (rewrite Eo; auto). rewrite Eh.
        destruct (p =? root) eqn:Ep; cbn [negb].
        + rewrite E. cbn [obind fst snd]. assert (XS := add_sends_ok (cx p) c (3 * R + 2) (to p) outs ltac:(lia)). rewrite Em in XS. rewrite XS. cbn [obind].
          assert (HP : exists u v, program (d p) ([] ++ res ++ L ++ map (fun t => mkAct (3 * R + 2) (BufSend (to p) c t)) (others p outs)) = repeat skip u ++ map (d p) [] ++ repeat skip v ++ map (d p) (L ++ map (fun t => mkAct (3 * R + 2) (BufSend (to p) c t)) (others p outs))).
          { apply sorted_program; auto.
            * intros a [].
            * apply SS_app; auto.
              -- apply const_sorted with (k := 3 * R + 2). intros a Ha. apply in_map_iff in Ha. destruct Ha as (t & <- & _). reflexivity.
              -- intros a b Ha Hb. apply Hrd in Ha. apply in_map_iff in Hb. destruct Hb as (t & <- & _). cbn [a_round]. lia.
            * intros a Ha. apply in_app_or in Ha. destruct Ha as [Ha|Ha]; [apply Hrd in Ha; lia|].
              apply in_map_iff in Ha. destruct Ha as (t & <- & _). cbn [a_round]. lia. }
          destruct HP as (u & v & HP). exists (res ++ L ++ map (fun t => mkAct (3 * R + 2) (BufSend (to p) c t)) (others p outs)). eexists. exists u, v. split; [rewrite <- app_assoc; reflexivity|].
          cbn [app] in HP. rewrite HP, map_app, Hden, sends_den, !app_nil_r. destruct (memb p ins); reflexivity.
        + change (existsb (fun x => x =? p) ins) with (memb p ins). change (existsb (fun x => x =? p) outs) with (memb p outs).
          rewrite !add_action_eq by lia. cbn [obind].
          assert (Q : forall (b : bool) (x : action), (if b then Ok [x] else Ok []) = Ok (if b then [x] else [])) by (intros [|] x; auto).
          rewrite !Q. cbn [obind].
          assert (H1 : forall a, In a (if memb p ins then [mkAct (3 * R) (BufSend (from p) c root)] else []) -> a_round a = 3 * R)
            by (destruct (memb p ins); [intros a [<-|[]]; reflexivity|intros a []]).
          assert (H2 : forall a, In a (if memb p outs then [mkAct (3 * R + 2) (BufRecv (to p) c root)] else []) -> a_round a = 3 * R + 2)
            by (destruct (memb p outs); [intros a [<-|[]]; reflexivity|intros a []]).
          destruct (Hnil _ _ _ H1 H2 eq_refl) as (u & v & HP).
          eexists _, _, u, v. split; [reflexivity|]. rewrite HP. destruct (memb p ins), (memb p outs); reflexivity.
      - unfold add_reduce2. rewrite Em, Ei, Eo'. cbn [obind].
        change (existsb (fun x => x =? p) ins) with (memb p ins). change (existsb (fun x => x =? p) outs) with (memb p outs).
        assert (ES : (if memb p ins then add_sends (3 * R) p (from p) c outs else Ok []) =
          Ok (if memb p ins then map (fun t => mkAct (3 * R) (BufSend (from p) c t)) (others p outs) else [])).
        { destruct (memb p ins); auto. assert (X := add_sends_ok (cx p) c (3 * R) (from p) outs). rewrite Em in X. apply X. lia. }
        rewrite ES. cbn [obind].
        assert (SA : forall a, In a (if memb p ins then map (fun t => mkAct (3 * R) (BufSend (from p) c t)) (others p outs) else []) -> a_round a = 3 * R).
        { destruct (memb p ins); [|intros a []]. intros a Ha. apply in_map_iff in Ha. destruct Ha as (t & <- & _). reflexivity. }
        assert (SD : map (d p) (if memb p ins then map (fun t => mkAct (3 * R) (BufSend (from p) c t)) (others p outs) else []) =
          (if memb p ins then map (fun t => send_i (cx p) (from p) c t) (others p outs) else [])).
        { destruct (memb p ins); auto. apply sends_den. }
        destruct (memb p outs); cbn [negb].
        + rewrite E. cbn [obind fst snd]. destruct (sorted_program p _ res L Hres SA Hs) as (u & v & HP).
          { intros a Ha. apply Hrd in Ha. lia. }
          eexists _, _, u, v. split; [reflexivity|]. rewrite HP, SD, Hden, app_nil_r. reflexivity.
        + destruct (Hnil _ [] _ SA ltac:(intros a []) SD) as (u & v & HP). rewrite app_nil_r in HP.
          eexists _, _, u, v. split; [reflexivity|]. rewrite HP. cbn [map app]. reflexivity.
    Qed.
  End Shape.

  (* ---- their effects ---- *)
  Definition given q := rdb (m q) (from q) n.
  Definition outcome_ p (s' : pst) : Prop :=
    (In p outs -> rdb (p_mem s') (to p) n = reduce_all T r c (map given (first_me (if two then p else root) ins))) /\
    (forall x, ~ (In p outs /\ region (to p) n x) ->
       ~ (In p outs /\ (two = true \/ p = root) /\ region (base p) (n * Z.of_nat (length (others p ins))) x) -> p_mem s' x = m p x) /\
    (forall q, 0 <= q < N -> p_in s' (Peer q) = []).

  Lemma first_me_in p x : In x (first_me p ins) <-> In x ins.
  Proof.
    unfold first_me. change (existsb (fun x => x =? p) ins) with (memb p ins). destruct (memb p ins) eqn:E; [|tauto].
    apply memb_in in E. cbn [In]. fold (others p ins). rewrite others_in. destruct (Z.eq_dec x p) as [->|]; intuition congruence.
  Qed.

  Lemma here_run p s : In p outs -> p_mem s = m p -> (forall t, In t (others p ins) -> p_in s (Peer t) = given t) ->
    exists s', exec_is (here_instrs (cx p) c T r p (from p) (to p) (base p) ins) s = Some s' /\
      (forall ch, p_out s' ch = p_out s ch) /\
      (forall q, ~ In q (others p ins) -> p_in s' (Peer q) = p_in s (Peer q)) /\
      (forall t, In t (others p ins) -> p_in s' (Peer t) = []) /\
      (forall x, ~ region (to p) n x -> ~ region (base p) (n * Z.of_nat (length (others p ins))) x -> p_mem s' x = m p x) /\
      rdb (p_mem s') (to p) n = reduce_all T r c (map given (first_me p ins)).
  Proof.
    intros Hp Hm Hi. assert (X := here_exec (cx p) c). rewrite (Hes p (RO p Hp)) in X. fold n in X.
    specialize (X n0 T r szd p (from p) (to p) (base p) ins s NI).
    destruct X as (s' & E & X1 & X2 & X3 & X4 & X5).
    - intros t Ht. rewrite (Hi t Ht). unfold given. rewrite rdb_len; lia.
    - apply Hft; auto.
    - apply Htmp; auto.
    - exists s'. split; [exact E|]. split; [exact X1|]. split; [|split; [|split]].
      + intros q Hq. apply X2. intros (t & Ht & Eq). injection Eq as ->. auto.
      + intros t Ht. rewrite (X3 t Ht), (Hi t Ht). apply skipn_rdb.
      + intros x A B. rewrite X4; auto. rewrite Hm. auto.
      + rewrite X5. f_equal. apply map_ext_in. intros q Hq. apply first_me_in in Hq. destruct (q =? p) eqn:Eq.
        * rewrite Hm. unfold given. replace q with p by lia. auto.
        * rewrite Hi by (apply others_in; split; auto; lia). apply firstn_rdb.
  Qed.

  (* three rounds *)
  Definition result3 := reduce_all T r c (map given (first_me root ins)).
  Hypothesis HO0 : outs <> [].
  Lemma root_in : In root outs.
  Proof. unfold root. destruct outs; [congruence|left; auto]. Qed.

  Lemma result3_len : Z.of_nat (length result3) = n.
  Proof.
    unfold result3, reduce_all. destruct szd as [S1 S2]. destruct (map given (first_me root ins)) as [|v vs] eqn:E; [exact S1|].
    assert (Hall : forall w, In w (v :: vs) -> Z.of_nat (length w) = n).
    { rewrite <- E. intros w Hw. apply in_map_iff in Hw. destruct Hw as (q & <- & _). apply rdb_len. lia. }
    assert (Hv : Z.of_nat (length v) = n) by (apply Hall; left; auto). assert (Hvs : forall w, In w vs -> Z.of_nat (length w) = n) by (intros; apply Hall; right; auto).
    clear E Hall. revert v Hv. induction vs as [|w vs IH]; intros v Hv; [exact Hv|]. cbn [fold_left]. apply IH; [intros; apply Hvs; right; auto|]. apply S2; auto. apply Hvs. left. auto.
  Qed.


  Definition val1 p q := if memb p ins && memb q (targets p) then given p else [].
  Definition val2 p q := if two then [] else if p =? root then (if memb q (others root outs) then result3 else []) else [].
  Definition does p := if two then memb p outs else p =? root.

  Lemma targets_in p q : In q (targets p) <-> q <> p /\ if two then In q outs else q = root.
  Proof.
    unfold targets. destruct two; [rewrite others_in; tauto|]. destruct (p =? root) eqn:E; simpl; intuition; try lia.
  Qed.
  Lemma targets_nodup p : NoDup (targets p).
  Proof. unfold targets. destruct two; [apply others_nodup; auto|]. destruct (p =? root); repeat constructor; auto. Qed.
  Lemma val1_self p : val1 p p = [].
  Proof. unfold val1. destruct (memb p (targets p)) eqn:E; [apply memb_in, targets_in in E; tauto|]. rewrite andb_false_r. auto. Qed.
  Lemma val2_self p : val2 p p = [].
  Proof. unfold val2. destruct two; auto. destruct (p =? root) eqn:E; auto. destruct (memb p (others root outs)) eqn:F; auto. apply memb_in, others_in in F. lia. Qed.
  Lemma does_out p : does p = true -> In p outs.
  Proof. unfold does. destruct two; [apply memb_in|]. intros E. replace p with root by lia. apply root_in. Qed.

  Lemma group_run (code : Z -> list instr) :
    (forall p, 0 <= p < N -> exists u v, code p = repeat skip u ++ partA p ++ repeat skip v ++ partB p ++ partC p) ->
    AlwaysEnds N (nstart code m) outcome_.
  Proof.
    intros Hcode. destruct (choice_range 0%nat _ N Hcode) as (u & Hcode1).
    destruct (choice_range 0%nat _ N Hcode1) as (v & Hc). clear Hcode Hcode1.
    (* first *)
    destruct (phase_ex N (fun p => repeat skip (u p) ++ partA p) (fun p => repeat skip (v p) ++ partB p ++ partC p) val1
      (fun p s => p_mem s = m p /\ (forall ch, p_in s ch = []) /\ forall q, p_out s (Peer q) = val1 p q) (nstart code m)) as (sc1 & y1 & S1 & R1 & Y1).
    { intros p Hp. cbn [nstart pr_code pr_st]. split; [rewrite (Hc p Hp), <- app_assoc; auto|]. split.
      - apply Forall_app. split; [apply noself_skips|]. unfold partA. destruct (memb p ins); [|constructor]. apply noself_sends. rewrite targets_in. tauto.
      - rewrite exec_is_app. destruct (skips_exec (u p) (mkP (m p) (fun _ => []) (fun _ => []))) as (s0 & E0 & A0 & B0 & C0). rewrite E0. cbn [p_mem p_in p_out] in *.
        unfold partA, val1. destruct (memb p ins); cbn [andb].
        + destruct (exec_sends (cx p) c (from p) (targets p) s0) as (s1 & X & X1 & X2 & X3). exists s1. split; [exact X|].
          assert (Q : forall q, p_out s1 (Peer q) = if memb q (targets p) then given p else []).
          { intros q. rewrite X3, C0, (Hes p Hp), A0, (flat_peer (cx p) c) by (apply targets_nodup). reflexivity. }
          split; [auto|]. split; [congruence|]. split; [intros ch; rewrite X2; auto|auto].
        + exists s0. split; [reflexivity|]. split; [intros q; rewrite C0; auto|]. split; [auto|]. split; [auto|]. intros q. rewrite C0. auto. }
    (* second *)
    destruct (phase_ex N (fun p => repeat skip (v p) ++ partB p) partC val2
      (fun p s => (if does p then rdb (p_mem s) (to p) n = reduce_all T r c (map given (first_me p ins)) /\
           (forall x, ~ region (to p) n x -> ~ region (base p) (n * Z.of_nat (length (others p ins))) x -> p_mem s x = m p x)
         else p_mem s = m p) /\ (forall q, 0 <= q < N -> p_in s (Peer q) = [])) y1) as (sc2 & y2 & S2 & R2 & Y2).
    { intros p Hp. destruct (Y1 p Hp) as (Cy & s1 & (P1 & P2 & P3) & M1 & O1 & I1). split; [rewrite Cy, <- app_assoc; auto|].
      assert (NH : noself p (here p)) by (apply noself_quiet, here_quiet).
      assert (NS : noself p (map (fun t => send_i (cx p) (to p) c t) (others p outs))) by (apply noself_sends; rewrite others_in; tauto).
      split.
      - apply Forall_app. split; [apply noself_skips|]. unfold partB. destruct two; [destruct (memb p outs); auto; constructor|].
        destruct (p =? root); [apply Forall_app; auto|constructor].
      - assert (I2 : forall q, 0 <= q < N -> p_in (pr_st (y1 p)) (Peer q) = val1 q p).
        { intros q Hq. rewrite I1, P2 by auto. cbn [app]. destruct (q =? p) eqn:E; auto. replace q with p by lia. rewrite val1_self. auto. }
        rewrite exec_is_app. destruct (skips_exec (v p) (pr_st (y1 p))) as (s0 & E0 & A0 & B0 & C0). rewrite E0.
        assert (M2 : p_mem s0 = m p) by congruence.
        destruct (does p) eqn:Ed.
        + assert (Hpo := does_out p Ed). destruct (here_run p s0 Hpo M2) as (s2 & E & X1 & X2 & X3 & X4 & X5).
          { intros t Ht. apply others_in in Ht. destruct Ht as [Ht Htp]. rewrite B0, I2 by (apply RI; auto). unfold val1.
            assert (F1 : memb t ins = true) by (apply memb_in; auto). assert (F2 : memb p (targets t) = true).
            { apply memb_in, targets_in. split; auto. unfold does in Ed. destruct two; auto. lia. }
            rewrite F1, F2. reflexivity. }
          fold (here p) in E.
          assert (IE : forall q, 0 <= q < N -> p_in s2 (Peer q) = []).
          { intros q Hq. destruct (in_dec Z.eq_dec q (others p ins)) as [J|J]; [auto|]. rewrite X2, B0, I2 by auto.
            destruct (Z.eq_dec q p) as [->|Hqp]; [apply val1_self|]. unfold val1. destruct (memb q ins) eqn:F; auto. exfalso. apply J, others_in. apply memb_in in F. auto. }
          unfold does, partB, val2 in *. destruct two.
          * rewrite Ed. exists s2. split; [exact E|]. split; [intros q; rewrite X1, C0, app_nil_r; auto|]. auto.
          * rewrite Ed. rewrite exec_is_app, E. destruct (exec_sends (cx p) c (to p) (others p outs) s2) as (s3 & Z0 & Z1 & Z2 & Z3). exists s3. split; [exact Z0|]. split.
            -- intros q. rewrite Z3, X1, C0, (Hes p Hp), (flat_peer (cx p) c) by (apply others_nodup; auto). fold n. rewrite X5. unfold result3. replace root with p by lia. reflexivity.
            -- rewrite Z1. split; [auto|]. intros q Hq. rewrite Z2. auto.
        + exists s0. unfold does, partB, val2 in *. split; [destruct two; rewrite Ed; reflexivity|].
          split; [intros q; rewrite C0; destruct two; rewrite ?Ed, app_nil_r; auto|]. split; [auto|].
          intros q Hq. rewrite B0, I2 by auto. unfold val1. destruct (memb p (targets q)) eqn:F; [|rewrite andb_false_r; auto].
          apply memb_in, targets_in in F. destruct two; [apply memb_not in Ed; tauto|lia]. }
    (* third *)
    destruct (phase_ex N partC (fun _ => []) (fun _ _ => []) outcome_ y2) as (sc3 & y3 & S3 & R3 & Y3).
    { intros p Hp. destruct (Y2 p Hp) as (Cy & s2 & (P1 & P2) & M1 & O1 & I1). split; [rewrite app_nil_r; auto|].
      assert (I2 : forall q, 0 <= q < N -> p_in (pr_st (y2 p)) (Peer q) = val2 q p).
      { intros q Hq. rewrite I1, P2 by auto. cbn [app]. destruct (q =? p) eqn:E; auto. replace q with p by lia. rewrite val2_self. auto. }
      assert (Hri := RO _ root_in).
      split; [unfold partC; destruct two; [constructor|]; destruct (p =? root); [constructor|]; destruct (memb p outs); repeat constructor; discriminate|].
      destruct (two) eqn:E2; [|destruct (p =? root) eqn:Er; [|destruct (memb p outs) eqn:Eo]]; unfold partC; rewrite ?E2, ?Er, ?Eo.
      - exists (pr_st (y2 p)). split; [reflexivity|]. split; [intros; rewrite app_nil_r; auto|]. unfold outcome_. rewrite E2. unfold does in P1. rewrite E2 in P1. rewrite M1.
        split; [|split].
        + intros Ho. apply memb_in in Ho. rewrite Ho in P1. tauto.
        + intros x A B. destruct (memb p outs) eqn:F; [|rewrite P1; auto]. apply memb_in in F. apply P1; tauto.
        + intros q Hq. rewrite I2 by auto. unfold val2. rewrite E2. auto.
      - exists (pr_st (y2 p)). split; [reflexivity|]. split; [intros; rewrite app_nil_r; auto|]. unfold outcome_. rewrite E2. unfold does in P1. rewrite E2, Er in P1. rewrite M1.
        assert (p = root) by lia. subst p. assert (Hro := root_in). split; [|split].
        + intros _. tauto.
        + intros x A B. apply P1; tauto.
        + intros q Hq. rewrite I2 by auto. unfold val2. rewrite E2. destruct (q =? root) eqn:F; auto. destruct (memb root (others root outs)) eqn:G; auto. apply memb_in, others_in in G. tauto.
      - unfold does in P1. rewrite E2, Er in P1. apply memb_in in Eo. assert (Hrp : val2 root p = result3).
        { unfold val2. rewrite E2, Z.eqb_refl. assert (A : memb p (others root outs) = true) by (apply memb_in, others_in; split; auto; lia). rewrite A. reflexivity. }
        assert (RL := result3_len).
        cbn [exec_is]. unfold exec_i, recv_i. cbn [i_in i_take i_out i_write i_send]. rewrite (Hes p Hp). fold n. rewrite I2, Hrp, RL by auto.
        rewrite Z.ltb_irrefl. rewrite firstn_all2 by (unfold bytes; lia).
        eexists. split; [reflexivity|]. split; [intros; rewrite app_nil_r; reflexivity|]. unfold outcome_. rewrite E2. cbn [p_mem p_in]. split; [|split].
        + intros _. unfold rdb. replace (bytes n) with (length result3) by (unfold bytes; lia). apply mread_mwrite_same; auto.
        + intros x A _. rewrite mwrite_keep; [rewrite M1, P1; auto|]. rewrite RL. intros F. apply A. split; auto.
        + intros q Hq. rewrite on_peer. destruct (q =? root) eqn:Eq.
          * replace q with root by lia. rewrite I2, Hrp by auto. apply skipn_all2. unfold bytes. lia.
          * rewrite I2 by auto. unfold val2. rewrite E2, Eq. auto.
      - unfold does in P1. rewrite E2, Er in P1. apply memb_not in Eo. exists (pr_st (y2 p)). split; [reflexivity|]. split; [intros; rewrite app_nil_r; auto|].
        split; [tauto|]. split; [intros; rewrite M1, P1; auto|]. intros q Hq. rewrite I2 by auto. unfold val2. rewrite E2. destruct (q =? root); auto.
        destruct (memb p (others root outs)) eqn:G; auto. apply memb_in, others_in in G. tauto. }
    apply (one_for_all N _ (sc1 ++ sc2 ++ sc3) y3).
    - intros p Hp. rewrite !in_app_iff in Hp. destruct Hp as [Hp|[Hp|Hp]]; auto.
    - rewrite nrun_app, R1, nrun_app, R2. exact R3.
    - intros p Hp. apply (Y3 p Hp).
    - intros p s Hp [P1 P2 P3]. destruct (Y3 p Hp) as (_ & s3 & (Q1 & Q2 & Q3) & M & O & I). rewrite M in P1. unfold outcome_. rewrite <- P1. split; [auto|]. split; [auto|].
      intros q Hq. rewrite <- P2, I, Q3 by auto. destruct (q =? p); reflexivity.
  Qed.
End Group.
