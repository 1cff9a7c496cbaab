(* Segments of indexes, each moved from one process to others or reduced: all together. *)
From Coq Require Import ZArith List Bool Lia ZifyBool ZifyNat Sorted.
From Verif Require Import Base Model_Space Model_Mem Model_Transition Model_Action Model_ActionTrans Model_ActionExec Model_ActionExec2 Model_Net.
From Verif Require Import Spec_Action Spec_ActionTrans Spec_Async Spec_Net Spec_Reduce.
From Verif Require Import Proof_Type Proof_Comb3 Proof_Comb4 Proof_Comb5 Proof_Async1 Proof_Async2 Proof_Async3 Proof_Net Proof_Reduce1 Proof_Reduce2 Proof_Reduce3 Proof_Switch1.
Import ListNotations.
Open Scope Z_scope.

Lemma targets_in' ins outs p q : In q (targets ins outs p) <-> q <> p /\ if two ins then In q outs else q = root outs.
Proof.
  unfold targets. destruct (two ins); [rewrite others_in; tauto|]. destruct (p =? root outs) eqn:E; simpl; intuition; try lia.
Qed.

(* the local part of a reduction *)
Section Local.
  Variable cx : actx.
  Variable c : Z.
  Let es := cx_es cx.
  Let n := c * es.
  Hypothesis n0 : 0 < n.
  Variable T : dtype.
  Variable r : redop.
  Hypothesis szd : Sized T es r c.

  Definition local_instrs (me from to base : Z) (ins : list Z) : list instr :=
    let ts := others me ins in
    match ins with
    | [] => [init_i T r to c]
    | _ =>
        if memb me ins then (if from =? to then [] else [copy_i cx from to c]) ++ map (fun a => localreduce_i cx T r a to c) (places cx c base ts)
        else copy_i cx base to c :: map (fun a => localreduce_i cx T r a to c) (tl (places cx c base ts))
    end.
  Lemma here_split me from to base ins : here_instrs cx c T r me from to base ins = recvs cx c base (others me ins) ++ local_instrs me from to base ins.
  Proof. reflexivity. Qed.

  Lemma local_quiet me from to base ins : quiet (local_instrs me from to base ins).
  Proof.
    unfold local_instrs. destruct ins as [|i ins]; [repeat constructor|]. destruct (memb me (i :: ins)).
    - apply Forall_app. split; [destruct (from =? to); repeat constructor|apply lreds_quiet].
    - constructor; [reflexivity|apply lreds_quiet].
  Qed.

  Lemma local_exec me from to base ins s (val : Z -> list Z) : NoDup ins ->
    (from = to \/ apart (region from n) (region to n)) ->
    apart (region base (n * Z.of_nat (length (others me ins)))) (region to n) ->
    (In me ins -> rdb (p_mem s) from n = val me) ->
    (forall j t, nth_error (others me ins) j = Some t -> rdb (p_mem s) (base + n * Z.of_nat j) n = val t) ->
    exists s', exec_is (local_instrs me from to base ins) s = Some s' /\
      (forall ch, p_out s' ch = p_out s ch) /\ (forall ch, p_in s' ch = p_in s ch) /\
      (forall x, ~ region to n x -> p_mem s' x = p_mem s x) /\
      rdb (p_mem s') to n = reduce_all T r c (map val (first_me me ins)).
  Proof.
    intros HN Hft Hb2 Hvm X5. remember (others me ins) as ts eqn:Ets.
    unfold local_instrs. rewrite <- Ets.
    assert (Hpl : forall s2, (forall x, ~ region to n x -> p_mem s2 x = p_mem s x) -> map (fun a => rdb (p_mem s2) a n) (places cx c base ts) = map val ts).
    { intros s2 H2. apply places_map. intros k t Hk. fold es n. rewrite (rdb_ext _ (p_mem s)).
      - apply (X5 k t Hk).
      - intros x Hx. apply H2. intros Ht. refine (Hb2 x _ Ht).
        assert (k < length ts)%nat by (apply nth_error_Some; congruence). unfold region in *. nia. }
    assert (Hap : forall a, In a (places cx c base ts) -> apart (region a n) (region to n)).
    { intros a Ha x Hx. apply Hb2. eapply places_region; eauto. }
    assert (Ecopy : forall a st, Z.of_nat (length (rdb (p_mem st) a n)) = n) by (intros; apply rdb_length; lia).
    destruct ins as [|i0 ins0] eqn:Ei.
    - cbn [exec_is]. unfold init_i. rewrite exec_local.
      eexists. split; [reflexivity|]. cbn [p_mem p_in p_out].
      assert (Li : Z.of_nat (length (dt_init T r c)) = n) by apply szd.
      split; [auto|]. split; [auto|]. split.
      + intros x H1. rewrite mwrite_keep by (rewrite Li; auto). auto.
      + simpl. unfold rdb. rewrite mread_mwrite_same; auto. unfold bytes. lia.
    - rewrite <- Ei in *. destruct (memb me ins) eqn:Em.
      + assert (Hfm : first_me me ins = me :: ts) by (unfold first_me; unfold memb in Em; rewrite Em, Ets; auto).
        apply memb_in in Em. specialize (Hvm Em).
        assert (HC : exists s2, exec_is (if from =? to then [] else [copy_i cx from to c]) s = Some s2 /\
            (forall ch, p_out s2 ch = p_out s ch) /\ (forall ch, p_in s2 ch = p_in s ch) /\ (forall x, ~ region to n x -> p_mem s2 x = p_mem s x) /\
            rdb (p_mem s2) to n = val me).
        { destruct (from =? to) eqn:Eft.
          - exists s. assert (from = to) by lia. subst to. repeat split; auto.
          - cbn [exec_is]. unfold copy_i. rewrite exec_local. eexists. split; [reflexivity|]. cbn [p_mem p_in p_out]. fold es n.
            split; auto. split; auto. split.
            + intros x Hx. apply mwrite_keep. rewrite Ecopy. auto.
            + rewrite Hvm. unfold rdb. rewrite mread_mwrite_same; auto. rewrite <- Hvm. pose proof (Ecopy from s). unfold bytes. lia. }
        destruct HC as (s2 & Y & Y1 & Y2 & Y3 & Y4).
        destruct (exec_lreds cx c n0 T r szd to (places cx c base ts) Hap s2) as (s3 & V & V1 & V2 & V3 & V4).
        exists s3. rewrite exec_is_app, Y, V. split; auto. split; [intros; rewrite V1, Y1; auto|].
        split; [intros; rewrite V2, Y2; auto|]. split.
        * intros x H1. rewrite V3, Y3 by auto. auto.
        * fold es n in V4. rewrite V4, Y4, Hfm, (Hpl s2 Y3). reflexivity.
      + assert (Hts : ts = ins) by (rewrite Ets; apply others_all, memb_not; auto).
        assert (Hfm : first_me me ins = ins) by (unfold first_me; unfold memb in Em; rewrite Em; auto).
        assert (Hpe : places cx c base ts = base :: places cx c (base + n) ins0) by (rewrite Hts, Ei; reflexivity).
        assert (Hb0 : rdb (p_mem s) base n = val i0).
        { rewrite <- (X5 0%nat i0) by (rewrite Hts, Ei; reflexivity). f_equal. lia. }
        cbn [exec_is]. unfold copy_i. rewrite exec_local. fold es n. set (s2 := mkP _ _ _).
        assert (Y3 : forall x, ~ region to n x -> p_mem s2 x = p_mem s x) by (intros x Hx; subst s2; cbn [p_mem]; apply mwrite_keep; rewrite Ecopy; auto).
        assert (Y4 : rdb (p_mem s2) to n = val i0).
        { subst s2. cbn [p_mem]. rewrite Hb0. unfold rdb. rewrite mread_mwrite_same; auto.
          rewrite <- Hb0. pose proof (Ecopy base s). unfold bytes. lia. }
        destruct (exec_lreds cx c n0 T r szd to (tl (places cx c base ts)) ltac:(intros a Ha; apply Hap; rewrite Hpe in *; right; exact Ha) s2) as (s3 & V & V1 & V2 & V3 & V4).
        exists s3. rewrite V. split; auto. split; [intros; rewrite V1; subst s2; cbn [p_out]; auto|].
        split; [intros; rewrite V2; subst s2; cbn [p_in]; auto|]. split.
        * intros x H1. rewrite V3, Y3 by auto. auto.
        * specialize (Hpl s2 Y3). rewrite Hpe, Hts, Ei in Hpl. cbn [map] in Hpl. apply (f_equal (@tl (list Z))) in Hpl. cbn [tl] in Hpl.
          fold es n in V4. rewrite V4, Y4, Hfm, Hpe, Ei. cbn [tl map reduce_all]. rewrite Hpl. reflexivity.
  Qed.
End Local.

Section Segs.
  Variable K : Type.
  Variable Kdec : forall a b : K, {a = b} + {a <> b}.
  Variable N es : Z.
  Variable cx : Z -> actx.
  Variable T : dtype.
  Variable op : redop.
  Variable cnt : K -> Z.
  Variables ins outs : K -> list Z.
  Variables from to base : K -> Z -> Z.
  Variable D : list K.
  Variable m : Z -> mem.
  Let n k := cnt k * es.
  Let red k := match ins k with [_] => false | _ => true end.
  Let doesk k p := red k && does (ins k) (outs k) p.
  Let tmp k p := region (base k p) (n k * Z.of_nat (length (others p (ins k)))).

  Hypothesis Hes : forall p, 0 <= p < N -> cx_es (cx p) = es.
  Hypothesis n0 : forall k, In k D -> 0 < n k.
  Hypothesis szd : forall k, In k D -> red k = true -> outs k <> [] -> Sized T es op (cnt k).
  Hypothesis NI : forall k, In k D -> NoDup (ins k).
  Hypothesis NO : forall k, In k D -> NoDup (outs k).
  Hypothesis RI : forall k q, In k D -> In q (ins k) -> 0 <= q < N.
  Hypothesis RO : forall k q, In k D -> In q (outs k) -> 0 <= q < N.
  Hypothesis O0 : forall k, In k D -> red k = true -> outs k = [] -> two (ins k) = true.
  Hypothesis ND : NoDup D.
  Hypothesis sep_ft : forall k k' p, In k D -> In k' D -> k <> k' -> In p (ins k) -> In p (outs k') -> apart (region (from k p) (n k)) (region (to k' p) (n k')).
  Hypothesis sep_same : forall k p, In k D -> In p (ins k) -> In p (outs k) -> from k p = to k p \/ apart (region (from k p) (n k)) (region (to k p) (n k)).
  Hypothesis sep_to : forall k k' p, In k D -> In k' D -> k <> k' -> In p (outs k) -> In p (outs k') -> apart (region (to k p) (n k)) (region (to k' p) (n k')).
  Hypothesis sep_tf : forall k k' p, In k D -> In k' D -> doesk k p = true -> In p (ins k') -> apart (tmp k p) (region (from k' p) (n k')).
  Hypothesis sep_tt : forall k k' p, In k D -> In k' D -> doesk k p = true -> In p (outs k') -> apart (tmp k p) (region (to k' p) (n k')).
  Hypothesis sep_tmp : forall k k' p, In k D -> In k' D -> k <> k' -> doesk k p = true -> doesk k' p = true -> apart (tmp k p) (tmp k' p).

  Definition gives k q := rdb (m q) (from k q) (n k).
  Definition final k p : list Z :=
    match ins k with
    | [i] => gives k i
    | l => reduce_all T op (cnt k) (map (gives k) (first_me (if two l then p else root (outs k)) l))
    end.

  Lemma does_in k p : In k D -> doesk k p = true -> In p (outs k).
  Proof.
    intros Hk H. unfold doesk in H. apply andb_true_iff in H. destruct H as [Hr H]. unfold does in H. destruct (two (ins k)) eqn:E2; [apply memb_in; auto|].
    unfold root in H. destruct (outs k) eqn:E; [rewrite (O0 k Hk Hr E) in E2; discriminate|]. cbn [hd] in H. left. lia.
  Qed.

  Lemma final_red k p : red k = true -> final k p = reduce_all T op (cnt k) (map (gives k) (first_me (if two (ins k) then p else root (outs k)) (ins k))).
  Proof. unfold red, final. destruct (ins k) as [|a [|b l]]; auto; discriminate. Qed.
  Lemma final_does k p : doesk k p = true -> final k p = reduce_all T op (cnt k) (map (gives k) (first_me p (ins k))).
  Proof.
    intros H. unfold doesk in H. apply andb_true_iff in H. destruct H as [Hr H]. rewrite final_red by auto. unfold does in H. destruct (two (ins k)); auto.
    replace (root (outs k)) with p by lia. auto.
  Qed.

  Definition Inv (Tm : K -> Prop) (W : K -> Z -> Prop) (p : Z) (mm : mem) : Prop :=
    (forall x, (forall k, In k D -> doesk k p = true -> ~ tmp k p x) -> (forall k, In k D -> W k p -> ~ region (to k p) (n k) x) -> mm x = m p x) /\
    (forall k, In k D -> W k p -> rdb mm (to k p) (n k) = final k p) /\
    (forall k, In k D -> Tm k -> doesk k p = true -> forall j t, nth_error (others p (ins k)) j = Some t -> rdb mm (base k p + n k * Z.of_nat j) (n k) = gives k t).

  Lemma inv_ext Tm W W' p mm : (forall k, In k D -> (W k p <-> W' k p)) -> Inv Tm W p mm -> Inv Tm W' p mm.
  Proof.
    intros H (A & B & C). split; [|split; auto].
    - intros x H1 H2. apply A; auto. intros k Hk Hw. apply H2; auto. apply H; auto.
    - intros k Hk Hw. apply B; auto. apply H; auto.
  Qed.

  Lemma inv_read Tm W p mm k : In k D -> In p (ins k) -> ~ W k p -> (forall k', In k' D -> W k' p -> In p (outs k')) -> Inv Tm W p mm ->
    rdb mm (from k p) (n k) = gives k p.
  Proof.
    intros Hk Hp Hn Ho (A & B & C). apply rdb_ext. intros x Hx. apply A.
    - intros k' Hk' Hd Ht. exact (sep_tf k' k p Hk' Hk Hd Hp x Ht Hx).
    - intros k' Hk' Hw Ht. destruct (Kdec k k') as [->|E]; [auto|]. exact (sep_ft k k' p Hk Hk' E Hp (Ho k' Hk' Hw) x Hx Ht).
  Qed.

  Lemma tmp_part k p j t x : In k D -> nth_error (others p (ins k)) j = Some t -> region (base k p + n k * Z.of_nat j) (n k) x -> tmp k p x.
  Proof.
    intros Hk E Hx. assert (j < length (others p (ins k)))%nat by (apply nth_error_Some; congruence). assert (G := n0 k Hk). unfold tmp, region in *. nia.
  Qed.

  Lemma inv_write Tm (W W' : K -> Z -> Prop) p mm mm' k : In k D -> In p (outs k) -> (forall k', In k' D -> W k' p -> In p (outs k')) ->
    Inv Tm W p mm -> (forall x, ~ region (to k p) (n k) x -> mm' x = mm x) -> rdb mm' (to k p) (n k) = final k p ->
    (forall k', In k' D -> (W' k' p <-> W k' p \/ k' = k)) -> Inv Tm W' p mm'.
  Proof.
    intros Hk Hp Ho (A & B & C) Hm Hf HW. split; [|split].
    - intros x H1 H2. rewrite Hm.
      + apply A; auto. intros k' Hk' Hw. apply H2; auto. apply HW; auto.
      + apply H2; auto. apply HW; auto.
    - intros k' Hk' Hw. destruct (Kdec k' k) as [->|E]; [auto|]. apply HW in Hw; auto. destruct Hw as [Hw|Hw]; [|contradiction].
      rewrite <- (B k' Hk' Hw). apply rdb_ext. intros x Hx. apply Hm. intros Hy. exact (sep_to k' k p Hk' Hk E (Ho k' Hk' Hw) Hp x Hx Hy).
    - intros k' Hk' Ht Hd j t Hj. rewrite <- (C k' Hk' Ht Hd j t Hj). apply rdb_ext. intros x Hx. apply Hm. intros Hy.
      refine (sep_tt k' k p Hk' Hk Hd Hp x _ Hy). eapply tmp_part; eauto.
  Qed.

  (* ---- the code ---- *)
  Definition pcA k p : list instr := if red k && memb p (ins k) then map (fun t => send_i (cx p) (from k p) (cnt k) t) (targets (ins k) (outs k) p) else [].
  Definition pcV k p : list instr := if doesk k p then recvs (cx p) (cnt k) (base k p) (others p (ins k)) else [].
  Definition pcL k p : list instr := if doesk k p then local_instrs (cx p) (cnt k) T op p (from k p) (to k p) (base k p) (ins k) else [].
  Definition pcS k p : list instr :=
    match ins k with [i] => if i =? p then map (fun t => send_i (cx p) (from k p) (cnt k) t) (others p (outs k)) else [] | _ => [] end.
  Definition pcR k p : list instr :=
    match ins k with [i] => if negb (i =? p) && memb p (outs k) then [recv_i (cx p) (to k p) (cnt k) i] else [] | _ => [] end.
  Definition pcC1 k p : list instr := if red k && negb (two (ins k)) && (p =? root (outs k)) then map (fun t => send_i (cx p) (to k p) (cnt k) t) (others p (outs k)) else [].
  Definition pcC2 k p : list instr :=
    if red k && negb (two (ins k)) && negb (p =? root (outs k)) && memb p (outs k) then [recv_i (cx p) (to k p) (cnt k) (root (outs k))] else [].

  Lemma sends_exec p k buf ts v s : In k D -> 0 <= p < N -> NoDup ts -> rdb (p_mem s) buf (n k) = v ->
    exists s', exec_is (map (fun t => send_i (cx p) buf (cnt k) t) ts) s = Some s' /\ p_mem s' = p_mem s /\
       (forall ch, p_in s' ch = p_in s ch) /\ forall q, p_out s' (Peer q) = p_out s (Peer q) ++ (if memb q ts then v else []).
  Proof.
    intros Hk Hp Hts Hv. destruct (exec_sends (cx p) (cnt k) buf ts s) as (s' & X & X1 & X2 & X3). exists s'. split; [exact X|]. split; auto. split; auto.
    intros q. rewrite X3, (Hes p Hp), (flat_peer (cx p) (cnt k)) by auto. fold (n k). rewrite Hv. auto.
  Qed.
  Lemma gives_len k q : In k D -> Z.of_nat (length (gives k q)) = n k.
  Proof. intros Hk. apply rdb_len. assert (G := n0 k Hk). lia. Qed.
  Lemma final_len k p : In k D -> outs k <> [] -> Z.of_nat (length (final k p)) = n k.
  Proof.
    intros Hk Hne. destruct (red k) eqn:Er.
    - rewrite final_red by auto. destruct (szd k Hk Er Hne) as [S1 S2]. unfold reduce_all.
      destruct (map (gives k) (first_me (if two (ins k) then p else root (outs k)) (ins k))) as [|v vs] eqn:E; [exact S1|].
      assert (Hall : forall w, In w (v :: vs) -> Z.of_nat (length w) = n k).
      { rewrite <- E. intros w Hw. apply in_map_iff in Hw. destruct Hw as (q & <- & _). apply gives_len; auto. }
      assert (Hv : Z.of_nat (length v) = n k) by (apply Hall; left; auto). assert (Hvs : forall w, In w vs -> Z.of_nat (length w) = n k) by (intros; apply Hall; right; auto).
      clear E Hall. revert v Hv. induction vs as [|w vs IH]; intros v Hv; [exact Hv|]. cbn [fold_left]. apply IH; [intros; apply Hvs; right; auto|]. apply S2; auto. apply Hvs. left. auto.
    - unfold red, final in *. destruct (ins k) as [|i [|j l]] eqn:E; try discriminate. apply gives_len; auto.
  Qed.

  (* ---- round one: inputs of reductions go to temporary memory ---- *)
  Definition I1 pre := Inv (fun k => In k pre) (fun _ _ => False).
  Definition w1 k p q := if red k && memb p (ins k) && memb q (targets (ins k) (outs k) p) then gives k p else [].

  Lemma stage1 pre k post : D = pre ++ k :: post -> Stage N (fun p => pcA k p ++ pcV k p) (I1 pre) (I1 (pre ++ [k])).
  Proof.
    intros ED. assert (Hk : In k D) by (rewrite ED, in_app_iff; right; left; auto).
    assert (Hnk : ~ In k pre) by (rewrite ED in ND; apply NoDup_remove_2 in ND; intros H; apply ND, in_or_app; auto).
    apply stage_xchg with (w := w1 k).
    - intros p Hp. split; [|split].
      + unfold pcA. destruct (_ && _); [|constructor]. apply noself_sends. rewrite targets_in'. tauto.
      + unfold pcV. destruct (doesk k p); [|constructor]. apply noself_quiet, recvs_quiet.
      + unfold w1. destruct (memb p (targets (ins k) (outs k) p)) eqn:E; [apply memb_in, targets_in' in E; tauto|]. rewrite andb_false_r. auto.
    - intros p s Hp HI. unfold pcA, w1. destruct (red k && memb p (ins k)) eqn:E; cbn [andb].
      + apply andb_true_iff in E. destruct E as [Er Em]. apply memb_in in Em. apply sends_exec; auto; [apply targets_nodup; auto|].
        eapply inv_read; eauto; try tauto.
      + exists s. split; auto. split; auto. split; auto. intros q. rewrite app_nil_r. auto.
    - intros p s Hp HI Hin. assert (W1 : forall q, In q (others p (ins k)) -> doesk k p = true -> w1 k q p = gives k q).
      { intros q Hq Hd. apply others_in in Hq. destruct Hq as [Hq Hqp]. unfold doesk in Hd. apply andb_true_iff in Hd. destruct Hd as [Hr Hd].
        unfold w1. rewrite Hr. assert (E : memb q (ins k) = true) by (apply memb_in; auto). rewrite E. 
        assert (E2 : memb p (targets (ins k) (outs k) q) = true); [|rewrite E2; auto].
        apply memb_in, targets_in'. split; auto. unfold does in Hd. destruct (two (ins k)); [apply memb_in; auto|lia]. }
      assert (W0 : forall q, ~ In q (others p (ins k)) \/ doesk k p = false -> w1 k q p = []).
      { intros q Hq. unfold w1. destruct (red k) eqn:Er; auto. destruct (memb q (ins k)) eqn:E1; auto. cbn [andb]. 
        destruct (memb p (targets (ins k) (outs k) q)) eqn:E2; auto. apply memb_in in E1. apply memb_in, targets_in' in E2. destruct Hq as [Hq|Hq].
        - exfalso. apply Hq, others_in. split; auto. intros ->. tauto.
        - exfalso. unfold doesk, does in Hq. rewrite Er in Hq. cbn [andb] in Hq. destruct (two (ins k)); [apply memb_not in Hq; tauto|lia]. }
      unfold pcV. destruct (doesk k p) eqn:Hd.
      + assert (X := exec_recvs (cx p) (cnt k)). rewrite (Hes p Hp) in X. fold (n k) in X.
        destruct (X (n0 k Hk) (others p (ins k)) (others_nodup p _ (NI k Hk)) (base k p) s) as (s' & Y & Y1 & Y2 & Y3 & Y4 & Y5).
        { intros t Ht. rewrite Hin by (apply others_in in Ht; eapply RI; eauto; tauto). rewrite W1 by auto. rewrite gives_len; auto. lia. }
        clear X. exists s'. split; [exact Y|]. split; [auto|]. split.
        * intros q Hq. destruct (in_dec Z.eq_dec q (others p (ins k))) as [J|J].
          -- rewrite (Y3 q J), Hin, W1 by auto. apply skipn_rdb.
          -- rewrite Y2, Hin, W0; auto. intros (t & Ht & E). injection E as ->. auto.
        * destruct HI as (A & B & C). split; [|split; [intros k' _ []|]].
          -- intros x H1 H2. rewrite Y4 by (apply (H1 k Hk Hd)). apply A; auto.
          -- intros k' Hk' Hin' Hd' j t Hj. apply in_app_or in Hin'. destruct (Kdec k' k) as [->|Hkk].
             ++ rewrite (Y5 j t Hj). assert (Ht : In t (others p (ins k))) by (eapply nth_error_In; eauto).
                rewrite Hin by (apply others_in in Ht; eapply RI; eauto; tauto). rewrite W1 by auto. apply firstn_rdb.
             ++ destruct Hin' as [Hin'|[<-|[]]]; [|contradiction]. rewrite <- (C k' Hk' Hin' Hd' j t Hj). apply rdb_ext.
                intros x Hx. apply Y4. intros Hy. refine (sep_tmp k' k p Hk' Hk Hkk Hd' Hd x _ Hy). eapply tmp_part; eauto.
      + exists s. split; auto. split; auto. split; [intros q Hq; rewrite Hin, W0; auto|].
        destruct HI as (A & B & C). split; auto. split; auto. intros k' Hk' Hin' Hd' j t Hj. apply in_app_or in Hin'. destruct Hin' as [Hin'|[<-|[]]]; [eauto|congruence].
  Qed.

  (* ---- round two: reductions, and messages ---- *)
  Definition I2 pre := Inv (fun _ => True) (fun k p => In k pre /\ doesk k p = true).
  Lemma stage2 pre k post : D = pre ++ k :: post -> Stage N (pcL k) (I2 pre) (I2 (pre ++ [k])).
  Proof.
    intros ED. assert (Hk : In k D) by (rewrite ED, in_app_iff; right; left; auto).
    assert (Hnk : ~ In k pre) by (rewrite ED in ND; apply NoDup_remove_2 in ND; intros H; apply ND, in_or_app; auto).
    apply stage_local.
    - intros p Hp. unfold pcL. destruct (doesk k p); [|constructor]. apply noself_quiet, local_quiet.
    - intros p s Hp HI. unfold pcL. destruct (doesk k p) eqn:Hd.
      + assert (Hpo := does_in k p Hk Hd). assert (Hr : red k = true) by (unfold doesk in Hd; apply andb_true_iff in Hd; tauto).
        assert (HW : forall k', In k' D -> In k' pre /\ doesk k' p = true -> In p (outs k')) by (intros k' Hk' [_ Hd']; apply does_in; auto).
        assert (Hne : outs k <> []) by (intros C; rewrite C in Hpo; destruct Hpo).
        assert (X := local_exec (cx p) (cnt k)). rewrite (Hes p Hp) in X. fold (n k) in X.
        assert (HX : exists s', exec_is (local_instrs (cx p) (cnt k) T op p (if memb p (ins k) then from k p else to k p) (to k p) (base k p) (ins k)) s = Some s' /\
          (forall ch, p_out s' ch = p_out s ch) /\ (forall ch, p_in s' ch = p_in s ch) /\
          (forall x, ~ region (to k p) (n k) x -> p_mem s' x = p_mem s x) /\ rdb (p_mem s') (to k p) (n k) = reduce_all T op (cnt k) (map (gives k) (first_me p (ins k)))).
        { apply X; auto.
          - destruct (memb p (ins k)) eqn:Em; [|auto]. apply memb_in in Em. apply sep_same; auto.
          - apply (sep_tt k k p); auto.
          - intros Hi. assert (Em : memb p (ins k) = true) by (apply memb_in; auto). rewrite Em. refine (inv_read (fun _ => True) (fun k' p => In k' pre /\ doesk k' p = true) p (p_mem s) k Hk Hi _ HW HI). tauto.
          - intros j t Hj. apply HI; auto. }
        assert (HXE : local_instrs (cx p) (cnt k) T op p (if memb p (ins k) then from k p else to k p) (to k p) (base k p) (ins k) = local_instrs (cx p) (cnt k) T op p (from k p) (to k p) (base k p) (ins k)).
        { unfold local_instrs. destruct (ins k); auto. destruct (memb p _); auto. }
        rewrite HXE in HX. destruct HX as (s' & Y & Y1 & Y2 & Y3 & Y4). exists s'. split; auto. split; auto. split; auto.
        refine (inv_write _ _ _ p (p_mem s) (p_mem s') k Hk Hpo HW HI Y3 _ _).
        * rewrite Y4, final_does; auto.
        * intros k' Hk'. cbn beta. rewrite in_app_iff. split.
          -- intros [[H|[H|[]]] H2]; auto.
          -- intros [H|H]; [tauto|subst k']. split; auto. right. left. auto.
      + exists s. split; auto. split; auto. split; auto. eapply inv_ext; [|exact HI]. intros k' Hk'. cbn beta. rewrite in_app_iff. split; [tauto|].
        intros [[H|[<-|[]]] H2]; [auto|congruence].
  Qed.

  (* receives in order *)
  Definition got k p := match ins k with [i] => negb (i =? p) && memb p (outs k) | _ => false end.
  Definition src k := match ins k with [i] => i | _ => 0 end.
  Definition wS k p q := match ins k with [i] => if (i =? p) && memb q (others p (outs k)) then gives k p else [] | _ => [] end.
  Lemma got_out k p : got k p = true -> In p (outs k).
  Proof. unfold got. destruct (ins k) as [|i [|j l]]; try discriminate. intros H. apply andb_true_iff in H. apply memb_in. tauto. Qed.
  Lemma got_red k p : got k p = true -> red k = false.
  Proof. unfold got, red. destruct (ins k) as [|i [|j l]]; auto; discriminate. Qed.
  Lemma got_ins k p : got k p = true -> ~ In p (ins k).
  Proof. unfold got. destruct (ins k) as [|i [|j l]]; try discriminate. intros H [E|[]]. apply andb_true_iff in H. lia. Qed.

  Lemma sends_run p mm (W : K -> Z -> Prop) : 0 <= p < N -> Inv (fun _ => True) W p mm -> (forall k, In k D -> W k p -> red k = true /\ In p (outs k)) -> forall l, incl l D -> forall s, p_mem s = mm ->
    exists s', exec_is (flat_map (fun k => pcS k p) l) s = Some s' /\ p_mem s' = mm /\ (forall ch, p_in s' ch = p_in s ch) /\
      forall q, p_out s' (Peer q) = p_out s (Peer q) ++ flat_map (fun k => wS k p q) l.
  Proof.
    intros Hp HI HW. induction l as [|k l IH]; intros Hl s Hs.
    - exists s. split; auto. split; auto. split; auto. intros q. cbn [flat_map]. rewrite app_nil_r. auto.
    - assert (Hk : In k D) by (apply Hl; left; auto). cbn [flat_map]. rewrite exec_is_app.
      assert (HS : exists s1, exec_is (pcS k p) s = Some s1 /\ p_mem s1 = p_mem s /\ (forall ch, p_in s1 ch = p_in s ch) /\ forall q, p_out s1 (Peer q) = p_out s (Peer q) ++ wS k p q).
      { unfold pcS, wS. destruct (ins k) as [|i [|j l']] eqn:Ei; try (exists s; split; auto; split; auto; split; auto; intros; rewrite app_nil_r; auto).
        destruct (i =? p) eqn:E; [|exists s; split; auto; split; auto; split; auto; intros; rewrite app_nil_r; auto]. cbn [andb].
        assert (i = p) by lia. subst i. apply sends_exec; auto; [apply others_nodup; auto|]. rewrite Hs. eapply inv_read; eauto.
        - rewrite Ei. left. auto.
        - intros H. apply HW in H; auto. unfold red in H. rewrite Ei in H. destruct H. discriminate.
        - intros k' Hk' H. apply HW; auto. }
      destruct HS as (s1 & X & X1 & X2 & X3). rewrite X. destruct (IH ltac:(intros a Ha; apply Hl; right; auto) s1 ltac:(congruence)) as (s2 & Y & Y1 & Y2 & Y3).
      exists s2. split; auto. split; auto. split; [intros; rewrite Y2, X2; auto|]. intros q. rewrite Y3, X3, app_assoc. auto.
  Qed.

  Lemma wS_got k p q : In k D -> wS k q p = if got k p && (q =? src k) then gives k q else [].
  Proof.
    intros Hk. unfold wS, got, src. destruct (ins k) as [|i [|j l]]; auto. 
    destruct (memb p (others q (outs k))) eqn:E.
    - apply memb_in, others_in in E. destruct E as [E1 E2]. apply memb_in in E1. rewrite E1, !andb_true_r.
      destruct (i =? q) eqn:F; destruct (q =? i) eqn:F'; try lia; rewrite ?andb_false_r; auto. destruct (i =? p) eqn:G; [lia|]. auto.
    - rewrite andb_false_r. destruct (i =? p) eqn:G; auto. cbn [negb andb]. destruct (memb p (outs k)) eqn:F; auto. destruct (q =? i) eqn:H; auto.
      apply memb_in in F. exfalso. apply memb_not in E. apply E, others_in. split; auto. lia.
  Qed.

  Lemma recvs_run p : 0 <= p < N -> forall l, incl l D -> NoDup l -> forall (W : K -> Z -> Prop) s,
    (forall k, In k D -> W k p -> In p (outs k)) -> Inv (fun _ => True) W p (p_mem s) ->
    (forall q, 0 <= q < N -> p_in s (Peer q) = flat_map (fun k => wS k q p) l) ->
    exists s', exec_is (flat_map (fun k => pcR k p) l) s = Some s' /\ (forall ch, p_out s' ch = p_out s ch) /\
      (forall q, 0 <= q < N -> p_in s' (Peer q) = []) /\ Inv (fun _ => True) (fun k p => W k p \/ (In k l /\ got k p = true)) p (p_mem s').
  Proof.
    intros Hp. induction l as [|k l IH]; intros Hl Hnd W s HW HI Hin.
    - exists s. split; auto. split; auto. split; [intros; rewrite Hin; auto|]. eapply inv_ext; [|exact HI]. cbn beta. intros k Hk. simpl. tauto.
    - assert (Hk : In k D) by (apply Hl; left; auto). inversion Hnd as [|? ? Hkl Hnd']; subst. cbn [flat_map]. rewrite exec_is_app.
      destruct (got k p) eqn:Eg.
      + assert (ER : pcR k p = [recv_i (cx p) (to k p) (cnt k) (src k)]).
        { unfold got in Eg. unfold pcR, src. destruct (ins k) as [|i [|j l']]; try discriminate. rewrite Eg. auto. }
        assert (Hsrc : 0 <= src k < N).
        { apply (RI k); auto. unfold got in Eg. unfold src. destruct (ins k) as [|i [|j l']]; try discriminate. left. auto. }
        assert (Es : p_in s (Peer (src k)) = gives k (src k) ++ flat_map (fun k => wS k (src k) p) [] ++ flat_map (fun k' => wS k' (src k) p) l).
        { rewrite Hin by auto. cbn [flat_map]. rewrite (wS_got k), Eg, Z.eqb_refl by auto. auto. }
        cbn [flat_map app] in Es.
        rewrite ER. cbn [exec_is]. unfold exec_i, recv_i. cbn [i_in i_take i_out i_write i_send]. rewrite (Hes p Hp). fold (n k).
        rewrite Es. assert (GL := gives_len k (src k) Hk). destruct (Z.of_nat (length (gives k (src k) ++ _)) <? n k) eqn:E; [rewrite app_length in E; lia|].
        assert (F1 : firstn (bytes (n k)) (gives k (src k) ++ flat_map (fun k' => wS k' (src k) p) l) = gives k (src k)).
        { replace (bytes (n k)) with (length (gives k (src k))) by (unfold bytes; lia). rewrite firstn_app, firstn_all, Nat.sub_diag. cbn [firstn]. apply app_nil_r. }
        rewrite F1. set (s1 := mkP _ _ _).
        destruct (IH ltac:(intros a Ha; apply Hl; right; auto) Hnd' (fun k' p => W k' p \/ (k' = k /\ got k p = true)) s1) as (s2 & Y & Y1 & Y2 & Y3).
        * intros k' Hk' [H|[-> H]]; [auto|]. apply got_out; auto.
        * subst s1. cbn [p_mem]. eapply inv_write with (k := k); eauto.
          -- apply got_out; auto.
          -- intros x Hx. apply mwrite_keep. rewrite GL. auto.
          -- unfold rdb. replace (bytes (n k)) with (length (gives k (src k))) by (unfold bytes; lia). rewrite mread_mwrite_same by auto.
             unfold final, src. unfold got in Eg. destruct (ins k) as [|i [|j l']]; try discriminate. auto.
          -- intros k' Hk'. cbn beta. rewrite Eg. tauto.
        * intros q Hq. subst s1. cbn [p_in]. rewrite on_peer. destruct (q =? src k) eqn:Eq.
          -- assert (q = src k) by lia. subst q. rewrite Es. replace (bytes (n k)) with (length (gives k (src k))) by (unfold bytes; lia).
             rewrite skipn_app, skipn_all, Nat.sub_diag. reflexivity.
          -- rewrite Hin by auto. cbn [flat_map]. rewrite (wS_got k), Eg, Eq by auto. reflexivity.
        * exists s2. split; [exact Y|]. split; [intros; rewrite Y1; auto|]. split; auto. eapply inv_ext; [|exact Y3]. cbn beta. intros k' Hk'. cbn [In]. rewrite Eg. intuition subst; auto.
      + assert (ER : pcR k p = []).
        { unfold got in Eg. unfold pcR. destruct (ins k) as [|i [|j l']]; auto. rewrite Eg. auto. }
        rewrite ER. cbn [exec_is]. destruct (IH ltac:(intros a Ha; apply Hl; right; auto) Hnd' W s HW HI) as (s2 & Y & Y1 & Y2 & Y3).
        { intros q Hq. rewrite Hin by auto. cbn [flat_map]. rewrite (wS_got k), Eg by auto. reflexivity. }
        exists s2. split; auto. split; auto. split; auto. eapply inv_ext; [|exact Y3]. cbn beta. intros k' Hk'. cbn [In]. intuition (subst; auto; congruence).
  Qed.

  Definition I3 := Inv (fun _ => True) (fun k p => doesk k p = true \/ got k p = true).
  Lemma pcS_noself k p : noself p (pcS k p).
  Proof. unfold pcS. destruct (ins k) as [|i [|j l]]; try constructor. destruct (i =? p); [|constructor]. apply noself_sends. rewrite others_in. tauto. Qed.
  Lemma pcR_noself k p : noself p (pcR k p).
  Proof. unfold pcR. destruct (ins k) as [|i [|j l]]; try constructor. destruct (_ && _); repeat constructor. discriminate. Qed.
  Lemma noself_flat p (f : K -> list instr) l : (forall k, noself p (f k)) -> noself p (flat_map f l).
  Proof. intros H. induction l; [constructor|]. apply Forall_app. split; auto. apply H. Qed.

  Lemma stage3 : Stage N (fun p => flat_map (fun k => pcS k p) D ++ flat_map (fun k => pcR k p) D) (I2 D) I3.
  Proof.
    apply stage_xchg with (w := fun p q => flat_map (fun k => wS k p q) D).
    - intros p Hp. split; [apply noself_flat; intros; apply pcS_noself|]. split; [apply noself_flat; intros; apply pcR_noself|].
      assert (G : forall l, flat_map (fun k => wS k p p) l = []); [|apply G]. induction l as [|k l IH]; auto. cbn [flat_map]. rewrite IH, app_nil_r.
      unfold wS. destruct (ins k) as [|i [|j l']]; auto. destruct (memb p (others p (outs k))) eqn:E; [apply memb_in, others_in in E; tauto|]. rewrite andb_false_r. auto.
    - intros p s Hp HI. destruct (sends_run p (p_mem s) (fun k p => In k D /\ doesk k p = true) Hp HI) with (l := D) (s := s) as (s' & X & X1 & X2 & X3); auto; [|apply incl_refl|].
      + cbn beta. intros k Hk [H1 H2]. split; [unfold doesk in H2; apply andb_true_iff in H2; tauto|apply does_in; auto].
      + exists s'. auto.
    - intros p s Hp HI Hin. destruct (recvs_run p Hp D (incl_refl D) ND (fun k p => In k D /\ doesk k p = true) s) as (s' & X & X1 & X2 & X3); [|exact HI|auto|].
      + cbn beta. intros k Hk [H1 H2]. apply does_in; auto.
      + exists s'. split; auto. split; auto. split; auto. eapply inv_ext; [|exact X3]. cbn beta. intros k Hk. tauto.
  Qed.

  (* ---- round three: results of reductions ---- *)
  Definition passed k p := red k && negb (two (ins k)) && negb (p =? root (outs k)) && memb p (outs k).
  Definition I4 pre := Inv (fun _ => True) (fun k p => doesk k p = true \/ got k p = true \/ (In k pre /\ passed k p = true)).
  Definition wC k p q := if red k && negb (two (ins k)) && (p =? root (outs k)) && memb q (others p (outs k)) then final k p else [].

  Lemma stage4 pre k post : D = pre ++ k :: post -> Stage N (fun p => pcC1 k p ++ pcC2 k p) (I4 pre) (I4 (pre ++ [k])).
  Proof.
    intros ED. assert (Hk : In k D) by (rewrite ED, in_app_iff; right; left; auto).
    assert (HO : forall p k', In k' D -> doesk k' p = true \/ got k' p = true \/ In k' pre /\ passed k' p = true -> In p (outs k')).
    { intros p k' Hk' [H|[H|[_ H]]]; [apply does_in; auto|apply got_out; auto|]. unfold passed in H. apply andb_true_iff in H. apply memb_in. tauto. }
    apply stage_xchg with (w := wC k).
    - intros p Hp. split; [|split].
      + unfold pcC1. destruct (_ && _); [|constructor]. apply noself_sends. rewrite others_in. tauto.
      + unfold pcC2. destruct (_ && _); repeat constructor. discriminate.
      + unfold wC. destruct (memb p (others p (outs k))) eqn:E; [apply memb_in, others_in in E; tauto|]. rewrite andb_false_r. auto.
    - intros p s Hp HI. unfold pcC1, wC. destruct (red k && negb (two (ins k)) && (p =? root (outs k))) eqn:E; cbn [andb].
      + apply sends_exec; auto; [apply others_nodup; auto|]. apply HI; auto. left. unfold doesk, does. apply andb_true_iff in E. destruct E as [E E3]. apply andb_true_iff in E. destruct E as [E1 E2].
        rewrite E1. destruct (two (ins k)); [discriminate|]. auto.
      + exists s. split; auto. split; auto. split; auto. intros; rewrite app_nil_r; auto.
    - intros p s Hp HI Hin. 
      assert (HwC : forall q, wC k q p = if passed k p && (q =? root (outs k)) then final k q else []).
      { intros q. unfold wC, passed. destruct (red k); auto. destruct (negb (two (ins k))); auto. cbn [andb]. destruct (q =? root (outs k)) eqn:Eq; rewrite ?andb_false_r; auto. cbn [andb].
        rewrite andb_true_r. destruct (memb p (others q (outs k))) eqn:E.
        - apply memb_in, others_in in E. destruct E as [E1 E2]. apply memb_in in E1. rewrite E1. destruct (p =? root (outs k)) eqn:F; [lia|]. auto.
        - destruct (p =? root (outs k)) eqn:F; auto. cbn [negb andb]. destruct (memb p (outs k)) eqn:G; auto. apply memb_in in G. apply memb_not in E. exfalso. apply E, others_in. split; auto. lia. }
      assert (EC : pcC2 k p = if passed k p then [recv_i (cx p) (to k p) (cnt k) (root (outs k))] else []) by reflexivity.
      rewrite EC. destruct (passed k p) eqn:Ep.
      + assert (Hpo : In p (outs k)) by (unfold passed in Ep; apply andb_true_iff in Ep; apply memb_in; tauto).
        assert (Hroot : In (root (outs k)) (outs k)) by (unfold root; destruct (outs k); [destruct Hpo|left; auto]).
        assert (Er : red k = true /\ two (ins k) = false /\ p <> root (outs k)).
        { unfold passed in Ep. destruct (red k); [|discriminate]. destruct (two (ins k)); [discriminate|]. destruct (p =? root (outs k)) eqn:F; [discriminate|]. repeat split; auto. lia. }
        destruct Er as (Er1 & Er2 & Er3).
        assert (Ef : final k (root (outs k)) = final k p) by (rewrite !final_red, Er2 by auto; auto).
        assert (Es : p_in s (Peer (root (outs k))) = final k p) by (rewrite Hin, HwC, Z.eqb_refl by (eapply RO; eauto); auto).
        assert (FL := final_len k p Hk ltac:(intros C; rewrite C in Hpo; destruct Hpo)).
        cbn [exec_is]. unfold exec_i, recv_i. cbn [i_in i_take i_out i_write i_send]. rewrite (Hes p Hp). fold (n k). rewrite Es, FL, Z.ltb_irrefl.
        rewrite firstn_all2 by (unfold bytes; lia). eexists. split; [reflexivity|]. cbn [p_out p_in p_mem]. split; [auto|]. split.
        * intros q Hq. rewrite on_peer. destruct (q =? root (outs k)) eqn:Eq.
          -- replace q with (root (outs k)) by lia. rewrite Es. apply skipn_all2. unfold bytes. lia.
          -- rewrite Hin, HwC, Eq by auto. auto.
        * refine (inv_write _ _ _ p (p_mem s) _ k Hk Hpo (HO p) HI _ _ _).
          -- intros x Hx. apply mwrite_keep. rewrite FL. auto.
          -- unfold rdb. replace (bytes (n k)) with (length (final k p)) by (unfold bytes; lia). apply mread_mwrite_same. auto.
          -- intros k' Hk'. cbn beta. rewrite in_app_iff. cbn [In]. intuition (subst; auto).
      + exists s. split; auto. split; auto. split; [intros q Hq; rewrite Hin, HwC by auto; auto|].
        eapply inv_ext; [|exact HI]. cbn beta. intros k' Hk'. rewrite in_app_iff. cbn [In]. intuition (subst; auto; congruence).
  Qed.

  (* ---- all ---- *)
  Definition pcode p : list instr :=
    flat_map (fun k => pcA k p ++ pcV k p) D ++ (flat_map (fun k => pcL k p) D ++ (flat_map (fun k => pcS k p) D ++ flat_map (fun k => pcR k p) D)) ++
    flat_map (fun k => pcC1 k p ++ pcC2 k p) D.
  Definition moved k p := In p (outs k) /\ ~ ins k = [p].
  Definition IEnd := Inv (fun _ => True) moved.

  Lemma stage_all : Stage N pcode (fun p mm => mm = m p) IEnd.
  Proof.
    unfold pcode. apply stage_conseq with (I := I1 []) (I' := I4 D).
    - intros p mm Hp ->. split; auto. split; [intros k Hk []|]. intros k Hk [].
    - intros p mm Hp. unfold IEnd, I4. apply inv_ext. intros k Hk. unfold moved. split.
      + intros [H|[H|[_ H]]].
        * split; [apply does_in; auto|]. unfold doesk, red in H. intros E. rewrite E in H. discriminate.
        * split; [apply got_out; auto|]. apply got_ins in H. intros E. apply H. rewrite E. left. auto.
        * unfold passed, red in H. split; [apply andb_true_iff in H; apply memb_in; tauto|]. intros E. rewrite E in H. discriminate.
      + intros [H1 H2]. destruct (red k) eqn:Er.
        * unfold doesk, passed, does. rewrite Er. cbn [andb]. apply memb_in in H1. rewrite H1. destruct (two (ins k)); [auto|]. cbn [negb andb]. destruct (p =? root (outs k)); auto.
        * right. left. unfold red in Er. unfold got. destruct (ins k) as [|i [|j l]]; try discriminate. apply memb_in in H1. rewrite H1. destruct (i =? p) eqn:E; auto.
          exfalso. apply H2. f_equal. lia.
    - apply stage_seq with (I1 := I1 D); [apply (stage_list N (fun k p => pcA k p ++ pcV k p) I1); apply stage1|].
      apply stage_conseq with (I := I2 []) (I' := I4 D); auto.
      { intros p mm Hp (A & B & C). split; [|split].
        - intros x H1 H2. apply A; auto.
        - intros k Hk [[] _].
        - intros k Hk _ Hd. apply C; auto. }
      apply stage_seq with (I1 := I3).
      + apply stage_seq with (I1 := I2 D); [apply (stage_list N pcL I2); apply stage2|apply stage3].
      + apply stage_conseq with (I := I4 []) (I' := I4 D); auto.
        { intros p mm Hp. apply inv_ext. intros k Hk. cbn beta. simpl. tauto. }
        apply (stage_list N (fun k p => pcC1 k p ++ pcC2 k p) I4). apply stage4.
  Qed.
End Segs.
