(* What a process does for a 1d transition with the TCP2 backend: its part of all steps. *)
From Coq Require Import ZArith List Bool Lia ZifyBool ZifyNat Sorted Permutation.
From Verif Require Import Base ListFacts Model_Space Model_RangeList Model_Mem Model_Layout Model_Partitioner Model_Group Model_Transition Model_Data
  Model_Action Model_ActionTrans Model_ActionExec Model_ActionExec2 Model_Net Model_Switch Model_Tcp2Exec.
From Verif Require Import Spec_Space Spec_RangeList Spec_Action Spec_Reduce.
From Verif Require Import Proof_RangeList5 Proof_Partitioner2 Proof_Trans1 Proof_Trans2 Proof_Action2 Proof_Reduce1 Proof_Reduce2 Proof_Reduce3 Proof_Switch4 Proof_Tcp2Exec1 Proof_Tcp2Exec4 Proof_Tcp2Exec5.
Import ListNotations.
Open Scope Z_scope.

Lemma omapm_all {A B} (f : A -> outcome B) (g : A -> B) l : (forall x, In x l -> f x = Ok (g x)) -> omapm f l = Ok (map g l).
Proof. induction l as [|x l IH]; intros H; auto. cbn [omapm map]. rewrite (H x) by (left; auto). cbn [obind]. rewrite IH by (intros; apply H; right; auto). reflexivity. Qed.
Lemma flat_pick {B} me (g : Z -> B) l : NoDup l -> flat_map (fun i => if me =? i then [g i] else []) l = if memb me l then [g me] else [].
Proof.
  induction 1 as [|x l Hx HN IH]; auto. cbn [flat_map memb existsb]. rewrite IH. fold (memb me l). destruct (me =? x) eqn:E.
  - assert (me = x) by lia. subst x. destruct (memb me l) eqn:M; [apply memb_in in M; tauto|]. rewrite Z.eqb_refl. reflexivity.
  - replace (x =? me) with false by lia. reflexivity.
Qed.
Lemma flat_single {B} (f : Z -> list B) me a b : a <= me < b -> (forall t, a <= t < b -> t <> me -> f t = []) -> flat_map f (zrange a b) = f me.
Proof.
  intros H E. rewrite (zrange_split a me b) by lia. rewrite (zrange_cons me b) by lia. rewrite flat_map_app. cbn [flat_map].
  rewrite !flat_none, app_nil_r; auto; intros t Ht; apply zrange_in in Ht; apply E; lia.
Qed.
Lemma flat_flat {A B C} (f : A -> list B) (g : B -> list C) l : flat_map g (flat_map f l) = flat_map (fun x => flat_map g (f x)) l.
Proof. induction l as [|x l IH]; auto. cbn [flat_map]. rewrite flat_map_app, IH. reflexivity. Qed.
Lemma filter_flat {A B} (P : B -> bool) (f : A -> list B) l : filter P (flat_map f l) = flat_map (fun x => filter P (f x)) l.
Proof. induction l as [|x l IH]; auto. cbn [flat_map]. rewrite filter_app, IH. reflexivity. Qed.
Lemma flat_of_map {A B C} (f : A -> B) (g : B -> list C) l : flat_map g (map f l) = flat_map (fun x => g (f x)) l.
Proof. induction l as [|x l IH]; auto. cbn [map flat_map]. rewrite IH. reflexivity. Qed.
Lemma filter_of_map {A B} (f : A -> B) (P : B -> bool) l : filter P (map f l) = map f (filter (fun x => P (f x)) l).
Proof. induction l as [|x l IH]; auto. cbn [map filter]. destruct (P (f x)); cbn [map]; rewrite IH; reflexivity. Qed.
Lemma filter_memb t l : NoDup l -> filter (fun x => x =? t) l = if memb t l then [t] else [].
Proof.
  induction 1 as [|x l Hx HN IH]; auto. cbn [filter memb existsb]. rewrite IH. fold (memb t l). destruct (x =? t) eqn:E; auto.
  assert (x = t) by lia. subst x. destruct (memb t l) eqn:M; [apply memb_in in M; tauto|reflexivity].
Qed.
Lemma red_recvs_eq me b m op ro l : red_recvs me b m op ro l = match others me l with [] => [] | i :: r => TRecv b i m op :: map (fun j => TRecv b j m ro) r end.
Proof.
  revert op. induction l as [|t l IH]; intros op; auto. cbn [red_recvs others filter]. fold (others me l). destruct (t =? me); cbn [negb]; [apply IH|].
  rewrite IH. f_equal. destruct (others me l); reflexivity.
Qed.
Lemma others_nodup me l : NoDup l -> NoDup (others me l).
Proof. apply NoDup_filter. Qed.
Lemma others_in me l t : In t (others me l) <-> In t l /\ t <> me.
Proof. unfold others. rewrite filter_In. split; intros [H1 H2]; split; auto; lia. Qed.

Section Code.
  Variables fr tl : list trg.
  Variables gsize me : Z.
  Variable op : redop.
  Variable D : list (Z * Z).
  Variable o : tops.
  Variable cx : actx.
  Variables mf mt : Z * Z -> Z -> lmap.
  Variable F : option mlist.
  Variable t : mlist.
  Let es := cx_es cx.
  Let L (inp : bool) := if inp then fr else tl.
  Let ins := pins fr gsize.
  Let outs := pouts tl gsize.
  Let bx (k : Z * Z) := box1 (fst k) (snd k).
  Hypothesis HO : OpsInv fr tl gsize me op D o.
  Hypothesis Hdim : cx_dims cx = 1%nat.
  Hypothesis Hsize : cx_size cx = gsize.
  Hypothesis Hme : cx_me cx = me.
  Hypothesis Hgr : cx_groups cx = tp_groups o.
  Hypothesis Hrange : 0 <= me < gsize.
  Hypothesis Hseg : forall k, In k D -> 0 < pcnt k < 2 ^ 32.
  Hypothesis Hcov : forall inp k, In k D -> In me (owners gsize (L inp) (fst k)) -> cov (L inp) me (fst k) = 1.
  Hypothesis HF : forall k R M, In k D -> In me (ins k) -> numok fr tl me true (bx k) R M -> tcp_map es F M = Ok (mf k me).
  Hypothesis HT : forall k R M, In k D -> In me (outs k) -> numok fr tl me false (bx k) R M -> tcp_map es (Some t) M = Ok (mt k me).
  Hypothesis Hdst : forall k, In k D -> ins k <> [] -> pred fr gsize k = true -> outs k <> [].
  Variable q : list aptr -> list aptr.
  Hypothesis Q : is_qsort (cmp2phase me) q.

  Let act := tcp_act cx F t.
  Definition gr (x : redTOp) : action := mkAct 0 (MapGroupReduce (rd_in x) (rd_out x) (rd_inMapNo x) (rd_outMapNo x) (rd_box x) (pcnt (seg_of (rd_box x))) (rd_redOp x)).
  Definition gs (x : sendTOp) : action := mkAct 0 (MapPackAndSend (sd_mapNo x) (sd_box x) (pcnt (seg_of (sd_box x))) (sd_to x)).
  Definition gv (x : recvTOp) : action := mkAct 0 (MapRecvAndUnpack (rc_mapNo x) (rc_box x) (pcnt (seg_of (rc_box x))) (rc_from x)).

  Lemma in_own k p : In p (ins k) -> 0 <= p < gsize. Proof. intros H. unfold ins, pins, owners in H. apply filter_In in H. destruct H as [H _]. apply zcount_In in H. auto. Qed.
  Lemma out_own k p : In p (outs k) -> 0 <= p < gsize. Proof. intros H. unfold outs, pouts, owners in H. apply filter_In in H. destruct H as [H _]. apply zcount_In in H. auto. Qed.
  Lemma ins_nd k : NoDup (ins k). Proof. apply sset_NoDup, owners_sset. Qed.
  Lemma outs_nd k : NoDup (outs k). Proof. apply sset_NoDup, owners_sset. Qed.
  Lemma cnt_ok k : In k D -> add_count cx (bx k) = Ok (pcnt k).
  Proof.
    intros Hk. pose proof (Hseg k Hk). unfold pcnt, bx in *. unfold add_count, box_size. rewrite Hdim. cbn [b_to b_from box1 i0 Nat.ltb Nat.leb].
    assert (E : snd k >=? fst k = true) by lia. rewrite E. cbn [cassert obind]. rewrite Z.mod_small by (unfold two64; lia).
    assert (E1 : snd k - fst k >? 0 = true) by lia. assert (E2 : snd k - fst k <? 2 ^ 32 = true) by lia. rewrite E1, E2. reflexivity.
  Qed.

  Lemma sends_in x : In x (tp_send o) -> exists k, In k D /\ sd_box x = bx k /\ ins k = [me] /\ In (sd_to x) (others me (outs k)).
  Proof.
    intros Hx. assert (X : In (sd_box x, sd_to x) (flat_map (sg_send fr tl gsize me) D)).
    { rewrite <- (oi_send _ _ _ _ _ _ _ HO). apply in_map_iff. exists x. auto. }
    apply in_flat_map in X. destruct X as (k & Hk & X). exists k. split; auto. unfold sg_send in X. unfold ins, pins.
    destruct (owners gsize fr (fst k)) as [|i [|j l]]; [destruct X| |destruct X].
    destruct (i =? me) eqn:E; [|destruct X]. assert (i = me) by lia. subst i. apply in_map_iff in X. destruct X as (t0 & X1 & X2).
    injection X1 as X0 X1. split; auto. split; auto. rewrite <- X1. exact X2.
  Qed.
  Lemma recvs_in x : In x (tp_recv o) -> exists k, In k D /\ rc_box x = bx k /\ In me (outs k) /\ In (rc_from x) (ins k) /\ rc_from x <> me.
  Proof.
    intros Hx. assert (X : In (rc_box x, rc_from x) (flat_map (sg_recv fr tl gsize me) D)).
    { rewrite <- (oi_recv _ _ _ _ _ _ _ HO). apply in_map_iff. exists x. auto. }
    apply in_flat_map in X. destruct X as (k & Hk & X). exists k. split; auto. unfold sg_recv in X. unfold ins, pins.
    destruct (owners gsize fr (fst k)) as [|i [|j l]]; [destruct X| |destruct X].
    destruct (negb (i =? me) && _) eqn:E; [|destruct X]. destruct X as [X|[]]. injection X as X1 X2.
    apply andb_prop in E. destruct E as [E1 E]. apply Proof_Trans2.memb_in in E. repeat split; auto; [left; auto|lia].
  Qed.
  Lemma grp_ok g l : grp gsize (tp_groups o) g = Some l -> cx_group cx g = Ok l.
  Proof.
    unfold grp, cx_group. rewrite Hsize, Hgr. destruct (g =? -1); [unfold zcount; intros H; injection H as <-; auto|].
    destruct (g <? 0) eqn:E0; [discriminate|]. intros H. unfold aread. rewrite E0, H.
    assert (Z.to_nat g < length (tp_groups o))%nat by (apply nth_error_Some; congruence).
    assert (E : g <? Z.of_nat (length (tp_groups o)) = true) by lia. rewrite E. reflexivity.
  Qed.
  Lemma links : Forall2 (Link fr tl gsize op cx) (tp_red o) (Dr fr tl gsize me D).
  Proof.
    assert (E : map (res_red gsize (tp_groups o)) (tp_red o) = map (fun k => (box1 (fst k) (snd k), op, Some (ins k), Some (outs k))) (Dr fr tl gsize me D)).
    { rewrite (oi_red _ _ _ _ _ _ _ HO). unfold Dr. clear -me. induction D as [|k l IH]; auto.
      assert (E : sg_red fr tl gsize me op k = if pred fr gsize k && mine fr tl gsize me k then [(box1 (fst k) (snd k), op, Some (ins k), Some (outs k))] else []).
      { unfold sg_red, pred, mine, ins, outs. rewrite !memb_two. unfold pins, pouts. destruct (owners gsize fr (fst k)) as [|i [|j l0]]; reflexivity. }
      cbn [flat_map filter]. rewrite IH, E. destruct (pred fr gsize k && mine fr tl gsize me k); auto. }
    revert E. generalize (tp_red o). intros l'. generalize (Dr fr tl gsize me D). intros l. revert l. induction l' as [|x l' IH]; intros [|k l] E; try discriminate; [constructor|]; cbn [map] in E; unfold res_red in E at 1; injection E as E1 E2 E3 E4 E; constructor.
    - repeat split; auto; apply grp_ok; auto.
    - apply IH. auto.
  Qed.
  Lemma reds_in x : In x (tp_red o) -> exists k, In k (Dr fr tl gsize me D) /\ Link fr tl gsize op cx x k.
  Proof.
    intros Hx. pose proof links as HL.
    induction HL as [|y k l l' H1 H2 IH]; [destruct Hx|]. destruct Hx as [->|Hx]; [exists k; split; [left|]; auto|].
    destruct (IH Hx) as (k' & A1 & A2). exists k'. split; [right|]; auto.
  Qed.
  Lemma texec_ok : split_texec cx o = Ok (map gr (tp_red o) ++ map gs (tp_send o) ++ map gv (tp_recv o)).
  Proof.
    unfold split_texec. rewrite (omapm_all _ gr), (omapm_all _ gs), (omapm_all _ gv); [reflexivity| | |]; intros x Hx.
    - destruct (recvs_in x Hx) as (k & Hk & E & _). unfold add_recv, gv. rewrite E, cnt_ok by auto. cbn [obind]. rewrite add_action_eq by lia. unfold bx. rewrite seg_box. reflexivity.
    - destruct (sends_in x Hx) as (k & Hk & E & _). unfold add_send, gs. rewrite E, cnt_ok by auto. cbn [obind]. rewrite add_action_eq by lia. unfold bx. rewrite seg_box. reflexivity.
    - destruct (reds_in x Hx) as (k & Hk & E & _). apply in_Dr in Hk. destruct Hk as [Hk _]. unfold add_red, gr. rewrite E. change (box1 (fst k) (snd k)) with (bx k). rewrite cnt_ok by auto. cbn [obind]. rewrite add_action_eq by lia. unfold bx. rewrite seg_box. reflexivity.
  Qed.

  Let redu := redu ins outs mf mt op.
  Let mu := mu ins outs mf mt.
  Let root k := hd 0 (outs k).

  (* reductions *)
  Lemma redu_root k : me = root k -> NoDup (outs k) ->
    flat_map (proj1u me) (redu k) = (if memb me (ins k) then [TCopy (bx k) (mf k me) (mt k me)] else []) ++
      red_recvs me (bx k) (mt k me) (if memb me (ins k) then op else RO_None) op (ins k) ++ red_sends me (bx k) (mt k me) (outs k).
  Proof.
    intros Hr HN. unfold redu, Proof_Tcp2Exec4.redu. fold (root k). rewrite <- Hr. rewrite !flat_map_app. f_equal; [|f_equal].
    - destruct (memb me (ins k)); auto. cbn. rewrite Z.eqb_refl. reflexivity.
    - rewrite red_recvs_eq. generalize (if memb me (ins k) then op else RO_None). intros c.
      assert (H : forall i, In i (others me (ins k)) -> i <> me) by (intros i Hi; apply others_in in Hi; tauto).
      assert (P : forall d i, i <> me -> proj1u me (rx outs mf mt k d i) = [TRecv (bx k) i (mt k me) d]).
      { intros d i Hi. unfold rx. fold (root k). rewrite <- Hr. cbn [proj1u]. replace (me =? i) with false by lia. rewrite Z.eqb_refl. reflexivity. }
      destruct (others me (ins k)) as [|i l]; [reflexivity|]. cbn [rxs flat_map]. rewrite P by (apply H; left; auto). cbn [app]. f_equal.
      rewrite flat_of_map. assert (H' : forall j, In j l -> j <> me) by (intros j Hj; apply H; right; auto). clear H. induction l as [|j l IH]; auto.
      cbn [flat_map map]. rewrite P by (apply H'; left; auto). cbn [app]. f_equal. apply IH. intros; apply H'; right; auto.
    - rewrite flat_of_map. unfold red_sends. fold (others me (outs k)).
      assert (H : forall i, In i (others me (outs k)) -> i <> me) by (intros i Hi; apply others_in in Hi; tauto).
      induction (others me (outs k)) as [|i l IH]; auto. cbn [flat_map map]. rewrite IH by (intros; apply H; right; auto).
      unfold bc. fold (root k). rewrite <- Hr. cbn [proj1u]. rewrite Z.eqb_refl. specialize (H i (or_introl eq_refl)). replace (me =? i) with false by lia. reflexivity.
  Qed.
  Lemma redu_other k : me <> root k ->
    flat_map (proj1u me) (redu k) = (if memb me (ins k) then [TSend (mf k me) (bx k) (root k)] else []) ++ (if memb me (outs k) then [TRecv (bx k) (root k) (mt k me) RO_None] else []).
  Proof.
    intros Hr. unfold redu, Proof_Tcp2Exec4.redu. fold (root k). rewrite !flat_map_app.
    assert (E1 : flat_map (proj1u me) (if memb (root k) (ins k) then [UCopy (root k) (box1 (fst k) (snd k)) (mf k (root k)) (mt k (root k))] else []) = []).
    { destruct (memb (root k) (ins k)); auto. cbn. replace (me =? root k) with false by lia. reflexivity. }
    rewrite E1. cbn [app]. f_equal.
    - generalize (if memb (root k) (ins k) then op else RO_None). intros c.
      assert (P : forall d i, proj1u me (rx outs mf mt k d i) = if me =? i then [TSend (mf k i) (bx k) (root k)] else []).
      { intros d i. unfold rx. fold (root k). cbn [proj1u]. replace (me =? root k) with false by lia. rewrite app_nil_r. reflexivity. }
      assert (E : flat_map (proj1u me) (rxs outs mf mt op k c (others (root k) (ins k))) = flat_map (fun i => if me =? i then [TSend (mf k i) (bx k) (root k)] else []) (others (root k) (ins k))).
      { destruct (others (root k) (ins k)) as [|i l]; [reflexivity|]. cbn [rxs flat_map]. rewrite P. f_equal. rewrite flat_of_map. apply flat_map_ext_in. intros; apply P. }
      rewrite E, (flat_pick me (fun i => TSend (mf k i) (bx k) (root k))) by (apply others_nodup, ins_nd).
      assert (X : memb me (others (root k) (ins k)) = memb me (ins k)) by (apply eq_true_iff_eq; rewrite !memb_in, others_in; tauto). rewrite X. reflexivity.
    - rewrite flat_of_map.
      assert (E : flat_map (fun x => proj1u me (bc outs mt k x)) (others (root k) (outs k)) = flat_map (fun i => if me =? i then [TRecv (bx k) (root k) (mt k i) RO_None] else []) (others (root k) (outs k))).
      { apply flat_map_ext_in. intros i _. unfold bc. fold (root k). cbn [proj1u]. replace (me =? root k) with false by lia. reflexivity. }
      rewrite E, (flat_pick me (fun i => TRecv (bx k) (root k) (mt k i) RO_None)) by (apply others_nodup, outs_nd).
      assert (X : memb me (others (root k) (outs k)) = memb me (outs k)) by (apply eq_true_iff_eq; rewrite !memb_in, others_in; tauto). rewrite X. reflexivity.
  Qed.
  Lemma redu_not_mine k : mine fr tl gsize me k = false -> pred fr gsize k = true -> In k D -> flat_map (proj1u me) (redu k) = [].
  Proof.
    intros Hm Hp Hk. unfold mine in Hm. apply orb_false_iff in Hm. destruct Hm as [M1 M2].
    destruct (outs k) as [|r l] eqn:Eo.
    - assert (ins k = []). { destruct (ins k) eqn:Ei; auto. exfalso. apply (Hdst k Hk); auto. rewrite Ei. discriminate. }
      unfold redu, Proof_Tcp2Exec4.redu. rewrite Eo, H. reflexivity.
    - assert (Hr : me <> root k). { intros C. assert (X : memb me (outs k) = true) by (apply memb_in; rewrite C; unfold root; rewrite Eo; left; auto). change (pouts tl gsize k) with (outs k) in M2. congruence. }
      rewrite redu_other by auto. change (pouts tl gsize k) with (outs k) in M2. change (pins fr gsize k) with (ins k) in M1. rewrite M1, M2. reflexivity.
  Qed.
  Lemma red_act x : In x (tp_red o) -> forall k, In k (Dr fr tl gsize me D) -> Link fr tl gsize op cx x k -> act (gr x) = Ok (flat_map (proj1u me) (redu k)).
  Proof.
    intros Hx k Hk (Eb & Eo & Ei & Eu). apply in_Dr in Hk. destruct Hk as (Hk & Hr & Hm).
    pose proof (proj1 (Forall_forall _ _) (oi_dnum _ _ _ _ _ _ _ HO) x Hx) as HN. cbn beta in HN. unfold numAt in HN. rewrite Eb in HN. destruct HN as [HN1 HN2].
    assert (TF : memb me (ins k) = true -> tcp_map es F (rd_inMapNo x) = Ok (mf k me)). { intros M. apply memb_in in M. apply (HF k _ _ Hk M (HN1 (Hcov true k Hk M))). }
    assert (TT : memb me (outs k) = true -> tcp_map es (Some t) (rd_outMapNo x) = Ok (mt k me)). { intros M. apply memb_in in M. apply (HT k _ _ Hk M (HN2 (Hcov false k Hk M))). }
    assert (HO' : outs k <> []).
    { intros C. unfold mine in Hm. change (pouts tl gsize k) with (outs k) in Hm. rewrite C in Hm. cbn [memb existsb] in Hm. rewrite orb_false_r in Hm. apply memb_in in Hm. apply (Hdst k Hk); auto. intros C'. change (pins fr gsize k) with (ins k) in Hm. rewrite C' in Hm. destruct Hm. }
    unfold act, tcp_act, gr. cbn [a_par]. unfold exec_reduce. rewrite Hme, Ei, Eu. cbn [obind]. rewrite Eb, Eo. fold es. fold (bx k).
    change (pouts tl gsize k) with (outs k). change (pins fr gsize k) with (ins k). change (existsb (fun x0 => x0 =? me) (ins k)) with (memb me (ins k)). change (existsb (fun x0 => x0 =? me) (outs k)) with (memb me (outs k)).
    destruct (outs k) as [|r l] eqn:Eou; [congruence|]. cbn [obind]. rewrite <- Eou in *. assert (Hr' : root k = r) by (unfold root; rewrite Eou; reflexivity).
    destruct (me =? r) eqn:E; cbn [negb].
    - assert (E' : me = root k) by lia. assert (Mo : memb me (outs k) = true) by (apply memb_in; rewrite Eou; left; lia). rewrite (TT Mo). cbn [obind].
      rewrite redu_root by (auto; apply outs_nd). destruct (memb me (ins k)) eqn:Mi; [rewrite (TF eq_refl)|]; cbn [obind]; reflexivity.
    - rewrite redu_other by lia. rewrite Hr'. destruct (memb me (ins k)) eqn:Mi; [rewrite (TF eq_refl)|]; cbn [obind]; (destruct (memb me (outs k)) eqn:Mo; [rewrite (TT eq_refl)|]; cbn [obind]; reflexivity).
  Qed.

  (* messages *)
  Definition hs (y : box * Z) : list top := [TSend (mf (seg_of (fst y)) me) (fst y) (snd y)].
  Definition hv (y : box * Z) : list top := [TRecv (fst y) (snd y) (mt (seg_of (fst y)) me) RO_None].
  Lemma send_act x : In x (tp_send o) -> act (gs x) = Ok (hs (sd_box x, sd_to x)).
  Proof.
    intros Hx. destruct (sends_in x Hx) as (k & Hk & Eb & Ei & _). assert (Hi : In me (ins k)) by (rewrite Ei; left; auto).
    pose proof (proj1 (Forall_forall _ _) (oi_snum _ _ _ _ _ _ _ HO) x Hx) as HN. cbn beta in HN. unfold numAt in HN. rewrite Eb in HN.
    unfold act, tcp_act, gs. cbn [a_par]. fold es. rewrite (HF k _ _ Hk Hi (HN (Hcov true k Hk Hi))). cbn [obind]. unfold hs. cbn [fst snd]. rewrite Eb. unfold bx. rewrite seg_box. reflexivity.
  Qed.
  Lemma recv_act x : In x (tp_recv o) -> act (gv x) = Ok (hv (rc_box x, rc_from x)).
  Proof.
    intros Hx. destruct (recvs_in x Hx) as (k & Hk & Eb & Hi & _).
    pose proof (proj1 (Forall_forall _ _) (oi_rnum _ _ _ _ _ _ _ HO) x Hx) as HN. cbn beta in HN. unfold numAt in HN. rewrite Eb in HN.
    unfold act, tcp_act, gv. cbn [a_par]. fold es. rewrite (HT k _ _ Hk Hi (HN (Hcov false k Hk Hi))). cbn [obind]. unfold hv. cbn [fst snd]. rewrite Eb. unfold bx. rewrite seg_box. reflexivity.
  Qed.

  Definition ga (a : action) : list top := match act a with Ok l => l | _ => [] end.
  Let P (s r : Z) : list top := flat_map (proj1u me) (flat_map (mu s r) D).
  Lemma P_none s r : s <> me -> r <> me -> P s r = [].
  Proof.
    intros H1 H2. unfold P. rewrite flat_flat. apply flat_none. intros k _. unfold mu, Proof_Tcp2Exec4.mu. destruct (ins k) as [|i [|]]; auto. destruct ((i =? s) && memb r (outs k)); auto.
    cbn. replace (me =? s) with false by lia. replace (me =? r) with false by lia. reflexivity.
  Qed.
  Lemma flat_ga_map {X} (g : X -> action) (h : X -> list top) l : (forall x, In x l -> act (g x) = Ok (h x)) -> flat_map ga (map g l) = flat_map h l.
  Proof. intros H. rewrite flat_of_map. apply flat_map_ext_in. intros x Hx. unfold ga. rewrite H by auto. reflexivity. Qed.
  Lemma recvs_from s : s <> me -> flat_map ga (filter (fun a => peer0 a =? s) (map gv (tp_recv o))) = P s me.
  Proof.
    intros Hs. rewrite filter_of_map. rewrite (flat_ga_map gv (fun x => hv (rc_box x, rc_from x))) by (intros x Hx; apply filter_In in Hx; apply recv_act; tauto).
    rewrite <- (flat_of_map (fun x => (rc_box x, rc_from x)) hv).
    replace (map (fun x => (rc_box x, rc_from x)) (filter (fun x => peer0 (gv x) =? s) (tp_recv o))) with (filter (fun y => snd y =? s) (map (fun x => (rc_box x, rc_from x)) (tp_recv o))).
    2:{ rewrite filter_of_map. reflexivity. }
    rewrite (oi_recv _ _ _ _ _ _ _ HO), filter_flat, flat_flat. unfold P. rewrite flat_flat. apply flat_map_ext_in. intros k Hk.
    unfold sg_recv, mu, Proof_Tcp2Exec4.mu. rewrite !memb_two. change (owners gsize fr (fst k)) with (ins k). change (owners gsize tl (fst k)) with (outs k). destruct (ins k) as [|i [|]]; auto.
    destruct (i =? s) eqn:E.
    - assert (i = s) by lia. subst i. replace (s =? me) with false by lia. cbn [negb andb]. destruct (memb me (outs k)); auto. cbn [filter fst snd flat_map]. rewrite Z.eqb_refl.
      cbn [flat_map app]. unfold hv. cbn [fst snd]. rewrite seg_box. cbn. replace (me =? s) with false by lia. rewrite Z.eqb_refl. reflexivity.
    - cbn [andb flat_map]. destruct (negb (i =? me) && memb me (outs k)); auto. cbn [filter snd]. rewrite E. reflexivity.
  Qed.
  Lemma sends_to r : r <> me -> flat_map ga (filter (fun a => peer0 a =? r) (map gs (tp_send o))) = P me r.
  Proof.
    intros Hs. rewrite filter_of_map. rewrite (flat_ga_map gs (fun x => hs (sd_box x, sd_to x))) by (intros x Hx; apply filter_In in Hx; apply send_act; tauto).
    rewrite <- (flat_of_map (fun x => (sd_box x, sd_to x)) hs).
    replace (map (fun x => (sd_box x, sd_to x)) (filter (fun x => peer0 (gs x) =? r) (tp_send o))) with (filter (fun y => snd y =? r) (map (fun x => (sd_box x, sd_to x)) (tp_send o))).
    2:{ rewrite filter_of_map. reflexivity. }
    rewrite (oi_send _ _ _ _ _ _ _ HO), filter_flat, flat_flat. unfold P. rewrite flat_flat. apply flat_map_ext_in. intros k Hk.
    unfold sg_send, mu, Proof_Tcp2Exec4.mu. change (owners gsize fr (fst k)) with (ins k). change (owners gsize tl (fst k)) with (outs k). destruct (ins k) as [|i [|]]; auto.
    destruct (i =? me) eqn:E; auto. cbn [andb]. rewrite filter_of_map. cbn [snd]. fold (others me (outs k)).
    rewrite filter_memb by (apply others_nodup, outs_nd). replace (memb r (others me (outs k))) with (memb r (outs k)) by (apply eq_true_iff_eq; rewrite !memb_in, others_in; tauto).
    destruct (memb r (outs k)); auto. cbn. unfold hs. cbn [fst snd]. rewrite seg_box, Z.eqb_refl. replace (me =? r) with false by lia. reflexivity.
  Qed.

  Lemma code_ok : tcp_code q cx o F t = Ok (flat_map (proj1u me) (allu gsize D ins outs mf mt op)).
  Proof.
    unfold tcp_code. rewrite texec_ok. cbn [obind].
    destruct (sort_order me gsize Hrange q Q (map gr (tp_red o)) (map gs (tp_send o)) (map gv (tp_recv o))) as (ch & ES).
    - apply Forall_forall. intros a Ha. apply in_map_iff in Ha. destruct Ha as (x & <- & _). cbn. auto.
    - apply Forall_forall. intros a Ha. apply in_map_iff in Ha. destruct Ha as (x & <- & Hx). destruct (sends_in x Hx) as (k & Hk & _ & _ & H). apply others_in in H. cbn. split; auto. split; auto. split; [apply (out_own k); tauto|tauto].
    - apply Forall_forall. intros a Ha. apply in_map_iff in Ha. destruct Ha as (x & <- & Hx). destruct (recvs_in x Hx) as (k & Hk & _ & _ & H & H'). cbn. split; auto. split; auto. split; auto. split; [apply (in_own k); auto|auto].
    - rewrite ES. cbn [obind snd].
      assert (HA : forall a, In a (order2 me gsize (map gr (tp_red o)) (map gs (tp_send o)) (map gv (tp_recv o))) -> act a = Ok (ga a)).
      { assert (B : forall l r a, In a (by_peer l r) -> In a l). { intros l r a Ha. apply in_flat_map in Ha. destruct Ha as (s & _ & Ha). apply filter_In in Ha. tauto. }
        intros a Ha. unfold order2 in Ha. rewrite !in_app_iff in Ha.
        assert (C : In a (map gr (tp_red o)) \/ In a (map gs (tp_send o)) \/ In a (map gv (tp_recv o))) by (destruct Ha as [Ha|[Ha|[Ha|[Ha|Ha]]]]; try apply B in Ha; auto).
        assert (Y : exists l, act a = Ok l); [|destruct Y as (l & Y); unfold ga; rewrite Y; reflexivity].
        destruct C as [C|[C|C]]; apply in_map_iff in C; destruct C as (x & <- & Hx).
        - destruct (reds_in x Hx) as (k & Hk & HL). eexists. apply (red_act x Hx k Hk HL).
        - eexists. apply send_act; auto.
        - eexists. apply recv_act; auto. }
      rewrite (omapm_all _ ga) by exact HA. cbn [obind]. f_equal. rewrite <- flat_map_concat_map. unfold order2, allu. rewrite !flat_map_app. f_equal; [|].
      + (* reductions *)
        pose proof links as HL.
        assert (E1 : flat_map ga (map gr (tp_red o)) = flat_map (fun k => flat_map (proj1u me) (redu k)) (Dr fr tl gsize me D)).
        { assert (X1 : forall x, In x (tp_red o) -> In x (tp_red o)) by auto. assert (X2 : forall k, In k (Dr fr tl gsize me D) -> In k (Dr fr tl gsize me D)) by auto. revert X1 X2.
          revert HL. generalize (tp_red o) at 1 2 4. generalize (Dr fr tl gsize me D) at 1 2 4. intros l2 l1 HL. induction HL as [|x k l1 l2 H1 H2 IH]; intros X1 X2; auto.
          cbn [map flat_map]. rewrite IH; [|intros; apply X1; right; auto|intros; apply X2; right; auto]. f_equal. unfold ga. rewrite (red_act x (X1 x (or_introl eq_refl)) k (X2 k (or_introl eq_refl)) H1). reflexivity. }
        rewrite E1, flat_flat. fold redu. unfold Dr.
        assert (X : forall k, negb (Nat.eqb (length (ins k)) 1) = pred fr gsize k) by (intros k; unfold pred, ins; destruct (pins fr gsize k) as [|? [|]]; reflexivity).
        pose proof redu_not_mine as HM. clearbody redu. clear -X HM. assert (Hi : forall k, In k D -> In k D) by auto. revert Hi. generalize D at 1 3 4. intros l. induction l as [|k l IH]; intros Hi; auto.
        assert (IH' := IH ltac:(intros; apply Hi; right; auto)). cbn [filter]. rewrite X. destruct (pred fr gsize k) eqn:Ep; cbn [andb]; [|exact IH'].
        destruct (mine fr tl gsize me k) eqn:Em; cbn [flat_map]; [f_equal; exact IH'|]. rewrite HM; auto. apply Hi. left; auto.
      + (* messages *)
        fold mu. assert (R : forall a b, (forall s, a <= s < b -> s <> me) -> flat_map ga (by_peer (map gv (tp_recv o)) (zrange a b)) = flat_map (fun s => P s me) (zrange a b)).
        { intros a b H. unfold by_peer. rewrite flat_flat. apply flat_map_ext_in. intros s Hs. apply zrange_in in Hs. apply recvs_from. auto. }
        assert (S : forall a b, (forall s, a <= s < b -> s <> me) -> flat_map ga (by_peer (map gs (tp_send o)) (zrange a b)) = flat_map (fun s => P me s) (zrange a b)).
        { intros a b H. unfold by_peer. rewrite flat_flat. apply flat_map_ext_in. intros s Hs. apply zrange_in in Hs. apply sends_to. auto. }
        rewrite !R, !S by (intros; lia).
        assert (FF : forall (g : Z -> list Z) l, flat_map (proj1u me) (flat_map (fun s => flat_map (fun t0 => flat_map (mu s t0) D) (g s)) l) = flat_map (fun s => flat_map (fun t0 => P s t0) (g s)) l).
        { intros g l. rewrite flat_flat. apply flat_map_ext_in. intros s _. rewrite flat_flat. reflexivity. }
        rewrite (FF (fun s => zrange (s + 1) gsize)), (FF (fun s => zrange 0 s)).
        rewrite (zrange_split 0 me gsize) by lia. rewrite (zrange_cons me gsize) by lia. rewrite !flat_map_app. cbn [flat_map].
        rewrite (flat_map_ext_in (fun s => flat_map (fun t0 => P s t0) (zrange (s + 1) gsize)) (fun s => P s me) (zrange 0 me)).
        2:{ intros s Hs. apply zrange_in in Hs. apply flat_single; [lia|]. intros r H1 H2. apply P_none; lia. }
        rewrite (flat_none (fun s => flat_map (fun t0 => P s t0) (zrange (s + 1) gsize)) (zrange (me + 1) gsize)).
        2:{ intros s Hs. apply zrange_in in Hs. apply flat_none. intros r H1. apply zrange_in in H1. apply P_none; lia. }
        rewrite (flat_none (fun s => flat_map (fun t0 => P s t0) (zrange 0 s)) (zrange 0 me)).
        2:{ intros s Hs. apply zrange_in in Hs. apply flat_none. intros r H1. apply zrange_in in H1. apply P_none; lia. }
        rewrite (flat_map_ext_in (fun s => flat_map (fun t0 => P s t0) (zrange 0 s)) (fun s => P s me) (zrange (me + 1) gsize)).
        2:{ intros s Hs. apply zrange_in in Hs. apply flat_single; [lia|]. intros r H1 H2. apply P_none; lia. }
        rewrite app_nil_r, <- !app_assoc. reflexivity.
  Qed.
End Code.
