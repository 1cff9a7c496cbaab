(* What a process does for a 2d or 3d transition with the TCP2 backend: its part of all messages. *)
From Coq Require Import ZArith List Bool Lia ZifyBool ZifyNat Sorted Permutation.
From Verif Require Import Base ListFacts Model_Space Model_RangeList Model_Mem Model_Layout Model_Partitioner Model_Group Model_Transition Model_Data
  Model_Action Model_ActionTrans Model_ActionExec Model_ActionExec2 Model_Net Model_Switch Model_Tcp2Exec.
From Verif Require Import Spec_Space Spec_RangeList Spec_Partitioner Spec_Transition Spec_Action Spec_Reduce.
From Verif Require Import Proof_RangeList Proof_RangeList5 Proof_Partitioner2 Proof_Layout2 Proof_Trans1 Proof_Trans2 Proof_Action2 Proof_Reduce1 Proof_Reduce2 Proof_Tcp2Exec1 Proof_Tcp2Exec4 Proof_Tcp2Exec5 Proof_Trans6 Proof_Trans7.
From Verif Require Proof_Tcp2Exec6.
Import ListNotations.
Open Scope Z_scope.

Definition lmv (es : Z) (ml : mlist) (k : Z) : lmap :=
  match tcp_map es (Some ml) k with Ok l => l | _ => mkLmap (mkLex 0 0 []) 0 0 0 (mkRange None (mkBox (mkIdx 0 0 0) (mkIdx 0 0 0))) end.

Section Code.
  Variable dc : dcont.
  Let sp := dc_space dc.
  Let es := dc_es dc.
  Let d := sp_dims sp.
  Variable N : Z.
  Variables fl tl : rlist.
  Hypothesis G : GoodNd sp N fl tl.
  Hypothesis NeF : NoEmpty fl.
  Hypothesis NeT : NoEmpty tl.
  Hypothesis U : Unique fl.
  Hypothesis Ord : forall s t, 0 <= s < N -> 0 <= t < N -> s <> t -> AtMostOne fl s \/ AtMostOne tl t.
  Local Notation F t := (numbered (mine t (rl_trs fl))).
  Local Notation T t := (numbered (mine t (rl_trs tl))).
  Variables F' t : Z -> mlist.
  Hypothesis HmF : forall p x, 0 <= p < N -> In x (F p) -> tcp_map es (Some (F' p)) (t_mapNo (snd x)) = Ok (lmv es (F' p) (t_mapNo (snd x))).
  Hypothesis HmT : forall p y, 0 <= p < N -> In y (T p) -> tcp_map es (Some (t p)) (t_mapNo (snd y)) = Ok (lmv es (t p) (t_mapNo (snd y))).
  Hypothesis Hvol : forall p q x y b, 0 <= p < N -> 0 <= q < N -> In x (F p) -> In y (T q) -> In b (isect d x y) -> NonEmpty d b /\ vol d b < 2 ^ 31.

  Definition xm (s r : Z) (x y : Z * trg) : list unit_ :=
    map (fun b => UXfer s (lmv es (F' s) (t_mapNo (snd x))) b r (lmv es (t r) (t_mapNo (snd y))) RO_None) (isect d x y).
  Definition msgs (s r : Z) : list unit_ := flat_map (fun x => flat_map (fun y => xm s r x y) (T r)) (F s).
  Definition allm : list unit_ :=
    flat_map (fun s => flat_map (fun r => msgs s r) (zrange (s + 1) N)) (zrange 0 N) ++
    flat_map (fun s => flat_map (fun r => msgs s r) (zrange 0 s)) (zrange 0 N).

  Lemma in_allm u : In u allm <-> exists s r, 0 <= s < N /\ 0 <= r < N /\ s <> r /\ In u (msgs s r).
  Proof.
    clear HmF HmT Hvol Ord.
    unfold allm. rewrite in_app_iff, !in_flat_map. split.
    - intros [(s & Hs & H)|(s & Hs & H)]; apply in_flat_map in H; destruct H as (r & Hr & H); apply zrange_in in Hs, Hr; exists s, r; (split; [lia|]); (split; [lia|]); split; auto; lia.
    - intros (s & r & Hs & Hr & Hn & H). destruct (Z_lt_dec s r); [left|right]; exists s; (split; [apply zrange_in; lia|]); apply in_flat_map; exists r; (split; [apply zrange_in; lia|auto]).
  Qed.

  Variable me : Z.
  Hypothesis Hme : 0 <= me < N.
  Variable o : tops.
  Hypothesis HO : NdOps sp N fl tl me o.
  Let cx := trans_ctx dc N me o (Some (F' me)) (t me).
  Let act := tcp_act cx (Some (F' me)) (t me).
  Definition sz (b : box) : Z := match add_count cx b with Ok c => c | _ => 0 end.
  Definition gs (x : sendTOp) : action := mkAct 0 (MapPackAndSend (sd_mapNo x) (sd_box x) (sz (sd_box x)) (sd_to x)).
  Definition gv (x : recvTOp) : action := mkAct 0 (MapRecvAndUnpack (rc_mapNo x) (rc_box x) (sz (rc_box x)) (rc_from x)).
  Definition ga (a : action) : list top := match act a with Ok l => l | _ => [] end.

  Lemma hd : valid_dims d. Proof. unfold d, valid_dims. destruct (gn_dims _ _ _ _ G); auto. Qed.
  Lemma cnt_ok b : NonEmpty d b -> vol d b < 2 ^ 31 -> add_count cx b = Ok (sz b).
  Proof.
    intros Hn Hv. unfold sz. pose proof (vol_pos d b hd Hn). assert (E : add_count cx b = Ok (vol d b)); [|rewrite E; auto].
    unfold add_count. change (cx_dims cx) with d. rewrite (box_size_vol d b hd Hn) by (change two64 with (2 ^ 31 * 2 ^ 33); lia). cbn [obind].
    change (2 ^ 32) with 4294967296. change (2 ^ 31) with 2147483648 in Hv. replace (vol d b >? 0) with true by lia. replace (vol d b <? 4294967296) with true by lia. reflexivity.
  Qed.

  Lemma send_in z : In z (tp_send o) -> exists r x y b, 0 <= r < N /\ r <> me /\ In x (F me) /\ In y (T r) /\ In b (isect d x y) /\ z = sd_of r x b.
  Proof.
    rewrite (no_send _ _ _ _ _ _ HO). intros H. apply in_flat_map in H. destruct H as (r & Hr & H). apply others_in in Hr. unfold sends in H.
    apply in_flat_map in H. destruct H as (x & Hx & H). destruct (has_equal _ _ _); [destruct H|]. apply in_flat_map in H. destruct H as (y & Hy & H). apply in_map_iff in H. destruct H as (b & <- & Hb).
    exists r, x, y, b. split; [tauto|]. split; [tauto|]. auto.
  Qed.
  Lemma recv_in z : In z (tp_recv o) -> exists s x y b, 0 <= s < N /\ s <> me /\ In x (F s) /\ In y (T me) /\ In b (isect d x y) /\ z = rc_of s y b.
  Proof.
    rewrite (no_recv _ _ _ _ _ _ HO). intros H. apply in_flat_map in H. destruct H as (r & Hr & H). apply others_in in Hr. unfold recvs in H.
    apply in_flat_map in H. destruct H as (y & Hy & H). destruct (has_equal _ _ _); [destruct H|]. apply in_flat_map in H. destruct H as (x & Hx & H). apply in_map_iff in H. destruct H as (b & <- & Hb).
    exists r, x, y, b. split; [tauto|]. split; [tauto|]. auto.
  Qed.

  Lemma texec_nd : split_texec cx o = Ok (map gs (tp_send o) ++ map gv (tp_recv o)).
  Proof.
    unfold split_texec. rewrite (no_red _ _ _ _ _ _ HO). cbn [omapm obind].
    rewrite (Proof_Tcp2Exec6.omapm_all _ gs), (Proof_Tcp2Exec6.omapm_all _ gv); [reflexivity| |]; intros z Hz.
    - destruct (recv_in z Hz) as (s & x & y & b & H1 & H2 & H3 & H4 & H5 & ->). destruct (Hvol s me x y b H1 Hme H3 H4 H5) as [V1 V2].
      unfold add_recv. cbn [rc_of rc_box rc_mapNo rc_from]. rewrite (cnt_ok b V1 V2). cbn [obind]. rewrite add_action_eq by lia. reflexivity.
    - destruct (send_in z Hz) as (s & x & y & b & H1 & H2 & H3 & H4 & H5 & ->). destruct (Hvol me s x y b Hme H1 H3 H4 H5) as [V1 V2].
      unfold add_send. cbn [sd_of sd_box sd_mapNo sd_to]. rewrite (cnt_ok b V1 V2). cbn [obind]. rewrite add_action_eq by lia. reflexivity.
  Qed.

  Lemma send_act r x b : In x (F me) -> act (gs (sd_of r x b)) = Ok [TSend (lmv es (F' me) (t_mapNo (snd x))) b r].
  Proof. intros Hx. unfold act, tcp_act, gs. cbn [a_par sd_of sd_mapNo sd_box sd_to]. change (cx_es cx) with es. rewrite (HmF me x Hme Hx). reflexivity. Qed.
  Lemma recv_act s y b : In y (T me) -> act (gv (rc_of s y b)) = Ok [TRecv b s (lmv es (t me) (t_mapNo (snd y))) RO_None].
  Proof. intros Hx. unfold act, tcp_act, gv. cbn [a_par rc_of rc_mapNo rc_box rc_from]. change (cx_es cx) with es. rewrite (HmT me y Hme Hx). reflexivity. Qed.

  Definition P (s r : Z) : list top := flat_map (proj1u me) (msgs s r).
  Lemma P_send r : r <> me -> P me r = flat_map (fun x => flat_map (fun y => map (fun b => TSend (lmv es (F' me) (t_mapNo (snd x))) b r) (isect d x y)) (T r)) (F me).
  Proof.
    intros Hr. unfold P, msgs. rewrite Proof_Tcp2Exec6.flat_flat. apply flat_map_ext_in. intros x Hx. rewrite Proof_Tcp2Exec6.flat_flat. apply flat_map_ext_in. intros y Hy. unfold xm.
    rewrite Proof_Tcp2Exec6.flat_of_map. induction (isect d x y) as [|b l IH]; auto. cbn [flat_map map]. rewrite IH. cbn [proj1u]. rewrite (Z.eqb_refl me). replace (me =? r) with false by lia. reflexivity.
  Qed.
  Lemma P_recv s : s <> me -> P s me = flat_map (fun x => flat_map (fun y => map (fun b => TRecv b s (lmv es (t me) (t_mapNo (snd y))) RO_None) (isect d x y)) (T me)) (F s).
  Proof.
    intros Hr. unfold P, msgs. rewrite Proof_Tcp2Exec6.flat_flat. apply flat_map_ext_in. intros x Hx. rewrite Proof_Tcp2Exec6.flat_flat. apply flat_map_ext_in. intros y Hy. unfold xm.
    rewrite Proof_Tcp2Exec6.flat_of_map. induction (isect d x y) as [|b l IH]; auto. cbn [flat_map map]. rewrite IH. cbn [proj1u]. rewrite (Z.eqb_refl me). replace (me =? s) with false by lia. reflexivity.
  Qed.
  Lemma P_none s r : s <> me -> r <> me -> P s r = [].
  Proof.
    intros H1 H2. unfold P, msgs. rewrite Proof_Tcp2Exec6.flat_flat. apply flat_none. intros x Hx. rewrite Proof_Tcp2Exec6.flat_flat. apply flat_none. intros y Hy. unfold xm.
    rewrite Proof_Tcp2Exec6.flat_of_map. apply flat_none. intros b _. cbn [proj1u]. replace (me =? s) with false by lia. replace (me =? r) with false by lia. reflexivity.
  Qed.

  Lemma sends_nd r : 0 <= r < N -> r <> me -> flat_map ga (filter (fun a => peer0 a =? r) (map gs (tp_send o))) = P me r.
  Proof.
    intros Hr Hn. rewrite Proof_Tcp2Exec6.filter_of_map. cbn [peer0 gs a_par]. rewrite (no_send _ _ _ _ _ _ HO).
    change (filter (fun x : sendTOp => peer0 (gs x) =? r)) with (filter (fun x : sendTOp => sd_to x =? r)).
    rewrite (filter_others sd_to) by (try apply others_NoDup; intros; eapply Proof_Trans6.sends_to; eauto).
    assert (M : Proof_Trans2.memb r (others N me) = true) by (apply Proof_Trans2.memb_in, others_in; auto). rewrite M. rewrite P_send by auto.
    unfold sends. rewrite Proof_Tcp2Exec6.flat_of_map, Proof_Tcp2Exec6.flat_flat. apply flat_map_ext_in. intros x Hx. change (sp_dims sp) with d. pose proof (no_skip_send sp N fl tl G NeF U me r x Hme Hr (not_eq_sym Hn) Hx) as Q. change (sp_dims sp) with d in Q. rewrite Q. clear Q.
    rewrite Proof_Tcp2Exec6.flat_flat. apply flat_map_ext_in. intros y Hy. rewrite Proof_Tcp2Exec6.flat_of_map. induction (isect d x y) as [|b l IH]; auto. cbn [flat_map map]. rewrite IH. unfold ga. rewrite (send_act r x b Hx). reflexivity.
  Qed.
  Lemma swap_one {A B C} (f : A -> B -> list C) la lb : (length la <= 1)%nat \/ (length lb <= 1)%nat ->
    flat_map (fun a => flat_map (f a) lb) la = flat_map (fun b => flat_map (fun a => f a b) la) lb.
  Proof.
    intros [H|H].
    - destruct la as [|a [|? ?]]; cbn [length] in H; try lia; cbn [flat_map].
      + rewrite flat_map_nil. auto.
      + rewrite app_nil_r. apply flat_map_ext_in. intros b _. rewrite app_nil_r. auto.
    - destruct lb as [|a [|? ?]]; cbn [length] in H; try lia; cbn [flat_map].
      + rewrite flat_map_nil. auto.
      + rewrite app_nil_r. apply flat_map_ext_in. intros b _. rewrite app_nil_r. auto.
  Qed.
  Lemma recvs_nd s : 0 <= s < N -> s <> me -> flat_map ga (filter (fun a => peer0 a =? s) (map gv (tp_recv o))) = P s me.
  Proof.
    intros Hr Hn. rewrite Proof_Tcp2Exec6.filter_of_map. rewrite (no_recv _ _ _ _ _ _ HO).
    change (filter (fun x : recvTOp => peer0 (gv x) =? s)) with (filter (fun x : recvTOp => rc_from x =? s)).
    rewrite (filter_others rc_from) by (try apply others_NoDup; intros; eapply Proof_Trans6.recvs_from; eauto).
    assert (M : Proof_Trans2.memb s (others N me) = true) by (apply Proof_Trans2.memb_in, others_in; auto). rewrite M. rewrite P_recv by auto.
    rewrite (swap_one (fun x y => map (fun b => TRecv b s (lmv es (t me) (t_mapNo (snd y))) RO_None) (isect d x y))).
    - unfold recvs. rewrite Proof_Tcp2Exec6.flat_of_map, Proof_Tcp2Exec6.flat_flat. apply flat_map_ext_in. intros y Hy. change (sp_dims sp) with d. destruct (has_equal d (t_box (snd y)) (F me)) eqn:E.
      + pose proof (skip_recv sp N fl tl G NeF NeT U s me y Hr Hme Hn Hy E) as Q. change (sp_dims sp) with d in Q. cbn [flat_map]. symmetry. apply flat_none. intros x Hx.
        destruct (isect d x y) as [|b l] eqn:Ei; auto. exfalso. assert (HI : In b (flat_map (fun x => isect d x y) (F s))) by (apply in_flat_map; exists x; rewrite Ei; split; [auto|left; auto]). rewrite Q in HI. destruct HI.
      + rewrite Proof_Tcp2Exec6.flat_flat. apply flat_map_ext_in. intros x Hx. rewrite Proof_Tcp2Exec6.flat_of_map. induction (isect d x y) as [|b l IH]; auto. cbn [flat_map map]. rewrite IH. unfold ga. rewrite (recv_act s y b Hy). reflexivity.
    - destruct (Ord s me Hr Hme Hn) as [H|H]; [left; exact (one_F sp N fl tl G s me Hr Hme Hn H)|right; exact (one_T sp N fl tl G s me Hr Hme Hn H)].
  Qed.

  Lemma code_nd q : is_qsort (cmp2phase me) q -> tcp_code q cx o (Some (F' me)) (t me) = Ok (flat_map (proj1u me) allm).
  Proof.
    intros Q. unfold tcp_code. rewrite texec_nd. cbn [obind].
    destruct (sort_order me N Hme q Q [] (map gs (tp_send o)) (map gv (tp_recv o))) as (ch & ES).
    - constructor.
    - apply Forall_forall. intros a Ha. apply in_map_iff in Ha. destruct Ha as (z & <- & Hz). destruct (send_in z Hz) as (r & x & y & b & H1 & H2 & _ & _ & _ & ->). cbn. auto.
    - apply Forall_forall. intros a Ha. apply in_map_iff in Ha. destruct Ha as (z & <- & Hz). destruct (recv_in z Hz) as (r & x & y & b & H1 & H2 & _ & _ & _ & ->). cbn. auto.
    - cbn [app] in ES. rewrite ES. cbn [obind snd].
      assert (HA : forall a, In a (order2 me N [] (map gs (tp_send o)) (map gv (tp_recv o))) -> act a = Ok (ga a)).
      { assert (B : forall l r a, In a (by_peer l r) -> In a l). { intros l r a Ha. apply in_flat_map in Ha. destruct Ha as (s & _ & Ha). apply filter_In in Ha. tauto. }
        intros a Ha. unfold order2 in Ha. cbn [app] in Ha. rewrite !in_app_iff in Ha.
        assert (C : In a (map gs (tp_send o)) \/ In a (map gv (tp_recv o))) by (destruct Ha as [Ha|[Ha|[Ha|Ha]]]; apply B in Ha; auto).
        assert (Y : exists l, act a = Ok l); [|destruct Y as (l & Y); unfold ga; rewrite Y; reflexivity].
        destruct C as [C|C]; apply in_map_iff in C; destruct C as (z & <- & Hz).
        - destruct (send_in z Hz) as (r & x & y & b & _ & _ & Hx & _ & _ & ->). eexists. apply send_act; auto.
        - destruct (recv_in z Hz) as (r & x & y & b & _ & _ & _ & Hy & _ & ->). eexists. apply recv_act; auto. }
      fold act. rewrite (Proof_Tcp2Exec6.omapm_all _ ga) by exact HA. cbn [obind]. f_equal. rewrite <- flat_map_concat_map. unfold order2, allm. cbn [app]. rewrite !flat_map_app.
      assert (R : forall a b, 0 <= a -> b <= N -> (forall s, a <= s < b -> s <> me) -> flat_map ga (by_peer (map gv (tp_recv o)) (zrange a b)) = flat_map (fun s => P s me) (zrange a b)).
      { intros a b Ha Hb H. unfold by_peer. rewrite Proof_Tcp2Exec6.flat_flat. apply flat_map_ext_in. intros s Hs. apply zrange_in in Hs. apply recvs_nd; auto; lia. }
      assert (S : forall a b, 0 <= a -> b <= N -> (forall s, a <= s < b -> s <> me) -> flat_map ga (by_peer (map gs (tp_send o)) (zrange a b)) = flat_map (fun s => P me s) (zrange a b)).
      { intros a b Ha Hb H. unfold by_peer. rewrite Proof_Tcp2Exec6.flat_flat. apply flat_map_ext_in. intros s Hs. apply zrange_in in Hs. apply sends_nd; auto; lia. }
      rewrite !R, !S by (intros; lia).
      assert (FF : forall (g : Z -> list Z) l, flat_map (proj1u me) (flat_map (fun s => flat_map (fun t0 => msgs s t0) (g s)) l) = flat_map (fun s => flat_map (fun t0 => P s t0) (g s)) l).
      { intros g l. rewrite Proof_Tcp2Exec6.flat_flat. apply flat_map_ext_in. intros s _. rewrite Proof_Tcp2Exec6.flat_flat. reflexivity. }
      rewrite (FF (fun s => zrange (s + 1) N)), (FF (fun s => zrange 0 s)).
      rewrite (zrange_split 0 me N) by lia. rewrite (zrange_cons me N) by lia. rewrite !flat_map_app. cbn [flat_map].
      rewrite (flat_map_ext_in (fun s => flat_map (fun t0 => P s t0) (zrange (s + 1) N)) (fun s => P s me) (zrange 0 me)).
      2:{ intros s Hs. apply zrange_in in Hs. apply Proof_Tcp2Exec6.flat_single; [lia|]. intros r H1 H2. apply P_none; lia. }
      rewrite (flat_none (fun s => flat_map (fun t0 => P s t0) (zrange (s + 1) N)) (zrange (me + 1) N)).
      2:{ intros s Hs. apply zrange_in in Hs. apply flat_none. intros r H1. apply zrange_in in H1. apply P_none; lia. }
      rewrite (flat_none (fun s => flat_map (fun t0 => P s t0) (zrange 0 s)) (zrange 0 me)).
      2:{ intros s Hs. apply zrange_in in Hs. apply flat_none. intros r H1. apply zrange_in in H1. apply P_none; lia. }
      rewrite (flat_map_ext_in (fun s => flat_map (fun t0 => P s t0) (zrange 0 s)) (fun s => P s me) (zrange (me + 1) N)).
      2:{ intros s Hs. apply zrange_in in Hs. apply Proof_Tcp2Exec6.flat_single; [lia|]. intros r H1 H2. apply P_none; lia. }
      rewrite app_nil_r, <- !app_assoc. reflexivity.
  Qed.
End Code.
