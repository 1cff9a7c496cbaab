(* One process with asynchronous messages, as part of a network. *)
From Coq Require Import ZArith List Bool Lia ZifyBool ZifyNat Permutation.
From Verif Require Import Base Model_Space Model_Mem Model_Transition Model_Action Model_ActionTrans Model_ActionExec Model_Async Model_AsyncNet.
From Verif Require Import Proof_Prepare1.
From Verif Require Import Spec_ActionTrans Spec_Async Proof_Type Proof_Comb3 Proof_Async1 Proof_Async2 Proof_Async3 Proof_AsyncNet1.
Import ListNotations.
Open Scope Z_scope.

Section InvMore.
  Variable cx : actx.
  Variable o : apar -> instr.
  Variables rd wr : apar -> area.
  Hypothesis es0 : 0 <= cx_es cx.
  Notation es := (cx_es cx).
  Notation sy := (sync_i cx o).
  Variable l : list apar.
  Variable s : pst.
  Hypothesis safe : AsyncSafe cx o rd wr l.
  Notation INV := (Inv cx o wr l s).

  Lemma inv_state c A F : INV (c, A) -> exec_is (map sy l) s = Some F -> exists R P S sq k, Rel cx wr R P S A sq /\ exec_is k S = Some F.
  Proof.
    intros HI HF. remember (c, A) as c0 eqn:Ec.
    destruct HI as [A1 n' HR|A1 P Q Y EQ HY HR|A1 dn rest k sq S El Ex HR Hsq Hw|A1 sq S w1 w2 Ex HR Er Hd]; injection Ec as _ ->.
    - do 5 eexists. split; eauto.
    - do 5 eexists. split; eauto.
    - do 4 eexists. exists (map sy rest). split; [eauto|]. rewrite El, map_app, exec_is_app, Ex in HF. exact HF.
    - do 4 eexists. exists []. split; [eauto|]. simpl. congruence.
  Qed.
  Lemma inv_wait q r A : INV (MpiWait q :: r, A) -> x_rq A q = Some RDone \/ (exists b n, x_rq A q = Some (RSend b n)) \/ (exists b n bs, x_rq A q = Some (RRecv b n bs)).
  Proof.
    assert (B : forall A1 dn rest k sq S, l = dn ++ rest -> rel cx wr rest (ritems cx k rest) S A1 sq -> waits 0 l = map MpiWait (rev sq) ++ waits k rest ->
      MpiWait q :: r = body k rest ++ waits 0 l -> x_rq A1 q = Some RDone \/ (exists b n, x_rq A1 q = Some (RSend b n)) \/ (exists b n bs, x_rq A1 q = Some (RRecv b n bs))).
    { intros A1 dn rest k sq S El HR Hw E. destruct rest as [|p rest]; cbn [body app] in E.
      - rewrite Hw in E. cbn [waits] in E. rewrite app_nil_r in E. destruct (rev sq) as [|q0 w] eqn:Er; [discriminate|]. injection E as <- _.
        destruct (r_sq _ _ _ _ _ _ _ HR q) as [H|H]; auto. apply in_rev. rewrite Er. left. auto.
      - injection E as E _. assert (Np : ~ is_mpi p) by (apply (sf_plain _ _ _ _ _ safe); rewrite El; apply in_or_app; right; left; auto).
        destruct p; simpl in Np; try tauto; try discriminate. injection E as ->.
        destruct (item_state A1 _ _ (k, buf, count * es, from) (r_items _ _ _ _ _ _ _ HR)) as [(bs & H)|H]; auto; [cbn [ritems app]; left; auto|].
        right. right. do 3 eexists. exact H. }
    intros HI. remember (MpiWait q :: r, A) as c0 eqn:Ec.
    destruct HI as [A1 n' HR|A1 P Q Y EQ HY HR|A1 dn rest k sq S El Ex HR Hsq Hw|A1 sq S w1 w2 Ex HR Er Hd]; injection Ec as E Ea; subst A1.
    - discriminate.
    - destruct Y as [|y Y].
      + inversion HY; subst. rewrite app_nil_r in EQ. subst P. apply (B A [] l 0 [] s); auto.
      + inversion HY as [|? i ? ? (cc & Hy & _)]; subst. discriminate.
    - apply (B A dn rest k sq S); auto.
    - destruct w2 as [|q0 w2]; [discriminate|]. injection E as -> _. destruct (r_sq _ _ _ _ _ _ _ HR q) as [H|H]; auto. apply in_rev. rewrite Er. apply in_or_app. right. left. auto.
  Qed.
  Lemma inv_no_recv A : INV ([], A) -> forall q b n bs, x_rq A q <> Some (RRecv b n bs).
  Proof.
    intros HI q b n bs Hq. remember (@nil apar, A) as c0 eqn:Ec.
    destruct HI as [A1 n' HR|A1 P Q Y EQ HY HR|A1 dn rest k sq S El Ex HR Hsq Hw|A1 sq S w1 w2 Ex HR Er Hd]; [discriminate|injection Ec as E Ea; subst A1..];
      destruct (r_recv _ _ _ _ _ _ _ HR _ _ _ _ Hq) as (i & Hi & _).
    - apply app_eq_nil in E. destruct E as [-> E]. apply app_eq_nil in E. destruct E as [E1 E2].
      inversion HY; subst. rewrite app_nil_r in EQ. destruct l as [|p1 l1] eqn:El; [|discriminate]. simpl in EQ. subst P. destruct Hi.
    - apply app_eq_nil in E. destruct E as [E1 E2]. destruct rest as [|p1 rest]; [|discriminate]. destruct Hi.
    - destruct Hi.
  Qed.
End InvMore.

(* bytes sent and received by a sequence *)
Lemma on_peer q i : on (Peer q) i = true <-> i = Some (Peer q).
Proof. unfold on. destruct i as [c|]; [|split; discriminate]. destruct (chan_eq_dec (Peer q) c); split; congruence. Qed.
Fixpoint taken (f : Z) (k : list instr) : Z := match k with [] => 0 | i :: k' => (if on (Peer f) (i_in i) then i_take i else 0) + taken f k' end.
Lemma exec_taken f k : (forall i, In i k -> 0 <= i_take i) -> forall s s', exec_is k s = Some s' -> Z.of_nat (length (p_in s (Peer f))) = taken f k + Z.of_nat (length (p_in s' (Peer f))).
Proof.
  induction k as [|i k IH]; intros H s s' E; [injection E as <-; simpl; lia|]. cbn [exec_is] in E. destruct (exec_i i s) as [s1|] eqn:E1; [|discriminate].
  cbn [taken]. specialize (IH (fun j Hj => H j (or_intror Hj)) _ _ E). specialize (H i (or_introl eq_refl)). unfold exec_i in E1. destruct (_ <? _) eqn:Lt; [discriminate|]. injection E1 as <-. cbn [p_in] in IH.
  destruct (on (Peer f) (i_in i)) eqn:O; [|lia]. apply on_peer in O. rewrite O in Lt. rewrite skipn_length in IH. unfold bytes in IH. lia.
Qed.
Lemma exec_given t k v : (forall i, In i k -> i_out i = Some (Peer t) -> forall m, Z.of_nat (length (i_send i m)) = v i) -> forall s s', exec_is k s = Some s' ->
  Z.of_nat (length (p_out s' (Peer t))) = Z.of_nat (length (p_out s (Peer t))) + fold_right Z.add 0 (map (fun i => if on (Peer t) (i_out i) then v i else 0) k).
Proof.
  induction k as [|i k IH]; intros H s s' E; [injection E as <-; simpl; lia|]. cbn [exec_is] in E. destruct (exec_i i s) as [s1|] eqn:E1; [|discriminate].
  specialize (IH (fun j Hj => H j (or_intror Hj)) _ _ E). unfold exec_i in E1. destruct (_ <? _) eqn:Lt; [discriminate|]. injection E1 as <-. cbn [p_out] in IH. cbn [map fold_right].
  destruct (on (Peer t) (i_out i)) eqn:O; [|lia]. apply on_peer in O. rewrite app_length in IH. pose proof (H i (or_introl eq_refl) O (p_mem s)). lia.
Qed.

(* actions of a sequence with messages to other processes *)
Definition okpar (N p : Z) (i : instr) (a : apar) : Prop :=
  match a with
  | BufSend _ c t => 0 < c /\ 0 <= t < N /\ t <> p
  | BufRecv _ c f => 0 < c /\ 0 <= f < N /\ f <> p
  | _ => ~ is_mpi a /\ i_in i = None /\ i_out i = None
  end.

Lemma setz_eq {T} (f : Z -> T) k v : setz f k v k = v.
Proof. unfold setz. rewrite Z.eqb_refl. auto. Qed.
Lemma setz_ne {T} (f : Z -> T) k v j : j <> k -> setz f k v j = f j.
Proof. unfold setz. intros. destruct (j =? k) eqn:E; auto; lia. Qed.

Section Node.
  Variables (N sz p : Z) (cx : actx) (dp : apar -> instr) (rd wr : apar -> area) (l : list apar) (m0 : mem).
  Variable G : Z -> Z -> list Z.
  Variable F : pst.
  Hypothesis Hp : 0 <= p < N.
  Hypothesis Hsz : 0 < sz.
  Hypothesis Hes : cx_es cx = sz.
  Hypothesis safe : AsyncSafe cx dp rd wr l.
  Hypothesis Hok : forall a, In a l -> okpar N p (dp a) a.
  Hypothesis Hone : forall q, (cnt (bsend q) l <= 1)%nat /\ (cnt (brecv q) l <= 1)%nat.
  Variable s : pst.
  Hypothesis Hin : forall f, 0 <= f < N -> p_in s (Peer f) = G f p.
  Hypothesis Hst : p_mem s = m0 /\ forall c, p_out s c = [].
  Hypothesis Hrun : exec_is (map (sync_i cx dp) l) s = Some F.
  Hypothesis Hout : forall t, 0 <= t < N -> p_out F (Peer t) = G p t.
  Hypothesis Hend : forall f, 0 <= f < N -> p_in F (Peer f) = [].
  Notation INV := (Inv cx dp wr l s).
  Notation SY := (sync_i cx dp).
  Notation prog := (async_prog l).

  Lemma pl : forall a, In a l -> ~ is_mpi a. Proof. exact (sf_plain _ _ _ _ _ safe). Qed.
  Lemma len_recv f b c : In (BufRecv b c f) l -> c * sz = Z.of_nat (length (G f p)).
  Proof.
    intros Hi. pose proof (Hok _ Hi) as (Hc & Hf & _). rewrite <- (Hin f Hf).
    rewrite (exec_taken f _) with (2 := Hrun); [rewrite (Hend f Hf); simpl|].
    - destruct (in_split _ _ Hi) as (l1 & l2 & El). pose proof (cnt_one _ _ (proj2 (Hone f)) (BufRecv b c f)) as H1. cbn [brecv] in H1. rewrite Z.eqb_refl in H1.
      specialize (fun b' => H1 b' l1 l2 El eq_refl).
      assert (Z0 : forall k, (forall a, In a k -> In a (l1 ++ l2)) -> taken f (map SY k) = 0).
      { induction k as [|a k IH]; intros H; auto. cbn [map taken]. rewrite IH by (intros; apply H; right; auto). specialize (H a (or_introl eq_refl)). specialize (H1 a H).
        assert (Ha : In a l) by (rewrite El; apply in_or_app; apply in_app_or in H; simpl; tauto). pose proof (Hok a Ha) as K.
        destruct (on (Peer f) (i_in (SY a))) eqn:O; auto. apply on_peer in O. exfalso.
        destruct a; cbn [sync_i okpar brecv recv_i send_i i_in] in *; try congruence; try (destruct K as (_ & K & _); congruence). injection O as ->. lia. }
      assert (TA : forall a b, taken f (a ++ b) = taken f a + taken f b) by (induction a as [|x a IH]; intros; simpl; [auto|rewrite IH; lia]).
      rewrite El, map_app, TA. cbn [map taken]. rewrite (Z0 l1), (Z0 l2) by (intros; apply in_or_app; auto). cbn [sync_i]. unfold recv_i. cbn [i_in i_take]. rewrite (proj2 (on_peer f _) eq_refl), Hes. lia.
    - intros i Hi'. apply in_map_iff in Hi' as (a & <- & Ha). pose proof (Hok a Ha) as K.
      assert (Fr : (forall b c t, a <> BufSend b c t) -> (forall b c f, a <> BufRecv b c f) -> Frame (dp a) (rd a) (wr a)) by (apply (sf_frame _ _ _ _ _ safe); auto).
      destruct a; cbn [sync_i okpar] in *; try (apply Fr; discriminate); unfold send_i, recv_i; cbn [i_take]; rewrite ?Hes; try lia; nia.
  Qed.
  Lemma len_sent t b c : In (BufSend b c t) l -> c * sz = Z.of_nat (length (G p t)).
  Proof.
    intros Hi. pose proof (Hok _ Hi) as (Hc & Ht & _). rewrite <- (Hout t Ht).
    pose (v := fun i : instr => Z.of_nat (length (i_send i (fun _ => 0)))).
    assert (V : forall i, In i (map SY l) -> i_out i = Some (Peer t) -> forall m, Z.of_nat (length (i_send i m)) = v i).
    { intros i Hi' O m. apply in_map_iff in Hi' as (a & <- & Ha). pose proof (Hok a Ha) as K. unfold v.
      destruct a; cbn [sync_i okpar] in *; try (destruct K as (_ & _ & K); congruence); unfold send_i, recv_i in *; cbn [i_send i_out] in *; [rewrite !Proof_Comb3.rdb_length by nia; auto|discriminate]. }
    rewrite (exec_given t _ v V _ _ Hrun). rewrite (proj2 Hst). simpl (length []).
    destruct (in_split _ _ Hi) as (l1 & l2 & El). pose proof (cnt_one _ _ (proj1 (Hone t)) (BufSend b c t)) as H1. cbn [bsend] in H1. rewrite Z.eqb_refl in H1.
    specialize (fun b' => H1 b' l1 l2 El eq_refl).
    pose (S := fun k => fold_right Z.add 0 (map (fun i => if on (Peer t) (i_out i) then v i else 0) k)).
    assert (Z0 : forall k, (forall a, In a k -> In a (l1 ++ l2)) -> S (map SY k) = 0).
    { induction k as [|a k IH]; intros H; auto. unfold S in *. cbn [map fold_right]. rewrite IH by (intros; apply H; right; auto). specialize (H a (or_introl eq_refl)). specialize (H1 a H).
      assert (Ha : In a l) by (rewrite El; apply in_or_app; apply in_app_or in H; simpl; tauto). pose proof (Hok a Ha) as K.
      destruct (on (Peer t) (i_out (SY a))) eqn:O; auto. apply on_peer in O. exfalso.
      destruct a; cbn [sync_i okpar bsend recv_i send_i i_out] in *; try congruence; try (destruct K as (_ & _ & K); congruence). injection O as ->. lia. }
    assert (TA : forall a b, S (a ++ b) = S a + S b) by (unfold S; induction a as [|x a IH]; intros; simpl; [auto|rewrite IH; lia]).
    fold (S (map SY l)). rewrite El, map_app, TA. change (map SY (BufSend b c t :: l2)) with ([SY (BufSend b c t)] ++ map SY l2). rewrite TA, (Z0 l1), (Z0 l2) by (intros; apply in_or_app; auto).
    unfold S, v. cbn [map fold_right sync_i]. unfold send_i. cbn [i_out i_send]. rewrite (proj2 (on_peer t _) eq_refl), Proof_Comb3.rdb_length by nia. rewrite Hes. lia.
  Qed.
  Lemma none_recv f : 0 <= f < N -> cnt (brecv f) l = 0%nat -> G f p = [].
  Proof.
    intros Hf H0. rewrite <- (Hin f Hf). pose proof (exec_taken f (map SY l)) as T. specialize (T) with (2 := Hrun). rewrite (Hend f Hf) in T. 
    assert (Z0 : taken f (map SY l) = 0).
    { assert (K0 : forall a, In a l -> brecv f a = false).
      { intros a Ha. destruct (brecv f a) eqn:E; auto. assert (0 < cnt (brecv f) l)%nat by (apply cnt_pos; eauto). lia. }
      assert (Z1 : forall k, (forall a, In a k -> In a l) -> taken f (map SY k) = 0); [|apply Z1; auto].
      induction k as [|a k IH]; intros H; auto. cbn [map taken]. rewrite IH by (intros; apply H; right; auto). specialize (H a (or_introl eq_refl)). specialize (K0 a H). pose proof (Hok a H) as K.
      destruct (on (Peer f) (i_in (SY a))) eqn:O; auto. apply on_peer in O. exfalso.
      destruct a; cbn [sync_i okpar brecv recv_i send_i i_in] in *; try congruence; try (destruct K as (_ & K & _); congruence). injection O as ->. lia. }
    rewrite Z0 in T. destruct (p_in s (Peer f)); auto. exfalso. cbn [length] in T. assert (X : Z.of_nat (S (length l0)) = 0 + Z.of_nat 0); [apply T|lia].
    intros i Hi'. apply in_map_iff in Hi' as (a & <- & Ha). pose proof (Hok a Ha) as K.
    assert (Fr : (forall b c t, a <> BufSend b c t) -> (forall b c f, a <> BufRecv b c f) -> Frame (dp a) (rd a) (wr a)) by (apply (sf_frame _ _ _ _ _ safe); auto).
    destruct a; cbn [sync_i okpar] in *; try (apply Fr; discriminate); unfold send_i, recv_i; cbn [i_take]; rewrite ?Hes; try lia; nia.
  Qed.
  Lemma none_sent t : 0 <= t < N -> cnt (bsend t) l = 0%nat -> G p t = [].
  Proof.
    intros Ht H0. rewrite <- (Hout t Ht). pose (v := fun i : instr => 0).
    assert (K0 : forall a, In a l -> i_out (SY a) <> Some (Peer t)).
    { intros a Ha O. assert (E : bsend t a = false) by (destruct (bsend t a) eqn:E; auto; assert (0 < cnt (bsend t) l)%nat by (apply cnt_pos; eauto); lia). pose proof (Hok a Ha) as K.
      destruct a; cbn [sync_i okpar bsend recv_i send_i i_out] in *; try congruence; try (destruct K as (_ & _ & K); congruence). injection O as ->. lia. }
    pose proof (exec_given t (map SY l) v) as T. specialize (T) with (2 := Hrun). rewrite (proj2 Hst) in T.
    assert (Z0 : fold_right Z.add 0 (map (fun i => if on (Peer t) (i_out i) then v i else 0) (map SY l)) = 0).
    { generalize (map SY l) as k0. induction k0 as [|i k IH]; auto. cbn [map fold_right]. rewrite IH. unfold v. destruct (on _ _); auto. }
    rewrite Z0 in T. destruct (p_out F (Peer t)); auto. exfalso. cbn [length] in T. assert (X : Z.of_nat (S (length l0)) = Z.of_nat 0 + 0); [apply T|lia].
    intros i Hi' O. apply in_map_iff in Hi' as (a & <- & Ha). destruct (K0 a Ha O).
  Qed.

  (* ---- the process in the network does what the process alone does ---- *)
  Record Sim (pre : list apar) (A : ast) (v : node) : Prop := {
    n_code : prog = pre ++ nd_code v;
    n_inv : INV (nd_code v, A);
    n_mem : x_mem A = nd_mem v;
    n_out : forall t, x_out A (Peer t) = Filled [] :: nd_out v t;
    n_rq : forall q, match nd_rq v q with
      | None => x_rq A q = None
      | Some NDone => x_rq A q = Some RDone
      | Some (NSend b n t) => x_rq A q = Some (RSend b n) /\ n = Z.of_nat (length (G p t)) /\ (0 <= t < N /\ t <> p) /\ In (Waiting q) (nd_out v t)
      | Some (NRecv b n f k) => x_rq A q = Some (RRecv b n (G f p)) /\ n = Z.of_nat (length (G f p)) /\ k = 0%nat /\ (0 <= f < N /\ f <> p) /\
          exists b c, In (MpiIrecv b c f q) prog
      end;
    n_in : forall f, 0 <= f < N -> nd_got v f = 0%nat -> x_in A (Peer f) = G f p;
    n_got : forall f, nd_got v f = cnt (irecv f) pre;
    n_len : forall t, length (nd_out v t) = cnt (isend t) pre;
    n_ids : forall q, nd_rq v q <> None -> In q (start_ids pre);
    n_wait : forall t q, In (Waiting q) (nd_out v t) -> exists b n, nd_rq v q = Some (NSend b n t);
    n_fill : forall t bs, In (Filled bs) (nd_out v t) -> length bs = length (G p t) }.

  Lemma es0 : 0 <= cx_es cx. Proof. lia. Qed.
  Lemma sim_start : Sim [] (initial s) (mkNode prog m0 (fun _ => []) (fun _ => None) (fun _ => 0%nat)).
  Proof.
    destruct Hst as [M O]. constructor; cbn [nd_code nd_mem nd_out nd_rq nd_got]; auto; try (intros; simpl in *; tauto).
    - apply inv_start.
    - intros t. cbn [initial x_out]. rewrite O. auto.
    - intros f Hf _. apply Hin. auto.
  Qed.

  Lemma sim_fresh pre A v a r q : Sim pre A v -> nd_code v = a :: r -> In q (start_id a) -> nd_rq v q = None.
  Proof.
    intros H E Hq. destruct (nd_rq v q) eqn:X; auto. exfalso. assert (I : In q (start_ids pre)) by (apply (n_ids _ _ _ H); congruence).
    pose proof (async_nodup l pl) as ND. rewrite (n_code _ _ _ H), E in ND. unfold start_ids in ND. rewrite flat_map_app in ND.
    clear - ND I Hq. unfold start_ids in I. induction (flat_map start_id pre) as [|y k IH]; [destruct I|]. cbn [app] in ND. inversion ND as [|? ? X Y]; subst.
    destruct I as [->|I]; auto. apply X. apply in_or_app. right. cbn [flat_map]. apply in_or_app. auto.
  Qed.
  Lemma starts_snoc pre a : start_ids (pre ++ [a]) = start_ids pre ++ start_id a.
  Proof. unfold start_ids. rewrite flat_map_app. simpl. rewrite app_nil_r. auto. Qed.
  Lemma cnt_snoc f pre a : cnt f (pre ++ [a]) = (cnt f pre + (if f a then 1 else 0))%nat.
  Proof. rewrite cnt_app, cnt_cons. change (cnt f []) with 0%nat. lia. Qed.

  Variable d : Z -> apar -> instr.
  Hypothesis Hd : forall a, d p a = dp a.

  Lemma node_run_plain v a r : nd_code v = a :: r -> In a l -> ~ is_mpi a -> (forall b c t, a <> BufSend b c t) -> (forall b c t, a <> BufRecv b c t) ->
    node_run sz d p v = Some (mkNode r (i_write (dp a) (nd_mem v) []) (nd_out v) (nd_rq v) (nd_got v)).
  Proof.
    intros E Ha M S R. pose proof (Hok a Ha) as K. unfold node_run. rewrite E.
    destruct a; try (destruct K as (_ & K1 & K2); rewrite Hd, K1, K2; reflexivity); try (exfalso; apply M; exact Logic.I); [destruct (S buf count to)|destruct (R buf count from)]; auto.
  Qed.

  Lemma sim_run pre A v v' : Sim pre A v -> node_run sz d p v = Some v' -> exists a A', nd_code v = a :: nd_code v' /\ Sim (pre ++ [a]) A' v'.
  Proof.
    intros H E. destruct (nd_code v) as [|a r] eqn:Ec; [unfold node_run in E; rewrite Ec in E; discriminate|].
    assert (Ha : In a prog) by (rewrite (n_code _ _ _ H), Ec; apply in_or_app; right; left; auto).
    assert (Hpre : prog = (pre ++ [a]) ++ r) by (rewrite (n_code _ _ _ H), Ec, <- app_assoc; auto).
    assert (HI := n_inv _ _ _ H). rewrite Ec in HI.
    assert (ST : forall A', do_op (cx_es cx) SY a A = Some A' -> INV (r, A')).
    { intros A' X. apply (inv_step cx dp rd wr es0 l s safe (a :: r, A)); auto. apply st_run. auto. }
    destruct (async_in l pl a Ha) as [(n & ->)|[(b & c & f & q & -> & Hl)|[(b & c & t & q & -> & Hl)|[(q & ->)|(Hl & M & S & R)]]]].
    - unfold node_run in E. rewrite Ec in E. injection E as <-. eexists. exists A. split; [reflexivity|]. destruct H. constructor; cbn [nd_code nd_mem nd_out nd_rq nd_got]; auto.
      + intros f. rewrite cnt_snoc. cbn [irecv]. rewrite n_got0. lia.
      + intros t. rewrite cnt_snoc. cbn [isend]. rewrite n_len0. lia.
      + intros q Hq. rewrite starts_snoc, in_app_iff. auto.
    - (* receive *)
      unfold node_run in E. rewrite Ec in E. injection E as <-. pose proof (Hok _ Hl) as (Hc & Hf & Hn). pose proof (len_recv f b c Hl) as HL.
      assert (Fq := sim_fresh _ _ _ _ _ q H Ec (or_introl eq_refl)).
      assert (G0 : nd_got v f = 0%nat).
      { rewrite (n_got _ _ _ H). pose proof (async_irecv l pl f) as X. rewrite Hpre, !cnt_app, cnt_cons in X. cbn [irecv] in X. rewrite Z.eqb_refl in X. pose proof (proj2 (Hone f)). lia. }
      pose proof (n_in _ _ _ H f Hf G0) as Ein.
      eexists. eexists. split; [reflexivity|]. destruct H. constructor; cbn [nd_code nd_mem nd_out nd_rq nd_got].
      + exact Hpre.
      + apply ST. reflexivity.
      + exact n_mem0.
      + exact n_out0.
      + intros k. cbn [x_rq]. unfold setq, setz. destruct (k =? q) eqn:Eq.
        * assert (k = q) by lia. subst k. rewrite Hes, Ein, HL, G0. split; [|split; auto; split; auto; split; auto; exists b, c; auto].
          rewrite firstn_all2 by (unfold bytes; lia). auto.
        * specialize (n_rq0 k). exact n_rq0.
      + intros f' Hf' G'. cbn [x_in]. unfold setz in G'. unfold setc. destruct (f' =? f) eqn:Ef; [discriminate|]. destruct (chan_eq_dec _ _) as [X|X]; [injection X as X; lia|]. auto.
      + intros f'. rewrite cnt_snoc. cbn [irecv]. unfold setz. destruct (f' =? f) eqn:Ef.
        * assert (f' = f) by lia. subst f'. rewrite Z.eqb_refl, n_got0. lia.
        * destruct (f =? f') eqn:E2; [lia|]. rewrite n_got0. lia.
      + intros t. rewrite cnt_snoc. cbn [isend]. rewrite n_len0. lia.
      + intros k Hk. rewrite starts_snoc, in_app_iff. unfold setz in Hk. destruct (k =? q) eqn:Eq; [right; left; lia|auto].
      + intros t k Hk. destruct (n_wait0 t k Hk) as (b1 & n1 & X). exists b1, n1. rewrite setz_ne; auto. congruence.
      + exact n_fill0.
    - (* send *)
      unfold node_run in E. rewrite Ec in E. injection E as <-. pose proof (Hok _ Hl) as (Hc & Ht & Hn). pose proof (len_sent t b c Hl) as HL.
      assert (Fq := sim_fresh _ _ _ _ _ q H Ec (or_introl eq_refl)).
      eexists. eexists. split; [reflexivity|]. destruct H. constructor; cbn [nd_code nd_mem nd_out nd_rq nd_got].
      + exact Hpre.
      + apply ST. reflexivity.
      + exact n_mem0.
      + intros u. cbn [x_out]. unfold setc, setz. destruct (chan_eq_dec _ _) as [X|X].
        * injection X as ->. rewrite Z.eqb_refl, n_out0. auto.
        * destruct (u =? t) eqn:Eu; [destruct X; f_equal; lia|]. auto.
      + intros k. cbn [x_rq]. unfold setq, setz. destruct (k =? q) eqn:Eq.
        * assert (k = q) by lia. subst k. rewrite Hes, HL. split; auto. split; auto. split; auto. rewrite Z.eqb_refl. apply in_or_app. right. left. auto.
        * specialize (n_rq0 k). destruct (nd_rq v k) as [[b1 n1 t1|b1 n1 f1 k1|]|]; auto. destruct n_rq0 as (X1 & X2 & X3 & X4). split; auto. split; auto. split; auto.
          destruct (t1 =? t) eqn:Et; auto. apply in_or_app. left. assert (t1 = t) by lia. congruence.
      + exact n_in0.
      + intros f. rewrite cnt_snoc. cbn [irecv]. rewrite n_got0. lia.
      + intros u. rewrite cnt_snoc. cbn [isend]. unfold setz. destruct (u =? t) eqn:Eu.
        * assert (u = t) by lia. subst u. rewrite Z.eqb_refl, app_length, n_len0. simpl. lia.
        * destruct (t =? u) eqn:E2; [lia|]. rewrite n_len0. lia.
      + intros k Hk. rewrite starts_snoc, in_app_iff. unfold setz in Hk. destruct (k =? q) eqn:Eq; [right; left; lia|auto].
      + intros u k Hk. unfold setz in Hk. destruct (u =? t) eqn:Eu.
        * assert (u = t) by lia. subst u. apply in_app_or in Hk. destruct Hk as [Hk|[Hk|[]]].
          -- destruct (n_wait0 t k Hk) as (b1 & n1 & X). exists b1, n1. rewrite setz_ne; auto. congruence.
          -- injection Hk as ->. rewrite setz_eq. eauto.
        * destruct (n_wait0 u k Hk) as (b1 & n1 & X). exists b1, n1. rewrite setz_ne; auto. congruence.
      + intros u bs Hk. unfold setz in Hk. destruct (u =? t) eqn:Eu; auto. assert (u = t) by lia. subst u. apply in_app_or in Hk. destruct Hk as [Hk|[Hk|[]]]; [auto|discriminate].
    - unfold node_run in E. rewrite Ec in E. destruct (nd_rq v q) as [[| |]|] eqn:Eq; try discriminate. injection E as <-.
      eexists. exists A. split; [reflexivity|]. assert (X := n_rq _ _ _ H q). rewrite Eq in X. destruct H. constructor; cbn [nd_code nd_mem nd_out nd_rq nd_got]; auto.
      + apply ST. simpl. rewrite X. auto.
      + intros f. rewrite cnt_snoc. cbn [irecv]. rewrite n_got0. lia.
      + intros t. rewrite cnt_snoc. cbn [isend]. rewrite n_len0. lia.
      + intros k Hk. rewrite starts_snoc, in_app_iff. auto.
    - rewrite (node_run_plain v a r Ec Hl M S R) in E. injection E as <-. pose proof (sf_frame _ _ _ _ _ safe a Hl S R) as Fr.
      assert (K : i_in (dp a) = None /\ i_out (dp a) = None). { pose proof (Hok a Hl) as K. destruct a; cbn [okpar] in K; try tauto; [destruct (S buf count to)|destruct (R buf count from)]; auto. }
      destruct K as [K1 K2]. destruct Fr as (_ & F0 & _). specialize (F0 K1).
      assert (SS : SY a = dp a). { destruct a; auto; [destruct (S buf count to)|destruct (R buf count from)]; auto. }
      assert (D : do_op (cx_es cx) SY a A = Some (mkX (i_write (dp a) (x_mem A) []) (fun c => x_in A c) (fun c => x_out A c) (x_rq A))).
      { assert (D0 : do_op (cx_es cx) SY a A = match exec_i (dp a) (mkP (x_mem A) (x_in A) (fun _ => [])) with None => None | Some s => Some (mkX (p_mem s) (p_in s) (fun c => if on c (i_out (dp a)) then x_out A c ++ [Filled (i_send (dp a) (x_mem A))] else x_out A c) (x_rq A)) end).
        { destruct a; cbn [do_op]; rewrite ?SS; auto; exfalso; apply M; exact Logic.I. }
        rewrite D0. unfold exec_i. rewrite K1, F0, K2. reflexivity. }
      eexists. eexists. split; [reflexivity|]. specialize (ST _ D).
      assert (I0 : forall f, irecv f a = false) by (intros; destruct a; auto; exfalso; apply M; exact Logic.I).
      assert (S0 : forall f, isend f a = false) by (intros; destruct a; auto; exfalso; apply M; exact Logic.I).
      destruct H. constructor; cbn [nd_code nd_mem nd_out nd_rq nd_got]; try exact ST; auto.
      + cbn [x_mem]. rewrite n_mem0. auto.
      + intros f. rewrite cnt_snoc, I0. rewrite n_got0. lia.
      + intros t. rewrite cnt_snoc, S0. rewrite n_len0. lia.
      + intros k Hk. rewrite starts_snoc, in_app_iff. auto.
  Qed.

  Lemma out_short pre A v t : Sim pre A v -> (length (nd_out v t) <= 1)%nat.
  Proof.
    intros H. rewrite (n_len _ _ _ H). pose proof (async_isend l pl t) as X. rewrite (n_code _ _ _ H), cnt_app in X. pose proof (proj1 (Hone t)). lia.
  Qed.
  Lemma sim_filled pre A v t k bs : Sim pre A v -> 0 <= t < N -> nth_error (nd_out v t) k = Some (Filled bs) -> bs = G p t.
  Proof.
    intros H Ht Hk. apply nth_error_In in Hk. pose proof (out_short _ _ _ t H) as HS. assert (HL := n_fill _ _ _ H _ _ Hk).
    assert (E : nd_out v t = [Filled bs]). { destruct (nd_out v t) as [|x [|y r]]; [destruct Hk| |simpl in HS; lia]. destruct Hk as [->|[]]. auto. }
    destruct (inv_state cx dp wr l s (nd_code v) A F (n_inv _ _ _ H) Hrun) as (R & P & S & sq & k' & HR & HF).
    destruct (exec_is_out k' t _ _ HF) as (w & Hw). rewrite (Hout t Ht), (r_out _ _ _ _ _ _ _ HR), (n_out _ _ _ H), E in Hw. cbn [map concat resolve app] in Hw. rewrite app_nil_r in Hw.
    destruct w; [rewrite app_nil_r in Hw; auto|]. exfalso. rewrite Hw, app_length in HL. simpl in HL. lia.
  Qed.
  Lemma sim_sent pre A strict x q v' : Sim pre A (x p) -> node_sent strict x p q = Some v' -> exists A', Sim pre A' v' /\ nd_code v' = nd_code (x p).
  Proof.
    intros H E. unfold node_sent in E. destruct (nd_rq (x p) q) as [[b n t| |]|] eqn:Eq; try discriminate. destruct (_ || _); [|discriminate]. injection E as <-.
    set (v := x p) in *. assert (X := n_rq _ _ _ H q). rewrite Eq in X. destruct X as (X1 & X2 & X3 & X4).
    assert (HI : INV (nd_code v, mkX (x_mem A) (x_in A) (fun c => map (fill q (rdb (x_mem A) b n)) (x_out A c)) (setq (x_rq A) q RDone))).
    { apply (inv_step cx dp rd wr es0 l s safe (nd_code v, A)); [apply (n_inv _ _ _ H)|]. eapply st_send; eauto. }
    eexists. split; [|reflexivity]. destruct H. constructor; cbn [nd_code nd_mem nd_out nd_rq nd_got]; try exact HI; auto.
    - intros u. cbn [x_out]. rewrite n_out0, n_mem0. auto.
    - intros k. cbn [x_rq]. unfold setq, setz. destruct (k =? q) eqn:Ek; auto. specialize (n_rq0 k). destruct (nd_rq v k) as [[b1 n1 t1|b1 n1 f1 k1|]|]; auto.
      destruct n_rq0 as (Y1 & Y2 & Y3 & Y4). split; auto. split; auto. split; auto. change (Waiting k) with (fill q (rdb (nd_mem v) b n) (Waiting k)) at 1 || idtac.
      apply in_map_iff. exists (Waiting k). split; auto. cbn [fill]. rewrite Ek. auto.
    - intros u. rewrite map_length. auto.
    - intros k Hk. unfold setz in Hk. destruct (k =? q) eqn:Ek; auto. apply n_ids0. assert (k = q) by lia. subst k. congruence.
    - intros u k Hk. apply in_map_iff in Hk as (sl & Hs & Hk). destruct sl as [bs|k']; [discriminate|]. cbn [fill] in Hs. destruct (k' =? q) eqn:Ek; [discriminate|]. injection Hs as ->.
      destruct (n_wait0 u k Hk) as (b1 & n1 & Y). exists b1, n1. rewrite setz_ne; auto. lia.
    - intros u bs Hk. apply in_map_iff in Hk as (sl & Hs & Hk). destruct sl as [bs'|k']; cbn [fill] in Hs; [injection Hs as ->; auto|]. destruct (k' =? q) eqn:Ek; [|discriminate]. injection Hs as <-.
      assert (k' = q) by lia. subst k'. destruct (n_wait0 u q Hk) as (b1 & n1 & Y). assert (u = t) by congruence. subst u. pose proof (Proof_Comb3.rdb_length (nd_mem v) b n). lia.
  Qed.
  Lemma sim_recvd pre A x q v' : Sim pre A (x p) -> (forall f k bs, 0 <= f < N -> nth_error (nd_out (x f) p) k = Some (Filled bs) -> bs = G f p) ->
    node_recvd x p q = Some v' -> exists A', Sim pre A' v' /\ nd_code v' = nd_code (x p).
  Proof.
    intros H HG E. unfold node_recvd in E. destruct (nd_rq (x p) q) as [[|b n f k|]|] eqn:Eq; try discriminate. assert (X := n_rq _ _ _ H q). rewrite Eq in X. destruct X as (X1 & X2 & X3 & X4 & X5).
    destruct (nth_error (nd_out (x f) p) k) as [[bs|]|] eqn:En; try discriminate. apply HG in En; [|tauto]. subst bs. destruct (_ <=? n); [|discriminate]. injection E as <-.
    set (v := x p) in *. assert (HI : INV (nd_code v, mkX (mwrite (x_mem A) b (G f p)) (x_in A) (x_out A) (setq (x_rq A) q RDone))).
    { apply (inv_step cx dp rd wr es0 l s safe (nd_code v, A)); [apply (n_inv _ _ _ H)|]. eapply st_recv; eauto. }
    eexists. split; [|reflexivity]. destruct H. constructor; cbn [nd_code nd_mem nd_out nd_rq nd_got]; try exact HI; auto.
    - cbn [x_mem]. congruence.
    - intros j. cbn [x_rq]. unfold setq, setz. destruct (j =? q) eqn:Ek; auto. apply n_rq0.
    - intros j Hk. unfold setz in Hk. destruct (j =? q) eqn:Ek; auto. apply n_ids0. assert (j = q) by lia. subst j. congruence.
    - intros u j Hk. destruct (n_wait0 u j Hk) as (b1 & n1 & Y). exists b1, n1. rewrite setz_ne; auto. congruence.
  Qed.
  Lemma sim_end pre A v : Sim pre A v -> nd_code v = [] -> (forall q, nd_rq v q = None \/ nd_rq v q = Some NDone) /\ (forall x, nd_mem v x = p_mem F x) /\
    (forall f, nd_got v f = cnt (brecv f) l) /\ (forall t, length (nd_out v t) = cnt (bsend t) l).
  Proof.
    intros H E. assert (HI := n_inv _ _ _ H). rewrite E in HI. destruct (inv_end cx dp rd wr l s safe A HI) as (S & ES & R1 & R2 & R3). rewrite Hrun in ES. injection ES as <-.
    assert (Epre : pre = prog) by (rewrite (n_code _ _ _ H), E, app_nil_r; auto).
    split; [|split; [|split]].
    - intros q. assert (X := n_rq _ _ _ H q). destruct (nd_rq v q) as [[b n t|b n f k|]|]; auto; exfalso.
      + destruct X as (_ & _ & _ & X). destruct (R3 (Peer t)) as (bs & Y & _). rewrite (n_out _ _ _ H) in Y. assert (Z : In (Waiting q) (map Filled bs)) by (rewrite <- Y; right; auto).
        apply in_map_iff in Z as (z & Z & _). discriminate.
      + destruct X as (X & _). eapply inv_no_recv; [exact safe|exact HI|exact X].
    - intros x. rewrite <- (n_mem _ _ _ H). apply R1.
    - intros f. rewrite (n_got _ _ _ H), Epre. apply async_irecv. exact pl.
    - intros t. rewrite (n_len _ _ _ H), Epre. apply async_isend. exact pl.
  Qed.
  Lemma sim_head pre A v a r : Sim pre A v -> nd_code v = a :: r -> (exists v', node_run sz d p v = Some v') \/
    exists q, a = MpiWait q /\ ((exists b n t, nd_rq v q = Some (NSend b n t)) \/ (exists b n f k, nd_rq v q = Some (NRecv b n f k))).
  Proof.
    intros H Ec. assert (Ha : In a prog) by (rewrite (n_code _ _ _ H), Ec; apply in_or_app; right; left; auto).
    destruct (async_in l pl a Ha) as [(n & ->)|[(b & c & f & q & -> & Hl)|[(b & c & t & q & -> & Hl)|[(q & ->)|(Hl & M & S & R)]]]].
    1-3: left; unfold node_run; rewrite Ec; eauto.
    - assert (HI := n_inv _ _ _ H). rewrite Ec in HI. assert (W := inv_wait cx dp rd wr l s safe q r A HI). assert (X := n_rq _ _ _ H q).
      destruct (nd_rq v q) as [[b n t|b n f k|]|] eqn:Eq.
      + right. exists q. split; auto. left. eauto.
      + right. exists q. split; auto. right. eauto.
      + left. unfold node_run. rewrite Ec, Eq. eauto.
      + exfalso. rewrite X in W. destruct W as [W|[(b & n & W)|(b & n & bs & W)]]; discriminate.
    - left. rewrite (node_run_plain v a r Ec Hl M S R). eauto.
  Qed.
End Node.
