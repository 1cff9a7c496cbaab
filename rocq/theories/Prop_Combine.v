(* Property C30: combining messages delivers the same data. *)
From Coq Require Import ZArith List Bool Lia ZifyBool ZifyNat Permutation.
From Verif Require Import Base Model_Space Model_Mem Model_Transition Model_Action Model_ActionTrans Model_ActionExec Spec_Action Spec_ActionTrans.
From Verif Require Import Proof_Type Proof_Comb1 Proof_Comb2 Proof_Comb3 Proof_Comb4 Proof_Comb5 Proof_Comb6 Proof_Comb7 Proof_Comb8.
Import ListNotations.
Open Scope Z_scope.

(* For any other actions in the sequence (with any meaning oth and footprints rd, wr), for
   any memory, any incoming bytes and any place of the new temporary buffer: the sequence
   before and after combining do the same. They get stuck (not enough bytes coming in) or
   not together; if not, the bytes sent to each partner, the bytes left in each incoming
   stream and the memory outside of the temporary buffer are the same. *)
Theorem C30_semantics cx place oth rd wr s s' n acts :
  0 < cx_es cx -> ranged (as_acts s) -> total (as_acts s) * cx_es cx < 2 ^ 32 ->
  combine cx s = Ok (true, s') ->
  as_acts s' = mkAct 0 (BufReserve n (as_nres s + 100) 0) :: acts ->
  Combinable cx (den cx place oth) rd wr (region (place (as_nres s + 100)) n) (as_acts s) ->
  forall st, SameRun (region (place (as_nres s + 100)) n)
    (exec_seq (den cx place oth) (as_acts s) st) (exec_seq (den cx place oth) (as_acts s') st).
Proof. intros. eapply combine_sim; eauto. Qed.
Print Assumptions C30_semantics.

(* The same without any assumption on meanings, for sequences which consist of messages
   only: they do not touch what others of the same round write, nor the new buffer. *)
Theorem C30_messages_only cx place oth s s' n acts :
  0 < cx_es cx -> ranged (as_acts s) -> total (as_acts s) * cx_es cx < 2 ^ 32 ->
  combine cx s = Ok (true, s') ->
  as_acts s' = mkAct 0 (BufReserve n (as_nres s + 100) 0) :: acts ->
  (forall a, In a (as_acts s) -> is_msg a) ->
  ForallOrdPairs (fun a b => a_round a = a_round b ->
    Indep (msg_rd cx (a_par a)) (msg_wr cx (a_par a)) (msg_rd cx (a_par b)) (msg_wr cx (a_par b))) (as_acts s) ->
  (forall a, In a (as_acts s) -> apart (msg_rd cx (a_par a)) (region (place (as_nres s + 100)) n) /\
                                 apart (msg_wr cx (a_par a)) (region (place (as_nres s + 100)) n)) ->
  forall st, SameRun (region (place (as_nres s + 100)) n)
    (exec_seq (den cx place oth) (as_acts s) st) (exec_seq (den cx place oth) (as_acts s') st).
Proof.
  intros He R B H E M I A. apply (C30_semantics cx place oth (fun a => msg_rd cx (a_par a)) (fun a => msg_wr cx (a_par a)) s s' n acts); auto.
  constructor; auto.
  - intros a Ha. pose proof (proj2 (is_msg_mergeable a)) as Mg. assert (Mm : mergeable (a_par a) = true) by (apply is_msg_mergeable, M; auto).
    destruct (proj1 (kind_mergeable _) Mm) as [k K]. rewrite (den_uni cx place oth a k K).
    assert (L : 0 <= alen cx a) by (unfold alen; specialize (R a Ha); nia).
    destruct (uni_frame (gi cx a) (wo cx a) (kch k) (asrc a) (adst a) (alen cx a) L) as (F1 & F2 & F3 & F4 & F5).
    assert (Wr : forall x, msg_wr cx (a_par a) x <-> when (wo cx a) (region (adst a) (alen cx a)) x) by (intros; apply msg_wr_when; auto).
    assert (Rd : forall x, msg_rd cx (a_par a) x <-> when (gi cx a) (region (asrc a) (alen cx a)) x) by (intros; apply msg_rd_when; auto).
    split; [auto|split; [auto|split; [|split]]].
    + intros x. rewrite Wr. auto.
    + intros m bs x Hb Hx. apply F4; auto. rewrite <- Wr. auto.
    + intros m m' bs Hb Hm. destruct (F5 m m' bs Hb) as [G1 G2]; [intros x Hx; apply Hm, Rd, Hx|]. split; auto. intros x Hx. apply G2, Wr, Hx.
  - intros a Ha _ x. tauto.
  - assert (K : forall l, (forall a, In a l -> is_msg a) -> forall R S : action -> action -> Prop, (forall a b, is_msg a -> is_msg b -> R a b -> S a b) -> ForallOrdPairs R l -> ForallOrdPairs S l).
    { clear. intros l M R S H O. induction O as [|a l Ha O IH]; constructor.
      - rewrite Forall_forall in *. intros b Hb. apply H; auto; apply M; simpl; auto.
      - apply IH. intros; apply M; right; auto. }
    eapply (K _ M); [|exact I]. intros a b Ma Mb Hi Er _. split; [apply Hi; auto|]. tauto.
Qed.
Print Assumptions C30_messages_only.

Lemma sends_kind q a : (forall x, sends_to q a = true -> a_par a = x -> match x with BufSend _ _ _ => True | _ => False end) -> sends_to q a = true -> kind_of (a_par a) = Some (KS q).
Proof. intros H Hs. specialize (H _ Hs eq_refl). unfold sends_to in Hs. destruct (a_par a); try tauto. simpl. f_equal. f_equal. lia. Qed.
Lemma recvs_kind q a : (forall x, recvs_from q a = true -> a_par a = x -> match x with BufRecv _ _ _ => True | _ => False end) -> recvs_from q a = true -> kind_of (a_par a) = Some (KR q).
Proof. intros H Hs. specialize (H _ Hs eq_refl). unfold recvs_from in Hs. destruct (a_par a); try tauto. simpl. f_equal. f_equal. lia. Qed.
Lemma elements_csum l : (forall a, In a l -> msg_count a = a_cnt a) -> elements l = csum l.
Proof. unfold elements, csum. induction l as [|a l IH]; simpl; intros H; auto. rewrite (H a), IH; auto. Qed.
Lemma emit_msg_round cx id l off prev x : In x (flat_map (emit cx id) (classes prev l off)) ->
  (exists q, sends_to q x = true \/ recvs_from q x = true) -> exists r, a_round x = 3 * r + 1.
Proof.
  intros Hx (q & Hq). apply in_flat_map in Hx as (c & _ & Hx). unfold emit in Hx. rewrite !in_app_iff in Hx.
  destruct (e_round cx id c) as (A & B & D). destruct Hx as [Hx|[Hx|Hx]]; [|eauto|]; exfalso.
  - unfold e0 in Hx. destruct (_ && _); [|destruct Hx]. destruct Hx as [<-|[]]. destruct Hq; discriminate.
  - unfold e2 in Hx. destruct (_ && _); [|destruct Hx]. destruct Hx as [<-|[]]. destruct Hq; discriminate.
Qed.

(* Each partner gets at most one message per round (the new rounds 3r+1), and it has all the
   elements of the messages of the old round r; same for messages received. There are no
   messages in other rounds. *)
Theorem C30_one_message cx s s' :
  0 < cx_es cx -> ranged (as_acts s) -> total (as_acts s) * cx_es cx < 2 ^ 32 ->
  combine cx s = Ok (true, s') ->
  (forall a q, In a (as_acts s) -> sends_to q a = true -> exists b n t, a_par a = BufSend b n t) ->
  (forall a q, In a (as_acts s) -> recvs_from q a = true -> exists b n f, a_par a = BufRecv b n f) ->
  (forall q r,
    map msg_count (sent q (3 * r + 1) (as_acts s')) = match sent q r (as_acts s) with [] => [] | ms => [elements ms] end /\
    map msg_count (received q (3 * r + 1) (as_acts s')) = match received q r (as_acts s) with [] => [] | ms => [elements ms] end) /\
  (forall q k, (forall r, k <> 3 * r + 1) -> sent q k (as_acts s') = [] /\ received q k (as_acts s') = []).
Proof.
  intros He R B H HS HR. destruct (combine_inv cx s s' He R B H) as (E & _). rewrite E. clear E.
  set (id := as_nres s + 100). set (l := as_acts s) in *.
  assert (Nt : forall (P : action -> bool) (Q : action -> bool) (r : Z), (forall a, np [] a = true) -> filter (fun a => P a && Q a && np [] a) l = filter (fun a => P a && Q a) l).
  { intros P Q r Hn. apply filter_ext. intros a. rewrite Hn, andb_true_r. auto. }
  assert (N0 : forall a, np [] a = true) by reflexivity.
  split.
  - intros q r. split.
    + unfold sent. cbn [filter sends_to a_par andb].
      pose proof (count_one cx id (fun p => sends_to q (mkAct 0 p)) (KS q)) as C1. specialize (C1 ltac:(intros [] ? K p' K'; try discriminate; injection K as ->; destruct p'; try discriminate; injection K' as ->; unfold sends_to; simpl; lia)).
      specialize (C1 ltac:(intros [] ? ?; try discriminate; reflexivity) ltac:(split; reflexivity) ltac:(reflexivity)).
      specialize (C1 ltac:(intros [] ? ? ?; try discriminate; reflexivity) ltac:(intros [] ?; try discriminate; reflexivity)).
      specialize (C1 r l). unfold PP in C1. unfold sends_to in C1 at 1 2 3. cbn [a_par] in C1.
      assert (G : forall a, In a l -> (match a_par a with MapSend _ _ _ t | BufSend _ _ t | RBufSend _ _ _ t | MapPackAndSend _ _ _ t | PackAndSend _ _ _ t => t =? q | _ => false end) = true -> kind_of (a_par a) = Some (KS q)).
      { intros a Ha Hs. destruct (HS a q Ha Hs) as (b & n & t & Ep). rewrite Ep in *. simpl. f_equal. f_equal. lia. }
      specialize (C1 G [] 0). unfold sends_to. rewrite C1. rewrite (Nt (fun a => match a_par a with MapSend _ _ _ t | BufSend _ _ t | RBufSend _ _ _ t | MapPackAndSend _ _ _ t | PackAndSend _ _ _ t => t =? q | _ => false end) (in_round r) r N0).
      match goal with |- match ?f with _ => _ end = _ => set (F := f); assert (HF : forall a, In a F -> msg_count a = a_cnt a) end.
      { intros a Ha. apply filter_In in Ha as [Ha Hs]. apply andb_true_iff in Hs as [Hs _]. destruct (HS a q Ha Hs) as (b & n & t & Ep). unfold msg_count, a_cnt. rewrite Ep. reflexivity. }
      destruct F as [|a F]; auto. rewrite (elements_csum _ HF). auto.
    + unfold received. cbn [filter recvs_from a_par andb].
      pose proof (count_one cx id (fun p => recvs_from q (mkAct 0 p)) (KR q)) as C1. specialize (C1 ltac:(intros [] ? K p' K'; try discriminate; injection K as ->; destruct p'; try discriminate; injection K' as ->; unfold recvs_from; simpl; lia)).
      specialize (C1 ltac:(intros [] ? ?; try discriminate; reflexivity) ltac:(split; reflexivity) ltac:(reflexivity)).
      specialize (C1 ltac:(intros [] ? ? ?; try discriminate; reflexivity) ltac:(intros [] ?; try discriminate; reflexivity)).
      specialize (C1 r l). unfold PP in C1. unfold recvs_from in C1 at 1 2 3. cbn [a_par] in C1.
      assert (G : forall a, In a l -> (match a_par a with MapRecv _ _ _ t | BufRecv _ _ t | RBufRecv _ _ _ t | MapRecvAndUnpack _ _ _ t | RecvAndUnpack _ _ _ t => t =? q | _ => false end) = true -> kind_of (a_par a) = Some (KR q)).
      { intros a Ha Hs. destruct (HR a q Ha Hs) as (b & n & t & Ep). rewrite Ep in *. simpl. f_equal. f_equal. lia. }
      specialize (C1 G [] 0). unfold recvs_from. rewrite C1. rewrite (Nt (fun a => match a_par a with MapRecv _ _ _ t | BufRecv _ _ t | RBufRecv _ _ _ t | MapRecvAndUnpack _ _ _ t | RecvAndUnpack _ _ _ t => t =? q | _ => false end) (in_round r) r N0).
      match goal with |- match ?f with _ => _ end = _ => set (F := f); assert (HF : forall a, In a F -> msg_count a = a_cnt a) end.
      { intros a Ha. apply filter_In in Ha as [Ha Hs]. apply andb_true_iff in Hs as [Hs _]. destruct (HR a q Ha Hs) as (b & n & t & Ep). unfold msg_count, a_cnt. rewrite Ep. reflexivity. }
      destruct F as [|a F]; auto. rewrite (elements_csum _ HF). auto.
  - intros q k Hk. unfold sent, received. cbn [filter sends_to recvs_from a_par andb].
    split; apply filter_none; intros x Hx; apply andb_false_iff.
    + destruct (sends_to q x) eqn:Es; auto. right. unfold in_round. apply Z.eqb_neq. intros Ek. destruct (emit_msg_round cx id l 0 [] x Hx) as [r Hr]; eauto. apply (Hk r); lia.
    + destruct (recvs_from q x) eqn:Es; auto. right. unfold in_round. apply Z.eqb_neq. intros Ek. destruct (emit_msg_round cx id l 0 [] x Hx) as [r Hr]; eauto. apply (Hk r); lia.
Qed.
Print Assumptions C30_one_message.

(* The first action reserves a new buffer. The areas of it which are used by messages do not
   overlap and are inside, and the buffer is not larger than all messages together. *)
Theorem C30_areas cx s s' :
  0 < cx_es cx -> ranged (as_acts s) -> total (as_acts s) * cx_es cx < 2 ^ 32 ->
  (forall a, In a (as_acts s) -> tmp_area cx (as_nres s + 100) a = None) ->
  combine cx s = Ok (true, s') ->
  exists n acts, as_acts s' = mkAct 0 (BufReserve n (as_nres s + 100) 0) :: acts /\
    as_nres s' = as_nres s + 1 /\ as_bufs s' = as_bufs s /\
    0 < n <= total (as_acts s) * cx_es cx /\
    ForallOrdPairs (fun x y => fst x + snd x <= fst y) (tmp_areas cx (as_nres s + 100) acts) /\
    Forall (fun x => 0 <= fst x /\ 0 <= snd x /\ fst x + snd x <= n) (tmp_areas cx (as_nres s + 100) acts).
Proof.
  intros He R B N H. destruct (combine_inv cx s s' He R B H) as (E & E2 & E3 & E4).
  destruct (combine_areas cx s s' He R B N H) as [A1 A2]. rewrite E in A1, A2. do 2 eexists. split; [exact E|]. repeat split; auto; try nia.
  assert (P : pos a_cnt (as_acts s)) by (apply Forall_forall; intros; apply R; auto).
  pose proof (msum_le (as_acts s) [] 0 P). rewrite total_csum. nia.
Qed.
Print Assumptions C30_areas.

(* No assertion fails; and if nothing can be combined, nothing is changed. *)
Theorem C30_no_abort cx s :
  0 < cx_es cx -> ranged (as_acts s) -> (forall a, In a (as_acts s) -> ValidMsg cx a) ->
  total (as_acts s) * cx_es cx < 2 ^ 32 -> as_nce s < 5 ->
  exists b s', combine cx s = Ok (b, s').
Proof. apply combine_ok. Qed.
Print Assumptions C30_no_abort.

Theorem C30_unchanged cx s s' : combine cx s = Ok (false, s') -> s' = s.
Proof.
  unfold combine. destruct (comb_size cx [] (as_acts s) 0 0) as [[b r]| | | |]; try discriminate. cbn [obind fst snd].
  destruct (b =? 0).
  - unfold cassert. destruct (r =? 0); try discriminate. intros H. injection H as <-. auto.
  - unfold cassert. destruct (r >? 0); try discriminate. destruct (as_nce s <? ASEQ_COPYENTRY_MAX); try discriminate.
    unfold add_reserve. destruct (comb_pass cx (as_nres s + 100) r [] (as_acts s) 0 0) as [[[acts o] ro]| | | |]; try discriminate. cbn [obind].
    destruct (ro =? r); try discriminate. destruct (b =? o); discriminate.
Qed.
Print Assumptions C30_unchanged.

(* ---- a case ---- *)
Definition cb_cx : actx := mkCtx 8 1 4 0 [[0;1]; [1;2]] None None.
Definition cb_seq : aseq := mkSeq
  [mkAct 0 (BufSend 1000 2 1); mkAct 0 (BufRecv 2000 1 1); mkAct 0 (BufSend 1100 3 1); mkAct 0 (GroupReduce 0 1 3000 3000 4 RO_Sum);
   mkAct 0 (BufRecv 2100 2 1); mkAct 1 (BufSend 2000 1 2); mkAct 0 (GroupReduce 0 1 3100 3100 1 RO_Sum); mkAct 1 (Reduce 3000 3000 5 (-1) RO_Min)] 0 [] 0.
Definition cb_res : aseq := Eval vm_compute in match combine cb_cx cb_seq with Ok (_, s) => s | _ => cb_seq end.
Definition cb_acts : list action := Eval vm_compute in tl (as_acts cb_res).
Example C30_case_acts : as_acts cb_res = mkAct 0 (BufReserve 104 100 0) ::
  [mkAct 0 (CopyToRBuf [mkCE 1000 0 16; mkCE 1100 16 24] 100 0); mkAct 1 (RBufSend 100 0 5 1);
   mkAct 1 (RBufRecv 100 40 3 1); mkAct 2 (CopyFromRBuf [mkCE 2000 40 8; mkCE 2100 48 16] 100 0);
   mkAct 0 (CopyToRBuf [mkCE 3000 64 32; mkCE 3100 96 8] 100 0); mkAct 1 (RBufGroupReduce 0 1 100 64 5 RO_Sum);
   mkAct 4 (BufSend 2000 1 2); mkAct 4 (Reduce 3000 3000 5 (-1) RO_Min)].
Proof. reflexivity. Qed.
Example C30_case place oth : place 100 = 5000 ->
  forall st, SameRun (region 5000 104) (exec_seq (den cb_cx place oth) (as_acts cb_seq) st) (exec_seq (den cb_cx place oth) (as_acts cb_res) st).
Proof.
  intros Hp. assert (E : combine cb_cx cb_seq = Ok (true, cb_res)) by reflexivity.
  pose proof (C30_messages_only cb_cx place oth cb_seq cb_res 104 cb_acts) as T. change (as_nres cb_seq + 100) with 100 in T. rewrite Hp in T. apply T; auto.
  - reflexivity.
  - intros a Ha. simpl in Ha. repeat (destruct Ha as [<-|Ha]; [vm_compute; intuition discriminate|]). destruct Ha.
  - reflexivity.
  - intros a Ha. simpl in Ha. repeat (destruct Ha as [<-|Ha]; [exact I|]). destruct Ha.
  - assert (G0 : ing cb_cx 0 = true) by reflexivity. assert (G1 : ing cb_cx 1 = false) by reflexivity.
    unfold cb_seq. cbn [as_acts]. repeat apply FOP_cons; try apply FOP_nil; repeat apply Forall_cons; try apply Forall_nil; cbn [a_round a_par]; intros Er; try discriminate Er; clear Er;
      (split; [|split]); intros x; cbn [msg_rd msg_wr]; rewrite ?G0, ?G1; unfold region; change (cx_es cb_cx) with 8; try tauto; intuition (try lia; try congruence).
  - assert (G0 : ing cb_cx 0 = true) by reflexivity. assert (G1 : ing cb_cx 1 = false) by reflexivity.
    intros a Ha. simpl in Ha. repeat (destruct Ha as [<-|Ha]; [split; intros x; cbn [msg_rd msg_wr a_par]; unfold region; change (cx_es cb_cx) with 8; try tauto; try lia; intuition lia|]). destruct Ha.
Qed.
Print Assumptions C30_case.
Example C30_case_ok : ranged (as_acts cb_seq) /\ (forall a, In a (as_acts cb_seq) -> ValidMsg cb_cx a) /\ total (as_acts cb_seq) * cx_es cb_cx < 2 ^ 32 /\ as_nce cb_seq < 5 /\
  combine cb_cx cb_seq = Ok (true, cb_res) /\ tmp_areas cb_cx 100 cb_acts = [(0, 40); (40, 24); (64, 40)] /\
  map msg_count (sent 1 1 (as_acts cb_res)) = [5] /\ map msg_count (sent 1 0 (as_acts cb_seq)) = [2; 3].
Proof.
  split; [|split; [|vm_compute; auto 10]].
  - intros a Ha. simpl in Ha. repeat (destruct Ha as [<-|Ha]; [vm_compute; intuition discriminate|]). destruct Ha.
  - intros a Ha. simpl in Ha. repeat (destruct Ha as [<-|Ha]; [unfold ValidMsg; simpl; intuition (try lia); eexists; reflexivity|]). destruct Ha.
Qed.

(* ---- limits of the implementation ---- *)

(* a message in round 85 or later: the copying gets a round which is not possible *)
Theorem C30_late_round_refuted : exists cx s,
  0 < cx_es cx /\ (forall a, In a (as_acts s) -> ValidMsg cx a /\ 0 <= a_round a < 255) /\ total (as_acts s) * cx_es cx < 2 ^ 32 /\
  combine cx s = Abort.
Proof.
  exists cb_cx, (mkSeq [mkAct 85 (BufSend 1000 2 1); mkAct 85 (BufSend 1100 3 1)] 0 [] 0).
  split; [reflexivity|split; [|split; reflexivity]]. intros a Ha. simpl in Ha. repeat (destruct Ha as [<-|Ha]; [unfold ValidMsg; simpl; lia|]). destruct Ha.
Qed.
Print Assumptions C30_late_round_refuted.

(* Sizes are computed with 32 bits: 4 GB of messages get a buffer of 8 bytes, although the
   combined message has 2^29 + 1 elements of 8 bytes. *)
Theorem C30_large_refuted : exists cx s s' n acts,
  0 < cx_es cx /\ ranged (as_acts s) /\ (forall a, In a (as_acts s) -> ValidMsg cx a) /\
  combine cx s = Ok (true, s') /\ as_acts s' = mkAct 0 (BufReserve n (as_nres s + 100) 0) :: acts /\
  exists off len, In (off, len) (tmp_areas cx (as_nres s + 100) acts) /\ n < off + len.
Proof.
  exists cb_cx, (mkSeq [mkAct 0 (BufSend 0 (2 ^ 28) 1); mkAct 0 (BufSend (2 ^ 40) (2 ^ 28 + 1) 1)] 0 [] 0).
  eexists. eexists. eexists. split; [reflexivity|]. split; [|split; [|split; [vm_compute; reflexivity|split; [reflexivity|]]]].
  - intros a Ha. simpl in Ha. repeat (destruct Ha as [<-|Ha]; [vm_compute; intuition discriminate|]). destruct Ha.
  - intros a Ha. simpl in Ha. repeat (destruct Ha as [<-|Ha]; [reflexivity|]). destruct Ha.
  - exists 0, (8 * (2 ^ 29 + 1)). split; [left; reflexivity|reflexivity].
Qed.
Print Assumptions C30_large_refuted.
