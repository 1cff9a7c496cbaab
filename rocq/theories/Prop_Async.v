(* Property C33: making sends and receives asynchronous. *)
From Coq Require Import ZArith List Bool Lia ZifyBool ZifyNat Sorted.
From Verif Require Import Base Model_Space Model_Mem Model_Transition Model_Action Model_ActionTrans Model_ActionExec Model_ActionExec2 Model_Async.
From Verif Require Import Spec_RangeList Spec_Action Spec_ActionTrans Spec_Async.
From Verif Require Import Proof_RangeList Proof_Action5 Proof_Async1 Proof_Async2 Proof_Async3 Prop_Sched.
Import ListNotations.
Open Scope Z_scope.

(* What is executed after the transformation and sorting: the request array, all receives in
   their order, then all actions in their order with sends started and receives waited for at
   their position, at the end the sends waited for in their order (async_prog). No-operations
   are dropped. It never aborts if the rounds are below 253. *)
Theorem C33_sequence q l : is_qsort cmp_rounds q -> by_round l ->
  (exists a, In a l /\ is_bufmsg a = true) -> (forall a, In a l -> 0 <= a_round a < 253) ->
  exists l1 ch r, async l = Ok (true, l1) /\ sort_rounds q l1 = Ok (ch, r) /\
    map a_par r = async_prog (map a_par (filter not_nop l)).
Proof.
  intros Q Hs Hm Hr. destruct (async_ok l Hm Hr) as (mx & l1 & M1 & M2 & M3 & E & H).
  assert (R2 : forall a, In a l -> 0 <= a_round a <= mx) by (intros a Ha; specialize (M3 a Ha); apply Hr in Ha; lia).
  destruct (C29_rounds q l1 Q) as (ch & r & f & E2 & S & K).
  { intros a Ha. apply (same_in _ _ H) in Ha. destruct Ha as [<-|Ha]; [simpl; lia|].
    apply in_app_or in Ha. destruct Ha as [Ha|Ha]; [apply postsA_round in Ha; lia|].
    apply in_app_or in Ha. destruct Ha as [Ha|Ha]; [|apply waitsA_round in Ha; lia].
    apply bodyA_round in Ha. destruct Ha as (b & Hb & ->). apply R2 in Hb. lia. }
  exists l1, ch, r. split; auto. split; auto.
  rewrite (shape f l1 r (resultA mx l)); auto.
  - change (map a_par (filter not_nop l)) with (pars l). rewrite <- (resultA_par mx l), map_map. apply map_ext. intros [k p]. reflexivity.
  - destruct ch; auto.
  - apply resultA_sorted; auto.
  - apply resultA_nop.
Qed.
Print Assumptions C33_sequence.

(* without buffer messages nothing changes *)
Theorem C33_unchanged l : (forall a, In a l -> is_bufmsg a = false) -> async l = Ok (false, l).
Proof.
  intros H. unfold async. rewrite (filter_none is_bufmsg l H). reflexivity.
Qed.
Print Assumptions C33_unchanged.

(* Every request from 0 up to the size of the array is started exactly once, waited for exactly
   once, and after it was started; no other request is used. *)
Theorem C33_requests l : (forall p, In p l -> ~ is_mpi p) ->
  (forall p k, In p (async_prog l) -> req_of p = Some k -> 0 <= k < Z.of_nat (length (filter is_m l))) /\
  forall k, 0 <= k < Z.of_nat (length (filter is_m l)) ->
    exists u p v w, async_prog l = u ++ p :: v ++ MpiWait k :: w /\ starts k p /\
      forall x, In x (u ++ v ++ w) -> req_of x <> Some k.
Proof.
  intros Hpl. fold (msgs l). split.
  - intros p k [<-|Hp] Hk; [discriminate|]. apply in_app_or in Hp. destruct Hp as [Hp|Hp]; [exact (posts_ids l 0 p k Hp Hk)|].
    apply in_app_or in Hp. destruct Hp as [Hp|Hp]; [exact (body_ids l Hpl 0 p k Hp Hk)|exact (waits_ids l 0 p k Hp Hk)].
  - intros k Hk. destruct (msg_at l k Hk) as (a & m & b & El & Ea & Em).
    assert (Ha : forall p, In p a -> ~ is_mpi p) by (intros p Hp; apply Hpl; rewrite El; apply in_or_app; auto).
    assert (Hb : forall p, In p b -> ~ is_mpi p) by (intros p Hp; apply Hpl; rewrite El; apply in_or_app; right; right; auto).
    assert (A1 := posts_ids a 0). assert (A2 := body_ids a Ha 0). assert (A3 := waits_ids a 0). rewrite Ea in A1, A2, A3.
    assert (B1 := posts_ids b (k + 1)). assert (B2 := body_ids b Hb (k + 1)). assert (B3 := waits_ids b (k + 1)).
    assert (L : forall x, ids_in 0 (0 + k) x -> forall p, In p x -> req_of p <> Some k) by (intros x Hx p Hp E; specialize (Hx p k Hp E); lia).
    assert (G : forall x, ids_in (k + 1) (k + 1 + msgs b) x -> forall p, In p x -> req_of p <> Some k) by (intros x Hx p Hp E; specialize (Hx p k Hp E); lia).
    unfold async_prog. rewrite El, posts_app, body_app, waits_app, Ea, Z.add_0_l.
    assert (Hn : forall n p, In p [MpiReq n] -> req_of p <> Some k) by (intros n p [<-|[]]; discriminate).
    set (n := Z.of_nat _). cbn [posts body waits]. unfold nextq. rewrite Em.
    destruct m; try discriminate; cbn [app].
    + (* send *)
      exists (MpiReq n :: (posts 0 a ++ posts (k + 1) b) ++ body 0 a), (MpiIsend buf count to k), (body (k + 1) b ++ waits 0 a), (waits (k + 1) b).
      split; [simpl; rewrite <- !app_assoc; auto|]. split; [reflexivity|].
      intros x Hx. rewrite app_comm_cons in Hx. change (MpiReq n :: posts 0 a ++ posts (k + 1) b) with ([MpiReq n] ++ posts 0 a ++ posts (k + 1) b) in Hx.
      repeat (apply in_app_or in Hx; destruct Hx as [Hx|Hx]); eauto.
    + exists (MpiReq n :: posts 0 a), (MpiIrecv buf count from k), (posts (k + 1) b ++ body 0 a), (body (k + 1) b ++ waits 0 a ++ waits (k + 1) b).
      split; [simpl; rewrite <- !app_assoc; auto|]. split; [reflexivity|].
      intros x Hx. change (MpiReq n :: posts 0 a) with ([MpiReq n] ++ posts 0 a) in Hx.
      repeat (apply in_app_or in Hx; destruct Hx as [Hx|Hx]); eauto.
Qed.
Print Assumptions C33_requests.

(* the meaning of an action as before *)
Definition meaning (cx : actx) (place : Z -> Z) (oth : apar -> instr) (p : apar) : instr := den cx place oth (mkAct 0 p).

Lemma sync_meaning cx place oth p : sync_i cx (meaning cx place oth) p = meaning cx place oth p.
Proof. destruct p; reflexivity. Qed.
Lemma do_meaning cx place oth p A : do_op (cx_es cx) (sync_i cx (meaning cx place oth)) p A = do_op (cx_es cx) (meaning cx place oth) p A.
Proof. destruct p; reflexivity. Qed.
Lemma step_meaning cx place oth c c' : astep (cx_es cx) (meaning cx place oth) c c' <-> astep (cx_es cx) (sync_i cx (meaning cx place oth)) c c'.
Proof.
  split; intros H; destruct H; try (eapply st_send; eauto; fail); try (eapply st_recv; eauto; fail);
    apply st_run; rewrite ?do_meaning; rewrite <- ?do_meaning; auto.
  rewrite do_meaning. auto.
Qed.
Lemma steps_meaning cx place oth c c' : asteps (cx_es cx) (meaning cx place oth) c c' -> asteps (cx_es cx) (sync_i cx (meaning cx place oth)) c c'.
Proof. induction 1; [constructor|]. eapply as_step; eauto. apply step_meaning. auto. Qed.

(* If no action writes what an earlier action still sends, and no action before a receive uses
   what it writes (AsyncSafe): however MPI completes the requests,
   - a run which ends leaves the same memory, has taken the same bytes and has sent the same
     bytes as the blocking execution before (which does not get stuck then),
   - if the blocking execution does not get stuck, every run can go on until it has ended.
   In C33_ends below: each run ends. *)
Theorem C33_result q cx place oth rd wr l s : is_qsort cmp_rounds q -> by_round l ->
  (exists a, In a l /\ is_bufmsg a = true) -> (forall a, In a l -> 0 <= a_round a < 253) -> 0 <= cx_es cx ->
  AsyncSafe cx (meaning cx place oth) rd wr (map a_par (filter not_nop l)) ->
  exists l1 ch r, async l = Ok (true, l1) /\ sort_rounds q l1 = Ok (ch, r) /\
    (forall A, asteps (cx_es cx) (meaning cx place oth) (map a_par r, initial s) ([], A) ->
       exists s', exec_seq (den cx place oth) l s = Some s' /\ ResultIs A s') /\
    (exec_seq (den cx place oth) l s <> None ->
       forall c, asteps (cx_es cx) (meaning cx place oth) (map a_par r, initial s) c ->
         fst c = [] \/ exists c', astep (cx_es cx) (meaning cx place oth) c c').
Proof.
  intros Q Hs Hm Hr He HS. destruct (C33_sequence q l Q Hs Hm Hr) as (l1 & ch & r & E1 & E2 & E3).
  exists l1, ch, r. split; auto. split; auto. rewrite E3. change (map a_par (filter not_nop l)) with (pars l) in *.
  assert (HX : exec_seq (den cx place oth) l s = exec_is (map (sync_i cx (meaning cx place oth)) (pars l)) s).
  { rewrite exec_seq_sorted, exec_skip_nops; auto; [|intros a Ha; apply Hr in Ha; lia]. f_equal. apply map_ext. intros p. rewrite sync_meaning. reflexivity. }
  rewrite HX. split.
  - intros A HA. apply steps_meaning in HA.
    apply (inv_end cx (meaning cx place oth) rd wr (pars l) s HS).
    eapply (inv_steps cx _ rd wr He (pars l) s HS); [apply inv_start|exact HA].
  - intros Hn c Hc. apply steps_meaning in Hc.
    destruct (inv_progress cx (meaning cx place oth) rd wr He (pars l) s HS c Hn) as [H|[c' H]]; auto.
    + eapply (inv_steps cx _ rd wr He (pars l) s HS); [apply inv_start|exact Hc].
    + right. exists c'. apply step_meaning. auto.
Qed.
Print Assumptions C33_result.

(* runs of a given number of steps *)
Inductive run_of (es : Z) (d : apar -> instr) : nat -> list apar * ast -> list apar * ast -> Prop :=
| ro_0 c : run_of es d 0 c c
| ro_S n c c' c'' : run_of es d n c c' -> astep es d c' c'' -> run_of es d (S n) c c''.

Theorem C33_ends es d prog s n c : run_of es d n (prog, initial s) c -> (n <= 2 * length prog)%nat.
Proof.
  intros H. assert (HN : nsteps es d n (prog, initial s) c).
  { remember (prog, initial s) as c0. clear Heqc0. induction H; [constructor|]. econstructor; eauto. }
  destruct (nsteps_bound es d n prog s c HN) as (pend & _ & HL). lia.
Qed.
Print Assumptions C33_ends.

(* ---- a concrete case: messages in two rounds, a copy in between ---- *)
Definition as_cx : actx := mkCtx 4 1 3 0 [] None None.
Definition as_seq : list action :=
  [mkAct 0 (BufSend 1000 2 1); mkAct 0 (BufRecv 2000 1 1); mkAct 0 (BufRecv 2004 3 2); mkAct 1 (BufCopy 2000 3000 1);
   mkAct 1 Nop; mkAct 2 (BufSend 3000 1 2); mkAct 3 (BufRecv 4000 1 1)].
Definition as_T : dtype := mkDT (fun _ _ a b => map (fun x => fst x + snd x) (List.combine a b)) (fun _ _ => []) (fun _ _ _ _ m => m) (fun _ _ _ _ m => m).
Definition as_oth : apar -> instr := oth2 as_cx (fun _ => 0) as_T (fun _ => skip).
Definition as_res : list action := Eval vm_compute in
  match async as_seq with Ok (_, l1) => match sort_rounds (isort cmp_rounds) l1 with Ok (_, r) => r | _ => [] end | _ => [] end.
Example C33_case_acts : as_res =
  [mkAct 0 (MpiReq 5); mkAct 0 (MpiIrecv 2000 1 1 1); mkAct 0 (MpiIrecv 2004 3 2 2); mkAct 0 (MpiIrecv 4000 1 1 4);
   mkAct 1 (MpiIsend 1000 2 1 0); mkAct 1 (MpiWait 1); mkAct 1 (MpiWait 2); mkAct 2 (BufCopy 2000 3000 1);
   mkAct 3 (MpiIsend 3000 1 2 3); mkAct 4 (MpiWait 4); mkAct 5 (MpiWait 0); mkAct 5 (MpiWait 3)].
Proof. reflexivity. Qed.

Definition as_rd (p : apar) : area := match p with BufCopy f _ c => region f (c * 4) | _ => fun _ => False end.
Definition as_wr (p : apar) : area := match p with BufCopy _ t c => region t (c * 4) | _ => fun _ => False end.

Ltac ap1 := intros x X Y; cbn in X, Y; unfold region in X, Y; lia.
Ltac apartness := first [ left; eexists; eexists; reflexivity | right; vm_compute; congruence ].
Example C33_case : by_round as_seq /\ (exists a, In a as_seq /\ is_bufmsg a = true) /\ (forall a, In a as_seq -> 0 <= a_round a < 253) /\
  AsyncSafe as_cx (meaning as_cx (fun _ => 0) as_oth) as_rd as_wr (map a_par (filter not_nop as_seq)).
Proof.
  split; [|split; [|split]].
  - unfold by_round, as_seq. repeat (constructor; simpl; try lia).
  - exists (mkAct 0 (BufSend 1000 2 1)). split; [left|]; reflexivity.
  - intros a Ha. simpl in Ha. repeat (destruct Ha as [<-|Ha]; [simpl; lia|]). destruct Ha.
  - constructor.
    + intros p Hp. simpl in Hp. repeat (destruct Hp as [<-|Hp]; [simpl; tauto|]). destruct Hp.
    + intros p Hp H1 H2. simpl in Hp. repeat (destruct Hp as [<-|Hp]; [try (destruct (H1 _ _ _ eq_refl)); try (destruct (H2 _ _ _ eq_refl))|]); [|destruct Hp].
      change (Frame (local_i (fun m => mwrite m 3000 (rdb m 2000 4))) (region 2000 4) (region 3000 4)).
      split; [simpl; lia|]. split; [auto|]. split; [intros x; apply Proof_Comb3.region_dec|]. split.
      * intros m bs x _ Hx. simpl. apply Proof_Comb3.mwrite_keep. rewrite Proof_Comb3.rdb_length by lia. exact Hx.
      * intros m m' bs _ H. split; [reflexivity|]. intros x Hx. simpl. rewrite (Proof_Comb3.rdb_ext m m' 2000 4 H). apply Proof_Comb3.mwrite_write.
        rewrite Proof_Comb3.rdb_length by lia. exact Hx.
    + intros p Hp. simpl in Hp. repeat (destruct Hp as [<-|Hp]; [simpl; first [exact I|lia]|]). destruct Hp.
    + cbn [as_seq filter not_nop a_par map].
      repeat (apply FOP_cons; [repeat (apply Forall_cons; [split;
        [intros b c t E; first [discriminate E|ap1]
        |intros b c f E; first [discriminate E|split; [ap1|split; [ap1|injection E as <- <- <-; apartness]]]]|]); apply Forall_nil|]).
      apply FOP_nil.
Qed.
Print Assumptions C33_case.

(* ---- limits of the implementation ---- *)

(* The messages of a reduction among processes 0 and 1 of 3, in place (input and output at the
   same address, as with reuse of the memory of a mapping): process 0, as prepared by the
   MPI backend. The buffer is reduced into while the asynchronous send of it may still be
   running, so process 1 may receive the result instead of the input of process 0. *)
Definition race_cx : actx := mkCtx 1 1 3 0 [[0; 1]] None None.
Definition race_seq : aseq := mkSeq [mkAct 0 (GroupReduce 0 0 1000 1000 1 RO_Sum)] 0 [] 0.
Definition race_split : aseq := Eval vm_compute in match split_reduce race_cx race_seq with Ok (_, s) => s | _ => race_seq end.
Definition race_alloc : aseq := Eval vm_compute in match alloc_buffer race_cx 9000 race_split with Ok (_, s) => s | _ => race_seq end.
Definition race_sync : list action := Eval vm_compute in
  match sort_rounds (isort cmp_rounds) (as_acts race_alloc) with
  | Ok (_, r) => match sort_2phases (isort (cmp2phase 0)) r with Ok (_, r') => r' | _ => [] end | _ => [] end.
Definition race_async : list action := Eval vm_compute in
  match async race_sync with Ok (_, r) => match sort_rounds (isort cmp_rounds) r with Ok (_, r') => r' | _ => [] end | _ => [] end.
Definition race_oth : apar -> instr := oth2 race_cx (fun _ => 9000) as_T (fun _ => skip).
(* 5 at address 1000, 7 is sent by process 1 *)
Definition race_st : pst := mkP (fun x => if x =? 1000 then 5 else 0) (fun c => match c with Peer 1 => [7] | _ => [] end) (fun _ => []).

Theorem C33_race_refuted :
  split_reduce race_cx race_seq = Ok (true, race_split) /\ alloc_buffer race_cx 9000 race_split = Ok (true, race_alloc) /\
  (exists ch r ch' r' ch'' r'' ch''', sort_rounds (isort cmp_rounds) (as_acts race_alloc) = Ok (ch, r) /\
     sort_2phases (isort (cmp2phase 0)) r = Ok (ch', r') /\ r' = race_sync /\
     async r' = Ok (ch'', r'') /\ sort_rounds (isort cmp_rounds) r'' = Ok (ch''', race_async)) /\
  exists s' A, exec_seq (den race_cx (fun _ => 9000) race_oth) race_sync race_st = Some s' /\ p_out s' (Peer 1) = [5] /\
    asteps 1 (meaning race_cx (fun _ => 9000) race_oth) (map a_par race_async, initial race_st) ([], A) /\
    x_out A (Peer 1) = map Filled [[]; [12]].
Proof.
  split; [vm_compute; reflexivity|]. split; [vm_compute; reflexivity|]. split.
  { do 7 eexists. split; [vm_compute; reflexivity|]. split; [vm_compute; reflexivity|]. split; [vm_compute; reflexivity|]. split; vm_compute; reflexivity. }
  eexists. eexists. split; [reflexivity|]. split; [vm_compute; reflexivity|]. split.
  - change (map a_par race_async) with [MpiReq 2; MpiIrecv 9000 1 1 1; MpiIsend 1000 1 1 0; MpiWait 1; RBufLocalReduce RO_Sum 0 0 1000 1; MpiWait 0].
    eapply as_step; [apply st_run; reflexivity|].
    eapply as_step; [apply st_run; reflexivity|].
    eapply as_step; [apply st_run; reflexivity|].
    eapply as_step; [eapply st_recv with (q := 1); reflexivity|].
    eapply as_step; [apply st_run; reflexivity|].
    eapply as_step; [apply st_run; reflexivity|].
    eapply as_step; [eapply st_send with (q := 0); reflexivity|].
    eapply as_step; [apply st_run; reflexivity|].
    apply as_refl.
  - vm_compute. reflexivity.
Qed.
Print Assumptions C33_race_refuted.

(* two rounds are added: a send in one of the last two rounds aborts *)
Theorem C33_late_round_refuted : exists l, by_round l /\ (forall a, In a l -> 0 <= a_round a < 255) /\ async l = Abort.
Proof.
  exists [mkAct 253 (BufSend 1000 1 1)]. split; [repeat constructor|]. split; [intros a [<-|[]]; simpl; lia|reflexivity].
Qed.
Print Assumptions C33_late_round_refuted.
