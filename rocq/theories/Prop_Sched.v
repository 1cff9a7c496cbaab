(* Properties C27, C28, C29: sorted action sequences do not deadlock, and sorting keeps the
   actions and their order as far as it matters. *)
From Coq Require Import ZArith List Bool Lia Permutation Sorted ZifyBool ZifyNat.
From Verif Require Import Base Model_Transition Model_Action Spec_RangeList Spec_Action Proof_RangeList Proof_RangeList5 Proof_Action1 Proof_Action2 Proof_Action3 Proof_Action4 Proof_Action5.
Import ListNotations.
Open Scope Z_scope.

(* ---- C27: two phases ---- *)

(* n processes with matching sequences; every process sorts its own sequence, with any
   correct sort algorithm. In every state any execution can reach, all processes are done
   or a further step is possible which does not rely on messages being buffered. And
   executions cannot go on for ever. *)
Theorem C27_no_deadlock n seqs q prog :
  0 < n ->
  (forall p, 0 <= p < n -> is_qsort (cmp2phase p) (q p)) ->
  (forall p, 0 <= p < n -> SeqOk n p (seqs p)) ->
  Matching n seqs ->
  (forall p, 0 <= p < n -> exists ch, sort_2phases (q p) (seqs p) = Ok (ch, prog p)) ->
  forall k c, run n (start prog) k c ->
    (finished n c \/ exists c', sync_step n c c') /\
    (k + work n c <= work n (start prog))%nat.
Proof.
  intros Hn Hq Ho Hm Hs k c R. split; [|apply run_work; auto].
  eapply (sched_progress n phs2 cmp2phase q seqs prog); eauto.
  - intros p x y. apply c2_round.
  - intros p x y Hp Hx Hy. apply (c2_key n p (seqs p)); auto using number_in.
  - intros p x y Hp E H. apply (c2_pos p x y E). tauto.
Qed.
Print Assumptions C27_no_deadlock.

(* when all is done, the k-th message sent from p to t (rounds ascending, and in a round in
   the order of the original sequence) was taken by the k-th receive of t from p, and both
   have the same number of elements *)
Theorem C27_delivery n seqs q prog :
  0 < n ->
  (forall p, 0 <= p < n -> is_qsort (cmp2phase p) (q p)) ->
  (forall p, 0 <= p < n -> SeqOk n p (seqs p)) ->
  Matching n seqs ->
  (forall p, 0 <= p < n -> exists ch, sort_2phases (q p) (seqs p) = Ok (ch, prog p)) ->
  forall k c, run n (start prog) k c -> finished n c ->
  forall p t, 0 <= p < n -> 0 <= t < n -> p <> t ->
    map (fun x => a_par (fst x)) (dlv c p t) = map a_par (sent_all t (seqs p)) /\
    map (fun x => a_par (snd x)) (dlv c p t) = map a_par (received_all p (seqs t)) /\
    (forall a b, In (a, b) (dlv c p t) -> msg_count a = msg_count b).
Proof.
  intros Hn Hq Ho Hm Hs k c R F p t Hp Ht Hne.
  apply (counts_match n seqs); auto.
  eapply (sched_delivered n phs2 cmp2phase q seqs prog); eauto.
  - intros p0 x y. apply c2_round.
  - intros p0 x y Hp0 Hx Hy. apply (c2_key n p0 (seqs p0)); auto using number_in.
  - intros p0 x y Hp0 E H. apply (c2_pos p0 x y E). tauto.
Qed.
Print Assumptions C27_delivery.

(* ---- C28: rank digits ---- *)

Theorem C28_no_deadlock n seqs q prog :
  0 < n <= 2 ^ 31 ->
  (forall p, 0 <= p < n -> is_qsort (cmp_rankdigits p) (q p)) ->
  (forall p, 0 <= p < n -> SeqOk n p (seqs p)) ->
  Matching n seqs ->
  (forall p, 0 <= p < n -> exists ch, sort_rankdigits (q p) (seqs p) = Ok (ch, prog p)) ->
  forall k c, run n (start prog) k c ->
    (finished n c \/ exists c', sync_step n c c') /\
    (k + work n c <= work n (start prog))%nat.
Proof.
  intros Hn Hq Ho Hm Hs k c R. split; [|apply run_work; auto; lia].
  eapply (sched_progress n phsd cmp_rankdigits q seqs prog); eauto.
  - intros p Hp. destruct (Hs p Hp) as [ch E]. exists ch. eapply digits_sort; eauto.
  - intros p x y. apply cd_round.
  - intros p x y Hp Hx Hy. apply (cd_key n p (seqs p)); auto using number_in; lia.
  - intros p x y Hp E H. apply (cd_pos p x y E). tauto.
Qed.
Print Assumptions C28_no_deadlock.

Theorem C28_delivery n seqs q prog :
  0 < n <= 2 ^ 31 ->
  (forall p, 0 <= p < n -> is_qsort (cmp_rankdigits p) (q p)) ->
  (forall p, 0 <= p < n -> SeqOk n p (seqs p)) ->
  Matching n seqs ->
  (forall p, 0 <= p < n -> exists ch, sort_rankdigits (q p) (seqs p) = Ok (ch, prog p)) ->
  forall k c, run n (start prog) k c -> finished n c ->
  forall p t, 0 <= p < n -> 0 <= t < n -> p <> t ->
    map (fun x => a_par (fst x)) (dlv c p t) = map a_par (sent_all t (seqs p)) /\
    map (fun x => a_par (snd x)) (dlv c p t) = map a_par (received_all p (seqs t)) /\
    (forall a b, In (a, b) (dlv c p t) -> msg_count a = msg_count b).
Proof.
  intros Hn Hq Ho Hm Hs k c R F p t Hp Ht Hne.
  apply (counts_match n seqs); auto.
  eapply (sched_delivered n phsd cmp_rankdigits q seqs prog); eauto.
  - intros p0 Hp0. destruct (Hs p0 Hp0) as [ch E]. exists ch. eapply digits_sort; eauto.
  - intros p0 x y. apply cd_round.
  - intros p0 x y Hp0 Hx Hy. apply (cd_key n p0 (seqs p0)); auto using number_in; lia.
  - intros p0 x y Hp0 E H. apply (cd_pos p0 x y E). tauto.
Qed.
Print Assumptions C28_delivery.

(* the sort function returns when the sequence has only messages *)
Theorem C28_total p q l : is_qsort (cmp_rankdigits p) q ->
  (forall a, In a l -> 0 <= a_round a < 255 /\ exists t, sends_to t a = true \/ recvs_from t a = true) ->
  exists ch r, sort_rankdigits q l = Ok (ch, r).
Proof.
  intros Q H. unfold sort_rankdigits. rewrite digit_no_abort.
  - destruct (sort_result (cmp_rankdigits p) q l Q) as (ch & r & f & E & _); eauto.
    + apply cd_round.
    + intros a Ha. apply H; auto.
  - intros a Ha. destruct (H a Ha) as (_ & t & [S|S]); [apply sends_isSend in S|apply recvs_isRecv in S]; destruct S as (-> & -> & _); auto.
Qed.
Print Assumptions C28_total.

(* but it aborts as soon as a round has another action, for example a copy, beside a message *)
Theorem C28_other_action_refuted :
  exists n seqs, Matching n seqs /\ (forall p, 0 <= p < n -> SeqOk n p (seqs p)) /\
    forall q, sort_rankdigits q (seqs 0) = Abort.
Proof.
  exists 2, (fun p => if p =? 0 then [mkAct 0 (BufCopy 10 20 1); mkAct 0 (BufSend 20 1 1)] else if p =? 1 then [mkAct 0 (BufRecv 30 1 0)] else []).
  split; [|split].
  - apply match_check; [|vm_compute; reflexivity]. intros p Hp. apply seqok_check. assert (p = 0 \/ p = 1) as [-> | ->] by lia; vm_compute; reflexivity.
  - intros p Hp. apply seqok_check. assert (p = 0 \/ p = 1) as [-> | ->] by lia; vm_compute; reflexivity.
  - intros q. reflexivity.
Qed.
Print Assumptions C28_other_action_refuted.

(* ---- C29: what sorting keeps ---- *)

Theorem C29_rounds q l : is_qsort cmp_rounds q ->
  (forall a, In a l -> 0 <= a_round a < 255) ->
  exists ch r f, sort_rounds q l = Ok (ch, r) /\ SortKeeps l ch r f /\ KeepsOrder not_nop l r f.
Proof.
  intros Q H. destruct (sort_keeps cmp_rounds q l Q) as (ch & r & f & E & R & S & P & C0 & C1 & K); auto using cr_round.
  exists ch, r, f. split; [exact E|]. split.
  - split; [auto|]. split; [auto|]. split; [auto|]. split; [auto|]. split; [auto|]. intros a t Ha. split.
    + apply (K a (sends_to t)); auto; [intros b Hb; apply msg_not_nop; eauto|]. intros. eapply cr_pos; eauto.
    + apply (K a (recvs_from t)); auto; [intros b Hb; apply msg_not_nop; eauto|]. intros. eapply cr_pos; eauto.
  - intros a Ha. apply (K a not_nop); auto. intros. eapply cr_pos; eauto.
Qed.
Print Assumptions C29_rounds.

Theorem C29_2phases p q l : is_qsort (cmp2phase p) q ->
  (forall a, In a l -> 0 <= a_round a < 255) ->
  exists ch r f, sort_2phases q l = Ok (ch, r) /\ SortKeeps l ch r f /\ KeepsOrder other l r f.
Proof.
  intros Q H. destruct (sort_keeps (cmp2phase p) q l Q) as (ch & r & f & E & R & S & P & C0 & C1 & K); auto.
  { apply c2_round. }
  exists ch, r, f. split; [exact E|]. split.
  - split; [auto|]. split; [auto|]. split; [auto|]. split; [auto|]. split; [auto|]. intros a t Ha. split.
    + apply (K a (sends_to t)); auto; [intros b Hb; apply msg_not_nop; eauto|]. intros x y _ _ Er Sx Sy. apply c2_pos; eauto.
    + apply (K a (recvs_from t)); auto; [intros b Hb; apply msg_not_nop; eauto|]. intros x y _ _ Er Sx Sy. apply c2_pos; eauto.
  - intros a Ha. apply (K a other); auto; [unfold other; intros b; destruct (not_nop b); auto|]. intros x y _ _ Er Sx Sy. apply c2_pos; auto.
    right. right. unfold other in *. unfold phase2. destruct (isSend (snd x)), (isRecv (snd x)), (isSend (snd y)), (isRecv (snd y)); rewrite ?andb_false_r in *; simpl in *; try discriminate; auto.
Qed.
Print Assumptions C29_2phases.

Theorem C29_rankdigits p q l ch r : is_qsort (cmp_rankdigits p) q ->
  (forall a, In a l -> 0 <= a_round a < 255) ->
  sort_rankdigits q l = Ok (ch, r) ->
  exists f, SortKeeps l ch r f /\ KeepsOrder other l r f.
Proof.
  intros Q H E0. apply digits_sort in E0.
  destruct (sort_keeps (cmp_rankdigits p) q l Q) as (ch' & r' & f & E & R & S & P & C0 & C1 & K); auto.
  { apply cd_round. }
  rewrite E in E0. injection E0 as -> ->.
  exists f. split.
  - split; [auto|]. split; [auto|]. split; [auto|]. split; [auto|]. split; [auto|]. intros a t Ha. split.
    + apply (K a (sends_to t)); auto; [intros b Hb; apply msg_not_nop; eauto|]. intros x y _ _ Er Sx Sy. apply cd_pos; eauto.
    + apply (K a (recvs_from t)); auto; [intros b Hb; apply msg_not_nop; eauto|]. intros x y _ _ Er Sx Sy. apply cd_pos; eauto.
  - intros a Ha. apply (K a other); auto; [unfold other; intros b; destruct (not_nop b); auto|]. intros x y _ _ Er Sx Sy. apply cd_pos; auto.
    right. right. unfold other in *. destruct (isSend (snd x)), (isRecv (snd x)), (isSend (snd y)), (isRecv (snd y)); rewrite ?andb_false_r in *; simpl in *; try discriminate; auto.
Qed.
Print Assumptions C29_rankdigits.

(* ---- non-trivial cases ---- *)

(* three processes, two rounds: a ring exchange and a copy, a collective reduction between *)
Definition ex_seqs (p : Z) : list action :=
  if p =? 0 then [mkAct 7 (BufSend 10 1 1); mkAct 7 (BufSend 11 2 2); mkAct 3 (BufCopy 1 2 3); mkAct 7 (BufRecv 12 4 2); mkAct 7 (BufRecv 13 5 1); mkAct 3 (Reduce 1 1 1 0 RO_Sum); mkAct 7 (BufSend 14 6 1)]
  else if p =? 1 then [mkAct 7 (BufRecv 20 1 0); mkAct 7 (BufSend 21 5 0); mkAct 3 (Reduce 1 1 1 0 RO_Sum); mkAct 7 (BufRecv 22 6 0); mkAct 7 Nop; mkAct 7 (BufSend 23 7 2)]
  else if p =? 2 then [mkAct 3 (Reduce 1 1 1 0 RO_Sum); mkAct 7 (BufSend 30 4 0); mkAct 7 (BufRecv 31 7 1); mkAct 7 (BufRecv 32 2 0)]
  else [].

Example C27_case :
  Matching 3 ex_seqs /\ (forall p, 0 <= p < 3 -> SeqOk 3 p (ex_seqs p)) /\
  (forall p, is_qsort (cmp2phase p) (isort (cmp2phase p))) /\
  (forall p, 0 <= p < 3 -> exists ch r, sort_2phases (isort (cmp2phase p)) (ex_seqs p) = Ok (ch, r)) /\
  sort_2phases (isort (cmp2phase 1)) (ex_seqs 1) =
    Ok (true, [mkAct 0 (Reduce 1 1 1 0 RO_Sum); mkAct 1 (BufRecv 20 1 0); mkAct 1 (BufRecv 22 6 0); mkAct 1 (BufSend 23 7 2); mkAct 1 (BufSend 21 5 0)]).
Proof.
  split; [|split; [|split; [|split]]].
  - apply match_check; [|vm_compute; reflexivity]. intros p Hp. apply seqok_check. assert (p = 0 \/ p = 1 \/ p = 2) as [-> | [-> | ->]] by lia; vm_compute; reflexivity.
  - intros p Hp. apply seqok_check. assert (p = 0 \/ p = 1 \/ p = 2) as [-> | [-> | ->]] by lia; vm_compute; reflexivity.
  - apply isort_2phase.
  - intros p Hp. assert (p = 0 \/ p = 1 \/ p = 2) as [-> | [-> | ->]] by lia; vm_compute; eauto.
  - vm_compute. reflexivity.
Qed.
Print Assumptions C27_case.

(* without sorting, two processes which both send first are stuck *)
Definition ex_cross (p : Z) : list action :=
  if p =? 0 then [mkAct 0 (BufSend 10 1 1); mkAct 0 (BufRecv 11 1 1)]
  else if p =? 1 then [mkAct 0 (BufSend 20 1 0); mkAct 0 (BufRecv 21 1 0)] else [].
Example C27_unsorted_stuck :
  Matching 2 ex_cross /\ ~ finished 2 (start ex_cross) /\ ~ exists c', sync_step 2 (start ex_cross) c'.
Proof.
  split; [|split].
  - apply match_check; [|vm_compute; reflexivity]. intros p Hp. apply seqok_check. assert (p = 0 \/ p = 1) as [-> | ->] by lia; vm_compute; reflexivity.
  - intros [H _]. specialize (H 0 ltac:(lia)). discriminate.
  - intros [c' H].
    assert (T : forall p a l, 0 <= p < 2 -> todo (start ex_cross) p = a :: l -> exists b d, a = mkAct 0 (BufSend b 1 d)).
    { intros p a l Hp. assert (p = 0 \/ p = 1) as [-> | ->] by lia; vm_compute; intros E; injection E as <- _; eauto. }
    inversion H; subst.
    + destruct (T _ _ _ H0 H1) as (b & d & ->). discriminate.
    + destruct (T _ _ _ H1 H5) as (b' & d & ->). discriminate.
    + destruct (T _ _ _ H1 H3) as (b' & d & ->). discriminate.
    + destruct (H0 0 ltac:(lia)) as (a & E & Ca). destruct (T 0 _ _ ltac:(lia) E) as (b & d & ->). discriminate.
Qed.
Print Assumptions C27_unsorted_stuck.

Definition ex_msgs (p : Z) : list action := filter (fun a => isSend a || isRecv a) (ex_seqs p).
Example C28_case :
  Matching 3 ex_msgs /\ (forall p, 0 <= p < 3 -> SeqOk 3 p (ex_msgs p)) /\
  (forall p, is_qsort (cmp_rankdigits p) (isort (cmp_rankdigits p))) /\
  (forall p, 0 <= p < 3 -> exists ch r, sort_rankdigits (isort (cmp_rankdigits p)) (ex_msgs p) = Ok (ch, r)) /\
  sort_rankdigits (isort (cmp_rankdigits 1)) (ex_msgs 1) =
    Ok (true, [mkAct 0 (BufRecv 20 1 0); mkAct 0 (BufRecv 22 6 0); mkAct 0 (BufSend 21 5 0); mkAct 0 (BufSend 23 7 2)]).
Proof.
  split; [|split; [|split; [|split]]].
  - apply match_check; [|vm_compute; reflexivity]. intros p Hp. apply seqok_check. assert (p = 0 \/ p = 1 \/ p = 2) as [-> | [-> | ->]] by lia; vm_compute; reflexivity.
  - intros p Hp. apply seqok_check. assert (p = 0 \/ p = 1 \/ p = 2) as [-> | [-> | ->]] by lia; vm_compute; reflexivity.
  - apply isort_digits.
  - intros p Hp. assert (p = 0 \/ p = 1 \/ p = 2) as [-> | [-> | ->]] by lia; vm_compute; eauto.
  - vm_compute. reflexivity.
Qed.
Print Assumptions C28_case.

Example C29_case :
  is_qsort cmp_rounds (isort cmp_rounds) /\ (forall a, In a (ex_seqs 0) -> 0 <= a_round a < 255) /\
  sort_rounds (isort cmp_rounds) (ex_seqs 0) =
    Ok (true, [mkAct 0 (BufCopy 1 2 3); mkAct 0 (Reduce 1 1 1 0 RO_Sum); mkAct 1 (BufSend 10 1 1); mkAct 1 (BufSend 11 2 2);
               mkAct 1 (BufRecv 12 4 2); mkAct 1 (BufRecv 13 5 1); mkAct 1 (BufSend 14 6 1)]).
Proof.
  split; [apply isort_rounds|]. split.
  - intros a Ha. vm_compute in Ha. intuition (subst; cbn; lia).
  - vm_compute. reflexivity.
Qed.
Print Assumptions C29_case.
