(* From sorted sequences to executions. *)
From Coq Require Import ZArith List Bool Lia Permutation Sorted ZifyBool ZifyNat.
From Verif Require Import Base Model_Transition Model_Action Spec_RangeList Spec_Action Proof_RangeList5 Proof_Action1 Proof_Action2.
Import ListNotations.
Open Scope Z_scope.

Lemma sends_isSend q a : sends_to q a = true -> isSend a = true /\ isRecv a = false /\ peer0 a = q.
Proof. unfold sends_to, isSend, isRecv, peer0, getPeer. destruct (a_par a); try discriminate; intros; repeat split; lia. Qed.
Lemma recvs_isRecv q a : recvs_from q a = true -> isSend a = false /\ isRecv a = true /\ peer0 a = q.
Proof. unfold recvs_from, isSend, isRecv, peer0, getPeer. destruct (a_par a); try discriminate; intros; repeat split; lia. Qed.
Lemma isSend_sends a : isSend a = true -> sends_to (peer0 a) a = true.
Proof. unfold sends_to, isSend, peer0, getPeer. destruct (a_par a); try discriminate; intros; lia. Qed.
Lemma isRecv_recvs a : isRecv a = true -> recvs_from (peer0 a) a = true.
Proof. unfold recvs_from, isRecv, peer0, getPeer. destruct (a_par a); try discriminate; intros; lia. Qed.
Lemma coll_no_msg a : collective a = true -> isSend a = false /\ isRecv a = false.
Proof. unfold collective, isSend, isRecv. destruct (a_par a); try discriminate; auto. Qed.

(* the key of an action of process p *)
Definition kbase (phs : Z -> Z -> Z) (rd : Z) (p : Z) (a : action) : key :=
  if collective a then (rd, 0, -1, -1)
  else if isSend a then (rd, phs p (peer0 a), p, peer0 a)
  else (rd, phs (peer0 a) p, peer0 a, p).

Lemma not_nop_comm a : comm a = true -> not_nop a = true.
Proof. unfold comm, local_only, not_nop. destruct (a_par a); auto. Qed.

Lemma renum_comm f a : comm (renum f a) = comm a. Proof. reflexivity. Qed.
Lemma renum_sends f q a : sends_to q (renum f a) = sends_to q a. Proof. reflexivity. Qed.
Lemma renum_recvs f q a : recvs_from q (renum f a) = recvs_from q a. Proof. reflexivity. Qed.
Lemma renum_coll f a : collective (renum f a) = collective a. Proof. reflexivity. Qed.
Lemma renum_local f a : local_only (renum f a) = local_only a. Proof. reflexivity. Qed.

Lemma filter_renum f (P : action -> bool) l : (forall a, P (renum f a) = P a) -> filter P (map (renum f) l) = map (renum f) (filter P l).
Proof. intros H. induction l; simpl; auto. rewrite H. destruct (P a); simpl; rewrite IHl; auto. Qed.

Lemma filter_nop (P : action -> bool) l : (forall a, P a = true -> not_nop a = true) -> filter P (filter not_nop l) = filter P l.
Proof.
  intros H. rewrite filter_filter. apply filter_ext. intros a. destruct (P a) eqn:E; [rewrite (H a E)|rewrite andb_false_r]; auto.
Qed.

Lemma msg_not_nop a : (exists q, sends_to q a = true) \/ (exists q, recvs_from q a = true) \/ collective a = true -> not_nop a = true.
Proof. unfold sends_to, recvs_from, collective, not_nop. destruct (a_par a); intros [[? ?]|[[? ?]|?]]; congruence. Qed.

(* the result of sorting, as seen by filters for messages *)
Definition SortedOf (l ord r : list action) (f : Z -> Z) : Prop :=
  Permutation l ord /\
  (forall P, (forall a, P (renum f a) = P a) -> (forall a, P a = true -> not_nop a = true) -> filter P r = map (renum f) (filter P ord)) /\
  (forall b, In b r -> exists a, In a l /\ b = renum f a) /\
  Renumbering f l.

Lemma renum_id f a : f (a_round a) = a_round a -> renum f a = a.
Proof. unfold renum. intros ->. destruct a; auto. Qed.

Lemma sorted_of cmp q l ch r : is_qsort cmp q ->
  (forall x y, cmp x y <= 0 -> a_round (snd x) <= a_round (snd y)) ->
  (forall a, In a l -> 0 <= a_round a < 255) ->
  sort_with q l = Ok (ch, r) -> exists f, SortedOf l (map snd (q (number l))) r f.
Proof.
  intros Q Hc Hr E. destruct (sort_result cmp q l Q Hc Hr) as (ch' & r' & f & E' & Rf & H).
  rewrite E in E'. injection E' as <- <-. exists f.
  pose proof (order_perm cmp q l Q) as P. split; [auto|]. destruct H as [(-> & -> & Eo & Fi)|(-> & -> & D)].
  - conjs; auto.
    + intros. rewrite Eo. rewrite <- (map_id (filter P0 l)) at 1. apply map_ext. intros a. symmetry. apply renum_id. auto.
    + intros b Hb. exists b. split; auto. symmetry. apply renum_id. auto.
  - conjs; auto.
    + intros. rewrite filter_renum by auto. f_equal. apply filter_nop. auto.
    + intros b Hb. apply in_map_iff in Hb. destruct Hb as (a & <- & Ha). apply filter_In in Ha. exists a. split; auto.
      eapply Permutation_in; [apply Permutation_sym; eauto|tauto].
Qed.

Section Sched.
  Variable n : Z.
  Variable phs : Z -> Z -> Z.
  Variable cmp : Z -> aptr -> aptr -> Z.
  Variable q : Z -> list aptr -> list aptr.
  Variable seqs prog : Z -> list action.
  Hypothesis Hq : forall p, 0 <= p < n -> is_qsort (cmp p) (q p).
  Hypothesis Hok : forall p, 0 <= p < n -> SeqOk n p (seqs p).
  Hypothesis Hm : Matching n seqs.
  Hypothesis Hr : forall p, 0 <= p < n -> exists ch, sort_with (q p) (seqs p) = Ok (ch, prog p).
  Hypothesis Crd : forall p x y, cmp p x y <= 0 -> a_round (snd x) <= a_round (snd y).
  Hypothesis Ckey : forall p x y, 0 <= p < n -> In (snd x) (seqs p) -> In (snd y) (seqs p) ->
    comm (snd x) = true -> comm (snd y) = true -> cmp p x y <= 0 ->
    kle (kbase phs (a_round (snd x)) p (snd x)) (kbase phs (a_round (snd y)) p (snd y)).
  Hypothesis Cpos : forall p x y, 0 <= p < n -> a_round (snd x) = a_round (snd y) ->
    (exists r, sends_to r (snd x) = true /\ sends_to r (snd y) = true) \/
    (exists r, recvs_from r (snd x) = true /\ recvs_from r (snd y) = true) -> cmp p x y <= 0 -> fst x <= fst y.

  Let ord p := map snd (q p (number (seqs p))).

  Lemma rounds_ok p : 0 <= p < n -> forall a, In a (seqs p) -> 0 <= a_round a < 255.
  Proof. intros Hp a Ha. apply (Hok p Hp a Ha). Qed.

  Lemma sof p : 0 <= p < n -> exists f, SortedOf (seqs p) (ord p) (prog p) f.
  Proof.
    intros Hp. destruct (Hr p Hp) as [ch E]. apply (sorted_of (cmp p) (q p) (seqs p) ch (prog p)); auto.
    - apply Crd.
    - apply rounds_ok; auto.
  Qed.

  Lemma ord_sorted p : 0 <= p < n -> StronglySorted (fun a b => a_round a <= a_round b) (ord p).
  Proof.
    intros Hp. destruct (Hq p Hp (number (seqs p))) as [P S]. unfold ord.
    apply (proj1 (ss_map snd (fun a b => a_round a <= a_round b) _)). eapply ss_weaken; [|apply S]. intros x y _ _. apply Crd.
  Qed.

  Lemma ord_sent p t : 0 <= p < n -> filter (sends_to t) (ord p) = sent_all t (seqs p).
  Proof.
    intros Hp. pose proof (ord_sorted p Hp) as S.
    rewrite (flat_rounds (filter (sends_to t) (ord p))).
    - unfold sent_all. apply flat_map_ext. intros r. rewrite filter_filter. unfold sent, ord.
      apply (stable (cmp p)); auto. intros x y Hx Hy Px Py Hc. unfold in_round in *.
      apply (Cpos p); auto; [lia|]. left. exists t. lia.
    - apply ss_filter; auto.
    - intros a Ha. apply filter_In in Ha. apply (rounds_ok p Hp). destruct Ha as [Ha _].
      eapply Permutation_in; [apply Permutation_sym; apply (order_perm (cmp p)); auto|]. exact Ha.
  Qed.

  Lemma ord_received p t : 0 <= p < n -> filter (recvs_from t) (ord p) = received_all t (seqs p).
  Proof.
    intros Hp. pose proof (ord_sorted p Hp) as S.
    rewrite (flat_rounds (filter (recvs_from t) (ord p))).
    - unfold received_all. apply flat_map_ext. intros r. rewrite filter_filter. unfold received, ord.
      apply (stable (cmp p)); auto. intros x y Hx Hy Px Py Hc. unfold in_round in *.
      apply (Cpos p); auto; [lia|]. right. exists t. lia.
    - apply ss_filter; auto.
    - intros a Ha. apply filter_In in Ha. apply (rounds_ok p Hp). destruct Ha as [Ha _].
      eapply Permutation_in; [apply Permutation_sym; apply (order_perm (cmp p)); auto|]. exact Ha.
  Qed.

  Lemma map_round_rep (l : list action) r : (forall a, In a l -> a_round a = r) -> map a_round l = repeat r (length l).
  Proof. induction l; simpl; intros H; auto. rewrite H, IHl; auto. Qed.

  Lemma map_flat_map {A B C} (g : B -> C) (h : A -> list B) l : map g (flat_map h l) = flat_map (fun x => map g (h x)) l.
  Proof. induction l; simpl; auto. rewrite map_app, IHl. auto. Qed.

  Lemma rounds_rep (P : action -> bool) l : map a_round (flat_map (fun r => filter (fun a => P a && in_round r a) l) all_rounds) =
    flat_map (fun r => repeat r (length (filter (fun a => P a && in_round r a) l))) all_rounds.
  Proof.
    rewrite map_flat_map. apply flat_map_ext. intros r. apply map_round_rep. intros a Ha. apply filter_In in Ha. unfold in_round in Ha. lia.
  Qed.

  Lemma rounds_match p t : 0 <= p < n -> 0 <= t < n -> p <> t ->
    map a_round (filter (sends_to t) (ord p)) = map a_round (filter (recvs_from p) (ord t)).
  Proof.
    intros Hp Ht Hne. rewrite ord_sent, ord_received by auto. unfold sent_all, received_all, sent, received.
    rewrite !rounds_rep. apply flat_map_ext. intros r. f_equal.
    pose proof (proj1 Hm p t r Hp Ht Hne) as M. apply (f_equal (@length _)) in M. rewrite !map_length in M. exact M.
  Qed.

  Lemma coll_rounds p t : 0 <= p < n -> 0 <= t < n ->
    map a_round (filter collective (ord p)) = map a_round (filter collective (ord t)).
  Proof.
    assert (G : forall p, 0 <= p < n -> map a_round (filter collective (ord p)) = flat_map (fun r => repeat r (length (filter (fun a => collective a && in_round r a) (seqs p)))) all_rounds).
    { intros x Hx. rewrite (flat_rounds (filter collective (ord x))).
      - rewrite map_flat_map. apply flat_map_ext. intros r. rewrite filter_filter.
        rewrite (map_round_rep _ r); [|intros a Ha; apply filter_In in Ha; unfold in_round in Ha; lia].
        f_equal. apply Permutation_length. apply perm_filter. apply Permutation_sym. apply (order_perm (cmp x)); auto.
      - apply ss_filter. apply ord_sorted; auto.
      - intros a Ha. apply filter_In in Ha. apply (rounds_ok x Hx). destruct Ha as [Ha _].
        eapply Permutation_in; [apply Permutation_sym; apply (order_perm (cmp x)); auto|]. exact Ha. }
    intros Hp Ht. rewrite !G by auto. apply flat_map_ext. intros r. f_equal. apply (proj2 Hm); auto.
  Qed.

  (* original round of an action of the sorted sequence *)
  Definition orig (f : Z -> Z) (l : list action) (r' : Z) : Z :=
    match find (fun a => f (a_round a) =? r') l with Some a => a_round a | None => 0 end.
  Lemma orig_ok f l a : Renumbering f l -> In a l -> orig f l (f (a_round a)) = a_round a.
  Proof.
    intros [R1 _] Ha. unfold orig. destruct (find (fun b => f (a_round b) =? f (a_round a)) l) as [b|] eqn:E.
    - apply find_some in E. destruct E as [Hb E]. destruct (Z.lt_trichotomy (a_round a) (a_round b)) as [H|[H|H]]; [|lia|].
      + pose proof (R1 a b Ha Hb H). lia.
      + pose proof (R1 b a Hb Ha H). lia.
    - eapply find_none in E; eauto. simpl in E. lia.
  Qed.

  (* choose a renumbering for each process *)
  Lemma choose : exists F : Z -> Z -> Z, forall p, 0 <= p < n -> SortedOf (seqs p) (ord p) (prog p) (F p).
  Proof.
    assert (G : forall m, 0 <= m -> exists F : Z -> Z -> Z, forall p, 0 <= p < m -> p < n -> SortedOf (seqs p) (ord p) (prog p) (F p)).
    { apply natlike_ind.
      - exists (fun _ x => x). intros; lia.
      - intros m Hm0 [F HF]. destruct (Z_lt_le_dec m n).
        + destruct (sof m ltac:(lia)) as [f Hf]. exists (fun p => if p =? m then f else F p). intros p Hp Hn.
          destruct (p =? m) eqn:E; [assert (p = m) by lia; subst; auto|apply HF; lia].
        + exists F. intros p Hp Hn. apply HF; lia. }
    destruct (Z_lt_le_dec n 0); [exists (fun _ x => x); intros; lia|].
    destruct (G n ltac:(lia)) as [F HF]. exists F. intros; apply HF; lia.
  Qed.

  Section Chosen.
    Variable F : Z -> Z -> Z.
    Hypothesis HF : forall p, 0 <= p < n -> SortedOf (seqs p) (ord p) (prog p) (F p).
    Definition kf (p : Z) (a : action) : key := kbase phs (orig (F p) (seqs p) (a_round a)) p a.

    Lemma kf_renum p a : 0 <= p < n -> In a (seqs p) -> kf p (renum (F p) a) = kbase phs (a_round a) p a.
    Proof.
      intros Hp Ha. unfold kf. cbn [renum a_round]. rewrite (orig_ok (F p) (seqs p) a); [reflexivity|apply HF; auto|auto].
    Qed.

    Lemma in_ord p a : 0 <= p < n -> In a (ord p) <-> In a (seqs p).
    Proof. intros Hp. apply perm_in_iff. apply Permutation_sym. apply HF; auto. Qed.

    Lemma kf_map p P : 0 <= p < n -> (forall f a, P (renum f a) = P a) -> (forall a, P a = true -> not_nop a = true) ->
      map (kf p) (filter P (prog p)) = map (fun a => kbase phs (a_round a) p a) (filter P (ord p)).
    Proof.
      intros Hp H1 H2. destruct (HF p Hp) as (Pm & Hf & _ & _). rewrite Hf by auto. rewrite map_map.
      apply map_ext_in. intros a Ha. apply filter_In in Ha. apply kf_renum; auto. apply in_ord; tauto.
    Qed.

    Lemma Hcls p a : 0 <= p < n -> In a (prog p) ->
      local_only a = true \/ collective a = true \/
      exists t, 0 <= t < n /\ t <> p /\ (sends_to t a = true \/ recvs_from t a = true).
    Proof.
      intros Hp Ha. destruct (HF p Hp) as (_ & _ & Hb & _). destruct (Hb a Ha) as (b & Hb' & ->).
      rewrite renum_local, renum_coll. destruct (Hok p Hp b Hb') as [_ H]. exact H.
    Qed.

    Lemma Hks p t a : sends_to t a = true -> ksrc (kf p a) = p /\ kdst (kf p a) = t.
    Proof.
      intros S. destruct (sends_isSend _ _ S) as (S1 & S2 & S3). unfold kf, kbase. rewrite (sends_not_coll _ _ S), S1. simpl. auto.
    Qed.
    Lemma Hkr p t a : recvs_from t a = true -> ksrc (kf p a) = t /\ kdst (kf p a) = p.
    Proof.
      intros S. destruct (recvs_isRecv _ _ S) as (S1 & S2 & S3). unfold kf, kbase. rewrite (recvs_not_coll _ _ S), S1. simpl. auto.
    Qed.
    Lemma Hkc p a : collective a = true -> ksrc (kf p a) = -1.
    Proof. intros S. unfold kf, kbase. rewrite S. auto. Qed.

    Lemma Hsort p : 0 <= p < n -> StronglySorted kle (map (kf p) (filter comm (prog p))).
    Proof.
      intros Hp. rewrite kf_map; auto using not_nop_comm.
      apply (proj1 (ss_map (fun a => kbase phs (a_round a) p a) kle _)).
      destruct (Hq p Hp (number (seqs p))) as [P S].
      assert (E : filter comm (ord p) = map snd (filter (fun x => comm (snd x)) (q p (number (seqs p))))).
      { unfold ord. generalize (q p (number (seqs p))). induction l; simpl; auto. destruct (comm (snd a)); simpl; rewrite IHl; auto. }
      rewrite E. apply (proj1 (ss_map snd (fun a b => kle (kbase phs (a_round a) p a) (kbase phs (a_round b) p b)) _)).
      eapply ss_weaken; [|apply ss_filter; apply S]. intros x y Hx Hy Hc. apply filter_In in Hx, Hy.
      apply Ckey; auto; try tauto.
      - apply number_in. eapply Permutation_in; [apply Permutation_sym; apply P|tauto].
      - apply number_in. eapply Permutation_in; [apply Permutation_sym; apply P|tauto].
    Qed.

    Lemma Hmsg p t : 0 <= p < n -> 0 <= t < n -> p <> t ->
      map (kf p) (filter (sends_to t) (prog p)) = map (kf t) (filter (recvs_from p) (prog t)).
    Proof.
      intros Hp Ht Hne. rewrite !kf_map; auto; try (intros a Ha; apply msg_not_nop; eauto).
      transitivity (map (fun r => (r, phs p t, p, t)) (map a_round (filter (sends_to t) (ord p)))).
      - rewrite map_map. apply map_ext_in. intros a Ha. apply filter_In in Ha. destruct Ha as [_ S].
        destruct (sends_isSend _ _ S) as (S1 & S2 & S3). unfold kbase. rewrite (sends_not_coll _ _ S), S1, S3. auto.
      - rewrite rounds_match by auto. rewrite map_map. apply map_ext_in. intros a Ha. apply filter_In in Ha. destruct Ha as [_ S].
        destruct (recvs_isRecv _ _ S) as (S1 & S2 & S3). unfold kbase. rewrite (recvs_not_coll _ _ S), S1, S3. auto.
    Qed.

    Lemma Hcol p t : 0 <= p < n -> 0 <= t < n ->
      map (kf p) (filter collective (prog p)) = map (kf t) (filter collective (prog t)).
    Proof.
      intros Hp Ht. rewrite !kf_map; auto; try (intros a Ha; apply msg_not_nop; eauto).
      assert (G : forall x, map (fun a => kbase phs (a_round a) x a) (filter collective (ord x)) = map (fun r => (r, 0, -1, -1)) (map a_round (filter collective (ord x)))).
      { intros x. rewrite map_map. apply map_ext_in. intros a Ha. apply filter_In in Ha. unfold kbase. rewrite (proj2 Ha). auto. }
      rewrite !G, (coll_rounds p t) by auto. auto.
    Qed.
  End Chosen.

  Theorem sched_progress k c : run n (start prog) k c -> finished n c \/ exists c', sync_step n c c'.
  Proof.
    intros R. destruct choose as [F HF].
    eapply (no_deadlock n prog (kf F)); eauto using Hcls, Hsort, Hmsg, Hcol.
    - intros p t a _ _ _. apply Hks.
    - intros p t a _ _ _. apply Hkr.
    - intros p a _ _. apply Hkc.
  Qed.

  Theorem sched_delivered k c : run n (start prog) k c -> finished n c ->
    forall p t, 0 <= p < n -> 0 <= t < n -> p <> t ->
      map (fun x => a_par (fst x)) (dlv c p t) = map a_par (sent_all t (seqs p)) /\
      map (fun x => a_par (snd x)) (dlv c p t) = map a_par (received_all p (seqs t)).
  Proof.
    intros R Fi p t Hp Ht Hne. destruct choose as [F HF].
    destruct (delivered n prog k c R Fi p t Hp Ht Hne) as [E1 E2].
    destruct (HF p Hp) as (_ & Hf & _ & _). destruct (HF t Ht) as (_ & Hf' & _ & _).
    rewrite <- (map_map fst a_par), <- (map_map snd a_par), E1, E2.
    rewrite Hf by (auto; intros a Ha; apply msg_not_nop; eauto).
    rewrite Hf' by (auto; intros a Ha; apply msg_not_nop; eauto).
    rewrite !map_map. cbn [renum a_par]. rewrite <- ord_sent, <- ord_received by auto. auto.
  Qed.
End Sched.
